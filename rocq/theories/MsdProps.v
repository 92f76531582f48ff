(** C55: the mean squared displacement over every history of calls. *)
From Verif Require Import MsdModel MsdProofs BoxProofs Vec MsdSpec.
From Coq Require Import Reals ZArith List Lra Lia.
Import ListNotations.
Local Open Scope R_scope.

Lemma total_nsum n f : total f (seq 0 n) = nsum n f.
Proof.
  assert (G : forall n s, total f (seq s n) = nsum n (fun i => f (s + i)%nat)).
  { clear n. induction n as [|n IH]; intros s; [reflexivity|]. rewrite nsum_first. simpl. rewrite IH, Nat.add_0_r. f_equal. apply nsum_ext. intros. f_equal. lia. }
  rewrite G. apply nsum_ext. auto.
Qed.
Lemma total_app {A} (f : A -> R) l l' : total f (l ++ l') = total f l + total f l'.
Proof. unfold total. induction l; simpl; [lra|]. rewrite IHl. lra. Qed.
Lemma total_ext {A} (f g : A -> R) l : (forall x, In x l -> f x = g x) -> total f l = total g l.
Proof. unfold total. induction l; simpl; intros H; auto. rewrite H, IHl by auto. reflexivity. Qed.
Lemma total_map {A B} (g : A -> B) (f : B -> R) l : total f (map g l) = total (fun x => f (g x)) l.
Proof. unfold total. induction l; simpl; auto. rewrite IHl. reflexivity. Qed.

(** * One trajectory *)
(** The recurrence plus the Fourier route give the mean over all windows. *)
Theorem C55_window N r m : (m < N)%nat -> window_column N r m = msd_of Window N r m.
Proof. intros H. rewrite window_column_spec by exact H. unfold msd_of, mean. rewrite total_nsum, seq_length. reflexivity. Qed.
(** The autocorrelation helper: mean of the products m frames apart. *)
Theorem C55_autocorrelation N x m : (m < N)%nat -> autocorrelation N x m = mean (fun k => x k * x (k + m)%nat) (seq 0 (N - m)).
Proof. intros H. rewrite autocorrelation_spec by exact H. unfold mean. rewrite total_nsum, seq_length. reflexivity. Qed.
Lemma column_spec mode N r m : (m < N)%nat -> match mode with Window => window_column N r m | Direct => direct_column r m end = msd_of mode N r m.
Proof. destruct mode; intros H; [apply C55_window; exact H|reflexivity]. Qed.

(** * Histories *)
Definition block_of (b : option box) (mode : mmode) (f : minput) : mblock :=
  match mode with
  | Window => MB (mi_n f) (mi_p f) (fun m i => window_column (mi_n f) (fun t => msd_positions b f t i) m)
  | Direct => MB (mi_n f) (mi_p f) (fun m i => direct_column (fun t => msd_positions b f t i) m)
  end.
Lemma compute_spec s re f : msd_compute s re f =
  (MSD (ms_box s) (ms_mode s) ((if re then [] else ms_blocks s) ++ (if accepted f then [block_of (ms_box s) (ms_mode s) f] else [])) true, negb (accepted f)).
Proof.
  destruct s as [bx mo bl ca]. unfold msd_compute, accepted, block_of. destruct f as [ok n p pos im]; simpl. destruct ok; simpl.
  2:{ destruct re; rewrite app_nil_r; reflexivity. }
  destruct im as [[[|] im]|]; simpl; try (destruct n; simpl; destruct re, mo; simpl; rewrite ?app_nil_r; reflexivity).
Qed.
Lemma accumulated_snoc h re f acc : accumulated (h ++ [(re, f)]) acc = (if re then [] else accumulated h acc) ++ (if accepted f then [f] else []).
Proof.
  revert acc. induction h as [|[re0 f0] h IH]; intros acc; simpl; [|apply IH]. destruct (accepted f), re; rewrite ?app_nil_r; reflexivity.
Qed.
Lemma run_app s h h' : msd_run s (h ++ h') = msd_run (msd_run s h) h'.
Proof. revert s. induction h as [|[re f] h IH]; intros s; simpl; auto. Qed.
Lemma run_spec b mode h : msd_run (msd_new b mode) h =
  MSD b mode (map (block_of b mode) (accumulated h [])) (match h with [] => false | _ => true end).
Proof.
  induction h as [|[re f] h IH] using rev_ind; [reflexivity|]. rewrite run_app, IH. simpl. rewrite compute_spec; simpl. rewrite accumulated_snoc.
  destruct (h ++ [(re, f)]) eqn:E; [apply app_eq_nil in E as [_ E]; discriminate|]. f_equal. rewrite map_app. destruct re, (accepted f); reflexivity.
Qed.
Lemma place_ok b f t i : box_ok b f -> msd_positions b f t i = place b f t i.
Proof.
  unfold box_ok, msd_positions, place. destruct b as [b|]; [|reflexivity]. destruct (mi_images f) as [[ok im]|]; [|reflexivity].
  intros [NS Z0]. destruct (im t i) as [[x y] z] eqn:E. apply unwrap_shift; [exact NS|]. intros D. specialize (Z0 D t i). rewrite E in Z0. exact Z0.
Qed.
Lemma block_at b mode f m i : box_ok b f -> (m < mi_n f)%nat -> mb_at (block_of b mode f) m i = msd_of mode (mi_n f) (fun t => place b f t i) m.
Proof.
  intros B H. rewrite <- column_spec by exact H.
  assert (E : forall t, msd_positions b f t i = place b f t i) by (intros; apply place_ok; exact B).
  destruct mode; simpl.
  - rewrite !window_column_spec by exact H. f_equal. apply nsum_ext. intros k _. cbv zeta. rewrite !E. reflexivity.
  - unfold direct_column. cbv zeta. rewrite !E. reflexivity.
Qed.
Lemma block_dims b mode f : mb_n (block_of b mode f) = mi_n f /\ mb_p (block_of b mode f) = mi_p f.
Proof. destruct mode; split; reflexivity. Qed.
Lemma particles_length b fs : length (particles b fs) = list_sum (map mi_p fs).
Proof. unfold particles. induction fs; simpl; auto. rewrite app_length, map_length, seq_length, IHfs. reflexivity. Qed.
Definition still : nat -> vec3 := fun _ => V3 0 0 0.
Lemma concat_spec b mode N fs m : Forall (fun f => box_ok b f /\ mi_n f = N) fs -> (m < N)%nat -> forall j, (j < length (particles b fs))%nat ->
  concat_at (map (block_of b mode) fs) m j = msd_of mode N (nth j (particles b fs) still) m.
Proof.
  intros F H. induction F as [|f fs [B E] F IH]; simpl; intros j Hj; [lia|]. rewrite app_length, map_length, seq_length in Hj.
  destruct (block_dims b mode f) as [_ Ep]. rewrite Ep. destruct (Nat.ltb_spec j (mi_p f)) as [L|L].
  - rewrite app_nth1 by (rewrite map_length, seq_length; exact L). rewrite block_at by (auto; lia).
    rewrite (nth_indep _ still (fun t => place b f t 0%nat)) by (rewrite map_length, seq_length; exact L).
    rewrite (map_nth (fun i t => place b f t i)), seq_nth by exact L. rewrite E. reflexivity.
  - rewrite app_nth2 by (rewrite map_length, seq_length; exact L). rewrite map_length, seq_length. apply IH. lia.
Qed.
Lemma total_nth {A} (f : A -> R) l d : total f l = nsum (length l) (fun j => f (nth j l d)).
Proof.
  induction l as [|x l IH]; [reflexivity|]. change (length (x :: l)) with (S (length l)). rewrite nsum_first. simpl. rewrite IH. reflexivity.
Qed.

(** After any history of calls, accepted and rejected, with and without reset: if the accepted calls since the last reset all have N frames,
    particle_msd has one column for each particle of these calls, holding that particle's MSD, and msd is the mean of the columns. *)
Theorem C55_values b mode h N : accumulated h [] <> [] -> Forall (fun f => box_ok b f /\ mi_n f = N) (accumulated h []) ->
  let ps := particles b (accumulated h []) in
  exists a, particle_msd (msd_run (msd_new b mode) h) = Values N (length ps) a /\
    (forall m j, (m < N)%nat -> (j < length ps)%nat -> a m j = msd_of mode N (nth j ps still) m) /\
    (forall m, (m < N)%nat -> msd_value (msd_run (msd_new b mode) h) m = if (length ps =? 0)%nat then None else Some (mean (fun r => msd_of mode N r m) ps)).
Proof.
  cbv zeta. intros NE F. rewrite run_spec. set (fs := accumulated h []) in *.
  assert (Ps : list_sum (map mb_p (map (block_of b mode) fs)) = length (particles b fs)).
  { rewrite particles_length, map_map. f_equal. apply map_ext. intros f. apply block_dims. }
  assert (HC : match h with [] => false | _ => true end = true) by (destruct h; [exfalso; apply NE; reflexivity|reflexivity]). rewrite HC.
  assert (E : particle_msd (MSD b mode (map (block_of b mode) fs) true) = Values N (length (particles b fs)) (concat_at (map (block_of b mode) fs))).
  { unfold particle_msd; cbn [ms_called ms_blocks negb]. destruct fs as [|f fs]; [congruence|].
    change (map (block_of b mode) (f :: fs)) with (block_of b mode f :: map (block_of b mode) fs) at 1.
    assert (Nf : mb_n (block_of b mode f) = N) by (rewrite (proj1 (block_dims b mode f)); inversion F; tauto).
    cbn [map] in *. rewrite Nf.
    assert (A : forallb (fun c => (mb_n c =? N)%nat) (map (block_of b mode) fs) = true).
    { apply forallb_forall. intros c Hc. apply in_map_iff in Hc as (g & <- & Hg). rewrite (proj1 (block_dims b mode g)). apply Nat.eqb_eq.
      inversion F as [|? ? _ F']; subst. rewrite Forall_forall in F'. apply F'; exact Hg. }
    rewrite A. f_equal. exact Ps. }
  exists (concat_at (map (block_of b mode) fs)). split; [exact E|]. split.
  - intros m j Hm Hj. apply concat_spec; auto.
  - intros m Hm. unfold msd_value. rewrite E. destruct (length (particles b fs) =? 0)%nat; [reflexivity|]. f_equal. unfold mean. f_equal.
    rewrite (total_nth _ _ still). apply nsum_ext. intros j Hj. apply concat_spec; auto.
Qed.
(** Only the particles matter, not how they are split over calls. *)
Theorem C55_split b mode h h' N : accumulated h [] <> [] -> accumulated h' [] <> [] ->
  Forall (fun f => box_ok b f /\ mi_n f = N) (accumulated h []) -> Forall (fun f => box_ok b f /\ mi_n f = N) (accumulated h' []) ->
  particles b (accumulated h []) = particles b (accumulated h' []) ->
  forall m, (m < N)%nat -> msd_value (msd_run (msd_new b mode) h) m = msd_value (msd_run (msd_new b mode) h') m.
Proof.
  intros A B FA FB E m Hm. destruct (C55_values b mode h N A FA) as (_ & _ & _ & V). destruct (C55_values b mode h' N B FB) as (_ & _ & _ & V').
  rewrite V, V', E by exact Hm. reflexivity.
Qed.
(** Reading: an error of its own before the first call; another one when no accepted call is left or their lengths differ. *)
Theorem C55_read b mode h :
  (particle_msd (msd_run (msd_new b mode) h) = NotComputed <-> h = []) /\
  (particle_msd (msd_run (msd_new b mode) h) = ConcatError <->
     h <> [] /\ (accumulated h [] = [] \/ exists f g, In f (accumulated h []) /\ In g (accumulated h []) /\ mi_n f <> mi_n g)).
Proof.
  rewrite run_spec. destruct h as [|o h].
  - split; split; try reflexivity; try discriminate. intros [X _]. congruence.
  - set (hh := o :: h). unfold particle_msd; cbn [ms_called ms_blocks negb]. generalize (accumulated hh []). intros fs. split; [split; [|discriminate]|].
    { destruct (map (block_of b mode) fs); [discriminate|]. destruct (forallb _ _); discriminate. }
    destruct fs as [|f fs]; cbn [map]; [split; [intros _; split; [discriminate|left; reflexivity]|reflexivity]|].
    destruct (forallb _ _) eqn:E.
    + split; [discriminate|]. intros [_ [X|(x & y & X & Y & N)]]; [discriminate|]. exfalso. rewrite forallb_forall in E.
      assert (G : forall z, In z (f :: fs) -> mi_n z = mi_n f).
      { intros z [->|Z]; [reflexivity|]. specialize (E (block_of b mode z) (in_map _ _ _ Z)). apply Nat.eqb_eq in E. rewrite !(proj1 (block_dims b mode _)) in E. exact E. }
      apply N. rewrite (G x X), (G y Y). reflexivity.
    + split; [|reflexivity]. intros _. split; [discriminate|]. right. clear -E.
      assert (G : exists g, In g fs /\ mi_n g <> mi_n f).
      { induction fs as [|g fs IH]; [discriminate|]. cbn [map forallb] in E. rewrite !(proj1 (block_dims b mode _)) in E.
        destruct (Nat.eqb_spec (mi_n g) (mi_n f)) as [Q|Q].
        - simpl in E. rewrite <- (proj1 (block_dims b mode f)) in E. destruct (IH E) as (x & X & Y). exists x. split; [right; exact X|exact Y].
        - exists g. split; [left; reflexivity|exact Q]. }
      destruct G as (g & G1 & G2). exists g, f. split; [right; exact G1|]. split; [left; reflexivity|exact G2].
Qed.
(** Values are never negative and zero at m = 0; they do not change when a whole trajectory is moved. *)
Theorem C55_sign mode N r : (forall m, 0 <= msd_of mode N r m) /\ msd_of mode N r 0 = 0 /\
  (forall d m, msd_of mode N (fun t => vadd (r t) d) m = msd_of mode N r m).
Proof.
  assert (P : forall u v, 0 <= dist2 u v) by (intros u v; unfold dist2; pose proof (Rle_0_sqr (vx u - vx v)) as A; pose proof (Rle_0_sqr (vy u - vy v)) as B; pose proof (Rle_0_sqr (vz u - vz v)) as C; unfold Rsqr in *; lra).
  assert (T : forall f (l : list nat), (forall x, 0 <= f x) -> 0 <= total f l) by (intros f l H; unfold total; induction l; simpl; [lra|specialize (H a); lra]).
  split; [|split].
  - intros m. destruct mode; simpl; [|apply P]. unfold mean. apply Rmult_le_pos; [apply T; auto|].
    destruct (N - m)%nat eqn:E; rewrite seq_length; [simpl; rewrite Rinv_0; lra|]. left. apply Rinv_0_lt_compat. apply lt_0_INR. lia.
  - destruct mode; simpl; [|unfold dist2; ring]. unfold mean. rewrite (total_ext _ (fun _ => 0)) by (intros; rewrite Nat.add_0_r; unfold dist2; ring).
    assert (Z : total (fun _ : nat => 0) (seq 0 (N - 0)) = 0) by (unfold total; induction (seq 0 (N - 0)); simpl; lra). rewrite Z. unfold Rdiv. ring.
  - intros d m. destruct mode; simpl; [|unfold dist2; simpl; ring]. unfold mean. f_equal. apply total_ext. intros. unfold dist2; simpl. ring.
Qed.
(** Positions wrapped into the box together with their images give the MSD of the unwrapped trajectory (off the faces of the cells). *)
Theorem C55_unwrapped b mode N P (r : nat -> nat -> vec3) : (0 < N)%nat -> nonsingular b -> fully_periodic b -> (forall t i, in_space b (r t i) /\ off_faces b (r t i)) ->
  let f := MI true N P (fun t i => wrap b (r t i)) (Some (true, fun t i => get_image b (r t i))) in
  forall m i, (m < N)%nat -> (i < P)%nat ->
  exists a, particle_msd (msd_run (msd_new (Some b) mode) [(true, f)]) = Values N P a /\ a m i = msd_of mode N (fun t => r t i) m.
Proof.
  intros HN NS FP RS f m i Hm Hi. cbv zeta.
  assert (Ac : accumulated [(true, f)] [] = [f]).
  { simpl. replace (accepted f) with true; [reflexivity|]. unfold accepted; simpl. symmetry. apply Nat.ltb_lt. exact HN. }
  assert (Z0 : forall v, b_2d b = true -> snd (get_image b v) = 0%Z).
  { intros v E. unfold get_image. cbv zeta. simpl. rewrite E. apply image_round_spec. lra. }
  assert (BO : box_ok (Some b) f) by (split; [exact NS|]; intros; apply Z0; assumption).
  assert (Pl : forall t j, place (Some b) f t j = r t j).
  { intros t j. rewrite <- place_ok by exact BO. apply unwrap_wrap; auto; apply RS. }
  destruct (C55_values (Some b) mode [(true, f)] N) as (a & E & V & _).
  - rewrite Ac. discriminate.
  - rewrite Ac. constructor; [split; [exact BO|reflexivity]|constructor].
  - rewrite Ac in *. assert (L : length (particles (Some b) [f]) = P) by (rewrite particles_length; simpl; lia). rewrite L in *.
    exists a. split; [exact E|]. rewrite V by assumption. simpl. rewrite app_nil_r.
    rewrite (nth_indep _ still (fun t => place (Some b) f t 0%nat)) by (rewrite map_length, seq_length; exact Hi).
    rewrite (map_nth (fun i t => place (Some b) f t i)), seq_nth by exact Hi.
    assert (X : forall t, place (Some b) f t (0 + i)%nat = r t i) by (intros; apply Pl).
    destruct mode; unfold msd_of; [|rewrite !X; reflexivity]. unfold mean. f_equal. apply total_ext. intros. rewrite !X. reflexivity.
Qed.

(** * Deviations *)
Definition ex_traj (ok : bool) (n : nat) : minput := MI ok n 1 (fun t _ => V3 (INR t) 0 0) None.
(** A rejected call with reset has already discarded the earlier results, and marks the object as computed: reading then fails inside numpy
    instead of reporting that nothing was computed. *)
Theorem C55_rejected_refuted : exists s f, particle_msd s = NotComputed /\ snd (msd_compute s true f) = true /\ particle_msd (fst (msd_compute s true f)) = ConcatError /\
  exists g n p a, particle_msd (fst (msd_compute s true g)) = Values n p a /\ particle_msd (msd_run s [(true, g); (true, f)]) = ConcatError.
Proof.
  exists (msd_new None Window), (ex_traj false 2). repeat split. exists (ex_traj true 2). do 3 eexists. split; reflexivity.
Qed.
(** Images given without a box are accepted and have no effect. *)
Theorem C55_images_refuted mode n p pos im m : (0 < n)%nat ->
  snd (msd_compute (msd_new None mode) true (MI true n p pos (Some (true, im)))) = false /\
  msd_value (fst (msd_compute (msd_new None mode) true (MI true n p pos (Some (true, im))))) m =
  msd_value (fst (msd_compute (msd_new None mode) true (MI true n p pos None))) m.
Proof. intros H. rewrite !compute_spec. unfold accepted; simpl. destruct n; [lia|]. split; reflexivity. Qed.
(** Calls with different numbers of frames are both accepted; the results can then no longer be read. *)
Theorem C55_lengths_refuted : exists h, (forall s re f, In (re, f) h -> snd (msd_compute s re f) = false) /\ particle_msd (msd_run (msd_new None Window) h) = ConcatError.
Proof.
  exists [(true, ex_traj true 2); (false, ex_traj true 3)]. split; [|reflexivity].
  intros s re f [E|[E|[]]]; injection E as <- <-; rewrite compute_spec; reflexivity.
Qed.
Example C55_ex : let h := [(true, ex_traj true 2); (true, ex_traj true 3); (false, ex_traj false 7); (false, ex_traj true 3)] in
  accumulated h [] = [ex_traj true 3; ex_traj true 3] /\ Forall (fun f => box_ok None f /\ mi_n f = 3%nat) (accumulated h []) /\
  length (particles None (accumulated h [])) = 2%nat /\ msd_value (msd_run (msd_new None Window) h) 2 = Some 4.
Proof.
  cbv zeta. set (h := [(true, ex_traj true 2); (true, ex_traj true 3); (false, ex_traj false 7); (false, ex_traj true 3)]).
  assert (A : accumulated h [] = [ex_traj true 3; ex_traj true 3]) by reflexivity.
  assert (F : Forall (fun f => box_ok None f /\ mi_n f = 3%nat) (accumulated h [])) by (rewrite A; repeat constructor).
  split; [exact A|]. split; [exact F|]. split; [reflexivity|].
  destruct (C55_values None Window h 3) as (_ & _ & _ & V); [rewrite A; discriminate|exact F|]. rewrite V by lia. rewrite A. cbn -[INR]. f_equal. unfold mean, total; cbn -[INR].
  unfold mean, total, dist2; cbn. field.
Qed.
Print Assumptions C55_values.
Print Assumptions C55_unwrapped.
