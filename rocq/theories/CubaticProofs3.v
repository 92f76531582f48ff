(** Proofs for C61: annealing, replicates and schedules. *)
From Coq Require Import Reals List Lra Lia Permutation.
From Verif Require Import ParProofs MArrayProofs NListProofs QuatProofs CubaticModel CubaticProofs CubaticProofs2.
From Verif Require Import CubaticSpec.
Import ListNotations.
Local Open Scope R_scope.

(** ** One replicate *)
Lemma sc1 x : sin x * sin x + cos x * cos x = 1.
Proof. assert (H := sin2_cos2 x). unfold Rsqr in H. exact H. Qed.
Lemma axis_angle_unit v t : dot v v = 1 -> unitq (q_axis_angle v t).
Proof.
  intros H. apply unitq_norm2. unfold qnorm2, q_axis_angle. cbn [qs qv].
  assert (E : dot (vscale (sin (t / 2)) v) (vscale (sin (t / 2)) v) = sin (t / 2) * sin (t / 2) * dot v v) by (unfold dot, vscale; simpl; ring).
  rewrite E, H. assert (S := sc1 (t / 2)). lra.
Qed.
Lemma random_axis u k : dot (V3 (cos (2 * PI * u k) * sin (acos (2 * u (S k) - 1))) (sin (2 * PI * u k) * sin (acos (2 * u (S k) - 1)))
    (cos (acos (2 * u (S k) - 1)))) (V3 (cos (2 * PI * u k) * sin (acos (2 * u (S k) - 1))) (sin (2 * PI * u k) * sin (acos (2 * u (S k) - 1)))
    (cos (acos (2 * u (S k) - 1)))) = 1.
Proof.
  generalize (acos (2 * u (S k) - 1)), (2 * PI * u k). intros p t. unfold dot. simpl.
  assert (S1 := sc1 t). assert (S2 := sc1 p).
  replace (cos t * sin p * (cos t * sin p) + sin t * sin p * (sin t * sin p) + cos p * cos p)
    with ((sin t * sin t + cos t * cos t) * (sin p * sin p) + cos p * cos p) by ring. rewrite S1. lra.
Qed.
Lemma random_quat_eq u k m : random_quat u k m =
  (q_axis_angle (V3 (cos (2 * PI * u k) * sin (acos (2 * u (S k) - 1))) (sin (2 * PI * u k) * sin (acos (2 * u (S k) - 1))) (cos (acos (2 * u (S k) - 1))))
     (m * u (S (S k))), S (S (S k))).
Proof.
  unfold random_quat. rewrite random_axis, sqrt_1, Rinv_1. f_equal. f_equal. unfold vscale. simpl. now rewrite !Rmult_1_l.
Qed.
Lemma random_unit u k m : unitq (fst (random_quat u k m)).
Proof. rewrite random_quat_eq. apply axis_angle_unit, random_axis. Qed.

Definition good (g : tensor) (r : run_state) : Prop :=
  unitq (r_q r) /\ r_t r = cub_tensor (r_q r) /\ r_o r = cub_order (cub_tensor (r_q r)) g.
Lemma run_at_good g q : unitq q -> good g (run_at g q).
Proof. intros H. repeat split. exact H. Qed.
Lemma anneal_good s g u fuel : forall t k r, good g r -> good g (fst (anneal s g u fuel t k r)).
Proof.
  induction fuel as [|fuel IH]; intros t k r Hr; cbn [anneal]; [exact Hr|].
  destruct (Rltb (t_final s) t); [|exact Hr].
  destruct (random_quat u k (1 / 10)) as [dq k'] eqn:E.
  assert (Hd : unitq dq) by (change dq with (fst (dq, k')); rewrite <- E; apply random_unit).
  assert (Hn : good g (run_at g (qmul dq (r_q r)))) by (apply run_at_good, unitq_mul; [exact Hd|apply Hr]).
  destruct (Rltb _ _); [apply IH, Hn|]. destruct (Rleb _ _); apply IH; assumption.
Qed.
Lemma anneal_cold s g u fuel t k r : t <= t_final s -> anneal s g u fuel t k r = (r, k).
Proof. intros H. destruct fuel; cbn [anneal]; [reflexivity|]. rewrite (proj2 (Rltb_false _ _)) by lra. reflexivity. Qed.
Lemma replicate_good s g u k : good g (fst (replicate s g u k)).
Proof.
  unfold replicate. destruct (random_quat u k 1) as [q k'] eqn:E. apply anneal_good, run_at_good.
  change q with (fst (q, k')). rewrite <- E. apply random_unit.
Qed.

(** ** The replicates of a chunk *)
(** [drawn u m]: how many numbers the first [m] replicates of a chunk draw; [rep_at u m]: the replicate after them. *)
Fixpoint drawn (s : settings) (g : tensor) (u : nat -> R) (m : nat) : nat :=
  match m with O => 0%nat | S m => snd (replicate s g u (drawn s g u m)) end.
Definition rep_at s g u m : run_state := fst (replicate s g u (drawn s g u m)).

Lemma run_chunk_spec s g rng reps b e : (e <= length reps)%nat ->
  length (run_chunk s g rng reps (b, e)) = length reps /\
  forall i, (i < length reps)%nat -> nth i (run_chunk s g rng reps (b, e)) no_run =
    if andb (Nat.leb b i) (Nat.ltb i e) then rep_at s g (rng (seed s) b) (i - b) else nth i reps no_run.
Proof.
  intros He. unfold run_chunk. cbn [fst snd]. set (u := rng (seed s) b). unfold range.
  set (f := fun (p : list run_state * nat) (i : nat) => let '(r, k) := replicate s g u (snd p) in (upd (fst p) i r, k)).
  assert (G : forall m, (b + m <= length reps)%nat ->
     let p := fold_left f (seq b m) (reps, 0%nat) in
     snd p = drawn s g u m /\ length (fst p) = length reps /\
     forall i, (i < length reps)%nat -> nth i (fst p) no_run = if andb (Nat.leb b i) (Nat.ltb i (b + m)) then rep_at s g u (i - b) else nth i reps no_run).
  { induction m as [|m IH]; intros Hm.
    - cbn [seq fold_left fst snd drawn]. split; [reflexivity|]. split; [reflexivity|]. intros i Hi.
      destruct (Nat.leb_spec b i), (Nat.ltb_spec i (b + 0)); cbn [andb]; try reflexivity; lia.
    - rewrite seq_S, fold_left_app. cbn [fold_left]. destruct (IH ltac:(lia)) as (K & L & N). clear IH.
      destruct (fold_left f (seq b m) (reps, 0%nat)) as [a k]. cbn [fst snd] in *. subst k.
      unfold f at 1 2 3. cbn [fst snd]. cbn [drawn]. unfold rep_at.
      destruct (replicate s g u (drawn s g u m)) as [r k] eqn:E. cbn [fst snd].
      split; [reflexivity|]. split; [now rewrite upd_length|]. intros i Hi.
      rewrite nth_upd_if by (rewrite L; lia). destruct (Nat.eqb_spec i (b + m)) as [->|Hne].
      + destruct (Nat.leb_spec b (b + m)), (Nat.ltb_spec (b + m) (b + S m)); cbn [andb]; try lia.
        replace (b + m - b)%nat with m by lia. now rewrite E.
      + rewrite N by assumption.
        destruct (Nat.leb_spec b i), (Nat.ltb_spec i (b + m)), (Nat.ltb_spec i (b + S m)); cbn [andb]; try reflexivity; lia. }
  destruct (Nat.le_gt_cases b e) as [Hbe|Hbe].
  - destruct (G (e - b)%nat ltac:(lia)) as (_ & L & N). split; [exact L|]. intros i Hi. rewrite N by exact Hi.
    replace (b + (e - b))%nat with e by lia. reflexivity.
  - replace (e - b)%nat with 0%nat by lia. cbn [seq fold_left fst snd]. split; [reflexivity|]. intros i Hi.
    destruct (Nat.leb_spec b i), (Nat.ltb_spec i e); cbn [andb]; try reflexivity; lia.
Qed.

(** ** Cuttings *)
Definition inside (i : nat) (c : nat * nat) : Prop := (fst c <= i < snd c)%nat.
Lemma splits_cover b e cs : splits b e cs ->
  (forall c, In c cs -> (b <= fst c /\ fst c < snd c /\ snd c <= e)%nat) /\
  (forall i, (b <= i < e)%nat -> exists c, In c cs /\ inside i c) /\
  (forall i c c', In c cs -> In c' cs -> inside i c -> inside i c' -> c = c').
Proof.
  induction 1 as [b e H|b m e l r H1 H2 _ (B1 & C1 & U1) _ (B2 & C2 & U2)].
  - split; [|split].
    + intros c [<-|[]]. cbn. lia.
    + intros i Hi. exists (b, e). split; [now left|]. unfold inside. cbn. lia.
    + intros i c c' [<-|[]] [<-|[]] _ _. reflexivity.
  - split; [|split].
    + intros c Hc. apply in_app_iff in Hc. destruct Hc as [Hc|Hc]; [apply B1 in Hc|apply B2 in Hc]; lia.
    + intros i Hi. destruct (Nat.lt_ge_cases i m).
      * destruct (C1 i ltac:(lia)) as (c & Hc & Hi'). exists c. rewrite in_app_iff. auto.
      * destruct (C2 i ltac:(lia)) as (c & Hc & Hi'). exists c. rewrite in_app_iff. auto.
    + intros i c c' Hc Hc' Hi Hi'. apply in_app_iff in Hc, Hc'. unfold inside in *.
      destruct Hc as [Hc|Hc], Hc' as [Hc'|Hc']; eauto.
      * apply B1 in Hc. apply B2 in Hc'. lia.
      * apply B2 in Hc. apply B1 in Hc'. lia.
Qed.
Lemma chunking_cover n cs0 cs : (0 < n)%nat -> chunking 0 n cs0 -> Permutation cs cs0 ->
  (forall c, In c cs -> (fst c < snd c <= n)%nat) /\
  (forall i, (i < n)%nat -> exists c, In c cs /\ inside i c) /\
  (forall i c c', In c cs -> In c' cs -> inside i c -> inside i c' -> c = c').
Proof.
  intros Hn H P. unfold chunking in H. destruct (Nat.leb_spec n 0); [lia|].
  apply splits_cover in H. destruct H as (B & C & U). split; [|split].
  - intros c Hc. apply (Permutation_in _ P) in Hc. apply B in Hc. lia.
  - intros i Hi. destruct (C i ltac:(lia)) as (c & Hc & Hi'). exists c. split; [|exact Hi'].
    eapply Permutation_in; [symmetry; exact P|exact Hc].
  - intros i c c' Hc Hc'. apply (U i); eapply Permutation_in; eassumption.
Qed.

Lemma replicates_spec s g rng cs cs0 : (0 < n_replicates s)%nat -> chunking 0 (n_replicates s) cs0 -> Permutation cs cs0 ->
  length (replicates s g rng cs) = n_replicates s /\
  forall i c, In c cs -> inside i c -> nth i (replicates s g rng cs) no_run = rep_at s g (rng (seed s) (fst c)) (i - fst c).
Proof.
  intros Hn H P. destruct (chunking_cover _ _ _ Hn H P) as (B & _ & U). unfold replicates.
  assert (L0 : length (repeat no_run (n_replicates s)) = n_replicates s) by apply repeat_length.
  revert L0. generalize (repeat no_run (n_replicates s)). clear H P cs0.
  assert (G : forall l reps, length reps = n_replicates s -> (forall c, In c l -> (fst c < snd c <= n_replicates s)%nat) ->
     length (fold_left (run_chunk s g rng) l reps) = n_replicates s /\
     forall i, (i < n_replicates s)%nat ->
       (forall c, In c l -> ~ inside i c) -> nth i (fold_left (run_chunk s g rng) l reps) no_run = nth i reps no_run).
  { induction l as [|[b e] l IH]; intros reps L Hb; cbn [fold_left]; [auto|].
    destruct (run_chunk_spec s g rng reps b e) as [L1 N1]; [specialize (Hb (b, e) (or_introl eq_refl)); cbn in Hb; lia|].
    destruct (IH (run_chunk s g rng reps (b, e)) ltac:(lia) ltac:(intros; apply Hb; now right)) as [L2 N2].
    split; [exact L2|]. intros i Hi Hno. rewrite N2; [|exact Hi|intros c Hc; apply Hno; now right].
    rewrite N1 by lia. specialize (Hno (b, e) (or_introl eq_refl)). unfold inside in Hno. cbn in Hno.
    destruct (Nat.leb_spec b i), (Nat.ltb_spec i e); cbn [andb]; try reflexivity; lia. }
  intros reps L0. split; [now apply G|].
  revert reps L0. induction cs as [|[b e] l IH]; intros reps L0 i c Hc Hi; [destruct Hc|].
  destruct (run_chunk_spec s g rng reps b e) as [L1 N1]; [specialize (B (b, e) (or_introl eq_refl)); cbn in B; lia|].
  cbn [fold_left].
  assert (Hin : (i < n_replicates s)%nat) by (apply B in Hc; unfold inside in Hi; lia).
  assert (Hrest : forall c', In c' l -> (fst c' < snd c' <= n_replicates s)%nat) by (intros; apply B; now right).
  assert (Dec : (exists c', In c' l /\ inside i c') \/ (forall c', In c' l -> ~ inside i c')).
  { clear. induction l as [|d l [(c' & H & H')|H]].
    - right. intros c' [].
    - left. exists c'. split; [now right|exact H'].
    - destruct (Nat.leb_spec (fst d) i), (Nat.ltb_spec i (snd d)).
      + left. exists d. split; [now left|]. unfold inside. lia.
      + right. intros c' [<-|Hc']; [unfold inside; lia|auto].
      + right. intros c' [<-|Hc']; [unfold inside; lia|auto].
      + right. intros c' [<-|Hc']; [unfold inside; lia|auto]. }
  destruct Dec as [(c' & Hc' & Hi')|Hno].
  - assert (c' = c) by (eapply U; eauto; now right). subst c'.
    apply IH; try assumption; [intros; eapply U; eauto; now right|lia].
  - destruct Hc as [<-|Hc]; [|exfalso; eapply Hno; eassumption].
    destruct (G l (run_chunk s g rng reps (b, e)) ltac:(lia) Hrest) as [_ N2]. rewrite (N2 i Hin Hno), N1 by lia.
    unfold inside in Hi. cbn in Hi. destruct (Nat.leb_spec b i), (Nat.ltb_spec i e); try lia. reflexivity.
Qed.

(** ** The best replicate *)
Lemma best_index_spec reps : (0 < length reps)%nat ->
  (best_index reps < length reps)%nat /\
  forall i, (i < length reps)%nat -> r_o (nth i reps no_run) <= r_o (nth (best_index reps) reps no_run).
Proof.
  intros Hn. unfold best_index.
  set (f := fun (p : nat * R) (i : nat) => let o := r_o (nth i reps no_run) in if Rltb (snd p) o then (i, o) else p).
  assert (G : forall m, (m < length reps)%nat ->
     let p := fold_left f (seq 1 m) (0%nat, r_o (nth 0 reps no_run)) in
     (fst p <= m)%nat /\ snd p = r_o (nth (fst p) reps no_run) /\ forall i, (i <= m)%nat -> r_o (nth i reps no_run) <= snd p).
  { induction m as [|m IH]; intros Hm.
    - cbn. split; [lia|]. split; [reflexivity|]. intros i Hi. replace i with 0%nat by lia. lra.
    - rewrite seq_S, fold_left_app. cbn [fold_left]. destruct (IH ltac:(lia)) as (A & B & C). clear IH.
      destruct (fold_left f (seq 1 m) (0%nat, r_o (nth 0 reps no_run))) as [p o]. cbn [fst snd] in *.
      unfold f. cbn [fst snd]. destruct (Rltb_spec o (r_o (nth (1 + m) reps no_run))) as [H|H]; cbn [fst snd].
      + split; [lia|]. split; [reflexivity|]. intros i Hi. destruct (Nat.eq_dec i (S m)) as [->|Hne]; [cbn; lra|].
        assert (HC := C i ltac:(lia)). lra.
      + split; [lia|]. split; [exact B|]. intros i Hi. destruct (Nat.eq_dec i (S m)) as [->|Hne]; [cbn in H; lra|].
        apply C. lia. }
  destruct (G (length reps - 1)%nat ltac:(lia)) as (A & B & C). split; [lia|]. intros i Hi. rewrite <- B. apply C. lia.
Qed.
