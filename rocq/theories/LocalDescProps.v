(** C47: local descriptors. *)
From Verif Require Import NListProofs NListProofs2 ParProofs SphSpec QuatProofs QuatProps MatchEnvProofs AngSepProofs SphProofs Vec.
From Coq Require Import Lra Lia.
From Verif Require Import Vec.
Local Open Scope R_scope.

Lemma filter_all {A} (p : A -> bool) l : (forall x, In x l -> p x = true) -> filter p l = l.
Proof. induction l; intros H; simpl; auto. rewrite (H a) by (left; auto). rewrite IHl; auto. intros; apply H; right; auto. Qed.
Lemma filter_none {A} (p : A -> bool) l : (forall x, In x l -> p x = false) -> filter p l = [].
Proof. induction l; intros H; simpl; auto. rewrite (H a) by (left; auto). apply IHl. intros; apply H; right; auto. Qed.
Lemma skipn_skipn {A} x y : forall l : list A, skipn x (skipn y l) = skipn (x + y) l.
Proof. induction y; intros l; simpl; [rewrite Nat.add_0_r; auto|]. destruct l; [rewrite !skipn_nil; auto|]. rewrite IHy, Nat.add_succ_r. reflexivity. Qed.
Lemma nth_skipn {A} a : forall (l : list A) j d, nth j (skipn a l) d = nth (a + j) l d.
Proof. induction a; intros l j d; simpl; auto. destruct l; [destruct j; reflexivity|]. apply IHa. Qed.
Lemma map_nth_seq {A} (l : list A) d n : forall k, (k + n <= length l)%nat -> map (fun i => nth i l d) (seq k n) = firstn n (skipn k l).
Proof.
  induction n as [|n IH]; intros k Hk; [reflexivity|]. cbn [seq map]. rewrite IH by lia.
  rewrite <- (firstn_skipn k l) at 1. rewrite app_nth2; rewrite firstn_length; [|lia]. replace (k - Nat.min k (length l))%nat with 0%nat by lia.
  destruct (skipn k l) as [|x t] eqn:E; [apply (f_equal (@length A)) in E; rewrite skipn_length in E; simpl in E; lia|].
  cbn [nth firstn]. f_equal. f_equal. replace (S k) with (1 + k)%nat by lia. rewrite <- (skipn_skipn 1 k), E. reflexivity.
Qed.
Lemma in_firstn_nth {A} (l : list A) d n x : In x (firstn n l) -> exists i, (i < n)%nat /\ (i < length l)%nat /\ x = nth i l d.
Proof.
  intros H. apply (In_nth _ _ d) in H as (i & Hi & <-). rewrite firstn_length in Hi. exists i. split; [lia|]. split; [lia|].
  rewrite <- (firstn_skipn n l) at 2. rewrite app_nth1; auto. rewrite firstn_length. lia.
Qed.

Section point.
  Variables (bs : list bond).
  Hypothesis HS : sorted_q bs.

  Lemma before_eq i k : (before i bs <= k < before (S i) bs)%nat -> bq (nth k bs bond0) = i.
  Proof.
    intros Hk. destruct (before_sides i bs HS) as [_ L2], (before_sides (S i) bs HS) as [M1 _]. pose proof (before_le (S i) bs).
    specialize (L2 k). specialize (M1 k). lia.
  Qed.
  Lemma ld_bonds_seq i limit fuel : forall k count, (before i bs <= k <= before (S i) bs)%nat -> (before (S i) bs - k <= fuel)%nat ->
    ld_bonds fuel bs i k count limit = seq k (Nat.min (before (S i) bs - k) (Z.to_nat (limit - count))).
  Proof.
    induction fuel as [|fuel IH]; intros k count Hk Hf.
    - replace (before (S i) bs - k)%nat with 0%nat by lia. reflexivity.
    - pose proof (before_le (S i) bs) as Lb. simpl. destruct (Nat.eq_dec k (before (S i) bs)) as [E|E].
      + replace (before (S i) bs - k)%nat with 0%nat by lia. simpl. destruct (nth_error bs k) as [b|] eqn:N; auto.
        assert (Hlt : (k < length bs)%nat) by (apply nth_error_Some; congruence).
        rewrite (nth_error_g _ _ bond0 Hlt) in N. injection N as <-.
        destruct (before_sides (S i) bs HS) as [_ M2]. specialize (M2 k). destruct (Nat.eqb_spec (bq (nth k bs bond0)) i); simpl; auto. lia.
      + rewrite (nth_error_g _ _ bond0) by lia. rewrite before_eq with (i := i) by lia. rewrite Nat.eqb_refl. cbn [andb].
        destruct (Z.ltb_spec count limit).
        * rewrite IH by lia. replace (Nat.min (before (S i) bs - k) (Z.to_nat (limit - count))) with (S (Nat.min (before (S i) bs - S k) (Z.to_nat (limit - (count + 1))))) by lia.
          reflexivity.
        * replace (Z.to_nat (limit - count)) with 0%nat by lia. rewrite Nat.min_0_r. reflexivity.
  Qed.
  Lemma of_point_seq i : filter (fun b => (bq b =? i)%nat) bs = firstn (before (S i) bs - before i bs) (skipn (before i bs) bs).
  Proof.
    pose proof (before_mono bs i (S i) HS ltac:(lia)) as B. pose proof (before_le (S i) bs) as Lb.
    set (a := before i bs) in *. set (c := before (S i) bs) in *.
    rewrite <- (firstn_skipn a bs) at 1. rewrite <- (firstn_skipn (c - a) (skipn a bs)) at 1. rewrite !filter_app.
    rewrite (filter_none _ (firstn a bs)), (filter_all _ (firstn (c - a) _)), (filter_none _ (skipn (c - a) _)); [simpl; apply app_nil_r| | |].
    - intros x Hx. rewrite skipn_skipn in Hx. apply (In_nth _ _ bond0) in Hx as (j & Hj & <-). rewrite skipn_length in Hj. rewrite nth_skipn.
      destruct (before_sides (S i) bs HS) as [_ M2]. fold c in M2. specialize (M2 (c - a + a + j)%nat). apply Nat.eqb_neq. lia.
    - intros x Hx. apply (in_firstn_nth _ bond0) in Hx as (j & Hj & Hj' & ->). rewrite nth_skipn. apply Nat.eqb_eq. apply before_eq. fold a c. lia.
    - intros x Hx. apply (in_firstn_nth _ bond0) in Hx as (j & Hj & Hj' & ->).
      destruct (before_sides i bs HS) as [L1 _]. specialize (L1 j). apply Nat.eqb_neq. fold a in L1. lia.
  Qed.
  Lemma rank_before k : (k < length bs)%nat -> rank bs k = (k - before (bq (nth k bs bond0)) bs)%nat /\
    (before (bq (nth k bs bond0)) bs <= k < before (S (bq (nth k bs bond0))) bs)%nat.
  Proof.
    intros Hk. set (i := bq (nth k bs bond0)).
    assert (R : (before i bs <= k < before (S i) bs)%nat).
    { destruct (before_sides i bs HS) as [L1 _], (before_sides (S i) bs HS) as [_ M2]. specialize (L1 k). specialize (M2 k). unfold i in *. lia. }
    split; [|exact R]. unfold rank. fold i. set (a := before i bs) in *.
    assert (E : firstn k bs = firstn a bs ++ firstn (k - a) (skipn a bs)).
    { rewrite <- (firstn_skipn a bs) at 1. rewrite firstn_app, firstn_firstn, firstn_length. rewrite Nat.min_r by lia. f_equal. f_equal. lia. }
    rewrite E, filter_app, filter_none, filter_all.
    - simpl. rewrite firstn_length, skipn_length. lia.
    - intros x Hx. apply (in_firstn_nth _ bond0) in Hx as (j & Hj & Hj' & ->). rewrite nth_skipn. apply Nat.eqb_eq. apply before_eq. fold a. lia.
    - intros x Hx. apply (in_firstn_nth _ bond0) in Hx as (j & Hj & Hj' & ->).
      destruct (before_sides i bs HS) as [L1 _]. specialize (L1 j). apply Nat.eqb_neq. fold a in L1. lia.
  Qed.
End point.

(** The inertia tensor accumulated bond after bond is the sum of the contributions. *)
Lemma ld_tensor_inertia rs : ld_tensor rs = inertia rs.
Proof.
  unfold ld_tensor. set (add := fun t s : rotm => RM (r0 t + r0 s)%V (r1 t + r1 s)%V (r2 t + r2 s)%V).
  assert (G : forall rs t, fold_left ld_tensor_step rs t = add t (inertia rs)).
  { clear rs. induction rs as [|r rs IH]; intros t; unfold add.
    - destruct t as [[? ? ?] [? ? ?] [? ? ?]]; apply rotm_eq; simpl; apply vec_eq; simpl; ring.
    - cbn [fold_left]. rewrite IH. unfold add. apply rotm_eq; simpl; apply vec_eq; simpl; unfold dot; ring. }
  rewrite G. unfold add. destruct (inertia rs) as [[? ? ?] [? ? ?] [? ? ?]]. apply rotm_eq; simpl; apply vec_eq; simpl; ring.
Qed.

Lemma put_all {A} (f : nat -> A) ks d : forall rows, (forall k, In k ks -> (k < length rows)%nat) ->
  length (fold_left (fun rows k => put rows k (f k)) ks rows) = length rows /\
  forall m, nth m (fold_left (fun rows k => put rows k (f k)) ks rows) d = if existsb (Nat.eqb m) ks then f m else nth m rows d.
Proof.
  induction ks as [|k ks IH]; intros rows H; [split; reflexivity|]. cbn [fold_left existsb].
  destruct (IH (put rows k (f k))) as [L V]; [intros j Hj; rewrite put_length; apply H; right; auto|]. split; [rewrite L; apply put_length|].
  intros m. rewrite V, nth_put by (apply H; left; auto). destruct (Nat.eqb_spec m k) as [-> |]; simpl; auto. destruct (existsb _ ks); reflexivity.
Qed.

Section compute.
  Context {A : Type}.
  Variables (diag : rotm -> rotm) (sph : R -> R -> A) (zrow : A) (m : ld_mode) (o : list quat) (nl : nlist) (np : nat) (max : Z).
  Let bs := nl_bonds nl.
  Hypothesis HS : sorted_q bs.
  Hypothesis Ho : m = ParticleLocal -> (np <= length o)%nat.
  Let lim := ld_limit max.
  Let row (k : nat) : A := ld_row sph (point_frame diag m o lim bs (bq (nth k bs bond0))) (nth k bs bond0).

  Lemma ld_point_ok rows i : (i < np)%nat -> length rows = length bs ->
    exists rows', ld_point diag sph m o nl max rows i = Some rows' /\ length rows' = length bs /\
      forall k, (k < length bs)%nat -> nth k rows' zrow = if (bq (nth k bs bond0) =? i)%nat && (Z.of_nat (rank bs k) <? lim)%Z then row k else nth k rows zrow.
  Proof.
    intros Hi Lr. unfold ld_point. rewrite find_first_index_spec by exact HS. fold bs lim.
    pose proof (before_mono bs i (S i) HS ltac:(lia)) as B. pose proof (before_le (S i) bs) as Lb.
    rewrite (ld_bonds_seq bs HS i lim (length bs) (before i bs) 0) by lia. rewrite Z.sub_0_r.
    set (n := Nat.min _ _).
    assert (Ev : map (fun k => bv (nth k bs bond0)) (seq (before i bs) n) = map bv (first_bonds lim bs i)).
    { rewrite <- (map_map (fun k => nth k bs bond0) bv). f_equal. unfold first_bonds. rewrite of_point_seq, firstn_firstn by exact HS.
      rewrite map_nth_seq by lia. f_equal. lia. }
    rewrite Ev. assert (Ef : ld_frame diag m o i (map bv (first_bonds lim bs i)) = Some (point_frame diag m o lim bs i)).
    { unfold ld_frame, point_frame. destruct m; auto.
      - rewrite ld_tensor_inertia. reflexivity.
      - rewrite (nth_error_g _ _ qid) by (specialize (Ho eq_refl); lia). simpl. rewrite rot_conj. reflexivity. }
    rewrite Ef. eexists. split; [reflexivity|].
    destruct (put_all (fun k => ld_row sph (point_frame diag m o lim bs i) (nth k bs bond0)) (seq (before i bs) n) zrow rows) as [L V].
    { intros k Hk. apply in_seq in Hk. lia. }
    split; [rewrite L; exact Lr|]. intros k Hk. rewrite V.
    destruct (rank_before bs HS k Hk) as [Rk Rr].
    destruct (Nat.eqb_spec (bq (nth k bs bond0)) i) as [E|E]; cbn [andb].
    - assert (X : existsb (Nat.eqb k) (seq (before i bs) n) = (Z.of_nat (rank bs k) <? lim)%Z).
      { apply Bool.eq_iff_eq_true. rewrite existsb_exists, Z.ltb_lt, Rk, E. rewrite E in Rr. split.
        - intros (j & Hj & Ej). apply Nat.eqb_eq in Ej. subst j. apply in_seq in Hj. lia.
        - intros Hr. exists k. split; [apply in_seq; lia|apply Nat.eqb_refl]. }
      rewrite X. unfold row. rewrite E. reflexivity.
    - destruct (existsb (Nat.eqb k) (seq (before i bs) n)) eqn:X; auto. exfalso.
      apply existsb_exists in X as (j & Hj & Ej). apply Nat.eqb_eq in Ej. subst j. apply in_seq in Hj. apply E. apply before_eq; auto. lia.
  Qed.

  Lemma ld_points_ok (ev : list (nat * nat)) : (forall e, In e ev -> (snd e < np)%nat) -> forall rows, length rows = length bs ->
    exists rows', ofold (fun rows e => ld_point diag sph m o nl max rows (snd e)) ev rows = Some rows' /\ length rows' = length bs /\
      forall k, (k < length bs)%nat -> nth k rows' zrow =
        if existsb (fun e => (bq (nth k bs bond0) =? snd e)%nat) ev && (Z.of_nat (rank bs k) <? lim)%Z then row k else nth k rows zrow.
  Proof.
    induction ev as [|e ev IH]; intros He rows Lr; [exists rows; auto|]. cbn [ofold existsb].
    destruct (ld_point_ok rows (snd e)) as (r1 & E1 & L1 & V1); [apply He; left; auto|auto|]. rewrite E1.
    destruct (IH (fun e H => He e (or_intror H)) r1 L1) as (r2 & E2 & L2 & V2). exists r2. split; [exact E2|]. split; [exact L2|].
    intros k Hk. rewrite (V2 k Hk), (V1 k Hk). destruct (_ =? _)%nat, (existsb _ ev), (_ <? _)%Z; reflexivity.
  Qed.

  Lemma ld_compute_ok ev : execution 0 np ev ->
    exists rows, ld_compute diag sph zrow m o nl np max ev = Some (rows, length bs) /\ length rows = length bs /\
      forall k, (k < length bs)%nat -> nth k rows zrow = if (bq (nth k bs bond0) <? np)%nat && (Z.of_nat (rank bs k) <? lim)%Z then row k else zrow.
  Proof.
    intros HE. pose proof (execution_perm _ _ _ HE) as P.
    destruct (ld_points_ok ev) with (rows := repeat zrow (length bs)) as (rows & E & L & V).
    { intros e Hin. apply (in_map snd) in Hin. apply (Permutation_in _ P) in Hin. unfold range in Hin. apply in_seq in Hin. lia. }
    { apply repeat_length. }
    exists rows. unfold ld_compute. fold bs. rewrite E. split; [reflexivity|]. split; [exact L|]. intros k Hk. rewrite (V k Hk).
    assert (X : existsb (fun e => (bq (nth k bs bond0) =? snd e)%nat) ev = (bq (nth k bs bond0) <? np)%nat).
    { apply Bool.eq_iff_eq_true. rewrite existsb_exists, Nat.ltb_lt. split.
      - intros (e & Hin & Ee). apply Nat.eqb_eq in Ee. apply (in_map snd) in Hin. apply (Permutation_in _ P) in Hin. apply in_seq in Hin. lia.
      - intros Hq. assert (I : In (bq (nth k bs bond0)) (map snd ev)) by (apply (Permutation_in _ (Permutation_sym P)); apply in_seq; lia).
        apply in_map_iff in I as (e & Ee & I). exists e. split; [exact I|]. apply Nat.eqb_eq. auto. }
    rewrite X. destruct (_ && _); auto. apply nth_repeat.
  Qed.
End compute.

(** What is assumed of diagonalize33SymmetricMatrix: its rows are orthonormal. *)
Definition diag_ok (diag : rotm -> rotm) : Prop := forall t, orthonormal (diag t).

Lemma frame_orth diag m o lim bs i : diag_ok diag -> Forall unitq o -> orthonormal (point_frame diag m o lim bs i).
Proof.
  intros Hd Hu. destruct m; simpl; [apply Hd| |apply orth_id].
  apply orth_trans. assert (U : unitq (nth i o qid)).
  { destruct (nth_in_or_default i o qid) as [I|E]; [|rewrite E; apply unitq_id]. rewrite Forall_forall in Hu. auto. }
  apply (rot_rotation _ U).
Qed.
Lemma orth_norm m v : orthonormal m -> norm (rapply m v) = norm v.
Proof. intros H. pose proof (orth_len m v H) as L. unfold norm. f_equal. exact L. Qed.

(** C47: row k holds the spherical harmonics of the direction of bond k in the frame of its query point, for every bond whose query
    point has an index below the number of points and that is among the first max_num_neighbors bonds of it (all if 0);
    all other rows are zero. *)
Theorem C47_rows {A} diag (sph : R -> R -> A) zrow m o nl np max ev :
  sorted_q (nl_bonds nl) -> (m = ParticleLocal -> (np <= length o)%nat) -> Forall unitq o -> diag_ok diag -> (0 <= max)%Z -> execution 0 np ev ->
  (forall b, In b (nl_bonds nl) -> bd b = norm (bv b) /\ bv b <> v0) ->
  exists rows, ld_compute diag sph zrow m o nl np max ev = Some (rows, length (nl_bonds nl)) /\ length rows = length (nl_bonds nl) /\
    forall k, (k < length (nl_bonds nl))%nat -> let b := nth k (nl_bonds nl) bond0 in
      ((bq b < np)%nat -> used (ld_limit max) (nl_bonds nl) k ->
         exists theta phi, direction (rapply (point_frame diag m o (ld_limit max) (nl_bonds nl) (bq b)) (bv b)) theta phi /\ nth k rows zrow = sph phi theta) /\
      ((np <= bq b)%nat \/ ~ used (ld_limit max) (nl_bonds nl) k -> nth k rows zrow = zrow).
Proof.
  intros HS Ho Hu Hd Hm HE Hb. assert (Hl : (0 <= ld_limit max)%Z) by (unfold ld_limit; destruct (max =? 0)%Z; lia).
  destruct (ld_compute_ok diag sph zrow m o nl np max HS Ho ev HE) as (rows & E & L & V).
  exists rows. split; [exact E|]. split; [exact L|]. intros k Hk b. specialize (V k Hk). fold b in V. unfold used. split.
  - intros Hq Hr. destruct (Nat.ltb_spec (bq b) np); [|lia]. destruct (Z.ltb_spec (Z.of_nat (rank (nl_bonds nl) k)) (ld_limit max)); [|lia]. cbn [andb] in V.
    destruct (Hb b) as [Hn Hz]; [apply nth_In; exact Hk|]. set (f := point_frame _ _ _ _ _ _) in *.
    pose proof (orth_norm f (bv b) (frame_orth diag m o _ _ _ Hd Hu)) as N.
    assert (W : rapply f (bv b) <> v0).
    { intros F. rewrite F in N. pose proof (norm_pos _ Hz). assert (N0 : norm v0 = 0) by (unfold norm, dot; simpl; replace (0*0+0*0+0*0) with 0 by ring; apply sqrt_0). lra. }
    exists (azimuth (rapply f (bv b))), (polar (rapply f (bv b))). split; [apply sph_direction; exact W|].
    rewrite V. unfold ld_row. f_equal. unfold ld_polar, polar. rewrite Hn, <- N. pose proof (norm_pos _ W) as Np. pose proof (vz_ratio _ W) as Z.
    rewrite Req_bool_false by lra. unfold norm in *. rewrite Rlt_bool_false; [reflexivity|]. apply Rabs_le. lra.
  - intros Hor. rewrite V. destruct (Nat.ltb_spec (bq b) np), (Z.ltb_spec (Z.of_nat (rank (nl_bonds nl) k)) (ld_limit max)); cbn [andb]; auto. exfalso. lia.
Qed.

(** With at least as many points as query points and no cap, every bond gets its row. *)
Theorem C47_every_bond {A} diag (sph : R -> R -> A) zrow m o nl np ev :
  valid_bonds (nl_nq nl) (nl_np nl) (nl_bonds nl) -> (nl_nq nl <= np)%nat -> (Z.of_nat (length (nl_bonds nl)) < 4294967295)%Z ->
  (m = ParticleLocal -> (np <= length o)%nat) -> Forall unitq o -> diag_ok diag -> execution 0 np ev ->
  (forall b, In b (nl_bonds nl) -> bd b = norm (bv b) /\ bv b <> v0) ->
  exists rows, ld_compute diag sph zrow m o nl np 0 ev = Some (rows, length (nl_bonds nl)) /\
    forall k, (k < length (nl_bonds nl))%nat -> exists theta phi,
      direction (rapply (point_frame diag m o 4294967295 (nl_bonds nl) (bq (nth k (nl_bonds nl) bond0))) (bv (nth k (nl_bonds nl) bond0))) theta phi /\
      nth k rows zrow = sph phi theta.
Proof.
  intros [HS HV] Hnq Hlen Ho Hu Hd HE Hb.
  destruct (C47_rows diag sph zrow m o nl np 0 ev HS Ho Hu Hd ltac:(lia) HE Hb) as (rows & E & _ & V).
  exists rows. split; [exact E|]. intros k Hk. apply (proj1 (V k Hk)).
  - specialize (HV _ (nth_In _ bond0 Hk)). lia.
  - unfold used. change (ld_limit 0) with 4294967295%Z.
    assert (rank (nl_bonds nl) k <= length (nl_bonds nl))%nat; [|lia].
    pose proof (rank_before _ HS k Hk). lia.
Qed.

(** The frame of mode "particle_local" turns with the particle: turning all bonds and orientations by the same rotation changes nothing. *)
Definition turn_bond (p : quat) (b : bond) : bond := Bond (bq b) (bp b) (bd b) (bw b) (rotate p (bv b)).
Definition turn_nlist (p : quat) (nl : nlist) : nlist :=
  NL (nl_nq nl) (nl_np nl) (map (turn_bond p) (nl_bonds nl)) (nl_updated nl) (nl_segments nl) (nl_counts nl).
Lemma filter_map_swap {X Y} (f : X -> Y) p l : filter p (map f l) = map f (filter (fun x => p (f x)) l).
Proof. induction l; simpl; auto. destruct (p (f a)); simpl; rewrite IHl; auto. Qed.
Theorem C47_rotation_invariant {A} diag (sph : R -> R -> A) zrow o nl np max ev p : unitq p ->
  sorted_q (nl_bonds nl) -> (np <= length o)%nat -> (0 <= max)%Z -> execution 0 np ev ->
  ld_compute diag sph zrow ParticleLocal (map (qmul p) o) (turn_nlist p nl) np max ev = ld_compute diag sph zrow ParticleLocal o nl np max ev.
Proof.
  intros Hp HS Ho Hm HE. assert (Hl : (0 <= ld_limit max)%Z) by (unfold ld_limit; destruct (max =? 0)%Z; lia).
  set (nl' := turn_nlist p nl).
  assert (Nth : forall k, (k < length (nl_bonds nl))%nat -> nth k (nl_bonds nl') bond0 = turn_bond p (nth k (nl_bonds nl) bond0)).
  { intros k Hk. unfold nl', turn_nlist; simpl. apply nth_map_lt. exact Hk. }
  assert (Len : length (nl_bonds nl') = length (nl_bonds nl)) by apply map_length.
  assert (HS' : sorted_q (nl_bonds nl')).
  { intros i j Hij. rewrite Len in Hij. rewrite !Nth by lia. apply HS. exact Hij. }
  destruct (ld_compute_ok diag sph zrow ParticleLocal o nl np max HS (fun _ => Ho) ev HE) as (r1 & E1 & L1 & V1).
  destruct (ld_compute_ok diag sph zrow ParticleLocal (map (qmul p) o) nl' np max HS') with (ev := ev) as (r2 & E2 & L2 & V2); auto.
  { intros _. rewrite map_length. exact Ho. }
  rewrite E1, E2, Len. do 2 f_equal. apply (list_ext _ _ zrow); [lia|]. intros k Hk. rewrite L2, Len in Hk.
  rewrite (V1 k Hk), V2 by lia. rewrite (Nth k Hk).
  assert (Rk : rank (nl_bonds nl') k = rank (nl_bonds nl) k).
  { unfold rank. rewrite (Nth k Hk). unfold nl', turn_nlist; simpl nl_bonds. rewrite firstn_map, filter_map_swap, map_length. reflexivity. }
  rewrite Rk. cbn [turn_bond bq]. set (b := nth k (nl_bonds nl) bond0).
  destruct (Nat.ltb_spec (bq b) np); cbn [andb]; auto. destruct (_ <? _)%Z; auto.
  unfold ld_row, turn_bond, point_frame. cbn [bv bd]. rewrite (nth_map_lt (qmul p) _ _ qid) by lia.
  rewrite <- !rot_conj, !rotate_matrix, qconj_mul, <- !rotate_mul, <- qmul_assoc, unit_inv_l, qmul_id_r by exact Hp. reflexivity.
Qed.
(** Turning the bonds turns the inertia tensor: T' = P T P^T. *)
Theorem C47_tensor_turns p rs : unitq p ->
  ld_tensor (map (rotate p) rs) = rmul (rmul (rot_of_quat p) (ld_tensor rs)) (rtrans (rot_of_quat p)).
Proof.
  intros Hp. rewrite !ld_tensor_inertia. pose proof (rot_rotation p Hp) as [O _].
  assert (E : map (rotate p) rs = map (rapply (rot_of_quat p)) rs) by (apply map_ext; intros; symmetry; apply rotate_matrix).
  rewrite E. clear E Hp. set (m := rot_of_quat p) in *. clearbody m.
  induction rs as [|r rs IH]; [simpl; apply rotm_eq; simpl; apply vec_eq; unfold dot; simpl; ring|].
  cbn [map inertia]. rewrite IH. pose proof (orth_len m r O) as L. destruct O as [_ O].
  destruct (inertia rs) as [[t1 t2 t3] [t4 t5 t6] [t7 t8 t9]]. destruct r as [x y z]. destruct m as [[a b c] [d e f] [g h i]].
  unfold rmul, rtrans, rid, dot in O; simpl in O. injection O as O1 O2 O3 O4 O5 O6 O7 O8 O9.
  unfold len_sq, dot in L; simpl in L. unfold dot in L; simpl in L.
  apply (f_equal (Rmult (x * x + y * y + z * z))) in O1, O2, O3, O4, O5, O6, O7, O8, O9.
  unfold rmul, rtrans, rapply; simpl. apply rotm_eq; simpl; apply vec_eq; unfold dot; simpl; lra.
Qed.
(** More query points than points: the bonds of the others are left zero. *)
Theorem C47_every_bond_refuted : exists nl o np ev,
  valid_bonds (nl_nq nl) (nl_np nl) (nl_bonds nl) /\ nl_np nl = np /\ length o = np /\ execution 0 np ev /\ (forall b, In b (nl_bonds nl) -> bd b = norm (bv b) /\ bv b <> v0) /\ forall diag (sph : R -> R -> option (R * R)), exists rows,
    ld_compute diag sph None Global o nl np 0 ev = Some (rows, length (nl_bonds nl)) /\ nth 1 rows (Some (0, 0)) = None.
Proof.
  exists (NL 2 1 [Bond 0 0 1 1 (V3 1 0 0); Bond 1 0 1 1 (V3 0 1 0)] false [] []), [qid], 1%nat, [(0%nat, 0%nat)].
  assert (HE : execution 0 1 [(0%nat, 0%nat)]) by exact (sequential_execution 0 1 0).
  assert (HS : sorted_q [Bond 0 0 1 1 (V3 1 0 0); Bond 1 0 1 1 (V3 0 1 0)]).
  { intros i j Hij. simpl in Hij. destruct i as [|[|]], j as [|[|]]; simpl; lia. }
  split; [split; [exact HS|]; intros b [<-|[<-|[]]]; simpl; lia|]. split; [reflexivity|]. split; [reflexivity|]. split; [exact HE|]. split.
  { assert (N1 : norm (V3 1 0 0) = 1) by (unfold norm, dot; simpl; replace (1*1+0*0+0*0) with 1 by ring; apply sqrt_1).
    assert (N2 : norm (V3 0 1 0) = 1) by (unfold norm, dot; simpl; replace (0*0+1*1+0*0) with 1 by ring; apply sqrt_1).
    intros b [<-|[<-|[]]]; simpl; (split; [auto|intros E; injection E; lra]). }
  intros diag sph. destruct (ld_compute_ok diag sph None Global [qid] (NL 2 1 [Bond 0 0 1 1 (V3 1 0 0); Bond 1 0 1 1 (V3 0 1 0)] false [] []) 1 0 HS) with (ev := [(0%nat, 0%nat)]) as (rows & E & L & V).
  - discriminate.
  - exact HE.
  - exists rows. split; [exact E|]. specialize (V 1%nat ltac:(simpl; lia)). simpl in V. rewrite <- V. apply nth_indep. rewrite L. simpl. lia.
Qed.
Example C47_ex : exists nl o np ev,
  valid_bonds (nl_nq nl) (nl_np nl) (nl_bonds nl) /\ (nl_nq nl <= np)%nat /\ (np <= length o)%nat /\ Forall unitq o /\ execution 0 np ev /\ nl_bonds nl <> [] /\ (forall b, In b (nl_bonds nl) -> bd b = norm (bv b) /\ bv b <> v0) /\ diag_ok (fun _ => rid).
Proof.
  exists (NL 1 1 [Bond 0 0 1 1 (V3 1 0 0)] false [] []), [qid], 1%nat, [(0%nat, 0%nat)].
  split; [split; [intros i j Hij; simpl in *; lia|intros b [<-|[]]; simpl; lia]|].
  split; [simpl; lia|]. split; [simpl; lia|]. split; [repeat constructor; apply unitq_id|]. split; [exact (sequential_execution 0 1 0)|].
  split; [discriminate|]. split; [|intros t; apply orth_id]. intros b [<-|[]]. simpl. split; [|intros E; injection E; lra].
  unfold norm, dot; simpl. replace (1*1+0*0+0*0) with 1 by ring. symmetry; apply sqrt_1.
Qed.
Print Assumptions C47_rows.
Print Assumptions C47_rotation_invariant.
