(** The windowed MSD through the Fourier transform equals its definition. *)
From Verif Require Import MsdModel.
From Coq Require Import Reals ZArith List Lra Lia.
Import ListNotations.
Local Open Scope R_scope.

(** * Finite sums *)
Lemma nsum_ext n f g : (forall i, (i < n)%nat -> f i = g i) -> nsum n f = nsum n g.
Proof. induction n; simpl; intros H; auto. rewrite IHn, H by (intros; auto); auto. Qed.
Lemma nsum_0 n f : (forall i, (i < n)%nat -> f i = 0) -> nsum n f = 0.
Proof. induction n; simpl; intros H; auto. rewrite IHn, H by (intros; auto); auto. lra. Qed.
Lemma nsum_plus n f g : nsum n (fun i => f i + g i) = nsum n f + nsum n g.
Proof. induction n; simpl; [lra|]. rewrite IHn. lra. Qed.
Lemma nsum_minus n f g : nsum n (fun i => f i - g i) = nsum n f - nsum n g.
Proof. induction n; simpl; [lra|]. rewrite IHn. lra. Qed.
Lemma nsum_opp n f : nsum n (fun i => - f i) = - nsum n f.
Proof. induction n; simpl; [lra|]. rewrite IHn. lra. Qed.
Lemma nsum_scale n c f : nsum n (fun i => c * f i) = c * nsum n f.
Proof. induction n; simpl; [lra|]. rewrite IHn. lra. Qed.
Lemma nsum_scale_r n c f : nsum n (fun i => f i * c) = nsum n f * c.
Proof. induction n; simpl; [lra|]. rewrite IHn. lra. Qed.
Lemma nsum_swap n m f : nsum n (fun i => nsum m (f i)) = nsum m (fun j => nsum n (fun i => f i j)).
Proof.
  induction n; simpl; [symmetry; apply nsum_0; auto|]. rewrite IHn, <- nsum_plus. reflexivity.
Qed.
Lemma nsum_prod n m f g : nsum n f * nsum m g = nsum n (fun i => nsum m (fun j => f i * g j)).
Proof. rewrite <- nsum_scale_r. apply nsum_ext. intros. rewrite nsum_scale. reflexivity. Qed.
Lemma nsum_add n m f : nsum (n + m) f = nsum n f + nsum m (fun i => f (n + i)%nat).
Proof. induction m; simpl; [rewrite Nat.add_0_r; lra|]. rewrite Nat.add_succ_r. simpl. rewrite IHm. lra. Qed.
Lemma nsum_first n f : nsum (S n) f = f 0%nat + nsum n (fun i => f (S i)).
Proof. replace (S n) with (1 + n)%nat by lia. rewrite nsum_add. simpl. lra. Qed.
(** A sum with one non-zero term. *)
Lemma nsum_pick n i f : (i < n)%nat -> nsum n (fun j => if (j =? i)%nat then f j else 0) = f i.
Proof.
  induction n; intros H; [lia|]. simpl. destruct (Nat.eqb_spec n i).
  - subst. rewrite nsum_0; [lra|]. intros j Hj. destruct (Nat.eqb_spec j i); [lia|reflexivity].
  - rewrite IHn by lia. lra.
Qed.
Lemma nsum_const n c : nsum n (fun _ => c) = INR n * c.
Proof. induction n; [simpl; lra|]. rewrite S_INR. simpl nsum. rewrite IHn. lra. Qed.

(** * Orthogonality of the discrete exponentials *)
Lemma cos_telescope n t : 2 * sin (t / 2) * nsum n (fun k => cos (INR k * t)) = sin ((INR n - / 2) * t) + sin (t / 2).
Proof.
  induction n as [|n IH].
  - simpl. replace ((0 - / 2) * t) with (- (t / 2)) by lra. rewrite sin_neg. lra.
  - simpl nsum. rewrite Rmult_plus_distr_l, IH, S_INR.
    replace ((INR n + 1 - / 2) * t) with (INR n * t + t / 2) by lra. replace ((INR n - / 2) * t) with (INR n * t - t / 2) by lra.
    rewrite sin_plus, sin_minus. ring.
Qed.
Lemma sum_cos n (d : Z) : (0 < n)%nat -> (- Z.of_nat n < d < Z.of_nat n)%Z ->
  nsum n (fun k => cos (2 * PI * INR k * IZR d / INR n)) = if (d =? 0)%Z then INR n else 0.
Proof.
  intros Hn Hd. assert (Pn : 0 < INR n) by (apply lt_0_INR; lia). destruct (Z.eqb_spec d 0) as [->|ND].
  - rewrite (nsum_ext _ _ (fun _ => 1)); [rewrite nsum_const; ring|]. intros k _. replace (2 * PI * INR k * 0 / INR n) with 0 by (field; lra). apply cos_0.
  - set (t := 2 * PI * IZR d / INR n). rewrite (nsum_ext _ _ (fun k => cos (INR k * t))) by (intros; f_equal; unfold t; field; lra).
    assert (T := cos_telescope n t). replace ((INR n - / 2) * t) with (- (t / 2) + 2 * IZR d * PI) in T by (unfold t; field; lra).
    assert (E : sin (- (t / 2) + 2 * IZR d * PI) = sin (- (t / 2))).
    { destruct d as [|p|p]; [congruence| |].
      - replace (IZR (Z.pos p)) with (INR (Pos.to_nat p)) by (rewrite INR_IZR_INZ, positive_nat_Z; reflexivity). apply sin_period.
      - replace (IZR (Z.neg p)) with (- INR (Pos.to_nat p)) by (rewrite INR_IZR_INZ, positive_nat_Z, <- opp_IZR; reflexivity).
        rewrite <- (sin_period (- (t / 2) + 2 * - INR (Pos.to_nat p) * PI) (Pos.to_nat p)). f_equal. ring. }
    rewrite E, sin_neg in T. assert (NZ : sin (t / 2) <> 0).
    { assert (PP := PI_RGT_0). assert (Hr : - INR n < IZR d < INR n) by (rewrite INR_IZR_INZ, <- opp_IZR; split; apply IZR_lt; lia).
      replace (t / 2) with (PI * (IZR d / INR n)) by (unfold t; field; lra).
      assert (U : IZR d / INR n * INR n = IZR d) by (field; lra). set (u := IZR d / INR n) in *.
      assert (-1 < u < 1) by (split; nra). destruct (Rtotal_order u 0) as [L|[Z0|G]].
      - intros X. assert (0 < sin (- (PI * u))) by (apply sin_gt_0; nra). rewrite sin_neg in H0. lra.
      - exfalso. apply ND. apply eq_IZR. nra.
      - intros X. assert (0 < sin (PI * u)) by (apply sin_gt_0; nra). lra. }
    apply (Rmult_eq_reg_l (2 * sin (t / 2))); [rewrite T; ring|]. lra.
Qed.
Lemma sum_coscos n (d : Z) (j : nat) : (0 < n)%nat -> (- Z.of_nat n < d + Z.of_nat j < Z.of_nat n)%Z -> (- Z.of_nat n < d - Z.of_nat j < Z.of_nat n)%Z ->
  nsum n (fun k => cos (2 * PI * INR k * IZR d / INR n) * cos (2 * PI * INR k * INR j / INR n)) =
  INR n / 2 * ((if (d =? - Z.of_nat j)%Z then 1 else 0) + (if (d =? Z.of_nat j)%Z then 1 else 0)).
Proof.
  intros Hn H1 H2. assert (Pn : 0 < INR n) by (apply lt_0_INR; lia).
  rewrite (nsum_ext _ _ (fun k => / 2 * (cos (2 * PI * INR k * IZR (d + Z.of_nat j) / INR n) + cos (2 * PI * INR k * IZR (d - Z.of_nat j) / INR n)))).
  - rewrite nsum_scale, nsum_plus, !sum_cos by auto.
    replace (d + Z.of_nat j =? 0)%Z with (d =? - Z.of_nat j)%Z by (destruct (Z.eqb_spec d (- Z.of_nat j)), (Z.eqb_spec (d + Z.of_nat j) 0); auto; lia).
    replace (d - Z.of_nat j =? 0)%Z with (d =? Z.of_nat j)%Z by (destruct (Z.eqb_spec d (Z.of_nat j)), (Z.eqb_spec (d - Z.of_nat j) 0); auto; lia).
    destruct (d =? - Z.of_nat j)%Z, (d =? Z.of_nat j)%Z; field.
  - intros k _. rewrite plus_IZR, minus_IZR, <- INR_IZR_INZ.
    replace (2 * PI * INR k * (IZR d + INR j) / INR n) with (2 * PI * INR k * IZR d / INR n + 2 * PI * INR k * INR j / INR n) by (field; lra).
    replace (2 * PI * INR k * (IZR d - INR j) / INR n) with (2 * PI * INR k * IZR d / INR n - 2 * PI * INR k * INR j / INR n) by (field; lra).
    rewrite cos_plus, cos_minus. field.
Qed.

(** * The autocorrelation *)
Lemma nsum_padded n len x g : (len <= n)%nat -> nsum n (fun t => padded len x t * g t) = nsum len (fun t => x t * g t).
Proof.
  intros H. replace n with (len + (n - len))%nat by lia. rewrite nsum_add, (nsum_0 (n - len)).
  - rewrite Rplus_0_r. apply nsum_ext. intros i Hi. unfold padded. destruct (Nat.ltb_spec i len); [reflexivity|lia].
  - intros i Hi. unfold padded. destruct (Nat.ltb_spec (len + i) len); [lia|ring].
Qed.
Lemma power_spectrum n len x k : (len <= n)%nat -> (0 < n)%nat -> c_mul (fft n len x k) (c_conj (fft n len x k)) =
  (nsum len (fun s => nsum len (fun t => x s * x t * cos (2 * PI * INR k * IZR (Z.of_nat t - Z.of_nat s) / INR n))), 0).
Proof.
  intros H Hn. assert (Pn : 0 < INR n) by (apply lt_0_INR; lia). unfold c_mul, c_conj, fft; simpl. f_equal; [|ring].
  rewrite nsum_opp, !nsum_padded by exact H. set (C := nsum len _). set (S := nsum len (fun t => x t * sin _)).
  transitivity (C * C + S * S); [ring|]. unfold C, S. rewrite !nsum_prod, <- nsum_plus. apply nsum_ext. intros s _. rewrite <- nsum_plus. apply nsum_ext. intros t _.
  rewrite minus_IZR, <- !INR_IZR_INZ.
  replace (2 * PI * INR k * (INR t - INR s) / INR n) with (2 * PI * INR k * INR t / INR n - 2 * PI * INR k * INR s / INR n) by (field; lra).
  rewrite cos_minus. ring.
Qed.
Lemma half_sum N m x : (m <= N)%nat -> nsum N (fun s => nsum N (fun t => x s * x t * (if (Z.of_nat t - Z.of_nat s =? Z.of_nat m)%Z then 1 else 0))) = nsum (N - m) (fun k => x k * x (k + m)%nat).
Proof.
  intros H. rewrite <- (Nat.sub_add m N) at 1 by exact H. rewrite nsum_add. rewrite (nsum_0 m).
  - rewrite Rplus_0_r. apply nsum_ext. intros s Hs. rewrite <- (nsum_pick N (s + m) (fun t => x s * x t)) by lia. apply nsum_ext. intros t _.
    destruct (Z.eqb_spec (Z.of_nat t - Z.of_nat s) (Z.of_nat m)), (Nat.eqb_spec t (s + m)); try lia; ring.
  - intros s Hs. apply nsum_0. intros t Ht. destruct (Z.eqb_spec (Z.of_nat t - Z.of_nat (N - m + s)) (Z.of_nat m)); [lia|ring].
Qed.
Lemma autocorrelation_spec N x m : (m < N)%nat -> autocorrelation N x m = nsum (N - m) (fun k => x k * x (k + m)%nat) / INR (N - m).
Proof.
  intros H. unfold autocorrelation. cbv zeta. f_equal.
  2:{ f_equal. rewrite rev_nth by (rewrite seq_length; lia). rewrite seq_length, seq_nth by lia. lia. }
  unfold ifft; cbn [fst]. assert (Hn : (0 < 2 * N)%nat) by lia. assert (Pn : 0 < INR (2 * N)) by (apply lt_0_INR; lia). set (n := (2 * N)%nat) in *.
  rewrite (nsum_ext _ _ (fun k => nsum N (fun s => nsum N (fun t => x s * x t * (cos (2 * PI * INR k * IZR (Z.of_nat t - Z.of_nat s) / INR n) * cos (2 * PI * INR k * INR m / INR n)))))).
  - rewrite nsum_swap. rewrite (nsum_ext _ _ (fun s => INR n / 2 * (nsum N (fun t => x s * x t * (if (Z.of_nat t - Z.of_nat s =? - Z.of_nat m)%Z then 1 else 0)) +
      nsum N (fun t => x s * x t * (if (Z.of_nat t - Z.of_nat s =? Z.of_nat m)%Z then 1 else 0))))).
    + rewrite nsum_scale, nsum_plus, half_sum by lia. rewrite (nsum_swap N N (fun s t => x s * x t * (if (Z.of_nat t - Z.of_nat s =? - Z.of_nat m)%Z then 1 else 0))).
      rewrite (nsum_ext N (fun j => nsum N (fun i => x i * x j * (if (Z.of_nat j - Z.of_nat i =? - Z.of_nat m)%Z then 1 else 0)))
        (fun s => nsum N (fun t => x s * x t * (if (Z.of_nat t - Z.of_nat s =? Z.of_nat m)%Z then 1 else 0)))).
      * rewrite half_sum by lia. field. lra.
      * intros s _. apply nsum_ext. intros t _. destruct (Z.eqb_spec (Z.of_nat s - Z.of_nat t) (- Z.of_nat m)), (Z.eqb_spec (Z.of_nat t - Z.of_nat s) (Z.of_nat m)); try lia; ring.
    + intros s Hs. rewrite nsum_swap, <- nsum_plus, <- nsum_scale. apply nsum_ext. intros t Ht. rewrite nsum_scale, sum_coscos by (unfold n in *; lia). ring.
  - intros k _. rewrite power_spectrum by (unfold n; lia). cbn [fst snd]. rewrite Rmult_0_l, Rminus_0_r, <- nsum_scale_r. apply nsum_ext. intros s _.
    rewrite <- nsum_scale_r. apply nsum_ext. intros t _. ring.
Qed.

(** * The first term *)
Lemma Q_spec N D m : (forall t, (N <= t)%nat -> D t = 0) -> (m < N)%nat -> Q_after N D m = nsum (N - m) (fun k => D (k + m)%nat + D k).
Proof.
  intros Z0 H. assert (E0 : nsum (2 * N) D = nsum N D).
  { replace (2 * N)%nat with (N + N)%nat by lia. rewrite nsum_add, (nsum_0 N (fun i => D (N + i)%nat)); [ring|]. intros; apply Z0; lia. }
  induction m as [|m IH].
  - cbn [Q_after]. rewrite (Z0 (py_index _ _)) by (unfold py_index; destruct (Z.ltb_spec (Z.of_nat 0 - 1) 0); lia). rewrite Nat.sub_0_r, (Z0 N) by lia.
    rewrite E0, nsum_plus, (nsum_ext N (fun k => D (k + 0)%nat) D) by (intros; f_equal; lia). ring.
  - cbn [Q_after]. rewrite IH by lia. replace (py_index (2 * N) (Z.of_nat (S m) - 1)) with m by (unfold py_index; destruct (Z.ltb_spec (Z.of_nat (S m) - 1) 0); lia).
    replace (N - m)%nat with (S (N - S m)) by lia. rewrite !nsum_plus, (nsum_first _ (fun k => D (k + m)%nat)). simpl nsum at 2. simpl plus.
    rewrite (nsum_ext _ (fun i => D (S i + m)%nat) (fun k => D (k + S m)%nat)) by (intros; f_equal; lia). ring.
Qed.

(** * The window column *)
Lemma window_column_spec N r m : (m < N)%nat ->
  window_column N r m = nsum (N - m) (fun k => let u := r (k + m)%nat in let v := r k in (vx u - vx v) * (vx u - vx v) + (vy u - vy v) * (vy u - vy v) + (vz u - vz v) * (vz u - vz v)) / INR (N - m).
Proof.
  intros H. unfold window_column, S1_of, S2_of. rewrite !autocorrelation_spec by exact H. assert (DZ : forall t, (N <= t)%nat -> D_of N r t = 0) by (intros t Ht; unfold D_of; destruct (Nat.ltb_spec t N); [lia|reflexivity]). rewrite Q_spec by assumption.
  assert (P : 0 < INR (N - m)) by (apply lt_0_INR; lia). cbv zeta.
  set (a := nsum (N - m) (fun k => vx (r k) * _)). set (b := nsum (N - m) (fun k => vy (r k) * _)). set (c := nsum (N - m) (fun k => vz (r k) * _)).
  transitivity ((nsum (N - m) (fun k => D_of N r (k + m) + D_of N r k) - 2 * (a + b + c)) / INR (N - m)); [field; lra|]. f_equal.
  unfold a, b, c. rewrite <- !nsum_plus, <- nsum_scale, <- nsum_minus. apply nsum_ext. intros k Hk. unfold D_of.
  destruct (Nat.ltb_spec (k + m) N); [|lia]. destruct (Nat.ltb_spec k N); [|lia]. ring.
Qed.
