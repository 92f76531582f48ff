(** Proofs about directions: the computed angles are the spherical coordinates. *)
From Verif Require Import SphSpec QuatProofs QuatProps MatchEnvProofs BoxProofs BoxPyProofs Vec.
From Coq Require Import Lra Lia.
Local Open Scope R_scope.

Lemma norm_pos v : v <> v0 -> 0 < norm v.
Proof.
  intros H. destruct (Rle_lt_or_eq_dec _ _ (norm_nonneg v)) as [|E]; auto. exfalso. apply H.
  assert (D : dot v v = 0) by (rewrite <- norm_sq, <- E; ring). unfold dot in D.
  pose proof (Rle_0_sqr (vx v)). pose proof (Rle_0_sqr (vy v)). pose proof (Rle_0_sqr (vz v)). unfold Rsqr in *.
  apply vec_eq; simpl; apply Rsqr_0_uniq; unfold Rsqr; lra.
Qed.
Lemma vz_ratio v : v <> v0 -> -1 <= vz v / norm v <= 1.
Proof.
  intros H. pose proof (norm_pos v H) as N. pose proof (norm_sq v) as S. unfold dot in S.
  pose proof (Rle_0_sqr (vx v)). pose proof (Rle_0_sqr (vy v)). unfold Rsqr in *.
  assert (A : - norm v <= vz v <= norm v) by (split; nra).
  split; apply (Rmult_le_reg_r (norm v)); auto; unfold Rdiv; rewrite Rmult_assoc, Rinv_l; lra.
Qed.
Lemma azimuth_trig v : cos (azimuth v) = cos (atan2 (vy v) (vx v)) /\ sin (azimuth v) = sin (atan2 (vy v) (vx v)).
Proof.
  unfold azimuth. rewrite modulus_positive_floor by (pose proof PI_RGT_0; lra).
  set (a := atan2 _ _). set (k := Zfloor _).
  replace (a - 2 * PI * IZR k) with (a + 2 * PI * IZR (- k)) by (rewrite opp_IZR; ring).
  split; [apply cos_period_Z|apply sin_period_Z].
Qed.
Lemma atan2_00 : atan2 0 0 = 0.
Proof. unfold atan2. destruct (Rltb_spec 0 0); [lra|]. destruct (Rltb_spec 0 0); [lra|]. reflexivity. Qed.

Lemma sph_direction v : v <> v0 -> direction v (azimuth v) (polar v).
Proof.
  intros H. pose proof (norm_pos v H) as N. pose proof (vz_ratio v H) as Z. pose proof PI_RGT_0 as P.
  split; [apply modulus_positive_range; lra|]. split; [apply acos_bound|].
  unfold polar. fold (norm v). assert (C : cos (acos (vz v / norm v)) = vz v / norm v) by (apply cos_acos; lra).
  assert (S0 : 0 <= sin (acos (vz v / norm v))) by (apply sin_ge_0; apply acos_bound).
  assert (S2 := sin2_cos2 (acos (vz v / norm v))). unfold Rsqr in S2. rewrite C in *.
  set (s := sin (acos (vz v / norm v))) in *. destruct (azimuth_trig v) as [Ec Es]. rewrite Ec, Es.
  assert (NN := norm_sq v). unfold dot in NN.
  assert (NS : (norm v * s) * (norm v * s) = vx v * vx v + vy v * vy v).
  { replace ((norm v * s) * (norm v * s)) with (norm v * norm v * (s * s)) by ring.
    replace (s * s) with (1 - vz v / norm v * (vz v / norm v)) by lra.
    replace (norm v * norm v * (1 - vz v / norm v * (vz v / norm v))) with (norm v * norm v - vz v * vz v) by (field; lra). lra. }
  assert (NS0 : 0 <= norm v * s) by (apply Rmult_le_pos; lra).
  assert (XY : vx v = norm v * s * cos (atan2 (vy v) (vx v)) /\ vy v = norm v * s * sin (atan2 (vy v) (vx v))).
  { destruct (Req_dec (vx v) 0) as [X|X]; [destruct (Req_dec (vy v) 0) as [Y|Y]|].
    - rewrite X, Y in *. assert (norm v * s = 0) as -> by (apply Rsqr_0_uniq; unfold Rsqr; lra). lra.
    - destruct (atan2_polar (vy v) (vx v)) as (r & Hr & Ex & Ey); [right; auto|].
      assert (r = norm v * s) as <-; [|split; assumption].
      apply Rsqr_inj; [lra|lra|]. unfold Rsqr. rewrite NS. set (t := atan2 (vy v) (vx v)) in *. clearbody t. clear Ec Es.
      pose proof (sin2_cos2 t) as Q. unfold Rsqr in Q. rewrite Ex, Ey.
      replace (r * cos t * (r * cos t) + r * sin t * (r * sin t)) with (r * r * (sin t * sin t + cos t * cos t)) by ring. rewrite Q. ring.
    - destruct (atan2_polar (vy v) (vx v)) as (r & Hr & Ex & Ey); [left; auto|].
      assert (r = norm v * s) as <-; [|split; assumption].
      apply Rsqr_inj; [lra|lra|]. unfold Rsqr. rewrite NS. set (t := atan2 (vy v) (vx v)) in *. clearbody t. clear Ec Es.
      pose proof (sin2_cos2 t) as Q. unfold Rsqr in Q. rewrite Ex, Ey.
      replace (r * cos t * (r * cos t) + r * sin t * (r * sin t)) with (r * r * (sin t * sin t + cos t * cos t)) by ring. rewrite Q. ring. }
  split.
  - destruct XY as [X Y]. apply vec_eq; simpl; [rewrite X at 1; ring|rewrite Y at 1; ring|field; lra].
  - intros X Y. unfold azimuth. rewrite X, Y, atan2_00, modulus_positive_floor by lra.
    replace (0 / (2 * PI)) with (IZR 0) by (unfold Rdiv; ring). rewrite Zfloor_IZR. ring.
Qed.

Lemma direction_unique v t p t' p' : v <> v0 -> direction v t p -> direction v t' p' -> t = t' /\ p = p'.
Proof.
  intros H (Ht & Hp & E & Z) (Ht' & Hp' & E' & Z'). pose proof (norm_pos v H) as N.
  assert (C : cos p = cos p').
  { assert (vz v = norm v * cos p) by (rewrite E at 1; reflexivity). assert (vz v = norm v * cos p') by (rewrite E' at 1; reflexivity).
    apply (Rmult_eq_reg_l (norm v)); lra. }
  assert (Ep : p = p') by (rewrite <- (acos_cos p), <- (acos_cos p'), C; auto). split; [|exact Ep]. subst p'.
  assert (X : vx v = norm v * (sin p * cos t)) by (rewrite E at 1; reflexivity).
  assert (Y : vy v = norm v * (sin p * sin t)) by (rewrite E at 1; reflexivity).
  assert (X' : vx v = norm v * (sin p * cos t')) by (rewrite E' at 1; reflexivity).
  assert (Y' : vy v = norm v * (sin p * sin t')) by (rewrite E' at 1; reflexivity).
  assert (S0 : 0 <= sin p) by (apply sin_ge_0; lra).
  destruct (Rle_lt_or_eq_dec _ _ S0) as [S|S].
  - assert (cos t = cos t') by (apply (Rmult_eq_reg_l (norm v * sin p)); [lra|apply Rgt_not_eq, Rmult_lt_0_compat; lra]).
    assert (sin t = sin t') by (apply (Rmult_eq_reg_l (norm v * sin p)); [lra|apply Rgt_not_eq, Rmult_lt_0_compat; lra]).
    destruct (polar_unique 1 1 t t') as (n & En); try lra.
    assert (n = 0)%Z; [|subst n; simpl in En; lra].
    assert (-1 < IZR n < 1) as [B1 B2] by (pose proof PI_RGT_0; split; nra). apply lt_IZR in B1, B2. lia.
  - rewrite Z, Z'; auto; rewrite ?X, ?Y, <- S; ring.
Qed.
