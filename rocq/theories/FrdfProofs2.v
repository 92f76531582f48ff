(** Relative errors of products, quotients and sums of non-negative numbers (C85). *)
From Coq Require Import Psatz Machin.
From Flocq Require Import Core Relative.
From Verif Require Import F32Proofs FaabbProofs2 FrdfSpec.
Open Scope R_scope.

(** [x] is [a] up to a relative error [d], both ways. *)
Definition near (d : R) (x : f32) (a : R) : Prop := finite x = true /\ a * (1 - d) <= val x /\ val x * (1 - d) <= a.
Definition okv (a : R) : Prop := a = 0 \/ bpow radix2 (-124) <= a <= bpow radix2 124.
Lemma okv_pos a : okv a -> 0 <= a.
Proof. intros [->|[H _]]; [lra|]. assert (P := bpow_gt_0 radix2 (-124)). lra. Qed.
Lemma bp_succ e : bpow radix2 (e + 1) = 2 * bpow radix2 e.
Proof. rewrite bpow_plus. change (bpow radix2 1) with 2. ring. Qed.
Lemma near_round d a y : okv a -> 0 <= d -> d + u <= / 2 -> a * (1 - d) <= y -> y * (1 - d) <= a ->
  fits y /\ a * (1 - (d + u)) <= rnd y /\ rnd y * (1 - (d + u)) <= a.
Proof.
  intros Ha Hd Hs H1 H2. assert (U : 0 < u < / 1000) by (unfold u; lra). assert (Pa := okv_pos a Ha). assert (Y : 0 <= y) by nra.
  destruct Ha as [->|[L H]].
  - assert (y = 0) by nra. subst y. unfold fits. rewrite rnd_0, Rabs_R0. split; [apply bpow_ge_0|]. lra.
  - assert (YL : a / 2 <= y) by nra. assert (YH : y <= 2 * a) by nra.
    assert (E1 := bp_succ (-125)). assert (E2 := bp_succ 124). change (-125 + 1)%Z with (-124)%Z in E1. change (124 + 1)%Z with 125%Z in E2.
    assert (E3 : bpow radix2 (-126) <= bpow radix2 (-125)) by (apply bpow_le; lia). assert (E4 : bpow radix2 125 <= bpow radix2 127) by (apply bpow_le; lia).
    split; [unfold fits; rewrite Rabs_pos_eq; lra|].
    destruct (rnd_rel y) as (e & E & ->). { rewrite Rabs_pos_eq; lra. }
    apply Rabs_le_inv in E. assert (M1 : (1 - d) * (1 - u) >= 1 - (d + u)) by nra. assert (M2 : (1 + e) * (1 - u) <= 1) by nra. split.
    + apply Rle_trans with (a * (1 - d) * (1 - u)); [nra|]. apply Rle_trans with (y * (1 - u)); [apply Rmult_le_compat_r; lra|apply Rmult_le_compat_l; lra].
    + apply Rle_trans with (y * (1 + e) * ((1 - d) * (1 - u))); [apply Rmult_le_compat_l; [apply Rmult_le_pos; lra|lra]|].
      replace (y * (1 + e) * ((1 - d) * (1 - u))) with (y * (1 - d) * ((1 + e) * (1 - u))) by ring. assert (0 <= y * (1 - d)) by nra. nra.
Qed.
Lemma near_nonneg d x a : d <= / 2 -> 0 <= a -> near d x a -> 0 <= val x.
Proof. intros Hd Ha (_ & H & _). nra. Qed.
Lemma near_weak d d' x a : 0 <= a -> d <= d' -> d' <= / 2 -> near d x a -> near d' x a.
Proof. intros Ha H1 H2 (F & A & B). split; auto. assert (0 <= val x) by nra. split; nra. Qed.
Lemma near_exact x : finite x = true -> 0 <= val x -> near 0 x (val x).
Proof. intros F H. split; auto. lra. Qed.
Lemma near_mul d e x y a b : 0 <= a -> 0 <= b -> okv (a * b) -> 0 <= d -> 0 <= e -> d + e + u <= / 2 -> near d x a -> near e y b -> near (d + e + u) (fmul x y) (a * b).
Proof.
  intros Ha Hb Hab Hd He Hs Nx Ny. assert (U := u_pos). assert (Px := near_nonneg d x a ltac:(lra) Ha Nx). assert (Py := near_nonneg e y b ltac:(lra) Hb Ny).
  destruct Nx as (Fx & A1 & A2), Ny as (Fy & B1 & B2).
  assert (M : 1 - (d + e) <= (1 - d) * (1 - e)) by nra. assert (M0 : 0 <= 1 - (d + e)) by lra.
  destruct (near_round (d + e) (a * b) (val x * val y) Hab) as (R1 & R2 & R3); try lra.
  - apply Rle_trans with ((a * (1 - d)) * (b * (1 - e))); [replace (a * (1 - d) * (b * (1 - e))) with (a * b * ((1 - d) * (1 - e))) by ring; apply Rmult_le_compat_l; [apply Rmult_le_pos; auto|auto]|].
    apply Rmult_le_compat; try (apply Rmult_le_pos; lra); auto.
  - apply Rle_trans with ((val x * (1 - d)) * (val y * (1 - e))); [replace (val x * (1 - d) * (val y * (1 - e))) with (val x * val y * ((1 - d) * (1 - e))) by ring; apply Rmult_le_compat_l; [apply Rmult_le_pos; auto|auto]|].
    apply Rmult_le_compat; try (apply Rmult_le_pos; lra); auto.
  - destruct (is_mul x y Fx Fy R1) as [F V]. split; auto. rewrite V. lra.
Qed.
Lemma near_div d e x y a b : 0 <= a -> 0 < b -> okv (a / b) -> 0 <= d -> 0 <= e -> d + e + u <= / 2 -> near d x a -> near e y b -> near (d + e + u) (fdiv x y) (a / b).
Proof.
  intros Ha Hb Hab Hd He Hs Nx Ny. assert (U := u_pos). assert (Px := near_nonneg d x a ltac:(lra) Ha Nx).
  destruct Nx as (Fx & A1 & A2), Ny as (Fy & B1 & B2). assert (Py : 0 < val y) by nra.
  assert (M : 1 - (d + e) <= (1 - d) * (1 - e)) by nra. assert (M0 : 0 <= 1 - (d + e)) by lra. assert (Ib : 0 < / b) by (apply Rinv_0_lt_compat; auto). assert (Iy : 0 < / val y) by (apply Rinv_0_lt_compat; auto).
  assert (K1 : / b * (1 - e) <= / val y). { apply Rmult_le_reg_l with (b * val y); [apply Rmult_lt_0_compat; auto|]. replace (b * val y * (/ b * (1 - e))) with (val y * (1 - e)) by (field; lra). replace (b * val y * / val y) with b by (field; lra). auto. }
  assert (K2 : / val y * (1 - e) <= / b). { apply Rmult_le_reg_l with (b * val y); [apply Rmult_lt_0_compat; auto|]. replace (b * val y * (/ val y * (1 - e))) with (b * (1 - e)) by (field; lra). replace (b * val y * / b) with (val y) by (field; lra). auto. }
  destruct (near_round (d + e) (a / b) (val x / val y) Hab) as (R1 & R2 & R3); try lra; unfold Rdiv in *.
  - apply Rle_trans with ((a * (1 - d)) * (/ b * (1 - e))); [replace (a * (1 - d) * (/ b * (1 - e))) with (a * / b * ((1 - d) * (1 - e))) by ring; apply Rmult_le_compat_l; [apply Rmult_le_pos; lra|auto]|].
    apply Rmult_le_compat; try (apply Rmult_le_pos; lra); auto.
  - apply Rle_trans with ((val x * (1 - d)) * (/ val y * (1 - e))); [replace (val x * (1 - d) * (/ val y * (1 - e))) with (val x * / val y * ((1 - d) * (1 - e))) by ring; apply Rmult_le_compat_l; [apply Rmult_le_pos; lra|auto]|].
    apply Rmult_le_compat; try (apply Rmult_le_pos; lra); auto.
  - destruct (is_div x y Fx ltac:(lra) R1) as [F V]. split; auto. rewrite V. lra.
Qed.
Lemma near_add d x y a b : 0 <= a -> 0 <= b -> okv (a + b) -> 0 <= d -> d + u <= / 2 -> near d x a -> near d y b -> near (d + u) (fadd x y) (a + b).
Proof.
  intros Ha Hb Hab Hd Hs (Fx & A1 & A2) (Fy & B1 & B2). destruct (near_round d (a + b) (val x + val y) Hab) as (R1 & R2 & R3); try lra.
  destruct (is_add x y Fx Fy R1) as [F V]. split; auto. rewrite V. lra.
Qed.
Lemma near_count z : (0 <= z < 2 ^ 32)%Z -> near u (fcount z) (IZR z).
Proof.
  intros H. assert (U := u_pos). assert (U' : u <= / 4) by (unfold u; lra).
  assert (O : okv (IZR z)). { destruct (Z.eq_dec z 0) as [->|N]; [left; auto|right]. assert (L := bpow_le radix2 (-124) 0 ltac:(lia)). change (bpow radix2 0) with 1 in L. assert (K := bpow_le radix2 32 124 ltac:(lia)).
    assert (IZR 1 <= IZR z) by (apply IZR_le; lia). assert (IZR z <= IZR (2 ^ 32)) by (apply IZR_le; lia). change (IZR (2 ^ 32)) with (bpow radix2 32) in *. lra. }
  destruct (near_round 0 (IZR z) (IZR z) O) as (R1 & R2 & R3); try lra. assert (E : IZR z * bpow radix2 0 = IZR z) by (cbn; lra).
  destruct (is_lit z 0) as [F V]; [rewrite E; exact R1|]. rewrite E in V. split; auto. unfold fcount. rewrite V. rewrite Rplus_0_l in R2, R3. auto.
Qed.
Lemma near_bound d x a : 0 <= a -> 0 <= d -> d <= / 2 -> near d x a -> Rabs (val x - a) * (1 - d) <= d * a.
Proof.
  intros Ha Hd Hh N. assert (P := near_nonneg d x a Hh Ha N). destruct N as (_ & A & B). unfold Rabs. destruct (Rcase_abs (val x - a)); nra.
Qed.
(** The difference of two such numbers. *)
Lemma near_sub d x y a b r : 0 <= b -> b < a -> 0 <= d -> d <= / 1000 -> a <= r * (a - b) -> 1 <= r -> fits (val x - val y) -> near d x a -> near d y b ->
  finite (fsub x y) = true /\ Rabs (val (fsub x y) - (a - b)) <= (2.01 * d + u) * r * (a - b).
Proof.
  intros Hb Hab Hd Hs Hr H1 HF Nx Ny. assert (Bx := near_bound d x a ltac:(lra) Hd ltac:(lra) Nx). assert (By := near_bound d y b Hb Hd ltac:(lra) Ny).
  destruct Nx as (Fx & _), Ny as (Fy & _). destruct (is_sub x y Fx Fy HF) as [F V]. split; auto. rewrite V.
  destruct (rnd_minus (val x) (val y) (fmt_val _) (fmt_val _)) as (e & E & ->). apply Rabs_le_inv in E. assert (U : 0 < u < / 10000) by (unfold u; lra).
  set (dx := val x - a) in *. set (dy := val y - b) in *. replace ((val x - val y) * (1 + e) - (a - b)) with ((dx - dy) * (1 + e) + (a - b) * e) by (unfold dx, dy; ring).
  assert (X : Rabs dx <= 1.002 * d * a). { apply Rmult_le_reg_r with (1 - d); [lra|]. eapply Rle_trans; [exact Bx|]. assert (0 <= d * a) by (apply Rmult_le_pos; lra). nra. }
  assert (Y : Rabs dy <= 1.002 * d * b). { apply Rmult_le_reg_r with (1 - d); [lra|]. eapply Rle_trans; [exact By|]. assert (0 <= d * b) by (apply Rmult_le_pos; lra). nra. }
  eapply Rle_trans; [apply Rabs_triang|]. rewrite !Rabs_mult, (Rabs_pos_eq (a - b)), (Rabs_pos_eq (1 + e)) by lra.
  assert (W : Rabs (dx - dy) <= 2.004 * d * a). { eapply Rle_trans; [apply Rabs_triang|]. rewrite Rabs_Ropp. assert (d * b <= d * a) by (apply Rmult_le_compat_l; lra). nra. }
  assert (E' : Rabs e <= u) by (apply Rabs_le; lra). assert (P : 0 <= d * a) by (apply Rmult_le_pos; lra).
  assert (W2 : Rabs (dx - dy) * (1 + e) <= 2.01 * (d * a)). { apply Rle_trans with (2.004 * d * a * (1 + u)); [apply Rmult_le_compat; try lra; apply Rabs_pos|nra]. }
  assert (W3 : d * a <= d * (r * (a - b))) by (apply Rmult_le_compat_l; lra). assert (W4 : (a - b) * Rabs e <= u * (r * (a - b))). { assert (K : 1 * (a - b) <= r * (a - b)) by (apply Rmult_le_compat_r; lra). apply Rle_trans with ((a - b) * u); [apply Rmult_le_compat_l; lra|nra]. }
  nra.
Qed.
Lemma near_of_rel (x : f32) s eta : 0 <= s -> 0 <= eta <= 1 -> finite x = true -> Rabs (val x - s) <= eta * s -> near eta x s.
Proof. intros Hs He F H. apply Rabs_le_inv in H. split; auto. assert (0 <= eta * eta * s) by (apply Rmult_le_pos; auto; nra). split; nra. Qed.

(** * Double precision and pi *)
Notation dval := (@B2R 53 1024).
Notation dfinite := (@is_finite 53 1024).
Notation drnd := (round radix2 (SpecFloat.fexp 53 1024) ZnearestE).
Lemma pi_bounds_fine : 3.1415926535 <= PI <= 3.1415926537.
Proof.
  destruct (PI_2_3_7_ineq 5) as [A B]. unfold tg_alt, PI_2_3_7_tg, Ratan_seq in A, B. cbn [sum_f_R0 Nat.mul Nat.add pow INR] in A, B. split; lra.
Qed.
Lemma pi_bounds : 3.1415926 <= PI <= 3.1415927. Proof. assert (H := pi_bounds_fine). lra. Qed.
Lemma norm_val53 m e s : Rabs (drnd (IZR m * bpow radix2 e)) < bpow radix2 1024 ->
  dfinite (binary_normalize 53 1024 prec_gt_0_53 prec_lt_emax_53 mode_NE m e s) = true /\ dval (binary_normalize 53 1024 prec_gt_0_53 prec_lt_emax_53 mode_NE m e s) = drnd (IZR m * bpow radix2 e).
Proof.
  intros H. assert (C := binary_normalize_correct 53 1024 prec_gt_0_53 prec_lt_emax_53 mode_NE m e s). cbv zeta in C. change (round_mode mode_NE) with ZnearestE in C. unfold F2R in C. cbn [Fnum Fexp] in C.
  rewrite Rlt_bool_true in C by exact H. destruct C as (C1 & C2 & _). auto.
Qed.
Lemma norm_val24 m e s : Rabs (rnd (IZR m * bpow radix2 e)) < bpow radix2 128 ->
  finite (binary_normalize 24 128 prec_gt_0_24 prec_lt_emax_24 mode_NE m e s) = true /\ val (binary_normalize 24 128 prec_gt_0_24 prec_lt_emax_24 mode_NE m e s) = rnd (IZR m * bpow radix2 e).
Proof.
  intros H. assert (C := binary_normalize_correct 24 128 prec_gt_0_24 prec_lt_emax_24 mode_NE m e s). cbv zeta in C. change (round_mode mode_NE) with ZnearestE in C. unfold F2R in C. cbn [Fnum Fexp] in C.
  rewrite Rlt_bool_true in C by exact H. destruct C as (C1 & C2 & _). auto.
Qed.
Lemma dfmt_F2R m e : (Z.abs m < 2 ^ 53)%Z -> (-1074 <= e)%Z -> generic_format radix2 (SpecFloat.fexp 53 1024) (IZR m * bpow radix2 e).
Proof. intros Hm He. change (SpecFloat.fexp 53 1024) with (FLT_exp (-1074) 53). apply generic_format_FLT. exists (Float radix2 m e); [reflexivity|exact Hm|exact He]. Qed.
Lemma to_double_val (x : f32) : finite x = true -> dfinite (to_double x) = true /\ dval (to_double x) = val x.
Proof.
  intros F. destruct x as [s|s| |s m e H]; try discriminate; [split; reflexivity|]. cbn [to_double].
  set (z := if s then Z.neg m else Z.pos m). assert (V : val (B754_finite s m e H) = IZR z * bpow radix2 e) by (unfold z; destruct s; reflexivity). rewrite V.
  assert (FX : drnd (IZR z * bpow radix2 e) = IZR z * bpow radix2 e).
  { apply round_generic; [typeclasses eauto|]. rewrite <- V. assert (G := fmt_val (B754_finite s m e H)). apply FLT_format_generic in G; [|typeclasses eauto]. destruct G as [[m' e'] E M Ee]. cbn [Fnum Fexp] in *. rewrite E.
    apply (dfmt_F2R m' e'); [change (radix_val radix2 ^ 24)%Z with 16777216%Z in M; change (2 ^ 53)%Z with 9007199254740992%Z; clear -M; eapply Z.lt_trans; [exact M|reflexivity]|unfold SpecFloat.emin in Ee; lia]. }
  rewrite <- FX. apply norm_val53. rewrite FX, <- V. eapply Rlt_le_trans; [apply abs_B2R_lt_emax|]. apply bpow_le. lia.
Qed.
Lemma to_float_val (x : f64) : dfinite x = true -> fits (dval x) -> finite (to_float x) = true /\ val (to_float x) = rnd (dval x).
Proof.
  intros F B. destruct x as [s|s| |s m e H]; try discriminate; [split; [reflexivity|cbn; symmetry; apply rnd_0]|]. cbn [to_float].
  set (z := if s then Z.neg m else Z.pos m). assert (V : dval (B754_finite s m e H) = IZR z * bpow radix2 e) by (unfold z; destruct s; reflexivity). rewrite V in *.
  apply norm_val24. assert (R := rnd_small _ 127 ltac:(lia) B). destruct (Rlt_bool_spec (Rabs (rnd (IZR z * bpow radix2 e))) (bpow radix2 128)); auto; discriminate.
Qed.
Definition v : R := bpow radix2 (-53).
Lemma drnd_rel x : bpow radix2 (-1022) <= Rabs x -> exists e, Rabs e <= v /\ drnd x = x * (1 + e).
Proof.
  intros H. destruct (relative_error_N_FLT_ex radix2 (-1074) 53 ltac:(reflexivity) (fun x => negb (Z.even x)) x H) as (e & E & R).
  exists e. split; auto. eapply Rle_trans; [exact E|]. unfold v. assert (Q : bpow radix2 (Z.opp 53 + 1) = 2 * bpow radix2 (-53)) by (apply (bp_succ (-53))). rewrite Q. apply Req_le. field.
Qed.
Lemma mpi_val : dfinite M_PI = true /\ Rabs (dval M_PI - PI) <= u / 4 * PI.
Proof.
  assert (FX : drnd (IZR 884279719003555 * bpow radix2 (-48)) = IZR 884279719003555 * bpow radix2 (-48)) by (apply round_generic; [typeclasses eauto|apply dfmt_F2R; lia]).
  assert (V : IZR 884279719003555 * bpow radix2 (-48) = 884279719003555 / 281474976710656) by (cbn; lra).
  destruct (norm_val53 884279719003555 (-48) false) as [F E].
  { rewrite FX, V. rewrite Rabs_pos_eq by lra. apply Rlt_trans with (bpow radix2 2); [cbn; lra|apply bpow_lt; lia]. }
  split; auto. unfold M_PI. rewrite E, FX, V. destruct pi_bounds_fine as [A B]. apply Rabs_le. unfold u. lra.
Qed.
(** Multiplication by M_PI and back to single precision. *)
Lemma mul_pi (x : f32) a d : 0 < a -> okv (PI * a) -> 0 <= d -> d + 2 * u <= / 2 -> near d x a ->
  near (d + 2 * u) (to_float (dmul M_PI (to_double x))) (PI * a) /\ near (d + 2 * u) (to_float (dmul (to_double x) M_PI)) (PI * a).
Proof.
  intros Ha Ho Hd Hs N. assert (Px := near_nonneg d x a ltac:(unfold u in *; lra) ltac:(lra) N). destruct N as (Fx & A1 & A2).
  destruct (to_double_val x Fx) as [Fd Vd]. destruct mpi_val as [Fp Vp]. destruct pi_bounds as [PL PU]. apply Rabs_le_inv in Vp.
  assert (U : 0 < u < / 10000) by (unfold u; lra). set (p := dval M_PI) in *. assert (Pp : 3 < p < 4) by (unfold u in *; nra).
  assert (X0 : 0 < val x) by nra.
  assert (PO := okv_pos _ Ho). assert (Ho' := Ho). destruct Ho as [Z0|[OL OU]]; [exfalso; nra|].
  assert (Y1 : PI * a * (1 - (d + u / 2)) <= p * val x).
  { apply Rle_trans with ((PI * (1 - u / 4)) * (a * (1 - d))); [|apply Rmult_le_compat; nra]. replace (PI * (1 - u / 4) * (a * (1 - d))) with (PI * a * ((1 - u / 4) * (1 - d))) by ring. apply Rmult_le_compat_l; nra. }
  assert (Y2 : p * val x * (1 - (d + u / 2)) <= PI * a).
  { assert (Q : p * (1 - u / 2) <= PI) by nra. apply Rle_trans with ((p * (1 - u / 2)) * (val x * (1 - d))); [|apply Rmult_le_compat; nra]. replace (p * (1 - u / 2) * (val x * (1 - d))) with (p * val x * ((1 - u / 2) * (1 - d))) by ring. apply Rmult_le_compat_l; nra. }
  assert (Y3 : 0 < p * val x) by (apply Rmult_lt_0_compat; lra).
  assert (E1 := bp_succ (-125)). assert (E2 := bp_succ 124). change (-125 + 1)%Z with (-124)%Z in E1. change (124 + 1)%Z with 125%Z in E2.
  assert (YL : bpow radix2 (-125) <= p * val x) by nra. assert (YH : p * val x <= bpow radix2 125) by nra.
  assert (L1 : bpow radix2 (-1022) <= bpow radix2 (-125)) by (apply bpow_le; lia). assert (L2 : bpow radix2 126 <= bpow radix2 127) by (apply bpow_le; lia). assert (E3 := bp_succ 125). change (125 + 1)%Z with 126%Z in E3.
  assert (L3 : bpow radix2 126 < bpow radix2 1024) by (apply bpow_lt; lia).
  destruct (drnd_rel (p * val x)) as (e & E & R). { rewrite Rabs_pos_eq; lra. }
  apply Rabs_le_inv in E. assert (Vv : 0 < v < u / 8) by (unfold v, u; split; [apply bpow_gt_0|]; cbn; lra).
  assert (D1 : PI * a * (1 - (d + u)) <= drnd (p * val x)).
  { rewrite R. apply Rle_trans with (p * val x * (1 - u / 8)); [|apply Rmult_le_compat_l; lra]. apply Rle_trans with (PI * a * (1 - (d + u / 2)) * (1 - u / 8)); [|apply Rmult_le_compat_r; lra].
    replace (PI * a * (1 - (d + u / 2)) * (1 - u / 8)) with (PI * a * ((1 - (d + u / 2)) * (1 - u / 8))) by ring. apply Rmult_le_compat_l; [lra|]. nra. }
  assert (D2 : drnd (p * val x) * (1 - (d + u)) <= PI * a).
  { rewrite R. apply Rle_trans with (p * val x * (1 - (d + u / 2))); [|exact Y2]. rewrite Rmult_assoc. apply Rmult_le_compat_l; [lra|]. assert (0 <= 1 - (d + u)) by lra. apply Rle_trans with ((1 + u / 8) * (1 - (d + u))); [apply Rmult_le_compat_r; lra|]. nra. }
  destruct (near_round (d + u) (PI * a) (drnd (p * val x)) Ho') as (R1 & R2 & R3); try lra.
  assert (G : forall y : f64, dfinite y = true -> dval y = drnd (p * val x) -> near (d + 2 * u) (to_float y) (PI * a)).
  { intros y Fy Vy. destruct (to_float_val y Fy) as [F V]; [rewrite Vy; auto|]. split; auto. rewrite V, Vy. replace (d + 2 * u) with (d + u + u) by ring. auto. }
  assert (B : Rabs (drnd (p * val x)) < bpow radix2 1024). { unfold fits in R1. eapply Rle_lt_trans; [exact R1|apply bpow_lt; lia]. }
  split; apply G.
  - assert (C := Bmult_correct 53 1024 _ _ mode_NE M_PI (to_double x)). change (round_mode mode_NE) with ZnearestE in C. rewrite Vd in C. fold p in C. rewrite Rlt_bool_true in C by exact B. destruct C as (_ & C2 & _). unfold dmul. rewrite C2, Fp, Fd. reflexivity.
  - assert (C := Bmult_correct 53 1024 _ _ mode_NE M_PI (to_double x)). change (round_mode mode_NE) with ZnearestE in C. rewrite Vd in C. fold p in C. rewrite Rlt_bool_true in C by exact B. destruct C as (C1 & _). exact C1.
  - assert (C := Bmult_correct 53 1024 _ _ mode_NE (to_double x) M_PI). change (round_mode mode_NE) with ZnearestE in C. rewrite Vd in C. fold p in C. rewrite (Rmult_comm (val x)) in C. rewrite Rlt_bool_true in C by exact B. destruct C as (_ & C2 & _). unfold dmul. rewrite C2, Fp, Fd. reflexivity.
  - assert (C := Bmult_correct 53 1024 _ _ mode_NE (to_double x) M_PI). change (round_mode mode_NE) with ZnearestE in C. rewrite Vd in C. fold p in C. rewrite (Rmult_comm (val x)) in C. rewrite Rlt_bool_true in C by exact B. destruct C as (C1 & _). exact C1.
Qed.
