(** Proofs about LocalDensity in single precision: the radius, the size of the ball, the pairs of a query point. *)
From Coq Require Import Psatz.
From Flocq Require Import Core.
From Verif Require Import F32Proofs F32Proofs4 Vec FaabbProofs FaabbProofs2 FaabbProps FrdfProofs FrdfProofs2 FrdfProofs3 FldSpec FldProofs.
Open Scope R_scope.

Definition dn (d : R) (y : f64) (a : R) : Prop := dfinite y = true /\ a * (1 - d) <= dval y <= a * (1 + d).
Lemma dround d x a : bpow radix2 (-200) <= a <= bpow radix2 200 -> 0 <= d <= / 4 -> a * (1 - d) <= x <= a * (1 + d) ->
  Rabs (drnd x) < bpow radix2 1024 /\ a * (1 - (d + u / 4)) <= drnd x <= a * (1 + (d + u / 4)).
Proof.
  intros [A1 A2] [D1 D2] [X1 X2]. assert (P := bpow_gt_0 radix2 (-200)). assert (Vv : 0 < v < u / 8) by (unfold v, u; split; [apply bpow_gt_0|]; cbn; lra). assert (U : u = / 16777216) by reflexivity.
  assert (X0 : a / 2 <= x) by nra. assert (AX : Rabs x = x) by (apply Rabs_pos_eq; lra).
  destruct (drnd_rel x) as (e & E & R). { rewrite AX. apply Rle_trans with (bpow radix2 (-201)); [apply bpow_le; lia|]. assert (Q := bp_succ (-201)). change (-201 + 1)%Z with (-200)%Z in Q. lra. }
  apply Rabs_le_inv in E. assert (L : a * (1 - (d + u / 4)) <= drnd x <= a * (1 + (d + u / 4))).
  { rewrite R. split.
    - apply Rle_trans with (a * (1 - d) * (1 - u / 8)); [|apply Rmult_le_compat; try lra; nra]. replace (a * (1 - d) * (1 - u / 8)) with (a * ((1 - d) * (1 - u / 8))) by ring. apply Rmult_le_compat_l; [lra|]. rewrite U. nra.
    - apply Rle_trans with (a * (1 + d) * (1 + u / 8)); [apply Rmult_le_compat; try lra; nra|]. replace (a * (1 + d) * (1 + u / 8)) with (a * ((1 + d) * (1 + u / 8))) by ring. apply Rmult_le_compat_l; [lra|]. rewrite U. nra. }
  split; [|exact L]. rewrite Rabs_pos_eq by nra. apply Rle_lt_trans with (2 * bpow radix2 200); [nra|]. rewrite <- bp_succ. apply bpow_lt. lia.
Qed.
Lemma dn_mul d e x y a b : 0 < a -> 0 < b -> bpow radix2 (-200) <= a * b <= bpow radix2 200 -> 0 <= d <= u -> 0 <= e <= u -> dn d x a -> dn e y b -> dn (d + e + u / 2) (dmul x y) (a * b).
Proof.
  intros Ha Hb Hab Hd He (Fx & X1 & X2) (Fy & Y1 & Y2). assert (U : u = / 16777216) by reflexivity. assert (P : 0 < a * b) by nra.
  assert (DE : d * e <= u / 4). { apply Rle_trans with (u * u); [apply Rmult_le_compat; lra|rewrite U; lra]. }
  destruct (dround (d + e + u / 4) (dval x * dval y) (a * b) Hab) as [B L]; [rewrite U in *; lra| |].
  - split.
    + apply Rle_trans with ((a * (1 - d)) * (b * (1 - e))); [|apply Rmult_le_compat; try lra; apply Rmult_le_pos; rewrite U in *; lra]. replace (a * (1 - d) * (b * (1 - e))) with (a * b * ((1 - d) * (1 - e))) by ring. apply Rmult_le_compat_l; [lra|]. assert (0 <= d * e) by (apply Rmult_le_pos; lra). rewrite U in *; lra.
    + apply Rle_trans with ((a * (1 + d)) * (b * (1 + e))); [apply Rmult_le_compat; try lra; [apply Rle_trans with (a * (1 - d))|apply Rle_trans with (b * (1 - e))]; try lra; apply Rmult_le_pos; rewrite U in *; lra|]. replace (a * (1 + d) * (b * (1 + e))) with (a * b * ((1 + d) * (1 + e))) by ring. apply Rmult_le_compat_l; lra.
  - assert (C := Bmult_correct 53 1024 _ _ mode_NE x y). change (round_mode mode_NE) with ZnearestE in C. rewrite Rlt_bool_true in C by exact B. destruct C as (C1 & C2 & _). split; [unfold dmul; rewrite C2, Fx, Fy; reflexivity|]. unfold dmul. rewrite C1. replace (d + e + u / 2) with (d + e + u / 4 + u / 4) by lra. exact L.
Qed.
Lemma dn_add d x y a b : 0 < a -> 0 < b -> bpow radix2 (-200) <= a + b <= bpow radix2 200 -> 0 <= d <= / 4 -> dn d x a -> dn d y b -> dn (d + u / 4) (dadd x y) (a + b).
Proof.
  intros Ha Hb Hab Hd (Fx & X1 & X2) (Fy & Y1 & Y2). destruct (dround d (dval x + dval y) (a + b) Hab Hd) as [B L]; [nra|].
  assert (C := Bplus_correct 53 1024 _ _ mode_NE x y Fx Fy). change (round_mode mode_NE) with ZnearestE in C. rewrite Rlt_bool_true in C by exact B. destruct C as (C1 & C2 & _). split; [exact C2|]. unfold dadd. rewrite C1. exact L.
Qed.
Lemma dn_weak d d' x a : 0 <= a -> d <= d' -> dn d x a -> dn d' x a.
Proof. intros Ha Hd (F & X1 & X2). split; auto. nra. Qed.
Lemma dn_float d x a : okv a -> 0 <= d -> d + u <= / 2 -> dn d x a -> near (d + u) (to_float x) a.
Proof.
  intros Ho Hd Hs (F & X1 & X2). assert (P := okv_pos a Ho). assert (U := u_pos). destruct (near_round d a (dval x) Ho Hd Hs) as (R1 & R2 & R3); [lra| |].
  - apply Rle_trans with (a * (1 + d) * (1 - d)); [apply Rmult_le_compat_r; lra|]. replace (a * (1 + d) * (1 - d)) with (a - a * (d * d)) by ring. assert (0 <= a * (d * d)) by (apply Rmult_le_pos; [lra|apply Rmult_le_pos; lra]). lra.
  - destruct (to_float_val x F R1) as [G V]. split; auto. rewrite V. auto.
Qed.
Lemma dn_double (x : f32) : finite x = true -> dn 0 (to_double x) (val x).
Proof. intros F. destruct (to_double_val x F) as [G V]. split; auto. rewrite V. lra. Qed.
Lemma dn_pi : dn (u / 4) M_PI PI.
Proof. destruct mpi_val as [F V]. split; auto. apply Rabs_le_inv in V. lra. Qed.
Lemma dn_half : dn 0 (dlit 1 (-1)) (/ 2).
Proof.
  assert (FX : drnd (IZR 1 * bpow radix2 (-1)) = IZR 1 * bpow radix2 (-1)) by (apply round_generic; [typeclasses eauto|apply dfmt_F2R; lia]).
  assert (V : IZR 1 * bpow radix2 (-1) = / 2) by (cbn; lra). destruct (norm_val53 1 (-1) false) as [F E].
  { rewrite FX, V, Rabs_pos_eq by lra. apply Rlt_trans with (bpow radix2 2); [cbn; lra|apply bpow_lt; lia]. }
  split; auto. unfold dlit. rewrite E, FX, V. lra.
Qed.
Lemma pref_near : near u (to_float (dmul (ddiv (dlit 4 0) (dlit 3 0)) M_PI)) (4 / 3 * PI).
Proof.
  assert (E : to_float (dmul (ddiv (dlit 4 0) (dlit 3 0)) M_PI) = lit 8784530 (-21)) by (apply B2SF_inj; vm_compute; reflexivity). rewrite E.
  assert (V : IZR 8784530 * bpow radix2 (-21) = 8784530 / 2097152) by (cbn; lra). destruct (is_lit 8784530 (-21)) as [F G]. { rewrite V. apply fits_small. apply Rabs_le. lra. }
  split; auto. rewrite G, rnd_fmt, V; [destruct pi_bounds_fine; unfold u; lra|]. apply (fmt_F2R 8784530 (-21)); lia.
Qed.
Section Ball.
Variable l : fldens.
Hypothesis H : handy_ld l.
Let r := val (fld_r l).
Let D := val (fld_D l).
Lemma r_bp : bpow radix2 (-20) <= r <= bpow radix2 20. Proof. destruct H as ((_ & B) & _). exact B. Qed.
Lemma D_bp : bpow radix2 (-20) <= D <= bpow radix2 20. Proof. destruct H as (_ & (_ & B) & _). exact B. Qed.
Lemma pi_bp : bpow radix2 1 <= PI <= bpow radix2 2. Proof. destruct pi_bounds. cbn. lra. Qed.
Lemma bp_wide a b x : (-200 <= a)%Z -> (b <= 200)%Z -> bpow radix2 a <= x <= bpow radix2 b -> bpow radix2 (-200) <= x <= bpow radix2 200.
Proof. intros Ha Hb [A B]. split; [eapply Rle_trans; [apply bpow_le; exact Ha|exact A]|eapply Rle_trans; [exact B|apply bpow_le; exact Hb]]. Qed.
Lemma rpD_bp : bpow radix2 (-20) <= r + / 2 * D <= bpow radix2 21.
Proof. destruct (ld_sizes l H) as (_ & _ & B1 & B2 & _). fold r D in B1, B2. destruct r_bp as [A B]. assert (Q : bpow radix2 21 = 2097152) by (cbn; lra). rewrite Q. split; lra. Qed.
Lemma radius_near : near (2 * u) (fld_radius l) (r + D / 2).
Proof.
  destruct (ld_sizes l H) as (F1 & F2 & B1 & B2 & _). fold r D in B1, B2. assert (U := u_pos). assert (U' : u <= / 1000) by (unfold u; lra).
  assert (N1 := dn_double _ F1). assert (N2 := dn_double _ F2). fold r in N1. fold D in N2.
  assert (M := dn_mul 0 0 _ _ (/ 2) D ltac:(lra) ltac:(lra) (bp_wide (-21) 19 _ ltac:(lia) ltac:(lia) (bp_mul (-1) (-1) (-20) 20 (/ 2) D ltac:(cbn; lra) D_bp)) ltac:(lra) ltac:(lra) dn_half N2). rewrite !Rplus_0_l in M.
  assert (A : dn (u / 2 + u / 4) (dadd (to_double (fld_r l)) (dmul (dlit 1 (-1)) (to_double (fld_D l)))) (r + / 2 * D)).
  { apply dn_add; try lra; [apply (bp_wide (-20) 21); [lia|lia|exact rpD_bp]|apply (dn_weak 0); auto; lra|exact M]. }
  replace (r + D / 2) with (r + / 2 * D) by (unfold Rdiv; ring). assert (O := okv_range _ (-20) 21 ltac:(lia) ltac:(lia) rpD_bp). apply (near_weak (u / 2 + u / 4 + u)); [lra|lra|lra|]. apply dn_float; auto; lra.
Qed.
Lemma radius_ordinary : ordinary_radius (fld_radius l).
Proof.
  destruct radius_near as (F & A & B). destruct (ld_sizes l H) as (_ & _ & B1 & B2 & _). fold r D in B1, B2. assert (U : u = / 16777216) by reflexivity. rewrite U in *. split; auto.
  assert (Q1 : bpow radix2 (-60) <= / 1048576 / 2) by (apply Rle_trans with (bpow radix2 (-21)); [apply bpow_le; lia|cbn; lra]). destruct big as [_ Q2]. split; lra.
Qed.
Lemma measure_near is2d : near (4 * u) (fld_measure l is2d) (ball is2d r).
Proof.
  destruct (ld_sizes l H) as (F1 & F2 & B1 & B2 & _). fold r D in B1, B2. assert (U := u_pos). assert (U' : u <= / 1000) by (unfold u; lra). assert (PB := pi_bounds). unfold fld_measure, ball. destruct is2d.
  - assert (N1 := dn_double _ F1). fold r in N1. assert (W1 := bp_mul _ _ _ _ _ _ pi_bp r_bp). assert (W2 := bp_mul _ _ _ _ _ _ W1 r_bp).
    assert (PR : 0 < PI * r) by (apply Rmult_lt_0_compat; lra).
    assert (M1 : dn (u / 4 + 0 + u / 2) (dmul M_PI (to_double (fld_r l))) (PI * r)) by (apply dn_mul; try lra; [apply (bp_wide (1 + -20) (2 + 20)); [lia|lia|exact W1]|exact dn_pi|exact N1]).
    assert (M2 : dn (u / 4 + 0 + u / 2 + 0 + u / 2) (dmul (dmul M_PI (to_double (fld_r l))) (to_double (fld_r l))) (PI * r * r)) by (apply dn_mul; try lra; [apply (bp_wide (1 + -20 + -20) (2 + 20 + 20)); [lia|lia|exact W2]|exact M1|exact N1]).
    replace (PI * r ^ 2) with (PI * r * r) by ring. assert (O := okv_range _ (1 + -20 + -20) (2 + 20 + 20) ltac:(lia) ltac:(lia) W2). assert (0 <= PI * r * r) by (apply okv_pos; auto). apply (near_weak (u / 4 + 0 + u / 2 + 0 + u / 2 + u)); [lra|lra|lra|]. apply dn_float; auto; lra.
  - assert (N1 := near_exact _ F1 ltac:(fold r; lra)). fold r in N1. assert (Wp : bpow radix2 1 <= 4 / 3 * PI <= bpow radix2 3) by (cbn; lra).
    assert (W1 := bp_mul _ _ _ _ _ _ Wp r_bp). assert (W2 := bp_mul _ _ _ _ _ _ W1 r_bp). assert (W3 := bp_mul _ _ _ _ _ _ W2 r_bp).
    assert (O1 := okv_range _ (1 + -20) (3 + 20) ltac:(lia) ltac:(lia) W1). assert (O2 := okv_range _ (1 + -20 + -20) (3 + 20 + 20) ltac:(lia) ltac:(lia) W2). assert (O3 := okv_range _ (1 + -20 + -20 + -20) (3 + 20 + 20 + 20) ltac:(lia) ltac:(lia) W3).
    assert (M1 := near_mul u 0 _ _ (4 / 3 * PI) r ltac:(lra) ltac:(lra) O1 ltac:(lra) ltac:(lra) ltac:(lra) pref_near N1).
    assert (M2 := near_mul (u + 0 + u) 0 _ _ _ r (okv_pos _ O1) ltac:(lra) O2 ltac:(lra) ltac:(lra) ltac:(lra) M1 N1).
    assert (M3 := near_mul (u + 0 + u + 0 + u) 0 _ _ _ r (okv_pos _ O2) ltac:(lra) O3 ltac:(lra) ltac:(lra) ltac:(lra) M2 N1).
    replace (4 / 3 * PI * r ^ 3) with (4 / 3 * PI * r * r * r) by ring. replace (4 * u) with (u + 0 + u + 0 + u + 0 + u) by ring. exact M3.
Qed.
Lemma ball_bp is2d : bpow radix2 (-59) <= ball is2d r <= bpow radix2 63.
Proof.
  assert (PB := pi_bounds). unfold ball. destruct is2d.
  - replace (PI * r ^ 2) with (PI * r * r) by ring. assert (W1 := bp_mul _ _ _ _ _ _ pi_bp r_bp). assert (W2 := bp_mul _ _ _ _ _ _ W1 r_bp). split; [eapply Rle_trans; [|apply W2]|eapply Rle_trans; [apply W2|]]; apply bpow_le; lia.
  - replace (4 / 3 * PI * r ^ 3) with (4 / 3 * PI * r * r * r) by ring. assert (Wp : bpow radix2 1 <= 4 / 3 * PI <= bpow radix2 3) by (cbn; lra).
    assert (W1 := bp_mul _ _ _ _ _ _ Wp r_bp). assert (W2 := bp_mul _ _ _ _ _ _ W1 r_bp). exact (bp_mul _ _ _ _ _ _ W2 r_bp).
Qed.
(** The division by the ball. *)
Lemma density_val is2d (n : f32) : finite n = true -> Rabs (val n) <= bpow radix2 22 ->
  finite (fdiv n (fld_measure l is2d)) = true /\ Rabs (val (fdiv n (fld_measure l is2d)) - val n / ball is2d r) <= 6 * u * (Rabs (val n) / ball is2d r) + bpow radix2 (-150).
Proof.
  intros F B. destruct (measure_near is2d) as (Fm & A1 & A2). destruct (ball_bp is2d) as [P1 P2]. set (b := ball is2d r) in *. set (m := val (fld_measure l is2d)) in *. assert (P := bpow_gt_0 radix2 (-59)). assert (U : u = / 16777216) by reflexivity.
  assert (M0 : b / 2 <= m) by (rewrite U in *; lra). assert (Pm : 0 < m) by lra.
  set (x := val n). assert (Q : Rabs (x / m - x / b) <= 4.5 * u * (Rabs x / b)).
  { replace (x / m - x / b) with (x / b * ((b - m) / m)) by (field; lra). unfold Rdiv at 1. rewrite !Rabs_mult. replace (4.5 * u * (Rabs x / b)) with (Rabs x * / b * (4.5 * u)) by (field; lra). rewrite (Rabs_pos_eq (/ b)) by (apply Rlt_le, Rinv_0_lt_compat; lra).
    apply Rmult_le_compat_l; [apply Rmult_le_pos; [apply Rabs_pos|apply Rlt_le, Rinv_0_lt_compat; lra]|]. apply Rabs_le. split; apply Rmult_le_reg_r with m; auto; unfold Rdiv; rewrite Rmult_assoc, Rinv_l by lra; rewrite U in *; lra. }
  assert (Y : Rabs x / b = Rabs (x / b)) by (unfold Rdiv; rewrite Rabs_mult, (Rabs_pos_eq (/ b)); [reflexivity|apply Rlt_le, Rinv_0_lt_compat; lra]).
  assert (X : Rabs (x / m) <= Rabs x / b * (1 + 4.5 * u)). { replace (x / m) with ((x / m - x / b) + x / b) by ring. eapply Rle_trans; [apply Rabs_triang|]. rewrite <- Y. lra. }
  assert (Z : Rabs x / b <= bpow radix2 81). { change 81%Z with (22 - -59)%Z. unfold Rdiv, Zminus. rewrite bpow_plus. apply Rmult_le_compat; [apply Rabs_pos|apply Rlt_le, Rinv_0_lt_compat; lra|exact B|]. rewrite bpow_opp. apply Rinv_le_contravar; lra. }
  assert (Z0 : 0 <= Rabs x / b) by (rewrite Y; apply Rabs_pos).
  destruct (is_div n (fld_measure l is2d) F) as [Fd Vd]; [fold m; lra|fold m x; unfold fits; apply Rle_trans with (2 * bpow radix2 81); [rewrite U in *; lra|rewrite <- bp_succ; apply bpow_le; lia]|].
  split; [exact Fd|]. rewrite Vd. fold m x. destruct (rnd_err (x / m)) as (e & t & E & T & ->). replace (x / m * (1 + e) + t - x / b) with (x / m - x / b + x / m * e + t) by ring.
  eapply Rle_trans; [apply Rabs_triang|]. assert (G : Rabs (x / m - x / b + x / m * e) <= 6 * u * (Rabs x / b)); [|lra]. eapply Rle_trans; [apply Rabs_triang|]. rewrite Rabs_mult.
  assert (Rabs (x / m) * Rabs e <= Rabs x / b * (1 + 4.5 * u) * u) by (apply Rmult_le_compat; auto using Rabs_pos). rewrite U in *. lra.
Qed.
End Ball.
