(** Single precision along one axis of the CellQuery grid (C84). *)
From Coq Require Import Psatz.
From Verif Require Import F32Proofs F32Proofs4 F32Props Vec FaabbProofs FaabbProofs2 FnearProofs FcellSpec FcellProofs2 FcellProofs3 FcellProofs4 CellQueryProofs3 FcqModel FcqProofs FcqProofs2 FcqSpec.
Open Scope R_scope.

Lemma U0 : 0 < u < / 1000. Proof. unfold u. lra. Qed.
Lemma tiny_u : bpow radix2 (-150) <= u / 1000.
Proof. replace u with (bpow radix2 (-24)) by reflexivity. apply Rle_trans with (bpow radix2 (-34)); [apply bpow_le; lia|]. change (-34)%Z with (-24 + -10)%Z. rewrite bpow_plus. apply Rmult_le_compat_l; [apply bpow_ge_0|]. change (bpow radix2 (-10)) with (/ 1024). lra. Qed.
Lemma len_pos L : ordinary_length L -> 0 < val L. Proof. intros [_ [H _]]. assert (P := bpow_gt_0 radix2 (-60)). lra. Qed.
Lemma is_opp x a : is x a -> is (fopp x) (- a).
Proof. intros [F V]. unfold fopp. split; [now rewrite is_finite_Bopp|]. now rewrite B2R_Bopp, V. Qed.
Lemma is_abs0 x : is x 0 -> is (Babs x) 0.
Proof. intros [F V]. split; [now rewrite is_finite_Babs|]. rewrite B2R_Babs, V, Rabs_R0. auto. Qed.
Lemma sub_zero_l (x y : f32) a : is x 0 -> is y a -> is (fsub x y) (- a).
Proof.
  intros [Fx Vx] [Fy Vy]. assert (B : Rabs (- a) < bpow radix2 128) by (rewrite Rabs_Ropp, <- Vy; apply abs_B2R_lt_emax). assert (FM : fmt (- a)) by (apply fmt_opp; rewrite <- Vy; apply fmt_val).
  unfold fsub. assert (H := Bminus_correct 24 128 _ _ mode_NE x y Fx Fy). rewrite Vx, Vy in H. replace (0 - a) with (- a) in H by ring.
  change (round radix2 (SpecFloat.fexp 24 128) (round_mode mode_NE) (- a)) with (rnd (- a)) in H. rewrite (rnd_fmt _ FM) in H. rewrite Rlt_bool_true in H by auto. destruct H as (V & F & _). split; auto.
Qed.
Lemma std_min_zero t : is t 0 -> is (std_min fzero t) 0.
Proof. intros H. unfold std_min. destruct (Bltb t fzero); auto using is_zero. Qed.

Lemma mulb a b A B : - A <= a <= A -> - B <= b <= B -> - (A * B) <= a * b <= A * B.
Proof. intros Ha Hb. apply Rabs_le_inv. rewrite Rabs_mult. apply Rmult_le_compat; auto using Rabs_pos; apply Rabs_le; auto. Qed.

(** * One axis *)
Section Axis.
Variables (cint : option Z -> Z) (g : fgrid) (L r m : f32) (n : Z).
Hypothesis HC : defined_int cint.
Hypothesis OL : ordinary_length L.
Hypothesis Or : ordinary_length r.
Hypothesis H2 : 2 * val r <= val L.
Hypothesis HF : val L <= 1048576 * val r.
Hypothesis Hinv : exists e, Rabs e <= u /\ is (fg_inv g) (/ val r * (1 + e)).
Hypothesis Hm : exists e, Rabs e <= u /\ is m ((- (val L / 2) - val r) * (1 + e)).
Hypothesis Hn : exists w, is w (val L) /\ n = fgrid_dim cint w (fg_inv g).

Lemma axis_share' : 2 <= val L / val r <= 1048576.
Proof. assert (P := len_pos r Or). split; apply Rmult_le_reg_r with (val r); auto; unfold Rdiv; rewrite Rmult_assoc, Rinv_l by lra; lra. Qed.
Lemma axis_pos (x : f32) : finite x = true -> Rabs (val x) <= val L / 2 + val r ->
  let y := fmul (fsub x m) (fg_inv g) in finite y = true /\ Rabs (val y - (val x + val L / 2 + val r) / val r) <= 8 * u * (val L / val r) /\ (val m <= val x -> 0 <= val y).
Proof.
  intros Fx Bx y. destruct Hinv as (e0 & E0 & Fi & Vi). destruct Hm as (e1 & E1 & Fm & Vm). assert (P := len_pos r Or). assert (PL := len_pos L OL). assert (U := U0). assert (S := axis_share'). assert (TU := tiny_u).
  apply Rabs_le_inv in E0. apply Rabs_le_inv in E1. apply Rabs_le_inv in Bx. set (t := val L / val r) in *.
  assert (B60 : val L <= bpow radix2 60) by apply OL. assert (B62 : 4 * bpow radix2 60 <= bpow radix2 127) by (change 4 with (bpow radix2 2); rewrite <- bpow_plus; apply bpow_le; lia).
  assert (Bm : - (val L) * (1 + u) <= val m <= 0) by (rewrite Vm; nra).
  destruct (is_sub x m Fx Fm) as [Fs Vs]. { unfold fits. apply Rabs_le. nra. }
  destruct (rnd_minus (val x) (val m) (fmt_val x) (fmt_val m)) as (e2 & E2 & R2). rewrite R2 in Vs. apply Rabs_le_inv in E2.
  set (p := (val x + val L / 2 + val r) / val r). assert (Ep : val x + val L / 2 + val r = p * val r) by (unfold p; field; lra).
  assert (Pp : 0 <= p <= t + 2). { assert (Et : t * val r = val L) by (unfold t; field; lra). split; apply Rmult_le_reg_r with (val r); auto; rewrite <- Ep; lra. }
  set (d := (t / 2 + 1) * e1). assert (ED : val x - val m = (p + d) * val r). { rewrite Vm, Rmult_plus_distr_r, <- Ep. unfold d, t. field. lra. }
  assert (Bd : - ((t / 2 + 1) * u) <= d <= (t / 2 + 1) * u) by (unfold d; apply mulb; lra).
  assert (ut : 0 < u * t <= t / 1000) by (split; nra). assert (Bpd : - (u * t) <= p + d <= 2 * t + u * t) by (split; nra).
  assert (Bpd2 : - (2001 / 1000 * t) <= p + d <= 2001 / 1000 * t) by lra.
  rewrite ED in Vs. assert (EM : val (fsub x m) * val (fg_inv g) = (p + d) * ((1 + e2) * (1 + e0))) by (rewrite Vs, Vi; field; lra).
  set (c := (1 + e2) * (1 + e0)) in *. assert (Bc : - (2 * u + u * u) <= c - 1 <= 2 * u + u * u) by (unfold c; nra). assert (uu : u * u <= u / 1000) by nra.
  assert (BP : Rabs ((p + d) * c) <= 4 * t). { apply Rabs_le. assert (Q : - (2001 / 1000 * t * (101 / 100)) <= (p + d) * c <= 2001 / 1000 * t * (101 / 100)) by (apply mulb; lra). lra. }
  assert (F127 : 4194304 <= bpow radix2 127) by (change 4194304 with (bpow radix2 22); apply bpow_le; lia).
  destruct (is_mul (fsub x m) (fg_inv g) Fs Fi) as [F V]. { unfold fits. rewrite EM. lra. }
  fold y in F, V. rewrite EM in V. split; auto. split.
  - rewrite V. destruct (rnd_err ((p + d) * c)) as (e3 & k & E3 & K & ->). apply Rabs_le_inv in E3. apply Rabs_le_inv in K.
    assert (A1 : - (2001 / 1000 * t * (2001 / 1000 * u)) <= (p + d) * (c - 1) <= 2001 / 1000 * t * (2001 / 1000 * u)) by (apply mulb; lra).
    assert (A2 : - (2001 / 1000 * t * (101 / 100) * u) <= (p + d) * c * e3 <= 2001 / 1000 * t * (101 / 100) * u) by (apply mulb; [apply mulb; lra|lra]).
    replace ((p + d) * c * (1 + e3) + k - p) with (d + (p + d) * (c - 1) + (p + d) * c * e3 + k) by ring. fold p.
    set (w1 := (p + d) * (c - 1)) in *. set (w2 := (p + d) * c * e3) in *. assert (u2 : u <= u * t / 2) by nra. clearbody w1 w2 d. apply Rabs_le. split; lra.
  - intros G. rewrite V. apply rnd_nonneg. assert (0 <= p + d). { apply Rmult_le_reg_r with (val r); auto. rewrite <- ED. lra. } apply Rmult_le_pos; auto. unfold c. apply Rmult_le_pos; lra.
Qed.
Lemma axis_dim : (4 <= n <= 1048580)%Z /\ val L / val r * (1 - 3 * u) + 2 < IZR n.
Proof.
  destruct Hinv as (e0 & E0 & Fi & Vi). destruct Hn as (w & [Fw Vw] & ->). assert (P := len_pos r Or). assert (PL := len_pos L OL). assert (U := U0). assert (S := axis_share'). assert (TU := tiny_u). apply Rabs_le_inv in E0.
  set (t := val L / val r) in *. assert (EM : val w * val (fg_inv g) = t * (1 + e0)) by (rewrite Vw, Vi; unfold t; field; lra).
  assert (F127 : 4194304 <= bpow radix2 127) by (change 4194304 with (bpow radix2 22); apply bpow_le; lia).
  destruct (is_mul w (fg_inv g) Fw Fi) as [F V]. { unfold fits. rewrite EM, Rabs_pos_eq; nra. }
  rewrite EM in V. destruct (rnd_err (t * (1 + e0))) as (e3 & k & E3 & K & R3). apply Rabs_le_inv in E3. apply Rabs_le_inv in K.
  set (y := val (fmul w (fg_inv g))) in *.
  assert (uu : u * u <= u / 1000) by nra.
  assert (A1 : - (t * u) <= t * e0 <= t * u) by nra. assert (A2 : - (t * u * (1 + 1 / 100)) <= t * (1 + e0) * e3 <= t * u * (1 + 1 / 100)).
  { assert (Q : Rabs (t * (1 + e0) * e3) <= t * (1 + 1 / 100) * u). { rewrite Rabs_mult. apply Rmult_le_compat; auto using Rabs_pos; [rewrite Rabs_pos_eq; nra|apply Rabs_le; lra]. } apply Rabs_le_inv in Q. lra. }
  assert (BY : t * (1 - 29 / 10 * u) <= y <= t * (1 + 29 / 10 * u)).
  { rewrite V, R3. replace (t * (1 + e0) * (1 + e3) + k) with (t + t * e0 + t * (1 + e0) * e3 + k) by ring. set (w1 := t * e0) in *. set (w2 := t * (1 + e0) * e3) in *. clearbody w1 w2. split; nra. }
  assert (Y0 : 0 <= y) by nra. unfold fgrid_dim. rewrite ftruncate_val by (auto; fold y; lra). fold y.
  assert (By : 2 * (1 - 3 * u) <= y <= 1048577) by (split; [nra|unfold u in *; lra]).
  assert (ZB : (1 <= Zfloor y <= 1048577)%Z). { split; [apply Zfloor_lub; unfold u in *; lra|]. apply le_IZR. eapply Rle_trans; [apply Zfloor_lb|lra]. }
  rewrite HC by lia. split.
  - lia.
  - rewrite plus_IZR. assert (Z := Zfloor_ub y). assert (0 < t * u) by nra. clear - By BY Z H. unfold Rminus in *. nra.
Qed.
(** The cell of a coordinate well inside the padded grid, and of two coordinates less than a cell apart. *)
Lemma axis_cell (x : f32) : finite x = true -> - (val L / 2) - val r + 9 * u * val L <= val x <= val L / 2 + val r - 12 * u * val L ->
  exists y, fcell_along cint g x m = Zfloor y /\ Rabs (y - (val x + val L / 2 + val r) / val r) <= 8 * u * (val L / val r) /\ (0 <= Zfloor y < n)%Z.
Proof.
  intros Fx Bx. assert (P := len_pos r Or). assert (PL := len_pos L OL). assert (U := U0). assert (S := axis_share'). destruct axis_dim as [Dn Dl].
  destruct (axis_pos x Fx) as (F & E & _). { apply Rabs_le. nra. } set (y := val (fmul (fsub x m) (fg_inv g))) in *. exists y. set (t := val L / val r) in *. set (p := (val x + val L / 2 + val r) / val r) in *.
  assert (Et : t * val r = val L) by (unfold t; field; lra). assert (Ep : p * val r = val x + val L / 2 + val r) by (unfold p; field; lra).
  assert (Bp : 9 * u * t <= p <= t + 2 - 12 * u * t). { split; apply Rmult_le_reg_r with (val r); auto; rewrite Ep; nra. }
  assert (E' := E). apply Rabs_le_inv in E'. assert (By : 0 <= y < IZR n) by (assert (0 < u * t) by nra; nra).
  assert (ZB : (0 <= Zfloor y < n)%Z). { split; [apply Zfloor_lub; apply By|]. apply lt_IZR. eapply Rle_lt_trans; [apply Zfloor_lb|apply By]. }
  split; [|auto]. unfold fcell_along. rewrite ffloor_val by auto. fold y. apply HC. lia.
Qed.
Lemma axis_touch (x x' : f32) : finite x = true -> finite x' = true -> - (val L / 2) <= val x <= val L / 2 -> Rabs (val x' - val x) + 17 * u * val L <= val r ->
  (0 <= fcell_along cint g x m < n)%Z /\ (0 <= fcell_along cint g x' m < n)%Z /\ (Z.abs (fcell_along cint g x m - fcell_along cint g x' m) <= 1)%Z.
Proof.
  intros Fx Fx' Bx B. assert (P := len_pos r Or). assert (PL := len_pos L OL). assert (U := U0). assert (S := axis_share'). assert (A := Rabs_pos (val x' - val x)). assert (B' := Rle_abs (val x' - val x)). assert (B'' := Rle_abs (- (val x' - val x))). rewrite Rabs_Ropp in B''.
  destruct (axis_cell x Fx) as (y & -> & E & Z); [nra|]. destruct (axis_cell x' Fx') as (y' & -> & E' & Z'); [nra|]. split; auto. split; auto.
  set (t := val L / val r) in *. assert (Et : t * val r = val L) by (unfold t; field; lra). apply Rabs_le_inv in E, E'.
  assert (D : (val x + val L / 2 + val r) / val r - (val x' + val L / 2 + val r) / val r = (val x - val x') / val r) by (field; lra).
  set (p := (val x + val L / 2 + val r) / val r) in *. set (p' := (val x' + val L / 2 + val r) / val r) in *.
  set (h := (val x - val x') / val r) in *. assert (Eh : h * val r = val x - val x') by (unfold h; field; lra).
  assert (Bd : - (1 - 17 * u * t) <= h <= 1 - 17 * u * t). { replace (17 * u * val L) with (17 * u * t * val r) in B by (rewrite Rmult_assoc, Et; auto). split; apply Rmult_le_reg_r with (val r); auto; rewrite Eh; lra. }
  assert (0 < u * t) by nra. assert (Y : -1 < y - y' < 1) by lra. assert (L1 := Zfloor_lb y). assert (L2 := Zfloor_ub y). assert (L3 := Zfloor_lb y'). assert (L4 := Zfloor_ub y').
  assert (-2 < Zfloor y - Zfloor y' < 2)%Z; [|lia]. split; apply lt_IZR; rewrite minus_IZR; lra.
Qed.
Lemma axis_inside (x : f32) : on_axis L x -> (0 <= fcell_along cint g x m < n)%Z.
Proof. intros [F B]. apply Rabs_le_inv in B. destruct (axis_cell x F) as (y & -> & _ & Z); auto. assert (P := len_pos r Or). unfold u. lra. Qed.
End Axis.

(** * Which ghosts exist *)
Lemma to64_val (x : f32) : finite x = true -> is_finite (to64 x) = true /\ B2R (to64 x) = val x.
Proof.
  destruct x as [s| | |s m e B]; try discriminate; intros _; [split; reflexivity|]. unfold to64.
  assert (BB := B). apply (bounded_lt_emax 24 128 m e) in BB.
  assert (FM : generic_format radix2 (SpecFloat.fexp 53 1024) (F2R (Float radix2 (if s then Z.neg m else Z.pos m) e))).
  { apply generic_format_F2R. intros _. unfold SpecFloat.fexp, SpecFloat.emin, cexp.
    assert (C := B). unfold SpecFloat.bounded in C. apply andb_prop in C as [C1 C2]. unfold SpecFloat.canonical_mantissa in C1. apply Zeq_bool_eq in C1. unfold SpecFloat.fexp, SpecFloat.emin in C1.
    assert (MG : (mag radix2 (F2R (Float radix2 (if s then Z.neg m else Z.pos m) e)) = Z.pos (SpecFloat.digits2_pos m) + e :> Z)%Z).
    { rewrite mag_F2R by (destruct s; discriminate). f_equal. destruct s; [change (Z.neg m) with (- Z.pos m)%Z; rewrite opp_IZR, mag_opp|]; rewrite <- Zdigits2_Zdigits || idtac; rewrite <- Zdigits_mag by discriminate; rewrite <- Zpos_digits2_pos; reflexivity. }
    rewrite MG. lia. }
  assert (H := binary_normalize_correct 53 1024 prec_gt_0_53 prec_lt_emax_53 mode_NE (if s then Z.neg m else Z.pos m) e s).
  cbv zeta in H. rewrite round_generic in H by (auto; typeclasses eauto).
  assert (AB : Rabs (F2R (Float radix2 (if s then Z.neg m else Z.pos m) e)) < bpow radix2 1024).
  { apply Rlt_trans with (bpow radix2 128); [|apply bpow_lt; lia]. replace (Rabs _) with (F2R (Float radix2 (Z.pos m) e)); auto. rewrite <- F2R_Zabs. destruct s; reflexivity. }
  rewrite Rlt_bool_true in H by auto. destruct H as (V & F & _). split; auto.
Qed.
Lemma minus64 (fr : f32) : finite fr = true -> 0 <= val fr <= 1 ->
  is_finite (Bminus mode_NE one64 (to64 fr)) = true /\ B2R (Bminus mode_NE one64 (to64 fr)) = round radix2 (SpecFloat.fexp 53 1024) ZnearestE (1 - val fr).
Proof.
  intros F B. destruct (to64_val fr F) as [F6 V6]. assert (O : is_finite one64 = true /\ B2R one64 = 1) by (split; [reflexivity|unfold one64; vm_compute; lra]).
  destruct O as [FO VO]. assert (H := Bminus_correct 53 1024 _ _ mode_NE one64 (to64 fr) FO F6). rewrite VO, V6 in H. cbn [round_mode] in H.
  rewrite Rlt_bool_true in H; [destruct H as (V & Fi & _); auto|].
  apply Rle_lt_trans with (bpow radix2 0); [|apply bpow_lt; lia]. apply abs_round_le_generic; [typeclasses eauto|typeclasses eauto|apply generic_format_bpow; cbn; lia|]. cbn [bpow]. apply Rabs_le. lra.
Qed.
Lemma dir_low (f fr : f32) : finite f = true -> finite fr = true -> 0 <= val fr <= 1 / 2 -> val f < 1 / 2 -> val f <= val fr -> fghost_dir f fr = 1%Z.
Proof.
  intros Ff Fr Br Bf H. unfold fghost_dir. rewrite (proj2 (leb_val f fr Ff Fr) H). destruct (minus64 fr Fr) as [F6 V6]; [lra|]. destruct (to64_val f Ff) as [Ff6 Vf6].
  rewrite Bleb_correct by auto. rewrite Rle_bool_false; [reflexivity|]. rewrite V6, Vf6. apply Rlt_le_trans with (1 / 2); auto.
  replace (1 / 2) with (bpow radix2 (-1)) by (cbn; lra). apply round_ge_generic; [typeclasses eauto|typeclasses eauto|apply generic_format_bpow; cbn; lia|]. cbn. lra.
Qed.
Lemma fmt64 (x : f32) : finite x = true -> generic_format radix2 (SpecFloat.fexp 53 1024) (val x).
Proof. intros F. destruct (to64_val x F) as [_ <-]. apply generic_format_B2R. Qed.
Lemma dir_high (f fr : f32) : finite f = true -> finite fr = true -> 0 <= val fr <= 1 -> val fr < val f -> 1 - val fr <= val f -> fghost_dir f fr = (-1)%Z.
Proof.
  intros Ff Fr Br Bf H. unfold fghost_dir. destruct (Bleb f fr) eqn:E; [apply (leb_val f fr Ff Fr) in E; lra|]. destruct (minus64 fr Fr) as [F6 V6]; [lra|]. destruct (to64_val f Ff) as [Ff6 Vf6].
  rewrite Bleb_correct by auto. rewrite Rle_bool_true; [reflexivity|]. rewrite V6, Vf6. apply round_le_generic; [typeclasses eauto|typeclasses eauto|apply fmt64; auto|auto].
Qed.
Lemma dir_tri f fr : tri (fghost_dir f fr).
Proof. unfold fghost_dir, bz, tri. destruct (Bleb f fr), (Bleb _ _); simpl; lia. Qed.

(** Along one axis: an image within reach has its ghost. *)
Lemma axis_ghost (L L' r p q f : f32) (i : Z) (D : R) : ordinary_length L -> is L' (val L) -> ordinary_length r -> 2 * val r <= val L -> on_axis L p -> on_axis L q ->
  finite f = true -> Rabs (val f - (val p + val L / 2) / val L) <= 3 * u ->
  Rabs (val p - (val q + IZR i * val L)) <= D -> D + 16 * u * val L <= val r -> (i = 0 \/ - i = fghost_dir f (fdiv r L'))%Z /\ (Z.abs i <= 1)%Z.
Proof.
  intros OL [FL' VL'] Or H2 [Fp Bp] [Fq Bq] Ff Ef HD HR. assert (P := len_pos r Or). assert (PL := len_pos L OL). assert (U := U0). assert (TU := tiny_u).
  apply Rabs_le_inv in Bp, Bq, HD, Ef. set (Lv := val L) in *. assert (S : 0 <= val r / Lv <= 1 / 2).
  { split; apply Rmult_le_reg_r with Lv; auto; unfold Rdiv; rewrite (Rmult_assoc (val r)), Rinv_l by lra; lra. }
  assert (F127 : 2 <= bpow radix2 127) by (change 2 with (bpow radix2 1); apply bpow_le; lia).
  destruct (is_div r L' (proj1 Or)) as [Fr Vr]. { fold Lv in VL'. lra. } { fold Lv in VL'. rewrite VL'. unfold fits. rewrite Rabs_pos_eq; lra. }
  fold Lv in VL'. rewrite VL' in Vr. assert (B1 : 0 <= val (fdiv r L') <= 1 / 2).
  { rewrite Vr. split; [apply rnd_nonneg; lra|]. replace (1 / 2) with (bpow radix2 (-1)) by (cbn; lra). apply rnd_le_fmt; [apply fmt_bpow; lia|]. cbn. lra. }
  assert (B2 : val r / Lv - u <= val (fdiv r L')).
  { rewrite Vr. destruct (rnd_err (val r / Lv)) as (e & k & E & K & ->). apply Rabs_le_inv in E, K. assert (- (1 / 2 * u) <= val r / Lv * e <= 1 / 2 * u) by (apply mulb; lra). lra. }
  assert (I1 : (Z.abs i <= 1)%Z).
  { assert (-2 < i < 2)%Z; [|lia]. split; apply lt_IZR; apply Rmult_lt_reg_r with Lv; auto; nra. }
  split; auto. destruct (Z.eq_dec i 0) as [|N]; [left; auto|right]. set (t := (val p + Lv / 2) / Lv) in *. assert (Et : t * Lv = val p + Lv / 2) by (unfold t; field; lra).
  set (c := val r / Lv) in *. assert (Ec : c * Lv = val r) by (unfold c; field; lra).
  assert (C : (i = -1 \/ i = 1)%Z) by lia. destruct C as [-> | ->]; symmetry.
  - assert (T : t <= c - 16 * u) by (apply Rmult_le_reg_r with Lv; auto; lra). apply dir_low; auto; lra.
  - assert (T : 1 - c + 16 * u <= t) by (apply Rmult_le_reg_r with Lv; auto; lra). apply dir_high; auto; lra.
Qed.
