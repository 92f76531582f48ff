(** Proofs about cells in single precision: the constructor, the reach of the shells, displacements. *)
From Coq Require Import Psatz.
From Verif Require Import LinkCellModel NListProofs MArrayProofs LinkCellProofs LinkCellProofs2 LinkCellProofs3 F32Proofs F32Proofs4 F32Props Vec FaabbProofs FaabbProofs2 FcellSpec FcellProofs FcellProofs2.
Open Scope R_scope.

(** * Distances of the box planes *)
Lemma finite_nonzero (x : f32) : val x <> 0 -> finite x = true.
Proof. destruct x; cbn; auto; intros H; exfalso; apply H; reflexivity. Qed.
Lemma root_one (x : f32) : is x 1 -> is (Bsqrt mode_NE x) 1.
Proof.
  intros [F V]. destruct (Bsqrt_correct 24 128 _ _ mode_NE x) as [W _]. rewrite V, sqrt_1 in W. change (round radix2 fex (round_mode mode_NE) 1) with (rnd 1) in W. rewrite rnd_fmt in W by (apply (fmt_bpow 0); lia).
  split; auto. apply finite_nonzero. rewrite W. lra.
Qed.
Lemma div_one (x y : f32) : finite x = true -> fits (val x) -> is y 1 -> is (fdiv x y) (val x).
Proof.
  intros F H [Fy Vy]. destruct (is_div x y F) as [G W]; [lra|rewrite Vy; unfold Rdiv; rewrite Rinv_1, Rmult_1_r; auto|]. split; auto. rewrite W, Vy. unfold Rdiv. rewrite Rinv_1, Rmult_1_r. apply rnd_fmt, fmt_val.
Qed.
Lemma length_fits L : ordinary_length L -> fits (val L).
Proof. intros [_ [H0 H]]. assert (P := bpow_gt_0 radix2 (-60)). unfold fits. rewrite Rabs_pos_eq by lra. eapply Rle_trans; [exact H|]. apply bpow_le. lia. Qed.
Lemma planes_val b : plain_box b -> is (fvx (fplanes b)) (val (fvx (fL b))) /\ is (fvy (fplanes b)) (val (fvy (fL b))) /\ is (fvz (fplanes b)) (val (fvz (fL b))).
Proof.
  intros PB. destruct (plain_fin b PB) as (Fx & Fy & Fz). destruct PB as (Lx & Ly & Lz & Txy & Txz & Tyz).
  assert (M : forall x, is x 0 -> is (fmul x x) 0) by (intros x Hx; apply mul_zero; auto; apply Hx).
  unfold fplanes. cbn [fvx fvy fvz]. split; [|split; [|split; auto]].
  - apply div_one; auto using length_fits. apply root_one. apply add_zero_r; [apply add_zero_r; auto using is_one|]. apply M. apply sub_zeros; auto. apply mul_zero; auto. apply Txy.
  - apply div_one; auto using length_fits. apply root_one. apply add_zero_r; auto using is_one.
Qed.
Lemma dim_axis conv (L L' cw : f32) : defined_conv conv -> is L' (val L) -> ordinary_length cw -> fitting_axis L cw ->
  exists n, fdim_axis conv L' cw = Some n /\ (2 <= n <= 4194303)%Z /\ IZR n * val cw <= val L * (1 + u).
Proof.
  intros HC [FL VL] [Fc [C0 C1]] [H0 H1]. assert (P := bpow_gt_0 radix2 (-60)). assert (Pc : 0 < val cw) by lra.
  assert (Q : 2 <= val L' / val cw <= 4194303).
  { rewrite VL. split; apply Rmult_le_reg_r with (val cw); auto; unfold Rdiv; rewrite Rmult_assoc, Rinv_l by lra; lra. }
  assert (F127 : 8388608 <= bpow radix2 127) by (change 8388608 with (bpow radix2 23); apply bpow_le; lia).
  destruct (is_div L' cw FL) as [F V]; [lra|unfold fits; rewrite Rabs_pos_eq; lra|]. set (y := val (fdiv L' cw)) in *.
  assert (By : 2 <= y <= 4194303).
  { rewrite V. split; [apply rnd_ge_fmt; [apply (fmt_IZR 2); lia|lra]|apply rnd_le_fmt; [apply (fmt_IZR 4194303); lia|lra]]. }
  assert (Zb : (2 <= Zfloor y <= 4194303)%Z).
  { split; [apply Zfloor_lub; lra|]. apply le_IZR. eapply Rle_trans; [apply Zfloor_lb|]. lra. }
  exists (Zfloor y). unfold fdim_axis. rewrite ftruncate_val by (auto; fold y; lra). fold y. cbn [obind]. rewrite HC by lia. cbn [option_map]. unfold atleast1. rewrite (proj2 (Z.eqb_neq _ _)) by lia.
  split; auto. split; auto. apply Rle_trans with (y * val cw); [apply Rmult_le_compat_r; [lra|apply Zfloor_lb]|].
  rewrite V. destruct (rnd_rel (val L' / val cw)) as (e & E & ->).
  { rewrite Rabs_pos_eq by lra. apply Rle_trans with 1; [apply (bpow_le radix2 (-126) 0); lia|lra]. }
  apply Rabs_le_inv in E. rewrite VL. replace (val L / val cw * (1 + e) * val cw) with (val L * (1 + e)) by (field; lra). apply Rmult_le_compat_l; lra.
Qed.
Lemma fmt_twice x : fmt x -> fmt (2 * x).
Proof.
  intros H. rewrite fex_flt in *. apply FLT_format_generic in H; [|reflexivity]. destruct H as [[m e] E Hm He]. apply generic_format_FLT. exists (Float radix2 m (e + 1)).
  - rewrite E. unfold F2R. cbn [Fnum Fexp]. rewrite bpow_plus. change (bpow radix2 1) with 2. ring.
  - exact Hm.
  - cbn [Fexp] in *. lia.
Qed.
(** The constructor succeeds, and what it builds. *)
Definition dim_fits (b : fbox) (cw : f32) (dim : Z * Z * Z) : Prop :=
  let '(dx, dy, dz) := dim in IZR dx * val cw <= val (fvx (fL b)) * (1 + u) /\ IZR dy * val cw <= val (fvy (fL b)) * (1 + u) /\ (f2d b = false -> IZR dz * val cw <= val (fvz (fL b)) * (1 + u)).
Lemma make_spec conv b points cw : defined_conv conv -> plain_box b -> points <> [] -> Forall (in_box b) points -> fitting_width b cw ->
  exists lc, flc_make conv b points cw = Some lc /\ fl_box lc = b /\ fl_points lc = points /\ fl_width lc = cw /\
    dims_ok b (fl_dim lc) /\ dim_pos (fl_dim lc) /\ dim_fits b cw (fl_dim lc) /\ fcell_list conv b (fl_dim lc) points = Some (fl_list lc).
Proof.
  intros HC PB HN HI (Oc & Wx & Wy & Wz). destruct (planes_val b PB) as (Px & Py & Pz).
  destruct (dim_axis conv _ _ cw HC Px Oc Wx) as (dx & Ex & Rx & Gx). destruct (dim_axis conv _ _ cw HC Py Oc Wy) as (dy & Ey & Ry & Gy).
  assert (Zd : exists dz, (if f2d b then Some 1%Z else fdim_axis conv (fvz (fplanes b)) cw) = Some dz /\ (1 <= dz <= 4194303)%Z /\ (f2d b = true -> dz = 1%Z) /\ (f2d b = false -> IZR dz * val cw <= val (fvz (fL b)) * (1 + u))).
  { destruct (f2d b); [exists 1%Z; split; [auto|split; [lia|split; [auto|discriminate]]]|]. destruct (dim_axis conv _ _ cw HC Pz Oc (Wz eq_refl)) as (dz & Ez & Rz & Gz). exists dz. split; auto. split; [lia|]. split; [discriminate|auto]. }
  destruct Zd as (dz & Ez & Rz & D2 & Gz).
  assert (W2 : is (fmul cw (lit 2 0)) (2 * val cw)).
  { destruct Oc as [Fc [C0 C1]]. assert (P := bpow_gt_0 radix2 (-60)). destruct (is_lit_Z 2 ltac:(lia)) as [F2 V2]. assert (B127 : 2 * bpow radix2 60 <= bpow radix2 127) by (change 2 with (bpow radix2 1); rewrite <- bpow_plus; apply bpow_le; lia).
    destruct (is_mul cw (lit 2 0) Fc F2) as [F V]; [rewrite V2; unfold fits; rewrite Rabs_pos_eq; lra|]. split; auto. rewrite V, V2. replace (val cw * 2) with (2 * val cw) by ring. apply rnd_fmt. apply fmt_twice; apply fmt_val. }
  assert (CK : forall L : f32, forall l, is L l -> 2 * val cw <= l -> Bltb L (fmul cw (lit 2 0)) = false).
  { intros L l [FL VL] H. destruct W2 as [F2 V2]. rewrite Bltb_correct by auto. apply Rlt_bool_false. rewrite V2, VL. auto. }
  assert (DO : dims_ok b (dx, dy, dz)) by (split; [lia|auto]).
  assert (DP : dim_pos (dx, dy, dz)) by (simpl; lia).
  assert (CE : forall j, (j < length points)%nat -> exists c, fget_cell conv b (dx, dy, dz) (nth j points fv0) = Some c /\ (0 <= c < num_cells (dx, dy, dz))%Z).
  { intros j Hj. destruct (cell_coords conv b (nth j points fv0) (dx, dy, dz) HC PB (proj1 (Forall_forall _ _) HI _ (nth_In _ _ Hj)) DO) as (c & Ec & Ic & _). exists (coord_to_index (dx, dy, dz) c). unfold fget_cell. rewrite Ec. split; auto. apply coord_index_range. auto. }
  destruct (fcell_list_defined conv b _ points CE) as (cl & ECL).
  exists (FLC b points cw (dx, dy, dz) cl). cbn [fl_box fl_points fl_width fl_dim fl_list]. split; [|split; auto; split; auto; split; auto; split; auto; split; auto; split; auto].
  2:{ simpl. auto. }
  unfold flc_make. replace (fnq_ok b points) with true.
  2:{ symmetry. unfold fnq_ok. apply andb_true_iff. split; [destruct points; [congruence|auto]|]. destruct (f2d b) eqn:ED; auto. cbn [negb orb]. apply forallb_forall. intros p Hp. apply (proj1 (Forall_forall _ _) HI) in Hp. destruct Hp as (_ & _ & Hz). rewrite ED in Hz. destruct Hz as [Fz Bz].
      apply negb_true_iff. assert (T : is (lit 8796093 (-43)) (8796093 * bpow radix2 (-43))).
      { destruct (is_lit 8796093 (-43)) as [F V]. { unfold fits. rewrite Rabs_pos_eq by (apply Rmult_le_pos; [lra|apply bpow_ge_0]). apply Rle_trans with (bpow radix2 24 * bpow radix2 (-43)); [apply Rmult_le_compat_r; [apply bpow_ge_0|]; change (bpow radix2 24) with 16777216; lra|]. rewrite <- bpow_plus. apply bpow_le. lia. } split; [exact F|]. rewrite V. apply rnd_fmt. apply fmt_F2R; lia. }
      destruct T as [FT VT]. rewrite Bltb_correct by (auto; rewrite is_finite_Babs; auto). apply Rlt_bool_false. rewrite VT, B2R_Babs. eapply Rle_trans; [exact Bz|]. change (-20)%Z with (23 + -43)%Z. rewrite bpow_plus. apply Rmult_le_compat_r; [apply bpow_ge_0|]. change (bpow radix2 23) with 8388608. lra. }
  cbn [negb]. unfold fdimensions. rewrite Ex, Ey, Ez. rewrite (CK _ _ Px (proj1 Wx)), (CK _ _ Py (proj1 Wy)). cbn [orb].
  replace (negb (f2d b) && Bltb (fvz (fplanes b)) (fmul cw (lit 2 0))) with false.
  2:{ destruct (f2d b); auto. cbn [negb andb]. symmetry. apply (CK _ _ Pz (proj1 (Wz eq_refl))). }
  replace (if f2d b then 1%Z else dz) with dz by (destruct (f2d b); auto).
  assert (NC : (1 <= num_cells (dx, dy, dz))%Z) by (unfold num_cells; nia). rewrite (proj2 (Z.ltb_ge _ _)) by auto. rewrite ECL. auto.
Qed.

(** * Reach of the shells *)
Lemma reach n (cw L xj xq : f32) cj cq k : (1 <= n)%Z -> 0 < val cw -> 0 < val L -> IZR n * val cw <= val L * (1 + u) ->
  near_cell L xj n cj -> near_cell L xq n cq ->
  exists dc, cj = cmod (cq + dc) n /\ (IZR (Z.abs dc) - 1) * val cw < (1 + u) * (Rabs (val xj - (val xq + IZR k * val L)) + 10 * u * val L).
Proof.
  intros Hn Hc HL HF (yj & Pj & Ej & ->) (yq & Pq & Eq & ->). exists (Zfloor yj - Zfloor yq - k * n)%Z. split.
  - rewrite cmod_mod by lia. replace (Zfloor yq mod n + (Zfloor yj - Zfloor yq - k * n))%Z with (Zfloor yq mod n + (Zfloor yj - Zfloor yq + (- k) * n))%Z by ring.
    rewrite Z.add_mod_idemp_l by lia. replace (Zfloor yq + (Zfloor yj - Zfloor yq + - k * n))%Z with (Zfloor yj + (- k) * n)%Z by ring. rewrite Z.mod_add by lia. auto.
  - unfold cell_position in *. set (t := val xj - (val xq + IZR k * val L)). assert (Bn : 1 <= IZR n) by (apply IZR_le; auto).
    assert (E : IZR n * ((val xj + val L / 2) / val L) - IZR n * ((val xq + val L / 2) / val L) - IZR k * IZR n = IZR n * (t / val L)) by (unfold t; field; lra).
    set (a := IZR n * ((val xj + val L / 2) / val L)) in *. set (b := IZR n * ((val xq + val L / 2) / val L)) in *.
    rewrite abs_IZR, !minus_IZR, mult_IZR. pose proof (Zfloor_bounds yj) as [J1 J2]. pose proof (Zfloor_bounds yq) as [Q1 Q2]. apply Rabs_le_inv in Ej. apply Rabs_le_inv in Eq.
    assert (A : Rabs (IZR n * (t / val L)) = IZR n * (Rabs t / val L)) by (unfold Rdiv; rewrite !Rabs_mult, (Rabs_pos_eq (IZR n)), (Rabs_pos_eq (/ val L)); auto; [apply Rlt_le, Rinv_0_lt_compat; lra|lra]).
    assert (A' : - (IZR n * (Rabs t / val L)) <= IZR n * (t / val L) <= IZR n * (Rabs t / val L)) by (apply Rabs_le_inv; rewrite A; apply Rle_refl).
    assert (B : Rabs (IZR (Zfloor yj) - IZR (Zfloor yq) - IZR k * IZR n) - 1 < IZR n * (Rabs t / val L) + 10 * u * IZR n).
    { assert (Rabs (IZR (Zfloor yj) - IZR (Zfloor yq) - IZR k * IZR n) < IZR n * (Rabs t / val L) + 10 * u * IZR n + 1); [|lra]. apply Rabs_def1; lra. }
    apply Rlt_le_trans with ((IZR n * (Rabs t / val L) + 10 * u * IZR n) * val cw); [apply Rmult_lt_compat_r; auto|].
    replace ((IZR n * (Rabs t / val L) + 10 * u * IZR n) * val cw) with ((IZR n * val cw) * ((Rabs t + 10 * u * val L) / val L)) by (field; lra).
    assert (U : 0 < u) by (unfold u; lra). assert (Pt := Rabs_pos t).
    apply Rle_trans with (val L * (1 + u) * ((Rabs t + 10 * u * val L) / val L)).
    + apply Rmult_le_compat_r; auto. apply Rmult_le_pos; [|apply Rlt_le, Rinv_0_lt_compat; auto]. assert (0 <= 10 * u * val L) by (apply Rmult_le_pos; lra). lra.
    + right. field. lra.
Qed.
Lemma scaled (k : Z) (cw : f32) : ordinary_length cw -> fits (IZR k) -> Rabs (IZR k) * (2 * val cw) <= bpow radix2 127 ->
  finite (fmul (lit k 0) cw) = true /\ val (fmul (lit k 0) cw) = rnd (rnd (IZR k) * val cw) /\ exists e, Rabs e <= u /\ rnd (IZR k) = IZR k * (1 + e).
Proof.
  intros [Fc [C0 C1]] HF HB. assert (P := bpow_gt_0 radix2 (-60)). assert (E0 : IZR k * bpow radix2 0 = IZR k) by (cbn; ring).
  destruct (is_lit k 0) as [Fl Vl]; [rewrite E0; auto|]. rewrite E0 in Vl.
  assert (RR : exists e, Rabs e <= u /\ rnd (IZR k) = IZR k * (1 + e)).
  { destruct (Z.eq_dec k 0) as [->|N]; [exists 0; rewrite rnd_0, Rabs_R0; split; [unfold u; lra|ring]|]. apply rnd_rel. rewrite <- abs_IZR. apply Rle_trans with 1; [apply (bpow_le radix2 (-126) 0); lia|]. apply (IZR_le 1). lia. }
  destruct RR as (e & E & R). assert (E' := E). apply Rabs_le_inv in E'.
  destruct (is_mul (lit k 0) cw Fl Fc) as [F V].
  { rewrite Vl, R. unfold fits. rewrite !Rabs_mult, (Rabs_pos_eq (val cw)) by lra. eapply Rle_trans; [|exact HB]. rewrite Rmult_assoc. apply Rmult_le_compat_l; [apply Rabs_pos|]. apply Rmult_le_compat_r; [lra|]. apply Rabs_le. unfold u in *. lra. }
  split; auto. split; [rewrite V, Vl; auto|eauto].
Qed.
