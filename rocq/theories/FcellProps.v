(** C79: LinkCell in single precision. *)
From Coq Require Import Psatz.
From Verif Require AABBProofs2.
From Verif Require Import LinkCellModel NListProofs MArrayProofs LinkCellProofs LinkCellProofs2 LinkCellProofs3 F32Proofs F32Proofs4 F32Props Vec FaabbProofs FaabbProofs2 FaabbProps FcellSpec FcellProofs FcellProofs2 FcellProofs3 FcellProofs4.
Open Scope nat_scope.

(** In boxes without tilt every point of the box, faces included, has a cell, which is the right one up to the rounding of its position. *)
Theorem C79_cells conv b p dim : defined_conv conv -> plain_box b -> in_box b p -> dims_ok b dim ->
  exists c, fcell_coord conv b dim p = Some c /\ near_cells b p dim c.
Proof. intros HC PB IB DO. destruct (cell_coords conv b p dim HC PB IB DO) as (c & E & _ & N). eauto. Qed.

(** The whole answer. *)
Lemma answer conv b points cw lc q qi r_max r_min excl : defined_conv conv -> plain_box b -> points <> [] -> Forall (in_box b) points -> fitting_width b cw ->
  flc_make conv b points cw = Some lc -> in_box b q -> ordinary_radius r_max -> fpoint_args_ok r_max r_min = true ->
  exists pc cells l, fcell_coord conv b (fl_dim lc) q = Some pc /\ in_dim (fl_dim lc) pc /\ near_cells b q (fl_dim lc) pc /\ fl_box lc = b /\ fl_points lc = points /\ fl_width lc = cw /\
    dims_ok b (fl_dim lc) /\ dim_pos (fl_dim lc) /\ dim_fits b cw (fl_dim lc) /\
    flc_ball conv lc q qi r_max r_min excl (Some l) /\ (forall res, flc_ball conv lc q qi r_max r_min excl res -> res = Some l) /\
    NoDup cells /\ (forall c, (exists p, (forall k, (0 <= k <= cheb p)%Z -> fout lc r_max k = false) /\ offset_ok (f2d b) p /\ cell_index (fl_dim lc) (add3 pc p) = c) -> In c cells) /\
    l = flat_map (fun c => flat_map (fl_emit lc q qi r_max r_min excl) (fcontents conv b (fl_dim lc) points c)) cells.
Proof.
  intros HC PB HN HI HW HM IQ Or HA. destruct (make_spec conv b points cw HC PB HN HI HW) as (lc' & EM & EB & EP & EW & DO & DP & DF & EL). rewrite HM in EM. injection EM as <-.
  destruct (cell_coords conv b q (fl_dim lc) HC PB IQ DO) as (pc & Eq & Ipc & Nq).
  assert (Oc : ordinary_length (fl_width lc)) by (rewrite EW; apply HW).
  destruct (out_some lc r_max Oc Or) as (K & HK & OK).
  assert (HR : forall j c, j < length (fl_points lc) -> fget_cell conv (fl_box lc) (fl_dim lc) (nth j (fl_points lc) fv0) = Some c -> (0 <= c < num_cells (fl_dim lc))%Z).
  { rewrite EB, EP. intros j c Hj E. destruct (cell_coords conv b (nth j points fv0) (fl_dim lc) HC PB (proj1 (Forall_forall _ _) HI _ (nth_In _ _ Hj)) DO) as (c' & Ec & Ic & _).
    unfold fget_cell in E. rewrite Ec in E. injection E as <-. apply coord_index_range. auto. }
  assert (EL' : fcell_list conv (fl_box lc) (fl_dim lc) (fl_points lc) = Some (fl_list lc)) by (rewrite EB, EP; auto).
  destruct (fl_cells conv lc q qi r_max r_min excl pc K DP Ipc HR EL' HK (out_0 lc r_max Oc Or) OK) as (M & cells & l & HM0 & ND & IN & OM & CC & DR & El).
  rewrite EB, EP in *. exists pc, cells, l.
  assert (BL : forall res, flc_ball conv lc q qi r_max r_min excl res -> res = Some l).
  { intros res H. unfold flc_ball in H. rewrite HA, EB, Eq in H. destruct H as (pc' & l' & E1 & -> & D'). injection E1 as <-. f_equal. eapply fdrained_det; eauto. }
  repeat (split; [solve [auto]|]). split; [unfold flc_ball; rewrite HA, EB; exists pc, l; auto|]. split; [auto|]. split; [auto|]. split; [|auto].
  intros c (p & Hp & Ho & Hi). apply CC. exists p. split; auto.
  destruct (Z_lt_le_dec (cheb p) (Z.of_nat M)) as [|G]; auto. specialize (Hp (Z.of_nat M)). rewrite OM in Hp. discriminate Hp. lia.
Qed.

Lemma emit_in lc q qi r_max r_min excl j x : In x (fl_emit lc q qi r_max r_min excl j) ->
  let d := fwrap (fl_box lc) (fvsub (nth j (fl_points lc) fv0) q) in
  x = FBond qi j (Bsqrt mode_NE (fnorm2 d)) d /\ (excl = true -> j <> qi) /\ Bltb (fnorm2 d) (fmul r_max r_max) = true /\ Bleb (fmul r_min r_min) (fnorm2 d) = true.
Proof.
  unfold fl_emit. cbv zeta. destruct (excl && (qi =? j)) eqn:EX; [intros []|]. destruct (Bltb _ _) eqn:E1; [|intros []]. destruct (Bleb _ _) eqn:E2; [|intros []]. intros [<-|[]].
  split; auto. split; auto. intros ->. intros ->. cbn [andb] in EX. rewrite Nat.eqb_refl in EX. discriminate.
Qed.
(** Building the cell list and asking it always works and has one answer. *)
Theorem C79_defined conv b points cw : defined_conv conv -> plain_box b -> points <> [] -> Forall (in_box b) points -> fitting_width b cw ->
  exists lc, flc_make conv b points cw = Some lc /\
  forall q qi r_max r_min excl, in_box b q -> ordinary_radius r_max -> fpoint_args_ok r_max r_min = true ->
  exists l, flc_ball conv lc q qi r_max r_min excl (Some l) /\ forall res, flc_ball conv lc q qi r_max r_min excl res -> res = Some l.
Proof.
  intros HC PB HN HI HW. destruct (make_spec conv b points cw HC PB HN HI HW) as (lc & EM & _). exists lc. split; auto. intros q qi r_max r_min excl IQ Or HA.
  destruct (answer conv b points cw lc q qi r_max r_min excl HC PB HN HI HW EM IQ Or HA) as (pc & cells & l & R). exists l. split; apply R.
Qed.
(** No point is reported twice. *)
Theorem C79_once conv b points cw lc q qi r_max r_min excl l : defined_conv conv -> plain_box b -> points <> [] -> Forall (in_box b) points -> fitting_width b cw ->
  flc_make conv b points cw = Some lc -> in_box b q -> ordinary_radius r_max -> flc_ball conv lc q qi r_max r_min excl (Some l) -> NoDup (map fb_p l).
Proof.
  intros HC PB HN HI HW HM IQ Or H. assert (HA : fpoint_args_ok r_max r_min = true) by (unfold flc_ball in H; destruct (fpoint_args_ok r_max r_min); [auto|discriminate]).
  destruct (answer conv b points cw lc q qi r_max r_min excl HC PB HN HI HW HM IQ Or HA) as (pc & cells & l' & _ & _ & _ & _ & _ & _ & _ & _ & _ & _ & UN & ND & _ & EL).
  apply UN in H. injection H as ->. subst l'. rewrite map_flat_map. apply AABBProofs2.NoDup_flat_map; auto.
  - intros c _. rewrite map_flat_map. apply AABBProofs2.NoDup_flat_map; [apply NoDup_filter, seq_NoDup| |].
    + intros j _. unfold fl_emit. cbv zeta. destruct (excl && _); [constructor|]. destruct (_ && _); [|constructor]. cbn. constructor; [intros []|constructor].
    + intros j j' x _ _ Hx Hx'. apply in_map_iff in Hx as (y & <- & Hy), Hx' as (y' & Ey & Hy'). apply emit_in in Hy as [-> _]. apply emit_in in Hy' as [-> _]. cbn [fb_p] in Ey. auto.
  - intros c c' x _ _ Hx Hx'. apply in_map_iff in Hx as (y & <- & Hy), Hx' as (y' & Ey & Hy'). apply in_flat_map in Hy as (j & Hj & Hy). apply in_flat_map in Hy' as (j' & Hj' & Hy').
    apply emit_in in Hy as [-> _]. apply emit_in in Hy' as [-> _]. cbn [fb_p] in Ey. subst j'. apply filter_In in Hj as [_ Hj], Hj' as [_ Hj']. unfold fpt_cell in Hj, Hj'. destruct (fget_cell _ _ _ _); [|discriminate]. apply Z.eqb_eq in Hj, Hj'. congruence.
Qed.
(** Pairs clearly within range are found, with accurate distances and vectors. *)
Theorem C79_inside conv b points cw lc q qi r_max r_min excl l : defined_conv conv -> plain_box b -> all_periodic b -> points <> [] -> Forall (in_box b) points -> fitting_width b cw ->
  flc_make conv b points cw = Some lc -> in_box b q -> ordinary_radius r_max -> half_box b r_max -> min_radius r_min -> flc_ball conv lc q qi r_max r_min excl (Some l) ->
  forall p i j k, p < length points -> (excl = true -> p <> qi) ->
  let D := exact_distance b (nth p points fv0) q i j k in
  (D + cell_uncertainty b D <= val r_max)%R -> (is r_min 0 \/ val r_min <= D - cell_uncertainty b D)%R ->
  exists x, In x l /\ fb_q x = qi /\ fb_p x = p /\ (Rabs (val (fb_d x) - D) <= cell_uncertainty b D)%R /\
    (norm (rv (fb_r x) - (rv (fflat b (nth p points fv0)) - moved b q i j k))%V <= cell_uncertainty b D)%R.
Proof.
  intros HC PB AP HN HI HW HM IQ Or HB Om H p i j k Hp Hx D HD Hmin. assert (HA : fpoint_args_ok r_max r_min = true) by (unfold flc_ball in H; destruct (fpoint_args_ok r_max r_min); [auto|discriminate]).
  destruct (answer conv b points cw lc q qi r_max r_min excl HC PB HN HI HW HM IQ Or HA) as (pc & cells & l' & Eq & Ipc & Nq & EB & EP & EW & DO & DP & DF & _ & UN & ND & CC & EL).
  apply UN in H. injection H as ->. assert (IP : in_box b (nth p points fv0)) by (apply (proj1 (Forall_forall _ _) HI), nth_In; auto).
  set (pp := nth p points fv0) in *. destruct (displacement b pp q PB AP IP IQ) as (Fw & Bx & By & Bz & _ & UW). set (w := fwrap b (fvsub pp q)) in *.
  assert (E := UW i j k r_max HB HD). exists (FBond qi p (Bsqrt mode_NE (fnorm2 w)) w). cbn [fb_q fb_p fb_d fb_r].
  assert (D0 : (0 <= D)%R) by apply norm_nonneg. assert (SP := size_pos b PB).
  split; [|split; auto; split; auto; split; [exact (disp_distance b w _ PB Fw Bx By Bz E)|]].
  2:{ eapply Rle_trans; [exact E|]. assert (P := bpow_gt_0 radix2 (-70)). unfold cell_uncertainty, u in *. lra. }
  subst l'. apply in_flat_map. destruct (cell_coords conv b pp (fl_dim lc) HC PB IP DO) as (cj & Ej & Icj & Nj).
  exists (coord_to_index (fl_dim lc) cj). split.
  - apply CC.
    assert (CX : forall v, (Rabs (vx v) <= norm v /\ Rabs (vy v) <= norm v /\ Rabs (vz v) <= norm v)%R).
    { intros v. unfold norm. assert (SQ : forall x s, (x * x <= s -> Rabs x <= sqrt s)%R) by (intros x s H; rewrite <- sqrt_Rsqr_abs; apply sqrt_le_1_alt; unfold Rsqr; auto). unfold dot. split; [|split]; apply SQ; nra. }
    destruct (CX (rv (fflat b pp) - moved b q i j k)%V) as (X1 & X2 & X3). fold (exact_distance b pp q i j k) in X1, X2, X3. fold D in X1, X2, X3.
    unfold moved, rv in X1, X2, X3. cbn [vsub vadd vx vy vz] in X1, X2, X3. assert (XF : forall v, fvx (fflat b v) = fvx v /\ fvy (fflat b v) = fvy v) by (intros v; unfold fflat; destruct (f2d b); auto).
    destruct (XF pp) as [Pa Pb]. destruct (XF q) as [Qa Qb]. rewrite Pa, Qa in X1. rewrite Pb, Qb in X2.
    assert (Oc : ordinary_length (fl_width lc)) by (rewrite EW; apply HW). assert (Pc := cw_pos lc Oc). rewrite EW in Pc.
    assert (PB' := PB). destruct PB' as (Lx & Ly & Lz & _). assert (P60 := bpow_gt_0 radix2 (-60)).
    assert (LT : (0 < val (fvx (fL b)) /\ 0 < val (fvy (fL b)) /\ (f2d b = false -> 0 < val (fvz (fL b))) /\ 0 <= val (fvz (fL b)))%R).
    { destruct Lx as [_ [Lx _]], Ly as [_ [Ly _]]. split; [lra|]. split; [lra|]. destruct (f2d b); [destruct Lz as [_ ->]; split; [discriminate|lra]|destruct Lz as [_ [Lz _]]; split; [intros _|]; lra]. }
    destruct LT as (LTx & LTy & LTz & LTz0). set (X := ((1 + u) * (D + 10 * u * box_size b))%R).
    assert (MX : forall t L, (0 <= L -> L <= box_size b -> t <= D -> (1 + u) * (t + 10 * u * L) <= X)%R).
    { intros t L L0 L1 Ht. unfold X. apply Rmult_le_compat_l; [unfold u; lra|]. assert (10 * u * L <= 10 * u * box_size b)%R by (apply Rmult_le_compat_l; [unfold u; lra|auto]). lra. }
    destruct (fl_dim lc) as [[dx dy] dz] eqn:ED, pc as [[qx qy] qz], cj as [[jx jy] jz]. destruct DO as ((Dx & Dy & Dz) & D2). destruct DF as (Gx & Gy & Gz). destruct Nq as (Nx & Ny & Nz), Nj as (Mx & My & Mz).
    destruct (reach dx cw _ _ _ jx qx i ltac:(lia) Pc LTx Gx Mx Nx) as (cx & Ex & Rx). destruct (reach dy cw _ _ _ jy qy j ltac:(lia) Pc LTy Gy My Ny) as (cy & Ey & Ry).
    assert (Zc : exists cz, jz = cmod (qz + cz) dz /\ (f2d b = true -> cz = 0%Z) /\ ((IZR (Z.abs cz) - 1) * val cw < X)%R).
    { unfold fflat in X3. destruct (f2d b) eqn:E2.
      - exists 0%Z. subst jz qz. rewrite (D2 eq_refl). split; [reflexivity|]. split; auto. replace (Z.abs 0) with 0%Z by reflexivity. unfold X. assert (0 <= u * box_size b)%R by (apply Rmult_le_pos; unfold u; lra). assert (0 <= (1 + u) * (D + 10 * u * box_size b))%R by (apply Rmult_le_pos; [unfold u|]; lra). lra.
      - destruct (reach dz cw _ _ _ jz qz k ltac:(lia) Pc (LTz eq_refl) (Gz eq_refl) Mz Nz) as (cz & Ez & Rz). exists cz. split; auto. split; [discriminate|]. eapply Rlt_le_trans; [exact Rz|]. apply MX; auto. unfold box_size. lra. }
    destruct Zc as (cz & Ez & O2 & Rz). assert (Rx' : ((IZR (Z.abs cx) - 1) * val cw < X)%R) by (eapply Rlt_le_trans; [exact Rx|]; apply MX; auto; unfold box_size; lra). assert (Ry' : ((IZR (Z.abs cy) - 1) * val cw < X)%R) by (eapply Rlt_le_trans; [exact Ry|]; apply MX; auto; unfold box_size; lra).
    exists (cx, cy, cz). split; [|split; [exact O2|unfold add3, cell_index; rewrite <- Ex, <- Ey, <- Ez; reflexivity]].
    intros n [N0 N1]. destruct (Z.eq_dec n 0) as [->|NZ]; [apply out_0; auto|]. apply in_reach with X; auto; [lia| |].
    + rewrite EW. set (ch := cheb (cx, cy, cz)) in *. assert (C : ((IZR ch - 1) * val cw < X)%R).
      { assert (Z.abs cx = ch \/ Z.abs cy = ch \/ Z.abs cz = ch) as [<-|[<-|<-]] by (unfold ch, cheb; lia); auto. }
      eapply Rle_lt_trans; [|exact C]. apply Rmult_le_compat_r; [lra|]. apply IZR_le in N1. lra.
    + unfold X. unfold cell_uncertainty in HD. assert (P := bpow_gt_0 radix2 (-70)). eapply Rle_trans; [|exact HD]. clearbody D. set (s := box_size b) in *. clearbody s. replace ((1 + u) * (D + 10 * u * s) * (1 + u))%R with ((1 + u) * (1 + u) * (D + 10 * u * s))%R by ring.
      assert ((1 + u) * (1 + u) <= 1 + 3 * u)%R by (unfold u; lra). apply Rle_trans with ((1 + 3 * u) * (D + 10 * u * s))%R; [apply Rmult_le_compat_r; [unfold u; lra|auto]|]. unfold u. lra.
  - apply in_flat_map. exists p. split.
    + apply filter_In. split; [apply in_seq; lia|]. unfold fpt_cell, fget_cell. fold pp. rewrite Ej. apply Z.eqb_refl.
    + unfold fl_emit. cbv zeta. rewrite EB, EP. fold pp w. replace (excl && (qi =? p)) with false by (destruct excl; auto; symmetry; apply Nat.eqb_neq; intros ->; apply Hx; auto).
      assert (B1 := disp_below b w _ PB Fw Bx By Bz E r_max Or HD). destruct (disp_finite w Fw Bx By Bz) as (Fn & Pn). destruct (radius_val r_max Or) as (Fm & _).
      rewrite Bltb_correct, (Rlt_bool_true _ _ B1) by auto. cbn [andb].
      assert (B2 : Bleb (fmul r_min r_min) (fnorm2 w) = true); [|rewrite B2; left; reflexivity].
      destruct Om as [Z0|Om].
      * destruct (FaabbProofs2.mul_zero r_min r_min (proj1 Z0) Z0) as [F0 V0]. rewrite Bleb_correct by auto. apply Rle_bool_true. rewrite V0. auto.
      * destruct (radius_val r_min Om) as (Fm' & P' & _). rewrite Bleb_correct by auto. apply Rle_bool_true. apply (disp_above b w _ PB Fw Bx By Bz E r_min Om). destruct Hmin as [[_ Z0]|Hmin]; [rewrite Z0 in P'; lra|auto].
Qed.
(** Nothing clearly out of range is found, and every bond is accurate. *)
Theorem C79_outside conv b points cw lc q qi r_max r_min excl l : defined_conv conv -> plain_box b -> all_periodic b -> points <> [] -> Forall (in_box b) points -> fitting_width b cw ->
  flc_make conv b points cw = Some lc -> in_box b q -> ordinary_radius r_max -> min_radius r_min -> flc_ball conv lc q qi r_max r_min excl (Some l) ->
  forall x, In x l -> fb_q x = qi /\ fb_p x < length points /\ (excl = true -> fb_p x <> qi) /\
  exists i j k, neighbour_cell b i j k /\
  let D := exact_distance b (nth (fb_p x) points fv0) q i j k in
  (D - cell_uncertainty b D < val r_max)%R /\ (val r_min < D + cell_uncertainty b D)%R /\ (Rabs (val (fb_d x) - D) <= cell_uncertainty b D)%R /\
  (norm (rv (fb_r x) - (rv (fflat b (nth (fb_p x) points fv0)) - moved b q i j k))%V <= cell_uncertainty b D)%R.
Proof.
  intros HC PB AP HN HI HW HM IQ Or Om H x Hx. assert (HA : fpoint_args_ok r_max r_min = true) by (unfold flc_ball in H; destruct (fpoint_args_ok r_max r_min); [auto|discriminate]).
  destruct (answer conv b points cw lc q qi r_max r_min excl HC PB HN HI HW HM IQ Or HA) as (pc & cells & l' & Eq & Ipc & Nq & EB & EP & EW & DO & DP & DF & _ & UN & ND & CC & EL).
  apply UN in H. injection H as ->. subst l'. apply in_flat_map in Hx as (c & _ & Hx). apply in_flat_map in Hx as (p & Hp & Hx). apply filter_In in Hp as [Hp _]. apply in_seq in Hp.
  apply emit_in in Hx as (-> & HE & E1 & E2). rewrite EB, EP in *. cbn [fb_q fb_p fb_d fb_r]. split; auto. split; [lia|]. split; auto.
  assert (IP : in_box b (nth p points fv0)) by (apply (proj1 (Forall_forall _ _) HI), nth_In; lia). set (pp := nth p points fv0) in *.
  destruct (displacement b pp q PB AP IP IQ) as (Fw & Bx & By & Bz & (i & j & k & NC & E) & _). set (w := fwrap b (fvsub pp q)) in *. exists i, j, k. split; auto. cbv zeta.
  destruct (disp_finite w Fw Bx By Bz) as (Fn & Pn). destruct (radius_val r_max Or) as (Fm & _). rewrite Bltb_correct in E1 by auto. set (D := exact_distance b pp q i j k).
  assert (D0 : (0 <= D)%R) by apply norm_nonneg. assert (SP := size_pos b PB). assert (P := bpow_gt_0 radix2 (-70)).
  split; [|split; [|split; [exact (disp_distance b w _ PB Fw Bx By Bz E)|]]].
  - apply Rnot_le_lt. intros L. assert (A := disp_above b w _ PB Fw Bx By Bz E r_max Or L). rewrite Rlt_bool_false in E1 by auto. discriminate.
  - destruct Om as [[_ Z0]|Om].
    + rewrite Z0. unfold cell_uncertainty, u. lra.
    + destruct (radius_val r_min Om) as (Fm' & _). rewrite Bleb_correct in E2 by auto. apply Rnot_le_lt. intros L. assert (A := disp_below b w _ PB Fw Bx By Bz E r_min Om L). rewrite Rle_bool_false in E2 by auto. discriminate.
  - eapply Rle_trans; [exact E|]. unfold cell_uncertainty, u in *. lra.
Qed.
(** A point whose distances to all neighbouring images of the query point are clear of both ends of the range is found by both methods or by none. *)
Definition clear (b : fbox) (p q : fvec) (r_max r_min : f32) : Prop :=
  forall i j k, neighbour_cell b i j k ->
  let D := exact_distance b p q i j k in
  let s := (slack D (norm (moved b q i j k)) + cell_uncertainty b D)%R in
  (val r_max <= D - s \/ D + s <= val r_min \/ (D + s <= val r_max /\ (is r_min 0 \/ val r_min <= D - s)))%R.
Theorem C79_agree conv b points cw lc q qi r_max r_min excl check l l' : defined_conv conv -> plain_box b -> all_periodic b -> points <> [] -> Forall (in_box b) points -> fitting_width b cw ->
  flc_make conv b points cw = Some lc -> in_box b q -> ordinary_radius r_max -> half_box b r_max -> min_radius r_min ->
  flc_ball conv lc q qi r_max r_min excl (Some l) -> faabb_ball b points q qi r_max r_min excl check (Some l') ->
  forall p, p < length points -> clear b (nth p points fv0) q r_max r_min ->
  ((exists x, In x l /\ fb_p x = p) <-> (exists x, In x l' /\ fb_p x = p)).
Proof.
  intros HC PB AP HN HI HW HM IQ Or HB Om H H' p Hp CL.
  assert (HO : Forall ordinary_point points) by (eapply Forall_impl; [|exact HI]; intros; apply in_box_ordinary with b; auto). assert (Oq := in_box_ordinary b q PB IQ).
  assert (PS : forall D S, (0 <= D -> 0 <= S -> 0 < slack D S /\ 0 < cell_uncertainty b D)%R).
  { intros D S HD HS. assert (P := bpow_gt_0 radix2 (-70)). assert (SP := size_pos b PB). unfold slack, cell_uncertainty, u. lra. }
  split; intros (x & Hx & <-).
  - destruct (C79_outside _ _ _ _ _ _ _ _ _ _ _ HC PB AP HN HI HW HM IQ Or Om H x Hx) as (_ & _ & HE & i & j & k & NC & A1 & A2 & _). cbv zeta in A1, A2. specialize (CL i j k NC). cbv zeta in CL.
    set (D := exact_distance b (nth (fb_p x) points fv0) q i j k) in *. set (S := norm (moved b q i j k)) in *. destruct (PS D S (norm_nonneg _) (norm_nonneg _)) as [P1 P2].
    destruct CL as [C|[C|[C1 C2]]]; [exfalso; lra|exfalso; lra|].
    destruct (C78_inside b points q qi r_max r_min excl check l' HN PB HO Oq Or Om H' (fb_p x) i j k Hp HE NC) as (y & Hy & _ & Ey & _); [fold D S; lra|fold D S; destruct C2 as [C2|C2]; [left; auto|right; lra]|]. exists y. auto.
  - destruct (C78_outside _ _ _ _ _ _ _ _ _ HN PB HO Oq Or Om H' x Hx) as (_ & _ & HE & i & j & k & NC & A1 & A2 & _). cbv zeta in A1, A2. specialize (CL i j k NC). cbv zeta in CL.
    set (D := exact_distance b (nth (fb_p x) points fv0) q i j k) in *. set (S := norm (moved b q i j k)) in *. destruct (PS D S (norm_nonneg _) (norm_nonneg _)) as [P1 P2].
    destruct CL as [C|[C|[C1 C2]]]; [exfalso; lra|exfalso; lra|].
    destruct (C79_inside conv b points cw lc q qi r_max r_min excl l HC PB AP HN HI HW HM IQ Or HB Om H (fb_p x) i j k Hp HE) as (y & Hy & _ & Ey & _); [fold D; lra|fold D; destruct C2 as [C2|C2]; [left; auto|right; lra]|]. exists y. auto.
Qed.

(** * Tilted boxes *)
(** Running the iterator. *)
Fixpoint frun {S} (fuel : nat) (step : S -> fevent S) (s : S) : option (list fbond) :=
  match fuel with
  | O => None
  | Datatypes.S fuel => match step s with FDone => Some [] | FMove s' => frun fuel step s' | FOut x s' => option_map (cons x) (frun fuel step s') | FFault => None end
  end.
Lemma frun_drained {S} (step : S -> fevent S) fuel s l : frun fuel step s = Some l -> fdrained step s l.
Proof.
  revert s l. induction fuel as [|fuel IH]; intros s l H; [discriminate|]. cbn [frun] in H. destruct (step s) as [x s'|s'| |] eqn:E; [|apply fdr_move with s'; auto|injection H as <-; apply fdr_done; auto|discriminate].
  destruct (frun fuel step s') as [l'|] eqn:E'; [|discriminate]. injection H as <-. apply fdr_out with s'; auto.
Qed.
Definition cell_indices (fuel : nat) conv b points cw q qi r_max r_min excl : option (list (nat * nat)) :=
  match flc_make conv b points cw with
  | Some lc => match fcell_coord conv (fl_box lc) (fl_dim lc) q with
               | Some pc => option_map (map indices) (frun fuel (fl_step lc pc q qi r_max r_min excl) (fl_start lc pc))
               | None => None end
  | None => None
  end.
Lemma cell_run fuel conv b points cw q qi r_max r_min excl ix : fpoint_args_ok r_max r_min = true -> cell_indices fuel conv b points cw q qi r_max r_min excl = Some ix ->
  exists lc l, flc_make conv b points cw = Some lc /\ flc_ball conv lc q qi r_max r_min excl (Some l) /\ map indices l = ix /\ forall res, flc_ball conv lc q qi r_max r_min excl res -> res = Some l.
Proof.
  intros HA H. unfold cell_indices in H. destruct (flc_make conv b points cw) as [lc|]; [|discriminate]. exists lc. destruct (fcell_coord conv (fl_box lc) (fl_dim lc) q) as [pc|] eqn:EC; [|discriminate].
  destruct (frun fuel _ _) as [l|] eqn:ER; [|discriminate]. cbn [option_map] in H. injection H as <-. apply frun_drained in ER. exists l. split; auto. unfold flc_ball. rewrite HA. split; [exists pc, l; auto|]. split; auto.
  intros res (pc' & l' & EC' & -> & D). rewrite EC in EC'. injection EC' as <-. f_equal. eapply fdrained_det; eauto.
Qed.

(** A point as [Box.wrap] returns it, in a tilted box. *)
Definition tilted_box : fbox := fmk_box (lit 7 0) (lit 7 0) fzero (lit 1 (-2)) fzero fzero true.
Definition tilted_point : fvec := fwrap tilted_box (FV (lit (-29) (-3)) (lit (-1) (-1)) fzero).
Definition tilted_query : fvec := fvadd tilted_point (FV (lit 3 (-3)) fzero fzero).
(** Its first fractional coordinate is computed to be negative, so that converting its cell number to unsigned int is undefined. *)
Theorem C79_tilted_refuted :
  fnq_ok tilted_box [tilted_point] = true /\ fdimensions cpp_conv tilted_box fone = Some (6, 7, 1)%Z /\
  Bltb (fvx (ffractional tilted_box tilted_point)) fzero = true /\
  fcell_coord cpp_conv tilted_box (6, 7, 1)%Z tilted_point = None /\ flc_make cpp_conv tilted_box [tilted_point] fone = None.
Proof. repeat split; vm_compute; reflexivity. Qed.
(** Compiled for x86-64 the point ends up in a cell far away: a query next to it does not find it, AABBQuery does. *)
Theorem C79_lost_refuted : exists lc, flc_make x86_conv tilted_box [tilted_point; tilted_query] fone = Some lc /\
  (forall res, flc_ball x86_conv lc tilted_query 1 (lit 7 (-3)) fzero true res <-> res = Some []) /\
  exists l, faabb_ball tilted_box [tilted_point; tilted_query] tilted_query 1 (lit 7 (-3)) fzero true true (Some l) /\ map indices l = [(1, 0)].
Proof.
  destruct (cell_run 200 x86_conv tilted_box [tilted_point; tilted_query] fone tilted_query 1 (lit 7 (-3)) fzero true []) as (lc & l & EM & H & E & U); [vm_compute; reflexivity|vm_compute; reflexivity|].
  destruct l; [|discriminate]. exists lc. split; [exact EM|]. split; [intros res; split; [apply U|intros ->; exact H]|].
  destruct (ball_indices tilted_box [tilted_point; tilted_query] tilted_query 1 (lit 7 (-3)) fzero true true [(1, 0)]) as (l & H' & P); [discriminate| |vm_compute; reflexivity|vm_compute; reflexivity|vm_compute; reflexivity|].
  - apply Forall_cons; [repeat split; vm_compute; reflexivity|]. apply Forall_cons; [repeat split; vm_compute; reflexivity|apply Forall_nil].
  - exists l. split; [exact H'|]. apply Permutation_length_1_inv. symmetry. exact P.
Qed.

(** * Cases *)
Lemma cpp_defined : defined_conv cpp_conv.
Proof. intros z Hz. unfold cpp_conv. destruct (Z.leb_spec 0 z), (Z.ltb_spec z (2 ^ 32)); auto; lia. Qed.
Lemma x86_defined : defined_conv x86_conv.
Proof. intros z Hz. unfold x86_conv. destruct (Z.leb_spec (- 2 ^ 63) z), (Z.ltb_spec z (2 ^ 63)); cbn [andb]; try lia. rewrite Z.mod_small; auto. Qed.
(** Two points across a boundary, in cells of width 2. *)
Example C79_case :
  plain_box edge_box /\ all_periodic edge_box /\ Forall (in_box edge_box) two_points /\ fitting_width edge_box (lit 2 0) /\ ordinary_radius (lit 3 0) /\ half_box edge_box (lit 3 0) /\ min_radius fzero /\
  (exists lc l, flc_make cpp_conv edge_box two_points (lit 2 0) = Some lc /\ flc_ball cpp_conv lc (nth 1 two_points fv0) 1 (lit 3 0) fzero true (Some l) /\ map indices l = [(1, 0)]) /\
  (exact_distance edge_box (nth 0 two_points fv0) (nth 1 two_points fv0) 1 0 0 = 2 /\ 2 + cell_uncertainty edge_box 2 <= val (lit 3 0))%R /\
  clear edge_box (nth 0 two_points fv0) (nth 1 two_points fv0) (lit 3 0) fzero /\
  dims_ok edge_box (5, 5, 5)%Z /\ fcell_coord cpp_conv edge_box (5, 5, 5)%Z (nth 0 two_points fv0) = Some (4, 2, 2)%Z.
Proof.
  assert (V4 := proj2 (is_lit_Z 4 ltac:(lia))). assert (V4' := proj2 (is_lit_Z (-4) ltac:(lia))). assert (V10 := proj2 (is_lit_Z 10 ltac:(lia))). assert (W3 := proj2 (is_lit_Z 3 ltac:(lia))). assert (V2 := proj2 (is_lit_Z 2 ltac:(lia))). assert (V1 := proj2 (is_lit_Z 1 ltac:(lia))).
  destruct C78_inside_case as (PB & _ & Or & Om & _ & _ & (ED & _)). change (val fzero) with 0%R in *.
  split; auto. split; [repeat split|].
  assert (A : forall m, (Z.abs m <= 5)%Z -> on_axis (lit 10 0) (lit m 0)).
  { intros m Hm. destruct (is_lit_Z m ltac:(lia)) as [F V]. split; auto. rewrite V, V10, <- abs_IZR. apply IZR_le in Hm. lra. }
  assert (A0 : on_axis (lit 10 0) fzero) by (split; auto; change (val fzero) with 0%R; rewrite V10, Rabs_R0; lra).
  split; [apply Forall_cons; [split; [apply A; lia|split; exact A0]|apply Forall_cons; [split; [apply A; lia|split; exact A0]|apply Forall_nil]]|].
  assert (FA : fitting_axis (lit 10 0) (lit 2 0)) by (unfold fitting_axis; rewrite V10, V2; lra).
  split; [split; [apply lit_length; lia|split; [exact FA|split; [exact FA|intros _; exact FA]]]|].
  split; auto. assert (HF : (2 * val (lit 3 0) <= val (lit 10 0))%R) by (rewrite V10, W3; lra). split; [split; [exact HF|split; [exact HF|intros _; exact HF]]|]. split; auto.
  split; [destruct (cell_run 400 cpp_conv edge_box two_points (lit 2 0) (nth 1 two_points fv0) 1 (lit 3 0) fzero true [(1, 0)]) as (lc & l & EM & H & E & U); [vm_compute; reflexivity|vm_compute; reflexivity|exists lc, l; auto]|].
  assert (SZ : box_size edge_box = 30%R) by (unfold box_size, edge_box, fmk_box; cbn [fL fvx fvy fvz]; rewrite V10; lra). assert (P70 : (0 < bpow radix2 (-70) <= 1 / 16777216)%R) by (split; [apply bpow_gt_0|]; replace (1 / 16777216)%R with (bpow radix2 (-24)) by (cbn; lra); apply bpow_le; lia).
  split; [split; auto; unfold cell_uncertainty; rewrite SZ, W3; unfold u; lra|].
  split; [|split; [split; [split; [lia|split; lia]|discriminate]|vm_compute; reflexivity]].
  intros i j k (Hi & _). cbv zeta. set (D := exact_distance edge_box (nth 0 two_points fv0) (nth 1 two_points fv0) i j k). set (S := norm (moved edge_box (nth 1 two_points fv0) i j k)).
  assert (EM : moved edge_box (nth 1 two_points fv0) i j k = V3 (-4 + IZR i * 10)%R (IZR j * 10)%R (IZR k * 10)%R).
  { unfold moved, rv, fflat, edge_box, fmk_box, two_points, vadd. cbn [f2d nth fL fvx fvy fvz vx vy vz]. rewrite V4', V10. change (val fzero) with 0%R. f_equal; ring. }
  assert (EF : (rv (fflat edge_box (nth 0 two_points fv0)) - moved edge_box (nth 1 two_points fv0) i j k)%V = V3 (8 - IZR i * 10)%R (- (IZR j * 10))%R (- (IZR k * 10))%R).
  { rewrite EM. unfold rv, fflat, edge_box, fmk_box, two_points, vsub. cbn [f2d nth fL fvx fvy fvz vx vy vz]. rewrite V4. change (val fzero) with 0%R. f_equal; ring. }
  assert (B : forall n, (Z.abs n <= 1)%Z -> (-1 <= IZR n <= 1)%R) by (intros n Hn; split; [apply (IZR_le (-1))|apply (IZR_le n 1)]; lia). destruct Hi as (Hi & Hj & Hk). assert (Bi := B i Hi). assert (Bj := B j Hj). assert (Bk := B k Hk).
  assert (S1 : (0 <= S <= 34)%R).
  { split; [apply norm_nonneg|]. unfold S. rewrite EM. eapply Rle_trans; [apply norm_sum|]. cbn [vx vy vz]. assert (Rabs (-4 + IZR i * 10) <= 14)%R by (apply Rabs_le; lra). assert (Rabs (IZR j * 10) <= 10)%R by (apply Rabs_le; lra). assert (Rabs (IZR k * 10) <= 10)%R by (apply Rabs_le; lra). lra. }
  assert (D1 : (D <= 38)%R).
  { unfold D, exact_distance. rewrite EF. eapply Rle_trans; [apply norm_sum|]. cbn [vx vy vz]. assert (Rabs (8 - IZR i * 10) <= 18)%R by (apply Rabs_le; lra). assert (Rabs (- (IZR j * 10)) <= 10)%R by (apply Rabs_le; lra). assert (Rabs (- (IZR k * 10)) <= 10)%R by (apply Rabs_le; lra). lra. }
  assert (CX : forall v, (vx v * vx v <= norm v * norm v /\ vy v * vy v <= norm v * norm v /\ vz v * vz v <= norm v * norm v)%R) by (intros v; rewrite norm_sq; unfold dot; split; [|split]; nra).
  destruct (CX (V3 (8 - IZR i * 10)%R (- (IZR j * 10))%R (- (IZR k * 10))%R)) as (X1 & X2 & X3). assert (EN : norm (V3 (8 - IZR i * 10)%R (- (IZR j * 10))%R (- (IZR k * 10))%R) = D) by (rewrite <- EF; reflexivity). rewrite EN in X1, X2, X3. cbn [vx vy vz] in X1, X2, X3.
  assert (D0 : (0 <= D)%R) by apply norm_nonneg. rewrite W3. change (val fzero) with 0%R.
  assert (C : (i = 1 /\ j = 0 /\ k = 0)%Z \/ (8 <= D)%R).
  { destruct (Z.eq_dec j 0) as [->|Nj]; [|right; assert (IZR j = -1 \/ IZR j = 1)%R as [Ej|Ej] by (assert (j = -1 \/ j = 1)%Z as [->| ->] by lia; auto); rewrite Ej in X2; nra].
    destruct (Z.eq_dec k 0) as [->|Nk]; [|right; assert (IZR k = -1 \/ IZR k = 1)%R as [Ej|Ej] by (assert (k = -1 \/ k = 1)%Z as [->| ->] by lia; auto); rewrite Ej in X3; nra].
    destruct (Z.eq_dec i 1) as [->|Ni]; [auto|right]. assert (IZR i = -1 \/ IZR i = 0)%R as [Ej|Ej] by (assert (i = -1 \/ i = 0)%Z as [->| ->] by lia; auto); rewrite Ej in X1; nra. }
  unfold slack, cell_uncertainty. rewrite SZ. destruct C as [(-> & -> & ->)|C].
  - right; right. assert (ED' : D = 2%R) by exact ED. rewrite ED'. split; [unfold u; lra|left; apply is_zero].
  - left. unfold u. lra.
Qed.

Print Assumptions C79_cells.
Print Assumptions C79_defined.
Print Assumptions C79_once.
Print Assumptions C79_inside.
Print Assumptions C79_outside.
Print Assumptions C79_agree.
Print Assumptions C79_tilted_refuted.
Print Assumptions C79_lost_refuted.
