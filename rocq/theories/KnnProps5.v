(** C34: what LinkCell misses in an elongated box; non-vacuity of the C34 and C22 theorems. *)
From Coq Require Import Sorting.Sorted.
From Verif Require Import MArrayProofs NListProofs AABBProofs2 FilterProps AABBProps BoxProofs BoxProofs2 BoxProps LinkCellProofs LinkCellProofs2 LinkCellProofs3 LinkCellProps QueryProofs QueryProps KnnModel KnnProofs KnnProofs2 KnnProps KnnProps2 KnnProps3 KnnProps4 NListSpec KnnSpec LinkCellSpec QueryArgSpec.
Open Scope R_scope.

(** The bonds delivered come from cells at an offset below [lk_max_range]. *)
Lemma lk_reached b points cw lc q qi k r_max r_min excl l x : positive b -> lc_make b points cw = Some lc -> 0 < lc_width lc ->
  lk_nearest lc q qi k r_max r_min excl (Some l) -> In x l ->
  exists pc p, cell_coord b (lc_dim lc) q = Some pc /\ (cheb p < lk_max_range lc)%Z /\ (bp x < length points)%nat /\
    get_cell b (lc_dim lc) (nth (bp x) points v0) = Some (cell_index (lc_dim lc) (add3 pc p)).
Proof.
  intros Hb HM Hw. unfold lk_nearest. destruct (near_args_ok r_max r_min) eqn:NA; [|discriminate].
  intros (Hk & pc & s & HP & SR & El) Hx. apply some_inj in El. assert (HM' := HM). apply lc_make_spec in HM' as (Eb & Ep & Hne & _ & HD & _ & HL & _). rewrite Eb in HP.
  assert (Hin : in_dim (lc_dim lc) pc) by (pose proof (cell_coord_spec _ _ _ _ HD HP) as X; destruct (lc_dim lc) as [[? ?] ?]; apply X).
  assert (RG : forall j c, get_cell b (lc_dim lc) (nth j points v0) = Some c -> (0 <= c < num_cells (lc_dim lc))%Z).
  { intros j c E. unfold get_cell in E. destruct (cell_coord b (lc_dim lc) (nth j points v0)) as [c'|] eqn:Ec; [|discriminate].
    injection E as <-. apply cell_coord_spec in Ec; auto. apply coord_index_range. destruct (lc_dim lc) as [[? ?] ?]. apply Ec. }
  apply cell_list_spec in HL as [HL1 HL]; [|eauto].
  assert (MP : (0 < lk_max_range lc)%Z) by (apply max_range_pos; auto; rewrite Eb; auto).
  assert (DONE : lk_done lc pc q qi k r_max r_min excl (contents b (lc_dim lc) points) s).
  { assert (HC : forall p, chain (lc_list lc) (length (lc_points lc) + Z.to_nat (cell_index (lc_dim lc) (add3 pc p))) (contents b (lc_dim lc) points (cell_index (lc_dim lc) (add3 pc p)))).
    { intros p. rewrite Ep. apply HL. apply cell_index_range; auto. }
    cbv zeta in SR. eapply (search_done lc pc q qi k r_max r_min excl (contents b (lc_dim lc) points) HC); [auto|exact SR|].
    assert (E0 : coord_to_index (lc_dim lc) pc = cell_index (lc_dim lc) (add3 pc (0, 0, 0)%Z)) by (rewrite add3_0, cell_index_in; auto). rewrite E0. apply inv_start. auto. }
  destruct DONE as (cells & N & ND & P & SS & HNM & HC1 & HC2 & HE). subst l. apply deliver_in in Hx. apply (Permutation_in _ (Permutation_sym P)) in Hx.
  apply in_flat_map in Hx as (c & Hc & Hx). destruct (HC1 c Hc) as (p & Hp & _ & Ep'). unfold lk_bonds in Hx. apply in_flat_map in Hx as (j & Hj & Hx).
  assert (bp x = j). { destruct (excl && Nat.eqb qi j); [destruct Hx|]. cbv zeta in Hx. destruct (xsq_ltb _ _ && Rleb _ _); [|destruct Hx]. destruct Hx as [<-|[]]. reflexivity. }
  apply filter_In in Hj as [Hj Hcj]. unfold pt_cell in Hcj. destruct (get_cell b (lc_dim lc) (nth j points v0)) as [c'|] eqn:Ec; [|discriminate]. apply Z.eqb_eq in Hcj. subst c'.
  exists pc, p. split; auto. split; auto. subst j. apply in_seq in Hj. split; [lia|]. rewrite Ec, Ep'. reflexivity.
Qed.
Definition long_box : box := mk_box 4 4 20 0 0 0 false.
Lemma long_planes : plane_distance long_box = V3 4 4 20.
Proof.
  unfold plane_distance, long_box. simpl. apply vec_eq; simpl;
  [replace (_ + _ + _)%R with 1%R by ring|replace (_ + _)%R with 1%R by ring|]; rewrite ?sqrt_1; field.
Qed.
Lemma long_positive : positive long_box.
Proof. apply mk_box_positive; intros; lra. Qed.
Lemma abs_vz_norm v : Rabs (vz v) <= norm v.
Proof. unfold norm, dot. rewrite <- sqrt_Rsqr_abs. apply sqrt_le_1_alt. unfold Rsqr. pose proof (Rle_0_sqr (vy v)). pose proof (Rle_0_sqr (vx v)). unfold Rsqr in *. lra. Qed.
Lemma Zfloor_is n x : IZR n <= x < IZR n + 1 -> Zfloor x = n.
Proof. intros H. apply Zfloor_imp. rewrite plus_IZR. auto. Qed.
(** LinkCell looks at shells up to half the smallest plane distance only: the single neighbour of a point is not found. *)
Theorem C34_linkcell_elongated_refuted : exists b points cw lc q k j v,
  positive b /\ fully_periodic b /\ lc_make b points cw = Some lc /\ in_cell b q /\ (forall p, In p points -> in_cell b p) /\ (0 < k)%nat /\
  candidate b points q 0 false 0 all_images j v /\
  lk_nearest lc q 0 k Inf 0 false (Some []) /\ forall l, lk_nearest lc q 0 k Inf 0 false (Some l) -> l = [].
Proof.
  set (B := V3 0 0 (31/10)). set (pts := [B]).
  assert (IC : forall z, -10 <= z <= 9 -> in_cell long_box (V3 0 0 z)).
  { intros z Hz. exists (1/2), (1/2), (1/2 + z / 20). split; [|repeat split; intros; lra]. unfold cell_point, comb, a1, a2, a3, long_box. apply vec_eq; simpl; field. }
  assert (IC0 : in_cell long_box v0) by (apply IC; lra). assert (ICB : in_cell long_box B) by (apply IC; lra).
  assert (FP : fully_periodic long_box) by (repeat split).
  destruct (C30_constructor_defined long_box pts 1) as [lc HM].
  { apply long_positive. } { discriminate. } { intros p [<-|[]]; auto. } { lra. } { rewrite long_planes; simpl; repeat split; intros; lra. } { auto. }
  exists long_box, pts, 1, lc, v0, 1%nat, 0%nat, B. split; [apply long_positive|]. split; [auto|]. split; [auto|]. split; [auto|]. split; [intros p [<-|[]]; auto|]. split; [lia|].
  assert (NB : norm B = 31/10) by (unfold norm, dot, B; simpl; replace (_ + _) with (Rsqr (31/10)) by (unfold Rsqr; ring); apply sqrt_Rsqr; lra).
  split.
  { split; [simpl; lia|]. split; [intros [? _]; discriminate|]. rewrite NB. split; [|lra]. split.
    - exists 0%Z, 0%Z, 0%Z. split; [repeat split; auto|]. split; [exact I|]. unfold B, sep, flat, shift, comb, a1, a2, a3, long_box. apply vec_eq; simpl; ring.
    - intros i1 i2 i3 _ _. rewrite NB. eapply Rle_trans; [|apply abs_vz_norm].
      replace (vz _) with (31/10 - 20 * IZR i3) by (unfold sep, flat, shift, comb, a1, a2, a3, long_box; simpl; ring). unfold Rabs. destruct (Rcase_abs _) as [L|L].
      + assert (1 <= i3)%Z by (destruct (Z_le_gt_dec 1 i3); auto; assert (H : (i3 <= 0)%Z) by lia; apply IZR_le in H; simpl in *; lra). apply IZR_le in H. lra.
      + assert (i3 <= 0)%Z by (destruct (Z_le_gt_dec i3 0); auto; assert (H : (1 <= i3)%Z) by lia; apply IZR_le in H; simpl in *; lra). apply IZR_le in H. simpl in *. lra. }
  assert (HM' := HM). apply lc_make_spec in HM' as (Eb & Ep & _ & EW & HD & HG & _). rewrite (proj2 (Reqb_false 1 0)) in EW by lra.
  assert (W0 : 0 < lc_width lc) by lra. specialize (HG W0). rewrite EW, long_planes in HG. cbn [vx vy vz] in HG.
  assert (ED : lc_dim lc = (4, 4, 20)%Z).
  { destruct (lc_dim lc) as [[dx dy] dz]. destruct HG as (_ & _ & -> & -> & E). rewrite (E eq_refl). f_equal; [f_equal|]; apply Zfloor_is; lra. }
  assert (EM : lk_max_range lc = 3%Z).
  { unfold lk_max_range. rewrite Eb, EW. replace (min_plane long_box) with 4 by (unfold min_plane; rewrite long_planes; simpl; unfold Rmin; repeat destruct (Rle_dec _ _); lra).
    replace (4 / (2 * 1)) with (IZR 2) by lra. rewrite Zceil_IZR. reflexivity. }
  assert (FB : forall z, make_fractional long_box (V3 0 0 z) = V3 (1/2) (1/2) (1/2 + z / 20)).
  { intros z. unfold make_fractional, long_box. apply vec_eq; simpl; field. }
  assert (CC : forall z n, (0 <= n < 20)%Z -> IZR n <= (1/2 + z/20) * 20 < IZR n + 1 -> cell_coord long_box (lc_dim lc) (V3 0 0 z) = Some (2, 2, n)%Z).
  { intros z n Hn Hz. rewrite ED. unfold cell_coord. rewrite FB. cbn [vx vy vz]. unfold axis_cell, to_unsigned. rewrite !Ztrunc_IZR.
    rewrite (Zfloor_is 2 (1/2 * 4)) by lra. rewrite (Zfloor_is n) by auto. cbn. rewrite (proj2 (Z.ltb_ge n 0)) by lia. rewrite Z.rem_small by lia. reflexivity. }
  assert (ALL : forall l, lk_nearest lc v0 0 1 Inf 0 false (Some l) -> l = []).
  { intros l HL. destruct l as [|x l]; auto. exfalso. destruct (lk_reached _ _ _ _ _ _ _ _ _ _ _ x long_positive HM W0 HL (or_introl eq_refl)) as (pc & p & H1 & H2 & H3 & H4).
    assert (E0 : bp x = 0%nat) by (simpl in H3; lia). rewrite E0 in H4. unfold pts in H4. cbn [nth] in H4. unfold get_cell, B in H4. rewrite (CC (31/10) 13%Z) in H4 by (simpl; lia || lra).
    unfold v0 in H1. rewrite (CC 0 10%Z) in H1 by (simpl; lia || lra). apply some_inj in H1. subst pc. rewrite EM in H2. rewrite ED in H4. destruct p as [[p1 p2] p3]. unfold cheb in H2. cbn [add3] in H4.
    cbn [option_map] in H4. apply some_inj in H4. unfold cell_index in H4.
    assert (CM : forall a n, (0 < n)%Z -> (0 <= cmod a n < n)%Z).
    { intros a n Hn. unfold cmod. pose proof (Z.rem_bound_abs a n). destruct (Z.ltb_spec (Z.rem a n) 0); lia. }
    apply (coord_index_inj (4, 4, 20)%Z) in H4.
    - apply (f_equal snd) in H4. cbn [snd] in H4. unfold cmod in H4. rewrite Z.rem_small in H4 by (clear - H2; lia). destruct (Z.ltb_spec (10 + p3) 0); lia.
    - simpl. lia.
    - unfold in_dim. split; [apply CM; reflexivity|]. split; apply CM; reflexivity. }
  split; [|exact ALL].
  destruct (C34_linkcell_defined long_box pts 1 lc v0 0 1 Inf 0 false long_positive FP HM W0 IC0) as [[l HL] _]; [lia|discriminate|].
  pose proof (ALL l HL). subst l. exact HL.
Qed.
Print Assumptions C34_linkcell_elongated_refuted.

(** ** Non-vacuity *)
Lemma cube_min_plane : min_plane ex_cube = 10.
Proof. unfold min_plane; rewrite ex_cube_planes; simpl; unfold Rmin; repeat destruct (Rle_dec _ _); lra. Qed.
Lemma x_norm x : 0 <= x -> norm (V3 x 0 0) = x.
Proof. intros H. unfold norm, dot; simpl; replace (_ + _) with (Rsqr x) by (unfold Rsqr; ring); apply sqrt_Rsqr; auto. Qed.
(** One neighbour of three points on a line: the hypotheses of C34_true_nearest hold and the answer is the nearer one. *)
Example C34_aabb_ex : exists l, aabb_nearest ex_cube [v0; V3 1 0 0; V3 3 0 0] v0 0 1 2 Inf 0 2 true (Some l) /\ l = [Bond 0 1 1 1 (V3 1 0 0)] /\
  k_nearest ex_cube [v0; V3 1 0 0; V3 3 0 0] v0 0 true 0 all_images 1 l.
Proof.
  set (pts := [v0; V3 1 0 0; V3 3 0 0]).
  assert (IC : forall p, In p pts -> in_cell ex_cube p) by (intros p [<-|[<-|[<-|[]]]]; apply ex_corner; lra).
  destruct (C34_defined ex_cube pts v0 0 1 2 Inf 0 2 true) as [[l HL] _]; [apply ex_cube_positive|discriminate|lra|lra|discriminate|]. exists l. split; auto.
  assert (HL' := HL). apply C34_aabb in HL as (SN & LE & _ & HC); [|apply ex_cube_positive|lia|lra|rewrite cube_min_plane; lra|lra].
  assert (BIG : forall j x i1 i2 i3, 0 <= x <= 5 -> nth j pts v0 = V3 x 0 0 -> x <= norm (sep ex_cube pts v0 j i1 i2 i3)).
  { intros j x i1 i2 i3 Hx E. eapply Rle_trans; [|apply abs_vx_norm]. rewrite cube_sep, E. cbn [vx v0]. unfold Rabs. destruct (Rcase_abs _) as [L|L].
    - assert (1 <= i1)%Z by (destruct (Z_le_gt_dec 1 i1); auto; assert (H : (i1 <= 0)%Z) by lia; apply IZR_le in H; simpl in *; lra). apply IZR_le in H. lra.
    - assert (i1 <= 0)%Z by (destruct (Z_le_gt_dec i1 0); auto; assert (H : (1 <= i1)%Z) by lia; apply IZR_le in H; simpl in *; lra). apply IZR_le in H. simpl in *. lra. }
  assert (ZERO : forall j x, nth j pts v0 = V3 x 0 0 -> sep ex_cube pts v0 j 0 0 0 = V3 x 0 0).
  { intros j x E. unfold sep. rewrite E. unfold flat, shift, comb, a1, a2, a3, ex_cube. apply vec_eq; simpl; ring. }
  assert (C1 : candidate ex_cube pts v0 0 true 0 near_images 1 (V3 1 0 0)).
  { split; [simpl; lia|]. split; [intros [_ ?]; discriminate|]. rewrite x_norm by lra. split; [|lra]. split.
    - exists 0%Z, 0%Z, 0%Z. split; [repeat split; auto|]. split; [repeat split; lia|]. rewrite (ZERO 1%nat 1); auto.
    - intros i1 i2 i3 _ _. rewrite x_norm by lra. apply BIG; auto; lra. }
  assert (U1 : forall i1 i2 i3, norm (sep ex_cube pts v0 1 i1 i2 i3) = 1 -> sep ex_cube pts v0 1 i1 i2 i3 = V3 1 0 0).
  { intros i1 i2 i3 E. assert (X := abs_vx_norm (sep ex_cube pts v0 1 i1 i2 i3)). rewrite cube_sep, E in X. cbn [nth pts vx v0] in X.
    assert (i1 = 0)%Z. { revert X. unfold Rabs. destruct (Rcase_abs _) as [L|L]; intros X.
      - assert (i1 < 1)%Z by (apply lt_IZR; lra). assert (0 < i1)%Z by (apply lt_IZR; lra). lia.
      - assert (i1 < 1)%Z by (apply lt_IZR; lra). assert (-1 < i1)%Z by (apply lt_IZR; lra). lia. }
    subst i1. assert (N : Rsqr (norm (sep ex_cube pts v0 1 0 i2 i3)) = 1) by (rewrite E; unfold Rsqr; ring). unfold norm in N. rewrite Rsqr_sqrt in N.
    2:{ unfold dot. pose proof (Rle_0_sqr (vx (sep ex_cube pts v0 1 0 i2 i3))). pose proof (Rle_0_sqr (vy (sep ex_cube pts v0 1 0 i2 i3))). pose proof (Rle_0_sqr (vz (sep ex_cube pts v0 1 0 i2 i3))). unfold Rsqr in *. lra. }
    assert (F : sep ex_cube pts v0 1 0 i2 i3 = V3 1 (- 10 * IZR i2) (- 10 * IZR i3)) by (unfold sep, flat, shift, comb, a1, a2, a3, ex_cube; apply vec_eq; simpl; ring).
    rewrite F in *. unfold dot in N. cbn [vx vy vz] in N. pose proof (Rle_0_sqr (-10 * IZR i2)) as Q2. pose proof (Rle_0_sqr (-10 * IZR i3)) as Q3. unfold Rsqr in Q2, Q3.
    apply vec_eq; simpl; auto; apply Rsqr_0_uniq; unfold Rsqr; lra. }
  destruct SN as (ND & SO & MEM).
  assert (EL : l = [Bond 0 1 1 1 (V3 1 0 0)]).
  { assert (M1 : forall x, In x l -> bp x = 1%nat -> x = Bond 0 1 1 1 (V3 1 0 0)).
    { intros x Hx E. destruct (MEM x Hx) as [(_ & _ & ((i1 & i2 & i3 & HA & _ & Ev) & HN) & _) Ex]. rewrite E in *.
      assert (NX : norm (bv x) = 1). { apply Rle_antisym; [|rewrite Ev; apply (BIG 1%nat 1); auto; lra].
        specialize (HN 0%Z 0%Z 0%Z). rewrite (ZERO 1%nat 1), x_norm in HN by (auto; lra). apply HN; [repeat split; auto|repeat split; lia]. }
      assert (VX : bv x = V3 1 0 0) by (rewrite Ev; apply U1; rewrite <- Ev; auto). rewrite VX in *. rewrite Ex, NX. reflexivity. }
    destruct (in_dec Nat.eq_dec 1%nat (map bp l)) as [I1|I1].
    - apply in_map_iff in I1 as (x & E & Hx). destruct l as [|y [|? ?]]; simpl in LE; [destruct Hx| |lia]. destruct Hx as [-> |[]]. f_equal. apply M1; simpl; auto.
    - exfalso. destruct (HC _ _ C1 I1) as [[L1 L2]|[L1 L2]].
      + destruct l as [|x [|? ?]]; simpl in L1; try lia. specialize (L2 x (or_introl eq_refl)). rewrite x_norm in L2 by lra.
        destruct (MEM x (or_introl eq_refl)) as [(Hj & NE & ((i1 & i2 & i3 & _ & _ & Ev) & _) & _) Ex]. rewrite Ex in L2. cbn [bd] in L2. rewrite Ev in L2.
        remember (bp x) as j. destruct j as [|[|[|j]]]; [apply NE; auto|apply I1; simpl; auto| |simpl in Hj; lia]. pose proof (BIG 2%nat 3 i1 i2 i3). simpl nth in H. specialize (H ltac:(lra) eq_refl). lra.
      + rewrite x_norm in L2 by lra. unfold xmin, max_plane in L2. rewrite ex_cube_planes in L2. simpl in L2. revert L2. unfold Rmax. repeat destruct (Rle_dec _ _); lra. }
  split; auto. eapply C34_true_nearest with (r_guess := 2) (r_max := Inf) (scale := 2); eauto; try lia; try lra.
  - apply ex_cube_positive. - rewrite cube_min_plane; lra. - apply v0_in_cube. - rewrite EL; auto.
  - intros x Hx. rewrite EL in Hx. destruct Hx as [<-|[]]. simpl. rewrite cube_min_plane. lra.
Qed.
(** The LinkCell theorem and the query theorem apply to the same system. *)
Example C34_linkcell_ex : exists lc l, lc_make ex_cube [v0; V3 1 0 0; V3 3 0 0] 2 = Some lc /\ 0 < lc_width lc /\
  lk_nearest lc v0 0 1 Inf 0 true (Some l).
Proof.
  destruct (C30_constructor_defined ex_cube [v0; V3 1 0 0; V3 3 0 0] 2) as [lc HM].
  { apply ex_cube_positive. } { discriminate. } { intros p [<-|[<-|[<-|[]]]]; apply ex_corner; lra. } { lra. } { rewrite ex_cube_planes. simpl. repeat split; intros; lra. } { apply ex_cube_fp. }
  assert (W : lc_width lc = 2). { assert (HM' := HM). apply lc_make_spec in HM' as (_ & _ & _ & E & _). rewrite E. rewrite (proj2 (Reqb_false 2 0)) by lra. auto. }
  destruct (C34_linkcell_defined ex_cube [v0; V3 1 0 0; V3 3 0 0] 2 lc v0 0 1 Inf 0 true ex_cube_positive ex_cube_fp HM ltac:(lra) v0_in_cube) as [[l HL] _]; [lia|discriminate|].
  exists lc, l. split; auto. split; [lra|auto].
Qed.

(** The arguments of an ordinary query by number of neighbours meet the hypotheses of C34_query and C22_nearest_query. *)
Example C34_query_ex : let p := PA PyNone None None None (Some 1%Z) (Some true) None false in
  no_sentinel p /\ well_formed p /\ asks_nearest p 1 /\ nq_ok ex_cube [v0; V3 1 0 0; V3 3 0 0] = true /\
  exists ls, py_query BAABB ex_cube [v0; V3 1 0 0; V3 3 0 0] [v0] p (Some ls).
Proof.
  intros p. assert (S : no_sentinel p) by (repeat split; discriminate). assert (W : well_formed p) by (split; [reflexivity|split; [discriminate|]]; intros k E; injection E as <-; lia).
  assert (A : asks_nearest p 1) by (split; auto; right; left; reflexivity). split; [auto|]. split; [auto|]. split; [auto|]. split; [reflexivity|].
  apply (C34_query BAABB ex_cube [v0; V3 1 0 0; V3 3 0 0] [v0] p 1); auto; try discriminate; [apply ex_cube_positive|apply ex_cube_fp|lia].
Qed.
