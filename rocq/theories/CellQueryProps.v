(** C31: the CellQuery ball query. *)
From Verif Require Import MArrayProofs NListProofs AABBProofs2 AABBProps FilterProps LinkCellProofs LinkCellProofs3 LinkCellProps BoxProofs BoxProofs2 CellQueryModel CellQueryProofs CellQueryProofs2 CellQueryProofs3 QuerySpec.
Open Scope R_scope.

Definition near_cell (g : grid) (q e : vec3) : Prop :=
  let '(cx, cy, cz) := cell_xyz g q in exists dx dy dz, (-1 <= dx <= 1 /\ -1 <= dy <= 1 /\ -1 <= dz <= 1)%Z /\ cell_xyz g e = (cx + dx, cy + dy, cz + dz)%Z.
(** Which entries a built grid makes visible from a query point. *)
Lemma cq_visit b points rc : positive b -> 0 < rc -> exists cg, build_grid b points rc = Some cg /\ cg_grid cg = setup_grid b rc /\
  ((exists l i j k t, image_entry b points rc l i j k t /\ in_grid (cg_grid cg) (cell_xyz (cg_grid cg) (t_p t)) = true) -> cg_buf cg <> []) /\
  forall q qi r_max r_min excl, in_grid (cg_grid cg) (cell_xyz (cg_grid cg) q) = true ->
    exists V, drained (cb_step cg (cell_xyz (cg_grid cg) q) q qi r_max r_min excl) (CB (-1) (-1) None) (flat_map (emit q qi r_max r_min excl) V) /\ NoDup V /\
      forall t, In t V <-> (exists l i j k, image_entry b points rc l i j k t) /\ in_grid (cg_grid cg) (cell_xyz (cg_grid cg) (t_p t)) = true /\ near_cell (cg_grid cg) q (t_p t).
Proof.
  intros Hb Hr. destruct (grid_dims b rc Hb Hr) as (DX & DY & DZ). set (g := setup_grid b rc) in *. set (m := mapping b g rc points).
  set (n := Z.to_nat (g_nx g * g_ny g * g_nz g)).
  destruct (mapping_spec b g rc points Hb) as [ND IN]. fold m in ND, IN.
  assert (CS : forall p c, cell_safe g p = Some c <-> in_grid g (cell_xyz g p) = true /\ c = cell_number g (cell_xyz g p)).
  { intros p c. unfold cell_safe. cbv zeta. destruct (in_grid g (cell_xyz g p)); split; [intros E; injection E; auto|intros [_ ->]; auto|discriminate|intros [? _]; discriminate]. }
  assert (Hm : forall e, In e m -> (fst e < n)%nat).
  { intros [c t] H. apply IN in H as [H _]. apply CS in H as [H ->]. cbn [fst].
    apply (cell_number_range (CG g [] [] [])). exact H. }
  destruct (place_spec n m Hm) as (buf & EP & LB & HS & HB & HN).
  set (st := fun c => list_sum (firstn c (counts_of n m))) in *.
  set (cg := CG g (counts_of n m) (prefix_sum 0 (counts_of n m)) buf).
  exists cg. split; [|split; [reflexivity|split]].
  - unfold build_grid. rewrite (proj2 (Rleb_false _ _)) by lra. fold g. cbv zeta. rewrite !(proj2 (Z.eqb_neq _ _)) by lia. cbn [orb]. fold n m. rewrite EP. reflexivity.
  - intros (l & i & j & k & t & H1 & H2) E. change (cg_buf cg) with buf in E. subst buf.
    assert (HI : In (cell_number g (cell_xyz g (t_p t)), t) m) by (apply IN; split; [apply CS; auto|eauto]).
    destruct m; [destruct HI|discriminate].
  - intros q qi r_max r_min excl Hq. change (cg_grid cg) with g in *.
    destruct (cell_xyz g q) as [[cx cy] cz] eqn:Eq.
    assert (HLL : forall c, (c < n)%nat -> (st c + length (group m c) <= length buf)%nat).
    { intros c Hc. rewrite LB. assert (E := HN c Hc). unfold st. rewrite <- E. rewrite <- (counts_sum n m Hm). apply list_sum_firstn_all. }
    exists (flat_map (group m) (near_cells cg cx cy cz)). split; [apply (drain_all cg cx cy cz q qi r_max r_min excl m st HS HB HN HLL Hq)|].
    assert (GI : forall c t, In t (group m c) <-> In (c, t) m).
    { intros c t. unfold group. rewrite in_map_iff. split.
      - intros ([c' t'] & <- & H). cbn [snd]. apply in_app_iff in H as [H|H]; apply filter_In in H as [H H1]; unfold real_in, ghost_in, in_c in H1; apply andb_prop in H1 as [H1 _]; apply Nat.eqb_eq in H1; cbn [fst] in H1; subst; auto.
      - intros H. exists (c, t). split; auto. apply in_app_iff. unfold real_in, ghost_in, in_c. rewrite !filter_In. cbn [fst]. rewrite Nat.eqb_refl. destruct (is_ghost (c, t)); auto. }
    split.
    + apply NoDup_flat_map; [apply (near_nodup cg); auto| |].
      * intros c _. unfold group. apply NoDup_map_in.
        -- assert (C1 : forall e, In e (filter (real_in c) m ++ filter (ghost_in c) m) -> fst e = c).
           { intros e H. apply in_app_iff in H as [H|H]; apply filter_In in H as [_ H]; unfold real_in, ghost_in, in_c in H; apply andb_prop in H as [H _]; apply Nat.eqb_eq in H; auto. }
           intros [c1 t1] [c2 t2] H1 H2 E. apply C1 in H1, H2. simpl in *. congruence.
        -- apply NoDup_app_intro; [apply List.NoDup_filter; auto|apply List.NoDup_filter; auto|].
           intros e H1 H2. apply filter_In in H1 as [_ H1]. apply filter_In in H2 as [_ H2]. unfold real_in, ghost_in in *. destruct (is_ghost e); rewrite ?andb_false_r in *; discriminate.
      * intros c c' t _ _ H1 H2. apply GI, IN in H1 as [H1 _]. apply GI, IN in H2 as [H2 _]. congruence.
    + intros t. rewrite in_flat_map. unfold near_cell. rewrite Eq. split.
      * intros (c & Hc & Ht). apply GI, IN in Ht as [Ht HX]. apply CS in Ht as [G1 E1]. apply (near_in cg) in Hc as (dx & dy & dz & HD & HG & E2); auto.
        split; auto. split; auto. exists dx, dy, dz. split; auto. rewrite E1 in E2. apply (cell_number_inj cg) in E2; auto.
      * intros (HX & G1 & dx & dy & dz & HD & E). exists (cell_number g (cell_xyz g (t_p t))). split.
        -- apply (near_in cg); auto. exists dx, dy, dz. rewrite <- E. auto.
        -- apply GI, IN. split; auto. apply CS. auto.
Qed.

Lemma test_spec q qi r_max r_min excl t x : 0 < r_max -> 0 <= r_min -> (In x (emit q qi r_max r_min excl t) <->
  ~ (excl = true /\ qi = real_id (t_idx t)) /\ r_min <= norm (vsub (t_p t) q) < r_max /\ x = Bond qi (real_id (t_idx t)) (norm (vsub (t_p t) q)) 1 (vsub (t_p t) q)).
Proof.
  intros H0 H1. unfold emit, test_particle. cbv zeta. destruct (excl && Nat.eqb (real_id (t_idx t)) qi) eqn:EX.
  - apply andb_prop in EX as [E1 E2]. apply Nat.eqb_eq in E2. split; [intros []|]. intros [N _]. apply N. auto.
  - assert (NX : ~ (excl = true /\ qi = real_id (t_idx t))) by (intros [-> E]; rewrite <- E, Nat.eqb_refl in EX; discriminate).
    destruct (Rltb _ _ && _) eqn:ER.
    + apply andb_prop in ER as [E1 E2]. apply Rltb_true in E1. apply Rleb_true in E2. apply norm_sq_lt in E1; auto. apply norm_sq_le in E2; auto.
      simpl. split; [intros [<-|[]]; auto|intros (_ & _ & ->); left; auto].
    + split; [intros []|]. intros (_ & [A B] & _). apply norm_sq_lt in B; auto. apply norm_sq_le in A; auto.
      rewrite (proj2 (Rltb_true _ _)), (proj2 (Rleb_true _ _)) in ER by auto. discriminate.
Qed.

Lemma point_in_grid b p rc : positive b -> fully_periodic b -> 0 < rc -> in_cell b p -> in_grid (setup_grid b rc) (cell_xyz (setup_grid b rc) p) = true.
Proof.
  intros Hb FP Hr Hp. destruct (grid_near b rc Hb Hr p p FP Hp) as (cx & cy & cz & _ & _ & _ & E & _ & _ & G & _); [|rewrite E; auto].
  rewrite vsub_diag, norm_0. auto.
Qed.

(** The grid built for a cutoff answers every ball query of at most that radius, exactly. *)
Theorem C31_single (b : box) (points : list vec3) (rc : R) (q : vec3) (qi : nat) (r_max r_min : R) (excl : bool) :
  positive b -> fully_periodic b -> points <> [] -> (Z.of_nat (length points) <= 2 ^ 31)%Z -> (forall p, In p points -> in_cell b p) -> in_cell b q ->
  0 <= r_min < r_max -> r_max <= rc -> radius_ok b rc ->
  exists cg l, build_grid b points rc = Some cg /\ (forall res, cq_single b cg q qi r_max r_min excl res <-> res = Some l) /\ NoDup l /\
    forall x, In x l <-> in_range b points q qi r_max r_min excl all_images x.
Proof.
  intros Hb FP Hne HN HP Hq Hr Hrc HR. assert (R0 : 0 < rc) by lra.
  destruct (cq_visit b points rc Hb R0) as (cg & EB & EG & HBuf & HV). rewrite EG in HBuf, HV.
  destruct (HV q qi r_max r_min excl (point_in_grid b q rc Hb FP R0 Hq)) as (V & D & ND & IN). clear HV.
  assert (IS : forall p, in_cell b p -> in_space b p) by (intros p (s & t & u & -> & _); apply cell_point_in_space, Hb).
  assert (RI : forall l i j k t, image_entry b points rc l i j k t -> real_id (t_idx t) = l /\ t_p t = vadd (nth l points v0) (shift b i j k)).
  { intros l i j k t (Hl & [[E ->]|[_ ->]]); cbn [t_idx t_p].
    - split; [apply real_id_pos; lia|]. apply tri_eq in E as (-> & -> & ->). unfold shift, comb. vec_ring.
    - split; [apply real_id_neg; lia|auto]. }
  assert (FL : forall p, in_space b p -> flat b p = p).
  { intros p Hp. unfold flat. destruct (b_2d b) eqn:E2; auto. specialize (Hp E2). destruct p; simpl in *. subst; auto. }
  assert (SE : forall j i1 i2 i3, (j < length points)%nat -> sep b points q j i1 i2 i3 = vsub (vadd (nth j points v0) (shift b (- i1) (- i2) (- i3))) q).
  { intros j i1 i2 i3 Hj. unfold sep. rewrite !FL; auto; [|apply IS, HP, nth_In; auto]. unfold shift, comb. rewrite !opp_IZR. vec_ring. }
  exists cg, (flat_map (emit q qi r_max r_min excl) V). split; auto. split; [|split].
  - intros res. unfold cq_single. assert (AO : cq_args_ok b r_max r_min = true).
    { unfold cq_args_ok, ball_args_ok. destruct HR as (RX & RY & RZ). destruct FP as (Fx & Fy & Fz). specialize (RX Fx). specialize (RY Fy).
      rewrite !(proj2 (Rltb_true _ _)) by lra. rewrite (proj2 (Rleb_false (vx _) _)) by lra. rewrite (proj2 (Rleb_false (vy _) _)) by lra. cbn [orb].
      destruct (b_2d b) eqn:E2; auto. specialize (RZ eq_refl Fz). rewrite (proj2 (Rleb_false _ _)) by lra. auto. }
    rewrite AO. destruct (cg_buf cg) eqn:EBf.
    + exfalso. apply HBuf; auto. destruct points as [|p0 ps]; [contradiction|]. exists 0%nat, 0%Z, 0%Z, 0%Z, (Tag p0 (Z.of_nat 0)).
      split; [split; [simpl; lia|left; auto]|]. apply point_in_grid; auto. apply HP. left; auto.
    + rewrite EG. unfold cell_safe. cbv zeta. rewrite point_in_grid by auto. split.
      * intros (l' & -> & D'). f_equal. eapply drained_det; eauto.
      * intros ->. eauto.
  - apply NoDup_flat_map; auto.
    + intros t _. unfold emit. destruct (test_particle _ _ _ _ _ t); repeat constructor; auto.
    + intros t t' x H1 H2 E1 E2. apply test_spec in E1 as (_ & _ & E1); [|lra|lra]. apply test_spec in E2 as (_ & _ & E2); [|lra|lra].
      apply IN in H1 as ((l & i & j & k & H1) & _). apply IN in H2 as ((l' & i' & j' & k' & H2) & _).
      rewrite E1 in E2. assert (EJ : real_id (t_idx t) = real_id (t_idx t')) by (injection E2; auto).
      assert (EV : vsub (t_p t) q = vsub (t_p t') q) by (inversion E2; congruence).
      destruct (RI _ _ _ _ _ H1) as [J1 P1]. destruct (RI _ _ _ _ _ H2) as [J2 P2]. assert (EL : l' = l) by congruence. rewrite EL in P2, H2. clear J2 EL.
      assert (EP : t_p t = t_p t').
      { replace (t_p t) with (vadd (vsub (t_p t) q) q) by vec_ring. rewrite EV. vec_ring. }
      assert (ES : shift b i j k = shift b i' j' k').
      { replace (shift b i j k) with (vsub (t_p t) (nth l points v0)) by (rewrite P1; vec_ring). rewrite EP, P2. vec_ring. }
      assert (K2 : forall t l i j k, image_entry b points rc l i j k t -> b_2d b = true -> k = 0%Z).
      { intros t0 l0 i0 j0 k0 (_ & [[E _]|[G _]]) E0; [apply tri_eq in E; tauto|apply ghost_of_tri in G; tauto]. }
      apply shift_inj in ES; auto; [|intros E0; rewrite (K2 _ _ _ _ _ H1 E0), (K2 _ _ _ _ _ H2 E0); auto]. apply tri_eq in ES as (<- & <- & <-).
      destruct H1 as (_ & [[EZ ->]|[(G & G1 & G2 & NZ) ->]]), H2 as (_ & [[EZ' ->]|[(G' & G1' & G2' & NZ') ->]]); auto; contradiction.
  - intros x. rewrite in_flat_map. split.
    + intros (t & HT & HE). apply test_spec in HE as (NE & RG & ->); [|lra|lra]. apply IN in HT as ((l & i & j & k & HI) & _).
      destruct (RI _ _ _ _ _ HI) as [J1 P1]. rewrite J1, P1 in *. exists l, (- i)%Z, (- j)%Z, (- k)%Z.
      assert (Hl : (l < length points)%nat) by apply HI. rewrite SE, !Z.opp_involutive by auto. split; auto.
      split; [|split; [exact I|auto]]. destruct FP as (Fx & Fy & Fz). split; [congruence|]. split; [congruence|]. split; [congruence|].
      intros E2. destruct HI as (_ & [[E _]|[G _]]); [apply tri_eq in E; lia|apply ghost_of_tri in G; assert (k = 0)%Z by tauto; lia].
    + intros (l & i & j & k & Hl & A & _ & NE & RG & ->). rewrite SE in * by auto. set (e := vadd (nth l points v0) (shift b (- i) (- j) (- k))) in *.
      assert (HPl : in_cell b (nth l points v0)) by (apply HP, nth_In; auto).
      assert (HE : exists t, image_entry b points rc l (- i) (- j) (- k) t).
      { destruct (image_is_ghost b rc Hb R0 q (nth l points v0) (- i) (- j) (- k) FP HR Hq HPl) as [E|G].
        - intros E2. destruct A as (_ & _ & _ & A). specialize (A E2). lia.
        - fold e. lra.
        - exists (Tag (nth l points v0) (Z.of_nat l)). split; auto.
        - exists (Tag e (Z.lnot (Z.of_nat l))). split; auto. }
      destruct HE as [t HE]. destruct (RI _ _ _ _ _ HE) as [J1 P1]. fold e in P1. exists t. split.
      * apply IN. split; [eauto|]. rewrite P1.
        destruct (grid_near b rc Hb R0 q e FP Hq) as (cx & cy & cz & dx & dy & dz & E1 & E2 & HD & _ & G2); [lra|].
        split; [rewrite E2; auto|]. unfold near_cell. rewrite E1. eauto 6.
      * apply test_spec; [lra|lra|]. rewrite J1, P1. auto.
Qed.
Print Assumptions C31_single.

Lemma nq_ok_cell b points : positive b -> points <> [] -> (forall p, In p points -> in_cell b p) -> nq_ok b points = true.
Proof.
  intros Hb Hne HP. unfold nq_ok. apply andb_true_iff. split; [destruct points; [contradiction|auto]|]. destruct (b_2d b) eqn:E2; auto. simpl. apply forallb_forall.
  intros p Hp. destruct (HP p Hp) as (s & t & u & -> & _). rewrite (cell_point_in_space b s t u (proj1 Hb) E2), Rabs_R0. rewrite (proj2 (Rltb_false _ _)) by lra. auto.
Qed.
(** The query as called: accepted exactly when the radii are admissible, and then equal to brute force. *)
Theorem C31_ball (b : box) (points : list vec3) (q : vec3) (qi : nat) (r_max r_min : R) (excl : bool) :
  positive b -> fully_periodic b -> points <> [] -> (Z.of_nat (length points) <= 2 ^ 31)%Z -> (forall p, In p points -> in_cell b p) -> in_cell b q ->
  0 <= r_min ->
  (0 < r_max /\ r_min < r_max /\ radius_ok b r_max -> exists l, (forall res, cq_ball b points q qi r_max r_min excl res <-> res = Some l) /\ NoDup l /\
      forall x, In x l <-> in_range b points q qi r_max r_min excl all_images x) /\
  (~ (0 < r_max /\ r_min < r_max /\ radius_ok b r_max) -> forall res, cq_ball b points q qi r_max r_min excl res <-> res = None).
Proof.
  intros Hb FP Hne HN HP Hq Hr. unfold cq_ball. rewrite (nq_ok_cell b points) by auto. cbn [andb].
  assert (AO : cq_args_ok b r_max r_min = true <-> 0 < r_max /\ r_min < r_max /\ radius_ok b r_max).
  { unfold cq_args_ok, ball_args_ok, radius_ok. destruct FP as (Fx & Fy & Fz). rewrite !andb_true_iff, !Rltb_true, negb_true_iff, !orb_false_iff, !Rleb_false.
    assert (Z2 : negb (b_2d b) && Rleb (vz (plane_distance b)) (r_max * 2) = false <-> (b_2d b = false -> b_pz b = true -> 2 * r_max < vz (plane_distance b))).
    { destruct (b_2d b); cbn [negb andb]; [split; auto; intros; discriminate|]. rewrite Rleb_false. split; [intros; lra|intros H; specialize (H eq_refl Fz); lra]. }
    rewrite Z2. split.
    - intros (((A & B) & C) & D & E). repeat split; auto; intros; lra.
    - intros (A & B & C & D & E). specialize (C Fx). specialize (D Fy). repeat split; auto; lra. }
  split.
  - intros H. rewrite (proj2 AO H). destruct H as (A & B & C).
    destruct (C31_single b points r_max q qi r_max r_min excl) as (cg & l & E & R & ND & IN); auto; try lra. rewrite E. eauto.
  - intros H res. destruct (cq_args_ok b r_max r_min) eqn:E; [exfalso; apply H, AO; auto|]. tauto.
Qed.
Print Assumptions C31_ball.

(** The hypotheses are met by an ordinary system; the neighbour is found through the boundary, i.e. as a ghost. *)
Example C31_ex : exists l x, cq_ball ex_cube [V3 (-4) 0 0; V3 4 0 0] (V3 4 0 0) 1 3 0 true (Some l) /\ In x l /\ bp x = 0%nat /\ bv x = V3 2 0 0.
Proof.
  assert (C4 : in_cell ex_cube (V3 4 0 0)) by (exists (9/10), (1/2), (1/2); split; [unfold cell_point, comb, a1, a2, a3, ex_cube; apply vec_eq; simpl; field|repeat split; intros; lra]).
  assert (CM : in_cell ex_cube (V3 (-4) 0 0)) by (exists (1/10), (1/2), (1/2); split; [unfold cell_point, comb, a1, a2, a3, ex_cube; apply vec_eq; simpl; field|repeat split; intros; lra]).
  destruct (C31_ball ex_cube [V3 (-4) 0 0; V3 4 0 0] (V3 4 0 0) 1 3 0 true) as [H _]; auto.
  { apply ex_cube_positive. } { apply ex_cube_fp. } { discriminate. } { simpl; lia. } { intros p [<-|[<-|[]]]; auto. } { lra. }
  destruct H as (l & HR & ND & HI). { split; [lra|]. split; [lra|]. unfold radius_ok. rewrite ex_cube_planes. simpl. repeat split; intros; lra. }
  set (d := sep ex_cube [V3 (-4) 0 0; V3 4 0 0] (V3 4 0 0) 0 (-1) 0 0).
  assert (ED : d = V3 2 0 0) by (unfold d, sep, flat, shift, comb, a1, a2, a3, ex_cube; apply vec_eq; simpl; ring).
  assert (N2 : norm d = 2) by (rewrite ED; unfold norm, dot; simpl; replace (_ + _) with (Rsqr 2) by (unfold Rsqr; ring); apply sqrt_Rsqr; lra).
  exists l, (Bond 1 0 (norm d) 1 d). split; [apply HR; auto|]. split; [|split; auto].
  apply HI. exists 0%nat, (-1)%Z, 0%Z, 0%Z. fold d. rewrite N2. split; [simpl; lia|]. split; [repeat split; simpl; discriminate|]. split; [exact I|].
  split; [intros [_ ?]; discriminate|]. split; [lra|auto].
Qed.

(** The periodic flags play no role: a non-periodic box is accepted and still gives periodic neighbours. *)
Theorem C31_flags_ignored (b : box) (x y z : bool) (points : list vec3) (q : vec3) (qi : nat) (r_max r_min : R) (excl : bool) (res : option (list bond)) :
  cq_ball (set_periodic b x y z) points q qi r_max r_min excl res <-> cq_ball b points q qi r_max r_min excl res.
Proof. reflexivity. Qed.
Print Assumptions C31_flags_ignored.

Lemma cube_min r : g_min (setup_grid ex_cube r) = V3 (-5 - r) (-5 - r) (-5 - r) /\ g_inv (setup_grid ex_cube r) = 1 / r.
Proof. split; [|reflexivity]. unfold setup_grid. cbn [g_min]. rewrite !Rmin_left by (simpl; lra). unfold make_absolute, ex_cube. apply vec_eq; simpl; field. Qed.

(** Refuted: the grid belongs to the CellQuery object and is rebuilt by every query, while results are produced lazily.  If a
    query with a smaller r_max is started before an earlier one has been drained, the earlier one loses neighbours. *)
Theorem C31_interleaved_refuted : exists b points r_small cg q qi r_max l x,
  positive b /\ fully_periodic b /\ (forall p, In p points -> in_cell b p) /\ in_cell b q /\ 0 < r_small < r_max /\ radius_ok b r_max /\
  build_grid b points r_small = Some cg /\ cq_single b cg q qi r_max 0 true (Some l) /\
  in_range b points q qi r_max 0 true all_images x /\ ~ In x l.
Proof.
  set (pts := [v0; V3 (5/2) 0 0]).
  assert (CP : in_cell ex_cube (V3 (5/2) 0 0)) by (exists (3/4), (1/2), (1/2); split; [unfold cell_point, comb, a1, a2, a3, ex_cube; apply vec_eq; simpl; field|repeat split; intros; lra]).
  destruct (cq_visit ex_cube pts 1 ex_cube_positive ltac:(lra)) as (cg & EB & EG & HBuf & HV). rewrite EG in *.
  assert (G0 := point_in_grid ex_cube v0 1 ex_cube_positive ex_cube_fp ltac:(lra) v0_in_cube).
  destruct (HV v0 0%nat 3 0 true G0) as (V & D & ND & IN). destruct (cube_min 1) as [EM EI].
  set (d := sep ex_cube pts v0 1 0 0 0).
  assert (ED : d = V3 (5/2) 0 0) by (unfold d, sep, flat, shift, comb, a1, a2, a3, ex_cube, pts; apply vec_eq; simpl; field).
  assert (N2 : norm d = 5/2) by (rewrite ED; unfold norm, dot; simpl; replace (_ + _) with (Rsqr (5/2)) by (unfold Rsqr; ring); apply sqrt_Rsqr; lra).
  exists ex_cube, pts, 1, cg, v0, 0%nat, 3, (flat_map (emit v0 0 3 0 true) V), (Bond 0 1 (norm d) 1 d).
  split; [apply ex_cube_positive|]. split; [apply ex_cube_fp|]. split; [intros p [<-|[<-|[]]]; auto; apply v0_in_cube|]. split; [apply v0_in_cube|]. split; [lra|].
  assert (RO : radius_ok ex_cube 3) by (unfold radius_ok; rewrite ex_cube_planes; simpl; repeat split; intros; lra).
  split; auto. split; auto. split; [|split].
  - unfold cq_single. assert (AO : cq_args_ok ex_cube 3 0 = true).
    { unfold cq_args_ok, ball_args_ok. rewrite ex_cube_planes. cbn [vx vy vz]. rewrite !(proj2 (Rltb_true _ _)) by lra. rewrite !(proj2 (Rleb_false _ _)) by lra. reflexivity. }
    rewrite AO. destruct (cg_buf cg) eqn:E0.
    + exfalso. apply HBuf; auto. exists 0%nat, 0%Z, 0%Z, 0%Z, (Tag v0 (Z.of_nat 0)). split; [split; [simpl; lia|left; auto]|exact G0].
    + rewrite EG. unfold cell_safe. cbv zeta. rewrite G0. eauto.
  - exists 1%nat, 0%Z, 0%Z, 0%Z. fold d. rewrite N2. split; [simpl; lia|]. split; [repeat split; simpl; discriminate|]. split; [exact I|].
    split; [intros [_ ?]; discriminate|]. split; [lra|auto].
  - rewrite in_flat_map. intros (t & HT & HE). apply test_spec in HE as (_ & _ & HE); [|lra|lra]. assert (EV : d = vsub (t_p t) v0) by exact (f_equal bv HE).
    apply IN in HT as (_ & _ & HC). assert (EP : t_p t = V3 (5/2) 0 0) by (rewrite <- ED, EV; vec_ring). rewrite EP in HC.
    unfold near_cell, cell_xyz in HC. rewrite EM, EI in HC. cbn [vx vy vz v0] in HC. destruct HC as (dx & ? & ? & HD & EC). apply tri_eq in EC as (EC & _ & _).
    rewrite (Zfloor_uniq _ 8), (Zfloor_uniq _ 6) in EC; try lra; lia.
Qed.
Print Assumptions C31_interleaved_refuted.

(** Refuted: points are not wrapped; neighbours of a point lying outside the box are missed. *)
Theorem C31_unwrapped_refuted : exists b points q qi r_max l x,
  positive b /\ fully_periodic b /\ in_cell b q /\ radius_ok b r_max /\ cq_ball b points q qi r_max 0 false (Some l) /\
  in_range b points q qi r_max 0 false all_images x /\ ~ In x l.
Proof.
  set (pts := [V3 17 0 0; v0]). set (q := V3 (-3) 0 0).
  assert (CQ : in_cell ex_cube q) by (exists (2/10), (1/2), (1/2); split; [unfold q, cell_point, comb, a1, a2, a3, ex_cube; apply vec_eq; simpl; field|repeat split; intros; lra]).
  destruct (cq_visit ex_cube pts 2 ex_cube_positive ltac:(lra)) as (cg & EB & EG & HBuf & HV). rewrite EG in *.
  assert (G0 := point_in_grid ex_cube q 2 ex_cube_positive ex_cube_fp ltac:(lra) CQ).
  destruct (HV q 0%nat 2 0 false G0) as (V & D & ND & IN).
  set (d := sep ex_cube pts q 0 2 0 0).
  assert (ED : d = v0) by (unfold d, sep, flat, shift, comb, a1, a2, a3, ex_cube, pts, q; apply vec_eq; simpl; field).
  exists ex_cube, pts, q, 0%nat, 2, (flat_map (emit q 0 2 0 false) V), (Bond 0 0 (norm d) 1 d).
  split; [apply ex_cube_positive|]. split; [apply ex_cube_fp|]. split; auto. split; [unfold radius_ok; rewrite ex_cube_planes; simpl; repeat split; intros; lra|].
  split; [|split].
  - unfold cq_ball. assert (AO : cq_args_ok ex_cube 2 0 = true).
    { unfold cq_args_ok, ball_args_ok. rewrite ex_cube_planes. cbn [vx vy vz]. rewrite !(proj2 (Rltb_true _ _)) by lra. rewrite !(proj2 (Rleb_false _ _)) by lra. reflexivity. }
    rewrite AO. change (nq_ok ex_cube pts) with true. cbn [andb]. rewrite EB. unfold cq_single. rewrite AO. destruct (cg_buf cg) eqn:E0.
    + exfalso. apply HBuf; auto. exists 1%nat, 0%Z, 0%Z, 0%Z, (Tag v0 (Z.of_nat 1)). split; [split; [simpl; lia|left; auto]|].
      apply point_in_grid; [apply ex_cube_positive|apply ex_cube_fp|lra|apply v0_in_cube].
    + rewrite EG. unfold cell_safe. cbv zeta. rewrite G0. eauto.
  - exists 0%nat, 2%Z, 0%Z, 0%Z. fold d. rewrite ED, norm_0. split; [simpl; lia|]. split; [repeat split; simpl; discriminate|]. split; [exact I|].
    split; [intros [? _]; discriminate|]. split; [lra|auto].
  - rewrite in_flat_map. intros (t & HT & HE). apply test_spec in HE as (_ & _ & HE); [|lra|lra]. assert (EV : d = vsub (t_p t) q) by exact (f_equal bv HE).
    assert (EJ : real_id (t_idx t) = 0%nat) by (symmetry; exact (f_equal bp HE)).
    apply IN in HT as ((l & i & j & k & Hl & HI) & _). assert (EX : vx (t_p t) = -3). { rewrite ED in EV. apply (f_equal vx) in EV. unfold q in EV. simpl in EV. lra. }
    assert (Hl' : l = 0%nat \/ l = 1%nat) by (simpl in Hl; lia).
    destruct HI as [[_ ->]|[HG ->]]; cbn [t_p t_idx] in *.
    + destruct Hl' as [-> | ->]; simpl in EX; lra.
    + assert (Hi := ghost_of_tri _ _ _ _ _ _ HG). destruct Hl' as [-> | ->]; unfold shift, comb, a1, a2, a3, ex_cube in EX; simpl in EX;
      destruct Hi as ([-> | [-> | ->]] & _); simpl in EX; lra.
Qed.
Print Assumptions C31_unwrapped_refuted.
