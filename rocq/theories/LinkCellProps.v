(** C30, C33: cell shells, cell lists and the LinkCell ball query. *)
From Verif Require Import LinkCellModel NListProofs AABBProofs2 AABBProps BoxProofs BoxProofs2 BoxProps FilterProps MArrayProofs LinkCellProofs LinkCellProofs2 LinkCellProofs3 LinkCellSpec.
Open Scope Z_scope.

(** ** C33 *)
(** The n-th state of an iterator started at range 0. *)
Definition nth_state (is2d : bool) (n : nat) : shell := Nat.iter n sh_next (sh_reset 0 is2d).

(** The documented loop [for (iter(0); iter != IteratorCellShell(M); ++iter)] stops and examines exactly the cells at
    Chebyshev distance below M, each once, and no earlier state compares equal to the end state. *)
Theorem C33_cube (is2d : bool) (M : nat) : exists n,
  nth_state is2d n = sh_reset (Z.of_nat M) is2d /\
  (forall k, (k < n)%nat -> sh_eqb (nth_state is2d k) (sh_reset (Z.of_nat M) is2d) = false) /\
  NoDup (map (fun k => sh_pos (nth_state is2d k)) (seq 0 n)) /\
  (forall p, In p (map (fun k => sh_pos (nth_state is2d k)) (seq 0 n)) <-> cheb p < Z.of_nat M /\ offset_ok is2d p).
Proof.
  destruct (trace_iter _ _ _ (cube_trace M is2d)) as [E1 E2]. exists (length (cube_states M is2d)). split; auto.
  assert (EM : map (fun k => sh_pos (nth_state is2d k)) (seq 0 (length (cube_states M is2d))) = map sh_pos (cube_states M is2d)).
  { transitivity (map sh_pos (map (nth_state is2d) (seq 0 (length (cube_states M is2d))))); [rewrite map_map; auto|]. f_equal.
    apply (list_ext (sh_reset 0 is2d)); [rewrite map_length, seq_length; auto|]. intros k Hk. rewrite map_length, seq_length in Hk.
    rewrite (nth_indep _ _ (nth_state is2d 0)) by (rewrite map_length, seq_length; auto). rewrite map_nth, seq_nth by auto. symmetry. apply E2. auto. }
  rewrite EM. split; [|split; [apply cube_nodup|intros p; apply cube_in]].
  intros k Hk. assert (H : In (nth_state is2d k) (cube_states M is2d)) by (unfold nth_state; rewrite <- (E2 k (sh_reset 0 is2d) Hk); apply nth_In; auto).
  apply cube_range in H as [H _]. unfold sh_eqb. replace (sh_range (sh_reset (Z.of_nat M) is2d)) with (Z.of_nat M) by (unfold sh_reset; destruct (_ =? 0); auto).
  rewrite (proj2 (Z.eqb_neq _ _)) by lia. reflexivity.
Qed.
Print Assumptions C33_cube.

(** Iterating for ever: the Chebyshev distance of the n-th cell is the iterator's range, never decreases, and every cell is
    visited exactly once. *)
Theorem C33_order (is2d : bool) :
  (forall n, cheb (sh_pos (nth_state is2d n)) = sh_range (nth_state is2d n) /\ offset_ok is2d (sh_pos (nth_state is2d n))) /\
  (forall n m, (n <= m)%nat -> sh_range (nth_state is2d n) <= sh_range (nth_state is2d m)) /\
  (forall p, offset_ok is2d p -> exists n, sh_pos (nth_state is2d n) = p /\ forall m, sh_pos (nth_state is2d m) = p -> m = n).
Proof.
  assert (LEN : forall M, (M <= length (cube_states M is2d))%nat).
  { induction M; [lia|]. rewrite cube_S, app_length. assert (H : In (0, 0, Z.of_nat M) (map sh_pos (shell_states (Z.of_nat M) false)) \/ True) by auto.
    assert (H1 : In (Z.of_nat M, 0, 0) (map sh_pos (shell_states (Z.of_nat M) is2d))) by (apply shell_in; [lia|]; split; [simpl; lia|intros _; auto]).
    destruct (shell_states (Z.of_nat M) is2d); [destruct H1|simpl; lia]. }
  assert (ST : forall n, exists M, (n < length (cube_states M is2d))%nat) by (intros n; exists (S n); specialize (LEN (S n)); lia).
  assert (NTH : forall M k, (k < length (cube_states M is2d))%nat -> nth k (cube_states M is2d) (sh_reset 0 is2d) = nth_state is2d k).
  { intros M k Hk. destruct (trace_iter _ _ _ (cube_trace M is2d)) as [_ E2]. apply E2. auto. }
  assert (CH : forall n, cheb (sh_pos (nth_state is2d n)) = sh_range (nth_state is2d n) /\ offset_ok is2d (sh_pos (nth_state is2d n))).
  { intros n. destruct (ST n) as [M HM]. rewrite <- (NTH M n HM). assert (H := nth_In _ (sh_reset 0 is2d) HM). split.
    - apply (cube_range M is2d). auto.
    - assert (H2 := in_map sh_pos _ _ H). apply cube_in in H2. tauto. }
  assert (INJ : forall n m, sh_pos (nth_state is2d n) = sh_pos (nth_state is2d m) -> n = m).
  { intros n m E. destruct (ST (Nat.max n m)) as [M HM]. pose proof (cube_nodup M is2d) as ND.
    assert (HN : forall k, (k < length (cube_states M is2d))%nat -> nth k (map sh_pos (cube_states M is2d)) (sh_pos (sh_reset 0 is2d)) = sh_pos (nth_state is2d k)).
    { intros k Hk. rewrite map_nth, NTH; auto. }
    rewrite (NoDup_nth _ (sh_pos (sh_reset 0 is2d))) in ND. apply ND; rewrite ?map_length; try lia. rewrite !HN by lia. auto. }
  split; auto. split.
  - intros n m H. destruct (Z_le_gt_dec (sh_range (nth_state is2d n)) (sh_range (nth_state is2d m))) as [|G]; auto. exfalso.
    set (M := Z.to_nat (sh_range (nth_state is2d n))). destruct (C33_cube is2d M) as (k & E & _ & _ & I).
    destruct (CH n) as [Cn On], (CH m) as [Cm Om].
    assert (R0 : forall j, 0 <= cheb (sh_pos (nth_state is2d j))) by (intros j; destruct (sh_pos (nth_state is2d j)) as [[? ?] ?]; simpl; lia).
    pose proof (R0 m). pose proof (R0 n).
    assert (Hm : In (sh_pos (nth_state is2d m)) (map (fun k => sh_pos (nth_state is2d k)) (seq 0 k))) by (apply I; split; auto; unfold M; lia).
    apply in_map_iff in Hm as (m' & E' & Hm). apply in_seq in Hm. apply INJ in E'. subst m'.
    assert (Hn : In (sh_pos (nth_state is2d n)) (map (fun k => sh_pos (nth_state is2d k)) (seq 0 k))) by (apply in_map_iff; exists n; split; auto; apply in_seq; lia).
    apply I in Hn as [Hn _]. unfold M in Hn. lia.
  - intros p Ho. assert (0 <= cheb p) by (destruct p as [[? ?] ?]; simpl; lia).
    destruct (C33_cube is2d (Z.to_nat (cheb p + 1))) as (k & _ & _ & _ & I).
    assert (Hp : In p (map (fun k => sh_pos (nth_state is2d k)) (seq 0 k))) by (apply I; split; auto; lia).
    apply in_map_iff in Hp as (n & E & _). exists n. split; auto. intros m Em. apply INJ. congruence.
Qed.
Print Assumptions C33_order.

Example C33_ex : map (fun k => sh_pos (nth_state true k)) (seq 0 10) =
  [(0,0,0); (-1,1,0); (0,1,0); (1,1,0); (1,0,0); (1,-1,0); (0,-1,0); (-1,-1,0); (-1,0,0); (-2,2,0)].
Proof. reflexivity. Qed.

(** ** C30 *)
(** Which constructor calls succeed (for a physical box and points in the cell). *)
Theorem C30_constructor_defined (b : box) (points : list vec3) (cw : R) :
  positive b -> points <> [] -> (forall p, In p points -> in_cell b p) -> (0 < cw)%R ->
  (2 * cw <= vx (plane_distance b) /\ 2 * cw <= vy (plane_distance b) /\ (b_2d b = false -> 2 * cw <= vz (plane_distance b)))%R ->
  fully_periodic b -> exists lc, lc_make b points cw = Some lc.
Proof.
  intros Hb Hne Hin Hcw (HX & HY & HZ) (Fx & Fy & Fz). assert (NS : nonsingular b) by apply Hb.
  assert (IS : forall p, In p points -> in_space b p).
  { intros p Hp. destruct (Hin p Hp) as (s & t & u & -> & _). apply cell_point_in_space; auto. }
  assert (U : forall l, (2 * cw <= l)%R -> exists n, to_unsigned (l / cw) = Some n /\ 0 < atleast1 n).
  { intros l Hl. assert (Q : (2 <= l / cw)%R) by (apply Rmult_le_reg_r with cw; auto; unfold Rdiv; rewrite Rmult_assoc, Rinv_l by lra; lra).
    unfold to_unsigned. rewrite Ztrunc_nonneg_eq by lra. assert (2 <= Zfloor (l / cw)) by (apply Zfloor_lub; auto).
    rewrite (proj2 (Z.ltb_ge _ _)) by lia. eexists. split; auto. unfold atleast1. destruct (_ =? 0); lia. }
  destruct (U _ HX) as (x & Ex & Px). destruct (U _ HY) as (y & Ey & Py).
  assert (Z3 : exists z, (if b_2d b then Some 1 else to_unsigned (vz (plane_distance b) / cw)) = Some z /\ 0 < atleast1 z).
  { destruct (b_2d b) eqn:E2; [exists 1; split; auto; unfold atleast1; simpl; lia|]. apply U. auto. }
  destruct Z3 as (z & Ez & Pz).
  unfold lc_make, compute_dimensions. cbv zeta.
  assert (NQ : nq_ok b points = true).
  { unfold nq_ok. apply andb_true_iff. split; [destruct points; [contradiction|auto]|]. destruct (b_2d b) eqn:E2; auto. simpl. apply forallb_forall.
    intros p Hp. rewrite (IS p Hp E2), Rabs_R0. rewrite (proj2 (Rltb_false _ _)) by lra. auto. }
  rewrite NQ. cbn [negb]. rewrite (proj2 (Reqb_false cw 0)) by lra. rewrite Ex, Ey, Ez.
  rewrite (proj2 (Rltb_false _ _)) by lra. rewrite (proj2 (Rltb_false _ _)) by lra.
  assert (EZ : negb (b_2d b) && Rltb (vz (plane_distance b)) (cw * 2) = false).
  { destruct (b_2d b) eqn:E2; auto. cbn [negb andb]. apply Rltb_false. specialize (HZ eq_refl). lra. }
  rewrite EZ. cbn [orb]. set (dim := (atleast1 x, atleast1 y, if b_2d b then 1 else atleast1 z)).
  assert (DP : dim_pos dim) by (unfold dim, dim_pos; destruct (b_2d b); lia).
  assert (NC : 1 <= num_cells dim) by (unfold dim, dim_pos, num_cells in *; nia).
  rewrite (proj2 (Z.ltb_ge _ _)) by auto.
  assert (GC : forall p, In p points -> exists c, get_cell b dim p = Some c /\ 0 <= c < num_cells dim).
  { intros p Hp. destruct (Hin p Hp) as (s & t & u & E & Hs & Ht & Hu).
    assert (F : make_fractional b p = V3 s t (if b_2d b then 0 else u)) by (rewrite E; apply make_fractional_cell; auto).
    specialize (Hs Fx). specialize (Ht Fy). unfold get_cell, cell_coord, dim. rewrite F. cbn [vx vy vz].
    destruct (axis_cell_defined s (atleast1 x) Px) as [cx Ecx]; [lra|]. destruct (axis_cell_defined t (atleast1 y) Py) as [cy Ecy]; [lra|].
    destruct (axis_cell_defined (if b_2d b then 0 else u)%R (if b_2d b then 1 else atleast1 z)) as [cz Ecz].
    { destruct (b_2d b); lia. }
    { destruct (b_2d b); [lra|]. specialize (Hu eq_refl Fz). lra. }
    rewrite Ecx, Ecy, Ecz. eexists. split; [reflexivity|]. apply coord_index_range.
    apply axis_cell_spec in Ecx, Ecy, Ecz; auto; [|destruct (b_2d b); lia]. simpl. lia. }
  unfold compute_cell_list. set (n := length points).
  assert (G : forall js cl, (forall j, In j js -> (j < n)%nat) -> length cl = (n + Z.to_nat (num_cells dim))%nat ->
     exists cl', fold_left (link_one b dim points) js (Some cl) = Some cl').
  { induction js as [|j js IH]; intros cl Hj Hl; [simpl; eauto|]. cbn [fold_left]. unfold link_one at 2. fold n.
    destruct (GC (nth j points v0)) as (c & Ec & Rc); [apply nth_In, Hj; left; auto|]. rewrite Ec.
    destruct (nth_error cl (n + Z.to_nat c)) eqn:EN; [|exfalso; apply nth_error_None in EN; lia].
    assert (j < n)%nat by (apply Hj; left; auto).
    rewrite wr_some by lia. rewrite wr_some by (rewrite upd_length; lia). apply IH; [intros; apply Hj; right; auto|rewrite !upd_length; auto]. }
  destruct (G (rev (seq 0 n)) (repeat None (n + Z.to_nat (num_cells dim)))) as [cl ->].
  - intros j Hj. rewrite <- in_rev in Hj. apply in_seq in Hj. lia.
  - apply repeat_length.
  - simpl. eauto.
Qed.
Print Assumptions C30_constructor_defined.

(** Following the links from the head of a cell visits exactly the points of that cell, in increasing order, and every point is
    in exactly one cell. *)
Theorem C30_cell_list (b : box) (points : list vec3) (cw : R) (lc : linkcell) : lc_make b points cw = Some lc ->
  (forall c, 0 <= c < num_cells (lc_dim lc) -> exists l, chain (lc_list lc) (length points + Z.to_nat c) l /\
     l = filter (fun j => match get_cell b (lc_dim lc) (nth j points v0) with Some c' => c' =? c | None => false end) (seq 0 (length points))) /\
  (forall j, (j < length points)%nat -> exists c, get_cell b (lc_dim lc) (nth j points v0) = Some c /\ 0 <= c < num_cells (lc_dim lc)).
Proof.
  intros HM. apply lc_make_spec in HM as (Eb & Ep & Hne & _ & HD & _ & HL & _).
  assert (RG : forall k c, get_cell b (lc_dim lc) (nth k points v0) = Some c -> 0 <= c < num_cells (lc_dim lc)).
  { intros k c E. unfold get_cell in E. destruct (cell_coord b (lc_dim lc) (nth k points v0)) as [c'|] eqn:Ec; [|discriminate].
    injection E as <-. apply cell_coord_spec in Ec; auto. apply coord_index_range. destruct (lc_dim lc) as [[? ?] ?]. apply Ec. }
  apply cell_list_spec in HL as [HL1 HL2]; [|eauto]. split.
  - intros c Hc. exists (contents b (lc_dim lc) points c). split; auto.
  - intros j Hj. destruct (HL1 j Hj) as [c Hc]. exists c. split; auto. eauto.
Qed.
Print Assumptions C30_cell_list.

(** What the ball query computes for any radius: exactly the points whose wrapped displacement has length in [r_min, r_max). *)
Theorem C30_ball_wrapped (b : box) (points : list vec3) (cw : R) (lc : linkcell) (q : vec3) (qi : nat) (r_max r_min : R) (excl : bool) :
  positive b -> fully_periodic b -> (0 < lc_width lc)%R -> lc_make b points cw = Some lc -> (forall p, In p points -> in_space b p) ->
  in_cell b q -> (0 <= r_min < r_max)%R ->
  exists l, (forall res, lc_ball lc q qi r_max r_min excl res <-> res = Some l) /\ NoDup l /\
    forall x, In x l <-> wrapped_in_range b points q qi r_max r_min excl x.
Proof.
  intros Hb FP HC HM HS Hq Hr. assert (HD := HM). apply lc_make_spec in HD as (Eb & _ & _ & _ & HD & _).
  assert (PC : exists pc, cell_coord b (lc_dim lc) q = Some pc).
  { destruct Hq as (s & t & u & E & Hs & Ht & Hu). destruct FP as (Fx & Fy & Fz). specialize (Hs Fx). specialize (Ht Fy).
    assert (F : make_fractional b q = V3 s t (if b_2d b then 0 else u)) by (rewrite E; apply make_fractional_cell; apply Hb).
    unfold cell_coord. destruct (lc_dim lc) as [[dx dy] dz]. destruct HD as (Dx & Dy & Dz). rewrite F. cbn [vx vy vz].
    destruct (axis_cell_defined s dx Dx) as [? ->]; [lra|]. destruct (axis_cell_defined t dy Dy) as [? ->]; [lra|].
    destruct (axis_cell_defined (if b_2d b then 0 else u)%R dz Dz) as [? ->]; [|eauto].
    destruct (b_2d b); [lra|]. specialize (Hu eq_refl Fz). lra. }
  assert (Hqs : in_space b q) by (destruct Hq as (s & t & u & -> & _); apply cell_point_in_space, Hb).
  destruct (lc_ball_spec b points cw lc q qi r_max r_min excl Hb FP HM HC HS Hqs PC) as (l & HB & ND & HI); [lra|auto|].
  exists l. split; auto. intros res. split; [|intros ->; auto].
  unfold lc_ball in *. destruct (ball_args_ok r_max r_min); [|congruence].
  destruct HB as (pc & l1 & E1 & E2 & D1). injection E2 as <-. intros (pc' & l2 & E1' & -> & D2). assert (pc' = pc) by congruence. subst. f_equal.
  eapply drained_det; eauto.
Qed.
Print Assumptions C30_ball_wrapped.

(** Below half of every plane distance this is the brute-force definition over all lattice images. *)
Lemma wrapped_brute b points q qi r_max r_min excl x : positive b -> (forall p, In p points -> in_space b p) -> in_space b q -> radius_ok b r_max ->
  (wrapped_in_range b points q qi r_max r_min excl x <-> in_range b points q qi r_max r_min excl all_images x).
Proof.
  intros Hb HS Hq (RX & RY & RZ). assert (FL : forall p, in_space b p -> flat b p = p).
  { intros p Hp. unfold flat. destruct (b_2d b) eqn:E2; auto. specialize (Hp E2). destruct p; simpl in *. subst; auto. }
  assert (SE : forall j i1 i2 i3, (j < length points)%nat -> sep b points q j i1 i2 i3 = vadd (vsub (nth j points v0) q) (shift b (- i1) (- i2) (- i3))).
  { intros j i1 i2 i3 Hj. unfold sep. rewrite !FL; auto; [|apply HS, nth_In; auto]. unfold shift, comb. rewrite !opp_IZR. vec_ring. }
  assert (AL : forall i1 i2 i3, allowed b i1 i2 i3 -> allowed b (- i1) (- i2) (- i3)).
  { intros i1 i2 i3 (A & B & C & D). repeat split; intros; [rewrite A|rewrite B|rewrite C|rewrite D]; auto. }
  assert (SP : forall j, (j < length points)%nat -> in_space b (vsub (nth j points v0) q)).
  { intros j Hj E2. simpl. rewrite (HS _ (nth_In _ _ Hj) E2), (Hq E2). ring. }
  unfold wrapped_in_range, in_range, all_images. split.
  - intros (j & Hj & HE & (H1 & H2) & ->). destruct (wrap_image b _ (proj1 Hb) (SP j Hj)) as (i1 & i2 & i3 & A & E).
    exists j, (- i1), (- i2), (- i3). rewrite SE, !Z.opp_involutive by auto. rewrite E in *. repeat (split; auto).
  - intros (j & i1 & i2 & i3 & Hj & A & _ & HE & (H1 & H2) & ->). rewrite SE in * by auto.
    set (w := vadd _ _) in *. destruct (min_image b (vsub (nth j points v0) q) w Hb (SP j Hj)) as [E _].
    + exists (- i1), (- i2), (- i3). split; auto.
    + unfold shorter_than_half_heights. repeat split; intros; [specialize (RX H)|specialize (RY H)|specialize (RZ H H0)]; lra.
    + exists j. rewrite E. auto.
Qed.
Theorem C30_ball_brute_force (b : box) (points : list vec3) (cw : R) (lc : linkcell) (q : vec3) (qi : nat) (r_max r_min : R) (excl : bool) :
  positive b -> fully_periodic b -> (0 < lc_width lc)%R -> lc_make b points cw = Some lc -> (forall p, In p points -> in_space b p) ->
  in_cell b q -> (0 <= r_min < r_max)%R -> radius_ok b r_max ->
  exists l, (forall res, lc_ball lc q qi r_max r_min excl res <-> res = Some l) /\ NoDup l /\
    forall x, In x l <-> in_range b points q qi r_max r_min excl all_images x.
Proof.
  intros Hb FP HC HM HS Hq Hr HR. destruct (C30_ball_wrapped b points cw lc q qi r_max r_min excl Hb FP HC HM HS Hq Hr) as (l & A & B & C).
  exists l. split; auto. split; auto. intros x. rewrite C. apply wrapped_brute; auto.
  destruct Hq as (s & t & u & -> & _). apply cell_point_in_space, Hb.
Qed.
Print Assumptions C30_ball_brute_force.

Lemma v0_in_cube : in_cell ex_cube v0.
Proof. exists (1/2)%R, (1/2)%R, (1/2)%R. split; [|repeat split; intros; lra]. unfold cell_point, comb, a1, a2, a3, ex_cube. apply vec_eq; simpl; field. Qed.
Lemma cube_space p : in_space ex_cube p.
Proof. unfold in_space. simpl. discriminate. Qed.
Lemma ex_cube_fp : fully_periodic ex_cube.
Proof. repeat split. Qed.
(** The hypotheses are met by an ordinary system, and a bond is found. *)
Example C30_ex : exists lc l, lc_make ex_cube [v0; V3 1 0 0] 2 = Some lc /\ lc_ball lc v0 0 (3/2) 0 true (Some l) /\
  l = [Bond 0 1 1 1 (V3 1 0 0)].
Proof.
  destruct (C30_constructor_defined ex_cube [v0; V3 1 0 0] 2) as [lc HM]; auto.
  { apply ex_cube_positive. } { discriminate. }
  { intros p [<-|[<-|[]]]; [apply v0_in_cube|]. exists (6/10)%R, (1/2)%R, (1/2)%R. split; [|repeat split; intros; lra].
    unfold cell_point, comb, a1, a2, a3, ex_cube. apply vec_eq; simpl; field. }
  { lra. } { rewrite ex_cube_planes. simpl. repeat split; intros; lra. } { apply ex_cube_fp. }
  assert (W : lc_width lc = 2%R). { apply lc_make_spec in HM as (_ & _ & _ & E & _). rewrite E. rewrite (proj2 (Reqb_false 2 0)) by lra. auto. }
  destruct (C30_ball_wrapped ex_cube [v0; V3 1 0 0] 2 lc v0 0 (3/2) 0 true) as (l & HB & ND & HI); auto.
  { apply ex_cube_positive. } { apply ex_cube_fp. } { lra. } { intros; apply cube_space. } { apply v0_in_cube. } { lra. }
  assert (WV : wrap ex_cube (vsub (V3 1 0 0) v0) = V3 1 0 0).
  { replace (vsub (V3 1 0 0) v0) with (V3 1 0 0) by vec_ring. apply (min_image ex_cube (V3 1 0 0) (V3 1 0 0)).
    - apply ex_cube_positive. - apply cube_space. - apply image_of_refl.
    - assert (N1 : norm (V3 1 0 0) = 1%R) by (unfold norm, dot; simpl; replace (_ + _)%R with 1%R by ring; apply sqrt_1).
      unfold shorter_than_half_heights. rewrite N1, ex_cube_planes. simpl. repeat split; intros; lra. }
  assert (N1 : norm (V3 1 0 0) = 1%R) by (unfold norm, dot; simpl; replace (_ + _)%R with 1%R by ring; apply sqrt_1).
  exists lc, l. split; auto. split; [apply HB; auto|].
  assert (IN : forall x, In x l <-> x = Bond 0 1 1 1 (V3 1 0 0)).
  { intros x. rewrite HI. unfold wrapped_in_range. split.
    - intros (j & Hj & HE & _ & ->). simpl in Hj. destruct j as [|[|j]]; [exfalso; auto| |lia]. cbn [nth]. rewrite WV, N1. auto.
    - intros ->. exists 1%nat. simpl length. split; [lia|]. split; [intros [_ ?]; discriminate|]. cbn [nth]. rewrite WV, N1. split; [lra|auto]. }
  destruct l as [|x [|y l]].
  - exfalso. apply (IN (Bond 0 1 1 1 (V3 1 0 0))). auto.
  - f_equal. apply IN. left; auto.
  - exfalso. inversion ND; subst. apply H1. left. transitivity (Bond 0 1 1 1 (V3 1 0 0)); [|symmetry]; apply IN; simpl; auto.
Qed.

(** Refuted: unlike AABBQuery, LinkCell accepts any r_max, and beyond half the box it silently drops images in range. *)
Theorem C30_large_radius_refuted : exists b points cw lc q qi r_max l x,
  positive b /\ fully_periodic b /\ lc_make b points cw = Some lc /\ lc_ball lc q qi r_max 0 false (Some l) /\
  in_range b points q qi r_max 0 false all_images x /\ ~ In x l.
Proof.
  destruct (C30_constructor_defined ex_cube [v0] 2) as [lc HM]; auto.
  { apply ex_cube_positive. } { discriminate. } { intros p [<-|[]]. apply v0_in_cube. }
  { lra. } { rewrite ex_cube_planes. simpl. repeat split; intros; lra. } { apply ex_cube_fp. }
  assert (W : lc_width lc = 2%R). { apply lc_make_spec in HM as (_ & _ & _ & E & _). rewrite E. rewrite (proj2 (Reqb_false 2 0)) by lra. auto. }
  destruct (C30_ball_wrapped ex_cube [v0] 2 lc v0 0 11 0 false) as (l & HB & ND & HI); auto.
  { apply ex_cube_positive. } { apply ex_cube_fp. } { lra. } { intros; apply cube_space. } { apply v0_in_cube. } { lra. }
  set (d := sep ex_cube [v0] v0 0 1 0 0).
  assert (ED : d = V3 (-10) 0 0). { unfold d, sep, flat, shift, comb, a1, a2, a3, ex_cube. apply vec_eq; simpl; ring. }
  assert (ND10 : norm d = 10%R). { rewrite ED. unfold norm, dot. simpl. replace (_ + _)%R with (Rsqr 10) by (unfold Rsqr; ring). apply sqrt_Rsqr. lra. }
  exists ex_cube, [v0], 2%R, lc, v0, 0%nat, 11%R, l, (Bond 0 0 (norm d) 1 d).
  split; [apply ex_cube_positive|]. split; [apply ex_cube_fp|]. split; auto. split; [apply HB; auto|]. split.
  - exists 0%nat, 1, 0, 0. fold d. rewrite ND10. split; [simpl; lia|]. split; [repeat split; simpl; discriminate|]. split; [exact I|].
    split; [intros [? _]; discriminate|]. split; [lra|auto].
  - rewrite HI. intros (j & Hj & _ & _ & E). simpl in Hj. assert (j = 0%nat) by lia. subst j. cbn [nth] in E.
    assert (E' : norm d = norm (wrap ex_cube (vsub v0 v0))) by (injection E; auto).
    assert (WV : wrap ex_cube (vsub v0 v0) = v0).
    { rewrite vsub_diag. apply (min_image ex_cube v0 v0); [apply ex_cube_positive|apply cube_space|apply image_of_refl|].
      unfold shorter_than_half_heights. rewrite norm_0, ex_cube_planes. simpl. repeat split; intros; lra. }
    rewrite WV, norm_0, ND10 in E'. lra.
Qed.
Print Assumptions C30_large_radius_refuted.

(** Refuted: a negative cell width is accepted by the constructor and the ball query then never ends. *)
Lemma range_up s : 1 <= sh_range s -> sh_range s <= sh_range (sh_next s).
Proof.
  intros H. assert (R1 : forall n d, sh_range (sh_reset n d) = n) by (intros; unfold sh_reset; destruct (_ =? 0); auto).
  destruct s as [N st x y z d]. unfold sh_next. cbn [sh_range sh_stage sh_x sh_y sh_z sh_2d] in *. unfold sh_next_z. cbn [sh_range sh_stage sh_x sh_y sh_z sh_2d].
  destruct st as [|[[|[]|]|[]|]|]; destruct d;
  repeat match goal with |- context [if ?c then _ else _] => destruct c end; rewrite ?R1; cbn [sh_range]; lia.
Qed.
Theorem C30_negative_width_refuted : exists b points cw lc q,
  positive b /\ fully_periodic b /\ lc_make b points cw = Some lc /\ (cw < 0)%R /\
  forall qi r_max r_min excl res, (0 < r_max)%R -> (r_min < r_max)%R -> ~ lc_ball lc q qi r_max r_min excl res.
Proof.
  assert (T0 : Ztrunc (10 / -100) = 0). { rewrite Ztrunc_neg_ceil by lra. rewrite (Zfloor_uniq _ 0); [auto|]. lra. }
  assert (DM : compute_dimensions ex_cube (-100) = Some (1, 1, 1)).
  { unfold compute_dimensions. rewrite ex_cube_planes. unfold ex_cube at 1. unfold to_unsigned. cbn [vx vy vz]. rewrite T0. reflexivity. }
  assert (MF : make_fractional ex_cube v0 = V3 (1/2) (1/2) (1/2)).
  { unfold make_fractional, ex_cube. apply vec_eq; simpl; field. }
  assert (GC : get_cell ex_cube (1, 1, 1) v0 = Some 0).
  { unfold get_cell, cell_coord. rewrite MF. cbn [vx vy vz]. unfold axis_cell. rewrite (Zfloor_uniq (1/2 * 1) 0) by lra.
    unfold to_unsigned. rewrite Ztrunc_IZR. reflexivity. }
  assert (HM : exists lc, lc_make ex_cube [v0] (-100) = Some lc /\ lc_width lc = (-100)%R /\ lc_box lc = ex_cube).
  { unfold lc_make. rewrite (proj2 (Reqb_false (-100) 0)) by lra. change (nq_ok ex_cube [v0]) with true. cbn [negb]. cbv zeta. rewrite DM, ex_cube_planes. cbn [vx vy vz].
    rewrite !(proj2 (Rltb_false 10 (-100 * 2))) by lra. change (b_2d ex_cube) with false. cbn [negb andb orb num_cells].
    unfold compute_cell_list, link_one. cbn [length seq rev app fold_left nth]. rewrite GC. cbn. eexists. split; [reflexivity|auto]. }
  destruct HM as (lc & HM & HW & HB). exists ex_cube, [v0], (-100)%R, lc, v0.
  split; [apply ex_cube_positive|]. split; [apply ex_cube_fp|]. split; auto. split; [lra|].
  intros qi r_max r_min excl res H1 H2. unfold lc_ball, ball_args_ok. rewrite !(proj2 (Rltb_true _ _)) by lra. cbn [andb].
  intros (pc & l & _ & _ & D).
  assert (G : forall s l, drained (lb_step lc pc v0 qi r_max r_min excl) s l -> (lb_shell s = sh_reset 0 false \/ 1 <= sh_range (lb_shell s)) -> False).
  2:{ apply (G _ _ D). left. unfold lb_start. simpl. rewrite HB. reflexivity. }
  assert (NR : forall s, (s = sh_reset 0 false \/ 1 <= sh_range s) -> 1 <= sh_range (sh_next s)).
  { intros s [->|H]; [simpl; lia|]. pose proof (range_up s H). lia. }
  clear D l. intros s l D. induction D as [s E|s s' l E D IH|s x s' l E D IH]; intros HI.
  - unfold lb_step in E. destruct (lb_cur s).
    + destruct (nth_error _ _) as [[j|]|]; try discriminate. destruct (excl && _); try discriminate. destruct (Rltb _ _ && _); discriminate.
    + destruct (Rltb r_max _) eqn:ER; [|destruct (existsb _ _); discriminate]. apply Rltb_true in ER. rewrite HW in ER.
      specialize (NR _ HI). assert (EW : extra_width lc r_max = 1) by (unfold extra_width; rewrite HW, (proj2 (Reqb_false _ _)) by lra; auto).
      rewrite EW in ER. assert (0 <= IZR (sh_range (sh_next (lb_shell s)) - 1))%R by (apply IZR_le; lia). lra.
  - apply IH. unfold lb_step in E. destruct (lb_cur s).
    + destruct (nth_error _ _) as [[j|]|]; try discriminate; [|injection E as <-; auto]. destruct (excl && _); [injection E as <-; auto|]. cbv zeta in E. destruct (Rltb _ _ && _); [discriminate|injection E as <-; auto].
    + destruct (Rltb r_max _); [discriminate|]. destruct (existsb _ _); injection E as <-; right; cbn [lb_shell]; apply NR; auto.
  - apply IH. unfold lb_step in E. destruct (lb_cur s).
    + destruct (nth_error _ _) as [[j|]|]; try discriminate. destruct (excl && _); try discriminate. cbv zeta in E. destruct (Rltb _ _ && _); [injection E as _ <-; auto|discriminate].
    + destruct (Rltb r_max _); [discriminate|]. destruct (existsb _ _); discriminate.
Qed.
Print Assumptions C30_negative_width_refuted.

(** Refuted (helper not used by queries): numbering a cell and reading the number back permutes unequal dimensions. *)
Theorem C30_index_roundtrip_refuted : exists dim c, dim_pos dim /\ in_dim dim c /\ index_to_coord dim (coord_to_index dim c) <> c.
Proof. exists (2, 3, 4), (0, 2, 0). repeat split; try lia. cbv. discriminate. Qed.
Print Assumptions C30_index_roundtrip_refuted.
