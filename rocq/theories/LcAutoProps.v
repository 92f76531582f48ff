(** C87: LinkCell without a cell width. *)
From Coq Require Import Reals List ZArith Lia Lra.
From Verif Require Import LinkCellModel BoxProofs BoxProofs2 LinkCellProofs2 LinkCellProps LcAutoProofs LcAutoSpec.
Import ListNotations.
Open Scope R_scope.

(** The attribute cell_width afterwards: the edge of the cube that is the share of one cell. *)
Theorem C87_width (b : box) (points : list vec3) (lc : linkcell) : positive b -> lc_make b points 0 = Some lc ->
  0 < lc_width lc /\ lc_width lc ^ 3 * tens (length points) = volume b.
Proof. intros Hb H. destruct (auto_made b points lc Hb H) as (-> & _). apply auto_width. auto. Qed.
Print Assumptions C87_width.

(** Which systems are accepted. *)
Theorem C87_accepts (b : box) (points : list vec3) : usable b points -> (accepted b points <-> roomy b (length points)).
Proof. apply auto_accepts. Qed.
Print Assumptions C87_accepts.

(** In three dimensions fewer than 80 points are refused, whatever the box. *)
Theorem C87_few_refuted (b : box) (points : list vec3) : positive b -> b_2d b = false -> (length points < 80)%nat -> lc_make b points 0 = None.
Proof.
  intros Hb E2 H. destruct (lc_make b points 0) as [lc|] eqn:E; auto. exfalso. destruct (auto_made b points lc Hb E) as (_ & _ & R & _).
  apply roomy_eight in R; auto. apply tens_small in H. lra.
Qed.
Print Assumptions C87_few_refuted.

(** In a cube 80 points are enough. *)
Theorem C87_cube (L : R) (points : list vec3) : let b := mk_box L L L 0 0 0 false in
  usable b points -> (accepted b points <-> (80 <= length points)%nat).
Proof.
  intros b U. split.
  - intros [lc E]. destruct (Nat.lt_ge_cases (length points) 80) as [H|]; auto. rewrite C87_few_refuted in E; auto; [discriminate|]. apply U.
  - intros H. apply C87_accepts; auto. destruct U as ((_ & Hx & _) & _).
    assert (T : 8 <= tens (length points)).
    { unfold tens. replace 8 with (INR 8) by (simpl; ring). apply le_INR. assert (8 <= length points / 10)%nat by (apply Nat.div_le_lower_bound; lia). lia. }
    assert (HL : 0 < L) by exact Hx. assert (V : volume b = L ^ 3) by (unfold volume; simpl; ring).
    assert (P : plane_distance b = V3 L L L).
    { unfold plane_distance, b, mk_box, set_L. cbn. f_equal; [replace (1 + 0 * 0 + (0 * 0 - 0) * (0 * 0 - 0)) with 1 by ring|replace (1 + 0 * 0) with 1 by ring]; rewrite sqrt_1; field. }
    unfold roomy. rewrite V, P. cbn [vx vy vz]. assert (0 < L ^ 3) by (apply pow_lt; auto). assert (8 * L ^ 3 <= tens (length points) * L ^ 3) by (apply Rmult_le_compat_r; lra).
    auto.
Qed.
Print Assumptions C87_cube.

(** How full the cells are in three dimensions: at least ten points per cell on average, and fewer than 35 without tilt. *)
Theorem C87_occupancy (b : box) (points : list vec3) (lc : linkcell) : positive b -> b_2d b = false -> lc_make b points 0 = Some lc ->
  (8 <= num_cells (lc_dim lc))%Z /\ 10 * IZR (num_cells (lc_dim lc)) <= INR (length points) /\
  (b_xy b = 0 -> b_xz b = 0 -> b_yz b = 0 -> INR (length points) < 35 * IZR (num_cells (lc_dim lc))).
Proof.
  intros Hb E2 H. destruct (auto_made b points lc Hb H) as (_ & _ & R & dx & dy & dz & D & Gx & Gy & _ & Gz & _). specialize (Gz E2).
  apply roomy_eight in R; auto. destruct (tens_real _ R) as (_ & T1 & T2). pose proof (cells_at_most b points lc Hb E2 H) as M.
  assert (N : (8 <= num_cells (lc_dim lc))%Z) by (rewrite D; unfold num_cells; assert (4 <= dx * dy)%Z by nia; nia). split; auto. split; [lra|].
  intros A B C. pose proof (cells_at_least b points lc Hb E2 A B C H) as G. apply IZR_le in N. lra.
Qed.
Print Assumptions C87_occupancy.

(** The unit of length does not matter in three dimensions. *)
Theorem C87_units (Lx Ly Lz xy xz yz s : R) (points : list vec3) : let b := mk_box Lx Ly Lz xy xz yz false in
  let b' := mk_box (s * Lx) (s * Ly) (s * Lz) xy xz yz false in 0 < s -> usable b points ->
  (accepted b' (map (vscale s) points) <-> accepted b points).
Proof.
  intros b b' Hs U. assert (U' : usable b' (map (vscale s) points)).
  { destruct U as ((_ & Hx & Hy & Hz) & HP & HN & HI). specialize (Hz eq_refl). cbn in Hx, Hy, Hz. split; [|split; [|split]].
    - apply mk_box_positive; [apply Rmult_lt_0_compat; auto..|intros _; apply Rmult_lt_0_compat; auto].
    - repeat split.
    - destruct points; [congruence|discriminate].
    - intros p Hp. apply in_map_iff in Hp as (p' & <- & Hp'). destruct (HI _ Hp') as (x & y & z & -> & A & B & C). exists x, y, z. split; [|auto].
      unfold cell_point, comb, b, b', mk_box, set_L, vscale, vadd, a1, a2, a3. cbn. f_equal; field. }
  rewrite !C87_accepts by auto. rewrite map_length. unfold roomy.
  assert (V : volume b' = s ^ 3 * volume b) by (unfold volume; simpl; ring).
  assert (K : forall h, 8 * volume b' <= tens (length points) * (s * h) ^ 3 <-> 8 * volume b <= tens (length points) * h ^ 3).
  { intros h. rewrite V. replace (8 * (s ^ 3 * volume b)) with (s ^ 3 * (8 * volume b)) by ring.
    replace (tens (length points) * (s * h) ^ 3) with (s ^ 3 * (tens (length points) * h ^ 3)) by ring. pose proof (pow_lt s 3 Hs).
    split; [apply Rmult_le_reg_l; auto|intros; apply Rmult_le_compat_l; lra]. }
  rewrite <- (K (vx (plane_distance b))), <- (K (vy (plane_distance b))), <- (K (vz (plane_distance b))).
  replace (vx (plane_distance b')) with (s * vx (plane_distance b)) by (unfold plane_distance; simpl; unfold Rdiv; ring).
  replace (vy (plane_distance b')) with (s * vy (plane_distance b)) by (unfold plane_distance; simpl; unfold Rdiv; ring).
  replace (vz (plane_distance b')) with (s * vz (plane_distance b)) by (unfold plane_distance; simpl; ring). reflexivity.
Qed.
Print Assumptions C87_units.

(** In the plane it does: a square of side L is accepted when L times the number of cells aimed at is at least 8. *)
Lemma square_facts L : 0 < L -> positive (square_box L) /\ volume (square_box L) = L ^ 2 /\ plane_distance (square_box L) = V3 L L 0.
Proof.
  intros H. split; [apply mk_box_positive; auto; discriminate|]. split; [unfold volume; simpl; ring|].
  unfold plane_distance, square_box, mk_box, set_L. cbn. f_equal; [replace (1 + 0 * 0 + (0 * 0 - 0) * (0 * 0 - 0)) with 1 by ring|replace (1 + 0 * 0) with 1 by ring]; rewrite sqrt_1; field.
Qed.
Theorem C87_square (L : R) (points : list vec3) : usable (square_box L) points -> (accepted (square_box L) points <-> 8 <= tens (length points) * L).
Proof.
  intros U. rewrite C87_accepts by auto. destruct U as ((_ & Hx & _) & _). assert (HL : 0 < L) by exact Hx.
  destruct (square_facts L HL) as (_ & V & P). unfold roomy. rewrite V, P. cbn [vx vy vz]. pose proof (pow_lt L 2 HL).
  replace (tens (length points) * L ^ 3) with (tens (length points) * L * L ^ 2) by ring. split.
  - intros (A & _). apply Rmult_le_reg_r with (L ^ 2); auto.
  - intros A. assert (8 * L ^ 2 <= tens (length points) * L * L ^ 2) by (apply Rmult_le_compat_r; lra). split; auto. split; auto. discriminate.
Qed.
Print Assumptions C87_square.

Lemma square_scaled s L points : 0 < s -> usable (square_box L) points -> usable (square_box (s * L)) (map (vscale s) points).
Proof.
  intros Hs ((_ & Hx & _) & HP & HN & HI). assert (HL : 0 < L) by exact Hx. split; [apply square_facts, Rmult_lt_0_compat; auto|]. split; [repeat split|].
  split; [destruct points; [congruence|discriminate]|]. intros p Hp. apply in_map_iff in Hp as (p' & <- & Hp').
  destruct (HI _ Hp') as (x & y & z & -> & A & B & C). exists x, y, z. split; [|auto].
  unfold cell_point, comb, square_box, mk_box, set_L, vscale, vadd, a1, a2, a3. cbn. f_equal; field.
Qed.
Theorem C87_square_units_refuted (n : nat) : exists s L : R, 0 < s /\ 0 < L /\ forall points, length points = n -> usable (square_box L) points ->
  accepted (square_box L) points /\ ~ accepted (square_box (s * L)) (map (vscale s) points).
Proof.
  pose proof (tens_ge n) as T. exists (1 / (2 * tens n)), 8. assert (0 < 1 / (2 * tens n)) by (apply Rdiv_lt_0_compat; lra). split; auto. split; [lra|].
  intros points <- U. rewrite !C87_square by (auto using square_scaled). rewrite map_length. split; [lra|].
  replace (tens (length points) * (1 / (2 * tens (length points)) * 8)) with 4 by (field; lra). lra.
Qed.
Print Assumptions C87_square_units_refuted.

(** ... and the number of cells has no bound in the number of points. *)
Theorem C87_square_cells_refuted (n : nat) (K : Z) : exists L : R, 0 < L /\ forall points, length points = n -> usable (square_box L) points ->
  exists lc, lc_make (square_box L) points 0 = Some lc /\ (K <= num_cells (lc_dim lc))%Z.
Proof.
  set (M := (Z.max 2 K)%Z). pose proof (tens_ge n) as T. assert (HM : 2 <= IZR M) by (apply IZR_le; lia).
  assert (M3 : 8 <= IZR M ^ 3) by (replace 8 with (2 ^ 3) by ring; apply pow_incr; lra).
  exists (IZR M ^ 3). split; [lra|]. intros points <- U. set (L := IZR M ^ 3) in *.
  assert (A : accepted (square_box L) points) by (apply C87_square; auto; nra). destruct A as [lc E]. exists lc. split; auto.
  destruct (square_facts L ltac:(lra)) as (Hb & V & P).
  destruct (auto_made _ _ _ Hb E) as (W & PW & _ & dx & dy & dz & D & Gx & Gy & G1 & _ & Ex & Ey & _). rewrite P in Ex, Ey. cbn [vx vy] in Ex, Ey.
  destruct (auto_width _ (length points) Hb) as [_ VW]. rewrite <- W, V in VW. set (w := lc_width lc) in *.
  assert (Q : (M <= dx)%Z).
  { rewrite Ex. apply Zfloor_lub. apply Rmult_le_reg_r with w; auto. replace (L / w * w) with L by (field; lra).
    apply cube_le; [apply Rmult_lt_0_compat; lra|lra|]. replace ((IZR M * w) ^ 3) with (L * w ^ 3) by (unfold L; ring).
    replace (L ^ 3) with (L * L ^ 2) by ring. apply Rmult_le_compat_l; [lra|]. rewrite <- VW. pose proof (pow_lt w 3 PW). nra. }
  rewrite D, (G1 eq_refl). unfold num_cells. nia.
Qed.
Print Assumptions C87_square_cells_refuted.

(** Once accepted, ball queries are those of brute force. *)
Theorem C87_query (b : box) (points : list vec3) (lc : linkcell) (q : vec3) (qi : nat) (r_max r_min : R) (excl : bool) :
  usable b points -> lc_make b points 0 = Some lc -> in_cell b q -> 0 <= r_min < r_max -> radius_ok b r_max ->
  exists l, (forall res, lc_ball lc q qi r_max r_min excl res <-> res = Some l) /\ NoDup l /\
    forall x, In x l <-> in_range b points q qi r_max r_min excl all_images x.
Proof.
  intros (Hb & HP & HN & HI) H Hq Hr HR. apply (C30_ball_brute_force b points 0 lc q qi r_max r_min excl); auto.
  - apply (C87_width b points lc); auto.
  - intros p Hp. destruct (HI _ Hp) as (s & t & u & -> & _). apply cell_point_in_space. apply Hb.
Qed.
Print Assumptions C87_query.

(** Systems that meet the hypotheses: a hundred points in a cube, and one point in a square of side 8 (accepted) or 1 (refused). *)
Example C87_case : let c := mk_box 3 3 3 0 0 0 false in usable c (repeat (V3 1 0 0) 100) /\ accepted c (repeat (V3 1 0 0) 100) /\
  usable (square_box 8) [V3 0 0 0] /\ accepted (square_box 8) [V3 0 0 0] /\ usable (square_box 1) [V3 0 0 0] /\ ~ accepted (square_box 1) [V3 0 0 0].
Proof.
  intros c. assert (U : usable c (repeat (V3 1 0 0) 100)).
  { split; [apply mk_box_positive; lra|]. split; [repeat split|]. split; [discriminate|]. intros p Hp. apply repeat_spec in Hp. subst p.
    exists (5 / 6), (1 / 2), (1 / 2). split; [|repeat split; intros; lra].
    unfold cell_point, comb, c, mk_box, set_L, vscale, vadd, a1, a2, a3. cbn. f_equal; field. }
  assert (S : forall L, 0 < L -> usable (square_box L) [V3 0 0 0]).
  { intros L HL. split; [apply square_facts; auto|]. split; [repeat split|]. split; [discriminate|]. intros p [<- | []].
    exists (1 / 2), (1 / 2), 0. split; [|repeat split; intros; lra].
    unfold cell_point, comb, square_box, mk_box, set_L, vscale, vadd, a1, a2, a3. cbn. f_equal; field. }
  split; auto. split; [apply (C87_cube 3); auto; rewrite repeat_length; lia|]. pose proof (S 8 ltac:(lra)). pose proof (S 1 ltac:(lra)).
  split; auto. split; [apply C87_square; auto; unfold tens; simpl; lra|]. split; auto. rewrite C87_square by auto. unfold tens. simpl. lra.
Qed.
