(** Geometry of the CellQuery grid: every image in range is an entry of one of the examined cells. *)
From Verif Require Import MArrayProofs NListProofs AABBProofs2 LinkCellProofs LinkCellProofs3 BoxProofs BoxProofs2 CellQueryModel CellQueryProofs CellQueryProofs2 QuerySpec.
Open Scope R_scope.

Lemma comp_le_norm v : Rabs (vx v) <= norm v /\ Rabs (vy v) <= norm v /\ Rabs (vz v) <= norm v.
Proof.
  pose proof (norm_sq v) as E. pose proof (norm_nonneg v) as P. unfold dot in E.
  assert (G : forall a, a * a <= norm v * norm v -> Rabs a <= norm v).
  { intros a H. apply Rsqr_le_abs_0 in H. rewrite (Rabs_right (norm v)) in H by lra. auto. }
  pose proof (Rle_0_sqr (vx v)). pose proof (Rle_0_sqr (vy v)). pose proof (Rle_0_sqr (vz v)). unfold Rsqr in *.
  repeat split; apply G; lra.
Qed.

(** Cell coordinates of a point of the cell, with a canonical third coordinate in 2D. *)
Definition unit01 (x : R) : Prop := 0 <= x <= 1.
Lemma in_cell_coords b p : positive b -> fully_periodic b -> in_cell b p -> exists s t u, unit01 s /\ unit01 t /\ unit01 u /\
  (b_2d b = true -> u = 0) /\ p = cell_point b s t u /\ make_fractional b p = V3 s t u.
Proof.
  intros Hb (Fx & Fy & Fz) (s & t & u & -> & Hs & Ht & Hu). exists s, t, (if b_2d b then 0 else u).
  split; [apply Hs; auto|]. split; [apply Ht; auto|]. split; [destruct (b_2d b); [unfold unit01; lra|apply Hu; auto]|].
  split; [intros ->; auto|]. split; [|apply make_fractional_cell, Hb].
  destruct (b_2d b) eqn:E2; auto. destruct Hb as ((_ & _ & _ & HL & _) & _). specialize (HL E2).
  unfold cell_point, comb, a1, a2, a3. rewrite HL. vec_ring.
Qed.

(** Ghost displacements. *)
Definition tri (d : Z) : Prop := d = (-1)%Z \/ d = 0%Z \/ d = 1%Z.
Lemma ghost_dir_tri f frc : tri (ghost_dir f frc).
Proof. unfold ghost_dir, bz, tri. destruct (Rleb f frc), (Rleb (1 - frc) f); simpl; lia. Qed.
Lemma ghost_sites_spec dx dy dz : tri dx -> tri dy -> tri dz ->
  NoDup (ghost_sites dx dy dz) /\
  forall i j k, In (i, j, k) (ghost_sites dx dy dz) <-> (i = 0 \/ i = dx)%Z /\ (j = 0 \/ j = dy)%Z /\ (k = 0 \/ k = dz)%Z /\ (i, j, k) <> (0, 0, 0)%Z.
Proof.
  intros [-> | [-> | ->]] [-> | [-> | ->]] [-> | [-> | ->]]; cbn; (split; [repeat constructor; simpl; intros H; repeat destruct H as [H|H]; try discriminate; auto|]);
  intros i j k; (split; [intros H; repeat destruct H as [H|H]; try contradiction; apply tri_eq in H as (<- & <- & <-); repeat split; auto; discriminate|]);
  intros ([-> | ->] & [-> | ->] & [-> | ->] & N); try (exfalso; apply N; reflexivity); auto 10.
Qed.
Lemma new_site_shift b i j k : positive b -> tri i -> tri j -> tri k -> (b_2d b = true -> k = 0%Z) -> new_site b (i, j, k) = shift b i j k.
Proof.
  intros Hb Hi Hj Hk H2. assert (S : forall d v, tri d -> signed d v = vscale (IZR d) v).
  { intros d v [-> | [-> | ->]]; unfold signed; simpl; apply vec_eq; simpl; ring. }
  unfold new_site. rewrite !S by auto. unfold shift, comb, a1, a2, a3. destruct (b_2d b); [rewrite (H2 eq_refl)|]; vec_ring.
Qed.
Lemma shift_inj b i j k i' j' k' : positive b -> (b_2d b = true -> k = k') -> shift b i j k = shift b i' j' k' -> (i, j, k) = (i', j', k').
Proof.
  intros Hb H2 E. assert (E1 : cell_point b (IZR i + 1/2) (IZR j + 1/2) (IZR k + 1/2) = cell_point b (IZR i' + 1/2) (IZR j' + 1/2) (IZR k' + 1/2)).
  { unfold shift in E. rewrite !comb_cell_point in E. auto. }
  apply cell_point_inj in E1 as (A & B & C); [|apply Hb|intros E2; rewrite (H2 E2); auto].
  assert (i = i') by (apply eq_IZR; lra). assert (j = j') by (apply eq_IZR; lra).
  assert (k = k'). { destruct (b_2d b) eqn:E2; auto. apply eq_IZR. lra. } congruence.
Qed.
(** Direction of the ghosts of a point along the three axes. *)
Definition gdir (b : box) (r : R) (p : vec3) : Z * Z * Z :=
  let f := make_fractional b p in let d := plane_distance b in
  (ghost_dir (vx f) (r / vx d), ghost_dir (vy f) (r / vy d), if b_2d b then 0%Z else ghost_dir (vz f) (r / vz d)).
Definition ghost_of (b : box) (r : R) (p : vec3) (i j k : Z) : Prop :=
  let '(dx, dy, dz) := gdir b r p in (i = 0 \/ i = dx)%Z /\ (j = 0 \/ j = dy)%Z /\ (k = 0 \/ k = dz)%Z /\ (i, j, k) <> (0, 0, 0)%Z.
Lemma ghost_of_tri b r p i j k : ghost_of b r p i j k -> tri i /\ tri j /\ tri k /\ (b_2d b = true -> k = 0%Z).
Proof.
  unfold ghost_of, gdir. intros (A & B & C & _). pose proof (ghost_dir_tri (vx (make_fractional b p)) (r / vx (plane_distance b))).
  pose proof (ghost_dir_tri (vy (make_fractional b p)) (r / vy (plane_distance b))). pose proof (ghost_dir_tri (vz (make_fractional b p)) (r / vz (plane_distance b))).
  destruct (b_2d b); unfold tri in *; lia.
Qed.
Lemma ghosts_spec b r p : positive b -> NoDup (ghosts b r p) /\ forall d, In d (ghosts b r p) <-> exists i j k, ghost_of b r p i j k /\ d = shift b i j k.
Proof.
  intros Hb. unfold ghosts. set (dx := ghost_dir _ _). set (dy := ghost_dir (vy _) _). set (dz := if b_2d b then _ else _).
  assert (Tz : tri dz) by (unfold dz; destruct (b_2d b); [unfold tri; auto|apply ghost_dir_tri]).
  destruct (ghost_sites_spec dx dy dz) as [ND IN]; [apply ghost_dir_tri|apply ghost_dir_tri|auto|].
  assert (GO : forall i j k, ghost_of b r p i j k <-> In (i, j, k) (ghost_sites dx dy dz)) by (intros; rewrite IN; reflexivity).
  assert (NS : forall i j k, In (i, j, k) (ghost_sites dx dy dz) -> new_site b (i, j, k) = shift b i j k).
  { intros i j k H. apply GO, ghost_of_tri in H. apply new_site_shift; tauto. }
  split.
  - apply NoDup_map_in; auto. intros [[i j] k] [[i' j'] k'] H H' E. rewrite !NS in E by auto. apply (shift_inj b) in E; auto.
    apply GO, ghost_of_tri in H. apply GO, ghost_of_tri in H'. intros E2. transitivity 0%Z; [tauto|symmetry; tauto].
  - intros d. rewrite in_map_iff. split.
    + intros ([[i j] k] & <- & H). exists i, j, k. rewrite GO. split; auto.
    + intros (i & j & k & H & ->). exists (i, j, k). rewrite <- GO. split; auto. apply NS, GO. auto.
Qed.

(** Entries of the mapping. *)
Lemma real_id_pos j : (Z.of_nat j < 2 ^ 31)%Z -> real_id (Z.of_nat j) = j.
Proof. intros H. unfold real_id. rewrite Z.shiftr_div_pow2, Z.div_small by lia. rewrite Z.lxor_0_r, Nat2Z.id. auto. Qed.
Lemma real_id_neg j : (Z.of_nat j < 2 ^ 31)%Z -> real_id (Z.lnot (Z.of_nat j)) = j.
Proof.
  intros H. unfold real_id. replace (Z.shiftr (Z.lnot (Z.of_nat j)) 31) with (-1)%Z.
  - rewrite Z.lxor_m1_r, Z.lnot_involutive, Nat2Z.id. auto.
  - rewrite Z.shiftr_div_pow2 by lia. unfold Z.lnot. apply (Z.div_unique_pos _ _ _ (2 ^ 31 + Z.pred (- Z.of_nat j))%Z); lia.
Qed.
(** Entry for image (i,j,k) of point number l. *)
Definition image_entry (b : box) (points : list vec3) (r : R) (l : nat) (i j k : Z) (t : tagged) : Prop :=
  (l < length points)%nat /\
  ((i, j, k) = (0, 0, 0)%Z /\ t = Tag (nth l points v0) (Z.of_nat l) \/
   ghost_of b r (nth l points v0) i j k /\ t = Tag (vadd (nth l points v0) (shift b i j k)) (Z.lnot (Z.of_nat l))).
Lemma mapping_spec b g r points : positive b -> NoDup (mapping b g r points) /\
  forall c t, In (c, t) (mapping b g r points) <-> cell_safe g (t_p t) = Some c /\ exists l i j k, image_entry b points r l i j k t.
Proof.
  intros Hb. assert (EN : forall t c x, In (c, x) (entry g t) <-> x = t /\ cell_safe g (t_p t) = Some c).
  { intros t c x. unfold entry. destruct (cell_safe g (t_p t)) as [c'|]; simpl; split.
    - intros [E|[]]. injection E as <- <-. auto. - intros [-> E]. injection E as ->. auto. - intros []. - intros [_ E]. discriminate. }
  assert (ND : forall t, NoDup (entry g t)) by (intros t; unfold entry; destruct (cell_safe g (t_p t)); repeat constructor; simpl; auto).
  assert (IN : forall l c x, In (c, x) (point_entries b g r points l) <-> cell_safe g (t_p x) = Some c /\
     ((exists i j k, ghost_of b r (nth l points v0) i j k /\ x = Tag (vadd (nth l points v0) (shift b i j k)) (Z.lnot (Z.of_nat l))) \/ x = Tag (nth l points v0) (Z.of_nat l))).
  { intros l c x. unfold point_entries. rewrite in_app_iff, in_flat_map, EN. split.
    - intros [(d & Hd & H)| [-> H]]; [|split; auto]. apply EN in H as [-> H]. apply (proj2 (ghosts_spec b r _ Hb)) in Hd as (i & j & k & Hg & ->). split; auto. left. eauto 6.
    - intros [HC [(i & j & k & Hg & ->)| ->]]; [left|right; auto]. exists (shift b i j k). split; [apply ghosts_spec; eauto|]. apply EN. auto. }
  split.
  - unfold mapping. apply NoDup_flat_map; [apply seq_NoDup| |].
    + intros l _. unfold point_entries. apply NoDup_app_intro.
      * apply NoDup_flat_map; [apply ghosts_spec; auto|auto|]. intros d d' [c x] _ _ H H'. apply EN in H as [-> _]. apply EN in H' as [E _].
        injection E as Ex Ey Ez. apply vec_eq; lra.
      * auto.
      * intros [c x] H H'. apply in_flat_map in H as (d & _ & H). apply EN in H as [-> _]. apply EN in H' as [E _].
        injection E as _ E. unfold Z.lnot in E. lia.
    + intros l l' [c x] _ _ H H'. apply IN in H as [_ H]. apply IN in H' as [_ H']. 
      destruct H as [(i & j & k & _ & E)| E], H' as [(i' & j' & k' & _ & E')| E']; rewrite E in E'; injection E' as _ E'; unfold Z.lnot in *; lia.
  - intros c t. unfold mapping. rewrite in_flat_map. split.
    + intros (l & Hl & H). apply in_seq in Hl. apply IN in H as [HC H]. split; auto. exists l.
      destruct H as [(i & j & k & H & E)|E]; [exists i, j, k|exists 0%Z, 0%Z, 0%Z]; (split; [lia|]); auto.
    + intros (HC & l & i & j & k & Hl & H). exists l. split; [apply in_seq; lia|]. apply IN. split; auto.
      destruct H as [[_ H]|H]; [right; auto|left; eauto 6].
Qed.

(** Geometry of the grid. *)
Lemma frac_between t a : unit01 t -> 0 <= t * a - Rmin 0 a <= Rabs a.
Proof.
  unfold unit01. intros [H0 H1]. unfold Rmin. destruct (Rle_dec 0 a) as [H|H].
  - rewrite Rabs_right by lra. split; nra.
  - rewrite Rabs_left by lra. split; nra.
Qed.
Section Geometry.
  Variables (b : box) (r : R).
  Hypothesis Hb : positive b.
  Hypothesis Hr : 0 < r.
  Let g := setup_grid b r.
  Lemma z_len : 0 <= vz (b_L b).
  Proof. destruct Hb as ((_ & _ & _ & H2 & _) & _ & _ & H3). destruct (b_2d b); [rewrite H2; auto; lra|]. specialize (H3 eq_refl). lra. Qed.
  Lemma grid_dims : (3 <= g_nx g /\ 3 <= g_ny g /\ 3 <= g_nz g)%Z.
  Proof.
    pose proof z_len as Z0. destruct Hb as (_ & X0 & Y0 & _).
    assert (T : forall w, 0 <= w -> (0 <= Ztrunc (w * (1 / r)))%Z).
    { intros w H. assert (0 <= w * (1 / r)) by (apply Rmult_le_pos; auto; unfold Rdiv; rewrite Rmult_1_l; left; apply Rinv_0_lt_compat; auto).
      rewrite Ztrunc_floor by auto. apply Zfloor_lub. auto. }
    pose proof (Rabs_pos (b_xy b)). pose proof (Rabs_pos (b_xz b)). pose proof (Rabs_pos (b_yz b)).
    pose proof (T (vx (b_L b) + vy (b_L b) * Rabs (b_xy b) + vz (b_L b) * Rabs (b_xz b)) ltac:(nra)).
    pose proof (T (vy (b_L b) + vz (b_L b) * Rabs (b_yz b)) ltac:(nra)). pose proof (T (vz (b_L b)) ltac:(nra)).
    unfold g, setup_grid. cbn [g_nx g_ny g_nz]. lia.
  Qed.
  (** Coordinates of points of the cell relative to the corner of the grid. *)
  Lemma cell_span s t u : unit01 s -> unit01 t -> unit01 u -> let p := cell_point b s t u in let L := b_L b in
    r <= vx p - vx (g_min g) <= r + (vx L + vy L * Rabs (b_xy b) + vz L * Rabs (b_xz b)) /\
    r <= vy p - vy (g_min g) <= r + (vy L + vz L * Rabs (b_yz b)) /\
    r <= vz p - vz (g_min g) <= r + vz L.
  Proof.
    intros Hs Ht Hu p L. pose proof z_len as Z0. destruct Hb as ((_ & _ & _ & H2 & HL) & X0 & Y0 & _).
    pose proof (frac_between t (b_xy b) Ht). pose proof (frac_between u (b_xz b) Hu). pose proof (frac_between u (b_yz b) Hu).
    unfold p, L, g, setup_grid. cbn [g_min]. unfold cell_point, comb, a1, a2, a3, make_absolute. rewrite HL. simpl. unfold unit01 in *.
    assert (E2 : (if b_2d b then 0 else - (1 / 2) * vz (b_L b) + 0 * vz (b_L b)) = - (1/2) * vz (b_L b)) by (destruct (b_2d b); [rewrite H2; auto|]; ring).
    rewrite E2. split; [|split].
    - assert (0 <= vy (b_L b) * (t * b_xy b - Rmin 0 (b_xy b)) <= vy (b_L b) * Rabs (b_xy b)) by (split; [apply Rmult_le_pos|apply Rmult_le_compat_l]; lra).
      assert (0 <= vz (b_L b) * (u * b_xz b - Rmin 0 (b_xz b)) <= vz (b_L b) * Rabs (b_xz b)) by (split; [apply Rmult_le_pos|apply Rmult_le_compat_l]; lra).
      assert (0 <= s * vx (b_L b) <= vx (b_L b)) by nra. lra.
    - assert (0 <= vz (b_L b) * (u * b_yz b - Rmin 0 (b_yz b)) <= vz (b_L b) * Rabs (b_yz b)) by (split; [apply Rmult_le_pos|apply Rmult_le_compat_l]; lra).
      assert (0 <= t * vy (b_L b) <= vy (b_L b)) by nra. lra.
    - assert (0 <= u * vz (b_L b) <= vz (b_L b)) by nra. lra.
  Qed.
  Lemma axis_near a a' w : 0 <= w -> r <= a <= r + w -> Rabs (a' - a) < r ->
    (0 <= Zfloor (a' * (1 / r)) < Ztrunc (w * (1 / r)) + 3)%Z /\ (-1 <= Zfloor (a' * (1 / r)) - Zfloor (a * (1 / r)) <= 1)%Z /\
    (0 <= Zfloor (a * (1 / r)) < Ztrunc (w * (1 / r)) + 3)%Z.
  Proof.
    intros Hw Ha Hd. apply Rabs_def2 in Hd as [D1 D2].
    assert (I : 0 < / r) by (apply Rinv_0_lt_compat; auto). replace (1 / r) with (/ r) by (field; lra).
    assert (R1 : r * / r = 1) by (field; lra). set (ir := / r) in *.
    assert (A1 : 1 <= a * ir <= 1 + w * ir) by nra. assert (A2 : a * ir - 1 < a' * ir < a * ir + 1) by nra.
    assert (W0 : 0 <= w * ir) by nra. rewrite (Ztrunc_floor (w * ir)) by auto.
    pose proof (Zfloor_lb (a * ir)). pose proof (Zfloor_ub (a * ir)). pose proof (Zfloor_lb (a' * ir)). pose proof (Zfloor_ub (a' * ir)).
    pose proof (Zfloor_lb (w * ir)). pose proof (Zfloor_ub (w * ir)).
    assert (G : forall x y : Z, IZR x < IZR y + 1 -> (x <= y)%Z) by (intros x y H5; apply Z.lt_succ_r, lt_IZR; unfold Z.succ; rewrite plus_IZR; auto).
    assert (0 <= Zfloor (a' * ir))%Z by (apply Zfloor_lub; lra). assert (0 <= Zfloor (a * ir))%Z by (apply Zfloor_lub; lra).
    assert (Zfloor (a' * ir) <= Zfloor (w * ir) + 2)%Z by (apply G; rewrite plus_IZR; lra).
    assert (Zfloor (a * ir) <= Zfloor (w * ir) + 2)%Z by (apply G; rewrite plus_IZR; lra).
    assert (Zfloor (a' * ir) <= Zfloor (a * ir) + 1)%Z by (apply G; rewrite plus_IZR; lra).
    assert (Zfloor (a * ir) <= Zfloor (a' * ir) + 1)%Z by (apply G; rewrite plus_IZR; lra). lia.
  Qed.
  Lemma grid_near q e : fully_periodic b -> in_cell b q -> norm (vsub e q) < r ->
    exists cx cy cz dx dy dz, cell_xyz g q = (cx, cy, cz) /\ cell_xyz g e = (cx + dx, cy + dy, cz + dz)%Z /\
      (-1 <= dx <= 1 /\ -1 <= dy <= 1 /\ -1 <= dz <= 1)%Z /\ in_grid g (cx, cy, cz) = true /\ in_grid g (cx + dx, cy + dy, cz + dz)%Z = true.
  Proof.
    intros FP Hq Hn. destruct (in_cell_coords b q Hb FP Hq) as (s & t & u & Hs & Ht & Hu & _ & Eq & _).
    destruct (cell_span s t u Hs Ht Hu) as (SX & SY & SZ). rewrite <- Eq in *. cbv zeta in *.
    destruct (comp_le_norm (vsub e q)) as (NX & NY & NZ). cbn [vsub vx vy vz] in NX, NY, NZ.
    pose proof z_len as Z0. pose proof Hb as (_ & X0 & Y0 & _). pose proof (Rabs_pos (b_xy b)). pose proof (Rabs_pos (b_xz b)). pose proof (Rabs_pos (b_yz b)).
    assert (AX := axis_near (vx q - vx (g_min g)) (vx e - vx (g_min g)) (vx (b_L b) + vy (b_L b) * Rabs (b_xy b) + vz (b_L b) * Rabs (b_xz b)) ltac:(nra) SX).
    assert (AY := axis_near (vy q - vy (g_min g)) (vy e - vy (g_min g)) (vy (b_L b) + vz (b_L b) * Rabs (b_yz b)) ltac:(nra) SY).
    assert (AZ := axis_near (vz q - vz (g_min g)) (vz e - vz (g_min g)) (vz (b_L b)) Z0 SZ).
    specialize (AX ltac:(replace (vx e - vx (g_min g) - (vx q - vx (g_min g))) with (vx e - vx q) by ring; lra)).
    specialize (AY ltac:(replace (vy e - vy (g_min g) - (vy q - vy (g_min g))) with (vy e - vy q) by ring; lra)).
    specialize (AZ ltac:(replace (vz e - vz (g_min g) - (vz q - vz (g_min g))) with (vz e - vz q) by ring; lra)).
    unfold cell_xyz. change (g_inv g) with (1 / r).
    set (fx := Zfloor ((vx q - vx (g_min g)) * (1 / r))) in *. set (fy := Zfloor ((vy q - vy (g_min g)) * (1 / r))) in *. set (fz := Zfloor ((vz q - vz (g_min g)) * (1 / r))) in *.
    set (ex := Zfloor ((vx e - vx (g_min g)) * (1 / r))) in *. set (ey := Zfloor ((vy e - vy (g_min g)) * (1 / r))) in *. set (ez := Zfloor ((vz e - vz (g_min g)) * (1 / r))) in *.
    exists fx, fy, fz, (ex - fx)%Z, (ey - fy)%Z, (ez - fz)%Z. split; auto. split; [repeat f_equal; lia|]. split; [lia|].
    assert (DN : g_nx g = (Ztrunc ((vx (b_L b) + vy (b_L b) * Rabs (b_xy b) + vz (b_L b) * Rabs (b_xz b)) * (1 / r)) + 3)%Z /\
                 g_ny g = (Ztrunc ((vy (b_L b) + vz (b_L b) * Rabs (b_yz b)) * (1 / r)) + 3)%Z /\ g_nz g = (Ztrunc (vz (b_L b) * (1 / r)) + 3)%Z) by auto.
    unfold in_grid. rewrite !negb_true_iff, !orb_false_iff, !Z.ltb_ge, !Z.leb_gt. lia.
  Qed.
  (** An image in range of a point of the cell is one of its ghosts (or the point itself). *)
  Lemma ghost_axis f f' i frc : 0 <= frc < 1/2 -> unit01 f -> unit01 f' -> Rabs (f + IZR i - f') < frc -> (i = 0 \/ i = ghost_dir f frc)%Z.
  Proof.
    unfold unit01. intros Hf H1 H2 H. apply Rabs_def2 in H as [A B].
    assert (i = 0 \/ i = 1 \/ i = -1)%Z as [-> | [-> | ->]]; auto.
    - assert (-2 < IZR i < 2) as [C D] by lra. apply (lt_IZR (-2)) in C. apply (lt_IZR i 2) in D. lia.
    - right. unfold ghost_dir. rewrite (proj2 (Rleb_true _ _)) by lra. rewrite (proj2 (Rleb_false _ _)) by lra. auto.
    - right. unfold ghost_dir. rewrite (proj2 (Rleb_false _ _)) by lra. rewrite (proj2 (Rleb_true _ _)) by lra. auto.
  Qed.
  Lemma image_is_ghost q p i j k : fully_periodic b -> radius_ok b r -> in_cell b q -> in_cell b p -> (b_2d b = true -> k = 0%Z) ->
    norm (vsub (vadd p (shift b i j k)) q) < r -> (i, j, k) = (0, 0, 0)%Z \/ ghost_of b r p i j k.
  Proof.
    intros FP HR Hq Hp H2 Hn. destruct (in_cell_coords b q Hb FP Hq) as (s & t & u & Hs & Ht & Hu & U2 & Eq & _).
    destruct (in_cell_coords b p Hb FP Hp) as (s' & t' & u' & Hs' & Ht' & Hu' & U2' & Ep & EF).
    assert (E : vsub (vadd p (shift b i j k)) q = comb b (s' + IZR i - s) (t' + IZR j - t) (u' + IZR k - u)).
    { rewrite Ep, Eq. unfold cell_point, shift, comb, a1, a2, a3. vec_ring. }
    rewrite E in Hn. destruct (plane_bound b (s' + IZR i - s) (t' + IZR j - t) (u' + IZR k - u) Hb) as (PX & PY & PZ).
    destruct (plane_pos b Hb) as (DX & DY & DZ). destruct HR as (RX & RY & RZ). destruct FP as (Fx & Fy & Fz). specialize (RX Fx). specialize (RY Fy).
    assert (G : forall x d, 0 < d -> 2 * r < d -> Rabs x * d <= norm (comb b (s' + IZR i - s) (t' + IZR j - t) (u' + IZR k - u)) -> 0 <= r / d < 1/2 /\ Rabs x < r / d).
    { intros x d Hd H3 H4. assert (I : 0 < / d) by (apply Rinv_0_lt_compat; auto). assert (d * / d = 1) by (field; lra). unfold Rdiv. split; [split; nra|].
      assert (Rabs x * d < r) by lra. apply Rmult_lt_reg_r with d; auto. rewrite Rmult_assoc, (Rmult_comm (/ d)), H. lra. }
    destruct (G _ _ DX RX PX) as [FX GX]. destruct (G _ _ DY RY PY) as [FY GY].
    pose proof (ghost_axis s' s i _ FX Hs' Hs GX) as IX. pose proof (ghost_axis t' t j _ FY Ht' Ht GY) as IY.
    assert (IZ : (k = 0 \/ k = if b_2d b then 0%Z else ghost_dir u' (r / vz (plane_distance b)))%Z).
    { destruct (b_2d b) eqn:E2; [left; auto|]. destruct (G _ _ (DZ eq_refl) (RZ eq_refl Fz) (PZ eq_refl)) as [FZ GZ]. apply (ghost_axis u' u); auto. }
    destruct (Z.eq_dec i 0) as [-> |NI]; [destruct (Z.eq_dec j 0) as [-> |NJ]; [destruct (Z.eq_dec k 0) as [-> |NK]; [left; auto|]|]|]; right;
    unfold ghost_of, gdir; rewrite EF; cbn [vx vy vz]; (split; [auto|]); (split; [auto|]); (split; [auto|]); intros E0; apply tri_eq in E0; lia.
  Qed.
End Geometry.
