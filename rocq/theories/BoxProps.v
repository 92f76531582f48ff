(** Properties C01-C11: freud.box.Box.  Statements use BoxSpec (lattice vectors, images, cell); every theorem
    is followed by a concrete instance meeting its hypotheses. *)
From Coq Require Import Permutation.
From Verif Require Import BoxPyModel BoxModel BoxSpec BoxProofs BoxProofs2 BoxPyProofs.

(** A tilted 3D box, a tilted 2D box and a partially periodic box used by the examples. *)
Definition ex_tri : box := mk_box 3 4 5 (1/2) (1/4) (-1) false.
Definition ex_2d : box := mk_box 3 4 0 (1/2) 0 0 true.
Definition ex_slab : box := set_periodic ex_tri true true false.

Example ex_tri_positive : positive ex_tri /\ fully_periodic ex_tri.
Proof. split; [apply mk_box_positive; intros; lra|repeat split]. Qed.
Example ex_2d_positive : positive ex_2d /\ fully_periodic ex_2d.
Proof. split; [apply mk_box_positive; intros; try lra; discriminate|repeat split]. Qed.
Example ex_slab_positive : positive ex_slab /\ b_pz ex_slab = false.
Proof. split; [apply set_periodic_positive, mk_box_positive; intros; lra|reflexivity]. Qed.

(** ** C01 *)
Theorem C01_fractional_absolute (b : box) (f : vec3) :
  nonsingular b -> (b_2d b = true -> vz f = 0) -> make_fractional b (make_absolute b f) = f.
Proof. exact (fractional_absolute b f). Qed.
Print Assumptions C01_fractional_absolute.

Theorem C01_absolute_fractional (b : box) (v : vec3) :
  nonsingular b -> in_space b v -> make_absolute b (make_fractional b v) = v.
Proof. exact (absolute_fractional b v). Qed.
Print Assumptions C01_absolute_fractional.

(** makeAbsolute is the affine map of the lattice vectors; the cell is centred at the origin. *)
Theorem C01_absolute_affine (b : box) (f : vec3) :
  nonsingular b ->
  make_absolute b f =
  vadd (vadd (vscale (vx f - 1/2) (a1 b)) (vscale (vy f - 1/2) (a2 b))) (vscale (vz f - 1/2) (a3 b)).
Proof. exact (make_absolute_cell b f). Qed.
Print Assumptions C01_absolute_affine.

Theorem C01_lattice_vectors (b : box) :
  lattice_vector b 0 = Some (a1 b) /\ lattice_vector b 1 = Some (a2 b) /\
  lattice_vector b 2 = (if b_2d b then None else Some (a3 b)) /\
  forall i, (3 <= i)%nat -> lattice_vector b i = None.
Proof.
  unfold lattice_vector, a1, a2, a3. split; [reflexivity|]. split; [f_equal; f_equal; ring|].
  split; [destruct (b_2d b); auto; f_equal; f_equal; ring|].
  intros [|[|[|i]]] Hi; try lia. reflexivity.
Qed.

(** The constructors of the Python class establish the hypothesis used throughout. *)
Theorem C01_constructed_boxes Lx Ly Lz xy xz yz d b :
  py_box Lx Ly Lz xy xz yz d = Some b -> nonsingular b /\ fully_periodic b.
Proof. intros H. apply py_box_some in H as (_ & H & P & _). auto. Qed.

Example C01_ex : make_fractional ex_tri (make_absolute ex_tri (V3 (1/3) 2 (-1))) = V3 (1/3) 2 (-1)
  /\ make_absolute ex_tri (V3 1 1 1) = V3 (3/2 + 1 + 5/8) (2 - 5/2) (5/2).
Proof.
  split; [apply C01_fractional_absolute; [apply ex_tri_positive|discriminate]|].
  rewrite C01_absolute_affine by apply ex_tri_positive.
  unfold a1, a2, a3, ex_tri; simpl. vec_ext; field.
Qed.

(** ** C02 *)
Theorem C02_wrap_lattice_shift (b : box) (v : vec3) :
  nonsingular b -> in_space b v -> image_of b (wrap b v) v.
Proof. exact (wrap_image b v). Qed.
Print Assumptions C02_wrap_lattice_shift.

Theorem C02_wrap_in_cell (b : box) (v : vec3) :
  nonsingular b -> in_space b v ->
  let f := make_fractional b (wrap b v) in
  (b_px b = true -> 0 <= vx f < 1) /\ (b_py b = true -> 0 <= vy f < 1) /\ (b_pz b = true -> 0 <= vz f < 1).
Proof. exact (wrap_in_cell b v). Qed.
Print Assumptions C02_wrap_in_cell.

Theorem C02_wrap_aperiodic_axes (b : box) (v : vec3) :
  nonsingular b -> in_space b v ->
  let f := make_fractional b (wrap b v) in let g := make_fractional b v in
  (b_px b = false -> vx f = vx g) /\ (b_py b = false -> vy f = vy g) /\ (b_pz b = false -> vz f = vz g).
Proof. exact (wrap_aperiodic_axis b v). Qed.

Theorem C02_wrap_aperiodic_identity (b : box) (v : vec3) :
  b_px b = false -> b_py b = false -> b_pz b = false -> wrap b v = v.
Proof. intros Hx Hy Hz. unfold wrap. rewrite Hx, Hy, Hz. reflexivity. Qed.

Example C02_ex : in_space ex_slab (V3 7 (-9) 11) /\ in_space ex_2d (V3 7 (-9) 0).
Proof. split; intros H; [discriminate|reflexivity]. Qed.

(** ** C03 *)
Theorem C03_wrap_canonical (b : box) (u v : vec3) :
  nonsingular b -> in_space b u -> in_space b v -> (wrap b u = wrap b v <-> image_of b u v).
Proof. exact (wrap_canonical b u v). Qed.
Print Assumptions C03_wrap_canonical.

Theorem C03_wrap_idempotent (b : box) (v : vec3) :
  nonsingular b -> in_space b v -> wrap b (wrap b v) = wrap b v.
Proof. exact (wrap_idem b v). Qed.

(** Points already in the half-open cell are fixed. *)
Theorem C03_wrap_fixes_cell (b : box) (v : vec3) :
  nonsingular b -> in_space b v ->
  (let f := make_fractional b v in
   (b_px b = true -> 0 <= vx f < 1) /\ (b_py b = true -> 0 <= vy f < 1) /\ (b_pz b = true -> 0 <= vz f < 1)) ->
  wrap b v = v.
Proof. exact (wrap_fix b v). Qed.

Example C03_ex : image_of ex_tri (vadd (V3 1 1 1) (shift ex_tri 2 (-3) 4)) (V3 1 1 1).
Proof. exists 2%Z, (-3)%Z, 4%Z. split; [split; [|split; [|split]]; discriminate|reflexivity]. Qed.

(** ** C04 *)
Theorem C04_unwrap_wrap_iff (b : box) (v : vec3) :
  nonsingular b -> fully_periodic b -> in_space b v ->
  (unwrap b (wrap b v) (get_image b v) = v <->
   (let f := make_fractional b v in
    ~ lower_face (vx f) /\ ~ lower_face (vy f) /\ (b_2d b = false -> ~ lower_face (vz f)))).
Proof. exact (unwrap_wrap_iff b v). Qed.
Print Assumptions C04_unwrap_wrap_iff.

Theorem C04_unwrap_shift (b : box) (v : vec3) (i j k : Z) :
  nonsingular b -> (b_2d b = true -> k = 0%Z) -> unwrap b v (i, j, k) = vadd v (shift b i j k).
Proof. exact (unwrap_shift b v i j k). Qed.

Theorem C04_unwrap_wrap_face_refuted :
  exists b v, positive b /\ fully_periodic b /\ in_space b v /\ unwrap b (wrap b v) (get_image b v) <> v.
Proof. exists (mk_box 2 2 2 0 0 0 false), (V3 (-1) 0 0). exact unwrap_wrap_face_refuted. Qed.

(** ** C05 *)
Theorem C05_contains_open_cell (b : box) (v : vec3) :
  nonsingular b -> in_space b v ->
  (contains b v = true <->
   exists s t u, v = cell_point b s t u /\ 0 < s < 1 /\ 0 < t < 1 /\ (b_2d b = false -> 0 < u < 1)).
Proof.
  intros H Hs. rewrite contains_iff. cbv zeta.
  destruct (cell_coords b v H Hs) as (s & t & u & Ev & Ef & Hu). rewrite Ef; cbn [vx vy vz]. split.
  - intros (A & B & C). exists s, t, u. auto.
  - intros (s' & t' & u' & Ev' & A & B & C).
    assert (E : V3 s t u = V3 s' t' (if b_2d b then 0 else u')) by
      (rewrite <- Ef, Ev'; apply make_fractional_cell; auto).
    injection E as -> -> ->. split; auto. split; auto. intros E2. rewrite E2. auto.
Qed.
Print Assumptions C05_contains_open_cell.

Theorem C05_wrap_not_contained_refuted :
  exists b v, positive b /\ fully_periodic b /\ wrap b v = v /\ contains b (wrap b v) = false.
Proof. exists (mk_box 2 2 2 0 0 0 false), (V3 (-1) 0 0). exact wrap_not_contained_refuted. Qed.

(** Apart from the lower faces, wrapped points of a fully periodic box are contained. *)
Theorem C05_wrap_contained (b : box) (v : vec3) :
  nonsingular b -> fully_periodic b -> in_space b v -> off_faces b v -> contains b (wrap b v) = true.
Proof.
  intros H (Px & Py & Pz) Hs (Ox & Oy & Oz). apply contains_iff. cbv zeta.
  rewrite make_fractional_wrap by auto. cbn [vx vy vz]. rewrite Px, Py, Pz. unfold wrapped.
  assert (G : forall x, (forall n, x <> IZR n) -> 0 < x - IZR (Zfloor x) < 1).
  { intros x Hx. pose proof (Zfloor_bounds x) as [A B]. specialize (Hx (Zfloor x)). lra. }
  split; [apply G; auto|]. split; [apply G; auto|]. intros E. auto.
Qed.
Print Assumptions C05_wrap_contained.

Example C05_ex : contains ex_tri (V3 0 0 0) = true.
Proof. apply contains_iff. unfold make_fractional, ex_tri; simpl. intuition lra. Qed.

(** ** C06 *)
Theorem C06_min_image (b : box) (v w : vec3) :
  positive b -> in_space b v -> image_of b w v -> shorter_than_half_heights b w ->
  wrap b v = w /\ (forall w', image_of b w' v -> w' <> w -> norm w < norm w').
Proof. exact (min_image b v w). Qed.
Print Assumptions C06_min_image.

Theorem C06_distance (b : box) (p q w : vec3) :
  positive b -> in_space b p -> in_space b q -> image_of b w (vsub q p) -> shorter_than_half_heights b w ->
  compute_distance b p q = norm w.
Proof.
  intros H Hp Hq Hi Hs. unfold compute_distance.
  assert (in_space b (vsub q p)) by (intros E; specialize (Hp E); specialize (Hq E); simpl; lra).
  destruct (min_image b (vsub q p) w H H0 Hi Hs) as [-> _]. reflexivity.
Qed.

Example C06_ex : shorter_than_half_heights ex_2d (V3 1 0 0).
Proof.
  assert (N : norm (V3 1 0 0) = 1) by (unfold norm, dot; simpl; replace (1*1+0*0+0*0) with 1 by ring; apply sqrt_1).
  unfold shorter_than_half_heights, plane_distance, ex_2d; simpl. rewrite N.
  assert (sqrt (1 + 1/2*(1/2) + (1/2*0-0)*(1/2*0-0)) < 3/2).
  { rewrite <- (sqrt_square (3/2)) by lra. apply sqrt_lt_1; lra. }
  assert (0 < sqrt (1 + 1/2*(1/2) + (1/2*0-0)*(1/2*0-0))) by (apply sqrt_lt_R0; lra).
  split; [intros _|split; [intros _|discriminate]].
  - apply Rmult_lt_reg_r with (sqrt (1 + 1/2*(1/2) + (1/2*0-0)*(1/2*0-0))); auto. field_simplify; lra.
  - replace (1 + 0*0) with 1 by ring. rewrite sqrt_1. lra.
Qed.

(** ** C07 *)
Theorem C07_plane_distance_bound (b : box) (s t u : R) :
  positive b ->
  Rabs s * vx (plane_distance b) <= norm (comb b s t u) /\
  Rabs t * vy (plane_distance b) <= norm (comb b s t u) /\
  (b_2d b = false -> Rabs u * vz (plane_distance b) <= norm (comb b s t u)).
Proof. exact (plane_bound b s t u). Qed.
Print Assumptions C07_plane_distance_bound.

Theorem C07_plane_distance_attained (b : box) (d : R) :
  positive b -> b_2d b = false ->
  (exists s t u, s = d /\ norm (comb b s t u) = Rabs d * vx (plane_distance b)) /\
  (exists s t u, t = d /\ norm (comb b s t u) = Rabs d * vy (plane_distance b)) /\
  (exists s t u, u = d /\ norm (comb b s t u) = Rabs d * vz (plane_distance b)).
Proof. exact (plane_attained b d). Qed.
Print Assumptions C07_plane_distance_attained.

(** In 2D the bound is attained by in-plane vectors when the out-of-plane tilts are zero. *)
Theorem C07_plane_distance_attained_2d (b : box) (d : R) :
  positive b -> b_2d b = true -> b_xz b = 0 -> b_yz b = 0 ->
  (exists t, norm (comb b d t 0) = Rabs d * vx (plane_distance b)) /\
  (exists s, norm (comb b s d 0) = Rabs d * vy (plane_distance b)).
Proof.
  intros (H & Hx & Hy & _) E Exz Eyz. split.
  - set (L := b_L b) in *. set (xy := b_xy b).
    set (g := sqrt (1 + xy * xy)).
    assert (Hg2 : g * g = 1 + xy * xy) by (unfold g; rewrite sqrt_sqrt; nra).
    assert (Hg : 0 < g) by (apply sqrt_lt_R0; nra).
    exists (- (d * xy * vx L) / (vy L * (g * g))).
    unfold plane_distance. fold L xy. rewrite Exz, Eyz. simpl.
    replace (1 + xy * xy + (xy * 0 - 0) * (xy * 0 - 0)) with (1 + xy * xy) by ring. fold g.
    unfold norm, dot, comb, a1, a2, a3; simpl. fold L xy.
    set (t := - (d * xy * vx L) / (vy L * (g * g))).
    match goal with |- sqrt ?z = _ => replace z with ((d * (vx L / g)) * (d * (vx L / g))) end.
    + fold (Rsqr (d * (vx L / g))). rewrite sqrt_Rsqr_abs, Rabs_mult, (Rabs_pos_eq (vx L / g)); auto.
      apply Rlt_le, Rdiv_lt_0_compat; auto.
    + unfold t.
      replace (d * vx L + - (d * xy * vx L) / (vy L * (g * g)) * (xy * vy L) + 0 * (b_xz b * vz L))
        with (d * vx L * (1 - xy * xy / (g * g))) by (field; lra).
      replace (d * 0 + - (d * xy * vx L) / (vy L * (g * g)) * vy L + 0 * (b_yz b * vz L))
        with (- (d * xy * vx L) / (g * g)) by (field; lra).
      replace (d * (vx L / g) * (d * (vx L / g))) with (d * d * vx L * vx L / (g * g)) by (field; lra).
      rewrite Hg2. field. nra.
  - exists (- (d * b_xy b * vy (b_L b)) / vx (b_L b)). unfold plane_distance. rewrite Eyz. simpl.
    replace (1 + 0 * 0) with 1 by ring. rewrite sqrt_1. unfold Rdiv. rewrite Rinv_1, Rmult_1_r.
    unfold norm, dot, comb, a1, a2, a3; simpl.
    match goal with |- sqrt ?z = _ => replace z with ((d * vy (b_L b)) * (d * vy (b_L b))) by (field; lra) end.
    fold (Rsqr (d * vy (b_L b))). rewrite sqrt_Rsqr_abs, Rabs_mult, (Rabs_pos_eq (vy (b_L b))); lra.
Qed.
Print Assumptions C07_plane_distance_attained_2d.

(** Two images of the same point inside one ball of diameter below the plane distance do not differ along
    that axis. *)
Theorem C07_no_two_images_in_ball (b : box) (c p q : vec3) (r : R) (i j k : Z) :
  positive b -> norm (vsub p c) <= r -> norm (vsub q c) <= r -> q = vadd p (shift b i j k) ->
  (2 * r < vx (plane_distance b) -> i = 0%Z) /\ (2 * r < vy (plane_distance b) -> j = 0%Z) /\
  (b_2d b = false -> 2 * r < vz (plane_distance b) -> k = 0%Z).
Proof.
  intros H Hp Hq E.
  assert (N : norm (shift b i j k) <= 2 * r).
  { replace (shift b i j k) with (vadd (vsub q c) (vneg (vsub p c))) by (rewrite E; vec_ring).
    eapply Rle_trans; [apply norm_triangle|]. rewrite norm_vneg. lra. }
  destruct (plane_bound b (IZR i) (IZR j) (IZR k) H) as (Bx & By & Bz).
  destruct (plane_pos b H) as (Px & Py & Pz). fold (shift b i j k) in Bx, By, Bz.
  assert (G : forall n p, 0 < p -> Rabs (IZR n) * p <= norm (shift b i j k) -> 2 * r < p -> n = 0%Z).
  { intros n p' Hp' Hb Hr. destruct (Z.eq_dec n 0) as [|Hn]; auto. exfalso.
    assert (1 <= Rabs (IZR n)). { rewrite <- abs_IZR. apply IZR_le. lia. }
    nra. }
  split; [|split].
  - intros Hr. apply (G i (vx (plane_distance b))); auto.
  - intros Hr. apply (G j (vy (plane_distance b))); auto.
  - intros E2 Hr. apply (G k (vz (plane_distance b))); auto.
Qed.
Print Assumptions C07_no_two_images_in_ball.

(** ** C08 *)
Theorem C08_distance_lattice_invariant (b : box) (p q p' q' : vec3) :
  nonsingular b -> in_space b p -> in_space b q -> image_of b p' p -> image_of b q' q ->
  compute_distance b p' q' = compute_distance b p q.
Proof. exact (distance_lattice_invariant b p q p' q'). Qed.
Print Assumptions C08_distance_lattice_invariant.

(** compute_distances / compute_all_distances: shapes, contents and the length check. *)
Theorem C08_compute_distances (b : box) (qs ps : list vec3) :
  (length qs <> length ps -> compute_distances b qs ps = None) /\
  (length qs = length ps -> exists ds, compute_distances b qs ps = Some ds /\ length ds = length qs /\
     forall i, (i < length qs)%nat -> nth i ds 0 = norm (wrap b (vsub (nth i ps v0) (nth i qs v0)))).
Proof.
  unfold compute_distances. split; intros E.
  - apply Nat.eqb_neq in E. rewrite E. reflexivity.
  - rewrite (proj2 (Nat.eqb_eq _ _) E). eexists; split; [reflexivity|].
    rewrite map_length, combine_length, <- E, Nat.min_id. split; [reflexivity|]. intros i Hi.
    rewrite (nth_indep _ 0 (compute_distance b (fst (v0, v0)) (snd (v0, v0)))).
    + rewrite (map_nth (fun qp => compute_distance b (fst qp) (snd qp)) (combine qs ps) (v0, v0) i).
      rewrite combine_nth by auto. reflexivity.
    + rewrite map_length, combine_length, <- E, Nat.min_id. auto.
Qed.

Theorem C08_compute_all_distances (b : box) (qs ps : list vec3) (i j : nat) :
  (i < length qs)%nat -> (j < length ps)%nat ->
  nth j (nth i (compute_all_distances b qs ps) []) 0 = norm (wrap b (vsub (nth j ps v0) (nth i qs v0))).
Proof.
  intros Hi Hj. unfold compute_all_distances.
  rewrite (nth_indep _ [] (map (fun p => compute_distance b v0 p) ps)) by (rewrite map_length; auto).
  rewrite (map_nth (fun q => map (fun p => compute_distance b q p) ps)).
  rewrite (nth_indep _ 0 (compute_distance b (nth i qs v0) v0)) by (rewrite map_length; auto).
  rewrite (map_nth (fun p => compute_distance b (nth i qs v0) p)). reflexivity.
Qed.

Theorem C08_distance_symmetric_off_faces (b : box) (p q : vec3) :
  nonsingular b -> in_space b p -> in_space b q -> off_half_cells b (vsub q p) ->
  compute_distance b p q = compute_distance b q p.
Proof. exact (distance_sym_off b p q). Qed.
Print Assumptions C08_distance_symmetric_off_faces.

Theorem C08_distance_symmetric_orthorhombic (b : box) (p q : vec3) :
  nonsingular b -> in_space b p -> in_space b q -> orthorhombic b ->
  compute_distance b p q = compute_distance b q p.
Proof. exact (distance_sym_ortho b p q). Qed.
Print Assumptions C08_distance_symmetric_orthorhombic.

Theorem C08_distance_symmetric_refuted :
  exists b p q, positive b /\ fully_periodic b /\ compute_distance b p q <> compute_distance b q p.
Proof.
  exists (mk_box 2 2 2 (1/2) 0 0 false), (V3 0 0 0), (V3 (5/4) (1/2) 0). exact distance_sym_refuted.
Qed.

Example C08_ex : off_half_cells ex_tri (V3 (1/10) 0 0).
Proof.
  assert (G : forall x n, 0 < x < 1 -> x <> IZR n).
  { intros x n Hx E. subst. destruct Hx as [A B]. apply lt_IZR in A. apply lt_IZR in B. lia. }
  unfold off_half_cells, make_fractional, ex_tri; simpl. split; [|split]; intros; apply G; lra.
Qed.

(** ** C09 *)
Theorem C09_matrix_roundtrip_3d (b : box) :
  positive b -> b_2d b = false -> fully_periodic b ->
  exists r, from_matrix (to_matrix b) None = Some r /\ py_eq r b.
Proof. exact (from_matrix_roundtrip_3d b). Qed.
Print Assumptions C09_matrix_roundtrip_3d.

Theorem C09_matrix_roundtrip_2d (b : box) :
  positive b -> b_2d b = true -> fully_periodic b -> b_xz b = 0 -> b_yz b = 0 ->
  exists r, from_matrix (to_matrix b) None = Some r /\ py_eq r b.
Proof. exact (from_matrix_roundtrip_2d b). Qed.

Theorem C09_matrix_columns (b : box) : to_matrix b = (a1 b, a2 b, a3 b).
Proof. reflexivity. Qed.

Theorem C09_lengths_angles_roundtrip (b : box) :
  positive b -> b_2d b = false -> fully_periodic b ->
  exists r,
    (let '(L1, L2, L3, al, be, ga) := to_lengths_and_angles b in
     from_lengths_and_angles L1 L2 L3 al be ga None) = Some r /\ py_eq r b.
Proof. exact (lengths_angles_roundtrip b). Qed.
Print Assumptions C09_lengths_angles_roundtrip.

Theorem C09_from_box_roundtrip (b : box) :
  nonsingular b -> fully_periodic b -> exists r, from_box b None = Some r /\ py_eq r b.
Proof. exact (from_box_roundtrip b). Qed.

Theorem C09_from_box_dimension_conflict (b : box) (d : nat) : d <> dimensions b -> from_box b (Some d) = None.
Proof. exact (from_box_conflict b d). Qed.

Theorem C09_box_from_cpp (b : box) : nonsingular b -> exists r, box_from_cpp b = Some r /\ py_eq r b.
Proof. exact (box_from_cpp_roundtrip b). Qed.

Theorem C09_scale (b : box) (s : R) :
  nonsingular b ->
  (0 < s -> exists r, py_mul b s = Some r /\
     py_eq r (set_periodic (mk_box (s * vx (b_L b)) (s * vy (b_L b)) (s * vz (b_L b))
                                   (b_xy b) (b_xz b) (b_yz b) (b_2d b)) true true true)
     /\ volume r = (if b_2d b then s * s else s * s * s) * volume b) /\
  (s <= 0 -> py_mul b s = None).
Proof. exact (py_mul_spec b s). Qed.
Print Assumptions C09_scale.

Theorem C09_from_box_drops_periodic_refuted :
  exists b r, positive b /\ from_box b None = Some r /\ ~ py_eq r b.
Proof. exact from_box_periodic_refuted. Qed.

(** ** C10 *)
Theorem C10_setters_fresh (ops : list setter) (Lx Ly Lz xy xz yz : R) (is2d : bool) :
  existsb is_dimension_setter ops = false ->
  let b := fold_left apply_setter ops (mk_box Lx Ly Lz xy xz yz is2d) in b = fresh_like b.
Proof. intros H. apply setters_fresh; auto. apply mk_box_fresh. Qed.
Print Assumptions C10_setters_fresh.

(** Reassigning L after any history restores a consistent box. *)
Theorem C10_set_L_fresh (b : box) (x y z : R) : set_L b x y z = fresh_like (set_L b x y z).
Proof. exact (set_L_fresh b x y z). Qed.

Theorem C10_set_2d_no_tilt (b : box) :
  b = fresh_like b -> b_xz b = 0 -> b_yz b = 0 -> forall v,
  make_absolute (set_2d b true) v = make_absolute (fresh_like (set_2d b true)) v /\
  (vz v = 0 -> make_fractional (set_2d b true) v = make_fractional (fresh_like (set_2d b true)) v).
Proof. exact (set_2d_no_tilt b). Qed.

Theorem C10_set_2d_tilted_refuted :
  exists b v, positive b /\ let b2 := apply_setter b (SetDimensions true) in
    wrap (fresh_like b2) v = v /\ wrap b2 v <> wrap (fresh_like b2) v.
Proof. exists (mk_box 2 2 2 0 1 0 false), (V3 0 0 0). exact set_2d_shift_refuted. Qed.

Theorem C10_set_3d_zeroes_length_refuted :
  exists b, positive b /\ b_2d b = false /\ vz (b_L (apply_setter b (SetDimensions false))) = 0.
Proof.
  exists (mk_box 2 2 2 0 0 0 false). split; [apply mk_box_positive; intros; lra|]. split; [reflexivity|].
  exact (proj1 set_2d_false_zero_refuted).
Qed.

(** What a user reads off a box: Lx, Ly, Lz, xy, xz, yz, the three periodic flags, is2D. *)
Definition reported (b : box) : R * R * R * (R * R * R) * (bool * bool * bool) * bool :=
  (vx (b_L b), vy (b_L b), vz (b_L b), (b_xy b, b_xz b, b_yz b), (b_px b, b_py b, b_pz b), b_2d b).
(** A setter changes the parameters it names and no others, except that a 2D box reports Lz = 0 and that any
    assignment to dimensions zeroes Lz. *)
Theorem C10_reported_parameters (b : box) (s : setter) :
  reported (apply_setter b s) =
  let '(Lx, Ly, Lz, (xy, xz, yz), (px, py, pz), is2d) := reported b in
  match s with
  | SetL x y z => (x, y, if is2d then 0 else z, (xy, xz, yz), (px, py, pz), is2d)
  | SetXY t => (Lx, Ly, Lz, (t, xz, yz), (px, py, pz), is2d)
  | SetXZ t => (Lx, Ly, Lz, (xy, t, yz), (px, py, pz), is2d)
  | SetYZ t => (Lx, Ly, Lz, (xy, xz, t), (px, py, pz), is2d)
  | SetPeriodic x y z => (Lx, Ly, Lz, (xy, xz, yz), (x, y, z), is2d)
  | SetDimensions d => (Lx, Ly, 0, (xy, xz, yz), (px, py, pz), d)
  end.
Proof. destruct s; simpl; unfold reported, set_L; simpl; try reflexivity. destruct (b_2d b); reflexivity. Qed.
Print Assumptions C10_reported_parameters.
Theorem C10_constructor_parameters (Lx Ly Lz xy xz yz : R) (is2d : bool) :
  reported (mk_box Lx Ly Lz xy xz yz is2d) = (Lx, Ly, if is2d then 0 else Lz, (xy, xz, yz), (true, true, true), is2d).
Proof. destruct is2d; reflexivity. Qed.

(** ** C11 *)
Theorem C11_center_of_mass_in_cell (b : box) (l : list (vec3 * R)) :
  nonsingular b ->
  let f := make_fractional b (center_of_mass b l) in
  (b_px b = true -> 0 <= vx f < 1) /\ (b_py b = true -> 0 <= vy f < 1) /\ (b_pz b = true -> 0 <= vz f < 1).
Proof. exact (com_in_cell b l). Qed.
Print Assumptions C11_center_of_mass_in_cell.

Theorem C11_center_of_mass_images (b : box) (l l' : list (vec3 * R)) :
  nonsingular b -> same_up_to_images b l l' -> center_of_mass b l = center_of_mass b l'.
Proof. exact (com_images b l l'). Qed.
Print Assumptions C11_center_of_mass_images.

Theorem C11_center_of_mass_permutation (b : box) (l l' : list (vec3 * R)) :
  Permutation l l' -> center_of_mass b l = center_of_mass b l'.
Proof. exact (com_perm b l l'). Qed.

Theorem C11_center_of_mass_mass_scale (b : box) (k : R) (l : list (vec3 * R)) :
  0 < k -> total_mass l <> 0 -> center_of_mass b (scale_masses k l) = center_of_mass b l.
Proof. exact (com_scale b k l). Qed.

Theorem C11_center_of_mass_coincident (b : box) (v : vec3) (l : list (vec3 * R)) :
  nonsingular b -> fully_periodic b -> in_space b v ->
  total_mass l > 0 -> (forall a, In a l -> fst a = v) ->
  center_of_mass b l = wrap b v.
Proof. exact (com_coincident b v l). Qed.
Print Assumptions C11_center_of_mass_coincident.

Theorem C11_center_of_mass_translation (b : box) (l : list (vec3 * R)) (d : vec3) :
  nonsingular b -> fully_periodic b -> in_space b d -> (forall a, In a l -> in_space b (fst a)) ->
  total_mass l > 0 -> nondegenerate b l ->
  center_of_mass b (translate_all d l) = wrap b (vadd (center_of_mass b l) d).
Proof. exact (com_translate b l d). Qed.
Print Assumptions C11_center_of_mass_translation.

(** Box.center: every position is moved by minus the centre of mass (up to the lattice), so in a fully periodic box
    the centre of mass of the result is the origin. *)
Lemma com_in_space b l : nonsingular b -> in_space b (center_of_mass b l).
Proof.
  intros H. unfold center_of_mass. rewrite make_absolute_cell by auto. rewrite wrap_cell by auto. apply cell_point_in_space; auto.
Qed.
Theorem C11_center_positions (b : box) (l : list (vec3 * R)) :
  nonsingular b -> (forall a, In a l -> in_space b (fst a)) ->
  Forall2 (fun c a => image_of b c (vsub (fst a) (center_of_mass b l))) (center b l) l.
Proof.
  intros H Hl. unfold center. set (c := center_of_mass b l). assert (Hc : in_space b c) by apply com_in_space, H. clearbody c.
  induction l as [|a l IH]; simpl; constructor.
  - apply wrap_image; auto. intros E. specialize (Hl a (or_introl eq_refl) E). specialize (Hc E). simpl. lra.
  - apply IH. intros; apply Hl; right; auto.
Qed.
Print Assumptions C11_center_positions.
Theorem C11_center_at_origin (b : box) (l : list (vec3 * R)) :
  nonsingular b -> fully_periodic b -> (forall a, In a l -> in_space b (fst a)) ->
  total_mass l > 0 -> nondegenerate b l ->
  center_of_mass b (combine (center b l) (map snd l)) = v0.
Proof.
  intros H HP Hl Hm Hn. set (c := center_of_mass b l).
  assert (Hc : in_space b c) by apply com_in_space, H.
  assert (SI : same_up_to_images b (combine (center b l) (map snd l)) (translate_all (vneg c) l)).
  { pose proof (C11_center_positions b l H Hl) as F. fold c in F. unfold same_up_to_images, translate_all. clear -F Hl Hc.
    clearbody c. revert F. generalize (center b l). induction l as [|a l IH]; intros cs F; inversion F as [|c0 a0 cs0 l0 HI HF]; subst; simpl; constructor.
    - simpl. split; [|split; auto].
      + destruct HI as (i & j & k & (_ & _ & _ & A) & E). exists i, j, k. split; auto.
      + intros E. specialize (Hl a (or_introl eq_refl) E). specialize (Hc E). simpl. lra.
    - apply IH; auto. intros; apply Hl; right; auto. }
  rewrite (com_images b _ _ H SI). rewrite com_translate; auto.
  - fold c. replace (vadd c (vneg c)) with v0 by (destruct c; vec_ring).
    assert (E0 : v0 = cell_point b (1/2) (1/2) (1/2)) by (unfold cell_point, comb; vec_ext; field).
    apply wrap_fix; auto; [intros _; reflexivity|].
    assert (S0 : in_space b v0) by (intros _; reflexivity).
    destruct (cell_coords b v0 H S0) as (s & t & u & E & F & Hu). cbv zeta. rewrite F. cbn [vx vy vz].
    assert (G : s = 1/2 /\ t = 1/2 /\ (b_2d b = false -> u = 1/2)).
    { rewrite E in E0. unfold cell_point, comb, a1, a2, a3 in E0. destruct H as (Hx & Hy & Hz & H2 & _). injection E0 as Ex Ey Ez.
      destruct (b_2d b).
      - rewrite (H2 eq_refl) in *. assert (t = 1/2) by (apply Rmult_eq_reg_r with (vy (b_L b)); auto; lra). subst t.
        assert (s = 1/2) by (apply Rmult_eq_reg_r with (vx (b_L b)); auto; lra). split; auto. split; auto. discriminate.
      - specialize (Hz eq_refl). assert (u = 1/2) by (apply Rmult_eq_reg_r with (vz (b_L b)); auto; lra). subst u.
        assert (t = 1/2) by (apply Rmult_eq_reg_r with (vy (b_L b)); auto; lra). subst t.
        assert (s = 1/2) by (apply Rmult_eq_reg_r with (vx (b_L b)); auto; lra). auto. }
    destruct G as (-> & -> & G). repeat split; intros; try lra; destruct (b_2d b); try (rewrite Hu by auto; lra); rewrite G by auto; lra.
  - intros E. specialize (Hc E). simpl. rewrite Hc. ring.
Qed.
Print Assumptions C11_center_at_origin.

Theorem C11_aperiodic_single_point_refuted :
  exists b v, positive b /\ in_space b v /\ wrap b v = v /\ center_of_mass b [(v, 1)] <> v.
Proof. exact com_aperiodic_refuted. Qed.

Example C11_ex : center_of_mass ex_tri [(V3 9 9 9, 2); (V3 9 9 9, 1/2)] = wrap ex_tri (V3 9 9 9)
  /\ total_mass [(V3 9 9 9, 2); (V3 9 9 9, 1/2)] > 0.
Proof.
  split; [apply C11_center_of_mass_coincident; try apply ex_tri_positive; try discriminate|]; simpl; try lra.
  intros a [<-|[<-|[]]]; reflexivity.
Qed.

Example C11_nondegenerate_ex : nondegenerate (mk_box 1 1 1 0 0 0 false) [(V3 (-(1/2)) (-(1/2)) (-(1/2)), 1)].
Proof.
  assert (E : make_fractional (mk_box 1 1 1 0 0 0 false) (V3 (-(1/2)) (-(1/2)) (-(1/2))) = V3 0 0 0).
  { unfold make_fractional; simpl. vec_ext; field. }
  unfold nondegenerate, csum. cbn [fold_right fst snd]. rewrite E. cbn [vx vy vz].
  rewrite Rmult_0_r, cos_0. repeat split; left; lra.
Qed.
