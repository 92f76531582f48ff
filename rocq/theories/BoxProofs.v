From Verif Require Import BoxSpec.

(** ** fmod and the positive modulus *)

Lemma fmod_1 a : fmod a 1 = a - IZR (Ztrunc a).
Proof. unfold fmod. replace (a / 1) with a by field. ring. Qed.

Lemma modulus_positive_floor a b : 0 < b -> modulus_positive a b = a - b * IZR (Zfloor (a / b)).
Proof.
  intros Hb. unfold modulus_positive.
  set (x := a / b). assert (Ha : a = b * x) by (unfold x; field; lra).
  assert (E1 : fmod a b = b * (x - IZR (Ztrunc x))).
  { unfold fmod. fold x. rewrite Ha at 1. ring. }
  rewrite E1. unfold fmod.
  replace ((b * (x - IZR (Ztrunc x)) + b) / b) with (x - IZR (Ztrunc x) + 1) by (field; lra).
  pose proof (Zfloor_bounds x) as Hf.
  assert (Hy : 0 <= x - IZR (Ztrunc x) + 1).
  { destruct (Rle_lt_dec 0 x) as [Hx|Hx].
    - rewrite Ztrunc_floor by auto. lra.
    - rewrite Ztrunc_neg_ceil by lra. rewrite opp_IZR. pose proof (Zfloor_bounds (- x)). lra. }
  rewrite (Ztrunc_floor _ Hy).
  assert (Hfl : Zfloor (x - IZR (Ztrunc x) + 1) = (Zfloor x - Ztrunc x + 1)%Z).
  { replace (x - IZR (Ztrunc x) + 1) with (x + IZR (- Ztrunc x + 1)).
    - rewrite Zfloor_plus_IZR. lia.
    - rewrite plus_IZR, opp_IZR. ring. }
  rewrite Hfl, plus_IZR, minus_IZR. rewrite Ha. ring.
Qed.

Lemma modulus_positive_1 a : modulus_positive a 1 = a - IZR (Zfloor a).
Proof.
  rewrite modulus_positive_floor by lra. replace (a / 1) with a by field. ring.
Qed.

Lemma modulus_positive_range a b : 0 < b -> 0 <= modulus_positive a b < b.
Proof.
  intros Hb. rewrite modulus_positive_floor by auto.
  pose proof (Zfloor_bounds (a / b)) as H.
  assert (Ha : a = b * (a / b)) by (field; lra).
  set (x := a / b) in *. rewrite Ha. nra.
Qed.

(** ** Coordinates *)

Lemma mk_box_nonsingular Lx Ly Lz xy xz yz is2d :
  Lx <> 0 -> Ly <> 0 -> (is2d = false -> Lz <> 0) -> nonsingular (mk_box Lx Ly Lz xy xz yz is2d).
Proof.
  intros Hx Hy Hz. unfold nonsingular, mk_box, set_L.
  destruct is2d; simpl; repeat split; auto; try discriminate; vec_ext; lra.
Qed.

Lemma mk_box_positive Lx Ly Lz xy xz yz is2d :
  0 < Lx -> 0 < Ly -> (is2d = false -> 0 < Lz) -> positive (mk_box Lx Ly Lz xy xz yz is2d).
Proof.
  intros Hx Hy Hz. split.
  - apply mk_box_nonsingular; try lra. intros H. specialize (Hz H). lra.
  - unfold mk_box, set_L; destruct is2d; simpl; repeat split; auto; try discriminate.
Qed.

Lemma set_periodic_nonsingular b x y z : nonsingular b -> nonsingular (set_periodic b x y z).
Proof. unfold nonsingular; simpl; auto. Qed.
Lemma set_periodic_positive b x y z : positive b -> positive (set_periodic b x y z).
Proof. unfold positive, nonsingular; simpl; auto. Qed.

Ltac destruct_box b :=
  destruct b as [[lox loy loz] [hix hiy hiz] [Lx Ly Lz] [Lix Liy Liz] xy xz yz px py pz is2d].

Ltac use_nonsing H :=
  let Hx := fresh "HLx" in let Hy := fresh "HLy" in let Hz := fresh "HLz" in
  let H2 := fresh "HL2" in let Hlo := fresh "Hlo" in
  destruct H as (Hx & Hy & Hz & H2 & Hlo); simpl in Hx, Hy, Hz, H2, Hlo;
  unfold vscale in Hlo; simpl in Hlo; injection Hlo as ? ? ?; subst.

(** The model's makeAbsolute is the affine map given by the lattice vectors. *)
Lemma make_absolute_cell b f :
  nonsingular b ->
  make_absolute b f = cell_point b (vx f) (vy f) (vz f).
Proof.
  intros H. destruct_box b. use_nonsing H.
  unfold make_absolute, cell_point, comb, a1, a2, a3; simpl.
  destruct is2d; simpl in *.
  - rewrite (HL2 eq_refl). vec_ext; field.
  - vec_ext; field.
Qed.

Lemma make_fractional_cell b s t u :
  nonsingular b -> make_fractional b (cell_point b s t u) = V3 s t (if b_2d b then 0 else u).
Proof.
  intros H. destruct_box b. use_nonsing H.
  unfold make_fractional, cell_point, comb, a1, a2, a3; simpl.
  destruct is2d; simpl in *.
  - rewrite (HL2 eq_refl). vec_ext; try field; auto.
  - specialize (HLz eq_refl). vec_ext; field; auto.
Qed.

Lemma cell_point_fractional b v :
  nonsingular b -> in_space b v ->
  let f := make_fractional b v in v = cell_point b (vx f) (vy f) (vz f).
Proof.
  intros H Hs. destruct_box b. destruct v as [x y z]. use_nonsing H.
  unfold in_space in Hs; simpl in *.
  unfold make_fractional, cell_point, comb, a1, a2, a3; simpl.
  destruct is2d; simpl in *.
  - rewrite (HL2 eq_refl). rewrite (Hs eq_refl) in *. vec_ext; try field; auto.
  - specialize (HLz eq_refl). vec_ext; field; auto.
Qed.

Lemma fractional_absolute b f :
  nonsingular b -> in_space b f -> make_fractional b (make_absolute b f) = f.
Proof.
  intros H Hs. rewrite make_absolute_cell by auto.
  rewrite make_fractional_cell by auto. destruct f as [x y z]; simpl.
  unfold in_space in Hs; simpl in Hs. destruct (b_2d b); auto. rewrite Hs; auto.
Qed.

Lemma absolute_fractional b v :
  nonsingular b -> in_space b v -> make_absolute b (make_fractional b v) = v.
Proof.
  intros H Hs. rewrite make_absolute_cell by auto. symmetry. apply cell_point_fractional; auto.
Qed.

Lemma cell_point_inj b s t u s' t' u' :
  nonsingular b -> (b_2d b = true -> u = u') ->
  cell_point b s t u = cell_point b s' t' u' -> s = s' /\ t = t' /\ u = u'.
Proof.
  intros H H2 E.
  assert (E' : make_fractional b (cell_point b s t u) = make_fractional b (cell_point b s' t' u'))
    by (rewrite E; auto).
  rewrite !make_fractional_cell in E' by auto.
  destruct (b_2d b); injection E'; intros; subst; auto.
Qed.

Lemma cell_point_shift b s t u i j k :
  vadd (cell_point b s t u) (shift b i j k) = cell_point b (s + IZR i) (t + IZR j) (u + IZR k).
Proof. unfold cell_point, shift, comb. vec_ring. Qed.

Lemma cell_point_in_space b s t u : nonsingular b -> in_space b (cell_point b s t u).
Proof.
  intros H. destruct_box b. use_nonsing H. intros E; simpl in *. rewrite HL2 by auto. ring.
Qed.

Lemma cell_point_2d b s t u u' :
  nonsingular b -> b_2d b = true -> cell_point b s t u = cell_point b s t u'.
Proof.
  intros H E. destruct_box b. use_nonsing H. simpl in *. subst. rewrite (HL2 eq_refl).
  unfold cell_point, comb, a1, a2, a3. vec_ring.
Qed.

Lemma image_of_refl b v : image_of b v v.
Proof.
  exists 0%Z, 0%Z, 0%Z. split; [repeat split; auto|]. unfold shift, comb. vec_ring.
Qed.
Lemma image_of_sym b u v : image_of b u v -> image_of b v u.
Proof.
  intros (i & j & k & (A & B & C & D) & E). exists (-i)%Z, (-j)%Z, (-k)%Z. split.
  - repeat split; intros; [rewrite A|rewrite B|rewrite C|rewrite D]; auto.
  - rewrite E. unfold shift, comb. rewrite !opp_IZR. vec_ring.
Qed.
Lemma image_of_trans b u v w : image_of b u v -> image_of b v w -> image_of b u w.
Proof.
  intros (i & j & k & (A & B & C & D) & E) (i' & j' & k' & (A' & B' & C' & D') & E').
  exists (i + i')%Z, (j + j')%Z, (k + k')%Z. split.
  - repeat split; intros; [rewrite A, A'|rewrite B, B'|rewrite C, C'|rewrite D, D']; auto.
  - rewrite E, E'. unfold shift, comb. rewrite !plus_IZR. vec_ring.
Qed.
Lemma image_of_in_space b u v : nonsingular b -> image_of b u v -> in_space b v -> in_space b u.
Proof.
  intros H (i & j & k & A & E) Hv E2. rewrite E; simpl. rewrite (Hv E2).
  destruct_box b. use_nonsing H. simpl in *. rewrite HL2 by auto. ring.
Qed.

(** ** wrap *)

Definition wrapped (p : bool) (s : R) : R := if p then s - IZR (Zfloor s) else s.

Lemma wrap_cell b s t u :
  nonsingular b ->
  wrap b (cell_point b s t u) =
    cell_point b (wrapped (b_px b) s) (wrapped (b_py b) t) (wrapped (b_pz b) u).
Proof.
  intros H. unfold wrap.
  destruct (negb (b_px b) && negb (b_py b) && negb (b_pz b)) eqn:E.
  - apply andb_true_iff in E as [E E3]. apply andb_true_iff in E as [E1 E2].
    apply negb_true_iff in E1, E2, E3. rewrite E1, E2, E3. reflexivity.
  - rewrite make_fractional_cell by auto. rewrite make_absolute_cell by auto; simpl.
    rewrite !modulus_positive_1.
    destruct (b_2d b) eqn:E2.
    + rewrite (cell_point_2d b _ _ _ (wrapped (b_pz b) u)) by auto.
      unfold wrapped; destruct (b_px b), (b_py b); reflexivity.
    + unfold wrapped; destruct (b_px b), (b_py b), (b_pz b); reflexivity.
Qed.

Lemma wrapped_range p s : p = true -> 0 <= wrapped p s < 1.
Proof. intros ->; simpl. pose proof (Zfloor_bounds s); lra. Qed.

Lemma wrapped_shift p s n : (p = false -> n = 0%Z) -> wrapped p (s + IZR n) = wrapped p s.
Proof.
  intros H. destruct p; simpl.
  - rewrite Zfloor_plus_IZR, plus_IZR. ring.
  - rewrite H by auto. simpl. ring.
Qed.

Lemma wrapped_id p s : half_open (MkBox v0 v0 v0 v0 0 0 0 p p p p) p s -> wrapped p s = s.
Proof.
  intros H. destruct p; simpl; auto. specialize (H eq_refl).
  rewrite (Zfloor_uniq s 0); simpl; lra.
Qed.

Lemma cell_coords b v :
  nonsingular b -> in_space b v ->
  exists s t u, v = cell_point b s t u /\ make_fractional b v = V3 s t u /\ (b_2d b = true -> u = 0).
Proof.
  intros H Hs. pose proof (cell_point_fractional b v H Hs) as E; cbv zeta in E.
  assert (Hz : b_2d b = true -> vz (make_fractional b v) = 0).
  { intros E2. unfold make_fractional; simpl. rewrite E2; auto. }
  exists (vx (make_fractional b v)), (vy (make_fractional b v)), (vz (make_fractional b v)).
  split; [auto|split; auto]. 
Qed.

Lemma wrap_image b v : nonsingular b -> in_space b v -> image_of b (wrap b v) v.
Proof.
  intros H Hs. destruct (cell_coords b v H Hs) as (s & t & u & -> & _ & Hu).
  rewrite wrap_cell by auto.
  exists (if b_px b then (- Zfloor s)%Z else 0%Z),
         (if b_py b then (- Zfloor t)%Z else 0%Z),
         (if b_pz b then (- Zfloor u)%Z else 0%Z).
  split.
  - repeat split; intros E'; rewrite ?E'; auto. destruct (b_pz b); auto.
    rewrite (Hu E'). rewrite (Zfloor_uniq 0 0) by lra. reflexivity.
  - rewrite cell_point_shift.
    f_equal; unfold wrapped; destruct (b_px b), (b_py b), (b_pz b); rewrite ?opp_IZR; ring.
Qed.

Lemma make_fractional_wrap b v :
  nonsingular b -> in_space b v ->
  make_fractional b (wrap b v) =
  let f := make_fractional b v in
  V3 (wrapped (b_px b) (vx f)) (wrapped (b_py b) (vy f)) (wrapped (b_pz b) (vz f)).
Proof.
  intros H Hs. destruct (cell_coords b v H Hs) as (s & t & u & Ev & Ef & Hu). cbv zeta.
  rewrite Ef. rewrite Ev, wrap_cell, make_fractional_cell by auto. simpl.
  f_equal. destruct (b_2d b) eqn:E2; auto.
  rewrite Hu by auto.
  unfold wrapped. destruct (b_pz b); auto. rewrite (Zfloor_uniq 0 0); simpl; lra.
Qed.

Lemma wrap_in_cell b v :
  nonsingular b -> in_space b v ->
  let f := make_fractional b (wrap b v) in
  (b_px b = true -> 0 <= vx f < 1) /\ (b_py b = true -> 0 <= vy f < 1) /\ (b_pz b = true -> 0 <= vz f < 1).
Proof.
  intros H Hs. rewrite make_fractional_wrap by auto. cbv zeta; cbn [vx vy vz].
  split; [|split]; intros; apply wrapped_range; auto.
Qed.

Lemma wrap_aperiodic_axis b v :
  nonsingular b -> in_space b v ->
  let f := make_fractional b (wrap b v) in let g := make_fractional b v in
  (b_px b = false -> vx f = vx g) /\ (b_py b = false -> vy f = vy g) /\ (b_pz b = false -> vz f = vz g).
Proof.
  intros H Hs. rewrite make_fractional_wrap by auto. cbv zeta; cbn [vx vy vz].
  unfold wrapped. split; [|split]; intros ->; auto.
Qed.

Lemma wrap_congruent b u v :
  nonsingular b -> in_space b v -> image_of b u v -> wrap b u = wrap b v.
Proof.
  intros H Hs (i & j & k & (A & B & C & D) & E).
  destruct (cell_coords b v H Hs) as (s & t & w & Ev & Ef & Hu).
  rewrite E, Ev. rewrite cell_point_shift, !wrap_cell by auto.
  rewrite !wrapped_shift; auto.
Qed.

Lemma wrap_in_space b v : nonsingular b -> in_space b v -> in_space b (wrap b v).
Proof. intros H Hs. eapply image_of_in_space; eauto. apply wrap_image; auto. Qed.

Lemma wrap_idem b v : nonsingular b -> in_space b v -> wrap b (wrap b v) = wrap b v.
Proof. intros H Hs. apply wrap_congruent; auto. apply wrap_image; auto. Qed.

Lemma wrap_canonical b u v :
  nonsingular b -> in_space b u -> in_space b v -> (wrap b u = wrap b v <-> image_of b u v).
Proof.
  intros H Hu Hv. split.
  - intros E. apply image_of_trans with (wrap b u).
    + apply image_of_sym, wrap_image; auto.
    + rewrite E. apply wrap_image; auto.
  - apply wrap_congruent; auto.
Qed.

(** In the cell, [wrap] is the identity, so [wrap] is the unique representative in the half-open cell. *)
Lemma wrap_fix b v :
  nonsingular b -> in_space b v ->
  (let f := make_fractional b v in
   (b_px b = true -> 0 <= vx f < 1) /\ (b_py b = true -> 0 <= vy f < 1) /\ (b_pz b = true -> 0 <= vz f < 1)) ->
  wrap b v = v.
Proof.
  intros H Hs. destruct (cell_coords b v H Hs) as (s & t & u & Ev & Ef & Hu).
  cbv zeta. rewrite Ef; cbn [vx vy vz]. intros (A & B & C).
  rewrite Ev, wrap_cell by auto.
  f_equal; [destruct (b_px b)|destruct (b_py b)|destruct (b_pz b)]; simpl; auto;
    [specialize (A eq_refl)|specialize (B eq_refl)|specialize (C eq_refl)];
    rewrite (Zfloor_uniq _ 0); simpl; lra.
Qed.

(** ** Images and unwrap *)

Lemma image_round_spec f :
  (-(1/2) < f < 1/2 -> image_round f = 0%Z) /\
  (forall n, IZR n - 1/2 < f < IZR n + 1/2 -> image_round f = n).
Proof.
  assert (G : forall n, IZR n - 1/2 < f < IZR n + 1/2 -> image_round f = n).
  { intros n Hn. unfold image_round. destruct (Rleb_spec 0 f) as [Hf|Hf].
    - rewrite Ztrunc_floor by lra. apply Zfloor_uniq. lra.
    - rewrite Ztrunc_neg_ceil by lra. rewrite (Zfloor_uniq _ (-n)); [lia|].
      rewrite opp_IZR. lra. }
  split; auto. intros. apply G. simpl. lra.
Qed.

(** At half integers the code rounds away from zero. *)
Lemma image_round_half_neg : image_round (-(1/2)) = (-1)%Z.
Proof.
  unfold image_round. destruct (Rleb_spec 0 (-(1/2))) as [Hf|Hf]; [lra|].
  rewrite Ztrunc_neg_ceil by lra. rewrite (Zfloor_uniq _ 1); simpl; try lia; lra.
Qed.
Lemma image_round_half_pos : image_round (1/2) = 1%Z.
Proof.
  unfold image_round. destruct (Rleb_spec 0 (1/2)) as [Hf|Hf]; [|lra].
  rewrite Ztrunc_floor by lra. apply Zfloor_uniq; simpl; lra.
Qed.

Lemma image_round_zero_iff f : image_round f = 0%Z <-> -(1/2) < f < 1/2.
Proof.
  split.
  - unfold image_round. destruct (Rleb_spec 0 f) as [Hf|Hf].
    + rewrite Ztrunc_floor by lra. intros E. pose proof (Zfloor_bounds (f + 1/2)) as Hb.
      rewrite E in Hb. simpl in Hb. lra.
    + rewrite Ztrunc_neg_ceil by lra. intros E. pose proof (Zfloor_bounds (- (f - 1/2))) as Hb.
      assert (E' : Zfloor (- (f - 1/2)) = 0%Z) by lia. rewrite E' in Hb. simpl in Hb. lra.
  - apply image_round_spec.
Qed.

Lemma unwrap_shift b v i j k :
  nonsingular b -> (b_2d b = true -> k = 0%Z) -> unwrap b v (i, j, k) = vadd v (shift b i j k).
Proof.
  intros H Hk. destruct_box b. destruct v as [x y z]. use_nonsing H. simpl in *.
  unfold unwrap, shift, comb, a1, a2, a3; simpl. destruct is2d.
  - rewrite (HL2 eq_refl). vec_ring.
  - vec_ring.
Qed.

(** Not on a face: the fractional coordinates are not integers. *)
Definition off_faces (b : box) (v : vec3) : Prop :=
  let f := make_fractional b v in
  (forall n, vx f <> IZR n) /\ (forall n, vy f <> IZR n) /\ (b_2d b = false -> forall n, vz f <> IZR n).

Lemma image_round_floor f : (forall n, f <> IZR n) -> image_round (f - 1/2) = Zfloor f.
Proof.
  intros H. apply image_round_spec. pose proof (Zfloor_bounds f). specialize (H (Zfloor f)).
  lra.
Qed.

Lemma unwrap_wrap b v :
  nonsingular b -> fully_periodic b -> in_space b v -> off_faces b v ->
  unwrap b (wrap b v) (get_image b v) = v.
Proof.
  intros H (Px & Py & Pz) Hs Hoff. unfold off_faces in Hoff.
  destruct (cell_coords b v H Hs) as (s & t & u & Ev & Ef & Hu).
  unfold get_image. rewrite Ef in *. cbv zeta in *. cbn [vx vy vz vsub] in *.
  destruct Hoff as (Fx & Fy & Fz).
  rewrite (image_round_floor s), (image_round_floor t) by auto.
  rewrite unwrap_shift; auto.
  - rewrite Ev, wrap_cell, cell_point_shift by auto.
    rewrite Px, Py, Pz; simpl.
    destruct (b_2d b) eqn:E2.
    + rewrite (cell_point_2d b s t u (u - IZR (Zfloor u) + IZR (image_round 0))) by auto.
      f_equal; ring.
    + rewrite image_round_floor by (apply Fz; auto). f_equal; ring.
  - intros E2; rewrite E2. apply image_round_spec. lra.
Qed.

(** Refutation: on the lower face the image flag is -1 although [wrap] does not move the point. *)
Lemma unwrap_wrap_face_refuted :
  let b := mk_box 2 2 2 0 0 0 false in let v := V3 (-1) 0 0 in
  positive b /\ fully_periodic b /\ in_space b v /\ unwrap b (wrap b v) (get_image b v) <> v.
Proof.
  cbv zeta. split; [apply mk_box_positive; intros; lra|].
  split; [repeat split; auto|]. split; [intros E; discriminate|].
  assert (W : wrap (mk_box 2 2 2 0 0 0 false) (V3 (-1) 0 0) = V3 (-1) 0 0).
  { apply wrap_fix; [apply mk_box_nonsingular; intros; lra|intros E; discriminate|].
    unfold make_fractional; simpl. repeat split; intros; lra. }
  rewrite W. unfold get_image; simpl.
  replace ((-1 - - (1 / 2 * 2) - ((0 - 0 * 0) * 0 + 0 * 0)) / 2 - 1 / 2) with (-(1/2)) by lra.
  rewrite image_round_half_neg. unfold unwrap; simpl.
  intros E. injection E; intros; lra.
Qed.

(** ** contains *)

Lemma contains_iff b v :
  contains b v = true <->
  (let f := make_fractional b v in
   0 < vx f < 1 /\ 0 < vy f < 1 /\ (b_2d b = false -> 0 < vz f < 1)).
Proof.
  unfold contains, get_image. destruct (make_fractional b v) as [s t u]. cbn [vx vy vz vsub].
  rewrite !andb_true_iff, !Z.eqb_eq, !image_round_zero_iff.
  destruct (b_2d b).
  - split.
    + intros ((A & B) & C). split; [lra|split; [lra|discriminate]].
    + intros (A & B & _). lra.
  - split.
    + intros ((A & B) & C). split; [lra|split; [lra|intros _; lra]].
    + intros (A & B & C). specialize (C eq_refl). lra.
Qed.

(** ** Plane distances *)

Definition plane (b : box) (i : nat) : R :=
  match i with 0%nat => vx (plane_distance b) | 1%nat => vy (plane_distance b) | _ => vz (plane_distance b) end.

(** Gradients of the cell coordinates. *)
Definition grad (b : box) (i : nat) : vec3 :=
  match i with
  | 0%nat => V3 (1 / vx (b_L b)) (- b_xy b / vx (b_L b)) (- (b_xz b - b_yz b * b_xy b) / vx (b_L b))
  | 1%nat => V3 0 (1 / vy (b_L b)) (- b_yz b / vy (b_L b))
  | _ => V3 0 0 (1 / vz (b_L b))
  end.

Lemma sqrt_ge_1 x : 0 <= x -> 1 <= sqrt (1 + x).
Proof. intros H. rewrite <- sqrt_1 at 1. apply sqrt_le_1; lra. Qed.

Lemma norm_grad_0 b : 0 < vx (b_L b) -> vx (plane_distance b) * norm (grad b 0) = 1.
Proof.
  intros H. destruct_box b; unfold plane_distance, norm, dot; simpl in *.
  set (A := 1 + xy * xy + (xy * yz - xz) * (xy * yz - xz)).
  replace (1 / Lx * (1 / Lx) + - xy / Lx * (- xy / Lx) + - (xz - yz * xy) / Lx * (- (xz - yz * xy) / Lx))
    with (A * / (Lx * Lx)) by (unfold A; field; lra).
  assert (HA : 1 <= A).
  { unfold A. assert (0 <= xy * xy) by nra.
    pose proof (Rle_0_sqr (xy * yz - xz)) as Hq; unfold Rsqr in Hq. lra. }
  rewrite sqrt_mult by (try lra; apply Rlt_le, Rinv_0_lt_compat; nra).
  assert (E : sqrt (/ (Lx * Lx)) = / Lx).
  { replace (/ (Lx * Lx)) with ((/ Lx) * (/ Lx)) by (field; lra). apply sqrt_square.
    apply Rlt_le, Rinv_0_lt_compat; auto. }
  rewrite E. field. split; try lra. apply Rgt_not_eq. apply sqrt_lt_R0. lra.
Qed.

Lemma norm_grad_1 b : 0 < vy (b_L b) -> vy (plane_distance b) * norm (grad b 1) = 1.
Proof.
  intros H. destruct_box b; unfold plane_distance, norm, dot; simpl in *.
  set (A := 1 + yz * yz).
  replace (0 * 0 + 1 / Ly * (1 / Ly) + - yz / Ly * (- yz / Ly)) with (A * / (Ly * Ly)) by (unfold A; field; lra).
  assert (HA : 1 <= A) by (unfold A; nra).
  rewrite sqrt_mult by (try lra; apply Rlt_le, Rinv_0_lt_compat; nra).
  assert (E : sqrt (/ (Ly * Ly)) = / Ly).
  { replace (/ (Ly * Ly)) with ((/ Ly) * (/ Ly)) by (field; lra). apply sqrt_square.
    apply Rlt_le, Rinv_0_lt_compat; auto. }
  rewrite E. field. split; try lra. apply Rgt_not_eq. apply sqrt_lt_R0. lra.
Qed.

Lemma norm_grad_2 b : 0 < vz (b_L b) -> vz (plane_distance b) * norm (grad b 2) = 1.
Proof.
  intros H. destruct_box b; unfold plane_distance, norm, dot; simpl in *.
  replace (0 * 0 + 0 * 0 + 1 / Lz * (1 / Lz)) with (/ Lz * / Lz) by (field; lra).
  rewrite sqrt_square by (apply Rlt_le, Rinv_0_lt_compat; auto). field; lra.
Qed.

Lemma plane_pos b : positive b ->
  0 < vx (plane_distance b) /\ 0 < vy (plane_distance b) /\ (b_2d b = false -> 0 < vz (plane_distance b)).
Proof.
  intros (H & Hx & Hy & Hz). unfold plane_distance; simpl.
  set (xy := b_xy b). set (xz := b_xz b). set (yz := b_yz b).
  assert (0 <= xy * xy) by nra.
  pose proof (Rle_0_sqr (xy * yz - xz)) as Hq; unfold Rsqr in Hq. assert (0 <= yz * yz) by nra.
  repeat split; auto; apply Rdiv_lt_0_compat; auto; apply sqrt_lt_R0; lra.
Qed.

Lemma dot_grad_comb_0 b s t u : vx (b_L b) <> 0 -> dot (grad b 0) (comb b s t u) = s.
Proof. intros. unfold dot, grad, comb, a1, a2, a3; simpl. field; auto. Qed.
Lemma dot_grad_comb_1 b s t u : vy (b_L b) <> 0 -> dot (grad b 1) (comb b s t u) = t.
Proof. intros. unfold dot, grad, comb, a1, a2, a3; simpl. field; auto. Qed.
Lemma dot_grad_comb_2 b s t u : vz (b_L b) <> 0 -> dot (grad b 2) (comb b s t u) = u.
Proof. intros. unfold dot, grad, comb, a1, a2, a3; simpl. field; auto. Qed.

Lemma height_bound d g p r : 0 < p -> p * g = 1 -> Rabs d <= g * r -> Rabs d * p <= r.
Proof. intros Hp E H. assert (Rabs d * p <= g * r * p) by nra. replace (g * r * p) with (p * g * r) in H0 by ring.
  rewrite E in H0. lra. Qed.

(** A displacement (s,t,u) in cell coordinates is at least as long as |s| times the first height, etc. *)
Lemma plane_bound b s t u :
  positive b ->
  Rabs s * vx (plane_distance b) <= norm (comb b s t u) /\
  Rabs t * vy (plane_distance b) <= norm (comb b s t u) /\
  (b_2d b = false -> Rabs u * vz (plane_distance b) <= norm (comb b s t u)).
Proof.
  intros H. pose proof (plane_pos b H) as (Px & Py & Pz). destruct H as (H & Hx & Hy & Hz).
  repeat split; intros.
  - eapply height_bound; eauto. apply norm_grad_0; auto.
    rewrite <- (dot_grad_comb_0 b s t u) at 1 by lra. apply abs_dot_le.
  - eapply height_bound; eauto. apply norm_grad_1; auto.
    rewrite <- (dot_grad_comb_1 b s t u) at 1 by lra. apply abs_dot_le.
  - specialize (Hz H0). specialize (Pz H0). eapply height_bound; eauto. apply norm_grad_2; auto.
    rewrite <- (dot_grad_comb_2 b s t u) at 1 by lra. apply abs_dot_le.
Qed.
