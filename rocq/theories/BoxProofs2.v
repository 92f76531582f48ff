(** Second part of the box proofs: metric properties, image flags, setters, Python conversions. *)
From Verif Require Import BoxSpec BoxProofs.

(** ** Exact characterisation of the unwrap round trip *)

(** The coordinate at which get_images and wrap disagree: an integer <= 0, i.e. the point sits on the
    lower face of the cell or on a face of a lower image. *)
Definition lower_face (s : R) : Prop := exists n : Z, (n <= 0)%Z /\ s = IZR n.

Lemma image_round_vs_floor f : image_round (f - 1/2) = Zfloor f <-> ~ lower_face f.
Proof.
  split.
  - intros E (n & Hn & ->).
    assert (Hr : IZR n <= 0) by (apply IZR_le; lia).
    rewrite (Zfloor_uniq (IZR n) n) in E by lra.
    unfold image_round in E. destruct (Rleb_spec 0 (IZR n - 1/2)); [lra|].
    rewrite Ztrunc_neg_ceil in E by lra.
    rewrite (Zfloor_uniq _ (1 - n)) in E; [lia|]. rewrite minus_IZR. lra.
  - intros H. pose proof (Zfloor_bounds f) as Hf.
    destruct (Req_dec f (IZR (Zfloor f))) as [E|E].
    + assert (Hn : (1 <= Zfloor f)%Z).
      { destruct (Z_le_gt_dec (Zfloor f) 0); [|lia]. exfalso; apply H. exists (Zfloor f); auto. }
      assert (1 <= IZR (Zfloor f)) by (apply IZR_le; lia).
      unfold image_round. destruct (Rleb_spec 0 (f - 1/2)); [|lra].
      rewrite Ztrunc_floor by lra. replace (f - 1/2 + 1/2) with f by ring. reflexivity.
    + apply image_round_spec. lra.
Qed.

Lemma unwrap_wrap_iff b v :
  nonsingular b -> fully_periodic b -> in_space b v ->
  (unwrap b (wrap b v) (get_image b v) = v <->
   (let f := make_fractional b v in
    ~ lower_face (vx f) /\ ~ lower_face (vy f) /\ (b_2d b = false -> ~ lower_face (vz f)))).
Proof.
  intros H (Px & Py & Pz) Hs.
  destruct (cell_coords b v H Hs) as (s & t & u & Ev & Ef & Hu).
  unfold get_image. rewrite Ef in *. cbv zeta in *. cbn [vx vy vz vsub] in *.
  rewrite <- !image_round_vs_floor.
  set (i := image_round (s - 1/2)) in *. set (j := image_round (t - 1/2)) in *.
  set (k := image_round (if b_2d b then 0 else u - 1/2)) in *.
  assert (Hk : b_2d b = true -> k = 0%Z).
  { intros E; unfold k; rewrite E. apply image_round_spec; lra. }
  rewrite unwrap_shift by auto.
  rewrite Ev, wrap_cell, cell_point_shift by auto.
  rewrite Px, Py, Pz; simpl.
  split.
  - intros E. apply cell_point_inj in E; auto.
    + destruct E as (E1 & E2 & E3). split; [|split].
      * apply eq_IZR. lra.
      * apply eq_IZR. lra.
      * intros Ed. unfold k in E3. rewrite Ed in E3. apply eq_IZR. lra.
    + intros E2. rewrite (Hu E2), (Hk E2). rewrite (Zfloor_uniq 0 0) by lra. ring.
  - intros (E1 & E2 & E3). rewrite E1, E2.
    destruct (b_2d b) eqn:Ed.
    + rewrite (cell_point_2d b s t u (u - IZR (Zfloor u) + IZR k)) by auto. f_equal; ring.
    + unfold k. rewrite E3 by auto. f_equal; ring.
Qed.

(** ** Points produced by wrap need not be contained *)
Lemma wrap_not_contained_refuted :
  let b := mk_box 2 2 2 0 0 0 false in let v := V3 (-1) 0 0 in
  positive b /\ fully_periodic b /\ wrap b v = v /\ contains b (wrap b v) = false.
Proof.
  cbv zeta. split; [apply mk_box_positive; intros; lra|].
  split; [repeat split; auto|].
  assert (W : wrap (mk_box 2 2 2 0 0 0 false) (V3 (-1) 0 0) = V3 (-1) 0 0).
  { apply wrap_fix; [apply mk_box_nonsingular; intros; lra|intros E; discriminate|].
    unfold make_fractional; simpl. repeat split; intros; lra. }
  rewrite W. split; auto.
  apply not_true_is_false. rewrite contains_iff. unfold make_fractional; simpl. lra.
Qed.

(** ** Minimum image *)

Lemma comb_shift b s t u i j k :
  vadd (comb b s t u) (shift b i j k) = comb b (s + IZR i) (t + IZR j) (u + IZR k).
Proof. unfold comb, shift. unfold comb. vec_ring. Qed.

Lemma comb_cell_point b s t u : comb b s t u = cell_point b (s + 1/2) (t + 1/2) (u + 1/2).
Proof. unfold cell_point. f_equal; ring. Qed.

Lemma comb_coords b v :
  nonsingular b -> in_space b v ->
  exists s t u, v = comb b s t u /\ (b_2d b = true -> u = 0).
Proof.
  intros H Hs. destruct (cell_coords b v H Hs) as (s & t & u & Ev & _ & Hu).
  exists (s - 1/2), (t - 1/2), (if b_2d b then 0 else u - 1/2). split.
  - rewrite Ev. destruct (b_2d b) eqn:E.
    + rewrite (cell_point_2d b s t u (1/2)) by auto. unfold cell_point. f_equal; ring.
    + reflexivity.
  - intros ->; auto.
Qed.

(** Shorter than half the height of the cell in every periodic direction. *)
Definition shorter_than_half_heights (b : box) (w : vec3) : Prop :=
  (b_px b = true -> norm w < vx (plane_distance b) / 2) /\
  (b_py b = true -> norm w < vy (plane_distance b) / 2) /\
  (b_2d b = false -> b_pz b = true -> norm w < vz (plane_distance b) / 2).

Lemma abs_lt_half s p n : 0 < p -> Rabs s * p <= n -> n < p / 2 -> Rabs s < 1/2.
Proof. intros Hp H1 H2. assert (Rabs s * p < 1/2 * p) by lra. nra. Qed.

Lemma abs_shift_big s i : Rabs s < 1/2 -> i <> 0%Z -> 1/2 < Rabs (s + IZR i).
Proof.
  intros Hs Hi. assert (H : IZR i <= -1 \/ 1 <= IZR i).
  { destruct (Z_lt_le_dec i 0); [left; apply IZR_le; lia|right; apply IZR_le; lia]. }
  apply Rabs_def2 in Hs as [Ha Hb]. destruct H as [H|H].
  - rewrite Rabs_left1 by lra. lra.
  - rewrite Rabs_right by lra. lra.
Qed.

Lemma min_image b v w :
  positive b -> in_space b v -> image_of b w v -> shorter_than_half_heights b w ->
  wrap b v = w /\ (forall w', image_of b w' v -> w' <> w -> norm w < norm w').
Proof.
  intros Hp Hs Him (Sx & Sy & Sz). assert (H := Hp). destruct H as (H & _).
  assert (Hw : in_space b w) by (eapply image_of_in_space; eauto).
  destruct (comb_coords b w H Hw) as (s & t & u & Ew & Hu).
  pose proof (plane_pos b Hp) as (Px & Py & Pz).
  pose proof (plane_bound b s t u Hp) as (Bx & By & Bz). rewrite <- Ew in *.
  assert (Ax : b_px b = true -> Rabs s < 1/2) by (intros E; exact (abs_lt_half _ _ _ Px Bx (Sx E))).
  assert (Ay : b_py b = true -> Rabs t < 1/2) by (intros E; exact (abs_lt_half _ _ _ Py By (Sy E))).
  assert (Az : b_pz b = true -> Rabs u < 1/2).
  { intros E. destruct (b_2d b) eqn:E2.
    - rewrite Hu by auto. rewrite Rabs_R0; lra.
    - exact (abs_lt_half _ _ _ (Pz eq_refl) (Bz eq_refl) (Sz eq_refl E)). }
  split.
  - rewrite <- (wrap_congruent b w v) by auto.
    apply wrap_fix; auto. rewrite Ew, comb_cell_point, make_fractional_cell by auto.
    cbv zeta; cbn [vx vy vz]. split; [|split].
    + intros E. specialize (Ax E). apply Rabs_def2 in Ax. lra.
    + intros E. specialize (Ay E). apply Rabs_def2 in Ay. lra.
    + intros E. specialize (Az E). apply Rabs_def2 in Az. destruct (b_2d b); lra.
  - intros w' Hw' Hne.
    assert (Hww : image_of b w' w) by (apply image_of_trans with v; auto; apply image_of_sym; auto).
    destruct Hww as (i & j & k & (A & B & C & D) & E).
    rewrite Ew, comb_shift in E.
    pose proof (plane_bound b (s + IZR i) (t + IZR j) (u + IZR k) Hp) as (Bx' & By' & Bz').
    rewrite <- E in *.
    destruct (Z.eq_dec i 0) as [Ei|Ei]; [destruct (Z.eq_dec j 0) as [Ej|Ej];
       [destruct (Z.eq_dec k 0) as [Ek|Ek]|]|].
    + exfalso. apply Hne. rewrite E, Ew, Ei, Ej, Ek. f_equal; simpl; ring.
    + assert (Epz : b_pz b = true) by (destruct (b_pz b); auto; exfalso; auto).
      assert (E2 : b_2d b = false) by (destruct (b_2d b); auto; exfalso; auto).
      pose proof (abs_shift_big u k (Az Epz) Ek). specialize (Bz' E2). specialize (Sz E2 Epz).
      specialize (Pz E2). nra.
    + assert (Epy : b_py b = true) by (destruct (b_py b); auto; exfalso; auto).
      pose proof (abs_shift_big t j (Ay Epy) Ej). specialize (Sy Epy). nra.
    + assert (Epx : b_px b = true) by (destruct (b_px b); auto; exfalso; auto).
      pose proof (abs_shift_big s i (Ax Epx) Ei). specialize (Sx Epx). nra.
Qed.

(** ** The plane distances are attained (3D) *)

Lemma comb_of_vec b v :
  nonsingular b -> b_2d b = false ->
  let u := vz v / vz (b_L b) in
  let t := (vy v - b_yz b * vz v) / vy (b_L b) in
  let s := (vx v - b_xy b * (vy v - b_yz b * vz v) - b_xz b * vz v) / vx (b_L b) in
  v = comb b s t u.
Proof.
  intros (Hx & Hy & Hz & _) E. specialize (Hz E). cbv zeta.
  unfold comb, a1, a2, a3. destruct v as [x y z]. vec_ext; field; auto.
Qed.

Lemma comb_of_vec_ex b v :
  nonsingular b -> b_2d b = false -> exists s t u, v = comb b s t u.
Proof. intros H E. do 3 eexists. exact (comb_of_vec b v H E). Qed.

Lemma attained b g p d :
  positive b -> b_2d b = false -> 0 < p -> p * norm g = 1 ->
  exists v, dot g v = d /\ norm v = Rabs d * p.
Proof.
  intros Hp E2 Pp Hg. exists (vscale (d * p * p) g).
  assert (Hgg : dot g g = / (p * p)).
  { rewrite <- norm_sq. assert (norm g = / p) by (apply Rmult_eq_reg_l with p; [rewrite Hg; field; lra|lra]).
    rewrite H. field. lra. }
  split.
  - replace (dot g (vscale (d * p * p) g)) with (d * p * p * dot g g) by (unfold dot; simpl; ring).
    rewrite Hgg. field. lra.
  - unfold norm.
    replace (dot (vscale (d * p * p) g) (vscale (d * p * p) g)) with ((d * p * p) * (d * p * p) * dot g g)
      by (unfold dot; simpl; ring).
    rewrite Hgg. replace (d * p * p * (d * p * p) * / (p * p)) with ((d * p) * (d * p)) by (field; lra).
    fold (Rsqr (d * p)). rewrite sqrt_Rsqr_abs. rewrite Rabs_mult, (Rabs_right p) by lra. reflexivity.
Qed.

Lemma plane_attained b d :
  positive b -> b_2d b = false ->
  (exists s t u, s = d /\ norm (comb b s t u) = Rabs d * vx (plane_distance b)) /\
  (exists s t u, t = d /\ norm (comb b s t u) = Rabs d * vy (plane_distance b)) /\
  (exists s t u, u = d /\ norm (comb b s t u) = Rabs d * vz (plane_distance b)).
Proof.
  intros Hp E2. pose proof (plane_pos b Hp) as (Px & Py & Pz). specialize (Pz E2).
  assert (H := Hp). destruct H as (H & Lx & Ly & Lz). specialize (Lz E2).
  split; [|split].
  - destruct (attained b (grad b 0) _ d Hp E2 Px (norm_grad_0 b Lx)) as (v & Ed & En).
    destruct (comb_of_vec_ex b v H E2) as (s & t & u & Ev). rewrite Ev in Ed, En.
    exists s, t, u. split; auto. rewrite dot_grad_comb_0 in Ed by lra. auto.
  - destruct (attained b (grad b 1) _ d Hp E2 Py (norm_grad_1 b Ly)) as (v & Ed & En).
    destruct (comb_of_vec_ex b v H E2) as (s & t & u & Ev). rewrite Ev in Ed, En.
    exists s, t, u. split; auto. rewrite dot_grad_comb_1 in Ed by lra. auto.
  - destruct (attained b (grad b 2) _ d Hp E2 Pz (norm_grad_2 b Lz)) as (v & Ed & En).
    destruct (comb_of_vec_ex b v H E2) as (s & t & u & Ev). rewrite Ev in Ed, En.
    exists s, t, u. split; auto. rewrite dot_grad_comb_2 in Ed by lra. auto.
Qed.

(** ** Distances *)

Lemma distance_lattice_invariant b p q p' q' :
  nonsingular b -> in_space b p -> in_space b q -> image_of b p' p -> image_of b q' q ->
  compute_distance b p' q' = compute_distance b p q.
Proof.
  intros H Hp Hq Ip Iq. unfold compute_distance. f_equal.
  apply wrap_congruent; auto.
  - intros E; simpl. rewrite Hp, Hq by auto. ring.
  - destruct Ip as (i & j & k & (A & B & C & D) & E), Iq as (i' & j' & k' & (A' & B' & C' & D') & E').
    exists (i' - i)%Z, (j' - j)%Z, (k' - k)%Z. split.
    + repeat split; intros; [rewrite A, A'|rewrite B, B'|rewrite C, C'|rewrite D, D']; auto.
    + rewrite E, E'. unfold shift, comb. rewrite !minus_IZR. vec_ring.
Qed.

(** Centred representative of a displacement coordinate. *)
Definition centred (p : bool) (s : R) : R := wrapped p (s + 1/2) - 1/2.

Lemma wrap_comb b s t u :
  nonsingular b -> wrap b (comb b s t u) = comb b (centred (b_px b) s) (centred (b_py b) t) (centred (b_pz b) u).
Proof.
  intros H. rewrite comb_cell_point, wrap_cell by auto. reflexivity.
Qed.

Definition half_integer (s : R) : Prop := exists n : Z, s = IZR n + 1/2.

Lemma centred_opp p s : (p = true -> ~ half_integer s) -> centred p (- s) = - centred p s.
Proof.
  intros H. unfold centred, wrapped. destruct p; [|ring]. specialize (H eq_refl).
  pose proof (Zfloor_bounds (s + 1/2)) as Hf.
  set (n := Zfloor (s + 1/2)) in *.
  assert (Hne : s + 1/2 <> IZR n).
  { intros E. apply H. exists (n - 1)%Z. rewrite minus_IZR. lra. }
  rewrite (Zfloor_uniq (- s + 1/2) (- n)); rewrite opp_IZR; lra.
Qed.

Lemma centred_half s : half_integer s -> centred true s = -(1/2) /\ centred true (- s) = -(1/2).
Proof.
  intros (n & ->). unfold centred, wrapped. split.
  - rewrite (Zfloor_uniq _ (n + 1)); rewrite plus_IZR; lra.
  - rewrite (Zfloor_uniq _ (- n)); rewrite opp_IZR; lra.
Qed.

Lemma centred_sq p s : centred p (- s) * centred p (- s) = centred p s * centred p s.
Proof.
  destruct p.
  - destruct (Classical_Prop.classic (half_integer s)) as [Hh|Hh].
    + destruct (centred_half s Hh) as [-> ->]. ring.
    + rewrite centred_opp by auto. ring.
  - unfold centred, wrapped. ring.
Qed.

Definition orthorhombic (b : box) : Prop := b_xy b = 0 /\ b_xz b = 0 /\ b_yz b = 0.

(** Displacement coordinates of a separation are not on a cell face in any periodic direction. *)
Definition off_half_cells (b : box) (v : vec3) : Prop :=
  let f := make_fractional b v in
  (b_px b = true -> forall n, vx f <> IZR n) /\ (b_py b = true -> forall n, vy f <> IZR n) /\
  (b_pz b = true -> b_2d b = false -> forall n, vz f <> IZR n).

Lemma norm_comb_opp b s t u : norm (comb b (- s) (- t) (- u)) = norm (comb b s t u).
Proof. unfold norm. f_equal. unfold dot, comb; simpl. ring. Qed.

Lemma distance_sym_off b p q :
  nonsingular b -> in_space b p -> in_space b q -> off_half_cells b (vsub q p) ->
  compute_distance b p q = compute_distance b q p.
Proof.
  intros H Hp Hq (Fx & Fy & Fz). unfold compute_distance.
  assert (Hs : in_space b (vsub q p)) by (intros E; simpl; rewrite Hp, Hq by auto; ring).
  destruct (comb_coords b _ H Hs) as (s & t & u & Ev & Hu).
  assert (Ev' : vsub p q = comb b (- s) (- t) (- u)).
  { transitivity (vneg (vsub q p)); [vec_ring|]. rewrite Ev. unfold comb. vec_ring. }
  rewrite Ev in *. rewrite Ev'.
  rewrite comb_cell_point, make_fractional_cell in Fx, Fy, Fz by auto. cbn [vx vy vz] in *.
  rewrite !wrap_comb by auto.
  rewrite (centred_opp (b_px b) s), (centred_opp (b_py b) t).
  - destruct (b_2d b) eqn:E2.
    + assert (Hc : centred (b_pz b) 0 = 0).
      { unfold centred, wrapped. destruct (b_pz b); [|lra]. rewrite (Zfloor_uniq _ 0); simpl; lra. }
      rewrite (Hu eq_refl). rewrite Ropp_0, Hc. rewrite <- Ropp_0 at 2. rewrite norm_comb_opp. reflexivity.
    + rewrite centred_opp.
      * rewrite norm_comb_opp; reflexivity.
      * intros E (n & En). apply (Fz E eq_refl (n + 1)%Z). rewrite plus_IZR. lra.
  - intros E (n & En). apply (Fy E (n + 1)%Z). rewrite plus_IZR. lra.
  - intros E (n & En). apply (Fx E (n + 1)%Z). rewrite plus_IZR. lra.
Qed.

Lemma distance_sym_ortho b p q :
  nonsingular b -> in_space b p -> in_space b q -> orthorhombic b ->
  compute_distance b p q = compute_distance b q p.
Proof.
  intros H Hp Hq (Oxy & Oxz & Oyz). unfold compute_distance.
  assert (Hs : in_space b (vsub q p)) by (intros E; simpl; rewrite Hp, Hq by auto; ring).
  destruct (comb_coords b _ H Hs) as (s & t & u & Ev & Hu).
  assert (Ev' : vsub p q = comb b (- s) (- t) (- u)).
  { transitivity (vneg (vsub q p)); [vec_ring|]. rewrite Ev. unfold comb. vec_ring. }
  rewrite Ev, Ev'. rewrite !wrap_comb by auto. unfold norm. f_equal.
  assert (G : forall s t u, dot (comb b s t u) (comb b s t u) =
     s * s * (vx (b_L b) * vx (b_L b)) + t * t * (vy (b_L b) * vy (b_L b)) + u * u * (vz (b_L b) * vz (b_L b))).
  { intros. unfold dot, comb, a1, a2, a3; simpl. rewrite Oxy, Oxz, Oyz. ring. }
  rewrite !G, !centred_sq. reflexivity.
Qed.

(** Refutation of symmetry in a tilted box: separation exactly on a face. *)
Lemma distance_sym_refuted :
  let b := mk_box 2 2 2 (1/2) 0 0 false in
  let p := V3 0 0 0 in let q := V3 (5/4) (1/2) 0 in
  positive b /\ fully_periodic b /\ compute_distance b p q <> compute_distance b q p.
Proof.
  cbv zeta. set (b := mk_box 2 2 2 (1/2) 0 0 false).
  assert (Hb : positive b) by (apply mk_box_positive; intros; lra).
  assert (H := Hb). destruct H as (H & _).
  split; auto. split; [repeat split|].
  assert (E1 : vsub (V3 (5/4) (1/2) 0) (V3 0 0 0) = comb b (1/2) (1/4) 0).
  { unfold comb, b; vec_ext; lra. }
  assert (E2 : vsub (V3 0 0 0) (V3 (5/4) (1/2) 0) = comb b (- (1/2)) (- (1/4)) 0).
  { unfold comb, b; vec_ext; lra. }
  unfold compute_distance. rewrite E1, E2. rewrite !wrap_comb by auto.
  assert (C0 : centred true 0 = 0).
  { unfold centred, wrapped. rewrite (Zfloor_uniq _ 0); simpl; lra. }
  assert (C1 : centred true (1/4) = 1/4).
  { unfold centred, wrapped. rewrite (Zfloor_uniq _ 0); simpl; lra. }
  assert (C2 : centred true (-(1/4)) = -(1/4)).
  { unfold centred, wrapped. rewrite (Zfloor_uniq _ 0); simpl; lra. }
  assert (Hh : half_integer (1/2)) by (exists 0%Z; simpl; lra).
  destruct (centred_half _ Hh) as [C3 C4].
  replace (b_px b) with true by reflexivity. replace (b_py b) with true by reflexivity.
  replace (b_pz b) with true by reflexivity. rewrite C0, C1, C2, C3, C4.
  unfold norm. intros E. apply sqrt_inj in E.
  - unfold dot, comb, b in E; simpl in E. lra.
  - apply dot_nonneg.
  - apply dot_nonneg.
Qed.

(** ** Setters (attribute assignment in Python) *)

(** A box freshly constructed from the parameters that [b] reports. *)
Definition fresh_like (b : box) : box :=
  set_periodic (mk_box (vx (b_L b)) (vy (b_L b)) (vz (b_L b)) (b_xy b) (b_xz b) (b_yz b) (b_2d b))
               (b_px b) (b_py b) (b_pz b).

(* box.py:86-181, 570-603  attribute setters *)
Inductive setter :=
| SetL (Lx Ly Lz : R) | SetXY (t : R) | SetXZ (t : R) | SetYZ (t : R)
| SetPeriodic (x y z : bool) | SetDimensions (is2d : bool).

Definition apply_setter (b : box) (s : setter) : box :=
  match s with
  | SetL x y z => set_L b x y z
  | SetXY t => set_xy b t | SetXZ t => set_xz b t | SetYZ t => set_yz b t
  | SetPeriodic x y z => set_periodic b x y z
  | SetDimensions d => set_2d b d
  end.

Definition is_dimension_setter (s : setter) : bool := match s with SetDimensions _ => true | _ => false end.

Lemma setters_fresh ops : forall b,
  b = fresh_like b -> existsb is_dimension_setter ops = false ->
  fold_left apply_setter ops b = fresh_like (fold_left apply_setter ops b).
Proof.
  induction ops as [|o ops IH]; simpl; intros b Hb E; auto.
  apply orb_false_iff in E as [E1 E2]. apply IH; auto.
  destruct_box b. unfold fresh_like in *; simpl in *. unfold mk_box, set_L, set_periodic in *; simpl in *.
  destruct o; simpl in *; try discriminate;
    unfold set_xy, set_xz, set_yz, set_periodic, set_L in *; simpl in *;
    destruct is2d; simpl in *; injection Hb; intros; subst; reflexivity.
Qed.

Lemma mk_box_fresh Lx Ly Lz xy xz yz is2d :
  mk_box Lx Ly Lz xy xz yz is2d = fresh_like (mk_box Lx Ly Lz xy xz yz is2d).
Proof. unfold fresh_like, mk_box, set_L, set_periodic; destruct is2d; reflexivity. Qed.

(** Assigning lengths repairs the origin even after a dimension change. *)
Lemma set_L_fresh b x y z : set_L b x y z = fresh_like (set_L b x y z).
Proof. unfold fresh_like, mk_box, set_L, set_periodic; destruct (b_2d b); reflexivity. Qed.

(** Switching to 2D is harmless when there is no z tilt: same wrap and coordinates as a fresh 2D box. *)
Lemma set_2d_no_tilt b :
  b = fresh_like b -> b_xz b = 0 -> b_yz b = 0 -> forall v,
  make_absolute (set_2d b true) v = make_absolute (fresh_like (set_2d b true)) v /\
  (vz v = 0 -> make_fractional (set_2d b true) v = make_fractional (fresh_like (set_2d b true)) v).
Proof.
  intros Hb Exz Eyz v.
  pose proof (f_equal (fun b => vx (b_lo b)) Hb) as E1. pose proof (f_equal (fun b => vy (b_lo b)) Hb) as E2.
  clear Hb. cbv beta in E1, E2.
  assert (F1 : vx (b_lo b) = - (1 / 2 * vx (b_L b))) by (rewrite E1; destruct (b_2d b) eqn:E; unfold fresh_like, mk_box, set_L; simpl; rewrite E; reflexivity).
  assert (F2 : vy (b_lo b) = - (1 / 2 * vy (b_L b))) by (rewrite E2; destruct (b_2d b) eqn:E; unfold fresh_like, mk_box, set_L; simpl; rewrite E; reflexivity).
  clear E1 E2. destruct_box b. simpl in *. subst xz yz lox loy. destruct v as [x y z].
  unfold make_absolute, make_fractional. cbn.
  split; intros; vec_ext; try (subst z); auto; try ring; unfold Rdiv; try ring.
Qed.

Lemma set_2d_shift_refuted :
  let b := mk_box 2 2 2 0 1 0 false in
  let b2 := apply_setter b (SetDimensions true) in
  let v := V3 0 0 0 in
  positive b /\ wrap (fresh_like b2) v = v /\ wrap b2 v <> wrap (fresh_like b2) v.
Proof.
  cbv zeta. split; [apply mk_box_positive; intros; lra|].
  set (b2 := apply_setter _ _).
  assert (W : wrap (fresh_like b2) (V3 0 0 0) = V3 0 0 0).
  { apply wrap_fix.
    - unfold b2, nonsingular; cbn. repeat split; try lra; try discriminate. vec_ext; lra.
    - intros _; reflexivity.
    - unfold b2, make_fractional; cbn. repeat split; intros; lra. }
  split; auto. rewrite W. clear W.
  assert (F : make_fractional b2 (V3 0 0 0) = V3 (1/2) (1/2) 0).
  { unfold b2, make_fractional; cbn. vec_ext; lra. }
  unfold wrap. rewrite F. cbn [vx vy vz].
  replace (modulus_positive (1/2) 1) with (1/2) by (rewrite modulus_positive_1, (Zfloor_uniq (1/2) 0) by lra; simpl; lra).
  replace (modulus_positive 0 1) with 0 by (rewrite modulus_positive_1, (Zfloor_uniq 0 0) by lra; simpl; lra).
  intros E. apply (f_equal vx) in E. unfold b2, make_absolute in E. cbn in E. lra.
Qed.

(** Setting [dimensions = 3] on a 3D box zeroes its Lz (Box.h:118-123). *)
Lemma set_2d_false_zero_refuted :
  let b := mk_box 2 2 2 0 0 0 false in
  vz (b_L (apply_setter b (SetDimensions false))) = 0 /\ vz (b_L b) = 2.
Proof. split; reflexivity. Qed.
