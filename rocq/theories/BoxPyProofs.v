From Coq Require Import Permutation.
From Verif Require Import BoxPyModel BoxModel BoxSpec BoxProofs BoxProofs2.

Lemma Reqb_refl x : Reqb x x = true. Proof. apply Reqb_true; auto. Qed.
Lemma Reqb_neq x y : x <> y -> Reqb x y = false. Proof. apply Reqb_false. Qed.

(** The Python constructor accepts exactly the boxes with non-zero lengths. *)
Lemma py_box_some Lx Ly Lz xy xz yz d b :
  py_box Lx Ly Lz xy xz yz d = Some b ->
  b = mk_box Lx Ly Lz xy xz yz (b_2d b) /\ nonsingular b /\ fully_periodic b /\
  b_2d b = match d with Some d => d | None => Reqb Lz 0 end.
Proof.
  unfold py_box. set (two := match d with Some d => d | None => Reqb Lz 0 end). destruct two.
  - destruct (Reqb_spec Lx 0), (Reqb_spec Ly 0); simpl; try discriminate. intros E; injection E as <-.
    split; [reflexivity|]. split; [apply mk_box_nonsingular; auto; discriminate|].
    split; [repeat split|reflexivity].
  - destruct (Reqb_spec Lx 0), (Reqb_spec Ly 0), (Reqb_spec Lz 0); simpl; try discriminate.
    intros E; injection E as <-.
    split; [reflexivity|]. split; [apply mk_box_nonsingular; auto|].
    split; [repeat split|reflexivity].
Qed.

Lemma py_box_none Lx Ly Lz xy xz yz d :
  py_box Lx Ly Lz xy xz yz d = None <->
  (Lx = 0 \/ Ly = 0 \/ (Lz = 0 /\ d = Some false)).
Proof.
  unfold py_box. destruct d as [[|]|].
  - destruct (Reqb_spec Lx 0), (Reqb_spec Ly 0); simpl; split; intros; auto; try discriminate.
    destruct H as [?|[?|[_ ?]]]; try contradiction; discriminate.
  - destruct (Reqb_spec Lx 0), (Reqb_spec Ly 0), (Reqb_spec Lz 0); simpl; split; intros; auto; try discriminate.
    destruct H as [?|[?|[? _]]]; contradiction.
  - destruct (Reqb_spec Lz 0) as [Ez|Ez].
    + destruct (Reqb_spec Lx 0), (Reqb_spec Ly 0); simpl; split; intros; auto; try discriminate.
      destruct H as [?|[?|[_ ?]]]; try contradiction; discriminate.
    + destruct (Reqb_spec Lx 0), (Reqb_spec Ly 0); simpl; split; intros; auto; try discriminate.
      destruct H as [?|[?|[? _]]]; contradiction.
Qed.

Lemma py_box_3d Lx Ly Lz xy xz yz :
  Lx <> 0 -> Ly <> 0 -> Lz <> 0 -> py_box Lx Ly Lz xy xz yz (Some false) = Some (mk_box Lx Ly Lz xy xz yz false).
Proof. intros. unfold py_box. rewrite !Reqb_neq by auto. reflexivity. Qed.
Lemma py_box_2d Lx Ly Lz xy xz yz :
  Lx <> 0 -> Ly <> 0 -> py_box Lx Ly Lz xy xz yz (Some true) = Some (mk_box Lx Ly Lz xy xz yz true).
Proof. intros. unfold py_box. rewrite !Reqb_neq by auto. reflexivity. Qed.

(** from_box of a freud box: everything but the periodic flags. *)
Lemma from_box_spec b :
  nonsingular b ->
  exists r, from_box b None = Some r /\
    py_eq r (set_periodic b true true true).
Proof.
  intros (Hx & Hy & Hz & H2 & _). unfold from_box, dimensions.
  destruct (b_2d b) eqn:E; cbn [Nat.eqb].
  - rewrite py_box_2d by auto. eexists; split; [reflexivity|].
    unfold py_eq; simpl. rewrite E. repeat split. rewrite <- (H2 eq_refl). destruct (b_L b); reflexivity.
  - rewrite py_box_3d by auto. eexists; split; [reflexivity|].
    unfold py_eq; simpl. rewrite E. repeat split. destruct (b_L b); reflexivity.
Qed.

Lemma from_box_roundtrip b :
  nonsingular b -> fully_periodic b -> exists r, from_box b None = Some r /\ py_eq r b.
Proof.
  intros H (Px & Py & Pz). destruct (from_box_spec b H) as (r & E & Hr). exists r; split; auto.
  unfold py_eq in *; simpl in *. rewrite Px, Py, Pz. auto.
Qed.

Lemma from_box_periodic_refuted :
  exists b r, positive b /\ from_box b None = Some r /\ ~ py_eq r b.
Proof.
  exists (set_periodic (mk_box 2 2 2 0 0 0 false) false true true).
  assert (H : positive (set_periodic (mk_box 2 2 2 0 0 0 false) false true true)).
  { apply set_periodic_positive, mk_box_positive; intros; lra. }
  assert (Hn := H). destruct Hn as (Hn & _).
  destruct (from_box_spec _ Hn) as (r & E & Hr). exists r. split; auto. split; auto.
  intros Hq. unfold py_eq in *; simpl in *.
  destruct Hr as (_ & _ & _ & _ & _ & P & _), Hq as (_ & _ & _ & _ & _ & Q & _). congruence.
Qed.

(** A dimension argument that contradicts the box is rejected. *)
Lemma from_box_conflict b d : d <> dimensions b -> from_box b (Some d) = None.
Proof. intros H. unfold from_box. apply Nat.eqb_neq in H. rewrite H. reflexivity. Qed.

Lemma box_from_cpp_roundtrip b : nonsingular b -> exists r, box_from_cpp b = Some r /\ py_eq r b.
Proof.
  intros (Hx & Hy & Hz & H2 & _). unfold box_from_cpp.
  destruct (b_2d b) eqn:E; cbn [Nat.eqb].
  - rewrite py_box_2d by auto. eexists; split; [reflexivity|].
    unfold py_eq; simpl. rewrite E. repeat split. rewrite <- (H2 eq_refl). destruct (b_L b); reflexivity.
  - rewrite py_box_3d by auto. eexists; split; [reflexivity|].
    unfold py_eq; simpl. rewrite E. repeat split. destruct (b_L b); reflexivity.
Qed.

Lemma py_mul_spec b s :
  nonsingular b ->
  (0 < s -> exists r, py_mul b s = Some r /\
     py_eq r (set_periodic (mk_box (s * vx (b_L b)) (s * vy (b_L b)) (s * vz (b_L b)) (b_xy b) (b_xz b) (b_yz b) (b_2d b)) true true true)
     /\ volume r = (if b_2d b then s * s else s * s * s) * volume b) /\
  (s <= 0 -> py_mul b s = None).
Proof.
  intros (Hx & Hy & Hz & H2 & _). unfold py_mul. split; intros Hs.
  - rewrite (proj2 (Rltb_true 0 s) Hs).
    destruct (b_2d b) eqn:E.
    + rewrite py_box_2d by (apply Rmult_integral_contrapositive; split; auto; lra).
      eexists; split; [reflexivity|]. split.
      * unfold py_eq, mk_box, set_L; simpl. repeat split. f_equal; ring.
      * unfold volume; simpl. rewrite E. ring.
    + rewrite py_box_3d by (apply Rmult_integral_contrapositive; split; auto; lra).
      eexists; split; [reflexivity|]. split.
      * unfold py_eq, mk_box, set_L; simpl. repeat split. f_equal; ring.
      * unfold volume; simpl. rewrite E. ring.
  - rewrite (proj2 (Rltb_false 0 s) Hs). reflexivity.
Qed.

(** ** from_matrix (to_matrix b) *)

Lemma sqrt_sq_pos x : 0 < x -> sqrt (x * x) = x.
Proof. intros. apply sqrt_square. lra. Qed.

Lemma from_matrix_core b d :
  0 < vx (b_L b) -> 0 < vy (b_L b) ->
  from_matrix (to_matrix b) d =
  (let L := b_L b in
   py_box (vx L) (vy L) (vz L) (b_xy b) (if Reqb (vz L) 0 then 0 else b_xz b)
          (if Reqb (vz L) 0 then 0 else b_yz b)
          (Some (Nat.eqb (match d with Some d => d | None => if Reqb (vz L) 0 then 2%nat else 3%nat end) 2))).
Proof.
  intros Hx Hy. destruct_box b; simpl in *. unfold from_matrix, to_matrix; simpl.
  unfold dot, cross; simpl.
  set (E1 := Lx * Lx + 0 * 0 + 0 * 0). assert (E1e : sqrt E1 = Lx).
  { replace E1 with (Lx * Lx) by (unfold E1; ring). apply sqrt_sq_pos; auto. }
  rewrite E1e.
  assert (A2 : (Lx * (xy * Ly) + 0 * Ly + 0 * 0) / Lx = xy * Ly) by (field; lra).
  rewrite A2.
  assert (E2e : sqrt (xy * Ly * (xy * Ly) + Ly * Ly + 0 * 0 - xy * Ly * (xy * Ly)) = Ly).
  { match goal with |- sqrt ?z = _ => replace z with (Ly * Ly) by ring end. apply sqrt_sq_pos; auto. }
  rewrite E2e.
  assert (Exy : xy * Ly / Ly = xy) by (field; lra). rewrite Exy.
  match goal with |- context [sqrt ?z] => assert (Em : sqrt z = Lx * Ly) end.
  { match goal with |- sqrt ?z = _ => replace z with ((Lx * Ly) * (Lx * Ly)) by ring end.
    apply sqrt_sq_pos. nra. }
  rewrite Em.
  match goal with |- context [?n / (Lx * Ly)] => assert (Ez : n / (Lx * Ly) = Lz) by (field; lra) end.
  rewrite Ez.
  destruct (Reqb_spec Lz 0) as [E0|E0]; [reflexivity|].
  f_equal; field; lra.
Qed.

Lemma from_matrix_roundtrip_3d b :
  positive b -> b_2d b = false -> fully_periodic b ->
  exists r, from_matrix (to_matrix b) None = Some r /\ py_eq r b.
Proof.
  intros (H & Hx & Hy & Hz) E (Px & Py & Pz). specialize (Hz E).
  rewrite from_matrix_core by auto. cbv zeta.
  rewrite (Reqb_neq (vz (b_L b)) 0) by lra. cbn [Nat.eqb].
  rewrite py_box_3d by lra. eexists; split; [reflexivity|].
  unfold py_eq; simpl. rewrite E, Px, Py, Pz. repeat split. destruct (b_L b); reflexivity.
Qed.

Lemma from_matrix_roundtrip_2d b :
  positive b -> b_2d b = true -> fully_periodic b -> b_xz b = 0 -> b_yz b = 0 ->
  exists r, from_matrix (to_matrix b) None = Some r /\ py_eq r b.
Proof.
  intros (H & Hx & Hy & Hz) E (Px & Py & Pz) Exz Eyz. destruct H as (_ & _ & _ & H2 & _).
  rewrite from_matrix_core by auto. cbv zeta. rewrite (H2 E), Reqb_refl. cbn [Nat.eqb].
  rewrite py_box_2d by lra. eexists; split; [reflexivity|].
  unfold py_eq; simpl. rewrite E, Px, Py, Pz, Exz, Eyz. repeat split.
  rewrite <- (H2 E). destruct (b_L b); reflexivity.
Qed.

(** ** lengths and angles *)

Lemma pow2_mul x : x ^ 2 = x * x. Proof. ring. Qed.

Lemma ratio_bounds p q r : 0 < r -> r * r = p * p + q * q -> 0 < q -> -1 < p / r < 1.
Proof.
  intros Hr E Hq. assert (Hp : - r < p < r).
  { split; nra. }
  split.
  - apply Rmult_lt_reg_r with r; auto. replace (p / r * r) with p by (field; lra). lra.
  - apply Rmult_lt_reg_r with r; auto. replace (p / r * r) with p by (field; lra). lra.
Qed.

Lemma acos_range_open x : -1 < x < 1 -> 0 < acos x < PI.
Proof. intros. apply acos_bound_lt; auto. Qed.

Lemma lengths_angles_roundtrip b :
  positive b -> b_2d b = false -> fully_periodic b ->
  exists r,
    (let '(L1, L2, L3, al, be, ga) := to_lengths_and_angles b in
     from_lengths_and_angles L1 L2 L3 al be ga None) = Some r /\ py_eq r b.
Proof.
  intros Hp E Hf. assert (Hp' := Hp). destruct Hp' as (H & Hx & Hy & Hz). specialize (Hz E).
  unfold to_lengths_and_angles. set (xy := b_xy b). set (xz := b_xz b). set (yz := b_yz b).
  set (L := b_L b) in *.
  set (g := sqrt (1 + xy ^ 2)). set (h := sqrt (1 + xz ^ 2 + yz ^ 2)).
  assert (Hg2 : g * g = 1 + xy * xy) by (unfold g; rewrite sqrt_sqrt; nra).
  assert (Hh2 : h * h = 1 + xz * xz + yz * yz) by (unfold h; rewrite sqrt_sqrt; nra).
  assert (Hg : 0 < g) by (apply sqrt_lt_R0; nra).
  assert (Hh : 0 < h) by (apply sqrt_lt_R0; nra).
  assert (Bga : -1 < xy / g < 1) by (apply ratio_bounds with 1; lra).
  assert (Bbe : -1 < xz / h < 1).
  { apply ratio_bounds with (sqrt (1 + yz * yz)); auto; [|apply sqrt_lt_R0; nra].
    rewrite sqrt_sqrt by nra. lra. }
  assert (Bal : -1 < (xy * xz + yz) / (g * h) < 1).
  { assert (Q : 0 < 1 + xy * xy + (xy * yz - xz) * (xy * yz - xz)).
    { pose proof (Rle_0_sqr xy). pose proof (Rle_0_sqr (xy * yz - xz)). unfold Rsqr in *. lra. }
    apply ratio_bounds with (sqrt (1 + xy * xy + (xy * yz - xz) * (xy * yz - xz))); [nra| |].
    - rewrite sqrt_sqrt by lra.
      replace (g * h * (g * h)) with ((g * g) * (h * h)) by ring. rewrite Hg2, Hh2. ring.
    - apply sqrt_lt_R0; auto. }
  unfold from_lengths_and_angles.
  pose proof (acos_range_open _ Bga) as Rga. pose proof (acos_range_open _ Bbe) as Rbe.
  pose proof (acos_range_open _ Bal) as Ral.
  rewrite !(proj2 (Rltb_true 0 _)) by lra. rewrite !(proj2 (Rltb_true _ PI)) by lra.
  cbn [andb orb negb].
  rewrite !cos_acos by lra. rewrite sin_acos by lra.
  assert (Sg : sqrt (1 - (xy / g)²) = 1 / g).
  { replace (1 - (xy / g)²) with ((1 / g) * (1 / g)).
    - apply sqrt_square. apply Rlt_le, Rdiv_lt_0_compat; lra.
    - unfold Rsqr. replace (1 / g * (1 / g)) with (1 / (g * g)) by (field; lra).
      replace (xy / g * (xy / g)) with (xy * xy / (g * g)) by (field; lra). rewrite Hg2. field. nra. }
  rewrite Sg.
  assert (A3y : ((xy * xz + yz) / (g * h) - xz / h * (xy / g)) / (1 / g) = yz / h) by (field; lra).
  rewrite A3y.
  assert (Un : 1 - (xz / h) ^ 2 - (yz / h) ^ 2 = (1 / h) * (1 / h)).
  { replace (1 - (xz / h) ^ 2 - (yz / h) ^ 2) with ((h * h - xz * xz - yz * yz) / (h * h)) by (field; lra).
    rewrite Hh2 at 1. field; lra. }
  rewrite Un. assert (0 < 1 / h) by (apply Rdiv_lt_0_compat; lra).
  rewrite (proj2 (Rltb_false _ 0)) by nra. rewrite sqrt_square by lra.
  assert (N2 : norm (V3 (vy L * xy) (vy L) 0) = vy L * g).
  { unfold norm, dot; simpl. replace (vy L * xy * (vy L * xy) + vy L * vy L + 0 * 0) with ((vy L * g) * (vy L * g)).
    - apply sqrt_square. nra.
    - replace (vy L * g * (vy L * g)) with (vy L * vy L * (g * g)) by ring. rewrite Hg2. ring. }
  assert (N3 : norm (V3 (vz L * xz) (vz L * yz) (vz L)) = vz L * h).
  { unfold norm, dot; simpl.
    replace (vz L * xz * (vz L * xz) + vz L * yz * (vz L * yz) + vz L * vz L) with ((vz L * h) * (vz L * h)).
    - apply sqrt_square. nra.
    - replace (vz L * h * (vz L * h)) with (vz L * vz L * (h * h)) by ring. rewrite Hh2. ring. }
  rewrite N2, N3. rewrite (Reqb_neq (vz L * h) 0) by nra.
  assert (M : (V3 (vx L) 0 0, V3 (vy L * g * (xy / g)) (vy L * g * (1 / g)) 0,
               V3 (vz L * h * (xz / h)) (vz L * h * (yz / h)) (vz L * h * (1 / h))) = to_matrix b).
  { unfold to_matrix. fold L xy xz yz. f_equal; [f_equal|]; vec_ext; try field; lra. }
  rewrite M. rewrite from_matrix_core by auto. cbv zeta. fold L.
  rewrite (Reqb_neq (vz L) 0) by lra. cbn [Nat.eqb].
  rewrite py_box_3d by lra. eexists; split; [reflexivity|].
  destruct Hf as (Px & Py & Pz).
  unfold py_eq; simpl. fold L xy xz yz. rewrite E, Px, Py, Pz. repeat split. destruct L; reflexivity.
Qed.

(** ** Center of mass *)

Lemma atan2_polar y x :
  (x <> 0 \/ y <> 0) -> exists r, 0 < r /\ x = r * cos (atan2 y x) /\ y = r * sin (atan2 y x).
Proof.
  intros H. exists (sqrt (x * x + y * y)).
  assert (Hpos : 0 < x * x + y * y) by (destruct H; nra).
  split; [apply sqrt_lt_R0; auto|].
  unfold atan2.
  assert (G : forall x y, 0 < x -> x = sqrt (x * x + y * y) * cos (atan (y / x)) /\
                               y = sqrt (x * x + y * y) * sin (atan (y / x))).
  { clear. intros x y Hx. rewrite cos_atan, sin_atan.
    assert (S : sqrt (x * x + y * y) = x * sqrt (1 + (y / x)²)).
    { replace (x * x + y * y) with (x * x * (1 + (y / x)²)) by (unfold Rsqr; field; lra).
      rewrite sqrt_mult; [|nra|pose proof (Rle_0_sqr (y / x)); lra].
      rewrite sqrt_square by lra. reflexivity. }
    assert (0 < sqrt (1 + (y / x)²)) by (apply sqrt_lt_R0; pose proof (Rle_0_sqr (y / x)); lra).
    rewrite S. split; field; lra. }
  destruct (Rltb_spec 0 x) as [Hx|Hx]; [apply G; auto|].
  destruct (Rltb_spec x 0) as [Hx'|Hx'].
  - destruct (G (- x) (- y)) as [G1 G2]; [lra|].
    replace (- y / - x) with (y / x) in G1, G2 by (field; lra).
    replace (- x * - x + - y * - y) with (x * x + y * y) in G1, G2 by ring.
    destruct (Rleb_spec 0 y).
    + rewrite neg_cos, neg_sin. lra.
    + unfold Rminus at 1 2. rewrite cos_plus, sin_plus, cos_neg, sin_neg, cos_PI, sin_PI. lra.
  - assert (x = 0) by lra. subst x. replace (0 * 0 + y * y) with (y * y) by ring.
    destruct (Rltb_spec 0 y); [|destruct (Rltb_spec y 0)].
    + rewrite cos_PI2, sin_PI2, sqrt_square by lra. lra.
    + rewrite cos_neg, sin_neg, cos_PI2, sin_PI2.
      replace (y * y) with (- y * - y) by ring. rewrite sqrt_square by lra. lra.
    + exfalso. nra.
Qed.

Lemma polar_unique r r' a a' :
  0 < r -> 0 < r' -> r * cos a = r' * cos a' -> r * sin a = r' * sin a' ->
  exists n : Z, a = a' + 2 * PI * IZR n.
Proof.
  intros Hr Hr' Ec Es.
  assert (Err : r = r').
  { pose proof (sin2_cos2 a) as Sa. pose proof (sin2_cos2 a') as Sa'. unfold Rsqr in *.
    assert (r * r = r' * r').
    { replace (r * r) with ((r * cos a) * (r * cos a) + (r * sin a) * (r * sin a)).
      - rewrite Ec, Es. replace (r' * cos a' * (r' * cos a') + r' * sin a' * (r' * sin a'))
          with (r' * r' * (sin a' * sin a' + cos a' * cos a')) by ring. rewrite Sa'. ring.
      - replace (r * cos a * (r * cos a) + r * sin a * (r * sin a))
          with (r * r * (sin a * sin a + cos a * cos a)) by ring. rewrite Sa. ring. }
    nra. }
  subst r'. apply Rmult_eq_reg_l in Ec; [|lra]. apply Rmult_eq_reg_l in Es; [|lra].
  assert (C : cos (a - a') = 1).
  { rewrite cos_minus, Ec, Es. pose proof (sin2_cos2 a'). unfold Rsqr in *. lra. }
  (* cos d = 1 -> sin (d/2) = 0 *)
  assert (S : sin ((a - a') / 2) = 0).
  { assert (C2 : cos (2 * ((a - a') / 2)) = 1) by (replace (2 * ((a - a') / 2)) with (a - a') by field; auto).
    rewrite cos_2a_sin in C2. nra. }
  destruct (sin_eq_0_0 _ S) as (n & Hn). exists n. lra.
Qed.

Lemma cos_period_Z x n : cos (x + 2 * PI * IZR n) = cos x.
Proof.
  destruct (Z_le_gt_dec 0 n) as [Hn|Hn].
  - rewrite <- (cos_period x (Z.to_nat n)). f_equal. rewrite INR_IZR_INZ, Z2Nat.id by lia. ring.
  - rewrite <- (cos_period (x + 2 * PI * IZR n) (Z.to_nat (- n))). f_equal.
    rewrite INR_IZR_INZ, Z2Nat.id by lia. rewrite opp_IZR. ring.
Qed.
Lemma sin_period_Z x n : sin (x + 2 * PI * IZR n) = sin x.
Proof.
  destruct (Z_le_gt_dec 0 n) as [Hn|Hn].
  - rewrite <- (sin_period x (Z.to_nat n)). f_equal. rewrite INR_IZR_INZ, Z2Nat.id by lia. ring.
  - rewrite <- (sin_period (x + 2 * PI * IZR n) (Z.to_nat (- n))). f_equal.
    rewrite INR_IZR_INZ, Z2Nat.id by lia. rewrite opp_IZR. ring.
Qed.

Lemma atan2_scale k y x : 0 < k -> atan2 (k * y) (k * x) = atan2 y x.
Proof.
  intros Hk. unfold atan2.
  assert (D : k * x <> 0 -> k * y / (k * x) = y / x) by (intros; field; split; [intros ->; apply H; ring|lra]).
  assert (P1 : Rltb 0 (k * x) = Rltb 0 x).
  { destruct (Rltb_spec 0 x); [apply Rltb_true|apply Rltb_false]; nra. }
  assert (P2 : Rltb (k * x) 0 = Rltb x 0).
  { destruct (Rltb_spec x 0); [apply Rltb_true|apply Rltb_false]; nra. }
  assert (P3 : Rleb 0 (k * y) = Rleb 0 y).
  { destruct (Rleb_spec 0 y); [apply Rleb_true|apply Rleb_false]; nra. }
  assert (P4 : Rltb 0 (k * y) = Rltb 0 y).
  { destruct (Rltb_spec 0 y); [apply Rltb_true|apply Rltb_false]; nra. }
  assert (P5 : Rltb (k * y) 0 = Rltb y 0).
  { destruct (Rltb_spec y 0); [apply Rltb_true|apply Rltb_false]; nra. }
  rewrite P1, P2, P3, P4, P5.
  destruct (Rltb_spec 0 x); [rewrite D by nra; auto|].
  destruct (Rltb_spec x 0); [rewrite D by nra; auto|]. reflexivity.
Qed.

(** Positions replaced by lattice images (any direction, periodic or not). *)
Definition any_image (b : box) (u v : vec3) : Prop :=
  exists i j k, (b_2d b = true -> k = 0%Z) /\ u = vadd v (shift b i j k).

Definition same_up_to_images (b : box) (l l' : list (vec3 * R)) : Prop :=
  Forall2 (fun a a' => any_image b (fst a) (fst a') /\ in_space b (fst a') /\ snd a = snd a') l l'.

Lemma any_image_frac b u v :
  nonsingular b -> in_space b v -> any_image b u v ->
  exists i j k, make_fractional b u =
    V3 (vx (make_fractional b v) + IZR i) (vy (make_fractional b v) + IZR j) (vz (make_fractional b v) + IZR k).
Proof.
  intros H Hs (i & j & k & Hk & E).
  destruct (cell_coords b v H Hs) as (s & t & w & Ev & Ef & Hw).
  exists i, j, k. rewrite Ef; cbn [vx vy vz].
  rewrite E, Ev, cell_point_shift, make_fractional_cell by auto. f_equal.
  destruct (b_2d b) eqn:E2; auto. rewrite Hk, Hw by auto. simpl. ring.
Qed.

Lemma csum_images b coord f l l' :
  nonsingular b -> same_up_to_images b l l' ->
  (coord = vx \/ coord = vy \/ coord = vz) -> (f = cos \/ f = sin) ->
  csum (fun v => f (2 * PI * coord (make_fractional b v))) l =
  csum (fun v => f (2 * PI * coord (make_fractional b v))) l'.
Proof.
  intros H HF Hc Hf. induction HF as [|a a' l l' (Hi & Hs & Hm) HF IH]; simpl; auto.
  rewrite IH, Hm. f_equal. f_equal.
  destruct (any_image_frac b _ _ H Hs Hi) as (i & j & k & E). rewrite E.
  assert (G : forall x n, 2 * PI * (x + IZR n) = 2 * PI * x + 2 * PI * IZR n) by (intros; ring).
  destruct Hc as [->|[->| ->]]; cbn [vx vy vz]; rewrite G; destruct Hf as [->| ->];
    first [apply cos_period_Z|apply sin_period_Z].
Qed.

Lemma total_mass_images b l l' : same_up_to_images b l l' -> total_mass l = total_mass l'.
Proof. intros HF. induction HF as [|a a' l l' (_ & _ & Hm) HF IH]; simpl; auto. rewrite IH, Hm; auto. Qed.

Lemma com_images b l l' :
  nonsingular b -> same_up_to_images b l l' -> center_of_mass b l = center_of_mass b l'.
Proof.
  intros H HF. unfold center_of_mass, mean_phase.
  rewrite (total_mass_images b l l' HF).
  assert (Hx : forall f coord, (coord = vx \/ coord = vy \/ coord = vz) -> (f = cos \/ f = sin) ->
    csum (fun v => f (2 * PI * coord (make_fractional b v))) l =
    csum (fun v => f (2 * PI * coord (make_fractional b v))) l').
  { intros. apply csum_images; auto. }
  rewrite !(Hx cos) by auto. rewrite !(Hx sin) by auto. reflexivity.
Qed.

Lemma csum_perm f l l' : Permutation l l' -> csum f l = csum f l'.
Proof. induction 1; simpl; try lra. Qed.
Lemma total_mass_perm l l' : Permutation l l' -> total_mass l = total_mass l'.
Proof. induction 1; simpl; try lra. Qed.

Lemma com_perm b l l' : Permutation l l' -> center_of_mass b l = center_of_mass b l'.
Proof.
  intros HP. unfold center_of_mass, mean_phase.
  rewrite !(csum_perm _ l l' HP), (total_mass_perm l l' HP). reflexivity.
Qed.

Definition scale_masses (k : R) (l : list (vec3 * R)) := map (fun vm => (fst vm, k * snd vm)) l.

Lemma com_scale b k l : 0 < k -> total_mass l <> 0 -> center_of_mass b (scale_masses k l) = center_of_mass b l.
Proof.
  intros Hk Hm. unfold center_of_mass, mean_phase.
  assert (C : forall f, csum f (scale_masses k l) = k * csum f l).
  { intros f. clear Hm. unfold scale_masses. induction l as [|a l IH]; simpl; [ring|]. rewrite IH. ring. }
  assert (M : total_mass (scale_masses k l) = k * total_mass l).
  { clear. unfold scale_masses. induction l; simpl; [ring|]. rewrite IHl; ring. }
  rewrite !C, M.
  assert (Q : forall z, k * z / (k * total_mass l) = z / total_mass l) by (intros; field; lra).
  rewrite !Q. reflexivity.
Qed.

Lemma com_in_cell b l :
  nonsingular b ->
  let f := make_fractional b (center_of_mass b l) in
  (b_px b = true -> 0 <= vx f < 1) /\ (b_py b = true -> 0 <= vy f < 1) /\ (b_pz b = true -> 0 <= vz f < 1).
Proof.
  intros H. unfold center_of_mass. apply wrap_in_cell; auto.
  rewrite make_absolute_cell by auto. apply cell_point_in_space; auto.
Qed.

(** Coincident points (equivalently one point with any positive mass) in a fully periodic box. *)
Lemma mean_phase_const b coord v l :
  total_mass l > 0 -> (forall a, In a l -> fst a = v) ->
  exists n, mean_phase coord b l = 2 * PI * coord (make_fractional b v) + 2 * PI * IZR n.
Proof.
  intros Hm Hall. unfold mean_phase.
  assert (C : forall f, csum f l = f v * total_mass l).
  { intros f. clear Hm. induction l as [|a l IH]; simpl; [ring|].
    rewrite (Hall a) by (left; auto). rewrite IH; [ring|]. intros; apply Hall; right; auto. }
  rewrite !C. set (p := 2 * PI * coord (make_fractional b v)).
  replace (cos p * total_mass l / total_mass l) with (cos p) by (field; lra).
  replace (sin p * total_mass l / total_mass l) with (sin p) by (field; lra).
  assert (Hne : cos p <> 0 \/ sin p <> 0).
  { destruct (Req_dec (cos p) 0) as [E|E]; [right|left; auto]. intros E'.
    pose proof (sin2_cos2 p) as S. unfold Rsqr in S. rewrite E, E' in S. lra. }
  destruct (atan2_polar (sin p) (cos p) Hne) as (r & Hr & Ec & Es).
  destruct (polar_unique r 1 (atan2 (sin p) (cos p)) p Hr) as (n & En); try lra.
  exists n. exact En.
Qed.

Lemma com_coincident b v l :
  nonsingular b -> fully_periodic b -> in_space b v ->
  total_mass l > 0 -> (forall a, In a l -> fst a = v) ->
  center_of_mass b l = wrap b v.
Proof.
  intros H (Px & Py & Pz) Hs Hm Hall. unfold center_of_mass.
  rewrite make_absolute_cell by auto. cbn [vx vy vz].
  destruct (mean_phase_const b vx v l Hm Hall) as (n1 & E1).
  destruct (mean_phase_const b vy v l Hm Hall) as (n2 & E2).
  destruct (mean_phase_const b vz v l Hm Hall) as (n3 & E3).
  rewrite E1, E2, E3. pose proof PI_RGT_0.
  assert (Q : forall x n, (2 * PI * x + 2 * PI * IZR n) / (2 * PI) = x + IZR n) by (intros; field; lra).
  rewrite !Q.
  destruct (cell_coords b v H Hs) as (s & t & u & Ev & Ef & Hu). rewrite Ef; cbn [vx vy vz].
  rewrite Ev. rewrite !wrap_cell by auto. rewrite !wrapped_shift by (intros; congruence). reflexivity.
Qed.

(** Equivariance under translation of all points (fully periodic box). *)
Definition translate_all (d : vec3) (l : list (vec3 * R)) := map (fun vm => (vadd (fst vm) d, snd vm)) l.

Definition nondegenerate (b : box) (l : list (vec3 * R)) : Prop :=
  let nz coord := csum (fun v => cos (2 * PI * coord (make_fractional b v))) l <> 0 \/
                  csum (fun v => sin (2 * PI * coord (make_fractional b v))) l <> 0 in
  nz vx /\ nz vy /\ nz vz.

Lemma csum_rotate b coord l th d :
  (forall a, In a l -> coord (make_fractional b (vadd (fst a) d)) = coord (make_fractional b (fst a)) + th) ->
  let C l := csum (fun v => cos (2 * PI * coord (make_fractional b v))) l in
  let S l := csum (fun v => sin (2 * PI * coord (make_fractional b v))) l in
  C (translate_all d l) = C l * cos (2 * PI * th) - S l * sin (2 * PI * th) /\
  S (translate_all d l) = S l * cos (2 * PI * th) + C l * sin (2 * PI * th).
Proof.
  intros Hc. cbv zeta. unfold translate_all. induction l as [|a l IH]; simpl; [lra|].
  destruct IH as [I1 I2]; [intros; apply Hc; right; auto|]. rewrite I1, I2.
  rewrite (Hc a) by (left; auto). rewrite Rmult_plus_distr_l, cos_plus, sin_plus. lra.
Qed.

Lemma mean_phase_rotate b coord l th d :
  (forall a, In a l -> coord (make_fractional b (vadd (fst a) d)) = coord (make_fractional b (fst a)) + th) ->
  total_mass l > 0 ->
  (csum (fun v => cos (2 * PI * coord (make_fractional b v))) l <> 0 \/
   csum (fun v => sin (2 * PI * coord (make_fractional b v))) l <> 0) ->
  exists n, mean_phase coord b (translate_all d l) = mean_phase coord b l + 2 * PI * th + 2 * PI * IZR n.
Proof.
  intros Hc Hm Hne. destruct (csum_rotate b coord l th d Hc) as [EC ES]; cbv zeta in *.
  unfold mean_phase.
  assert (EM : total_mass (translate_all d l) = total_mass l).
  { clear. unfold translate_all. induction l; simpl; auto. rewrite IHl; auto. }
  rewrite EC, ES, EM.
  set (C := csum (fun v => cos (2 * PI * coord (make_fractional b v))) l) in *.
  set (S := csum (fun v => sin (2 * PI * coord (make_fractional b v))) l) in *.
  set (p := 2 * PI * th). set (M := total_mass l) in *.
  assert (Hne1 : C / M <> 0 \/ S / M <> 0).
  { destruct Hne as [N|N]; [left|right]; intros E; apply N;
    apply Rmult_eq_reg_r with (/ M); try (apply Rinv_neq_0_compat; lra); unfold Rdiv in E; lra. }
  destruct (atan2_polar _ _ Hne1) as (r & Hr & Ec & Es).
  set (A := atan2 (S / M) (C / M)) in *. clearbody A.
  set (C' := (C * cos p - S * sin p) / M). set (S' := (S * cos p + C * sin p) / M).
  assert (EC' : C' = r * cos (A + p)).
  { rewrite cos_plus. replace C' with (C / M * cos p - S / M * sin p) by (unfold C'; field; lra).
    rewrite Ec, Es. ring. }
  assert (ES' : S' = r * sin (A + p)).
  { rewrite sin_plus. replace S' with (S / M * cos p + C / M * sin p) by (unfold S'; field; lra).
    rewrite Ec, Es. ring. }
  assert (Hne2 : C' <> 0 \/ S' <> 0).
  { destruct (Req_dec C' 0) as [E|E]; [right|left; auto]. intros E'.
    pose proof (sin2_cos2 (A + p)) as Q. unfold Rsqr in Q. rewrite E in EC'. rewrite E' in ES'.
    assert (cos (A + p) = 0) by nra.
    assert (sin (A + p) = 0) by nra. nra. }
  destruct (atan2_polar _ _ Hne2) as (r' & Hr' & Ec' & Es').
  destruct (polar_unique r' r (atan2 S' C') (A + p) Hr' Hr) as (n & En); try congruence.
  exists n. lra.
Qed.

Lemma frac_translate b v d :
  nonsingular b -> in_space b v -> in_space b d ->
  exists s t u, d = comb b s t u /\ (b_2d b = true -> u = 0) /\
  forall v, in_space b v ->
  make_fractional b (vadd v d) =
  V3 (vx (make_fractional b v) + s) (vy (make_fractional b v) + t) (vz (make_fractional b v) + u).
Proof.
  intros H Hv Hd. destruct (comb_coords b d H Hd) as (s & t & u & Ed & Hu). exists s, t, u. split; auto. split; auto.
  intros v' Hv'. destruct (cell_coords b v' H Hv') as (s' & t' & u' & Ev & Ef & Hu').
  rewrite Ef; cbn [vx vy vz]. rewrite Ed, Ev.
  replace (vadd (cell_point b s' t' u') (comb b s t u)) with (cell_point b (s' + s) (t' + t) (u' + u)).
  - rewrite make_fractional_cell by auto. f_equal. destruct (b_2d b); auto. rewrite Hu, Hu' by auto. ring.
  - unfold cell_point, comb. vec_ring.
Qed.

Lemma com_translate b l d :
  nonsingular b -> fully_periodic b -> in_space b d -> (forall a, In a l -> in_space b (fst a)) ->
  total_mass l > 0 -> nondegenerate b l ->
  center_of_mass b (translate_all d l) = wrap b (vadd (center_of_mass b l) d).
Proof.
  intros H (Px & Py & Pz) Hd Hl Hm (Nx & Ny & Nz).
  assert (H0 : in_space b v0) by (intros _; reflexivity).
  destruct (frac_translate b v0 d H H0 Hd) as (s & t & u & Ed & Hu & Ht).
  assert (Tx : forall a, In a l -> vx (make_fractional b (vadd (fst a) d)) = vx (make_fractional b (fst a)) + s)
    by (intros a Ha; rewrite Ht by auto; reflexivity).
  assert (Ty : forall a, In a l -> vy (make_fractional b (vadd (fst a) d)) = vy (make_fractional b (fst a)) + t)
    by (intros a Ha; rewrite Ht by auto; reflexivity).
  assert (Tz : forall a, In a l -> vz (make_fractional b (vadd (fst a) d)) = vz (make_fractional b (fst a)) + u)
    by (intros a Ha; rewrite Ht by auto; reflexivity).
  destruct (mean_phase_rotate b vx l s d Tx Hm Nx) as (n1 & E1).
  destruct (mean_phase_rotate b vy l t d Ty Hm Ny) as (n2 & E2).
  destruct (mean_phase_rotate b vz l u d Tz Hm Nz) as (n3 & E3).
  unfold center_of_mass. rewrite E1, E2, E3. pose proof PI_RGT_0.
  assert (Q : forall x y n, (x + 2 * PI * y + 2 * PI * IZR n) / (2 * PI) = (x / (2 * PI) + y) + IZR n)
    by (intros; field; lra).
  rewrite !Q. rewrite !make_absolute_cell by auto. cbn [vx vy vz].
  set (A := mean_phase vx b l / (2 * PI)). set (B := mean_phase vy b l / (2 * PI)).
  set (C := mean_phase vz b l / (2 * PI)).
  rewrite wrap_cell by auto. rewrite Px, Py, Pz.
  rewrite (wrapped_shift true (A + s)) by discriminate. rewrite (wrapped_shift true (B + t)) by discriminate.
  rewrite (wrapped_shift true (C + u)) by discriminate.
  rewrite wrap_cell by auto. rewrite Px, Py, Pz. rewrite Ed.
  replace (vadd (cell_point b (wrapped true A) (wrapped true B) (wrapped true C)) (comb b s t u))
    with (cell_point b (wrapped true A + s) (wrapped true B + t) (wrapped true C + u))
    by (unfold cell_point, comb; vec_ring).
  rewrite wrap_cell by auto. rewrite Px, Py, Pz.
  assert (W : forall x y, wrapped true (wrapped true x + y) = wrapped true (x + y)).
  { intros x y. unfold wrapped at 2. replace (x - IZR (Zfloor x) + y) with (x + y + IZR (- Zfloor x)).
    - apply wrapped_shift. discriminate.
    - rewrite opp_IZR. ring. }
  rewrite !W. reflexivity.
Qed.

Lemma atan2_le_PI y x : atan2 y x <= PI.
Proof.
  unfold atan2. pose proof PI_RGT_0.
  destruct (Rltb_spec 0 x); [destruct (atan_bound (y / x)); lra|].
  destruct (Rltb_spec x 0).
  - destruct (Rleb_spec 0 y); [|destruct (atan_bound (y / x)); lra].
    assert (H0 : y / x <= 0). { unfold Rdiv. assert (/ x < 0) by (apply Rinv_lt_0_compat; auto). nra. }
    assert (atan (y / x) <= 0).
    { destruct (Rle_lt_or_eq_dec _ _ H0) as [L|L]; [|rewrite L, atan_0; lra].
      apply atan_increasing in L. rewrite atan_0 in L. lra. }
    lra.
  - destruct (Rltb_spec 0 y); [lra|]. destruct (Rltb_spec y 0); lra.
Qed.

(** Without periodicity along an axis a single point outside the cell is folded back by the phases:
    the reported centre of mass of one point is not that point. *)
Lemma com_aperiodic_refuted :
  exists b v, positive b /\ in_space b v /\ wrap b v = v /\ center_of_mass b [(v, 1)] <> v.
Proof.
  set (b := set_periodic (mk_box 2 2 2 0 0 0 false) false false false).
  exists b, (V3 2 0 0).
  assert (Hp : positive b) by (apply set_periodic_positive, mk_box_positive; intros; lra).
  assert (Hs : in_space b (V3 2 0 0)) by (intros E; discriminate).
  split; auto. split; auto. split; [reflexivity|].
  intros E.
  destruct Hp as (H & _).
  assert (P : fully_periodic (mk_box 2 2 2 0 0 0 false)) by (repeat split).
  unfold center_of_mass in E. unfold wrap in E at 1. cbn in E.
  assert (Ex : vx (make_absolute b (V3 (mean_phase vx b [(V3 2 0 0, 1)] / (2 * PI))
      (mean_phase vy b [(V3 2 0 0, 1)] / (2 * PI)) (mean_phase vz b [(V3 2 0 0, 1)] / (2 * PI)))) = 2).
  { rewrite E. reflexivity. }
  rewrite make_absolute_cell in Ex by auto. unfold cell_point, comb, a1, a2, a3, b in Ex; simpl in Ex.
  (* atan2 is in (-PI, PI], the coordinate would need phase/(2 PI) = 3/2 *)
  set (m := mean_phase vx _ _) in Ex.
  assert (Hm : m <= PI).
  { unfold m, mean_phase. apply atan2_le_PI. }
  pose proof PI_RGT_0.
  assert (m / (2 * PI) <= 1/2).
  { apply Rmult_le_reg_r with (2 * PI); [lra|]. replace (m / (2 * PI) * (2 * PI)) with m by (field; lra). lra. }
  lra.
Qed.
