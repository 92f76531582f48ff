(** Lemmas for the periodic buffer. *)
From Verif Require Import AABBProofs2 BoxProofs BoxProofs2 PBufferSpec.
Open Scope R_scope.

Lemma zrange_in lo hi i : In i (zrange lo hi) <-> (lo <= i <= hi)%Z.
Proof.
  unfold zrange. rewrite in_map_iff. split.
  - intros (n & <- & H). apply in_seq in H. lia.
  - intros H. exists (Z.to_nat (i - lo)). split; [lia|]. apply in_seq. lia.
Qed.
Lemma zrange_NoDup lo hi : NoDup (zrange lo hi).
Proof. unfold zrange. apply FinFun.Injective_map_NoDup; [intros a c; lia|apply seq_NoDup]. Qed.
Lemma zrange_length lo hi : length (zrange lo hi) = Z.to_nat (hi - lo + 1).
Proof. unfold zrange. rewrite map_length, seq_length. auto. Qed.
Definition start (u : bool) (m : Z) : Z := if u then 0%Z else (- m)%Z.
Lemma loop_in u nx ny nz i j k : In (i, j, k) (pb_loop u (nx, ny, nz)) <-> (start u nx <= i <= nx /\ start u ny <= j <= ny /\ start u nz <= k <= nz)%Z.
Proof.
  unfold pb_loop. rewrite in_flat_map. split.
  - intros (i' & Hi & H). apply in_flat_map in H as (j' & Hj & H). apply in_map_iff in H as (k' & E & Hk). injection E as -> -> ->. rewrite zrange_in in *. auto.
  - intros (Hi & Hj & Hk). exists i. split; [apply zrange_in; auto|]. apply in_flat_map. exists j. split; [apply zrange_in; auto|]. apply in_map. apply zrange_in; auto.
Qed.
Lemma loop_NoDup u n : NoDup (pb_loop u n).
Proof.
  destruct n as [[nx ny] nz]. unfold pb_loop. apply NoDup_flat_map; [apply zrange_NoDup| |].
  - intros i _. apply NoDup_flat_map; [apply zrange_NoDup| |].
    + intros j _. apply FinFun.Injective_map_NoDup; [intros a c E; congruence|apply zrange_NoDup].
    + intros j j' x _ _ H H'. apply in_map_iff in H as (? & <- & _), H' as (? & E & _). congruence.
  - intros i i' x _ _ H H'. apply in_flat_map in H as (? & _ & H), H' as (? & _ & H'). apply in_map_iff in H as (? & <- & _), H' as (? & E & _). congruence.
Qed.
Lemma pb_image_shift b p i j k : nonsingular b -> pb_image b p i j k = vadd p (shift b i j k).
Proof.
  intros (_ & _ & _ & H & _). unfold pb_image, lv, lattice_vector, shift, comb, a1, a2, a3. destruct (b_2d b); cbn [vadd vscale vx vy vz].
  - rewrite (H eq_refl). apply vec_eq; simpl; ring.
  - apply vec_eq; simpl; ring.
Qed.
Lemma shift_2d b i j k k' : nonsingular b -> b_2d b = true -> shift b i j k = shift b i j k'.
Proof. intros (_ & _ & _ & H & _) E. unfold shift, comb, a1, a2, a3. rewrite (H E). apply vec_eq; simpl; ring. Qed.
Lemma comb_add b s t u i j k : vadd (comb b s t u) (shift b i j k) = comb b (s + IZR i) (t + IZR j) (u + IZR k).
Proof. unfold shift, comb. apply vec_eq; simpl; ring. Qed.
Lemma comb_inj b s t u s' t' u' : nonsingular b -> comb b s t u = comb b s' t' u' -> s = s' /\ t = t' /\ (b_2d b = false -> u = u').
Proof.
  intros Hb E. apply (f_equal (make_fractional b)) in E. rewrite !comb_cell_point, !make_fractional_cell in E by auto.
  assert (E1 := f_equal vx E). assert (E2 := f_equal vy E). assert (E3 := f_equal vz E). simpl in *. split; [lra|]. split; [lra|]. intros E2d. rewrite E2d in E3. lra.
Qed.
Lemma vadd_0 p i j k b : nonsingular b -> (b_2d b = true -> k = 0%Z) -> vadd p (shift b i j k) = p -> i = 0%Z /\ j = 0%Z /\ k = 0%Z.
Proof.
  intros Hb H2 E. assert (E' : comb b (IZR i) (IZR j) (IZR k) = comb b 0 0 0).
  { assert (X := f_equal vx E). assert (Y := f_equal vy E). assert (Z := f_equal vz E). unfold shift in *. cbn [vadd vx vy vz] in X, Y, Z. unfold comb in *. apply vec_eq; cbn [vadd vscale vx vy vz] in *; lra. }
  apply comb_inj in E' as (E1 & E2 & E3); auto. split; [apply eq_IZR; auto|]. split; [apply eq_IZR; auto|]. destruct (b_2d b); [auto|]. apply eq_IZR; auto.
Qed.
(** A box with the same tilts and multiples of the lengths. *)
Definition scaled_box (b b' : box) (x y z : R) : Prop :=
  nonsingular b' /\ vx (b_L b') = x * vx (b_L b) /\ vy (b_L b') = y * vy (b_L b) /\ vz (b_L b') = z * vz (b_L b) /\
  b_xy b' = b_xy b /\ b_xz b' = b_xz b /\ b_yz b' = b_yz b /\ b_2d b' = b_2d b /\ fully_periodic b'.
Lemma scaled_comb b b' x y z s t u : scaled_box b b' x y z -> comb b' s t u = comb b (x * s) (y * t) (z * u).
Proof. intros (_ & E1 & E2 & E3 & E4 & E5 & E6 & _). unfold comb, a1, a2, a3. rewrite E1, E2, E3, E4, E5, E6. apply vec_eq; simpl; ring. Qed.
Lemma scaled_frac b b' x y z s t u : scaled_box b b' x y z -> 0 < x -> 0 < y -> 0 < z ->
  make_fractional b' (comb b s t u) = V3 (s / x + 1/2) (t / y + 1/2) (if b_2d b then 0 else u / z + 1/2).
Proof.
  intros HS Hx Hy Hz. replace (comb b s t u) with (comb b' (s / x) (t / y) (u / z)).
  - rewrite comb_cell_point, make_fractional_cell by apply HS. destruct HS as (_ & _ & _ & _ & _ & _ & _ & -> & _). reflexivity.
  - rewrite (scaled_comb _ _ _ _ _ _ _ _ HS). f_equal; field; lra.
Qed.
Lemma window s x : 0 < x -> (0 <= s / x + 1/2 < 1 <-> - x / 2 <= s < x / 2).
Proof.
  intros Hx. assert (E : s = s / x * x) by (field; lra). set (q := s / x) in *. clearbody q. rewrite E. clear E. split; intros [H1 H2]; split; nra.
Qed.
Lemma pb_box_scaled b buff u : positive b -> 0 <= vx buff -> 0 <= vy buff -> 0 <= vz buff ->
  exists x y z, scaled_box b (pb_box b buff u) x y z /\ 1 <= x /\ 1 <= y /\ 1 <= z /\
    if u then x = IZR (1 + Zceil (vx buff)) /\ y = IZR (1 + Zceil (vy buff)) /\ (b_2d b = false -> z = IZR (1 + Zceil (vz buff)))
    else x = 1 + 2 * (vx buff / vx (b_L b)) /\ y = 1 + 2 * (vy buff / vy (b_L b)) /\ (b_2d b = false -> z = 1 + 2 * (vz buff / vz (b_L b))).
Proof.
  intros (Hn & Px & Py & Pz) H1 H2 H3. assert (Q : forall a c, 0 <= a -> 0 < c -> 0 <= a / c) by (intros; apply Rmult_le_pos; [lra|left; apply Rinv_0_lt_compat; auto]).
  assert (C : forall a, 0 <= a -> 1 <= IZR (1 + Zceil a)).
  { intros a Ha. rewrite plus_IZR. pose proof (Zceil_ub a). lra. }
  set (z := if b_2d b then 1 else if u then IZR (1 + Zceil (vz buff)) else 1 + 2 * (vz buff / vz (b_L b))).
  assert (Z1 : 1 <= z) by (unfold z; destruct (b_2d b) eqn:E; [lra|destruct u; [auto|specialize (Q _ _ H3 (Pz eq_refl)); lra]]).
  pose proof (Q _ _ H1 Px). pose proof (Q _ _ H2 Py). pose proof (C _ H1). pose proof (C _ H2). pose proof (C _ H3).
  exists (if u then IZR (1 + Zceil (vx buff)) else 1 + 2 * (vx buff / vx (b_L b))), (if u then IZR (1 + Zceil (vy buff)) else 1 + 2 * (vy buff / vy (b_L b))), z.
  split; [|split; [destruct u; lra|split; [destruct u; lra|split; [auto|unfold z; destruct u; repeat split; auto; intros ->; auto]]]].
  unfold scaled_box. split.
  { unfold pb_box. destruct u; apply mk_box_nonsingular; try (apply Rgt_not_eq; nra); intros E; specialize (Pz E); try (apply Rgt_not_eq; nra). }
  destruct Hn as (_ & _ & _ & H2d & _). unfold pb_box, z, fully_periodic. destruct u, (b_2d b) eqn:E2; cbn; rewrite ?E2; cbn; repeat split; auto; try (rewrite (H2d eq_refl); ring); try (field; specialize (Pz eq_refl); lra); try (field; lra); try ring.
Qed.
