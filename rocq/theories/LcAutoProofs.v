(** Proofs about LinkCell without a cell width. *)
From Verif Require Import LinkCellModel BoxProofs BoxProofs2 LinkCellProofs LinkCellProofs2 LinkCellProofs3 LinkCellProps LcAutoSpec.
Open Scope R_scope.

Lemma cbrt_pos x : 0 < x -> 0 < cbrt x /\ cbrt x ^ 3 = x.
Proof.
  intros H. unfold cbrt. rewrite (proj2 (Rltb_true 0 x)) by auto. split; [apply exp_pos|].
  rewrite <- Rpower_pow by apply exp_pos. rewrite Rpower_mult. replace (1 / 3 * INR 3) with 1 by (simpl; field). apply Rpower_1. auto.
Qed.
Lemma cube_le a b : 0 < a -> 0 < b -> (a <= b <-> a ^ 3 <= b ^ 3).
Proof. intros Ha Hb. split; intros H; [apply pow_incr; lra|]. destruct (Rle_or_lt a b) as [|G]; auto. exfalso.
  assert (b ^ 3 < a ^ 3) by (assert (0 < (a - b) * (a * a + a * b + b * b)) by (apply Rmult_lt_0_compat; nra); nra). lra. Qed.
Lemma tens_ge n : 1 <= tens n.
Proof. unfold tens. replace 1 with (INR 1) by reflexivity. apply le_INR. lia. Qed.
Lemma volume_pos b : positive b -> 0 < volume b.
Proof. intros (_ & Hx & Hy & Hz). unfold volume. destruct (b_2d b); [apply Rmult_lt_0_compat; auto|]. specialize (Hz eq_refl). repeat apply Rmult_lt_0_compat; auto. Qed.
Lemma auto_width b n : positive b -> 0 < default_width b n /\ default_width b n ^ 3 * tens n = volume b.
Proof.
  intros Hb. pose proof (volume_pos b Hb). pose proof (tens_ge n). unfold default_width. fold (tens n).
  destruct (cbrt_pos (volume b / tens n)) as [P E]; [apply Rdiv_lt_0_compat; lra|]. split; auto. rewrite E. field. lra.
Qed.
Lemma Reqb_00 : Reqb 0 0 = true. Proof. apply Reqb_true. reflexivity. Qed.
Lemma make_auto b points : positive b -> lc_make b points 0 = lc_make b points (default_width b (length points)).
Proof.
  intros Hb. destruct (auto_width b (length points) Hb) as [P _]. unfold lc_make. rewrite Reqb_00.
  replace (Reqb (default_width b (length points)) 0) with false; [reflexivity|]. symmetry. apply not_true_iff_false. rewrite Reqb_true. lra.
Qed.
Lemma twice_le b n h : positive b -> 0 < h -> (2 * default_width b n <= h <-> 8 * volume b <= tens n * h ^ 3).
Proof.
  intros Hb Hh. destruct (auto_width b n Hb) as [P E]. pose proof (tens_ge n). rewrite cube_le by lra. rewrite <- E.
  replace (8 * (default_width b n ^ 3 * tens n)) with (tens n * (2 * default_width b n) ^ 3) by ring.
  split; [intros; apply Rmult_le_compat_l; lra|apply Rmult_le_reg_l; lra].
Qed.
Lemma auto_made b points lc : positive b -> lc_make b points 0 = Some lc ->
  lc_width lc = default_width b (length points) /\ 0 < lc_width lc /\ roomy b (length points) /\
  exists dx dy dz, lc_dim lc = (dx, dy, dz) /\ (2 <= dx)%Z /\ (2 <= dy)%Z /\ (b_2d b = true -> dz = 1%Z) /\ (b_2d b = false -> 2 <= dz)%Z /\
    dx = Zfloor (vx (plane_distance b) / lc_width lc) /\ dy = Zfloor (vy (plane_distance b) / lc_width lc) /\
    (b_2d b = false -> dz = Zfloor (vz (plane_distance b) / lc_width lc)).
Proof.
  intros Hb H. destruct (auto_width b (length points) Hb) as [P E]. destruct (plane_pos b Hb) as (Px & Py & Pz).
  apply lc_make_spec in H as (_ & _ & _ & W & _ & D & _ & (TX & TY & TZ)). rewrite Reqb_00 in W. rewrite W in *. split; auto. split; auto.
  split; [split; [|split]; [apply twice_le; auto..|intros E2; apply twice_le; auto]|].
  specialize (D P). destruct (lc_dim lc) as [[dx dy] dz]. destruct D as (_ & D2 & Ex & Ey & Ez). exists dx, dy, dz. split; auto.
  assert (F : forall l, 2 * default_width b (length points) <= l -> (2 <= Zfloor (l / default_width b (length points)))%Z).
  { intros l Hl. apply Zfloor_lub. apply Rmult_le_reg_r with (default_width b (length points)); auto. unfold Rdiv. rewrite Rmult_assoc, Rinv_l by lra. lra. }
  split; [rewrite Ex; auto|]. split; [rewrite Ey; auto|]. split; auto. split; auto. intros E2. rewrite (Ez E2). apply F. auto.
Qed.
Lemma auto_accepts b points : usable b points -> (accepted b points <-> roomy b (length points)).
Proof.
  intros (Hb & HP & HN & HI). split.
  - intros [lc H]. apply auto_made in H; tauto.
  - intros (RX & RY & RZ). unfold accepted. rewrite make_auto by auto. destruct (auto_width b (length points) Hb) as [P _].
    destruct (plane_pos b Hb) as (Px & Py & Pz). apply C30_constructor_defined; auto. split; [|split]; [apply twice_le; auto..|].
    intros E2. apply twice_le; auto.
Qed.
(** The heights of a cell are at most its edges. *)
Lemma heights_le b : positive b -> vx (plane_distance b) <= vx (b_L b) /\ vy (plane_distance b) <= vy (b_L b) /\ vz (plane_distance b) = vz (b_L b).
Proof.
  intros (_ & Hx & Hy & _). unfold plane_distance. cbn [vx vy vz].
  assert (D : forall l g, 0 < l -> 1 <= g -> l / sqrt g <= l).
  { intros l g Hl Hg. assert (1 <= sqrt g) by (rewrite <- sqrt_1; apply sqrt_le_1_alt; auto).
    apply Rmult_le_reg_r with (sqrt g); [lra|]. unfold Rdiv. rewrite Rmult_assoc, Rinv_l by lra. nra. }
  split; [|split; [|reflexivity]]; apply D; auto; [|pose proof (Rle_0_sqr (b_yz b)); unfold Rsqr in *; lra].
  pose proof (Rle_0_sqr (b_xy b)). pose proof (Rle_0_sqr (b_xy b * b_yz b - b_xz b)). unfold Rsqr in *. lra.
Qed.
Lemma heights_volume b : positive b -> b_2d b = false -> vx (plane_distance b) * vy (plane_distance b) * vz (plane_distance b) <= volume b.
Proof.
  intros Hb E. destruct (heights_le b Hb) as (A & B & C). destruct (plane_pos b Hb) as (Px & Py & Pz). specialize (Pz E).
  destruct Hb as (_ & Hx & Hy & Hz). specialize (Hz E). unfold volume. rewrite E, C in *. apply Rmult_le_compat_r; [lra|]. apply Rmult_le_compat; lra.
Qed.
Lemma tens_small n : (n < 80)%nat -> tens n < 8.
Proof. intros H. unfold tens. replace 8 with (INR 8) by (simpl; ring). apply lt_INR. assert (n / 10 < 8)%nat by (apply Nat.div_lt_upper_bound; lia). lia. Qed.
Lemma roomy_eight b n : positive b -> b_2d b = false -> roomy b n -> 8 <= tens n.
Proof.
  intros Hb E (RX & RY & RZ). specialize (RZ E). pose proof (volume_pos b Hb) as V. pose proof (heights_volume b Hb E) as HV.
  destruct (plane_pos b Hb) as (Px & Py & Pz). specialize (Pz E). pose proof (tens_ge n) as T.
  set (x := vx _) in *. set (y := vy _) in *. set (z := vz _) in *. set (v := volume b) in *. set (t := tens n) in *. clearbody x y z v t.
  destruct (Rle_or_lt 8 t) as [|G]; auto. exfalso.
  assert (S : forall h, 0 < h -> 8 * v <= t * h ^ 3 -> v < h ^ 3).
  { intros h Hh H. assert (0 < h ^ 3) by (apply pow_lt; auto). apply Rmult_lt_reg_l with 8; [lra|]. apply Rle_lt_trans with (1 := H). apply Rmult_lt_compat_r; auto. }
  apply S in RX, RY, RZ; auto. assert (P3 : v * v * v < x ^ 3 * y ^ 3 * z ^ 3).
  { apply Rmult_le_0_lt_compat; try lra; [apply Rmult_le_pos; lra|]. apply Rmult_le_0_lt_compat; lra. }
  assert (v ^ 3 < (x * y * z) ^ 3) by (replace (v ^ 3) with (v * v * v) by ring; replace ((x * y * z) ^ 3) with (x ^ 3 * y ^ 3 * z ^ 3) by ring; auto).
  assert ((x * y * z) ^ 3 <= v ^ 3) by (apply pow_incr; split; auto; apply Rlt_le; repeat apply Rmult_lt_0_compat; auto). lra.
Qed.
Lemma tens_real n : 8 <= tens n -> tens n = INR (n / 10) /\ 10 * tens n <= INR n <= 10 * tens n + 9.
Proof.
  intros H. assert (E : tens n = INR (n / 10)).
  { unfold tens. destruct (Nat.max_spec (n / 10) 1) as [[L EM] | [L EM]]; rewrite EM; auto. unfold tens in H. rewrite EM in H. simpl in H. lra. }
  split; auto. rewrite E. pose proof (Nat.div_mod n 10 ltac:(lia)) as D. pose proof (Nat.mod_upper_bound n 10 ltac:(lia)) as M.
  replace 10 with (INR 10) by (simpl; ring). replace 9 with (INR 9) by (simpl; ring). rewrite <- mult_INR, <- plus_INR. split; apply le_INR; lia.
Qed.
Lemma floor_le_real x w z : 0 < w -> z = Zfloor (x / w) -> IZR z * w <= x < (IZR z + 1) * w.
Proof.
  intros Hw ->. pose proof (Zfloor_bounds (x / w)) as [A B]. split.
  - apply Rle_trans with (x / w * w); [apply Rmult_le_compat_r; lra|right; field; lra].
  - apply Rle_lt_trans with (x / w * w); [right; field; lra|apply Rmult_lt_compat_r; lra].
Qed.
Lemma cells_at_most b points lc : positive b -> b_2d b = false -> lc_make b points 0 = Some lc -> IZR (num_cells (lc_dim lc)) <= tens (length points).
Proof.
  intros Hb E2 H. destruct (auto_made b points lc Hb H) as (W & P & _ & dx & dy & dz & D & Gx & Gy & _ & Gz & Ex & Ey & Ez). specialize (Gz E2). specialize (Ez E2).
  destruct (auto_width b (length points) Hb) as [_ V]. rewrite <- W in V. pose proof (heights_volume b Hb E2) as HV.
  apply floor_le_real in Ex, Ey, Ez; auto. rewrite D. unfold num_cells. rewrite !mult_IZR. apply IZR_le in Gx, Gy, Gz.
  set (w := lc_width lc) in *. apply Rmult_le_reg_l with (w ^ 3); [apply pow_lt; auto|]. rewrite V. apply Rle_trans with (2 := HV).
  replace (w ^ 3 * (IZR dx * IZR dy * IZR dz)) with (IZR dx * w * (IZR dy * w) * (IZR dz * w)) by ring.
  assert (0 <= IZR dx * w) by (apply Rmult_le_pos; lra). assert (0 <= IZR dy * w) by (apply Rmult_le_pos; lra). assert (0 <= IZR dz * w) by (apply Rmult_le_pos; lra).
  apply Rmult_le_compat; try lra; [apply Rmult_le_pos; lra|]. apply Rmult_le_compat; lra.
Qed.
Lemma cells_at_least b points lc : positive b -> b_2d b = false -> b_xy b = 0 -> b_xz b = 0 -> b_yz b = 0 -> lc_make b points 0 = Some lc ->
  8 * tens (length points) < 27 * IZR (num_cells (lc_dim lc)).
Proof.
  intros Hb E2 Exy Exz Eyz H. destruct (auto_made b points lc Hb H) as (W & P & _ & dx & dy & dz & D & Gx & Gy & _ & Gz & Ex & Ey & Ez). specialize (Gz E2). specialize (Ez E2).
  destruct (auto_width b (length points) Hb) as [_ V]. rewrite <- W in V. destruct (plane_pos b Hb) as (Px & Py & Pz). specialize (Pz E2).
  assert (HV : volume b = vx (plane_distance b) * vy (plane_distance b) * vz (plane_distance b)).
  { unfold volume, plane_distance. rewrite E2, Exy, Exz, Eyz. cbn [vx vy vz]. replace (1 + 0 * 0 + (0 * 0 - 0) * (0 * 0 - 0)) with 1 by ring.
    replace (1 + 0 * 0) with 1 by ring. rewrite sqrt_1. field. }
  apply floor_le_real in Ex, Ey, Ez; auto. rewrite D. unfold num_cells. rewrite !mult_IZR. apply IZR_le in Gx, Gy, Gz.
  set (w := lc_width lc) in *. apply Rmult_lt_reg_l with (w ^ 3); [apply pow_lt; auto|].
  replace (w ^ 3 * (8 * tens (length points))) with (8 * (w ^ 3 * tens (length points))) by ring. rewrite V, HV.
  assert (S : forall x d, x < (d + 1) * w -> 2 <= d -> 2 * x < 3 * (d * w)) by (intros x d A B; nra).
  destruct Ex as [_ Ex], Ey as [_ Ey], Ez as [_ Ez]. apply S in Ex, Ey, Ez; auto.
  replace (8 * (vx (plane_distance b) * vy (plane_distance b) * vz (plane_distance b))) with
    (2 * vx (plane_distance b) * (2 * vy (plane_distance b)) * (2 * vz (plane_distance b))) by ring.
  replace (w ^ 3 * (27 * (IZR dx * IZR dy * IZR dz))) with (3 * (IZR dx * w) * (3 * (IZR dy * w)) * (3 * (IZR dz * w))) by ring.
  apply Rmult_le_0_lt_compat; try lra; [apply Rmult_le_pos; lra|]. apply Rmult_le_0_lt_compat; lra.
Qed.
