(** Accuracy of the computed distances; image vectors; symmetry in open boxes. *)
From Coq Require Import Psatz.
From Verif Require Import NListProofs MArrayProofs F32Proofs Vec FaabbSpec FaabbProofs.
Open Scope R_scope.

(** * Vectors with componentwise bounds *)
Lemma norm_bound a b c k m : 0 <= k -> 0 <= m ->
  Rabs (vx a) <= k * Rabs (vx b) + m * Rabs (vx c) -> Rabs (vy a) <= k * Rabs (vy b) + m * Rabs (vy c) -> Rabs (vz a) <= k * Rabs (vz b) + m * Rabs (vz c) ->
  norm a <= k * norm b + m * norm c.
Proof.
  intros Hk Hm Hx Hy Hz.
  set (b' := V3 (k * Rabs (vx b)) (k * Rabs (vy b)) (k * Rabs (vz b))). set (c' := V3 (m * Rabs (vx c)) (m * Rabs (vy c)) (m * Rabs (vz c))).
  assert (SQ : forall x, Rabs x * Rabs x = x * x) by (intros x; rewrite <- Rabs_mult; apply Rabs_pos_eq; nra).
  assert (SC : forall k v, 0 <= k -> norm (V3 (k * Rabs (vx v)) (k * Rabs (vy v)) (k * Rabs (vz v))) = k * norm v).
  { intros k0 v H0. unfold norm. replace (dot _ _) with ((k0 * k0) * dot v v).
    - rewrite sqrt_mult by (try apply dot_nonneg; nra). rewrite sqrt_square by auto. reflexivity.
    - unfold dot. simpl. rewrite <- (SQ (vx v)), <- (SQ (vy v)), <- (SQ (vz v)). ring. }
  rewrite <- (SC k b Hk), <- (SC m c Hm). eapply Rle_trans; [|apply norm_triangle].
  apply sqrt_le_1_alt. unfold dot. simpl. rewrite <- (SQ (vx a)), <- (SQ (vy a)), <- (SQ (vz a)).
  assert (Q : forall x y, 0 <= x -> x <= y -> x * x <= y * y) by (intros; nra).
  apply Q in Hx; [|apply Rabs_pos]. apply Q in Hy; [|apply Rabs_pos]. apply Q in Hz; [|apply Rabs_pos]. lra.
Qed.
Lemma norm_diff a b : Rabs (norm a - norm b) <= norm (a - b)%V.
Proof.
  assert (H1 := norm_triangle (a - b)%V b). rewrite vsub_add in H1.
  assert (H2 := norm_triangle (- (a - b))%V a). replace (- (a - b) + a)%V with b in H2 by vec_ring. rewrite norm_vneg in H2. apply Rabs_le. lra.
Qed.

(** * One component of the separation *)
Lemma separation (p q v : f32) : ordinary_coord p -> ordinary_coord q -> ordinary_coord v ->
  let r := fsub p (fadd q v) in
  finite r = true /\ Rabs (val r) <= bpow radix2 62 /\
  Rabs (val r - (val p - (val q + val v))) <= u * Rabs (val p - (val q + val v)) + 2 * u * Rabs (val q + val v).
Proof.
  intros [Fp Bp] [Fq Bq] [Fv Bv] r. assert (U := u_pos).
  assert (N1 : bpow radix2 61 = 2 * bpow radix2 60) by (change 61%Z with (1 + 60)%Z; rewrite bpow_plus; reflexivity).
  assert (N2 : bpow radix2 62 = 4 * bpow radix2 60) by (change 62%Z with (2 + 60)%Z; rewrite bpow_plus; reflexivity).
  assert (L127 : bpow radix2 62 <= bpow radix2 127) by (apply bpow_le; lia).
  assert (P60 := bpow_gt_0 radix2 60).
  assert (B1 : Rabs (val q + val v) <= bpow radix2 61) by (eapply Rle_trans; [apply Rabs_triang|]; lra).
  destruct (is_add q v Fq Fv ltac:(unfold fits; lra)) as [Fs Vs].
  assert (B2 : Rabs (val (fadd q v)) <= bpow radix2 61) by (rewrite Vs; apply rnd_abs; [lia|auto]).
  assert (B3 : Rabs (val p - val (fadd q v)) <= bpow radix2 62) by (unfold Rminus; eapply Rle_trans; [apply Rabs_triang|]; rewrite Rabs_Ropp; lra).
  destruct (is_sub p (fadd q v) Fp Fs ltac:(unfold fits; lra)) as [Fr Vr]. fold r in Fr, Vr.
  split; auto. split; [rewrite Vr; apply rnd_abs; [lia|auto]|].
  destruct (rnd_plus (val q) (val v) (fmt_val q) (fmt_val v)) as (e1 & E1 & R1). destruct (rnd_minus (val p) (val (fadd q v)) (fmt_val p) (fmt_val _)) as (e2 & E2 & R2).
  rewrite Vr, R2, Vs, R1. set (s := val q + val v). set (t := val p - s). replace ((val p - s * (1 + e1)) * (1 + e2) - t) with (e2 * t + - (s * e1 * (1 + e2))) by (unfold t; ring).
  eapply Rle_trans; [apply Rabs_triang|]. rewrite Rabs_Ropp, !Rabs_mult. assert (K : Rabs (1 + e2) <= 2) by (apply Rabs_le; apply Rabs_le_inv in E2; unfold u in *; lra).
  assert (H1 := Rabs_pos t). assert (H2 := Rabs_pos s). assert (H3 := Rabs_pos e1). assert (H4 := Rabs_pos (1 + e2)).
  apply Rplus_le_compat; [apply Rmult_le_compat_r; auto|]. replace (2 * u * Rabs s) with (Rabs s * u * 2) by ring. repeat apply Rmult_le_compat; auto; [apply Rmult_le_pos; auto|lra].
Qed.

(** * The squared distance and its root *)
Definition tiny : R := bpow radix2 (-150).
Lemma tiny_pos : 0 < tiny. Proof. apply bpow_gt_0. Qed.
Lemma square_val (x : f32) : finite x = true -> Rabs (val x) <= bpow radix2 62 ->
  finite (fmul x x) = true /\ 0 <= val (fmul x x) <= bpow radix2 124 /\ val x * val x * (1 - u) - tiny <= val (fmul x x) <= val x * val x * (1 + u) + tiny.
Proof.
  intros F B. assert (B2 : Rabs (val x * val x) <= bpow radix2 124) by (rewrite Rabs_mult; change (124)%Z with (62 + 62)%Z; rewrite bpow_plus; apply Rmult_le_compat; auto using Rabs_pos).
  assert (L127 : bpow radix2 124 <= bpow radix2 127) by (apply bpow_le; lia).
  destruct (is_mul x x F F ltac:(unfold fits; lra)) as [Fm Vm]. split; auto. rewrite Vm.
  assert (P : 0 <= rnd (val x * val x)) by (apply rnd_nonneg; nra).
  split; [split; [auto|]; rewrite <- (Rabs_pos_eq _ P); apply rnd_abs; [lia|auto]|].
  destruct (rnd_err (val x * val x)) as (e & n & E & N & ->). apply Rabs_le_inv in E. apply Rabs_le_inv in N. fold tiny in N.
  assert (0 <= val x * val x) by nra. split; nra.
Qed.
Lemma norm2_val (r : fvec) : fin3 r -> Rabs (val (fvx r)) <= bpow radix2 62 -> Rabs (val (fvy r)) <= bpow radix2 62 -> Rabs (val (fvz r)) <= bpow radix2 62 ->
  finite (fnorm2 r) = true /\ 0 <= val (fnorm2 r) /\ dot (rv r) (rv r) * (1 - 4 * u) - 4 * tiny <= val (fnorm2 r) <= dot (rv r) (rv r) * (1 + 4 * u) + 4 * tiny.
Proof.
  intros (Fx & Fy & Fz) Bx By Bz. destruct (square_val _ Fx Bx) as (Gx & Px & Qx). destruct (square_val _ Fy By) as (Gy & Py & Qy). destruct (square_val _ Fz Bz) as (Gz & Pz & Qz).
  set (A := fmul (fvx r) (fvx r)) in *. set (B := fmul (fvy r) (fvy r)) in *. set (C := fmul (fvz r) (fvz r)) in *.
  assert (N : bpow radix2 127 = 8 * bpow radix2 124) by (change 127%Z with (3 + 124)%Z; rewrite bpow_plus; reflexivity). assert (N' : bpow radix2 125 = 2 * bpow radix2 124) by (change 125%Z with (1 + 124)%Z; rewrite bpow_plus; reflexivity).
  assert (P124 := bpow_gt_0 radix2 124).
  destruct (is_add A B Gx Gy) as [F1 V1]; [unfold fits; rewrite Rabs_pos_eq; lra|].
  assert (B1 : 0 <= val (fadd A B) <= bpow radix2 125).
  { rewrite V1. assert (P : 0 <= rnd (val A + val B)) by (apply rnd_nonneg; lra). split; auto. rewrite <- (Rabs_pos_eq _ P). apply rnd_abs; [lia|]. rewrite Rabs_pos_eq; lra. }
  destruct (is_add (fadd A B) C F1 Gz) as [F2 V2]; [unfold fits; rewrite Rabs_pos_eq; lra|].
  change (fnorm2 r) with (fadd (fadd A B) C). split; auto. rewrite V2.
  split; [apply rnd_nonneg; lra|].
  destruct (rnd_plus (val A) (val B) (fmt_val _) (fmt_val _)) as (e1 & E1 & R1). destruct (rnd_plus (val (fadd A B)) (val C) (fmt_val _) (fmt_val _)) as (e2 & E2 & R2).
  rewrite R2. rewrite V1, R1 in *. clear R1 R2 V1 V2. apply Rabs_le_inv in E1. apply Rabs_le_inv in E2.
  change (dot (rv r) (rv r)) with (val (fvx r) * val (fvx r) + val (fvy r) * val (fvy r) + val (fvz r) * val (fvz r)).
  set (X := val (fvx r) * val (fvx r)) in *. set (Y := val (fvy r) * val (fvy r)) in *. set (Z := val (fvz r) * val (fvz r)) in *.
  assert (HX : 0 <= X) by (unfold X; nra). assert (HY : 0 <= Y) by (unfold Y; nra). assert (HZ : 0 <= Z) by (unfold Z; nra).
  assert (T := tiny_pos). assert (U : 0 < u < / 1000) by (unfold u; lra).
  set (a := val A) in *. set (b := val B) in *. set (c := val C) in *. clearbody a b c X Y Z.
  assert (K1 : (a + b) * (1 - u) <= (a + b) * (1 + e1) <= (a + b) * (1 + u)) by (split; apply Rmult_le_compat_l; lra).
  set (s := (a + b) * (1 + e1)) in *. clearbody s.
  assert (K2 : (s + c) * (1 - u) <= (s + c) * (1 + e2) <= (s + c) * (1 + u)) by (split; apply Rmult_le_compat_l; lra).
  set (w := (s + c) * (1 + e2)) in *. clearbody w. unfold u in *. lra.
Qed.
Definition cell_slack : R := bpow radix2 (-73).
Lemma root_val (x : f32) (R : R) : 0 <= R -> finite x = true -> 0 <= val x -> R * R * (1 - 4 * u) - 4 * tiny <= val x <= R * R * (1 + 4 * u) + 4 * tiny ->
  R * (1 - 3 * u) - cell_slack <= sqrt (val x) <= R * (1 + 2 * u) + cell_slack.
Proof.
  intros HR F P [L H]. set (t := cell_slack). assert (Ht : 0 < t) by apply bpow_gt_0. assert (TT : t * t = 16 * tiny) by (unfold t, cell_slack, tiny; rewrite <- bpow_plus; change (-73 + -73)%Z with (4 + -150)%Z; rewrite bpow_plus; reflexivity).
  assert (T := tiny_pos). assert (U : 0 < u < / 1000) by (unfold u; lra). split.
  - destruct (Rle_lt_dec (R * (1 - 3 * u) - t) 0) as [N|N]; [eapply Rle_trans; [exact N|apply sqrt_pos]|].
    rewrite <- (sqrt_square (R * (1 - 3 * u) - t)) by lra. apply sqrt_le_1_alt. eapply Rle_trans; [|exact L].
    set (w := R * (1 - 3 * u)) in *. replace ((w - t) * (w - t)) with (w * w - 2 * (t * w) + t * t) by ring. assert (t * t <= t * w) by (apply Rmult_le_compat_l; lra).
    assert (w * w <= R * R * (1 - 4 * u)) by (unfold w; replace (R * (1 - 3 * u) * (R * (1 - 3 * u))) with (R * R * ((1 - 3 * u) * (1 - 3 * u))) by ring; apply Rmult_le_compat_l; nra). lra.
  - apply Rle_trans with (sqrt ((R * (1 + 2 * u) + t) * (R * (1 + 2 * u) + t))); [|rewrite sqrt_square; [lra|]; assert (0 <= R * (1 + 2 * u)) by (apply Rmult_le_pos; lra); lra].
    apply sqrt_le_1_alt. eapply Rle_trans; [exact H|]. assert (0 <= R * (1 + 2 * u)) by (apply Rmult_le_pos; lra). set (w := R * (1 + 2 * u)) in *.
    assert (R * R * (1 + 4 * u) <= w * w) by (unfold w; replace (R * (1 + 2 * u) * (R * (1 + 2 * u))) with (R * R * ((1 + 2 * u) * (1 + 2 * u))) by ring; apply Rmult_le_compat_l; nra).
    assert (0 <= t * w) by (apply Rmult_le_pos; lra). lra.
Qed.

Lemma distance_val (x : f32) : finite x = true -> 0 <= val x -> exists e n, Rabs e <= u /\ Rabs n <= tiny /\ val (Bsqrt mode_NE x) = sqrt (val x) * (1 + e) + n.
Proof.
  intros F P. destruct (Bsqrt_correct 24 128 _ _ mode_NE x) as [V _]. rewrite V. change (round radix2 fex (round_mode mode_NE) (sqrt (val x))) with (rnd (sqrt (val x))). apply rnd_err.
Qed.

(** * A pair of ordinary points *)
Section Pair.
Variables (p q v : fvec).
Hypothesis Op : ordinary_point p.
Hypothesis Oq : ordinary_point q.
Hypothesis Ov : ordinary_point v.
Let S := (rv q + rv v)%V.
Let T := (rv p - S)%V.
Let r := fvsub p (fvadd q v).
Lemma pair_finite : fin3 r /\ finite (fnorm2 r) = true /\ 0 <= val (fnorm2 r).
Proof.
  destruct Op as (A1 & A2 & A3), Oq as (B1 & B2 & B3), Ov as (C1 & C2 & C3).
  destruct (separation _ _ _ A1 B1 C1) as (F1 & G1 & H1). destruct (separation _ _ _ A2 B2 C2) as (F2 & G2 & H2). destruct (separation _ _ _ A3 B3 C3) as (F3 & G3 & H3).
  destruct (norm2_val r (conj F1 (conj F2 F3)) G1 G2 G3) as (F & P & _). auto. split; [repeat split; auto|auto].
Qed.
Lemma pair_root : norm T * (1 - 5 * u) - 3 * u * norm S - cell_slack <= sqrt (val (fnorm2 r)) <= norm T * (1 + 4 * u) + 3 * u * norm S + cell_slack.
Proof.
  destruct Op as (A1 & A2 & A3), Oq as (B1 & B2 & B3), Ov as (C1 & C2 & C3).
  destruct (separation _ _ _ A1 B1 C1) as (F1 & G1 & H1). destruct (separation _ _ _ A2 B2 C2) as (F2 & G2 & H2). destruct (separation _ _ _ A3 B3 C3) as (F3 & G3 & H3).
  destruct (norm2_val r (conj F1 (conj F2 F3)) G1 G2 G3) as (F & P & Q). rewrite <- norm_sq in Q.
  assert (K := root_val (fnorm2 r) (norm (rv r)) (norm_nonneg _) F P Q).
  assert (U := u_pos). assert (NB : norm (rv r - T)%V <= u * norm T + 2 * u * norm S) by (apply norm_bound; try lra; [exact H1|exact H2|exact H3]).
  assert (D := norm_diff (rv r) T). apply Rabs_le_inv in D. assert (NT := norm_nonneg T). assert (NS := norm_nonneg S). assert (NR := norm_nonneg (rv r)).
  assert (CS : 0 < cell_slack) by apply bpow_gt_0. set (nt := norm T) in *. set (ns := norm S) in *. set (nr := norm (rv r)) in *. set (nd := norm (rv r - T)%V) in *. clearbody nt ns nr nd. unfold u in *. lra.
Qed.
Lemma tiny_slack : tiny <= cell_slack /\ 8 * cell_slack = bpow radix2 (-70).
Proof. split; [apply bpow_le; lia|]. unfold cell_slack. change (-70)%Z with (3 + -73)%Z. rewrite bpow_plus. reflexivity. Qed.
Lemma pair_distance : Rabs (val (Bsqrt mode_NE (fnorm2 r)) - norm T) <= slack (norm T) (norm S).
Proof.
  assert (K := pair_root). destruct pair_finite as (_ & F & P). destruct (distance_val _ F P) as (e & n & E & N & ->). apply Rabs_le_inv in E. apply Rabs_le_inv in N.
  assert (SP := sqrt_pos (val (fnorm2 r))). assert (CS : 0 < cell_slack) by apply bpow_gt_0. destruct tiny_slack as [TS T70]. assert (NT := norm_nonneg T). assert (NS := norm_nonneg S). unfold slack. rewrite <- T70.
  set (w := sqrt (val (fnorm2 r))) in *. assert (W : w * (1 - u) <= w * (1 + e) <= w * (1 + u)) by (split; apply Rmult_le_compat_l; lra). set (z := w * (1 + e)) in *. set (nt := norm T) in *. set (ns := norm S) in *. clearbody z w nt ns. apply Rabs_le. unfold u in *. lra.
Qed.
Section Cut.
Variable c : f32.
Hypothesis Oc : ordinary_radius c.
Lemma radius_val : finite (fmul c c) = true /\ 0 < val c /\ (val c * (1 - u)) * (val c * (1 - u)) <= val (fmul c c) <= (val c * (1 + u)) * (val c * (1 + u)).
Proof.
  destruct Oc as [F [L H]]. assert (P := bpow_gt_0 radix2 (-60)). assert (PC : 0 < val c) by lra.
  assert (L2 : bpow radix2 (-120) <= val c * val c <= bpow radix2 120).
  { change (-120)%Z with (-60 + -60)%Z. change 120%Z with (60 + 60)%Z. rewrite !bpow_plus. split; apply Rmult_le_compat; lra. }
  assert (L127 : bpow radix2 120 <= bpow radix2 127) by (apply bpow_le; lia). assert (LM : bpow radix2 (-126) <= bpow radix2 (-120)) by (apply bpow_le; lia).
  assert (P2 : 0 < val c * val c) by nra.
  destruct (is_mul c c F F ltac:(unfold fits; rewrite Rabs_pos_eq; lra)) as [Fm Vm]. split; auto. split; auto. rewrite Vm.
  destruct (rnd_rel (val c * val c) ltac:(rewrite Rabs_pos_eq; lra)) as (e & E & ->). apply Rabs_le_inv in E. assert (U : 0 < u < / 1000) by (unfold u; lra).
  replace (val c * (1 - u) * (val c * (1 - u))) with (val c * val c * ((1 - u) * (1 - u))) by ring. replace (val c * (1 + u) * (val c * (1 + u))) with (val c * val c * ((1 + u) * (1 + u))) by ring.
  split; apply Rmult_le_compat_l; nra.
Qed.
Lemma pair_below : norm T + slack (norm T) (norm S) <= val c -> val (fnorm2 r) < val (fmul c c).
Proof.
  intros H. assert (K := pair_root). destruct pair_finite as (_ & F & P). destruct radius_val as (Fm & PC & M).
  assert (CS : 0 < cell_slack) by apply bpow_gt_0. destruct tiny_slack as [TS T70]. assert (NT := norm_nonneg T). assert (NS := norm_nonneg S). unfold slack in H. rewrite <- T70 in H.
  assert (SP := sqrt_pos (val (fnorm2 r))). assert (SS := sqrt_sqrt _ P). set (w := sqrt (val (fnorm2 r))) in *.
  assert (W : w < val c * (1 - u)) by (unfold u in *; lra). eapply Rlt_le_trans; [|apply M]. rewrite <- SS. apply Rmult_le_0_lt_compat; auto.
Qed.
Lemma pair_above : val c <= norm T - slack (norm T) (norm S) -> val (fmul c c) <= val (fnorm2 r).
Proof.
  intros H. assert (K := pair_root). destruct pair_finite as (_ & F & P). destruct radius_val as (Fm & PC & M).
  assert (CS : 0 < cell_slack) by apply bpow_gt_0. destruct tiny_slack as [TS T70]. assert (NT := norm_nonneg T). assert (NS := norm_nonneg S). unfold slack in H. rewrite <- T70 in H.
  assert (SP := sqrt_pos (val (fnorm2 r))). assert (SS := sqrt_sqrt _ P). set (w := sqrt (val (fnorm2 r))) in *.
  assert (W : val c * (1 + u) <= w) by (unfold u in *; lra). eapply Rle_trans; [apply M|]. rewrite <- SS. assert (0 < val c * (1 + u)) by (apply Rmult_lt_0_compat; unfold u; lra). apply Rmult_le_compat; lra.
Qed.
End Cut.
End Pair.

(** * Image vectors *)
Definition imv (b : fbox) (t : Z * Z * Z) : fvec :=
  let '(i, j, k) := t in
  fvadd (fvadd (fvscale (lit i 0) (flattice b 0)) (fvscale (lit j 0) (flattice b 1))) (fvscale (lit k 0) (if f2d b then fv0 else flattice b 2)).
Definition allowed (b : fbox) (t : Z * Z * Z) : bool :=
  let '(i, j, k) := t in
  negb (Z.eqb i 0 && Z.eqb j 0 && Z.eqb k 0) && negb ((negb (Z.eqb i 0) && negb (fpx b)) || (negb (Z.eqb j 0) && negb (fpy b)) || (negb (Z.eqb k 0) && (f2d b || negb (fpz b)))).
Lemma images_eq b r check l : fimages b r check = Some l -> l = fv0 :: map (imv b) (filter (allowed b) ftriples).
Proof.
  unfold fimages. destruct (check && fimage_check b r); intros E; [discriminate|].
  assert (SI : forall (x y : list fvec), Some x = Some y -> y = x) by (intros x y H; congruence). apply SI in E. rewrite E. clear E SI l.
  assert (ST : forall total acc t, fimage_step b total acc t = if negb (length acc <? total)%nat then acc else if allowed b t then acc ++ [imv b t] else acc).
  { intros total acc [[i j] k]. unfold fimage_step, allowed, imv. destruct (negb (length acc <? total)%nat); auto. destruct (Z.eqb i 0 && Z.eqb j 0 && Z.eqb k 0); auto. cbn [negb andb]. destruct (_ || _); auto. }
  assert (FE : forall total ts acc, fold_left (fimage_step b total) ts acc = fold_left (fun acc t => if negb (length acc <? total)%nat then acc else if allowed b t then acc ++ [imv b t] else acc) ts acc).
  { intros total. induction ts as [|t ts IH]; intros acc; simpl; auto. rewrite ST. apply IH. }
  rewrite FE. generalize (imv b). intros f. unfold allowed, fn_images. destruct (fpx b), (fpy b), (f2d b), (fpz b); reflexivity.
Qed.
Lemma ftriples_in i j k : (Z.abs i <= 1 -> Z.abs j <= 1 -> Z.abs k <= 1 -> In (i, j, k) ftriples)%Z.
Proof.
  intros Hi Hj Hk. assert (I : (i = -1 \/ i = 0 \/ i = 1)%Z) by lia. assert (J : (j = -1 \/ j = 0 \/ j = 1)%Z) by lia. assert (K : (k = -1 \/ k = 0 \/ k = 1)%Z) by lia.
  destruct I as [->|[->| ->]], J as [->|[->| ->]], K as [->|[->| ->]]; vm_compute; tauto.
Qed.
Lemma ftriples_abs t : In t ftriples -> (Z.abs (fst (fst t)) <= 1 /\ Z.abs (snd (fst t)) <= 1 /\ Z.abs (snd t) <= 1)%Z.
Proof. intros H. vm_compute in H. repeat (destruct H as [<-|H]; [cbn; lia|]). destruct H. Qed.
Lemma allowed_cell b i j k : allowed b (i, j, k) = true <-> (i, j, k) <> (0, 0, 0)%Z /\ (i <> 0%Z -> fpx b = true) /\ (j <> 0%Z -> fpy b = true) /\ (k <> 0%Z -> fpz b = true /\ f2d b = false).
Proof.
  unfold allowed. destruct (Z.eqb_spec i 0), (Z.eqb_spec j 0), (Z.eqb_spec k 0); subst; destruct (fpx b), (fpy b), (fpz b), (f2d b); cbn; split; intros H; try discriminate; try reflexivity;
    repeat match goal with H : _ /\ _ |- _ => destruct H end; try (exfalso; congruence); try (repeat split; try congruence; intros; split; congruence);
    repeat match goal with H : ?a <> ?b -> _, N : ?a <> ?b |- _ => specialize (H N) end; repeat match goal with H : _ /\ _ |- _ => destruct H end; try discriminate; try (repeat split; congruence).
Qed.

(** * Exact image vectors without tilt *)
Lemma scale_exact (a : f32) (i : Z) : finite a = true -> (Z.abs i <= 1)%Z -> is (fmul a (lit i 0)) (IZR i * val a).
Proof.
  intros F H. destruct (is_lit_Z i ltac:(lia)) as [Fl Vl]. assert (E : val a * val (lit i 0) = IZR i * val a) by (rewrite Vl; ring).
  assert (FM : fmt (IZR i * val a)).
  { assert (I : (i = -1 \/ i = 0 \/ i = 1)%Z) by lia. destruct I as [->|[->| ->]].
    - replace (IZR (-1) * val a) with (- val a) by ring. apply fmt_opp, fmt_val.
    - rewrite Rmult_0_l. apply fmt_0.
    - rewrite Rmult_1_l. apply fmt_val. }
  destruct (fmul_val a (lit i 0) F Fl) as [I V]. rewrite E, rnd_fmt in I, V by auto.
  assert (B : Rabs (IZR i * val a) < bpow radix2 128).
  { eapply Rle_lt_trans; [|apply (abs_B2R_lt_emax 24 128 a)]. rewrite Rabs_mult. rewrite <- (Rmult_1_l (Rabs (val a))) at 2. apply Rmult_le_compat_r; [apply Rabs_pos|]. rewrite <- abs_IZR. apply (IZR_le _ 1). auto. }
  apply I in B. split; auto.
Qed.
Lemma add_zero_r (x y : f32) a : is x a -> is y 0 -> is (fadd x y) a.
Proof.
  intros [Fx Vx] [Fy Vy]. destruct (fadd_val x y Fx Fy) as [I V]. rewrite Vx, Vy, Rplus_0_r, rnd_fmt in I, V by (rewrite <- Vx; apply fmt_val).
  assert (B : Rabs a < bpow radix2 128) by (rewrite <- Vx; apply abs_B2R_lt_emax). apply I in B. split; auto.
Qed.
Lemma add_zero_l (x y : f32) a : is x 0 -> is y a -> is (fadd x y) a.
Proof.
  intros [Fx Vx] [Fy Vy]. destruct (fadd_val x y Fx Fy) as [I V]. rewrite Vx, Vy, Rplus_0_l, rnd_fmt in I, V by (rewrite <- Vy; apply fmt_val).
  assert (B : Rabs a < bpow radix2 128) by (rewrite <- Vy; apply abs_B2R_lt_emax). apply I in B. split; auto.
Qed.
Lemma mul_zero (x y : f32) : finite x = true -> is y 0 -> is (fmul x y) 0.
Proof.
  intros Fx [Fy Vy]. destruct (fmul_val x y Fx Fy) as [I V]. rewrite Vy, Rmult_0_r, rnd_0, Rabs_R0 in I. rewrite Vy, Rmult_0_r, rnd_0 in V.
  assert (F : finite (fmul x y) = true) by (apply I; apply bpow_gt_0). split; auto.
Qed.
Lemma scale_zero (a : f32) (i : Z) : is a 0 -> (Z.abs i <= 1)%Z -> is (fmul a (lit i 0)) 0.
Proof. intros [F V] H. destruct (scale_exact a i F H) as [F' V']. split; auto. rewrite V', V. ring. Qed.
Lemma is_zero : is fzero 0. Proof. split; reflexivity. Qed.
Lemma plain_fin b : plain_box b -> finite (fvx (fL b)) = true /\ finite (fvy (fL b)) = true /\ finite (fvz (fL b)) = true.
Proof. intros (A & B & C & _). split; [apply A|]. split; [apply B|]. destruct (f2d b); apply C. Qed.
Lemma imv_val b i j k : plain_box b -> (Z.abs i <= 1)%Z -> (Z.abs j <= 1)%Z -> (Z.abs k <= 1)%Z -> (k <> 0%Z -> f2d b = false) ->
  is (fvx (imv b (i, j, k))) (IZR i * val (fvx (fL b))) /\ is (fvy (imv b (i, j, k))) (IZR j * val (fvy (fL b))) /\ is (fvz (imv b (i, j, k))) (IZR k * val (fvz (fL b))).
Proof.
  intros PB Hi Hj Hk H2. destruct (plain_fin b PB) as (Fx & Fy & Fz). destruct PB as (_ & _ & _ & Zxy & Zxz & Zyz).
  unfold imv. cbn [fvadd fvscale fvx fvy fvz].
  assert (X0 := scale_exact (fvx (fL b)) i Fx Hi). assert (Y0 := scale_exact (fvy (fL b)) j Fy Hj).
  assert (ZA : is (fmul fzero (lit i 0)) 0) by (apply scale_zero; auto using is_zero). assert (ZB : is (fmul fzero (lit j 0)) 0) by (apply scale_zero; auto using is_zero). assert (ZC : is (fmul fzero (lit k 0)) 0) by (apply scale_zero; auto using is_zero).
  assert (B1 : is (fmul (fvx (flattice b 1)) (lit j 0)) 0) by (apply scale_zero; auto; apply mul_zero; auto).
  destruct (f2d b) eqn:D.
  - assert (K0 : k = 0%Z) by (destruct (Z.eq_dec k 0); auto; specialize (H2 n); discriminate). subst k. cbn [fv0 fvx fvy fvz]. rewrite Rmult_0_l.
    split; [apply add_zero_r; auto; apply add_zero_r; auto|]. split; [apply add_zero_r; auto; apply add_zero_l; auto|]. apply add_zero_r; auto. apply add_zero_r; auto.
  - assert (Z0 := scale_exact (fvz (fL b)) k Fz Hk).
    assert (C1 : is (fmul (fvx (flattice b 2)) (lit k 0)) 0) by (apply scale_zero; auto; apply mul_zero; auto). assert (C2 : is (fmul (fvy (flattice b 2)) (lit k 0)) 0) by (apply scale_zero; auto; apply mul_zero; auto).
    split; [apply add_zero_r; auto; apply add_zero_r; auto|]. split; [apply add_zero_r; auto; apply add_zero_l; auto|]. apply add_zero_l; auto. apply add_zero_r; auto.
Qed.
Lemma is_abs x a B : is x a -> Rabs a <= B -> B <= bpow radix2 60 -> ordinary_coord x.
Proof. intros [F V] H K. split; auto. rewrite V. lra. Qed.
Lemma imv_ordinary b i j k : plain_box b -> (Z.abs i <= 1)%Z -> (Z.abs j <= 1)%Z -> (Z.abs k <= 1)%Z -> (k <> 0%Z -> f2d b = false) -> ordinary_point (imv b (i, j, k)).
Proof.
  intros PB Hi Hj Hk H2. destruct (imv_val b i j k PB Hi Hj Hk H2) as (Ix & Iy & Iz). destruct PB as (A & B & C & _).
  assert (G : forall i L, (Z.abs i <= 1)%Z -> 0 <= L <= bpow radix2 60 -> Rabs (IZR i * L) <= bpow radix2 60).
  { intros n L Hn [H0 H1]. rewrite Rabs_mult, (Rabs_pos_eq L) by auto. rewrite <- abs_IZR. assert (IZR (Z.abs n) <= 1) by (apply (IZR_le _ 1); auto). nra. }
  assert (P := bpow_gt_0 radix2 (-60)). assert (P' := bpow_gt_0 radix2 60).
  destruct A as [_ A], B as [_ B]. split; [eapply is_abs; [exact Ix|apply G; [auto|lra]|lra]|]. split; [eapply is_abs; [exact Iy|apply G; [auto|lra]|lra]|].
  eapply is_abs; [exact Iz|apply G; [auto|]|apply Rle_refl]. destruct (f2d b); destruct C as [_ C]; [rewrite C|]; lra.
Qed.
Lemma images_cells b r check l : plain_box b -> fimages b r check = Some l ->
  (forall im, In im l -> exists i j k, neighbour_cell b i j k /\ ordinary_point im /\ rv im = V3 (IZR i * val (fvx (fL b))) (IZR j * val (fvy (fL b))) (IZR k * val (fvz (fL b)))) /\
  (forall i j k, neighbour_cell b i j k -> exists im, In im l /\ ordinary_point im /\ rv im = V3 (IZR i * val (fvx (fL b))) (IZR j * val (fvy (fL b))) (IZR k * val (fvz (fL b)))).
Proof.
  intros PB E. apply images_eq in E. subst l.
  assert (O0 : ordinary_point fv0) by (assert (P := bpow_gt_0 radix2 60); repeat split; try reflexivity; cbn; rewrite Rabs_R0; lra).
  assert (V : forall i j k, (Z.abs i <= 1)%Z -> (Z.abs j <= 1)%Z -> (Z.abs k <= 1)%Z -> (k <> 0%Z -> f2d b = false) -> rv (imv b (i, j, k)) = V3 (IZR i * val (fvx (fL b))) (IZR j * val (fvy (fL b))) (IZR k * val (fvz (fL b)))).
  { intros i j k Hi Hj Hk H2. destruct (imv_val b i j k PB Hi Hj Hk H2) as ([_ Ix] & [_ Iy] & [_ Iz]). unfold rv. rewrite Ix, Iy, Iz. reflexivity. }
  split.
  - intros im [<-|H].
    + exists 0%Z, 0%Z, 0%Z. split; [repeat split; try lia; congruence|]. split; auto. unfold rv, fv0. cbn [fvx fvy fvz]. vec_ext; cbn; ring.
    + apply in_map_iff in H as (((i, j), k) & <- & H). apply filter_In in H as [H A]. apply ftriples_abs in H as (Hi & Hj & Hk). cbn [fst snd] in Hi, Hj, Hk. apply allowed_cell in A as (_ & Ax & Ay & Az).
      assert (H2 : k <> 0%Z -> f2d b = false) by (intros N; apply Az; auto). exists i, j, k. split; [repeat split; auto; apply Az; auto|]. split; [apply imv_ordinary; auto|apply V; auto].
  - intros i j k ((Hi & Hj & Hk) & Ax & Ay & Az). assert (H2 : k <> 0%Z -> f2d b = false) by (intros N; apply Az; auto).
    destruct (Z.eq_dec i 0) as [Zi|Zi], (Z.eq_dec j 0) as [Zj|Zj], (Z.eq_dec k 0) as [Zk|Zk];
      try (exists (imv b (i, j, k)); split; [right; apply in_map; apply filter_In; split; [apply ftriples_in; auto|apply allowed_cell; repeat split; auto; try (apply Az; auto); congruence]|split; [apply imv_ordinary; auto|apply V; auto]]).
    subst. exists fv0. split; [left; auto|]. split; auto. unfold rv, fv0. cbn [fvx fvy fvz]. vec_ext; cbn; ring.
Qed.

(** * Symmetry without periodic images *)
Lemma images_open b r check l : open_box b -> fimages b r check = Some l -> l = [fv0].
Proof. intros (A & B & C) E. apply images_eq in E. subst l. unfold allowed. rewrite A, B, C. destruct (f2d b); reflexivity. Qed.
Lemma fsub_flip (x y : f32) : finite (fsub x (fadd y fzero)) = true -> finite (fsub y (fadd x fzero)) = true /\ val (fsub y (fadd x fzero)) = - val (fsub x (fadd y fzero)).
Proof.
  intros F. destruct (fsub_args _ _ F) as [Fx Fy']. destruct (fadd_args _ _ Fy') as [Fy _].
  destruct (add_zero_r x fzero (val x) (conj Fx eq_refl) is_zero) as [Gx Vx]. destruct (add_zero_r y fzero (val y) (conj Fy eq_refl) is_zero) as [Gy Vy].
  destruct (fsub_val x (fadd y fzero) Fx Gy) as [I1 E1]. destruct (fsub_val y (fadd x fzero) Fy Gx) as [I2 E2]. rewrite Vx in I2, E2. rewrite Vy in I1, E1.
  assert (O : rnd (val y - val x) = - rnd (val x - val y)) by (replace (val y - val x) with (- (val x - val y)) by ring; apply round_NE_opp).
  assert (G : finite (fsub y (fadd x fzero)) = true) by (apply I2; rewrite O, Rabs_Ropp; apply I1; auto). split; auto. rewrite E1, E2 by auto. auto.
Qed.
Lemma norm2_flip (x y : fvec) : finite (fnorm2 (fvsub x (fvadd y fv0))) = true ->
  finite (fnorm2 (fvsub y (fvadd x fv0))) = true /\ val (fnorm2 (fvsub y (fvadd x fv0))) = val (fnorm2 (fvsub x (fvadd y fv0))) /\
  rv (fvsub y (fvadd x fv0)) = (- rv (fvsub x (fvadd y fv0)))%V.
Proof.
  unfold fnorm2. cbn [fvsub fvadd fv0 fvx fvy fvz]. intros F. destruct (fadd_args _ _ F) as [Fxy Fz]. destruct (fadd_args _ _ Fxy) as [Fx Fy].
  assert (Gx := fmul_args _ Fx). assert (Gy := fmul_args _ Fy). assert (Gz := fmul_args _ Fz).
  destruct (fsub_flip _ _ Gx) as [Hx Vx]. destruct (fsub_flip _ _ Gy) as [Hy Vy]. destruct (fsub_flip _ _ Gz) as [Hz Vz].
  set (ax := fsub (fvx x) (fadd (fvx y) fzero)) in *. set (ay := fsub (fvy x) (fadd (fvy y) fzero)) in *. set (az := fsub (fvz x) (fadd (fvz y) fzero)) in *.
  set (bx := fsub (fvx y) (fadd (fvx x) fzero)) in *. set (b_y := fsub (fvy y) (fadd (fvy x) fzero)) in *. set (bz := fsub (fvz y) (fadd (fvz x) fzero)) in *.
  assert (SQ : forall a b : f32, finite b = true -> val b = - val a -> finite (fmul a a) = true -> finite (fmul b b) = true /\ val (fmul b b) = val (fmul a a) /\ 0 <= val (fmul a a)).
  { intros a b Fb V Fm. assert (Fa := fmul_args a Fm). destruct (fsq_le b a Fb ltac:(rewrite V, Rabs_Ropp; apply Rle_refl) Fm) as [F1 L1]. destruct (fsq_le a b Fa ltac:(rewrite V, Rabs_Ropp; apply Rle_refl) F1) as [F2 L2]. split; auto. split; [apply Rle_antisym; lra|lra]. }
  destruct (SQ ax bx Hx Vx Fx) as (Qx & Wx & Px). destruct (SQ ay b_y Hy Vy Fy) as (Qy & Wy & Py). destruct (SQ az bz Hz Vz Fz) as (Qz & Wz & Pz).
  assert (AD : forall a a' c c' : f32, finite a' = true -> finite c' = true -> val a' = val a -> val c' = val c -> 0 <= val a -> 0 <= val c -> finite (fadd a c) = true -> finite (fadd a' c') = true /\ val (fadd a' c') = val (fadd a c) /\ 0 <= val (fadd a c)).
  { intros a a' c c' Fa Fc Ea Ec Pa Pc Fs. destruct (fadd_le a a' c c' Fa Fc ltac:(rewrite Ea; lra) ltac:(rewrite Ec; lra) Fs) as [F1 L1]. destruct (fadd_args _ _ Fs) as [G1 G2]. destruct (fadd_le a' a c' c G1 G2 ltac:(rewrite Ea; lra) ltac:(rewrite Ec; lra) F1) as [F2 L2]. split; auto. split; [apply Rle_antisym; lra|lra]. }
  destruct (AD _ _ _ _ Qx Qy Wx Wy Px Py Fxy) as (S1 & T1 & U1). destruct (AD _ _ _ _ S1 Qz T1 Wz U1 Pz F) as (S2 & T2 & U2).
  split; auto. split; auto. unfold rv. cbn [fvx fvy fvz]. vec_ext; assumption.
Qed.
Lemma lt_same (x y r : f32) : finite x = true -> finite y = true -> val x = val y -> Bltb x r = Bltb y r.
Proof.
  intros Fx Fy E. destruct (Bltb x r) eqn:H.
  - symmetry. apply (lt_mono y x r); auto. lra.
  - destruct (Bltb y r) eqn:H'; auto. rewrite (lt_mono x y r) in H; auto; lra.
Qed.
Lemma le_same (x y r : f32) : finite x = true -> finite y = true -> val x = val y -> Bleb r x = Bleb r y.
Proof.
  intros Fx Fy E. destruct (finite r) eqn:Fr.
  - rewrite !Bleb_correct by auto. rewrite E. auto.
  - destruct r as [|[]| |]; try discriminate; destruct x as [[]|[]| |[] ? ? ?], y as [[]|[]| |[] ? ? ?]; try discriminate; reflexivity.
Qed.
