(** Proofs for C61: lengths, bounds, the average tensor and the order of the particles. *)
From Coq Require Import Reals List Lra Lia Permutation.
From Verif Require Import ParProofs NListProofs QuatProofs CubaticModel CubaticProofs.
From Verif Require Import CubaticSpec.
Import ListNotations.
Local Open Scope R_scope.

(** ** Lengths *)
Lemma axis_dot q a b : (a < 3)%nat -> (b < 3)%nat -> dot (axis q a) (axis q b) = qnorm2 q * qnorm2 q * delta a b.
Proof.
  intros Ha Hb. unfold axis. rewrite rotate_norm2. f_equal.
  do 3 (destruct a as [|a]; [do 3 (destruct b as [|b]; [unfold dot, delta; cbn -[Rplus Rmult]; ring|]); lia|]); lia.
Qed.
Lemma sq_len_cube q : sq_len (cube q) = 12 * (qnorm2 q ^ 4) ^ 2 - 72 / 5 * qnorm2 q ^ 4 + 36 / 5.
Proof.
  unfold sq_len. rewrite ip_cube. unfold quartic, sum3. rewrite !axis_dot by lia. unfold delta. cbn [Nat.eqb]. field.
Qed.
Lemma sq_len_pos q : 0 < sq_len (cube q).
Proof.
  rewrite sq_len_cube. set (x := qnorm2 q ^ 4).
  assert (H : 12 * x ^ 2 - 72 / 5 * x + 36 / 5 = 12 * (x - 3 / 5) ^ 2 + 72 / 25) by field. rewrite H.
  assert (H' := pow2_ge_0 (x - 3 / 5)). lra.
Qed.
Lemma sq_len_unit q : unitq q -> sq_len (cube q) = 24 / 5.
Proof. intros H. apply unitq_norm2 in H. rewrite sq_len_cube, H. lra. Qed.

Lemma ip_unit p q : unitq p -> unitq q -> ip (cube p) (cube q) = 4 * quartic p q - 36 / 5.
Proof.
  intros Hp Hq. apply unitq_norm2 in Hp, Hq. rewrite ip_cube. unfold sum3. rewrite !axis_dot by lia. rewrite Hp, Hq.
  unfold delta. cbn [Nat.eqb]. lra.
Qed.
Lemma parseval q v : sum3 (fun b => dot v (axis q b) ^ 2) = qnorm2 q * qnorm2 q * dot v v.
Proof.
  destruct q as [s [x y z]], v as [v1 v2 v3]. unfold sum3, axis, rotate, qnorm2, dot, cross, vadd, vscale. cbn -[Rplus Rmult Rminus pow]. ring.
Qed.
Lemma quartic_bounds p q : unitq p -> unitq q -> 1 <= quartic p q <= 3.
Proof.
  intros Hp Hq. apply unitq_norm2 in Hp, Hq.
  assert (H : forall a, (a < 3)%nat -> 1 / 3 <= sum3 (fun b => dot (axis p a) (axis q b) ^ 4) <= 1).
  { intros a Ha. assert (P := parseval q (axis p a)). rewrite axis_dot in P by lia. rewrite Hp, Hq in P.
    unfold delta in P. rewrite Nat.eqb_refl in P. unfold sum3 in *.
    generalize dependent (dot (axis p a) (axis q 0)). generalize (dot (axis p a) (axis q 1)). generalize (dot (axis p a) (axis q 2)).
    intros z y x P. assert (Hx := pow2_ge_0 x). assert (Hy := pow2_ge_0 y). assert (Hz := pow2_ge_0 z).
    replace (x ^ 4) with (x ^ 2 * x ^ 2) by ring. replace (y ^ 4) with (y ^ 2 * y ^ 2) by ring. replace (z ^ 4) with (z ^ 2 * z ^ 2) by ring.
    generalize dependent (x ^ 2). generalize dependent (y ^ 2). generalize dependent (z ^ 2). intros c Hc b Hb a' P Ha'.
    assert (E : c = 1 - a' - b) by lra. subst c. split.
    - assert (S1 := pow2_ge_0 (a' - 1 / 3)). assert (S2 := pow2_ge_0 (b - 1 / 3)). assert (S3 := pow2_ge_0 (a' + b - 2 / 3)). nra.
    - assert (0 <= a' * b) by (apply Rmult_le_pos; lra). assert (0 <= a' * (1 - a' - b)) by (apply Rmult_le_pos; lra).
      assert (0 <= b * (1 - a' - b)) by (apply Rmult_le_pos; lra). nra. }
  unfold quartic. unfold sum3 at 1 3. assert (H0 := H 0%nat ltac:(lia)). assert (H1 := H 1%nat ltac:(lia)). assert (H2 := H 2%nat ltac:(lia)). lra.
Qed.

(** ** Sums *)
Lemma fold_sum {A} (f : A -> R) l s : fold_left (fun s j => s + f j) l s = s + Rsum (map f l).
Proof. revert s. induction l as [|x l IH]; intros s; cbn [fold_left map Rsum fold_right]; [lra|]. rewrite IH. unfold Rsum. lra. Qed.
Lemma Rsum_seq {A} (f : A -> R) (l : list A) d : Rsum (map (fun j => f (nth j l d)) (seq 0 (length l))) = Rsum (map f l).
Proof.
  f_equal. rewrite <- (map_nth_range l d) at 2. unfold range. rewrite Nat.sub_0_r, map_map. reflexivity.
Qed.
Lemma Rsum_const {A} (f : A -> R) c (l : list A) : Rsum (map (fun a => f a - c) l) = Rsum (map f l) - INR (length l) * c.
Proof.
  induction l as [|a l IH]; cbn [map Rsum fold_right length]; [cbn; lra|]. fold (Rsum (map (fun a => f a - c) l)).
  rewrite IH, S_INR. unfold Rsum. lra.
Qed.
Lemma Rsum_scale {A} (f : A -> R) c (l : list A) : Rsum (map (fun a => c * f a) l) = c * Rsum (map f l).
Proof. induction l as [|a l IH]; cbn [map Rsum fold_right]; [lra|]. unfold Rsum in *. rewrite IH. lra. Qed.
Lemma Rsum_plus {A} (f g : A -> R) (l : list A) : Rsum (map (fun a => f a + g a) l) = Rsum (map f l) + Rsum (map g l).
Proof. induction l as [|a l IH]; cbn [map Rsum fold_right]; [lra|]. unfold Rsum in *. rewrite IH. lra. Qed.
Lemma Rsum_perm l l' : Permutation l l' -> Rsum l = Rsum l'.
Proof. induction 1; cbn; unfold Rsum in *; lra. Qed.
Lemma Rsum_bound {A} (f : A -> R) lo hi (l : list A) : Forall (fun a => lo <= f a <= hi) l ->
  INR (length l) * lo <= Rsum (map f l) <= INR (length l) * hi.
Proof.
  induction 1 as [|a l H _ IH]; cbn [map Rsum fold_right length]; [cbn; lra|]. rewrite S_INR. unfold Rsum in *. lra.
Qed.

(** ** The average tensor *)
Definition bare (q : quat) : T4 := fun i j k l =>
  sum3 (fun a => comp (axis q a) i * comp (axis q a) j * comp (axis q a) k * comp (axis q a) l) * 2.
Lemma bare_tab q : t_scale (fold_left (fun t v => t_add t (tensor4 (rotate q v))) system_vectors t_zero) 2 = tab (bare q).
Proof.
  unfold system_vectors. cbn [fold_left]. rewrite tab_zero, !tab_vec, !tab_add, tab_scale. apply tab_ext. intros. unfold bare, sum3, axis. lra.
Qed.
Lemma particle_tensors_spec os ev : execution 0 (length os) ev -> particle_tensors os ev = map (fun q => tab (bare q)) os.
Proof.
  intros H. unfold particle_tensors.
  rewrite (par_write (fun i => t_scale (fold_left (fun t v => t_add t (tensor4 (rotate (nth i os qid) v))) system_vectors t_zero) 2) (length os));
    [|assumption|apply repeat_length].
  transitivity (map (fun q => tab (bare q)) (map (fun i => nth i os qid) (range 0 (length os)))).
  - rewrite map_map. apply map_ext. intros i. apply bare_tab.
  - now rewrite map_nth_range.
Qed.
Lemma tab_get_sum {A} (h : A -> T4) (l : list A) c :
  map (fun e => Rsum (map (fun j => t_get (tab (h j)) e) l) * c) (range 0 81) =
  tab (fun i j k m => Rsum (map (fun q => h q i j k m) l) * c).
Proof. reflexivity. Qed.
Lemma global_spec os ev1 ev2 : os <> [] -> execution 0 (length os) ev1 -> execution 0 81 ev2 ->
  global_tensor os ev1 ev2 = tab (average os).
Proof.
  intros Hn H1 H2. unfold global_tensor. rewrite (particle_tensors_spec os ev1 H1).
  rewrite (par_write (fun e => fold_left (fun s j => s + t_get (nth j (map (fun q => tab (bare q)) os) t_zero) e) (seq 0 (length os)) 0 * (1 / INR (length os))) 81);
    [|assumption|reflexivity].
  assert (HN : INR (length os) <> 0). { destruct os; [congruence|]. apply not_0_INR. discriminate. }
  transitivity (t_sub (map (fun e => Rsum (map (fun q => t_get (tab (bare q)) e) os) * (1 / INR (length os))) (range 0 81)) gen_r4).
  - f_equal. apply map_ext. intros e. f_equal. rewrite fold_sum, Rplus_0_l.
    rewrite <- (Rsum_seq (fun q => t_get (tab (bare q)) e) os qid). f_equal. apply map_ext_in. intros j Hj. apply in_seq in Hj.
    f_equal. rewrite (nth_indep _ t_zero (tab (bare qid))) by (rewrite map_length; lia). apply (map_nth (fun q => tab (bare q))).
  - rewrite (tab_get_sum bare), tab_r4, tab_sub. apply tab_ext. intros i j k l. unfold less, average.
    transitivity (Rsum (map (fun q => bare q i j k l - (ident i j * ident k l + ident i k * ident j l + ident i l * ident j k) * (2 / 5)) os) / INR (length os)).
    + rewrite Rsum_const. field. exact HN.
    + f_equal. f_equal. apply map_ext. intros q. unfold bare, cube, ident, delta. lra.
Qed.

(** Contractions with the average. *)
Lemma ip_average os c : ip (average os) c = Rsum (map (fun q => ip (cube q) c) os) / INR (length os).
Proof.
  unfold Rdiv. rewrite Rmult_comm.
  assert (H : forall l, ip (fun i j k m => Rsum (map (fun q => cube q i j k m) l)) c = Rsum (map (fun q => ip (cube q) c) l)).
  { induction l as [|q l IH].
    - apply ip_zero_l.
    - cbn [map Rsum fold_right]. fold (Rsum (map (fun q => ip (cube q) c) l)). rewrite <- IH.
      rewrite (ip_ext _ (lin 1 (cube q) 1 (fun i j k m => Rsum (map (fun q => cube q i j k m) l))) c c); [|intros; unfold lin, Rsum; lra|reflexivity].
      rewrite ip_lin_l. lra. }
  rewrite <- H. rewrite (ip_ext _ (lin (/ INR (length os)) (fun i j k m => Rsum (map (fun q => cube q i j k m) os)) 0 zero4) c c);
    [|intros; unfold average, lin, zero4, Rdiv; lra|reflexivity].
  rewrite ip_lin_l, ip_zero_l. lra.
Qed.
Lemma match_order_ip c g : sq_len c <> 0 -> match_order c g = (2 * ip g c - ip g g) / sq_len c.
Proof.
  intros H. unfold match_order. unfold sq_len at 1.
  rewrite (ip_ext _ (lin 1 g (-1) c) _ (lin 1 g (-1) c)); try (intros; unfold less, lin; lra).
  rewrite ip_lin_l, !ip_lin_r, (ip_comm c g). unfold sq_len in *. field. exact H.
Qed.
Lemma ip_nonneg a : 0 <= ip a a.
Proof. unfold ip, sum4, sum3. repeat apply Rplus_le_le_0_compat; apply Rle_0_sqr. Qed.
Lemma match_order_le c g : 0 < sq_len c -> match_order c g <= 1.
Proof.
  intros H. unfold match_order. assert (H' := ip_nonneg (less g c)).
  assert (0 <= sq_len (less g c) / sq_len c) by (apply Rmult_le_pos; [assumption|apply Rlt_le, Rinv_0_lt_compat; assumption]). lra.
Qed.
Lemma ip_zero_all a : ip a a = 0 -> same_tensor a zero4.
Proof.
  intros H i j k l Hi Hj Hk Hl. unfold zero4.
  assert (S : forall f, (forall i, 0 <= f i) -> sum3 f = 0 -> forall i, (i < 3)%nat -> f i = 0).
  { intros f Hf E m Hm. unfold sum3 in E. assert (H0 := Hf 0%nat). assert (H1 := Hf 1%nat). assert (H2 := Hf 2%nat).
    do 3 (destruct m as [|m]; [lra|]). lia. }
  assert (P : forall f, (forall i, 0 <= f i) -> 0 <= sum3 f) by (intros f Hf; unfold sum3; assert (H0 := Hf 0%nat); assert (H1 := Hf 1%nat); assert (H2 := Hf 2%nat); lra).
  unfold ip, sum4 in H.
  apply S with (i := i) in H; [|intros; do 3 (apply P; intros); apply Rle_0_sqr|assumption].
  apply S with (i := j) in H; [|intros; do 2 (apply P; intros); apply Rle_0_sqr|assumption].
  apply S with (i := k) in H; [|intros; do 1 (apply P; intros); apply Rle_0_sqr|assumption].
  apply S with (i := l) in H; [|intros; apply Rle_0_sqr|assumption].
  apply Rmult_integral in H. tauto.
Qed.
Lemma match_order_one c g : 0 < sq_len c -> (match_order c g = 1 <-> same_tensor g c).
Proof.
  intros H. unfold match_order. split; intros E.
  - assert (E' : sq_len (less g c) = 0).
    { assert (E2 : sq_len (less g c) / sq_len c = 0) by lra. apply Rmult_integral in E2. destruct E2 as [E2|E2]; [exact E2|].
      exfalso. apply Rinv_neq_0_compat in E2; [contradiction|lra]. }
    intros i j k l Hi Hj Hk Hl. assert (Z := ip_zero_all _ E' i j k l Hi Hj Hk Hl). unfold less, zero4 in Z. lra.
  - assert (E' : sq_len (less g c) = 0).
    { unfold sq_len, ip, sum4, sum3, less. rewrite !E by lia. ring. }
    rewrite E'. field. lra.
Qed.
