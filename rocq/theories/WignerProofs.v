(** Wigner 3j symbols with three equal l as integers times square roots. *)
From Coq Require Import Reals ZArith List Lra Lia Bool.
From Verif Require Import RBase SteinProofs3 SteinSpec WignerModel WignerSpec.
Import ListNotations.
Local Open Scope R_scope.

(** ** Binomial coefficients *)
Fixpoint pascal_next (p : Z) (r : list Z) : list Z := match r with [] => [p] | x :: r => (p + x)%Z :: pascal_next x r end.
Fixpoint pascal (n : nat) : list Z := match n with O => [1%Z] | S n => pascal_next 0 (pascal n) end.
Definition bino (row : list Z) (l k : Z) : Z := if ((0 <=? k) && (k <=? l))%Z%bool then nth (Z.to_nat k) row 0%Z else 0%Z.
Lemma pascal_next_length r : forall p, length (pascal_next p r) = S (length r).
Proof. induction r; intros p; simpl; [reflexivity|]. now rewrite IHr. Qed.
Lemma pascal_length n : length (pascal n) = S n.
Proof. induction n; [reflexivity|]. simpl. now rewrite pascal_next_length, IHn. Qed.
Lemma pascal_next_nth r : forall p k, nth k (pascal_next p r) 0%Z = (match k with O => p | S k => nth k r 0 end + nth k r 0)%Z.
Proof.
  induction r as [|x r IH]; intros p k; [destruct k as [|[|k]]; simpl; lia|]. destruct k as [|k]; [reflexivity|]. simpl. rewrite IH. destruct k; reflexivity.
Qed.
Lemma C_zero n : C n 0 = 1.
Proof. unfold C. rewrite Nat.sub_0_r. change (INR (fact 0)) with 1. field. apply INR_fact_neq_0. Qed.
Lemma C_full n : C n n = 1.
Proof. unfold C. rewrite Nat.sub_diag. change (INR (fact 0)) with 1. field. apply INR_fact_neq_0. Qed.
Lemma pascal_C n : forall k, (k <= n)%nat -> IZR (nth k (pascal n) 0%Z) = C n k.
Proof.
  induction n as [|n IH]; intros k Hk.
  - replace k with 0%nat by lia. unfold C. simpl. field.
  - simpl pascal. rewrite pascal_next_nth. destruct k as [|k].
    + rewrite Z.add_0_l, IH, !C_zero by lia. reflexivity.
    + destruct (Nat.eq_dec k n) as [->|Hn].
      * rewrite (nth_overflow _ _ (n := S n)) by (rewrite pascal_length; lia). rewrite Z.add_0_r, IH, !C_full by lia. reflexivity.
      * rewrite plus_IZR, !IH by lia. rewrite Binomial.pascal by lia. reflexivity.
Qed.
Lemma F_pos z : 0 < F z. Proof. apply lt_0_INR, lt_O_fact. Qed.
Lemma F_neq z : F z <> 0. Proof. apply Rgt_not_eq, F_pos. Qed.
Definition bz (l : nat) (k : Z) : Z := bino (pascal l) (Z.of_nat l) k.
Lemma bz_out l k : (k < 0 \/ Z.of_nat l < k)%Z -> bz l k = 0%Z.
Proof. intros H. unfold bz, bino. destruct (Z.leb_spec 0 k), (Z.leb_spec k (Z.of_nat l)); simpl; auto; lia. Qed.
Lemma bz_fact l k : (0 <= k <= Z.of_nat l)%Z -> IZR (bz l k) * (F k * F (Z.of_nat l - k)) = F (Z.of_nat l).
Proof.
  intros H. unfold bz, bino. replace (0 <=? k)%Z with true by lia. replace (k <=? Z.of_nat l)%Z with true by lia. cbn [andb].
  rewrite pascal_C by lia. unfold C, F. rewrite Nat2Z.id. replace (Z.to_nat (Z.of_nat l - k)) with (l - Z.to_nat k)%nat by lia.
  field. split; apply INR_fact_neq_0.
Qed.
Lemma bz_sym l k : bz l (Z.of_nat l - k) = bz l k.
Proof.
  destruct (Z_lt_dec k 0); [rewrite !bz_out by lia; reflexivity|]. destruct (Z_lt_dec (Z.of_nat l) k); [rewrite !bz_out by lia; reflexivity|].
  apply eq_IZR. assert (E1 := bz_fact l k ltac:(lia)). assert (E2 := bz_fact l (Z.of_nat l - k) ltac:(lia)).
  replace (Z.of_nat l - (Z.of_nat l - k))%Z with k in E2 by lia. assert (P1 := F_pos k). assert (P2 := F_pos (Z.of_nat l - k)).
  apply Rmult_eq_reg_r with (F k * F (Z.of_nat l - k)); [|nra]. rewrite E1, <- E2. ring.
Qed.

(** ** Sums over integers *)
Definition sgn (z : Z) : Z := if Z.even z then 1%Z else (-1)%Z.
Lemma sgn_add a b : sgn (a + b) = (sgn a * sgn b)%Z.
Proof. unfold sgn. rewrite Z.even_add. destruct (Z.even a), (Z.even b); reflexivity. Qed.
Lemma sgn_opp a : sgn (- a) = sgn a. Proof. unfold sgn. now rewrite Z.even_opp. Qed.
Lemma sgn_sq a : (sgn a * sgn a = 1)%Z. Proof. unfold sgn. destruct (Z.even a); reflexivity. Qed.
Lemma parity_sgn z : parity z = IZR (sgn z). Proof. unfold parity, sgn. now destruct (Z.even z). Qed.
Fixpoint zs (f : Z -> Z) (a : Z) (n : nat) : Z := match n with O => 0%Z | S n => (f a + zs f (a + 1) n)%Z end.
Lemma zs_ext f g a n : (forall t, (a <= t < a + Z.of_nat n)%Z -> f t = g t) -> zs f a n = zs g a n.
Proof. revert a. induction n; intros a H; simpl; [reflexivity|]. rewrite (H a) by lia. rewrite IHn by (intros; apply H; lia). reflexivity. Qed.
Lemma zs_zero f a n : (forall t, (a <= t < a + Z.of_nat n)%Z -> f t = 0%Z) -> zs f a n = 0%Z.
Proof. revert a. induction n; intros a H; simpl; [reflexivity|]. rewrite (H a) by lia. rewrite IHn by (intros; apply H; lia). reflexivity. Qed.
Lemma zs_app f a n m : zs f a (n + m) = (zs f a n + zs f (a + Z.of_nat n) m)%Z.
Proof.
  revert a. induction n; intros a.
  - change (Z.of_nat 0) with 0%Z. rewrite Z.add_0_r. reflexivity.
  - cbn [Nat.add zs]. rewrite IHn. replace (a + 1 + Z.of_nat n)%Z with (a + Z.of_nat (S n))%Z by lia. lia.
Qed.
(** Windows that contain the support. *)
Lemma zs_window f lo n a m : (forall t, (t < lo \/ lo + Z.of_nat n <= t)%Z -> f t = 0%Z) -> (a <= lo)%Z -> (lo + Z.of_nat n <= a + Z.of_nat m)%Z -> zs f a m = zs f lo n.
Proof.
  intros H Ha Hm. replace m with (Z.to_nat (lo - a) + (n + (m - Z.to_nat (lo - a) - n)))%nat by lia. rewrite !zs_app.
  rewrite (zs_zero f a) by (intros; apply H; lia). rewrite (zs_zero f _ (m - _ - n)) by (intros; apply H; lia). replace (a + Z.of_nat (Z.to_nat (lo - a)))%Z with lo by lia. lia.
Qed.
Lemma zs_shift f c a n : zs (fun t => f (t + c)%Z) a n = zs f (a + c) n.
Proof. revert a. induction n; intros a; simpl; [reflexivity|]. rewrite IHn. replace (a + 1 + c)%Z with (a + c + 1)%Z by lia. reflexivity. Qed.
Lemma zs_scale f c a n : zs (fun t => (c * f t)%Z) a n = (c * zs f a n)%Z.
Proof. revert a. induction n; intros a; simpl; [lia|]. rewrite IHn. lia. Qed.
Lemma zs_last f a n : zs f a (S n) = (zs f a n + f (a + Z.of_nat n))%Z.
Proof. replace (S n) with (n + 1)%nat by lia. rewrite zs_app. simpl. lia. Qed.
Lemma zs_flip f a n : zs (fun t => f (- t)%Z) a n = zs f (1 - a - Z.of_nat n) n.
Proof.
  revert a. induction n; intros a; [reflexivity|]. rewrite zs_last. cbn [zs]. rewrite IHn. replace (1 - a - Z.of_nat n)%Z with (1 - a - Z.of_nat (S n) + 1)%Z by lia.
  replace (- (a + Z.of_nat n))%Z with (1 - a - Z.of_nat (S n))%Z by lia. apply Z.add_comm.
Qed.
Lemma zs_real f n : IZR (zs f 0 (S n)) = sum_f_R0 (fun t => IZR (f (Z.of_nat t))) n.
Proof.
  induction n; [simpl; rewrite Z.add_0_r; reflexivity|]. rewrite zs_last, plus_IZR, IHn. cbn [sum_f_R0]. rewrite Z.add_0_l. reflexivity.
Qed.

(** ** The integer factor of the symbol *)
Definition zterm (l : nat) (m1 m2 t : Z) : Z := (sgn t * (bz l t * bz l (t + m1) * bz l (t - m2)))%Z.
Definition zsum (l : nat) (m1 m2 : Z) : Z := zs (zterm l m1 m2) 0 (S l).
Definition G (l : nat) (m1 m2 m3 : Z) : R :=
  let l := Z.of_nat l in F (l + m1) * F (l - m1) * F (l + m2) * F (l - m2) * F (l + m3) * F (l - m3) / (F (3 * l + 1) * F l ^ 3).
Lemma wigner_zsum l m1 m2 : wigner l m1 m2 = IZR (sgn (m1 + m2) * zsum l m1 m2) * sqrt (G l m1 m2 (- m1 - m2)).
Proof.
  unfold wigner, wigner3j. set (L := Z.of_nat l). replace (L - L - (- m1 - m2))%Z with (m1 + m2)%Z by lia. replace (L + L - L)%Z with L by lia. replace (L - L + L)%Z with L by lia.
  replace (- L + L + L)%Z with L by lia. replace (L + L + L + 1)%Z with (3 * L + 1)%Z by lia. rewrite parity_sgn, mult_IZR.
  assert (P := F_pos L). assert (P3 := F_pos (3 * L + 1)).
  assert (S : sum_f_R0 (fun t => racah_term L L L m1 m2 (Z.of_nat t)) (Z.to_nat L) = IZR (zsum l m1 m2) / F L ^ 3).
  { replace (Z.to_nat L) with l by (unfold L; lia). unfold zsum. rewrite zs_real. unfold Rdiv. rewrite Rmult_comm, scal_sum. apply sum_eq. intros i Hi.
    unfold racah_term, zterm. replace (L - L + Z.of_nat i + m1)%Z with (Z.of_nat i + m1)%Z by lia. replace (L - L + Z.of_nat i - m2)%Z with (Z.of_nat i - m2)%Z by lia.
    replace (L + L - L - Z.of_nat i)%Z with (L - Z.of_nat i)%Z by lia. set (t := Z.of_nat i) in *. assert (Ht : (0 <= t <= L)%Z) by (unfold t, L; lia).
    replace (0 <=? t)%Z with true by lia. replace (0 <=? L - t)%Z with true by lia. cbn [andb].
    destruct (Z.leb_spec 0 (t + m1)) as [A|A]; cbn [andb]; [|rewrite (bz_out l (t + m1)) by lia; rewrite Z.mul_0_r, Z.mul_0_l, Z.mul_0_r; lra].
    destruct (Z.leb_spec 0 (t - m2)) as [B|B]; cbn [andb]; [|rewrite (bz_out l (t - m2)) by lia; rewrite !Z.mul_0_r; lra].
    destruct (Z.leb_spec 0 (L - t - m1)) as [A'|A']; cbn [andb]; [|rewrite (bz_out l (t + m1)) by (unfold L in *; lia); rewrite Z.mul_0_r, Z.mul_0_l, Z.mul_0_r; lra].
    destruct (Z.leb_spec 0 (L - t + m2)) as [B'|B']; cbn [andb]; [|rewrite (bz_out l (t - m2)) by (unfold L in *; lia); rewrite !Z.mul_0_r; lra].
    rewrite parity_sgn, !mult_IZR. assert (E0 := bz_fact l t Ht). assert (E1 := bz_fact l (t + m1) ltac:(unfold L in *; lia)). assert (E2 := bz_fact l (t - m2) ltac:(unfold L in *; lia)).
    fold L in E0, E1, E2. replace (L - (t + m1))%Z with (L - t - m1)%Z in E1 by lia. replace (L - (t - m2))%Z with (L - t + m2)%Z in E2 by lia.
    assert (Q0 := F_pos t). assert (Q1 := F_pos (L - t)). assert (Q2 := F_pos (t + m1)). assert (Q3 := F_pos (L - t - m1)). assert (Q4 := F_pos (t - m2)). assert (Q5 := F_pos (L - t + m2)).
    replace (F L ^ 3) with ((IZR (bz l t) * (F t * F (L - t))) * (IZR (bz l (t + m1)) * (F (t + m1) * F (L - t - m1))) * (IZR (bz l (t - m2)) * (F (t - m2) * F (L - t + m2)))) by (rewrite E0, E1, E2; ring).
    field. assert (N : forall a b, a * b = F L -> a <> 0) by (intros a b E Z; rewrite Z, Rmult_0_l in E; lra). repeat split; try (apply Rgt_not_eq; assumption); eapply N; eassumption. }
  rewrite S. unfold G. fold L. set (X := F (L + m1) * F (L - m1) * F (L + m2) * F (L - m2) * F (L + (- m1 - m2)) * F (L - (- m1 - m2))).
  assert (PX : 0 <= X) by (unfold X; repeat apply Rmult_le_pos; apply Rlt_le, F_pos).
  replace (X / (F (3 * L + 1) * F L ^ 3)) with ((F L * F L * F L / F (3 * L + 1)) * X * (/ F L ^ 3) ^ 2) by (field; split; apply F_neq).
  assert (P0 : 0 <= F L * F L * F L / F (3 * L + 1)) by (apply Rlt_le, Rdiv_lt_0_compat; [repeat apply Rmult_lt_0_compat|]; assumption).
  assert (PI3 : 0 < / F L ^ 3) by (apply Rinv_0_lt_compat, pow_lt, P).
  rewrite sqrt_mult by (solve [now apply Rmult_le_pos|apply pow_le; lra]). rewrite (sqrt_mult _ X P0 PX). rewrite sqrt_pow2 by lra. unfold Rdiv. ring.
Qed.

(** ** Symmetries *)
Lemma zterm_out l m1 m2 t : (t < 0 \/ Z.of_nat l < t)%Z -> zterm l m1 m2 t = 0%Z.
Proof. intros H. unfold zterm. rewrite (bz_out l t H). lia. Qed.
Lemma zsum_neg l m1 m2 : zsum l (- m1) (- m2) = (sgn (Z.of_nat l) * zsum l m1 m2)%Z.
Proof.
  unfold zsum. rewrite <- zs_scale. transitivity (zs (fun t => zterm l (- m1) (- m2) (- t + Z.of_nat l)) 0 (S l)).
  - rewrite (zs_flip (fun t => zterm l (- m1) (- m2) (t + Z.of_nat l))). rewrite zs_shift. f_equal. lia.
  - apply zs_ext. intros t _. unfold zterm. rewrite sgn_add, sgn_opp. replace (- t + Z.of_nat l)%Z with (Z.of_nat l - t)%Z by lia. rewrite bz_sym.
    replace (Z.of_nat l - t + - m1)%Z with (Z.of_nat l - (t + m1))%Z by lia. rewrite bz_sym. replace (Z.of_nat l - t - - m2)%Z with (Z.of_nat l - (t - m2))%Z by lia. rewrite bz_sym. ring.
Qed.
Lemma zsum_swap l m1 m2 : zsum l m2 m1 = (sgn (Z.of_nat l) * zsum l m1 m2)%Z.
Proof.
  rewrite <- zsum_neg. unfold zsum. apply zs_ext. intros t _. unfold zterm. replace (t - - m2)%Z with (t + m2)%Z by lia. replace (t + - m1)%Z with (t - m1)%Z by lia. ring.
Qed.
Lemma zsum_turn l m1 m2 : zsum l m1 (- m1 - m2) = (sgn m1 * sgn (Z.of_nat l) * zsum l m1 m2)%Z.
Proof.
  rewrite <- Z.mul_assoc, <- zsum_neg. unfold zsum. rewrite <- zs_scale.
  (* s = t + m1 *)
  transitivity (zs (fun t => sgn m1 * zterm l (- m1) (- m2) (t + m1))%Z 0 (S l)).
  { apply zs_ext. intros t _. unfold zterm. rewrite sgn_add. replace (t + m1 + - m1)%Z with t by lia. replace (t + m1 - - m2)%Z with (t - (- m1 - m2))%Z by lia.
    replace (sgn m1 * (sgn t * sgn m1 * (bz l (t + m1) * bz l t * bz l (t - (- m1 - m2)))))%Z with ((sgn m1 * sgn m1) * (sgn t * (bz l (t + m1) * bz l t * bz l (t - (- m1 - m2)))))%Z by ring.
    rewrite sgn_sq. ring. }
  rewrite (zs_shift (fun t => sgn m1 * zterm l (- m1) (- m2) t)%Z m1). rewrite !zs_scale. f_equal.
  (* both windows contain the support *)
  assert (H : forall t, (t < 0 \/ 0 + Z.of_nat (S l) <= t)%Z -> zterm l (- m1) (- m2) t = 0%Z) by (intros; apply zterm_out; lia).
  assert (H' : forall t, (t < m1 \/ m1 + Z.of_nat (S l) <= t)%Z -> zterm l (- m1) (- m2) t = 0%Z).
  { intros t Ht. unfold zterm. rewrite (bz_out l (t + - m1)) by lia. rewrite Z.mul_0_r, Z.mul_0_l, Z.mul_0_r. reflexivity. }
  replace (0 + m1)%Z with m1 by lia.
  rewrite <- (zs_window _ m1 (S l) (Z.min 0 m1) (S l + Z.to_nat (Z.abs m1)) H') by lia.
  rewrite <- (zs_window _ 0 (S l) (Z.min 0 m1) (S l + Z.to_nat (Z.abs m1)) H) by lia. reflexivity.
Qed.
Lemma sgn_IZR a b : sgn a = sgn b -> IZR (sgn a) = IZR (sgn b). Proof. congruence. Qed.
Lemma wigner_swap l m1 m2 : wigner l m2 m1 = parity (Z.of_nat l) * wigner l m1 m2.
Proof.
  rewrite !wigner_zsum, zsum_swap, parity_sgn, !mult_IZR. replace (m2 + m1)%Z with (m1 + m2)%Z by lia. replace (- m2 - m1)%Z with (- m1 - m2)%Z by lia.
  replace (G l m2 m1 (- m1 - m2)) with (G l m1 m2 (- m1 - m2)) by (unfold G; f_equal; ring). ring.
Qed.
Lemma wigner_turn l m1 m2 : wigner l m1 (- m1 - m2) = parity (Z.of_nat l) * wigner l m1 m2.
Proof.
  rewrite !wigner_zsum, zsum_turn, parity_sgn, !mult_IZR. replace (- m1 - (- m1 - m2))%Z with m2 by lia. replace (m1 + (- m1 - m2))%Z with (- m2)%Z by lia. rewrite sgn_opp, sgn_add, mult_IZR.
  replace (G l m1 (- m1 - m2) m2) with (G l m1 m2 (- m1 - m2)) by (unfold G; f_equal; ring). ring.
Qed.
Lemma wigner_neg l m1 m2 : wigner l (- m1) (- m2) = parity (Z.of_nat l) * wigner l m1 m2.
Proof.
  rewrite !wigner_zsum, zsum_neg, parity_sgn, !mult_IZR. replace (- m1 + - m2)%Z with (- (m1 + m2))%Z by lia. rewrite sgn_opp. replace (- - m1 - - m2)%Z with (m1 + m2)%Z by lia.
  replace (G l (- m1) (- m2) (m1 + m2)) with (G l m1 m2 (- m1 - m2)).
  2:{ unfold G. f_equal. replace (Z.of_nat l + (- m1 - m2))%Z with (Z.of_nat l - (m1 + m2))%Z by lia. replace (Z.of_nat l - (- m1 - m2))%Z with (Z.of_nat l + (m1 + m2))%Z by lia.
      replace (Z.of_nat l + - m1)%Z with (Z.of_nat l - m1)%Z by lia. replace (Z.of_nat l - - m1)%Z with (Z.of_nat l + m1)%Z by lia.
      replace (Z.of_nat l + - m2)%Z with (Z.of_nat l - m2)%Z by lia. replace (Z.of_nat l - - m2)%Z with (Z.of_nat l + m2)%Z by lia. ring. }
  ring.
Qed.
