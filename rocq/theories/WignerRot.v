(** The coefficients of the invariant: the sums behind the symbols satisfy the recurrences of rotations. *)
From Coq Require Import Reals ZArith List Lra Lia Bool.
From Verif Require Import RBase SteinSpec WignerProofs WignerModel WignerSpec.
Local Open Scope Z_scope.

Lemma bz_next l k : (Z.of_nat l - k) * bz l k = (k + 1) * bz l (k + 1).
Proof.
  destruct (Z_lt_dec k 0) as [H|H].
  - rewrite (bz_out l k) by lia. destruct (Z.eq_dec k (-1)) as [->|]; [lia|]. rewrite bz_out by lia. lia.
  - destruct (Z_lt_dec (Z.of_nat l) (k + 1)) as [H'|H'].
    + rewrite (bz_out l (k + 1)) by lia. destruct (Z.eq_dec k (Z.of_nat l)) as [->|]; [lia|]. rewrite bz_out by lia. lia.
    + apply eq_IZR. rewrite !mult_IZR. assert (E1 := bz_fact l k ltac:(lia)). assert (E2 := bz_fact l (k + 1) ltac:(lia)).
      assert (F1 : F (k + 1) = (F k * IZR (k + 1))%R).
      { unfold F. replace (Z.to_nat (k + 1)) with (S (Z.to_nat k)) by lia. rewrite fact_simpl, mult_INR, Rmult_comm, (INR_IZR_INZ (S _)). do 2 f_equal. lia. }
      assert (F2 : F (Z.of_nat l - k) = (F (Z.of_nat l - (k + 1)) * IZR (Z.of_nat l - k))%R).
      { unfold F. replace (Z.to_nat (Z.of_nat l - k)) with (S (Z.to_nat (Z.of_nat l - (k + 1)))) by lia. rewrite fact_simpl, mult_INR, Rmult_comm, (INR_IZR_INZ (S _)). do 2 f_equal. lia. }
      rewrite F1 in E2. rewrite F2 in E1. assert (P1 := F_pos k). assert (P2 := F_pos (Z.of_nat l - (k + 1))).
      apply Rmult_eq_reg_r with (F k * F (Z.of_nat l - (k + 1)))%R; [|nra]. transitivity (F (Z.of_nat l)); [rewrite <- E1|rewrite <- E2]; ring.
Qed.
(** One term with exponents p, q, r. *)
Definition cterm (l : nat) (p q r : Z) : Z := sgn (p + q + r) * (bz l p * bz l q * bz l r).
Definition coef (l : nat) (m1 m2 : Z) : Z := sgn (m1 + m2) * zsum l m1 m2.
Lemma sgn_S z : sgn (z + 1) = - sgn z. Proof. rewrite sgn_add. change (sgn 1) with (-1). lia. Qed.
Lemma cterm_p l p q r : (Z.of_nat l - p) * cterm l p q r = - ((p + 1) * cterm l (p + 1) q r).
Proof. unfold cterm. replace (p + 1 + q + r) with (p + q + r + 1) by lia. rewrite sgn_S. assert (E := bz_next l p). set (s := sgn _). transitivity (s * ((Z.of_nat l - p) * bz l p) * bz l q * bz l r); [ring|]. rewrite E. ring. Qed.
Lemma cterm_q l p q r : (Z.of_nat l - q) * cterm l p q r = - ((q + 1) * cterm l p (q + 1) r).
Proof. unfold cterm. replace (p + (q + 1) + r) with (p + q + r + 1) by lia. rewrite sgn_S. assert (E := bz_next l q). set (s := sgn _). transitivity (s * ((Z.of_nat l - q) * bz l q) * bz l p * bz l r); [ring|]. rewrite E. ring. Qed.
Lemma cterm_r l p q r : (Z.of_nat l - r) * cterm l p q r = - ((r + 1) * cterm l p q (r + 1)).
Proof. unfold cterm. replace (p + q + (r + 1)) with (p + q + r + 1) by lia. rewrite sgn_S. assert (E := bz_next l r). set (s := sgn _). transitivity (s * ((Z.of_nat l - r) * bz l r) * bz l p * bz l q); [ring|]. rewrite E. ring. Qed.
Lemma cterm_out l p q r : p < 0 \/ Z.of_nat l < p -> cterm l p q r = 0.
Proof. intros H. unfold cterm. rewrite (bz_out l p H). ring. Qed.
(** The sum over a wide window. *)
Definition wide (l : nat) (f : Z -> Z) : Z := zs f (-1) (l + 3).
Lemma coef_wide l m1 m2 : coef l m1 m2 = wide l (fun t => cterm l t (t + m1) (t - m2)).
Proof.
  unfold coef, zsum, wide. rewrite <- zs_scale. rewrite (zs_window (fun t => cterm l t (t + m1) (t - m2)) 0 (S l) (-1) (l + 3)); [|intros t H; apply cterm_out; lia|lia|lia].
  apply zs_ext. intros t _. unfold zterm, cterm. replace (t + (t + m1) + (t - m2)) with (t + (m1 + m2 + 2 * (t - m2))) by lia. rewrite !sgn_add.
  replace (sgn (2 * (t - m2))) with 1 by (unfold sgn; rewrite Z.even_mul; reflexivity). ring.
Qed.
Lemma wide_add l f g : wide l (fun t => f t + g t) = wide l f + wide l g.
Proof. unfold wide. generalize (-1). induction (l + 3)%nat as [|n IH]; intros a; simpl; [reflexivity|]. rewrite IH. ring. Qed.
Lemma wide_scale l c f : wide l (fun t => c * f t) = c * wide l f. Proof. apply zs_scale. Qed.
Lemma wide_ext l f g : (forall t, f t = g t) -> wide l f = wide l g. Proof. intros H. apply zs_ext. auto. Qed.
Lemma wide_shift l f : (forall t, t < 0 \/ Z.of_nat l < t -> f t = 0) -> wide l (fun t => f (t + 1)) = wide l f.
Proof.
  intros H. unfold wide. rewrite zs_shift. rewrite (zs_window f 0 (S l) (-1) (l + 3)); [|intros t Ht; apply H; lia|lia|lia].
  apply zs_window; [intros t Ht; apply H; lia|lia|lia].
Qed.
(** The recurrence with m1 + m2 + m3 = -1. *)
Lemma coef_raise l n1 n2 : (Z.of_nat l + n1 + 1) * coef l (n1 + 1) n2 + (Z.of_nat l + n2 + 1) * coef l n1 (n2 + 1) + (Z.of_nat l - n1 - n2) * coef l n1 n2 = 0.
Proof.
  rewrite !coef_wide. set (L := Z.of_nat l).
  (* term 1: (q + (l - p)) *)
  assert (T1 : (L + n1 + 1) * wide l (fun t => cterm l t (t + (n1 + 1)) (t - n2)) = wide l (fun t => (t + n1 + 1) * cterm l t (t + n1 + 1) (t - n2)) - wide l (fun t => (t + 1) * cterm l (t + 1) (t + 1 + n1) (t + 1 - (n2 + 1)))).
  { rewrite <- wide_scale. transitivity (wide l (fun t => (t + n1 + 1) * cterm l t (t + n1 + 1) (t - n2) + -1 * ((t + 1) * cterm l (t + 1) (t + 1 + n1) (t + 1 - (n2 + 1))))).
    - apply wide_ext. intros t. replace (t + (n1 + 1)) with (t + n1 + 1) by lia. replace (t + 1 + n1) with (t + n1 + 1) by lia. replace (t + 1 - (n2 + 1)) with (t - n2) by lia.
      assert (E := cterm_p l t (t + n1 + 1) (t - n2)). fold L in E. lia.
    - rewrite wide_add, wide_scale. lia. }
  assert (T2 : (L + n2 + 1) * wide l (fun t => cterm l t (t + n1) (t - (n2 + 1))) = wide l (fun t => t * cterm l t (t + n1) (t - (n2 + 1))) - wide l (fun t => (t - n2) * cterm l t (t + n1) (t - n2))).
  { rewrite <- wide_scale. transitivity (wide l (fun t => t * cterm l t (t + n1) (t - (n2 + 1)) + -1 * ((t - n2) * cterm l t (t + n1) (t - n2)))).
    - apply wide_ext. intros t. assert (E := cterm_r l t (t + n1) (t - (n2 + 1))). replace (t - (n2 + 1) + 1) with (t - n2) in E by lia. fold L in E. lia.
    - rewrite wide_add, wide_scale. lia. }
  assert (T3 : (L - n1 - n2) * wide l (fun t => cterm l t (t + n1) (t - n2)) = wide l (fun t => (t - n2) * cterm l t (t + n1) (t - n2)) - wide l (fun t => (t + n1 + 1) * cterm l t (t + n1 + 1) (t - n2))).
  { rewrite <- wide_scale. transitivity (wide l (fun t => (t - n2) * cterm l t (t + n1) (t - n2) + -1 * ((t + n1 + 1) * cterm l t (t + n1 + 1) (t - n2)))).
    - apply wide_ext. intros t. assert (E := cterm_q l t (t + n1) (t - n2)). fold L in E. lia.
    - rewrite wide_add, wide_scale. lia. }
  rewrite T1, T2, T3. rewrite (wide_shift l (fun t => t * cterm l t (t + n1) (t - (n2 + 1)))); [lia|]. intros t H. rewrite cterm_out by exact H. lia.
Qed.
Lemma coef_neg l m1 m2 : coef l (- m1) (- m2) = sgn (Z.of_nat l) * coef l m1 m2.
Proof. unfold coef. rewrite zsum_neg. replace (- m1 + - m2) with (- (m1 + m2)) by lia. rewrite sgn_opp. ring. Qed.
(** The recurrence with m1 + m2 + m3 = 1. *)
Lemma coef_lower l n1 n2 : (Z.of_nat l - n1 + 1) * coef l (n1 - 1) n2 + (Z.of_nat l - n2 + 1) * coef l n1 (n2 - 1) + (Z.of_nat l + n1 + n2) * coef l n1 n2 = 0.
Proof.
  assert (E := coef_raise l (- n1) (- n2)). replace (- n1 + 1) with (- (n1 - 1)) in E by lia. replace (- n2 + 1) with (- (n2 - 1)) in E by lia. rewrite !coef_neg in E.
  replace (Z.of_nat l - - n1 - - n2) with (Z.of_nat l + n1 + n2) in E by lia. assert (S := sgn_sq (Z.of_nat l)). set (s := sgn (Z.of_nat l)) in *.
  replace (Z.of_nat l - n1 + 1) with (Z.of_nat l + - n1 + 1) by lia. replace (Z.of_nat l - n2 + 1) with (Z.of_nat l + - n2 + 1) by lia.
  match goal with |- ?x = 0 => set (y := x); assert (H : s * y = 0) by (unfold y; rewrite <- E; ring) end.
  replace y with (s * (s * y)) by (rewrite Z.mul_assoc, S; ring). rewrite H. ring.
Qed.
Lemma coef_out l m1 m2 : ~ m_ok (Z.of_nat l) m1 m2 -> coef l m1 m2 = 0.
Proof.
  intros H. unfold coef, zsum. rewrite zs_zero; [ring|]. intros t Ht. unfold zterm. destruct (Z_lt_dec (t + m1) 0); [rewrite (bz_out l (t + m1)) by lia; ring|]. destruct (Z_lt_dec (Z.of_nat l) (t + m1)); [rewrite (bz_out l (t + m1)) by lia; ring|].
  rewrite (bz_out l (t - m2)); [ring|]. unfold m_ok in H. lia.
Qed.
Lemma coef_wigner l m1 m2 : wigner l m1 m2 = (IZR (coef l m1 m2) * sqrt (G l m1 m2 (- m1 - m2)))%R.
Proof. apply wigner_zsum. Qed.
