(** Proofs for C65: the remainder and the positive modulus. *)
From Coq Require Import ZArith Reals Lra Lia Psatz Bool.
From Flocq Require Import Core BinarySingleNaN Relative Plus_error Sterbenz.
From Verif Require Import RBase F32Model F32Spec F32Proofs.
Local Open Scope R_scope.

Lemma Ztrunc_div a b : (0 <= a)%Z -> (0 < b)%Z -> Ztrunc (IZR a / IZR b) = (a / b)%Z.
Proof.
  intros Ha Hb. assert (HB : 0 < IZR b) by (apply IZR_lt; lia). assert (HA : 0 <= IZR a) by (apply IZR_le; lia).
  rewrite Ztrunc_floor; [apply Zfloor_div; lia|]. unfold Rdiv. apply Rmult_le_pos; [exact HA|]. now apply Rlt_le, Rinv_0_lt_compat.
Qed.
Lemma fmod_opp_l a b : fmod (- a) b = - fmod a b.
Proof. unfold fmod. unfold Rdiv. rewrite <- Ropp_mult_distr_l, Ztrunc_opp, opp_IZR. ring. Qed.
Lemma fmod_opp_r a b : b <> 0 -> fmod a (- b) = fmod a b.
Proof.
  intros H. unfold fmod. replace (a / - b) with (- (a / b)) by (field; exact H). rewrite Ztrunc_opp, opp_IZR. ring.
Qed.
Lemma fmod_scaled a b k : (0 <= a)%Z -> (0 < b)%Z -> k <> 0 -> fmod (IZR a * k) (IZR b * k) = IZR (a mod b) * k.
Proof.
  intros Ha Hb Hk. assert (HB : 0 < IZR b) by (apply IZR_lt; lia). unfold fmod.
  replace (IZR a * k / (IZR b * k)) with (IZR a / IZR b) by (field; lra). rewrite Ztrunc_div by assumption.
  rewrite Z.mod_eq by lia. rewrite minus_IZR, mult_IZR. ring.
Qed.

Lemma shift_eq m e e0 : (e0 <= e)%Z -> IZR m * bpow radix2 e = IZR (m * 2 ^ (e - e0)) * bpow radix2 e0.
Proof.
  intros H. rewrite mult_IZR. change 2%Z with (radix_val radix2) at 1. rewrite IZR_Zpower by lia. rewrite Rmult_assoc, <- bpow_plus. do 2 f_equal. lia.
Qed.

Lemma is_fmod a b : finite a = true -> finite b = true -> val b <> 0 -> is (ffmod a b) (fmod (val a) (val b)).
Proof.
  intros Fa Fb Hb. destruct b as [sb| | |sb mb eb Bb]; try discriminate; [cbn in Hb; lra|].
  destruct a as [sa| | |sa ma ea Ba]; try discriminate.
  - cbn [ffmod]. split; [reflexivity|]. cbn [B2R]. unfold fmod. replace (0 / _) with 0 by (unfold Rdiv; ring). rewrite (Ztrunc_IZR 0). cbn. ring.
  - cbn [ffmod]. set (e := Z.min ea eb). set (A := (Zpos ma * 2 ^ (ea - e))%Z). set (B := (Zpos mb * 2 ^ (eb - e))%Z).
    assert (HA : (0 <= A)%Z) by (apply Z.mul_nonneg_nonneg; [lia|apply Z.pow_nonneg; lia]).
    assert (HB : (0 < B)%Z) by (apply Z.mul_pos_pos; [lia|apply Z.pow_pos_nonneg; lia]).
    assert (HR := Z.mod_pos_bound A B HB). set (r := (A mod B)%Z) in *.
    assert (HrA : (r <= A)%Z) by (apply Z.mod_le; lia).
    destruct (proj1 (andb_true_iff _ _) Ba) as [Ca Ea]. destruct (proj1 (andb_true_iff _ _) Bb) as [Cb Eb].
    assert (La : (Zpos ma < 2 ^ 24)%Z /\ (-149 <= ea)%Z).
    { assert (H := canonical_canonical_mantissa 24 128 false ma ea Ca). assert (G : fmt (F2R (Float radix2 (Zpos ma) ea))).
      { apply generic_format_canonical in H. exact H. }
      unfold canonical in H. cbn [Fexp SpecFloat.cond_Zopp] in H. unfold cexp in H.
      rewrite mag_F2R_Zdigits in H by discriminate. rewrite fex_flt in H. unfold FLT_exp in H.
      assert (D := Zdigits_correct radix2 (Zpos ma)). split; [|lia].
      eapply Z.lt_le_trans; [apply D|]. apply (Zpower_le radix2). lia. }
    assert (Lb : (Zpos mb < 2 ^ 24)%Z /\ (-149 <= eb)%Z).
    { assert (H := canonical_canonical_mantissa 24 128 false mb eb Cb).
      unfold canonical in H. cbn [Fexp SpecFloat.cond_Zopp] in H. unfold cexp in H.
      rewrite mag_F2R_Zdigits in H by discriminate. rewrite fex_flt in H. unfold FLT_exp in H.
      assert (D := Zdigits_correct radix2 (Zpos mb)). split; [|lia].
      eapply Z.lt_le_trans; [apply D|]. apply (Zpower_le radix2). lia. }
    assert (Hr : (0 <= r < 2 ^ 24)%Z).
    { split; [lia|]. destruct (Z.min_spec ea eb) as [[_ M]|[_ M]]; fold e in M.
      - unfold A in HrA. rewrite M, Z.sub_diag, Z.pow_0_r in HrA. lia.
      - unfold B in HR. rewrite M, Z.sub_diag, Z.pow_0_r in HR. lia. }
    assert (Va : val (B754_finite sa ma ea Ba) = (if sa then -1 else 1) * (IZR A * bpow radix2 e)).
    { cbn [B2R]. unfold F2R. cbn [Fnum Fexp]. destruct sa; cbn [SpecFloat.cond_Zopp].
      - change (Z.neg ma) with (- Z.pos ma)%Z. rewrite opp_IZR, <- Ropp_mult_distr_l, (shift_eq (Zpos ma) ea e) by lia. fold A. ring.
      - rewrite (shift_eq (Zpos ma) ea e) by lia. fold A. ring. }
    assert (Vb : val (B754_finite sb mb eb Bb) = (if sb then -1 else 1) * (IZR B * bpow radix2 e)).
    { cbn [B2R]. unfold F2R. cbn [Fnum Fexp]. destruct sb; cbn [SpecFloat.cond_Zopp].
      - change (Z.neg mb) with (- Z.pos mb)%Z. rewrite opp_IZR, <- Ropp_mult_distr_l, (shift_eq (Zpos mb) eb e) by lia. fold B. ring.
      - rewrite (shift_eq (Zpos mb) eb e) by lia. fold B. ring. }
    assert (HBR : 0 < IZR B) by (apply IZR_lt; exact HB). assert (HP := bpow_gt_0 radix2 e).
    assert (E : fmod (val (B754_finite sa ma ea Ba)) (val (B754_finite sb mb eb Bb)) = IZR (if sa then - r else r) * bpow radix2 e).
    { rewrite Va, Vb. assert (NZ : IZR B * bpow radix2 e <> 0) by nra.
      assert (S := fmod_scaled A B (bpow radix2 e) HA HB ltac:(lra)). fold r in S.
      assert (M1 : forall x, -1 * x = - x) by (intros; ring). assert (M2 : forall x, 1 * x = x) by (intros; ring).
      destruct sa, sb; rewrite ?M1, ?M2; rewrite ?fmod_opp_l, ?fmod_opp_r by exact NZ; rewrite S, ?opp_IZR; ring. }
    rewrite E. assert (FM : fmt (IZR (if sa then - r else r) * bpow radix2 e)) by (apply fmt_F2R; destruct sa; lia).
    assert (C := binary_normalize_correct 24 128 prec_gt_0_24 prec_lt_emax_24 mode_NE (if sa then - r else r) e sa). cbv zeta in C.
    change (round_mode mode_NE) with ZnearestE in C. unfold F2R in C. cbn [Fnum Fexp] in C. rewrite (rnd_fmt _ FM) in C.
    rewrite Rlt_bool_true in C; [destruct C as (C1 & C2 & _); now split|].
    eapply Rle_lt_trans; [|apply (abs_B2R_lt_emax 24 128 (B754_finite sa ma ea Ba))]. rewrite Va, !Rabs_mult.
    replace (Rabs (if sa then -1 else 1)) with 1 by (destruct sa; [rewrite Rabs_left|rewrite Rabs_right]; lra). rewrite Rmult_1_l.
    apply Rmult_le_compat_r; [apply Rabs_pos|]. rewrite <- !abs_IZR. apply IZR_le. destruct sa; lia.
Qed.

(** ** The remainder in real arithmetic *)
Lemma fmod_bound a b : 0 < b -> Rabs (fmod a b) < b /\ (0 <= a -> 0 <= fmod a b <= a) /\ (a <= 0 -> a <= fmod a b <= 0).
Proof.
  intros Hb.
  assert (G : forall x, 0 <= x -> 0 <= fmod x b < b /\ fmod x b <= x).
  { intros x Hx. unfold fmod. assert (Q : 0 <= x / b) by (unfold Rdiv; apply Rmult_le_pos; [exact Hx|apply Rlt_le, Rinv_0_lt_compat, Hb]).
    rewrite Ztrunc_floor by exact Q. assert (F := Zfloor_bounds (x / b)). assert (F0 : 0 <= IZR (Zfloor (x / b))). { apply IZR_le. apply Zfloor_lub. exact Q. }
    assert (E : x = b * (x / b)) by (field; lra). set (q := x / b) in *. set (k := IZR (Zfloor q)) in *. nra. }
  destruct (Rle_or_lt 0 a) as [H|H].
  - destruct (G a H) as [G1 G2]. split; [rewrite Rabs_right; lra|]. split; [lra|]. intros H'. assert (a = 0) by lra. subst. lra.
  - destruct (G (- a) ltac:(lra)) as [G1 G2]. rewrite fmod_opp_l in G1, G2. split; [rewrite Rabs_left1; lra|]. split; lra.
Qed.
Lemma fmod_id a b : 0 <= a < b -> fmod a b = a.
Proof.
  intros H. unfold fmod. rewrite Ztrunc_floor by (unfold Rdiv; apply Rmult_le_pos; [lra|apply Rlt_le, Rinv_0_lt_compat; lra]).
  rewrite (Zfloor_uniq (a / b) 0); [cbn; ring|]. cbn. split.
  - unfold Rdiv. apply Rmult_le_pos; [lra|apply Rlt_le, Rinv_0_lt_compat; lra].
  - rewrite Rplus_0_l. apply Rmult_lt_reg_r with b; [lra|]. unfold Rdiv. rewrite Rmult_assoc, Rinv_l by lra. lra.
Qed.
Lemma fmod_once a b : 0 < b -> b <= a < 2 * b -> fmod a b = a - b.
Proof.
  intros Hb H. unfold fmod. assert (E : a = b * (a / b)) by (field; lra). assert (Q : 1 <= a / b < 2). { set (q := a / b) in *. split; nra. }
  rewrite Ztrunc_floor by lra. rewrite (Zfloor_uniq (a / b) 1) by (cbn; lra). cbn. ring.
Qed.
Lemma fmod_twice b : 0 < b -> fmod (2 * b) b = 0.
Proof. intros H. unfold fmod. replace (2 * b / b) with (IZR 2) by (field; lra). rewrite Ztrunc_IZR. cbn. ring. Qed.
Lemma fmod_self b : 0 < b -> fmod b b = 0.
Proof. intros H. unfold fmod. replace (b / b) with (IZR 1) by (field; lra). rewrite Ztrunc_IZR. cbn. ring. Qed.

(** ** modulusPositive *)
Definition rmodulus (a b : R) : R := fmod (rnd (fmod a b + b)) b.
Lemma fits_le x y : Rabs x <= y -> y <= bpow radix2 127 -> fits x. Proof. unfold fits. lra. Qed.
Lemma is_modulus a b : finite a = true -> finite b = true -> 0 < val b <= bpow radix2 126 ->
  is (fmodulus a b) (rmodulus (val a) (val b)).
Proof.
  intros Fa Fb Hb. unfold fmodulus. destruct (is_fmod a b Fa Fb ltac:(lra)) as [F1 V1].
  destruct (fmod_bound (val a) (val b) ltac:(lra)) as (M1 & _).
  assert (D : bpow radix2 127 = 2 * bpow radix2 126) by (change 127%Z with (1 + 126)%Z; rewrite bpow_plus; reflexivity).
  destruct (is_add (ffmod a b) b F1 Fb) as [F2 V2].
  { rewrite V1. unfold fits. rewrite D. apply Rabs_lt_inv in M1. apply Rabs_le. lra. }
  rewrite V1 in V2. destruct (is_fmod _ b F2 Fb ltac:(lra)) as [F3 V3]. split; [exact F3|]. now rewrite V3, V2.
Qed.
(** Range and accuracy; [b] in the format. *)
Lemma rmodulus_cases a b : fmt b -> 0 < b ->
  let s := rnd (fmod a b + b) in
  (0 <= s < b /\ rmodulus a b = s) \/ (s = b /\ rmodulus a b = s - b) \/ (b < s < 2 * b /\ rmodulus a b = s - b) \/ (s = 2 * b /\ rmodulus a b = s - 2 * b).
Proof.
  intros Fb Hb. cbv zeta. set (s := rnd (fmod a b + b)). destruct (fmod_bound a b Hb) as (M & _). apply Rabs_lt_inv in M.
  assert (F2 : fmt (2 * b)).
  { replace (2 * b) with (b * bpow radix2 1) by (cbn; lra). rewrite fex_flt in Fb |- *. apply FLT_format_generic in Fb; [|reflexivity].
    destruct Fb as [f E H1 H2]. apply generic_format_FLT. exists (Float radix2 (Fnum f) (Fexp f + 1)).
    - rewrite E. unfold F2R. cbn [Fnum Fexp]. rewrite bpow_plus. ring.
    - exact H1.
    - cbn [Fexp]. lia. }
  assert (S : 0 <= s <= 2 * b). { split; [apply rnd_ge_fmt; [apply fmt_0|lra]|apply rnd_le_fmt; [exact F2|lra]]. }
  unfold rmodulus. fold s. destruct (Rle_or_lt b s) as [H|H].
  - destruct (Req_dec s (2 * b)) as [E|N].
    + right. right. right. split; [exact E|]. rewrite E, fmod_twice by exact Hb. ring.
    + destruct (Req_dec s b) as [E|N'].
      * right. left. split; [exact E|]. rewrite E, fmod_self by exact Hb. ring.
      * right. right. left. split; [lra|]. apply fmod_once; lra.
  - left. split; [lra|]. apply fmod_id. lra.
Qed.
Lemma rmodulus_range a b : fmt b -> 0 < b -> 0 <= rmodulus a b < b.
Proof. intros Fb Hb. destruct (rmodulus_cases a b Fb Hb) as [[H ->]|[[H ->]|[[H ->]|[H ->]]]]; lra. Qed.
(** The result differs from the argument by a multiple of [b], up to an error of at most 2 u b. *)
Lemma rmodulus_congruent a b : fmt a -> fmt b -> 0 < b -> exists k : Z, Rabs (rmodulus a b - (a + IZR k * b)) <= 2 * u * b.
Proof.
  intros Fa Fb Hb. assert (M := fmod_bound a b Hb). destruct M as (M & M1 & M2). apply Rabs_lt_inv in M.
  assert (Fm : exists e, Rabs e <= u /\ rnd (fmod a b + b) = (fmod a b + b) * (1 + e)).
  { destruct (Req_dec (fmod a b) 0) as [Z|NZ].
    - exists 0. split; [rewrite Rabs_R0; apply Rlt_le, u_pos|]. rewrite Z, Rplus_0_l, rnd_fmt by exact Fb. ring.
    - apply rnd_plus; [|exact Fb]. (* fmod of two numbers of the format is one *)
      clear M1 M2. rewrite fex_flt in *. apply FLT_format_generic in Fa; [|reflexivity]. apply FLT_format_generic in Fb; [|reflexivity].
      destruct Fa as [fa Ea A1 A2], Fb as [fb Eb B1 B2]. 
      set (e := Z.min (Fexp fa) (Fexp fb)). set (A := (Fnum fa * 2 ^ (Fexp fa - e))%Z). set (B := (Fnum fb * 2 ^ (Fexp fb - e))%Z).
      assert (VA : a = IZR A * bpow radix2 e) by (rewrite Ea; unfold F2R; apply shift_eq; lia).
      assert (VB : b = IZR B * bpow radix2 e) by (rewrite Eb; unfold F2R; apply shift_eq; lia).
      assert (HP := bpow_gt_0 radix2 e). assert (HB : (0 < B)%Z) by (apply lt_IZR; rewrite VB in Hb; nra).
      assert (G : exists r, fmod a b = IZR r * bpow radix2 e /\ (Z.abs r < B)%Z /\ (Z.abs r <= Z.abs A)%Z).
      { destruct (Z.le_gt_cases 0 A) as [P|P].
        - exists (A mod B)%Z. split; [rewrite VA, VB; apply fmod_scaled; lia || lra|]. assert (Q := Z.mod_pos_bound A B HB).
          assert (Q' := Z.mod_le A B P HB). lia.
        - exists (- (- A mod B))%Z. split.
          + rewrite VA, VB. replace (IZR A * bpow radix2 e) with (- (IZR (- A) * bpow radix2 e)) by (rewrite opp_IZR; ring).
            rewrite fmod_opp_l, fmod_scaled by (lia || lra). rewrite opp_IZR. ring.
          + assert (Q := Z.mod_pos_bound (- A) B HB). assert (Q' := Z.mod_le (- A) B ltac:(lia) HB). lia. }
      destruct G as (r & Er & R1 & R2). rewrite Er. apply generic_format_FLT. exists (Float radix2 r e); [reflexivity| |cbn [Fexp]; lia].
      cbn [Fnum]. destruct (Z.min_spec (Fexp fa) (Fexp fb)) as [[_ Me]|[_ Me]]; fold e in Me.
      + unfold A in R2. rewrite Me, Z.sub_diag, Z.pow_0_r, Z.mul_1_r in R2. lia.
      + unfold B in R1. rewrite Me, Z.sub_diag, Z.pow_0_r, Z.mul_1_r in R1. lia. }
  destruct Fm as (e & He & Es).
  assert (K : exists k0 : Z, fmod a b = a + IZR k0 * b). { exists (- Ztrunc (a / b))%Z. unfold fmod. rewrite opp_IZR. ring. }
  destruct K as (k0 & K).
  assert (ES : Rabs (rnd (fmod a b + b) - (a + IZR (k0 + 1) * b)) <= 2 * u * b).
  { rewrite Es, plus_IZR. replace ((fmod a b + b) * (1 + e) - _) with ((fmod a b + b) * e) by (rewrite K; ring).
    rewrite Rabs_mult, (Rabs_right (fmod a b + b)) by lra. assert (H := u_pos). assert (H' := Rabs_pos e).
    replace (2 * u * b) with (2 * b * u) by ring. apply Rmult_le_compat; lra. }
  destruct (rmodulus_cases a b Fb Hb) as [[H ->]|[[H ->]|[[H ->]|[H ->]]]].
  - exists (k0 + 1)%Z. exact ES.
  - exists k0. rewrite plus_IZR in ES. replace (_ - b - _) with (rnd (fmod a b + b) - (a + (IZR k0 + 1) * b)) by ring. exact ES.
  - exists k0. rewrite plus_IZR in ES. replace (_ - b - _) with (rnd (fmod a b + b) - (a + (IZR k0 + 1) * b)) by ring. exact ES.
  - exists (k0 - 1)%Z. rewrite plus_IZR in ES. rewrite minus_IZR. replace (_ - 2 * b - _) with (rnd (fmod a b + b) - (a + (IZR k0 + 1) * b)) by ring. exact ES.
Qed.
