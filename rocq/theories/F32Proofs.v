(** Proofs for C65: operations of binary32 as rounded real operations. *)
From Coq Require Import ZArith Reals Lra Lia Psatz Bool.
From Flocq Require Import Core BinarySingleNaN Relative Plus_error Sterbenz.
From Verif Require Import RBase F32Model F32Spec.
Local Open Scope R_scope.

Notation fex := (SpecFloat.fexp 24 128).
Notation rnd := (round radix2 fex ZnearestE).
Notation fmt := (generic_format radix2 fex).

Lemma fex_flt : fex = FLT_exp (-149) 24. Proof. reflexivity. Qed.
#[global] Instance fex_valid : Valid_exp fex. Proof. rewrite fex_flt. apply FLT_exp_valid. reflexivity. Qed.
#[global] Instance fex_mono : Monotone_exp fex. Proof. rewrite fex_flt. apply FLT_exp_monotone. Qed.

Lemma u_bpow : u = bpow radix2 (-24). Proof. reflexivity. Qed.
Lemma half_bpow : / 2 * bpow radix2 (- 24 + 1) = u. Proof. unfold u. change (bpow radix2 (-24 + 1)) with (/ 8388608). lra. Qed.
Lemma u_pos : 0 < u. Proof. unfold u. lra. Qed.

Lemma fmt_bpow e : (-149 <= e)%Z -> fmt (bpow radix2 e).
Proof. intros H. apply generic_format_bpow. rewrite fex_flt. unfold FLT_exp. lia. Qed.
Lemma fmt_val (x : f32) : fmt (val x). Proof. apply generic_format_B2R. Qed.

Lemma rnd_le x y : x <= y -> rnd x <= rnd y. Proof. apply round_le; typeclasses eauto. Qed.
Lemma rnd_abs x e : (-149 <= e)%Z -> Rabs x <= bpow radix2 e -> Rabs (rnd x) <= bpow radix2 e.
Proof. intros He H. apply abs_round_le_generic; try typeclasses eauto; [now apply fmt_bpow|exact H]. Qed.
Lemma rnd_le_fmt x y : fmt y -> x <= y -> rnd x <= y. Proof. apply round_le_generic; typeclasses eauto. Qed.
Lemma rnd_ge_fmt x y : fmt x -> x <= y -> x <= rnd y. Proof. apply round_ge_generic; typeclasses eauto. Qed.
Lemma rnd_fmt x : fmt x -> rnd x = x. Proof. apply round_generic; typeclasses eauto. Qed.
Lemma rnd_0 : rnd 0 = 0. Proof. apply round_0; typeclasses eauto. Qed.
Lemma fmt_0 : fmt 0. Proof. apply generic_format_0. Qed.

(** Rounding errors. *)
Lemma rnd_rel x : bpow radix2 (-126) <= Rabs x -> exists e, Rabs e <= u /\ rnd x = x * (1 + e).
Proof.
  intros H. destruct (relative_error_N_FLT_ex radix2 (-149) 24 ltac:(reflexivity) (fun z => negb (Z.even z)) x H) as (e & He & E).
  exists e. split; [rewrite <- half_bpow; exact He|exact E].
Qed.
Lemma rnd_err x : exists e n, Rabs e <= u /\ Rabs n <= bpow radix2 (-150) /\ rnd x = x * (1 + e) + n.
Proof.
  destruct (error_N_FLT radix2 (-149) 24 ltac:(reflexivity) (fun z => negb (Z.even z)) x) as (e & n & He & Hn & _ & E).
  exists e, n. split; [rewrite <- half_bpow; exact He|]. split; [|exact E].
  replace (bpow radix2 (-150)) with (/ 2 * bpow radix2 (-149)); [exact Hn|].
  change (-149)%Z with (-150 + 1)%Z. rewrite bpow_plus. change (bpow radix2 1) with 2. field.
Qed.
Lemma rnd_plus x y : fmt x -> fmt y -> exists e, Rabs e <= u /\ rnd (x + y) = (x + y) * (1 + e).
Proof.
  intros Hx Hy. destruct (FLT_plus_error_N_ex radix2 (-149) 24 (fun z => negb (Z.even z)) x y Hx Hy) as (e & He & E).
  exists e. split; [|exact E]. eapply Rle_trans; [exact He|]. replace (u_ro radix2 24) with u by (symmetry; exact half_bpow). assert (H := u_pos).
  apply Rmult_le_reg_r with (1 + u); [lra|]. unfold Rdiv. rewrite Rmult_assoc, Rinv_l by lra. nra.
Qed.
Lemma fmt_opp x : fmt x -> fmt (- x). Proof. apply generic_format_opp. Qed.
Lemma rnd_minus x y : fmt x -> fmt y -> exists e, Rabs e <= u /\ rnd (x - y) = (x - y) * (1 + e).
Proof. intros Hx Hy. apply (rnd_plus x (- y) Hx (fmt_opp _ Hy)). Qed.

Lemma small_lt x e : (e < 128)%Z -> Rabs x <= bpow radix2 e -> Rlt_bool (Rabs x) (bpow radix2 128) = true.
Proof. intros He H. apply Rlt_bool_true. eapply Rle_lt_trans; [exact H|]. now apply bpow_lt. Qed.
Lemma rnd_small x e : (-149 <= e < 128)%Z -> Rabs x <= bpow radix2 e -> Rlt_bool (Rabs (rnd x)) (bpow radix2 128) = true.
Proof. intros He H. apply small_lt with e; [lia|]. apply rnd_abs; [lia|exact H]. Qed.

(** Operations, when the exact result is at most 2^127 in absolute value. *)
Definition fits (x : R) : Prop := Rabs x <= bpow radix2 127.
Lemma is_sub x y : finite x = true -> finite y = true -> fits (val x - val y) -> is (fsub x y) (rnd (val x - val y)).
Proof.
  intros Hx Hy H. assert (C := Bminus_correct 24 128 _ _ mode_NE x y Hx Hy). change (round_mode mode_NE) with ZnearestE in C.
  rewrite (rnd_small _ 127) in C by (try lia; exact H). destruct C as (C1 & C2 & _). now split.
Qed.
Lemma is_add x y : finite x = true -> finite y = true -> fits (val x + val y) -> is (fadd x y) (rnd (val x + val y)).
Proof.
  intros Hx Hy H. assert (C := Bplus_correct 24 128 _ _ mode_NE x y Hx Hy). change (round_mode mode_NE) with ZnearestE in C.
  rewrite (rnd_small _ 127) in C by (try lia; exact H). destruct C as (C1 & C2 & _). now split.
Qed.
Lemma is_mul x y : finite x = true -> finite y = true -> fits (val x * val y) -> is (fmul x y) (rnd (val x * val y)).
Proof.
  intros Hx Hy H. assert (C := Bmult_correct 24 128 _ _ mode_NE x y). change (round_mode mode_NE) with ZnearestE in C.
  rewrite (rnd_small _ 127) in C by (try lia; exact H). destruct C as (C1 & C2 & _). split; [|exact C1]. unfold fmul. now rewrite C2, Hx, Hy.
Qed.
Lemma is_div x y : finite x = true -> val y <> 0 -> fits (val x / val y) -> is (fdiv x y) (rnd (val x / val y)).
Proof.
  intros Hx Hy H. assert (C := Bdiv_correct 24 128 _ _ mode_NE x y Hy). change (round_mode mode_NE) with ZnearestE in C.
  rewrite (rnd_small _ 127) in C by (try lia; exact H). destruct C as (C1 & C2 & _). split; [|exact C1]. unfold fdiv. now rewrite C2.
Qed.
Lemma is_lit m e : fits (IZR m * bpow radix2 e) -> is (lit m e) (rnd (IZR m * bpow radix2 e)).
Proof.
  intros H. assert (C := binary_normalize_correct 24 128 prec_gt_0_24 prec_lt_emax_24 mode_NE m e false). cbv zeta in C.
  change (round_mode mode_NE) with ZnearestE in C. unfold F2R in C. cbn [Fnum Fexp] in C.
  rewrite (rnd_small _ 127) in C by (try lia; exact H). destruct C as (C1 & C2 & _). now split.
Qed.
(** Integers of at most 24 bits times a power of two are numbers of the format. *)
Lemma fmt_F2R m e : (Z.abs m < 2 ^ 24)%Z -> (-149 <= e)%Z -> fmt (IZR m * bpow radix2 e).
Proof.
  intros Hm He. rewrite fex_flt. apply generic_format_FLT. exists (Float radix2 m e); [reflexivity|exact Hm|exact He].
Qed.
Lemma fmt_IZR m : (Z.abs m <= 2 ^ 24)%Z -> fmt (IZR m).
Proof.
  intros H. destruct (Z.eq_dec (Z.abs m) (2 ^ 24)) as [E|N].
  - destruct (Z.abs_eq_cases m (2 ^ 24)) as [-> | ->]; [lia| |].
    + change (IZR (2 ^ 24)) with (bpow radix2 24). apply fmt_bpow. lia.
    + rewrite opp_IZR. change (IZR (2 ^ 24)) with (bpow radix2 24). apply fmt_opp, fmt_bpow. lia.
  - replace (IZR m) with (IZR m * bpow radix2 0) by (cbn; lra). apply fmt_F2R; lia.
Qed.
Lemma is_lit_Z m : (Z.abs m <= 2 ^ 24)%Z -> is (lit m 0) (IZR m).
Proof.
  intros H. assert (E : IZR m * bpow radix2 0 = IZR m) by (cbn; lra).
  assert (F : fits (IZR m)). { unfold fits. rewrite <- abs_IZR. eapply Rle_trans; [apply IZR_le; exact H|]. change (IZR (2 ^ 24)) with (bpow radix2 24). apply bpow_le. lia. }
  assert (I := is_lit m 0). rewrite E in I. destruct (I F) as [I1 I2]. split; [exact I1|]. rewrite I2. apply rnd_fmt, fmt_IZR, H.
Qed.
Lemma is_one : is fone 1. Proof. apply (is_lit_Z 1). cbn. lia. Qed.
