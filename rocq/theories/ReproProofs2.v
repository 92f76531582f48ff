(** Proofs for C77: the entries of the tensor of one particle. *)
From Coq Require Import Psatz.
From Verif Require Import F32Proofs F32Proofs4 F32Props Vec FaabbSpec FaabbProofs FaabbProofs2 ReproSpec.
Open Scope R_scope.

Lemma mul_near (x y : f32) (X Y a c A B : R) : finite x = true -> finite y = true -> Rabs (val x - X) <= a -> Rabs (val y - Y) <= c -> Rabs X <= A -> Rabs Y <= B -> A + a <= 4 -> B + c <= 4 ->
  finite (fmul x y) = true /\ Rabs (val (fmul x y) - X * Y) <= a * (B + c) + A * c + u * ((A + a) * (B + c)) + bpow radix2 (-150).
Proof.
  intros Fx Fy Ex Ey HX HY H1 H2. assert (A0 := Rabs_pos (val x - X)). assert (C0 := Rabs_pos (val y - Y)). assert (XX := Rabs_pos X). assert (YY := Rabs_pos Y).
  assert (Bx : Rabs (val x) <= A + a). { replace (val x) with (X + (val x - X)) by ring. eapply Rle_trans; [apply Rabs_triang|]. lra. }
  assert (By : Rabs (val y) <= B + c). { replace (val y) with (Y + (val y - Y)) by ring. eapply Rle_trans; [apply Rabs_triang|]. lra. }
  assert (P : Rabs (val x * val y) <= (A + a) * (B + c)) by (rewrite Rabs_mult; apply Rmult_le_compat; auto using Rabs_pos).
  assert (P4 : (A + a) * (B + c) <= 16). { replace 16 with (4 * 4) by ring. apply Rmult_le_compat; lra. }
  assert (L := bpow_le radix2 4 127 ltac:(lia)). change (bpow radix2 4) with 16 in L. destruct (is_mul x y Fx Fy) as [F V]; [unfold fits; lra|]. split; [exact F|]. rewrite V.
  destruct (rnd_err (val x * val y)) as (e & n & He & Hn & ->).
  replace (val x * val y * (1 + e) + n - X * Y) with ((val x - X) * val y + X * (val y - Y) + e * (val x * val y) + n) by ring.
  eapply Rle_trans; [apply Rabs_triang|]. apply Rplus_le_compat; [|exact Hn]. eapply Rle_trans; [apply Rabs_triang|]. apply Rplus_le_compat; [|rewrite Rabs_mult; apply Rmult_le_compat; auto using Rabs_pos].
  eapply Rle_trans; [apply Rabs_triang|]. apply Rplus_le_compat; rewrite Rabs_mult; apply Rmult_le_compat; auto using Rabs_pos.
Qed.
Section Direction.
Variable v : fvec.
Hypothesis Fv : fin3 v.
Let N := norm (rv v).
Hypothesis HN : bpow radix2 (-40) <= N <= bpow radix2 40.
Lemma N_pos : 0 < N. Proof. assert (P := bpow_gt_0 radix2 (-40)). lra. Qed.
Lemma comps : Rabs (val (fvx v)) <= N /\ Rabs (val (fvy v)) <= N /\ Rabs (val (fvz v)) <= N.
Proof.
  assert (P := N_pos). assert (Q := norm_sq (rv v)). fold N in Q. unfold dot, rv in Q. cbn [vx vy vz] in Q.
  assert (S : forall x, x * x <= N * N -> Rabs x <= N). { intros x H. apply Rsqr_incr_0_var; [|lra]. rewrite <- Rsqr_abs. exact H. }
  split; [|split]; apply S; rewrite Q; nra.
Qed.
Let s := fsqrt (fdot v v).
Lemma length_near : finite s = true /\ Rabs (val s - N) <= 6 * u * N.
Proof.
  destruct comps as (Bx & By & Bz). assert (L := bpow_le radix2 40 62 ltac:(lia)). destruct Fv as (Fx & Fy & Fz).
  change (fdot v v) with (fnorm2 v) in s. destruct (norm2_val v Fv) as (F & P & Q); [lra|lra|lra|]. rewrite <- norm_sq in Q. fold N in Q.
  assert (K := root_val (fnorm2 v) N (Rlt_le _ _ N_pos) F P Q). destruct (distance_val _ F P) as (e & n & Ee & Nn & E). fold (fsqrt (fnorm2 v)) in E. fold s in E.
  assert (CS : cell_slack <= u * N). { unfold cell_slack. rewrite u_bpow. apply Rle_trans with (bpow radix2 (-24) * bpow radix2 (-40)); [rewrite <- bpow_plus; apply bpow_le; lia|]. apply Rmult_le_compat_l; [apply bpow_ge_0|lra]. }
  assert (TI : bpow radix2 (-150) <= u * N). { rewrite u_bpow. apply Rle_trans with (bpow radix2 (-24) * bpow radix2 (-40)); [rewrite <- bpow_plus; apply bpow_le; lia|]. apply Rmult_le_compat_l; [apply bpow_ge_0|lra]. }
  assert (PN := N_pos). assert (SQ := sqrt_pos (val (fnorm2 v))). apply Rabs_le_inv in Ee. set (w := sqrt (val (fnorm2 v))) in *. assert (W : w * (1 - u) <= w * (1 + e) <= w * (1 + u)) by (split; apply Rmult_le_compat_l; lra). set (z := w * (1 + e)) in *.
  change tiny with (bpow radix2 (-150)) in Nn. apply Rabs_le_inv in Nn. split.
  - unfold s, fsqrt. destruct (Bsqrt_correct 24 128 _ _ mode_NE (fnorm2 v)) as (_ & G & _). rewrite G. destruct (fnorm2 v) as [t| | |t m x B]; try discriminate; auto. destruct t; auto. exfalso.
    cbn [B2R] in P. assert (X : @F2R radix2 {| Fnum := SpecFloat.cond_Zopp true (Z.pos m); Fexp := x |} < 0) by (apply F2R_lt_0; cbn; lia). lra.
  - rewrite E. apply Rabs_le. clearbody z w N. clear -K W Nn CS TI PN SQ. unfold u in *. lra.
Qed.
Lemma inverse_near : finite (fdiv fone s) = true /\ Rabs (val (fdiv fone s) * N - 1) <= 8 * u.
Proof.
  destruct length_near as [Fs Es]. assert (PN := N_pos). apply Rabs_le_inv in Es. assert (U : 0 < u < / 1000) by (unfold u; lra). assert (UN : u * N <= / 1000 * N) by (apply Rmult_le_compat_r; lra).
  assert (S0 : / 2 * N <= val s <= 2 * N) by lra. destruct is_one as [F1 V1]. assert (P40 := bpow_gt_0 radix2 (-40)).
  assert (I : / (2 * N) <= / val s <= / (/ 2 * N)) by (split; apply Rinv_le_contravar; lra).
  assert (I2 : / (/ 2 * N) = 2 * / N) by (field; lra). assert (I3 : / N <= bpow radix2 40) by (change 40%Z with (- -40)%Z; rewrite bpow_opp; apply Rinv_le_contravar; lra).
  assert (I4 : bpow radix2 (-41) <= / (2 * N)). { rewrite <- (Z.opp_involutive (-41)), bpow_opp. cbn [Z.opp]. apply Rinv_le_contravar; [lra|]. change 41%Z with (1 + 40)%Z. rewrite bpow_plus. change (bpow radix2 1) with 2. lra. }
  assert (P0 : 0 < / val s) by (apply Rinv_0_lt_compat; lra). assert (L := bpow_le radix2 41 127 ltac:(lia)). assert (L41 : bpow radix2 41 = 2 * bpow radix2 40) by (change 41%Z with (1 + 40)%Z; rewrite bpow_plus; reflexivity).
  destruct (is_div fone s F1) as [F V]; [lra|rewrite V1; unfold fits, Rdiv; rewrite Rmult_1_l, Rabs_pos_eq by lra; lra|]. split; [exact F|]. rewrite V, V1. unfold Rdiv. rewrite Rmult_1_l.
  destruct (rnd_rel (/ val s)) as (e & He & ->). { rewrite Rabs_pos_eq by lra. apply Rle_trans with (bpow radix2 (-41)); [apply bpow_le; lia|lra]. }
  set (t := / val s * N). assert (T : t * val s = N) by (unfold t; field; lra). apply Rabs_le_inv in He.
  assert (T1 : Rabs (t - 1) <= 64 / 10 * u).
  { assert (T0 : 0 < t) by (unfold t; apply Rmult_lt_0_compat; lra). assert (TU : t <= 101 / 100).
    { apply Rmult_le_reg_r with (val s); [lra|]. rewrite T. assert (N <= 101 / 100 * (N - 6 * (/ 1000) * N)) by lra. assert (101 / 100 * (N - 6 * (/ 1000) * N) <= 101 / 100 * val s) by (apply Rmult_le_compat_l; lra). lra. }
    assert (D : (t - 1) * N = t * (N - val s)) by (rewrite Rmult_minus_distr_l, T; ring).
    assert (B : Rabs (t - 1) * N <= 64 / 10 * u * N). { rewrite <- (Rabs_pos_eq N) at 1 by lra. rewrite <- Rabs_mult, D, Rabs_mult, (Rabs_pos_eq t) by lra. apply Rle_trans with (101 / 100 * (6 * u * N)); [apply Rmult_le_compat; [lra|apply Rabs_pos|lra|apply Rabs_le; lra]|]. assert (0 <= u * N) by (apply Rmult_le_pos; lra). lra. }
    apply Rmult_le_reg_r with N; [lra|exact B]. }
  replace (/ val s * (1 + e) * N - 1) with ((t - 1) + e + e * (t - 1)) by (unfold t; ring). apply Rabs_le_inv in T1.
  eapply Rle_trans; [apply Rabs_triang|]. rewrite Rabs_mult. assert (Rabs (t - 1 + e) <= 74 / 10 * u) by (apply Rabs_le; lra). assert (Rabs e * Rabs (t - 1) <= u * (/ 10)) by (apply Rmult_le_compat; auto using Rabs_pos; [apply Rabs_le; lra|apply Rabs_le; unfold u in *; lra]). lra.
Qed.
Lemma component_near (x : f32) : finite x = true -> Rabs (val x) <= N -> finite (fmul x (fdiv fone s)) = true /\ Rabs (val (fmul x (fdiv fone s)) - val x / N) <= 10 * u.
Proof.
  intros Fx Bx. destruct inverse_near as [Fi Ei]. assert (PN := N_pos). set (i := fdiv fone s) in *. assert (U : 0 < u < / 1000) by (unfold u; lra).
  set (X := val x / N). assert (HX : Rabs X <= 1). { unfold X, Rdiv. rewrite Rabs_mult, (Rabs_pos_eq (/ N)) by (left; apply Rinv_0_lt_compat; lra). apply Rmult_le_reg_r with N; [lra|]. rewrite Rmult_assoc, Rinv_l by lra. lra. }
  assert (E : val x * val i = X * (val i * N)) by (unfold X; field; lra). set (t := val i * N) in *. apply Rabs_le_inv in Ei.
  assert (P : Rabs (val x * val i - X) <= 8 * u). { rewrite E. replace (X * t - X) with (X * (t - 1)) by ring. rewrite Rabs_mult. apply Rle_trans with (1 * (8 * u)); [|lra]. apply Rmult_le_compat; auto using Rabs_pos. apply Rabs_le. lra. }
  assert (B : Rabs (val x * val i) <= 2). { replace (val x * val i) with (X + (val x * val i - X)) by ring. eapply Rle_trans; [apply Rabs_triang|]. lra. }
  assert (L := bpow_le radix2 1 127 ltac:(lia)). change (bpow radix2 1) with 2 in L. destruct (is_mul x i Fx Fi) as [F V]; [unfold fits; lra|]. split; [exact F|]. rewrite V.
  destruct (rnd_err (val x * val i)) as (e & n & He & Hn & ->). replace (val x * val i * (1 + e) + n - X) with ((val x * val i - X) + e * X + e * (val x * val i - X) + n) by ring.
  assert (T : bpow radix2 (-150) <= u / 10) by (unfold u; apply Rle_trans with (bpow radix2 (-30)); [apply bpow_le; lia|change (bpow radix2 (-30)) with (/ 1073741824); lra]).
  assert (A1 : Rabs (e * X) <= u * 1) by (rewrite Rabs_mult; apply Rmult_le_compat; auto using Rabs_pos). assert (A2 : Rabs (e * (val x * val i - X)) <= u * (8 * u)) by (rewrite Rabs_mult; apply Rmult_le_compat; auto using Rabs_pos).
  assert (A3 : u * (8 * u) <= u / 10) by (unfold u; lra).
  eapply Rle_trans; [apply Rabs_triang|]. eapply Rle_trans; [apply Rplus_le_compat_r, Rabs_triang|]. eapply Rle_trans; [apply Rplus_le_compat_r, Rplus_le_compat_r, Rabs_triang|]. lra.
Qed.
End Direction.
(** A product 1.5 a b of two components. *)
Lemma entry_near (x y : f32) X Y : finite x = true -> finite y = true -> Rabs (val x - X) <= 10 * u -> Rabs (val y - Y) <= 10 * u -> Rabs X <= 1 -> Rabs Y <= 1 ->
  let q := fmul (fmul (lit 3 (-1)) x) y in finite q = true /\ Rabs (val q - 3 / 2 * X * Y) <= 40 * u.
Proof.
  intros Fx Fy Ex Ey HX HY q. assert (T : bpow radix2 (-150) <= u / 100) by (unfold u; apply Rle_trans with (bpow radix2 (-40)); [apply bpow_le; lia|change (bpow radix2 (-40)) with (/ 1099511627776); lra]).
  assert (V3h : is (lit 3 (-1)) (3 / 2)).
  { assert (E : 3 / 2 = IZR 3 * bpow radix2 (-1)) by (change (bpow radix2 (-1)) with (/ 2); lra). destruct (is_lit 3 (-1)) as [F V]; [rewrite <- E; unfold fits; rewrite Rabs_pos_eq by lra; assert (L := bpow_le radix2 10 127 ltac:(lia)); change (bpow radix2 10) with 1024 in L; lra|].
    split; [exact F|]. rewrite V, E. apply rnd_fmt. apply fmt_F2R; [cbn; lia|lia]. }
  destruct V3h as [F3 Vh]. assert (U : 0 < u < / 1000) by (unfold u; lra).
  destruct (mul_near (lit 3 (-1)) x (3 / 2) X 0 (10 * u) (3 / 2) 1 F3 Fx) as [F1 E1]; [rewrite Vh, Rminus_diag_eq, Rabs_R0 by reflexivity; lra|exact Ex|rewrite Rabs_pos_eq; lra|exact HX|lra|lra|].
  set (a := fmul (lit 3 (-1)) x) in *. assert (E1' : Rabs (val a - 3 / 2 * X) <= 17 * u). { eapply Rle_trans; [exact E1|]. unfold u in *. lra. }
  destruct (mul_near a y (3 / 2 * X) Y (17 * u) (10 * u) (3 / 2) 1 F1 Fy) as [F2 E2]; [exact E1'|exact Ey|rewrite Rabs_mult, Rabs_pos_eq by lra; lra|exact HY|lra|lra|].
  split; [exact F2|]. eapply Rle_trans; [exact E2|]. unfold u in *. lra.
Qed.
Lemma diagonal_near (q : f32) Q : finite q = true -> Rabs (val q - Q) <= 40 * u -> Rabs Q <= 3 / 2 -> finite (fsub q (lit 1 (-1))) = true /\ Rabs (val (fsub q (lit 1 (-1))) - (Q - 1 / 2)) <= 48 * u.
Proof.
  intros F E B. assert (U : 0 < u < / 1000) by (unfold u; lra).
  assert (Vh : is (lit 1 (-1)) (1 / 2)).
  { assert (X : 1 / 2 = IZR 1 * bpow radix2 (-1)) by (change (bpow radix2 (-1)) with (/ 2); lra). destruct (is_lit 1 (-1)) as [G V]; [rewrite <- X; unfold fits; rewrite Rabs_pos_eq by lra; assert (L := bpow_le radix2 10 127 ltac:(lia)); change (bpow radix2 10) with 1024 in L; lra|].
    split; [exact G|]. rewrite V, X. apply rnd_fmt. apply fmt_F2R; [cbn; lia|lia]. }
  destruct Vh as [Fh Vh]. apply Rabs_le_inv in E. apply Rabs_le_inv in B. assert (A : Rabs (val q - 1 / 2) <= 3) by (apply Rabs_le; lra). assert (L := bpow_le radix2 10 127 ltac:(lia)). change (bpow radix2 10) with 1024 in L.
  destruct (is_sub q (lit 1 (-1)) F Fh) as [G V]; [rewrite Vh; unfold fits; lra|]. split; [exact G|]. rewrite V, Vh. destruct (rnd_minus (val q) (1 / 2) (fmt_val q)) as (e & He & ->); [rewrite <- Vh; apply fmt_val|].
  replace ((val q - 1 / 2) * (1 + e) - (Q - 1 / 2)) with ((val q - Q) + e * (val q - 1 / 2)) by ring. eapply Rle_trans; [apply Rabs_triang|]. assert (Rabs (e * (val q - 1 / 2)) <= u * 3) by (rewrite Rabs_mult; apply Rmult_le_compat; auto using Rabs_pos). assert (Rabs (val q - Q) <= 40 * u) by (apply Rabs_le; lra). lra.
Qed.
