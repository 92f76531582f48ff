(** Shell volumes, prefactors, rdf and n_r in single precision (C85). *)
From Coq Require Import Psatz.
From Flocq Require Import Core.
From Verif Require Import F32Proofs FaabbProofs2 FrdfProofs2 FrdfSpec.
Open Scope R_scope.

Ltac upos := assert (U0 : 0 < u < / 10000000) by (unfold u; lra).
Lemma okv_range x l h : (-124 <= l)%Z -> (h <= 124)%Z -> bpow radix2 l <= x <= bpow radix2 h -> okv x.
Proof. intros Hl Hh [A B]. right. assert (bpow radix2 (-124) <= bpow radix2 l) by (apply bpow_le; auto). assert (bpow radix2 h <= bpow radix2 124) by (apply bpow_le; auto). lra. Qed.
Lemma bp_mul l1 h1 l2 h2 x y : bpow radix2 l1 <= x <= bpow radix2 h1 -> bpow radix2 l2 <= y <= bpow radix2 h2 -> bpow radix2 (l1 + l2) <= x * y <= bpow radix2 (h1 + h2).
Proof.
  intros [A B] [C D]. assert (P1 := bpow_gt_0 radix2 l1). assert (P2 := bpow_gt_0 radix2 l2). rewrite !bpow_plus. split; apply Rmult_le_compat; lra.
Qed.
Lemma bp_inv l h x : bpow radix2 l <= x <= bpow radix2 h -> bpow radix2 (- h) <= / x <= bpow radix2 (- l).
Proof. intros [A B]. assert (P1 := bpow_gt_0 radix2 l). rewrite !bpow_opp. split; apply Rinv_le_contravar; lra. Qed.
Lemma bp_div l1 h1 l2 h2 x y : bpow radix2 l1 <= x <= bpow radix2 h1 -> bpow radix2 l2 <= y <= bpow radix2 h2 -> bpow radix2 (l1 - h2) <= x / y <= bpow radix2 (h1 - l2).
Proof. intros A B. apply bp_inv in B. assert (C := bp_mul _ _ _ _ _ _ A B). exact C. Qed.
Lemma bp_count z : (1 <= z < 2 ^ 32)%Z -> bpow radix2 0 <= IZR z <= bpow radix2 32.
Proof. intros H. change (bpow radix2 0) with (IZR 1). change (bpow radix2 32) with (IZR (2 ^ 32)). split; apply IZR_le; lia. Qed.

Lemma near_le2 d x b : d <= / 2 -> 0 <= b -> near d x b -> val x <= 2 * b.
Proof. intros Hd Hb N. assert (P := near_nonneg d x b Hd Hb N). destruct N as (_ & _ & N). nra. Qed.

Section Axis.
  Variables (a : faxis).
  Hypothesis HA : handy_axis a.
  Local Notation n := (fx_n a).
  Local Notation rmin := (val (fx_min a)).
  Local Notation rmax := (val (fx_max a)).
  Local Notation w := (bin_width a).
  Lemma width_bounds : rmax <= 65536 * w /\ w <= rmax /\ 0 <= rmin /\ rmin < rmax /\ bpow radix2 (-36) <= w <= bpow radix2 20 /\ bpow radix2 (-20) <= rmax <= bpow radix2 20 /\ IZR n * w = rmax - rmin /\ (1 <= IZR n <= 65536).
  Proof.
    destruct HA as (N & (Fx & X1 & X2) & Fn & Mn & Lt & W).
    assert (Nr : 1 <= IZR n <= 65536) by (split; [change 1 with (IZR 1)|]; apply IZR_le; lia).
    assert (P := bpow_gt_0 radix2 (-20)). assert (R0 : 0 <= rmin) by (destruct Mn; lra).
    assert (E : IZR n * w = rmax - rmin) by (unfold bin_width, range_of; field; lra). assert (W0 : 0 < w) by nra.
    assert (WM : w <= rmax) by nra. split; auto. split; auto. split; auto. split; auto. split; [|auto].
    split; [|lra]. change (-36)%Z with (-20 + -16)%Z. rewrite bpow_plus. change (bpow radix2 (-16)) with (/ 65536). lra.
  Qed.
  Lemma near_width : near (2 * u) (fwidth a) w.
  Proof.
    upos. destruct width_bounds as (W1 & W2 & W3 & W4 & W5 & W6 & W7 & W8). destruct HA as (N & (Fx & X1 & X2) & Fn & Mn & Lt & W).
    assert (R1 : rmax - rmin <= bpow radix2 20) by lra. assert (R2 : bpow radix2 (-36) <= rmax - rmin) by nra.
    assert (OR : okv (rmax - rmin)) by (apply (okv_range _ (-36) 20); [lia|lia|lra]).
    destruct (near_round 0 (rmax - rmin) (rmax - rmin) OR) as (Q1 & Q2 & Q3); try lra.
    destruct (is_sub (fx_max a) (fx_min a) Fx Fn Q1) as [F V].
    assert (Nd : near u (fsub (fx_max a) (fx_min a)) (rmax - rmin)). { split; auto. rewrite V. rewrite Rplus_0_l in Q2, Q3. auto. }
    destruct (is_lit_Z n ltac:(lia)) as [Fl Vl].
    assert (Nn : near 0 (lit n 0) (IZR n)). { rewrite <- Vl. apply near_exact; auto. rewrite Vl. lra. }
    unfold fwidth, bin_width, range_of. replace (2 * u) with (u + 0 + u) by ring. apply near_div; try lra; auto.
    apply (okv_range _ (-36) 20); [lia|lia|]. exact W5.
  Qed.
  Lemma edge_bounds i : (i <= Z.to_nat n)%nat -> 0 <= edge a i <= rmax.
  Proof.
    intros H. destruct width_bounds as (W1 & W2 & W3 & W4 & W5 & W6 & W7 & W8). unfold edge. assert (P := pos_INR i). assert (Pw := bpow_gt_0 radix2 (-36)).
    assert (INR i <= IZR n). { rewrite <- (Z2Nat.id n) by (destruct HA; lia). rewrite <- INR_IZR_INZ. apply le_INR. auto. } split; nra.
  Qed.
  Lemma edge_step i : edge a (S i) = edge a i + w. Proof. unfold edge. rewrite S_INR. ring. Qed.
  Lemma edge_pos i : edge a (S i) >= w. Proof. destruct width_bounds as (W1 & W2 & W3 & W4 & W5 & W6 & W7 & W8). unfold edge. rewrite S_INR. assert (P := pos_INR i). assert (Pw := bpow_gt_0 radix2 (-36)). nra. Qed.
  Lemma near_edge i : (i <= Z.to_nat n)%nat -> near (4 * u) (fedge a (Z.of_nat i)) (edge a i).
  Proof.
    upos. intros H. destruct width_bounds as (W1 & W2 & W3 & W4 & W5 & W6 & W7 & W8). assert (EB := edge_bounds i H). assert (N := HA). destruct N as (N & (Fx & X1 & X2) & Fn & Mn & Lt & _).
    destruct (is_lit_Z (Z.of_nat i) ltac:(lia)) as [Fl Vl]. assert (P := pos_INR i). rewrite <- INR_IZR_INZ in Vl.
    assert (Ni : near 0 (lit (Z.of_nat i) 0) (INR i)). { rewrite <- Vl. apply near_exact; auto. rewrite Vl. auto. }
    assert (NW := near_width). assert (P36 := bpow_gt_0 radix2 (-36)).
    assert (Oi : okv (INR i * w)). { destruct i as [|i]; [left; cbn; ring|]. apply (okv_range _ (-36) 20); [lia|lia|]. unfold edge in EB. assert (1 <= INR (S i)) by (rewrite S_INR; assert (Q := pos_INR i); lra). split; nra. }
    assert (M := near_mul 0 (2 * u) (lit (Z.of_nat i) 0) (fwidth a) (INR i) w P ltac:(lra) Oi ltac:(lra) ltac:(lra) ltac:(lra) Ni NW).
    assert (M3 : near (3 * u) (fmul (lit (Z.of_nat i) 0) (fwidth a)) (INR i * w)) by (replace (3 * u) with (0 + 2 * u + u) by ring; exact M).
    assert (Nm : near (3 * u) (fx_min a) rmin). { apply (near_weak 0); [auto|lra|lra|apply near_exact; auto]. }
    assert (Oe : okv (edge a i)). { destruct i as [|i].
      - unfold edge. cbn [INR]. rewrite Rmult_0_l, Rplus_0_r. destruct Mn as [->|Mn]; [left; auto|apply (okv_range _ (-20) 20); [lia|lia|lra]].
      - apply (okv_range _ (-36) 20); [lia|lia|]. assert (Q := edge_pos i). lra. }
    unfold fedge, edge. replace (4 * u) with (3 * u + u) by ring. apply near_add; try lra; auto; try (apply Rmult_le_pos; lra).
  Qed.
  Lemma okv_edge i : (i <= Z.to_nat n)%nat -> edge a i = 0 \/ bpow radix2 (-36) <= edge a i <= bpow radix2 20.
  Proof.
    intros H. destruct width_bounds as (W1 & W2 & W3 & W4 & W5 & W6 & W7 & W8). assert (EB := edge_bounds i H). destruct i as [|i].
    - destruct HA as (_ & _ & _ & Mn & _). unfold edge. cbn [INR]. rewrite Rmult_0_l, Rplus_0_r. destruct Mn as [->|Mn]; [auto|right]. assert (bpow radix2 (-36) <= bpow radix2 (-20)) by (apply bpow_le; lia). lra.
    - right. assert (Q := edge_pos i). lra.
  Qed.
  Lemma near_power i : (i <= Z.to_nat n)%nat ->
    near (9 * u) (fmul (fedge a (Z.of_nat i)) (fedge a (Z.of_nat i))) (edge a i ^ 2) /\
    near (14 * u) (fmul (fmul (fedge a (Z.of_nat i)) (fedge a (Z.of_nat i))) (fedge a (Z.of_nat i))) (edge a i ^ 3).
  Proof.
    upos. intros H. assert (NE := near_edge i H). assert (EB := edge_bounds i H). set (e := edge a i) in *. set (x := fedge a (Z.of_nat i)) in *.
    assert (O2 : okv (e * e) /\ okv (e * e * e)).
    { destruct (okv_edge i H) as [Z0|B]; [change (e = 0) in Z0; rewrite Z0; split; left; ring|]. split; [apply (okv_range _ (-72) 40)|apply (okv_range _ (-108) 60)]; try lia; [|change (-108)%Z with (-36 + -36 + -36)%Z; change 60%Z with (20 + 20 + 20)%Z; apply bp_mul; [|exact B]]; apply (bp_mul (-36) 20 (-36) 20); exact B. }
    destruct O2 as [O2 O3]. assert (P2 : 0 <= e * e) by nra.
    assert (M2 : near (9 * u) (fmul x x) (e * e)). { replace (9 * u) with (4 * u + 4 * u + u) by ring. apply near_mul; try lra; auto. }
    split; [replace (e ^ 2) with (e * e) by ring; exact M2|]. replace (e ^ 3) with (e * e * e) by ring. replace (14 * u) with (9 * u + 4 * u + u) by ring. apply near_mul; try lra; auto.
  Qed.
  (** How much of the radius one bin is. *)
  Local Notation rho i := (edge a (S i) / w).
  Lemma rho_bounds i : (S i <= Z.to_nat n)%nat -> 1 <= rho i <= 65536 /\ edge a (S i) = rho i * w.
  Proof.
    intros H. destruct width_bounds as (W1 & W2 & W3 & W4 & W5 & W6 & W7 & W8). assert (P36 := bpow_gt_0 radix2 (-36)). assert (E := edge_bounds _ H). assert (Q := edge_pos i). assert (EQ : edge a (S i) = rho i * w) by (field; lra).
    split; auto. set (r := rho i) in *. nra.
  Qed.
  Lemma near_diff2 i : (S i <= Z.to_nat n)%nat -> near (20 * rho i * u) (fsub (fmul (fedge a (Z.of_nat (S i))) (fedge a (Z.of_nat (S i)))) (fmul (fedge a (Z.of_nat i)) (fedge a (Z.of_nat i)))) (edge a (S i) ^ 2 - edge a i ^ 2) /\
    bpow radix2 (-72) <= edge a (S i) ^ 2 - edge a i ^ 2 <= bpow radix2 40.
  Proof.
    upos. intros H. destruct width_bounds as (W1 & W2 & W3 & W4 & W5 & W6 & W7 & W8). assert (P36 := bpow_gt_0 radix2 (-36)).
    destruct (near_power (S i) H) as [N1 _]. destruct (near_power i ltac:(lia)) as [N0 _]. assert (EB := edge_bounds i ltac:(lia)). assert (EB1 := edge_bounds (S i) H). destruct (rho_bounds i H) as [RB RE].
    assert (ES := edge_step i). set (r := rho i) in *. set (e1 := edge a (S i)) in *. set (e0 := edge a i) in *. set (x1 := fmul (fedge a (Z.of_nat (S i))) (fedge a (Z.of_nat (S i)))) in *. set (x0 := fmul (fedge a (Z.of_nat i)) (fedge a (Z.of_nat i))) in *.
    assert (D : e1 ^ 2 - e0 ^ 2 = w * (e1 + e0)) by (rewrite ES; ring).
    assert (R : e1 ^ 2 <= r * (e1 ^ 2 - e0 ^ 2)). { rewrite D. replace (e1 ^ 2) with (e1 * e1) by ring. rewrite RE at 1. rewrite Rmult_assoc. apply Rmult_le_compat_l; [lra|]. apply Rmult_le_compat_l; lra. }
    assert (E40 : e1 ^ 2 <= bpow radix2 40). { replace (e1 ^ 2) with (e1 * e1) by ring. change 40%Z with (20 + 20)%Z. rewrite bpow_plus. apply Rmult_le_compat; lra. }
    assert (Pe : 0 <= e0 ^ 2) by (apply pow2_ge_0).
    assert (DL : bpow radix2 (-72) <= e1 ^ 2 - e0 ^ 2). { rewrite D. change (-72)%Z with (-36 + -36)%Z. rewrite bpow_plus. apply Rmult_le_compat; lra. }
    assert (P72 := bpow_gt_0 radix2 (-72)).
    assert (FT : fits (val x1 - val x0)).
    { assert (V1 := near_nonneg (9 * u) x1 (e1 ^ 2) ltac:(lra) ltac:(lra) N1). assert (V0 := near_nonneg (9 * u) x0 (e0 ^ 2) ltac:(lra) Pe N0). assert (V2 := near_le2 (9 * u) x1 (e1 ^ 2) ltac:(lra) ltac:(lra) N1). assert (V3' := near_le2 (9 * u) x0 (e0 ^ 2) ltac:(lra) Pe N0).
      assert (B : bpow radix2 41 <= bpow radix2 127) by (apply bpow_le; lia). assert (B1 := bp_succ 40). change (40 + 1)%Z with 41%Z in B1. unfold fits. apply Rabs_le. split; lra. }
    destruct (near_sub (9 * u) x1 x0 (e1 ^ 2) (e0 ^ 2) r Pe ltac:(lra) ltac:(lra) ltac:(lra) R ltac:(lra) FT N1 N0) as [F B].
    split; [|lra]. apply near_of_rel; try lra; auto.
    - assert (r * u <= 65536 * u) by (apply Rmult_le_compat_r; lra). assert (65536 * u * 20 <= 1) by (unfold u; lra). split; [|lra]. apply Rmult_le_pos; lra.
    - eapply Rle_trans; [exact B|]. apply Rmult_le_compat_r; [lra|]. assert (0 <= r * u) by (apply Rmult_le_pos; lra). lra.
  Qed.
  Lemma near_diff3 i : (S i <= Z.to_nat n)%nat -> near (30 * rho i * u) (fsub (fmul (fmul (fedge a (Z.of_nat (S i))) (fedge a (Z.of_nat (S i)))) (fedge a (Z.of_nat (S i)))) (fmul (fmul (fedge a (Z.of_nat i)) (fedge a (Z.of_nat i))) (fedge a (Z.of_nat i)))) (edge a (S i) ^ 3 - edge a i ^ 3) /\
    bpow radix2 (-108) <= edge a (S i) ^ 3 - edge a i ^ 3 <= bpow radix2 60.
  Proof.
    upos. intros H. destruct width_bounds as (W1 & W2 & W3 & W4 & W5 & W6 & W7 & W8). assert (P36 := bpow_gt_0 radix2 (-36)).
    destruct (near_power (S i) H) as [_ N1]. destruct (near_power i ltac:(lia)) as [_ N0]. assert (EB := edge_bounds i ltac:(lia)). assert (EB1 := edge_bounds (S i) H). destruct (rho_bounds i H) as [RB RE].
    assert (ES := edge_step i). set (r := rho i) in *. set (e1 := edge a (S i)) in *. set (e0 := edge a i) in *. set (x1 := fmul (fmul (fedge a (Z.of_nat (S i))) _) _) in *. set (x0 := fmul (fmul (fedge a (Z.of_nat i)) _) _) in *.
    assert (D : e1 ^ 3 - e0 ^ 3 = w * (e1 * e1 + e1 * e0 + e0 * e0)) by (rewrite ES; ring). assert (S1 : 0 <= e1 * e0) by nra. assert (S2 : 0 <= e0 * e0) by nra. assert (S3 : w * w <= e1 * e1) by (apply Rmult_le_compat; lra).
    assert (R : e1 ^ 3 <= r * (e1 ^ 3 - e0 ^ 3)). { rewrite D. replace (e1 ^ 3) with (e1 * (e1 * e1)) by ring. rewrite RE at 1. rewrite Rmult_assoc. apply Rmult_le_compat_l; [lra|]. apply Rmult_le_compat_l; lra. }
    assert (E60 : e1 ^ 3 <= bpow radix2 60). { replace (e1 ^ 3) with (e1 * e1 * e1) by ring. change 60%Z with (20 + 20 + 20)%Z. rewrite !bpow_plus. apply Rmult_le_compat; [nra|lra|apply Rmult_le_compat; lra|lra]. }
    assert (Pe : 0 <= e0 ^ 3) by (apply pow_le; lra).
    assert (DL : bpow radix2 (-108) <= e1 ^ 3 - e0 ^ 3). { rewrite D. change (-108)%Z with (-36 + (-36 + -36))%Z. rewrite !bpow_plus. apply Rmult_le_compat; [lra|apply Rmult_le_pos; lra|lra|]. apply Rle_trans with (w * w); [apply Rmult_le_compat; lra|lra]. }
    assert (P72 := bpow_gt_0 radix2 (-108)).
    assert (FT : fits (val x1 - val x0)).
    { assert (V1 := near_nonneg (14 * u) x1 (e1 ^ 3) ltac:(lra) ltac:(lra) N1). assert (V0 := near_nonneg (14 * u) x0 (e0 ^ 3) ltac:(lra) Pe N0). assert (V2 := near_le2 (14 * u) x1 (e1 ^ 3) ltac:(lra) ltac:(lra) N1). assert (V3' := near_le2 (14 * u) x0 (e0 ^ 3) ltac:(lra) Pe N0).
      assert (B : bpow radix2 61 <= bpow radix2 127) by (apply bpow_le; lia). assert (B1 := bp_succ 60). change (60 + 1)%Z with 61%Z in B1. unfold fits. apply Rabs_le. split; lra. }
    destruct (near_sub (14 * u) x1 x0 (e1 ^ 3) (e0 ^ 3) r Pe ltac:(lra) ltac:(lra) ltac:(lra) R ltac:(lra) FT N1 N0) as [F B].
    split; [|lra]. apply near_of_rel; try lra; auto.
    - assert (r * u <= 65536 * u) by (apply Rmult_le_compat_r; lra). assert (65536 * u * 30 <= 1) by (unfold u; lra). split; [|lra]. apply Rmult_le_pos; lra.
    - eapply Rle_trans; [exact B|]. apply Rmult_le_compat_r; [lra|]. assert (0 <= r * u) by (apply Rmult_le_pos; lra). lra.
  Qed.
  Lemma near_prefactor3 : near (3 * u) volume_prefactor (4 / 3 * PI).
  Proof.
    upos. destruct pi_bounds as [PL PU]. destruct (is_lit_Z 4 ltac:(lia)) as [F4 V4]. destruct (is_lit_Z 3 ltac:(lia)) as [F3 V3'].
    assert (N4 : near 0 (lit 4 0) 4) by (rewrite <- V4; apply near_exact; auto; rewrite V4; lra). assert (N3 : near 0 (lit 3 0) 3) by (rewrite <- V3'; apply near_exact; auto; rewrite V3'; lra).
    assert (O : okv (4 / 3)) by (apply (okv_range _ 0 1); [lia|lia|cbn; lra]).
    assert (D := near_div 0 0 _ _ 4 3 ltac:(lra) ltac:(lra) O ltac:(lra) ltac:(lra) ltac:(lra) N4 N3). replace (0 + 0 + u) with u in D by ring.
    assert (O' : okv (PI * (4 / 3))) by (apply (okv_range _ 0 3); [lia|lia|cbn; lra]).
    destruct (mul_pi _ (4 / 3) u ltac:(lra) O' ltac:(lra) ltac:(lra) D) as [_ M]. rewrite (Rmult_comm (4 / 3)). replace (3 * u) with (u + 2 * u) by ring. exact M.
  Qed.
  Lemma near_shell is2d i : (S i <= Z.to_nat n)%nat -> near (34 * rho i * u) (fshell is2d a (Z.of_nat i)) (shell is2d (edge a i) (edge a (S i))) /\
    bpow radix2 (-108) <= shell is2d (edge a i) (edge a (S i)) <= bpow radix2 63.
  Proof.
    upos. intros H. destruct (rho_bounds i H) as [RB _]. destruct pi_bounds as [PL PU]. unfold fshell. replace (Z.of_nat i + 1)%Z with (Z.of_nat (S i)) by lia. unfold shell.
    assert (Ru : u <= rho i * u <= 65536 * u) by (split; [|apply Rmult_le_compat_r; lra]; assert (1 * u <= rho i * u) by (apply Rmult_le_compat_r; lra); lra). assert (Us : 65536 * u * 34 <= / 4) by (unfold u; lra).
    set (ru := rho i) in *. replace (34 * ru * u) with (34 * (ru * u)) by ring. destruct is2d.
    - destruct (near_diff2 i H) as [N B]. fold ru in N. replace (20 * ru * u) with (20 * (ru * u)) in N by ring. set (A := edge a (S i) ^ 2 - edge a i ^ 2) in *. assert (P := bpow_gt_0 radix2 (-72)).
      assert (SB : bpow radix2 (-72) <= PI * A <= bpow radix2 42). { split; [nra|]. change 42%Z with (2 + 40)%Z. rewrite bpow_plus. change (bpow radix2 2) with 4. apply Rmult_le_compat; lra. }
      assert (OO : okv (PI * A)) by (apply (okv_range _ (-72) 42); auto; lia).
      destruct (mul_pi _ A (20 * (ru * u)) ltac:(lra) OO ltac:(lra) ltac:(lra) N) as [M _].
      split; [apply (near_weak (20 * (ru * u) + 2 * u)); try lra; auto|].
      assert (bpow radix2 (-108) <= bpow radix2 (-72)) by (apply bpow_le; lia). assert (bpow radix2 42 <= bpow radix2 63) by (apply bpow_le; lia). lra.
    - destruct (near_diff3 i H) as [N B]. fold ru in N. replace (30 * ru * u) with (30 * (ru * u)) in N by ring. set (A := edge a (S i) ^ 3 - edge a i ^ 3) in *. assert (P := bpow_gt_0 radix2 (-108)). assert (NP := near_prefactor3).
      assert (SB : bpow radix2 (-108) <= 4 / 3 * PI * A <= bpow radix2 63). { split; [nra|]. change 63%Z with (3 + 60)%Z. rewrite bpow_plus. change (bpow radix2 3) with 8. apply Rmult_le_compat; lra. }
      assert (OO : okv (4 / 3 * PI * A)) by (apply (okv_range _ (-108) 63); auto; lia).
      assert (M := near_mul (3 * u) (30 * (ru * u)) volume_prefactor _ (4 / 3 * PI) A ltac:(lra) ltac:(lra) OO ltac:(lra) ltac:(lra) ltac:(lra) NP N). split; [|exact SB]. apply (near_weak (3 * u + 30 * (ru * u) + u)); try lra; auto.
  Qed.
End Axis.

(** * Prefactors *)
Lemma handy_okv x : handy x -> okv x. Proof. intros H. apply (okv_range _ (-110) 110); auto; lia. Qed.
Lemma near_volume b : handy_box b -> near (2 * u) (fvolume b) (volume b) /\ bpow radix2 (-60) <= volume b <= bpow radix2 60.
Proof.
  upos. intros ((Fx & X) & (Fy & Y) & HZ). assert (P := bpow_gt_0 radix2 (-20)).
  assert (Nx : near 0 (fvx (fL b)) (val (fvx (fL b)))) by (apply near_exact; auto; lra). assert (Ny : near 0 (fvy (fL b)) (val (fvy (fL b)))) by (apply near_exact; auto; lra).
  assert (XY := bp_mul _ _ _ _ _ _ X Y). change (-20 + -20)%Z with (-40)%Z in XY. change (20 + 20)%Z with 40%Z in XY. assert (P4 := bpow_gt_0 radix2 (-40)).
  assert (M : near (0 + 0 + u) (fmul (fvx (fL b)) (fvy (fL b))) (val (fvx (fL b)) * val (fvy (fL b)))) by (apply near_mul; try lra; auto; apply (okv_range _ (-40) 40); auto; lia).
  unfold fvolume, volume. destruct (f2d b).
  - split; [apply (near_weak (0 + 0 + u)); auto; lra|]. assert (bpow radix2 (-60) <= bpow radix2 (-40)) by (apply bpow_le; lia). assert (bpow radix2 40 <= bpow radix2 60) by (apply bpow_le; lia). lra.
  - destruct (HZ eq_refl) as (Fz & Z'). assert (Nz : near 0 (fvz (fL b)) (val (fvz (fL b)))) by (apply near_exact; auto; lra).
    assert (XYZ := bp_mul _ _ _ _ _ _ XY Z'). change (-40 + -20)%Z with (-60)%Z in XYZ. change (40 + 20)%Z with 60%Z in XYZ. split; auto.
    replace (2 * u) with (0 + 0 + u + 0 + u) by ring. apply near_mul; try lra; auto. apply (okv_range _ (-60) 60); auto; lia.
Qed.
Section Norm.
  Variables (fs : bool) (b : fbox) (np nqp nf : Z).
  Hypotheses (HB : handy_box b) (Hp : (1 <= np < 2 ^ 32)%Z) (Hq : (1 <= nqp < 2 ^ 32)%Z) (Hf : (1 <= nf < 2 ^ 32)%Z) (Hs : fs = true -> (2 <= nqp)%Z).
  Local Notation P := (IZR np * density fs b nqp * IZR nf).
  Hypothesis HP : handy P.
  Lemma near_density : near (8 * u) (let number_density := fdiv (fcount nqp) (fvolume b) in if fs then fmul number_density (fdiv (fcount ((nqp - 1) mod 2 ^ 32)) (fcount nqp)) else number_density) (density fs b nqp) /\
    bpow radix2 (-61) <= density fs b nqp <= bpow radix2 92.
  Proof.
    upos. destruct (near_volume b HB) as [NV BV]. assert (Vp := bpow_gt_0 radix2 (-60)). assert (Nq := near_count nqp ltac:(lia)). assert (Bq := bp_count nqp Hq). assert (Q1 : 1 <= IZR nqp) by (change (bpow radix2 0) with 1 in Bq; lra).
    assert (BD := bp_div _ _ _ _ _ _ Bq BV). change (0 - 60)%Z with (-60)%Z in BD. change (32 - -60)%Z with 92%Z in BD.
    assert (D : near (4 * u) (fdiv (fcount nqp) (fvolume b)) (IZR nqp / volume b)). { replace (4 * u) with (u + 2 * u + u) by ring. apply near_div; try lra; auto. apply (okv_range _ (-60) 92); auto; lia. }
    assert (L61 : bpow radix2 (-61) <= bpow radix2 (-60)) by (apply bpow_le; lia). cbv zeta. unfold density. destruct fs.
    - assert (Q2 := Hs eq_refl). rewrite Z.mod_small by lia. assert (N1 := near_count (nqp - 1) ltac:(lia)). rewrite minus_IZR in N1. assert (Q3 : 2 <= IZR nqp) by (change 2 with (IZR 2); apply IZR_le; lia).
      assert (BR : bpow radix2 (-1) <= (IZR nqp - 1) / IZR nqp <= bpow radix2 0). { change (bpow radix2 (-1)) with (/ 2). change (bpow radix2 0) with 1. split; [apply Rmult_le_reg_r with (IZR nqp)|apply Rmult_le_reg_r with (IZR nqp)]; try lra; unfold Rdiv; rewrite Rmult_assoc, Rinv_l by lra; lra. }
      assert (R : near (3 * u) (fdiv (fcount (nqp - 1)) (fcount nqp)) ((IZR nqp - 1) / IZR nqp)). { replace (3 * u) with (u + u + u) by ring. apply near_div; try lra; auto. apply (okv_range _ (-1) 0); auto; lia. }
      assert (BM := bp_mul _ _ _ _ _ _ BD BR). change (-60 + -1)%Z with (-61)%Z in BM. change (92 + 0)%Z with 92%Z in BM.
      assert (E : IZR nqp / volume b * ((IZR nqp - 1) / IZR nqp) = (IZR nqp - 1) / volume b) by (field; lra). rewrite E in BM. split; auto. rewrite <- E. replace (8 * u) with (4 * u + 3 * u + u) by ring.
      assert (H2 := bpow_gt_0 radix2 (-1)). apply near_mul; try lra; auto. rewrite E. apply (okv_range _ (-61) 92); auto; lia.
    - split; [|lra]. apply (near_weak (4 * u)); auto; lra.
  Qed.
  Lemma near_prefactor : near (13 * u) (fprefactor fs b np nqp nf) (/ P).
  Proof.
    upos. destruct near_density as [ND BD]. unfold fprefactor. cbv zeta in ND. cbv zeta. set (fd := if fs then _ else _) in *. assert (Np := near_count np ltac:(lia)). assert (Nf := near_count nf ltac:(lia)). assert (Bp := bp_count np Hp). assert (Bf := bp_count nf Hf).
    assert (P61 := bpow_gt_0 radix2 (-61)). change (bpow radix2 0) with 1 in *.
    assert (BM : bpow radix2 (0 + -61) <= IZR np * density fs b nqp <= bpow radix2 (32 + 92)) by (apply bp_mul; auto).
    assert (M : near (10 * u) (fmul (fcount np) fd) (IZR np * density fs b nqp)). { replace (10 * u) with (u + 8 * u + u) by ring. apply near_mul; try lra; auto. apply (okv_range _ (-61) 124); auto; lia. }
    assert (M2 : near (12 * u) (fmul (fmul (fcount np) fd) (fcount nf)) P). { replace (12 * u) with (10 * u + u + u) by ring. apply near_mul; try lra; auto; [apply Rmult_le_pos; lra|apply handy_okv; auto]. }
    assert (P0 : 0 < P) by (destruct HP as [K _]; assert (K' := bpow_gt_0 radix2 (-110)); lra).
    assert (N1 : near 0 fone 1). { destruct (is_lit_Z 1 ltac:(lia)) as [F1 V1]. split; [exact F1|]. change fone with (lit 1 0). rewrite V1. lra. }
    replace (/ P) with (1 / P) by (unfold Rdiv; ring). replace (13 * u) with (0 + 12 * u + u) by ring. apply near_div; try lra; auto.
    apply handy_okv. unfold handy, Rdiv. rewrite Rmult_1_l. apply (bp_inv (-110) 110). exact HP.
  Qed.
  Lemma near_rdf a c i : handy_axis a -> (S i <= Z.to_nat (fx_n a))%nat -> (0 <= c < 2 ^ 32)%Z -> c = 0%Z \/ (handy (IZR c / P) /\ handy (exact_rdf fs b a np nqp nf c i)) ->
    near (50 * (edge a (S i) / bin_width a) * u) (fdiv (fmul (fcount c) (fprefactor fs b np nqp nf)) (fshell (f2d b) a (Z.of_nat i))) (exact_rdf fs b a np nqp nf c i).
  Proof.
    upos. intros HA Hi Hc HH. destruct (rho_bounds a HA i Hi) as [RB _]. destruct (near_shell a HA (f2d b) i Hi) as [NS BS]. assert (NP := near_prefactor). assert (NC := near_count c Hc).
    assert (P0 : 0 < P) by (destruct HP as [K _]; assert (K' := bpow_gt_0 radix2 (-110)); lra). assert (IP : 0 < / P) by (apply Rinv_0_lt_compat; auto). assert (C0 : 0 <= IZR c) by (apply IZR_le; lia).
    set (ru := edge a (S i) / bin_width a) in *. assert (Ru : u <= ru * u <= 65536 * u) by (split; [|apply Rmult_le_compat_r; lra]; assert (1 * u <= ru * u) by (apply Rmult_le_compat_r; lra); lra). assert (Us : 65536 * u * 50 <= / 4) by (unfold u; lra).
    replace (50 * ru * u) with (50 * (ru * u)) by ring. replace (34 * ru * u) with (34 * (ru * u)) in NS by ring. assert (P108 := bpow_gt_0 radix2 (-108)).
    assert (OC : okv (IZR c * / P)) by (destruct HH as [->|[K _]]; [left; ring|apply handy_okv; exact K]).
    assert (OE : okv (IZR c * / P / shell (f2d b) (edge a i) (edge a (S i)))) by (destruct HH as [->|[_ K]]; [left; unfold Rdiv; ring|apply handy_okv; exact K]).
    assert (M : near (15 * u) (fmul (fcount c) (fprefactor fs b np nqp nf)) (IZR c * / P)). { replace (15 * u) with (u + 13 * u + u) by ring. apply near_mul; try lra; auto. }
    assert (Pm : 0 <= IZR c * / P) by (apply Rmult_le_pos; lra).
    unfold exact_rdf. change (IZR c / P) with (IZR c * / P). apply (near_weak (15 * u + 34 * (ru * u) + u)); try lra; [unfold Rdiv; apply Rmult_le_pos; auto; left; apply Rinv_0_lt_compat; lra|].
    apply near_div; try lra; auto.
  Qed.
End Norm.
Lemma near_error d x a k : 0 <= a -> 0 <= d -> d <= k -> d <= (1 - d) * k -> d <= / 2 -> near d x a -> Rabs (val x - a) <= k * a.
Proof.
  intros Ha Hd Hk H2 Hh N. assert (B := near_bound d x a Ha Hd Hh N). apply Rmult_le_reg_r with (1 - d); [lra|]. eapply Rle_trans; [exact B|]. assert (d * a <= (1 - d) * k * a) by (apply Rmult_le_compat_r; auto). lra.
Qed.

(** * n_r *)
Section NR.
  Variables (nqp nf : Z).
  Hypotheses (Hq : (1 <= nqp < 2 ^ 32)%Z) (Hf : (1 <= nf < 2 ^ 32)%Z).
  Local Notation P := (IZR nqp * IZR nf).
  Local Notation fpre := (fdiv fone (fmul (fcount nqp) (fcount nf))).
  Definition total (cs : list Z) : Z := fold_right Z.add 0%Z cs.
  Lemma exact_total cs : exact_n_r nqp nf cs = IZR (total cs) / P. Proof. reflexivity. Qed.
  Lemma P_bounds : 1 <= P /\ bpow radix2 0 <= P <= bpow radix2 64.
  Proof. assert (A := bp_mul _ _ _ _ _ _ (bp_count nqp Hq) (bp_count nf Hf)). change (0 + 0)%Z with 0%Z in A. change (32 + 32)%Z with 64%Z in A. split; auto. apply A. Qed.
  Lemma near_pre : near (4 * u) fpre (/ P).
  Proof.
    upos. destruct P_bounds as [P1 BP]. assert (Nq := near_count nqp ltac:(lia)). assert (Nf := near_count nf ltac:(lia)). assert (Bp := bp_count nqp Hq). assert (Bf := bp_count nf Hf). change (bpow radix2 0) with 1 in Bp, Bf.
    assert (M : near (3 * u) (fmul (fcount nqp) (fcount nf)) P). { replace (3 * u) with (u + u + u) by ring. apply near_mul; try lra; auto. apply (okv_range _ 0 64); auto; lia. }
    assert (N1 : near 0 fone 1). { destruct (is_lit_Z 1 ltac:(lia)) as [F1 V1]. split; [exact F1|]. change fone with (lit 1 0). rewrite V1. lra. }
    replace (/ P) with (1 / P) by (unfold Rdiv; ring). replace (4 * u) with (0 + 3 * u + u) by ring. apply near_div; try lra; auto.
    unfold Rdiv. rewrite Rmult_1_l. apply (okv_range _ (-64) (- 0)); [lia|lia|]. apply (bp_inv 0 64). exact BP.
  Qed.
  Lemma okv_ratio z : (0 <= z <= 2 ^ 50)%Z -> okv (IZR z / P).
  Proof.
    intros H. destruct P_bounds as [P1 BP]. destruct (Z.eq_dec z 0) as [->|N]; [left; unfold Rdiv; ring|]. apply (okv_range _ (0 - 64) (50 - 0)); [lia|lia|]. apply bp_div; auto.
    change (bpow radix2 0) with (IZR 1). change (bpow radix2 50) with (IZR (2 ^ 50)). split; apply IZR_le; lia.
  Qed.
  Lemma near_term c : (0 <= c < 2 ^ 32)%Z -> near (6 * u) (fmul (fcount c) fpre) (IZR c / P).
  Proof.
    upos. intros H. destruct P_bounds as [P1 BP]. assert (NC := near_count c H). assert (C0 : 0 <= IZR c) by (apply IZR_le; lia). assert (IP : 0 < / P) by (apply Rinv_0_lt_compat; lra).
    replace (6 * u) with (u + 4 * u + u) by ring. unfold Rdiv. apply near_mul; try lra; auto; [apply (okv_ratio c); lia|apply near_pre].
  Qed.
  Lemma total_app l l' : total (l ++ l') = (total l + total l')%Z. Proof. unfold total. induction l; cbn [app fold_right]; lia. Qed.
  Lemma total_bounds l : Forall (fun c => 0 <= c < 2 ^ 32)%Z l -> (0 <= total l <= Z.of_nat (length l) * 2 ^ 32)%Z.
  Proof. unfold total. induction 1; cbn [fold_right length]; lia. Qed.
  Lemma near_cumulate cs : forall before acc i, Forall (fun c => 0 <= c < 2 ^ 32)%Z (before ++ cs) -> (Z.of_nat (length (before ++ cs)) <= 65536)%Z -> before <> [] -> near ((INR (length before) + 6) * u) acc (IZR (total before) / P) ->
    (i < length cs)%nat -> near ((INR (length before + S i) + 6) * u) (nth i (fcumulate fpre acc cs) fzero) (IZR (total (before ++ firstn (S i) cs)) / P).
  Proof.
    upos. destruct P_bounds as [P1 BP]. assert (IP : 0 < / P) by (apply Rinv_0_lt_compat; lra). induction cs as [|c cs IH]; intros before acc i HF HL HN NA Hi; cbn [length] in Hi; [lia|]. cbn [fcumulate nth firstn]. cbv zeta.
    assert (HF' := HF). apply Forall_app in HF' as [Fb Fc]. assert (Hc : (0 <= c < 2 ^ 32)%Z) by (inversion Fc; auto). assert (TB := total_bounds before Fb).
    assert (C0 : 0 <= IZR c) by (apply IZR_le; lia). assert (T0 : 0 <= IZR (total before)) by (apply IZR_le; lia). rewrite app_length in HL. cbn [length] in HL.
    assert (LB : 1 <= INR (length before) <= 65536). { split; [change 1 with (INR 1); apply le_INR; destruct before; [congruence|cbn; lia]|]. rewrite INR_IZR_INZ. apply IZR_le. lia. }
    assert (DU : (INR (length before) + 6) * u <= / 4) by (unfold u in *; nra).
    assert (E1 : IZR (total (before ++ [c])) / P = IZR (total before) / P + IZR c / P). { rewrite total_app. cbn [total fold_right]. rewrite Z.add_0_r, plus_IZR. unfold Rdiv. ring. }
    assert (A : near ((INR (length (before ++ [c])) + 6) * u) (fadd acc (fmul (fcount c) fpre)) (IZR (total (before ++ [c])) / P)).
    { rewrite E1, app_length. cbn [length]. rewrite Nat.add_1_r, S_INR. replace ((INR (length before) + 1 + 6) * u) with ((INR (length before) + 6) * u + u) by ring.
      apply near_add; try lra; auto; try (apply Rmult_le_pos; lra).
      - rewrite <- E1. apply okv_ratio. rewrite total_app. cbn [total fold_right]. lia.
      - apply (near_weak (6 * u)); try lra; [apply Rmult_le_pos; lra|nra|]. apply near_term; auto. }
    destruct i as [|i].
    - rewrite firstn_O. replace (length before + 1)%nat with (length (before ++ [c])) by (rewrite app_length; reflexivity). exact A.
    - cbn [nth]. assert (K := IH (before ++ [c]) (fadd acc (fmul (fcount c) fpre)) i). rewrite <- !app_assoc in K. cbn [app] in K. rewrite (app_length before [c]) in K. cbn [length] in K.
      replace (length before + 1 + S i)%nat with (length before + S (S i))%nat in K by lia. apply K; auto; [rewrite app_length; cbn [length]; lia|destruct before; discriminate| |lia].
      rewrite app_length in A. exact A.
  Qed.
  Lemma near_n_r counts i : Forall (fun c => 0 <= c < 2 ^ 32)%Z counts -> (Z.of_nat (length counts) <= 65536)%Z -> (i < length counts)%nat ->
    near ((INR i + 7) * u) (nth i (fn_r nqp nf counts) fzero) (exact_n_r nqp nf (firstn (S i) counts)).
  Proof.
    upos. intros HF HL Hi. destruct counts as [|c cs]; cbn [length] in *; [lia|]. unfold fn_r. cbv zeta. rewrite exact_total. assert (Hc : (0 <= c < 2 ^ 32)%Z) by (inversion HF; auto).
    assert (T : near (7 * u) (fmul (fcount c) fpre) (IZR (total [c]) / P)). { cbn [total fold_right]. rewrite Z.add_0_r. apply (near_weak (6 * u)); try lra; [|apply near_term; auto]. destruct P_bounds as [P1 _]. apply Rmult_le_pos; [apply IZR_le; lia|left; apply Rinv_0_lt_compat; lra]. }
    destruct i as [|i]; [cbn [nth firstn INR]; rewrite Rplus_0_l; exact T|]. cbn [nth].
    assert (K := near_cumulate cs [c] (fmul (fcount c) fpre) i). cbn [app length] in K. change (firstn (S (S i)) (c :: cs)) with (c :: firstn (S i) cs).
    replace (INR (S i) + 7) with (INR (1 + S i) + 6) by (rewrite !S_INR; cbn [Nat.add]; rewrite ?S_INR; ring). apply K; [exact HF|exact HL|discriminate| |lia]. cbn [INR]. replace ((1 + 6) * u) with (7 * u) by ring. exact T.
  Qed.
End NR.
