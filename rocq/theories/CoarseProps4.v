(** C96 in single precision: holds away from the edges of the fine bins, fails at an edge. *)
From Coq Require Import ZArith Reals List Lra Lia Psatz Bool.
From Flocq Require Import Core BinarySingleNaN.
From Verif Require Import RBase F32Model F32Proofs F32Proofs3 F32Props.
From Verif Require Import F32Spec.
Local Open Scope R_scope.

Theorem C96_float : forall a k v j, let a' := FAxis (k * fx_n a) (fx_min a) (fx_max a) in
  (0 < k)%Z -> ordinary a -> ordinary a' -> finite v = true -> in_range a v ->
  IZR j + 6 * u * IZR (fx_n a') <= position a' v < IZR j + 1 - 6 * u * IZR (fx_n a') ->
  fbin a' v = j /\ fbin a v = (fbin a' v / k)%Z.
Proof.
  intros a k v j a' Hk O O' Fv Hv Hj. assert (E : fbin a' v = j) by exact (proj1 (C65_bin_accurate a' v O' Fv Hv) j Hj). split; [exact E|]. rewrite E.
  apply (proj1 (C65_bin_accurate a v O Fv Hv)). assert (KP : 0 < IZR k) by (apply IZR_lt; auto).
  assert (P : position a' v = IZR k * position a v) by (unfold position, a'; cbn [fx_n fx_min fx_max]; rewrite mult_IZR; unfold Rdiv; ring). rewrite P in Hj. unfold a' in Hj. cbn [fx_n] in Hj. rewrite mult_IZR in Hj.
  pose proof (Z.div_mod j k ltac:(lia)) as DM. pose proof (Z.mod_pos_bound j k Hk) as MB. set (q := (j / k)%Z) in *.
  assert (A1 : IZR k * IZR q <= IZR j) by (rewrite <- mult_IZR; apply IZR_le; lia). assert (A2 : IZR j + 1 <= IZR k * (IZR q + 1)) by (rewrite <- !plus_IZR, <- mult_IZR; apply IZR_le; lia).
  set (d := 6 * u * IZR (fx_n a)) in *. replace (6 * u * (IZR k * IZR (fx_n a))) with (IZR k * d) in Hj by (unfold d; ring). split.
  - apply (Rmult_le_reg_l (IZR k)); auto. lra.
  - apply (Rmult_lt_reg_l (IZR k)); auto. lra.
Qed.
(** Any value: the fine bin lies in the coarse bin or in one next to it. *)
Theorem C96_float_near : forall a k v, let a' := FAxis (k * fx_n a) (fx_min a) (fx_max a) in
  (0 < k)%Z -> ordinary a -> ordinary a' -> (fx_n a <= 1048576)%Z -> finite v = true -> in_range a v -> (Z.abs (fbin a v - fbin a' v / k) <= 1)%Z.
Proof.
  intros a k v a' Hk O O' Hn Fv Hv. assert (E := position_error a v O Fv Hv). assert (E' := position_error a' v O' Fv Hv). apply Rabs_le_inv in E, E'.
  destruct (fbin_in a v O Fv Hv) as [B R]. destruct (fbin_in a' v O' Fv Hv) as [B' R']. cbv zeta in B, B'.
  assert (KP : 0 < IZR k) by (apply IZR_lt; auto).
  assert (P : position a' v = IZR k * position a v) by (unfold position, a'; cbn [fx_n fx_min fx_max]; rewrite mult_IZR; unfold Rdiv; ring). rewrite P in E'. unfold a' in E', B', R' |- *. cbn [fx_n] in E', B', R'. fold a' in E', B', R' |- *. rewrite mult_IZR in E'.
  set (d := 6 * u * IZR (fx_n a)) in *. replace (6 * u * (IZR k * IZR (fx_n a))) with (IZR k * d) in E' by (unfold d; ring).
  assert (D : 2 * d <= 1) by (apply IZR_le in Hn; unfold d, u; lra).
  set (x := val (fval a v)) in *. set (y := val (fval a' v)) in *. set (p := position a v) in *. clearbody x y p d.
  assert (FX := Zfloor_lb x). assert (FX' := Zfloor_ub x). assert (FY := Zfloor_lb y). assert (FY' := Zfloor_ub y). set (b := Zfloor x) in *. set (b' := Zfloor y) in *.
  set (f := fbin a v) in *. set (f' := fbin a' v) in *. pose proof (Z.div_mod f' k ltac:(lia)) as DM. pose proof (Z.mod_pos_bound f' k Hk) as MB. set (q := (f' / k)%Z) in *. clearbody f f' q b b'.
  assert (Q : (q < fx_n a)%Z) by nia.
  assert (Hb : (f <= b)%Z) by (destruct (Z.eqb_spec b (fx_n a)); lia). assert (Hb' : (f' <= b')%Z) by (destruct (Z.eqb_spec b' (k * fx_n a)); lia).
  destruct (Z_le_gt_dec f (q + 1)) as [U1|U1].
  - destruct (Z_le_gt_dec (q - 1) f) as [U2|U2]; [lia|exfalso]. assert (Eb : b = f) by (destruct (Z.eqb_spec b (fx_n a)); lia). subst b.
    assert (Y1 : IZR (k * q) <= y) by (apply Rle_trans with (2 := FY); apply IZR_le; lia). rewrite mult_IZR in Y1.
    assert (Y2 : IZR k * (p + d) <= IZR k * (IZR f + 1 + 2 * d) ) by (apply Rmult_le_compat_l; lra). assert (Y3 : IZR k * p < IZR k * (IZR f + 1 + d)) by (apply Rmult_lt_compat_l; lra).
    assert (Y4 : IZR f + 2 <= IZR q) by (rewrite <- plus_IZR; apply IZR_le; lia). assert (Y5 : IZR k * (IZR f + 1 + 2 * d) <= IZR k * IZR q) by (apply Rmult_le_compat_l; lra). lra.
  - exfalso. assert (X1 : IZR (q + 2) <= x) by (apply Rle_trans with (2 := FX); apply IZR_le; lia). rewrite plus_IZR in X1.
    assert (X2 : IZR k * (IZR q + 2 - d) <= IZR k * p) by (apply Rmult_le_compat_l; lra). assert (X3 : IZR k * (IZR q + 1) <= IZR k * (IZR q + 2 - 2 * d)) by (apply Rmult_le_compat_l; lra).
    assert (X4 : IZR (k * (q + 1)) < IZR (b' + 1)) by (rewrite mult_IZR, !plus_IZR; lra). apply lt_IZR in X4. destruct (Z.eqb_spec b' (k * fx_n a)); nia.
Qed.
Lemma ordinary_unit n : (1 <= n <= 4096)%Z -> ordinary (FAxis n (lit 0 0) (lit 1 0)).
Proof.
  intros Hn. destruct (is_lit_Z 0) as [F0 V0]; [cbn; lia|]. destruct (is_lit_Z 1) as [F1 V1]; [cbn; lia|].
  unfold ordinary. cbn [fx_min fx_max fx_n]. rewrite V0, V1. repeat split; try assumption; try lia.
  - assert (L := bpow_le radix2 (-125) (-12) ltac:(lia)). change (bpow radix2 (-12)) with (/ 4096) in L. assert (N1 : 1 <= IZR n) by (apply IZR_le; lia). assert (N2 : IZR n <= 4096) by (apply IZR_le; lia).
    apply Rle_trans with (1 := L). unfold Rdiv. replace ((1 - 0) * / IZR n) with (/ IZR n) by ring. apply Rinv_le; lra.
  - assert (L := bpow_le radix2 0 126 ltac:(lia)). change (bpow radix2 0) with 1 in L. lra.
Qed.
(** On [0, 1) the value 1/2, exactly the edge between bins 2 and 3 of 6, gets bin 3; with 30 bins it gets bin 14, which belongs to bin 2. *)
Theorem C96_float_refuted : exists a k v, (0 < k)%Z /\ ordinary a /\ ordinary (FAxis (k * fx_n a) (fx_min a) (fx_max a)) /\ finite v = true /\ in_range a v /\
  fbin a v = 3%Z /\ (fbin (FAxis (k * fx_n a) (fx_min a) (fx_max a)) v / k)%Z = 2%Z.
Proof.
  exists (FAxis 6 (lit 0 0) (lit 1 0)), 5%Z, (lit 1 (-1)). cbn [fx_n fx_min fx_max].
  split; [lia|]. split; [apply ordinary_unit; lia|]. split; [apply ordinary_unit; lia|]. split; [vm_compute; reflexivity|]. split; [|split; vm_compute; reflexivity].
  unfold in_range. cbn [fx_min fx_max]. destruct (is_lit_Z 0) as [_ V0]; [cbn; lia|]. destruct (is_lit_Z 1) as [_ V1]; [cbn; lia|]. rewrite V0, V1.
  rewrite sf_val. replace (B2SF (lit 1 (-1))) with (SpecFloat.S754_finite false 8388608 (-24)) by (vm_compute; reflexivity). unfold SF2R, F2R. cbn [Fnum Fexp cond_Zopp]. change (bpow radix2 (-24)) with (/ 16777216). lra.
Qed.
(** 3/4 in 2 and in 6 bins. *)
Example C96_float_ex : fbin (FAxis 6 (lit 0 0) (lit 1 0)) (lit 3 (-2)) = 4%Z /\ fbin (FAxis 2 (lit 0 0) (lit 1 0)) (lit 3 (-2)) = 1%Z.
Proof.
  destruct (C96_float (FAxis 2 (lit 0 0) (lit 1 0)) 3 (lit 3 (-2)) 4) as [A B]; try lia; try (apply ordinary_unit; cbn; lia).
  - vm_compute; reflexivity.
  - unfold in_range. cbn [fx_min fx_max]. destruct (is_lit_Z 0) as [_ V0]; [cbn; lia|]. destruct (is_lit_Z 1) as [_ V1]; [cbn; lia|]. rewrite V0, V1.
    rewrite sf_val. replace (B2SF (lit 3 (-2))) with (SpecFloat.S754_finite false 12582912 (-24)) by (vm_compute; reflexivity). unfold SF2R, F2R. cbn [Fnum Fexp cond_Zopp]. change (bpow radix2 (-24)) with (/ 16777216). lra.
  - unfold position, u. cbn [fx_n fx_min fx_max]. destruct (is_lit_Z 0) as [_ V0]; [cbn; lia|]. destruct (is_lit_Z 1) as [_ V1]; [cbn; lia|]. rewrite V0, V1.
    rewrite sf_val. replace (B2SF (lit 3 (-2))) with (SpecFloat.S754_finite false 12582912 (-24)) by (vm_compute; reflexivity). unfold SF2R, F2R. cbn [Fnum Fexp cond_Zopp Z.mul Pos.mul]. change (bpow radix2 (-24)) with (/ 16777216). replace (1 - 0) with 1 by ring. unfold Rdiv. rewrite Rinv_1. change (Z.pos (2 + 4)) with 6%Z. lra.
  - split; [exact A|]. rewrite B. cbn [fx_n fx_min fx_max] in A |- *. change (3 * 2)%Z with 6%Z in *. rewrite A. reflexivity.
Qed.
Print Assumptions C96_float.
Print Assumptions C96_float_refuted.
Print Assumptions C96_float_near.
