(** C65: binning, positive modulus and wrapping in single precision. *)
From Coq Require Import ZArith Reals List Lra Lia Psatz Bool.
From Flocq Require Import Core BinarySingleNaN.
From Verif Require Import RBase MArrayModel MArraySpec MArrayProofs F32Model F32Proofs F32Proofs2 F32Proofs3 F32Proofs4.
From Verif Require Import F32Spec.
Import ListNotations.
Local Open Scope R_scope.

Lemma sf_val x : val x = SF2R radix2 (B2SF x). Proof. symmetry. apply SF2R_B2SF. Qed.

(** ** Binning along an axis *)
(** A value is reported as outside exactly when it is outside, and every other value gets an index below the number of
    bins: no rounding leads out of the array. *)
Theorem C65_bin a v : ordinary a -> finite v = true ->
  (fbin a v = OVERFLOW <-> ~ in_range a v) /\ (in_range a v -> (0 <= fbin a v < fx_n a)%Z).
Proof.
  intros O Fv. split; [|intros Hv; now apply fbin_in]. split.
  - intros E Hv. destruct (fbin_in a v O Fv Hv) as [_ B]. destruct O as (_ & _ & Hn & _). unfold OVERFLOW in E. lia.
  - intros N. destruct O as (Fm & FM & _). unfold fbin. rewrite Bltb_correct, Bleb_correct by assumption. unfold in_range in N.
    destruct (Rlt_bool_spec (val v) (val (fx_min a))); [reflexivity|]. destruct (Rle_bool_spec (val (fx_max a)) (val v)); [reflexivity|lra].
Qed.
Theorem C65_bin_infinite a s : finite (fx_min a) = true -> finite (fx_max a) = true -> fbin a (B754_infinity s) = OVERFLOW.
Proof. intros Fm FM. unfold fbin. destruct (fx_min a) as [|s1| |s1 ? ? ?], (fx_max a) as [|s2| |s2 ? ? ?]; try discriminate; destruct s; try reflexivity; destruct s1, s2; reflexivity. Qed.

(** Larger values never get smaller bins, and the lower end gets bin 0. *)
Theorem C65_bin_monotone a v v' : ordinary a -> finite v = true -> finite v' = true -> in_range a v -> in_range a v' -> val v <= val v' ->
  (fbin a v <= fbin a v')%Z.
Proof.
  intros O Fv Fv' Hv Hv' H. destruct (fbin_in a v O Fv Hv) as [E B], (fbin_in a v' O Fv' Hv') as [E' B'].
  destruct (val_facts a v O Fv Hv) as (? & ? & ? & ? & ? & ? & _ & _ & _ & _ & _ & _ & _ & _ & V & _).
  destruct (val_facts a v' O Fv' Hv') as (? & ? & ? & ? & ? & ? & _ & _ & _ & _ & _ & _ & _ & _ & V' & _).
  destruct (axis_facts a O) as (? & ? & ? & _ & _ & _ & _ & _ & _ & _ & HI).
  assert (M : val (fval a v) <= val (fval a v')).
  { rewrite V, V'. apply rnd_le. apply Rmult_le_compat_r; [lra|]. apply rnd_le. lra. }
  assert (Z := Zfloor_le _ _ M). rewrite E, E' in *. cbv zeta in *.
  destruct (Z.eqb_spec (Zfloor (val (fval a v))) (fx_n a)), (Z.eqb_spec (Zfloor (val (fval a v'))) (fx_n a)); lia.
Qed.
Theorem C65_bin_first a : ordinary a -> fbin a (fx_min a) = 0%Z.
Proof.
  intros O. assert (O' := O). destruct O' as (Fm & _ & Hn & _). destruct (axis_facts a O) as (? & ? & ? & _ & _ & _ & _ & _ & D0 & _).
  assert (Hv : in_range a (fx_min a)) by (unfold in_range; lra).
  destruct (fbin_in a _ O Fm Hv) as [E B]. destruct (val_facts a _ O Fm Hv) as (? & ? & ? & ? & ? & ? & _ & _ & _ & _ & _ & _ & _ & _ & V & _).
  replace (val (fx_min a) - val (fx_min a)) with 0 in V by ring. rewrite rnd_0, Rmult_0_l, rnd_0 in V. rewrite E, V. cbv zeta. rewrite (Zfloor_IZR 0).
  destruct (Z.eqb_spec 0 (fx_n a)); lia.
Qed.

(** The scaled value is the exact position along the axis up to 6 u n. *)
Lemma position_error a v : ordinary a -> finite v = true -> in_range a v -> Rabs (val (fval a v) - position a v) <= 6 * u * IZR (fx_n a).
Proof.
  intros O Fv Hv. destruct (val_facts a v O Fv Hv) as (e1 & e2 & e3 & e4 & e5 & t & H1 & H2 & H3 & H4 & H5 & Ht & [_ V] & _ & _ & P).
  destruct O as (_ & _ & Hn & _). assert (Hn' : 1 <= IZR (fx_n a)) by (apply IZR_le; lia). set (n := IZR (fx_n a)) in *. set (p := position a v) in *.
  apply Rabs_bound in H1, H2, H3, H4, H5. assert (U : u = / 16777216) by reflexivity. assert (U0 := u_pos).
  set (g := (1 + e3) * (1 + e4) * (1 + e5) / ((1 + e1) * (1 + e2))) in *.
  assert (G : - (5 * u + u / 2) <= g - 1 <= 5 * u + u / 2).
  { assert (D1 : (1 - u) * (1 - u) <= (1 + e1) * (1 + e2) <= (1 + u) * (1 + u)) by (split; apply Rmult_le_compat; rewrite U in *; lra).
    assert (N1 : (1 - u) * (1 - u) <= (1 + e3) * (1 + e4) <= (1 + u) * (1 + u)) by (split; apply Rmult_le_compat; rewrite U in *; lra).
    assert (N2 : (1 - u) * (1 - u) * (1 - u) <= (1 + e3) * (1 + e4) * (1 + e5) <= (1 + u) * (1 + u) * (1 + u)) by (split; apply Rmult_le_compat; rewrite U in *; lra).
    set (d := (1 + e1) * (1 + e2)) in *. set (m := (1 + e3) * (1 + e4) * (1 + e5)) in *.
    assert (D0 : 0 < d) by (rewrite U in *; lra).
    assert (K1 : 1 - (5 * u + u / 2) <= g) by (apply le_div_iff; [exact D0|]; rewrite U in *; lra).
    assert (K2 : g <= 1 + (5 * u + u / 2)) by (apply div_le_iff; [exact D0|]; rewrite U in *; lra). lra. }
  rewrite V. replace (p * g + t - p) with (p * (g - 1) + t) by ring. eapply Rle_trans; [apply Rabs_triang|].
  assert (T : Rabs t <= u / 2). { eapply Rle_trans; [exact Ht|]. rewrite u_bpow. unfold Rdiv. change (/ 2) with (bpow radix2 (-1)). rewrite <- bpow_plus. apply bpow_le. lia. }
  assert (Q : Rabs (p * (g - 1)) <= n * (5 * u + u / 2)).
  { rewrite Rabs_mult, (Rabs_right p) by lra. apply Rmult_le_compat; [lra|apply Rabs_pos|lra|]. apply Rabs_le. lra. }
  nra.
Qed.
(** A value farther than 6 u n bins from the edges gets the exact bin; with at most 2^21 bins no value is off by more
    than one bin. *)
Theorem C65_bin_accurate a v : ordinary a -> finite v = true -> in_range a v ->
  (forall k : Z, IZR k + 6 * u * IZR (fx_n a) <= position a v < IZR k + 1 - 6 * u * IZR (fx_n a) -> fbin a v = k) /\
  ((fx_n a <= 2097152)%Z -> (Z.abs (fbin a v - exact_bin a v) <= 1)%Z).
Proof.
  intros O Fv Hv. assert (E := position_error a v O Fv Hv). apply Rabs_le_inv in E. destruct (fbin_in a v O Fv Hv) as [B1 B2].
  destruct (val_facts a v O Fv Hv) as (? & ? & ? & ? & ? & ? & _ & _ & _ & _ & _ & _ & _ & _ & _ & P). assert (U0 := u_pos).
  assert (Hn : (1 <= fx_n a)%Z) by (destruct O as (_ & _ & Hn & _); lia). assert (Hn' : 1 <= IZR (fx_n a)) by (apply IZR_le; lia).
  split.
  - intros k Hk. assert (F : Zfloor (val (fval a v)) = k) by (apply Zfloor_imp; rewrite plus_IZR; lra). rewrite B1, F. cbv zeta.
    destruct (Z.eqb_spec k (fx_n a)) as [->|]; [|reflexivity]. nra.
  - intros H21. assert (H21' : IZR (fx_n a) <= 2097152) by (apply IZR_le; lia). assert (S : 6 * u * IZR (fx_n a) < 1) by (unfold u; nra).
    unfold exact_bin. assert (Fp := Zfloor_bounds (position a v)). assert (Ff := Zfloor_bounds (val (fval a v))).
    assert (D : (-1 <= Zfloor (val (fval a v)) - Zfloor (position a v) <= 1)%Z).
    { assert (L1 : IZR (Zfloor (val (fval a v)) - Zfloor (position a v)) < 2) by (rewrite minus_IZR; lra).
      assert (L2 : -2 < IZR (Zfloor (val (fval a v)) - Zfloor (position a v))) by (rewrite minus_IZR; lra).
      apply lt_IZR in L1, L2. lia. }
    assert (Pn : (Zfloor (position a v) < fx_n a)%Z) by (apply lt_IZR; lra).
    rewrite B1. cbv zeta. destruct (Z.eqb_spec (Zfloor (val (fval a v))) (fx_n a)); lia.
Qed.

Definition ex_axis : faxis := FAxis 100 (lit 0 0) (lit 10 0).
Lemma ex_axis_ordinary : ordinary ex_axis.
Proof.
  destruct (is_lit_Z 0) as [F0 V0]; [cbn; lia|]. destruct (is_lit_Z 10) as [F1 V1]; [cbn; lia|].
  unfold ordinary, ex_axis. cbn [fx_min fx_max fx_n]. rewrite V0, V1. repeat split; try assumption; try lia.
  - assert (L := bpow_le radix2 (-125) (-4) ltac:(lia)). change (bpow radix2 (-4)) with (/ 16) in L. lra.
  - assert (L := bpow_le radix2 4 126 ltac:(lia)). change (bpow radix2 4) with 16 in L. lra.
Qed.
Example C65_bin_example : ordinary ex_axis /\ in_range ex_axis (lit 5 0) /\ fbin ex_axis (lit 5 0) = 50%Z.
Proof.
  split; [apply ex_axis_ordinary|]. split; [|vm_compute; reflexivity].
  unfold in_range, ex_axis. cbn [fx_min fx_max]. rewrite (proj2 (is_lit_Z 0 ltac:(cbn; lia))), (proj2 (is_lit_Z 5 ltac:(cbn; lia))), (proj2 (is_lit_Z 10 ltac:(cbn; lia))). lra.
Qed.

(** Several axes: the index into the array of counts is inside the array. *)
Theorem C65_histogram axes vals : Forall ordinary axes -> Forall (fun v => finite v = true) vals ->
  Forall2 in_range axes vals ->
  exists l k, fbins axes vals = Some l /\ in_shape (map fx_n axes) l /\ get_index (map fx_n axes) l = Some k /\ (0 <= k < size_of (map fx_n axes))%Z.
Proof.
  intros HO HF HR.
  assert (G : exists l, fbins axes vals = Some l /\ in_shape (map fx_n axes) l).
  { revert HO HF. induction HR as [|a v axes vals Hv HR IH]; intros HO HF; [exists []; split; [reflexivity|constructor]|].
    inversion HO as [|? ? Oa HO']; subst. inversion HF as [|? ? Fv HF']; subst. destruct (IH HO' HF') as (l & E & S).
    destruct (fbin_in a v Oa Fv Hv) as [_ B]. exists (fbin a v :: l). cbn [fbins]. rewrite E.
    assert (Hn := Oa). destruct Hn as (_ & _ & Hn & _). destruct (Z.eqb_spec (fbin a v) OVERFLOW) as [Q|_]; [unfold OVERFLOW in Q; lia|].
    split; [reflexivity|]. cbn [map]. constructor; assumption. }
  destruct G as (l & E & S). exists l, (row_major (map fx_n axes) l). split; [exact E|]. split; [exact S|]. split; [now apply get_index_in_range|].
  now apply row_major_range.
Qed.
Example C65_histogram_example : Forall ordinary [ex_axis; ex_axis] /\ Forall2 in_range [ex_axis; ex_axis] [lit 5 0; lit 5 0] /\
  fbins [ex_axis; ex_axis] [lit 5 0; lit 5 0] = Some [50; 50]%Z.
Proof.
  split; [apply Forall_cons; [|apply Forall_cons; [|apply Forall_nil]]; apply ex_axis_ordinary|].
  split; [apply Forall2_cons; [|apply Forall2_cons; [|apply Forall2_nil]]; apply C65_bin_example|vm_compute; reflexivity].
Qed.

(** *** What goes wrong outside these conditions *)
(** NaN passes the range check of every axis and becomes the index 2^64 - 2^31, neither a bin nor the sentinel; indexing
    the array of counts with it throws. *)
Theorem C65_nan_refuted a : (fx_n a < 2 ^ 63)%Z -> fbin a B754_nan = (2 ^ 64 - 2 ^ 31)%Z.
Proof.
  intros H. unfold fbin. assert (E1 : Bltb B754_nan (fx_min a) = false) by reflexivity.
  assert (E2 : Bleb (fx_max a) B754_nan = false) by (destruct (fx_max a) as [[]|[]| |[] ? ? ?]; reflexivity).
  rewrite E1, E2. cbn [orb]. assert (E3 : fval a B754_nan = B754_nan) by (unfold fval, fmul, fsub; destruct (fx_min a), (finverse a); reflexivity).
  rewrite E3. cbn [cvtt]. change ((- 2 ^ 31) mod 2 ^ 64)%Z with (2 ^ 64 - 2 ^ 31)%Z. cbv zeta.
  destruct (Z.eqb_spec (2 ^ 64 - 2 ^ 31) (fx_n a)); [lia|reflexivity].
Qed.
(** Tiny axis: 100 bins up to 2^-126 (an accepted r_max).  The inverse width overflows and the value 0 becomes NaN. *)
Theorem C65_tiny_axis_refuted : exists a v, finite (fx_min a) = true /\ finite (fx_max a) = true /\ fx_n a = 100%Z /\ finite v = true /\
  in_range a v /\ fbin a v = (2 ^ 64 - 2 ^ 31)%Z.
Proof.
  exists (FAxis 100 (lit 0 0) (lit 1 (-126))), (lit 0 0). repeat split; try (vm_compute; reflexivity).
  - unfold in_range. cbn [fx_min]. lra.
  - cbn [fx_max]. rewrite !sf_val.
    change (B2SF (lit 0 0)) with (SpecFloat.S754_zero false). replace (B2SF (lit 1 (-126))) with (SpecFloat.S754_finite false 8388608 (-149)) by (vm_compute; reflexivity).
    cbn [SF2R]. apply F2R_gt_0. cbn. lia.
Qed.
(** Huge axis: the width overflows and every value between the bounds gets bin 0. *)
Theorem C65_huge_axis_refuted : exists a v, finite (fx_min a) = true /\ finite (fx_max a) = true /\ fx_n a = 100%Z /\ finite v = true /\
  in_range a v /\ exact_bin a v = 50%Z /\ fbin a v = 0%Z.
Proof.
  exists (FAxis 100 (lit (-1) 127) (lit 1 127)), (lit 0 0).
  assert (V1 : val (lit (-1) 127) = - bpow radix2 127).
  { rewrite sf_val. replace (B2SF (lit (-1) 127)) with (SpecFloat.S754_finite true 8388608 104) by (vm_compute; reflexivity).
    cbn [SF2R]. unfold F2R. cbn [Fnum Fexp SpecFloat.cond_Zopp]. change (Z.opp 8388608) with (-8388608)%Z. change (IZR (Z.neg 8388608)) with (- bpow radix2 23). rewrite <- Ropp_mult_distr_l, <- bpow_plus. reflexivity. }
  assert (V2 : val (lit 1 127) = bpow radix2 127).
  { rewrite sf_val. replace (B2SF (lit 1 127)) with (SpecFloat.S754_finite false 8388608 104) by (vm_compute; reflexivity).
    cbn [SF2R]. unfold F2R. cbn [Fnum Fexp SpecFloat.cond_Zopp]. change (IZR (Z.pos 8388608)) with (bpow radix2 23). rewrite <- bpow_plus. reflexivity. }
  assert (V0 : val (lit 0 0) = 0) by (apply (is_lit_Z 0); cbn; lia). assert (P := bpow_gt_0 radix2 127).
  repeat split; try (vm_compute; reflexivity); cbn [fx_min fx_max]; try (rewrite V0, ?V1, ?V2; lra).
  unfold exact_bin, position. cbn [fx_n fx_min fx_max]. rewrite V0, V1, V2. replace (_ / _) with (IZR 50) by (field; lra). apply Zfloor_IZR.
Qed.
(** Very many bins: rounding leads past the last bin, by more than the correction of one. *)
Theorem C65_many_bins_refuted : exists a v, finite (fx_min a) = true /\ finite (fx_max a) = true /\ fx_n a = 11866886%Z /\ finite v = true /\
  in_range a v /\ fbin a v = 11866887%Z.
Proof.
  exists (FAxis 11866886 (lit (-1) 0) (lit 1 (-30))), (lit 0 0).
  assert (V0 : val (lit 0 0) = 0) by (apply (is_lit_Z 0); cbn; lia). assert (V1 : val (lit (-1) 0) = -1) by (apply (is_lit_Z (-1)); cbn; lia).
  repeat split; try (vm_compute; reflexivity); cbn [fx_min fx_max]; rewrite V0, ?V1; try lra.
  rewrite sf_val. replace (B2SF (lit 1 (-30))) with (SpecFloat.S754_finite false 8388608 (-53)) by (vm_compute; reflexivity). cbn [SF2R]. apply F2R_gt_0. cbn. lia.
Qed.
(** The edges reported by the axis are not those used for binning: on 13 bins of [0, 1) the value of edge 1 gets bin 0. *)
Theorem C65_edges_refuted : exists a, ordinary a /\ fbin a (fedge a 1) = 0%Z /\ (1 < fx_n a)%Z.
Proof.
  exists (FAxis 13 (lit 0 0) (lit 1 0)). split; [|split; [vm_compute; reflexivity|cbn; lia]].
  destruct (is_lit_Z 0) as [F0 V0]; [cbn; lia|]. destruct (is_lit_Z 1) as [F1 V1]; [cbn; lia|].
  unfold ordinary. cbn [fx_min fx_max fx_n]. rewrite V0, V1. repeat split; try assumption; try lia.
  - assert (L := bpow_le radix2 (-125) (-4) ltac:(lia)). change (bpow radix2 (-4)) with (/ 16) in L. lra.
  - assert (L := bpow_le radix2 0 126 ltac:(lia)). change (bpow radix2 0) with 1 in L. lra.
Qed.

(** ** The positive modulus *)
(** fmod is exact. *)
Theorem C65_fmod a b : finite a = true -> finite b = true -> val b <> 0 ->
  is (ffmod a b) (val a - val b * IZR (Ztrunc (val a / val b))).
Proof. exact (is_fmod a b). Qed.
(** The result lies in [0, b) and differs from the argument by a multiple of b, up to 2 u b. *)
Theorem C65_modulus a b : finite a = true -> finite b = true -> 0 < val b <= bpow radix2 126 ->
  finite (fmodulus a b) = true /\ 0 <= val (fmodulus a b) < val b /\
  exists k : Z, Rabs (val (fmodulus a b) - (val a + IZR k * val b)) <= 2 * u * val b.
Proof.
  intros Fa Fb Hb. destruct (is_modulus a b Fa Fb Hb) as [F V]. split; [exact F|]. rewrite V.
  split; [apply rmodulus_range; [apply fmt_val|lra]|apply rmodulus_congruent; try apply fmt_val; lra].
Qed.
(** For a modulus above 2^126 the intermediate sum can overflow and the result is NaN. *)
Theorem C65_modulus_overflow_refuted : exists a b, finite a = true /\ finite b = true /\ 0 < val b /\ fmodulus a b = B754_nan.
Proof.
  exists (lit 1 127), (lit 3 126). repeat split; try (vm_compute; reflexivity).
  - rewrite sf_val. replace (B2SF (lit 3 126)) with (SpecFloat.S754_finite false 12582912 104) by (vm_compute; reflexivity). cbn [SF2R]. apply F2R_gt_0. cbn. lia.
Qed.

Lemma two_pi : is TWO_PI_F (13176795 / 2097152).
Proof.
  split; [vm_compute; reflexivity|]. rewrite sf_val. replace (B2SF TWO_PI_F) with (SpecFloat.S754_finite false 13176795 (-21)) by (vm_compute; reflexivity).
  cbn [SF2R]. unfold F2R. cbn [Fnum Fexp SpecFloat.cond_Zopp]. change (bpow radix2 (-21)) with (/ 2097152). reflexivity.
Qed.
(** Every finite angle, of any size and sign, gets a bin of an axis from 0 to 2 pi: no bond is lost. *)
Theorem C65_angle n theta : (1 <= n <= 4194304)%Z -> finite theta = true -> (0 <= angle_bin n theta < n)%Z.
Proof.
  intros Hn Ft. destruct two_pi as [Fp Vp]. destruct (is_lit_Z 0) as [F0 V0]; [cbn; lia|]. assert (Hn' : 1 <= IZR n <= 4194304) by (split; apply IZR_le; lia).
  destruct (C65_modulus theta TWO_PI_F Ft Fp) as (Fm & Hm & _). { rewrite Vp. assert (L := bpow_le radix2 3 126 ltac:(lia)). change (bpow radix2 3) with 8 in L. lra. }
  unfold angle_bin. apply (C65_bin (FAxis n (lit 0 0) TWO_PI_F)); [|exact Fm|].
  - unfold ordinary. cbn [fx_n fx_min fx_max]. rewrite V0, Vp. repeat split; try assumption; try lia.
    + apply le_div_iff; [lra|]. assert (L := bpow_le radix2 (-125) (-23) ltac:(lia)). change (bpow radix2 (-23)) with (/ 8388608) in L. assert (P := bpow_gt_0 radix2 (-125)). nra.
    + assert (L := bpow_le radix2 3 126 ltac:(lia)). change (bpow radix2 3) with 8 in L. lra.
  - unfold in_range. cbn [fx_min fx_max]. rewrite V0. exact Hm.
Qed.
Example C65_angle_example : angle_bin 12 (lit (-1) 0) = 10%Z /\ finite (lit (-1) 0) = true.
Proof. split; vm_compute; reflexivity. Qed.

(** ** Wrapping *)
Lemma fits_0 : fits 0. Proof. unfold fits. rewrite Rabs_R0. apply bpow_ge_0. Qed.
Lemma mul_zero x y : is x 0 -> finite y = true -> is (fmul x y) 0.
Proof. intros [Fx Vx] Fy. destruct (is_mul x y Fx Fy) as [F V]. { rewrite Vx, Rmult_0_l. apply fits_0. } rewrite Vx, Rmult_0_l, rnd_0 in V. now split. Qed.
Lemma mul_zero_r x y : finite x = true -> is y 0 -> is (fmul x y) 0.
Proof. intros Fx [Fy Vy]. destruct (is_mul x y Fx Fy) as [F V]. { rewrite Vy, Rmult_0_r. apply fits_0. } rewrite Vy, Rmult_0_r, rnd_0 in V. now split. Qed.
Lemma sub_zeros x y : is x 0 -> is y 0 -> is (fsub x y) 0.
Proof. intros [Fx Vx] [Fy Vy]. destruct (is_sub x y Fx Fy) as [F V]. { rewrite Vx, Vy, Rminus_0_r. apply fits_0. } rewrite Vx, Vy, Rminus_0_r, rnd_0 in V. now split. Qed.
Lemma add_zeros x y : is x 0 -> is y 0 -> is (fadd x y) 0.
Proof. intros [Fx Vx] [Fy Vy]. destruct (is_add x y Fx Fy) as [F V]. { rewrite Vx, Vy, Rplus_0_r. apply fits_0. } rewrite Vx, Vy, Rplus_0_r, rnd_0 in V. now split. Qed.
Lemma sub_zero d z : finite d = true -> fits (val d) -> is z 0 -> is (fsub d z) (val d).
Proof. intros Fd H [Fz Vz]. destruct (is_sub d z Fd Fz) as [F V]. { now rewrite Vz, Rminus_0_r. } rewrite Vz, Rminus_0_r, rnd_fmt in V by apply fmt_val. now split. Qed.
Lemma add_zero d z : finite d = true -> fits (val d) -> is z 0 -> is (fadd d z) (val d).
Proof. intros Fd H [Fz Vz]. destruct (is_add d z Fd Fz) as [F V]. { now rewrite Vz, Rplus_0_r. } rewrite Vz, Rplus_0_r, rnd_fmt in V by apply fmt_val. now split. Qed.
Lemma fits_63 x : Rabs x <= bpow radix2 63 -> fits x.
Proof. intros H. unfold fits. eapply Rle_trans; [exact H|]. apply bpow_le. lia. Qed.
Lemma delta_ok L v z : ordinary_length L -> ordinary_coord v -> is z 0 -> is (fsub (fsub v (flo L)) z) (rnd (val v - - (val L / 2))) /\ is (fsub v (flo L)) (rnd (val v - - (val L / 2))).
Proof.
  intros HL [Fv Hv] Hz. destruct (is_flo L HL) as [F0 V0]. destruct HL as [FL HL]. assert (P := bpow_gt_0 radix2 (-60)).
  assert (B : Rabs (val v - - (val L / 2)) <= bpow radix2 63).
  { change 63%Z with (3 + 60)%Z. rewrite bpow_plus. change (bpow radix2 3) with 8. apply Rabs_le_inv in Hv. apply Rabs_le. lra. }
  destruct (is_sub v (flo L) Fv F0) as [F V]. { rewrite V0. now apply fits_63. } rewrite V0 in V.
  split; [|now split]. rewrite <- V. apply sub_zero; [exact F| |exact Hz]. rewrite V. apply fits_63. apply rnd_abs; [lia|exact B].
Qed.
Lemma image_same per L v w w' : image_of per L v w -> is w' (val w) -> image_of per L v w'.
Proof. intros (F & R & k & K) [F' V']. unfold image_of. rewrite V'. split; [exact F'|]. split; [exact R|exists k; exact K]. Qed.
Lemma image_self L v : ordinary_length L -> ordinary_coord v -> image_of false L v v.
Proof.
  intros [FL HL] [Fv Hv]. split; [exact Fv|]. split; [exact I|]. exists 0%Z. split; [reflexivity|]. rewrite Rmult_0_l, Rplus_0_r, Rminus_diag_eq, Rabs_R0 by reflexivity.
  assert (P := bpow_gt_0 radix2 (-60)). assert (Z := Rabs_pos (val v)). assert (U := u_pos). apply Rmult_le_pos; lra.
Qed.

(** Wrapping any point of ordinary size in any box without tilt gives, along each periodic direction, a coordinate in
    [-L/2, L/2), upper end excluded in spite of rounding, that differs from the original by a whole number of box lengths
    up to 6 u (|v| + L); in two dimensions z becomes 0. *)
Theorem C65_wrap b v : plain_box b -> ordinary_point v ->
  let w := fwrap b v in
  image_of (fpx b) (fvx (fL b)) (fvx v) (fvx w) /\ image_of (fpy b) (fvy (fL b)) (fvy v) (fvy w) /\
  (f2d b = false -> image_of (fpz b) (fvz (fL b)) (fvz v) (fvz w)) /\
  (f2d b = true -> (fpx b = true \/ fpy b = true \/ fpz b = true) -> is (fvz w) 0).
Proof.
  intros (Lx & Ly & Lz & Txy & Txz & Tyz) (Vx & Vy & Vz). cbv zeta. unfold fwrap.
  destruct (negb (fpx b) && negb (fpy b) && negb (fpz b)) eqn:Ap.
  { apply andb_true_iff in Ap. destruct Ap as [Ap P3]. apply andb_true_iff in Ap. destruct Ap as [P1 P2].
    apply negb_true_iff in P1, P2, P3. rewrite P1, P2, P3. split; [now apply image_self|]. split; [now apply image_self|].
    split; [intros H; rewrite H in Lz; now apply image_self|]. intros _ [H|[H|H]]; discriminate. }
  clear Ap. assert (Fvy := proj1 Vy). assert (Fvz := proj1 Vz).
  assert (T : is (fadd (fmul (fsub (fxz b) (fmul (fyz b) (fxy b))) (fvz v)) (fmul (fxy b) (fvy v))) 0).
  { apply add_zeros; [|now apply mul_zero]. apply mul_zero; [|exact Fvz]. apply sub_zeros; [exact Txz|]. apply mul_zero; [exact Tyz|apply Txy]. }
  destruct (delta_ok _ _ _ Lx Vx T) as [Dx _]. destruct (delta_ok _ _ _ Ly Vy (mul_zero _ _ Tyz Fvz)) as [Dy _].
  unfold ffractional. cbn [fvx fvy fvz].
  set (dx := fsub (fsub (fvx v) _) _) in *. set (dy := fsub (fsub (fvy v) _) _) in *.
  destruct (wrap1 (fpx b) _ _ dx _ Lx Vx Dx eq_refl) as [Ix Bx]. destruct (wrap1 (fpy b) _ _ dy _ Ly Vy Dy eq_refl) as [Iy By].
  unfold fabsolute. cbn [fvx fvy fvz].
  set (wx := fadd (flo (fvx (fL b))) _) in *. set (wy := fadd (flo (fvy (fL b))) _) in *.
  set (wz := fadd (flo (fvz (fL b))) _).
  assert (Hz : (f2d b = false -> image_of (fpz b) (fvz (fL b)) (fvz v) wz) /\ finite wz = true).
  { unfold wz. clear wz. destruct (f2d b) eqn:D2.
    - split; [discriminate|].
      assert (F0 : is (flo (fvz (fL b))) 0).
      { destruct Lz as [FL VL]. destruct (is_lit_Z 2) as [F2 V2]; [cbn; lia|]. unfold flo, fopp.
        destruct (is_div (fvz (fL b)) (lit 2 0) FL) as [F3 V3]. { rewrite V2. lra. } { rewrite VL, V2. replace (0 / 2) with 0 by lra. apply fits_0. }
        rewrite VL, V2 in V3. replace (0 / 2) with 0 in V3 by lra. rewrite rnd_0 in V3. split; [now rewrite is_finite_Bopp|rewrite B2R_Bopp, V3; ring]. }
      assert (Ff : finite (if fpz b then fmodulus fzero fone else fzero) = true). { destruct (fpz b); vm_compute; reflexivity. }
      apply (add_zeros _ _ F0 (mul_zero_r _ _ Ff Lz)).
    - destruct (delta_ok _ _ fzero Lz Vz (conj eq_refl eq_refl)) as [_ Dz].
      destruct (wrap1 (fpz b) _ _ _ _ Lz Vz Dz eq_refl) as [Iz Bz]. split; [intros _; exact Iz|apply Iz]. }
  destruct Hz as [Iz Fz]. assert (Fwy : finite wy = true) by apply Iy. assert (Fwx : finite wx = true) by apply Ix.
  split; [|split; [|split]].
  - eapply image_same; [exact Ix|]. apply add_zero; [exact Fwx|apply fits_63; exact Bx|]. apply add_zeros; [apply mul_zero; [exact Txy|exact Fwy]|apply mul_zero; [exact Txz|exact Fz]].
  - eapply image_same; [exact Iy|]. apply add_zero; [exact Fwy|apply fits_63; exact By|]. apply mul_zero; [exact Tyz|exact Fz].
  - intros D2. specialize (Iz D2). rewrite D2 in *. exact Iz.
  - intros D2 _. rewrite D2. split; reflexivity.
Qed.

Definition ex_box (L : Z) : fbox := fmk_box (lit L 0) (lit L 0) (lit L 0) fzero fzero fzero false.
Lemma ex_length L : (1 <= L <= 1000)%Z -> ordinary_length (lit L 0).
Proof.
  intros H. destruct (is_lit_Z L) as [F V]; [cbn; lia|]. split; [exact F|]. rewrite V. assert (1 <= IZR L <= 1000) by (split; apply IZR_le; lia).
  assert (L1 := bpow_le radix2 (-60) 0 ltac:(lia)). assert (L2 := bpow_le radix2 10 60 ltac:(lia)). change (bpow radix2 0) with 1 in L1. change (bpow radix2 10) with 1024 in L2. lra.
Qed.
Lemma ex_box_plain L : (1 <= L <= 1000)%Z -> plain_box (ex_box L).
Proof. intros H. assert (E := ex_length L H). unfold plain_box, ex_box, fmk_box. cbn [fL fvx fvy fvz f2d fxy fxz fyz]. repeat split; try reflexivity; apply E. Qed.
(** In a box of length 3 the point 2 wraps to -1.0000001: the nearest image up to the error above, not -1. *)
Example C65_wrap_example : plain_box (ex_box 3) /\ ordinary_point (FV (lit 2 0) fzero fzero) /\ B2SF (fvx (fwrap (ex_box 3) (FV (lit 2 0) fzero fzero))) = SpecFloat.S754_finite true 8388609 (-23).
Proof.
  split; [apply ex_box_plain; lia|]. split; [|vm_compute; reflexivity]. assert (B := bpow_le radix2 1 60 ltac:(lia)). change (bpow radix2 1) with 2 in B.
  destruct (is_lit_Z 2) as [F V]; [cbn; lia|]. repeat split; try assumption; try reflexivity; cbn [fvx fvy fvz]; [rewrite V, Rabs_right; lra|cbn; rewrite Rabs_R0; lra|cbn; rewrite Rabs_R0; lra].
Qed.

(** A point strictly inside the box can be moved by a whole box length: 1.4999999 in a box of length 3 wraps to -1.5. *)
Theorem C65_wrap_inside_refuted : exists b v, plain_box b /\ val (fvx (fL b)) = 3 /\ - (3 / 2) < val (fvx v) < 3 / 2 /\ val (fvx (fwrap b v)) = - (3 / 2) /\ 1 < val (fvx v).
Proof.
  exists (ex_box 3), (FV (lit 12582911 (-23)) fzero fzero). split; [apply ex_box_plain; lia|]. split; [apply (is_lit_Z 3); cbn; lia|]. cbn [fvx].
  assert (V : val (lit 12582911 (-23)) = 12582911 / 8388608).
  { rewrite sf_val. replace (B2SF (lit 12582911 (-23))) with (SpecFloat.S754_finite false 12582911 (-23)) by (vm_compute; reflexivity).
    cbn [SF2R]. unfold F2R. cbn [Fnum Fexp SpecFloat.cond_Zopp]. change (bpow radix2 (-23)) with (/ 8388608). reflexivity. }
  rewrite V. split; [lra|]. split; [|lra]. rewrite sf_val.
  replace (B2SF (fvx (fwrap (ex_box 3) (FV (lit 12582911 (-23)) fzero fzero)))) with (SpecFloat.S754_finite true 12582912 (-23)) by (vm_compute; reflexivity).
  cbn [SF2R]. unfold F2R. cbn [Fnum Fexp SpecFloat.cond_Zopp]. change (bpow radix2 (-23)) with (/ 8388608). cbn [Z.opp]. lra.
Qed.
(** Wrapping twice is not the same as wrapping once. *)
Theorem C65_wrap_idempotent_refuted : exists b v, plain_box b /\ ordinary_point v /\ val (fvx (fwrap b (fwrap b v))) <> val (fvx (fwrap b v)).
Proof.
  exists (ex_box 1), (FV (lit (-11958373) (-24)) fzero fzero). split; [apply ex_box_plain; lia|]. split.
  - assert (V : val (lit (-11958373) (-24)) = - (11958373 / 16777216)).
    { rewrite sf_val. replace (B2SF (lit (-11958373) (-24))) with (SpecFloat.S754_finite true 11958373 (-24)) by (vm_compute; reflexivity).
      cbn [SF2R]. unfold F2R. cbn [Fnum Fexp SpecFloat.cond_Zopp]. change (bpow radix2 (-24)) with (/ 16777216). cbn [Z.opp]. lra. }
    assert (B := bpow_le radix2 0 60 ltac:(lia)). change (bpow radix2 0) with 1 in B.
    repeat split; try (vm_compute; reflexivity); cbn [fvx fvy fvz]; [rewrite V, Rabs_left; lra|cbn; rewrite Rabs_R0; lra|cbn; rewrite Rabs_R0; lra].
  - rewrite !sf_val. set (x := B2SF (fvx (fwrap _ (fwrap _ _)))). set (y := B2SF (fvx (fwrap _ _))). vm_compute in x. vm_compute in y. unfold x, y. clear x y.
    cbn [SF2R]. unfold F2R. cbn [Fnum Fexp SpecFloat.cond_Zopp]. intros H. apply Rmult_eq_reg_r in H; [|assert (P := bpow_gt_0 radix2 (-25)); lra]. apply eq_IZR in H. discriminate.
Qed.

Print Assumptions C65_bin.
Print Assumptions C65_bin_infinite.
Print Assumptions C65_bin_monotone.
Print Assumptions C65_bin_first.
Print Assumptions C65_bin_accurate.
Print Assumptions C65_histogram.
Print Assumptions C65_nan_refuted.
Print Assumptions C65_tiny_axis_refuted.
Print Assumptions C65_huge_axis_refuted.
Print Assumptions C65_many_bins_refuted.
Print Assumptions C65_edges_refuted.
Print Assumptions C65_fmod.
Print Assumptions C65_modulus.
Print Assumptions C65_modulus_overflow_refuted.
Print Assumptions C65_angle.
Print Assumptions C65_wrap.
Print Assumptions C65_wrap_inside_refuted.
Print Assumptions C65_wrap_idempotent_refuted.
