(** Proofs for C65: binning along one axis. *)
From Coq Require Import ZArith Reals Lra Lia Psatz Bool.
From Flocq Require Import Core BinarySingleNaN Relative Plus_error Sterbenz.
From Verif Require Import RBase F32Model F32Spec F32Proofs F32Proofs2.
Local Open Scope R_scope.

Lemma bpow_S e : bpow radix2 (e + 1) = 2 * bpow radix2 e.
Proof. rewrite bpow_plus. change (bpow radix2 1) with 2. ring. Qed.
Lemma Rabs_bound e : Rabs e <= u -> - u <= e <= u. Proof. apply Rabs_le_inv. Qed.
Lemma div_le_iff x y z : 0 < y -> (x / y <= z <-> x <= z * y).
Proof.
  intros H. split; intros G.
  - replace x with (x / y * y) by (field; lra). apply Rmult_le_compat_r; lra.
  - apply Rmult_le_reg_r with y; [exact H|]. unfold Rdiv. rewrite Rmult_assoc, Rinv_l by lra. lra.
Qed.
Lemma le_div_iff x y z : 0 < y -> (z <= x / y <-> z * y <= x).
Proof.
  intros H. split; intros G.
  - replace x with (x / y * y) by (field; lra). apply Rmult_le_compat_r; lra.
  - apply Rmult_le_reg_r with y; [exact H|]. unfold Rdiv. rewrite Rmult_assoc, Rinv_l by lra. lra.
Qed.

(** The stored inverse bin width: n / (max - min) up to three roundings. *)
Lemma axis_facts a : ordinary a ->
  let n := IZR (fx_n a) in let D := val (fx_max a) - val (fx_min a) in
  exists e1 e2 e3, Rabs e1 <= u /\ Rabs e2 <= u /\ Rabs e3 <= u /\
    rnd D = D * (1 + e1) /\ is (finverse a) (n / D * ((1 + e3) / ((1 + e1) * (1 + e2)))) /\ 0 < D /\ 1 <= n <= 4194304 /\
    0 < val (finverse a) <= bpow radix2 126.
Proof.
  intros (Fm & FM & Hn & Hw & HD). cbv zeta. set (n := IZR (fx_n a)) in *. set (D := val (fx_max a) - val (fx_min a)) in *.
  assert (Hn' : 1 <= n <= 4194304) by (split; apply IZR_le; lia).
  assert (P125 := bpow_gt_0 radix2 (-125)). assert (U : u = / 16777216) by reflexivity.
  apply le_div_iff in Hw; [|lra]. assert (D0 : 0 < D) by nra.
  assert (B1 : bpow radix2 127 = 2 * bpow radix2 126) by exact (bpow_S 126).
  assert (B2 : bpow radix2 (-125) = 2 * bpow radix2 (-126)) by exact (bpow_S (-126)).
  assert (B3 : bpow radix2 (-126) * bpow radix2 126 = 1) by (rewrite <- bpow_plus; reflexivity).
  assert (P126 := bpow_gt_0 radix2 126). assert (P126' := bpow_gt_0 radix2 (-126)).
  destruct (is_sub _ _ FM Fm) as [F1 V1]. { unfold fits. fold D. rewrite Rabs_right by lra. lra. } fold D in V1.
  destruct (rnd_minus (val (fx_max a)) (val (fx_min a)) (fmt_val _) (fmt_val _)) as (e1 & He1 & E1). fold D in E1. assert (X1 := Rabs_bound _ He1).
  destruct (is_lit_Z (fx_n a)) as [F2 V2]. { cbn. lia. } fold n in V2.
  assert (D1 : rnd D <= bpow radix2 126) by (apply rnd_le_fmt; [apply fmt_bpow; lia|exact HD]).
  assert (D2 : bpow radix2 (-126) * n <= rnd D). { rewrite E1, U in *. nra. }
  assert (W0 : bpow radix2 (-126) <= rnd D / n <= bpow radix2 126). { split; [apply le_div_iff; lra|apply div_le_iff; nra]. }
  destruct (is_div (fsub (fx_max a) (fx_min a)) (lit (fx_n a) 0) F1) as [F3 V3].
  { rewrite V2. lra. } { unfold fits. rewrite V1, V2, Rabs_right by lra. lra. } fold (fwidth a) in F3, V3. rewrite V1, V2 in V3.
  destruct (rnd_rel (rnd D / n)) as (e2 & He2 & E2). { rewrite Rabs_right by lra. lra. } assert (X2 := Rabs_bound _ He2).
  set (w := rnd (rnd D / n)) in *.
  assert (W1 : bpow radix2 (-126) <= w <= bpow radix2 126). { split; [apply rnd_ge_fmt|apply rnd_le_fmt]; try (apply fmt_bpow; lia); lra. }
  assert (I0 : bpow radix2 (-126) <= 1 / w <= bpow radix2 126). { split; [apply le_div_iff; nra|apply div_le_iff; nra]. }
  destruct is_one as [F4 V4]. destruct (is_div fone (fwidth a) F4) as [F5 V5].
  { rewrite V3. lra. } { unfold fits. rewrite V3, V4, Rabs_right by lra. lra. } fold (finverse a) in F5, V5. rewrite V3, V4 in V5.
  destruct (rnd_rel (1 / w)) as (e3 & He3 & E3). { rewrite Rabs_right by lra. lra. } assert (X3 := Rabs_bound _ He3).
  exists e1, e2, e3. do 3 (split; [assumption|]). split; [exact E1|]. split; [split; [exact F5|]|split; [exact D0|split; [exact Hn'|]]].
  - rewrite V5, E3, E2, E1. field. rewrite U in *. repeat split; lra.
  - rewrite V5. split; [apply Rlt_le_trans with (bpow radix2 (-126)); [lra|apply rnd_ge_fmt; [apply fmt_bpow; lia|lra]]|apply rnd_le_fmt; [apply fmt_bpow; lia|lra]].
Qed.

(** The scaled value: the position along the axis up to five roundings. *)
Lemma val_facts a v : ordinary a -> finite v = true -> in_range a v ->
  exists e1 e2 e3 e4 e5 t, Rabs e1 <= u /\ Rabs e2 <= u /\ Rabs e3 <= u /\ Rabs e4 <= u /\ Rabs e5 <= u /\ Rabs t <= bpow radix2 (-150) /\
    is (fval a v) (position a v * ((1 + e3) * (1 + e4) * (1 + e5) / ((1 + e1) * (1 + e2))) + t) /\
    0 <= val (fval a v) <= rnd (IZR (fx_n a) * ((1 + e3) / (1 + e2))) /\
    val (fval a v) = rnd (rnd (val v - val (fx_min a)) * val (finverse a)) /\
    0 <= position a v < IZR (fx_n a).
Proof.
  intros O Fv Hv. destruct (axis_facts a O) as (e1 & e2 & e3 & H1 & H2 & H3 & E1 & [FI VI] & D0 & Hn & HI).
  destruct O as (Fm & FM & _ & _ & HD). unfold in_range in Hv. unfold position.
  set (n := IZR (fx_n a)) in *. set (D := val (fx_max a) - val (fx_min a)) in *. set (x := val v - val (fx_min a)).
  assert (Hx : 0 <= x < D) by (unfold x, D; lra). assert (U : u = / 16777216) by reflexivity.
  assert (B1 : bpow radix2 127 = 2 * bpow radix2 126) by exact (bpow_S 126). assert (P126 := bpow_gt_0 radix2 126).
  destruct (is_sub v (fx_min a) Fv Fm) as [F1 V1]. { unfold fits. fold x. rewrite Rabs_right by lra. lra. } fold x in V1.
  destruct (rnd_minus (val v) (val (fx_min a)) (fmt_val _) (fmt_val _)) as (e4 & H4 & E4). fold x in E4.
  assert (Dx : 0 <= rnd x <= rnd D). { split; [apply rnd_ge_fmt; [apply fmt_0|lra]|apply rnd_le; lra]. }
  assert (X1 := Rabs_bound _ H1). assert (X2 := Rabs_bound _ H2). assert (X3 := Rabs_bound _ H3).
  assert (Top : rnd D * val (finverse a) = n * ((1 + e3) / (1 + e2))). { rewrite E1, VI. field. rewrite U in *. repeat split; lra. }
  assert (R32 : 0 < (1 + e3) / (1 + e2) <= 2). { split; [apply Rdiv_lt_0_compat; rewrite U in *; lra|apply div_le_iff; rewrite U in *; lra]. }
  assert (Pr : 0 <= rnd x * val (finverse a) <= n * ((1 + e3) / (1 + e2))). { split; [apply Rmult_le_pos; lra|]. rewrite <- Top. apply Rmult_le_compat_r; lra. }
  assert (N23 : n * ((1 + e3) / (1 + e2)) <= bpow radix2 23). { change (bpow radix2 23) with 8388608. nra. }
  destruct (is_mul (fsub v (fx_min a)) (finverse a) F1 FI) as [F2 V2].
  { rewrite V1. unfold fits. rewrite Rabs_right by lra. assert (L := bpow_le radix2 23 127 ltac:(lia)). lra. }
  fold (fval a v) in F2, V2. rewrite V1 in V2. destruct (rnd_err (rnd x * val (finverse a))) as (e5 & t & H5 & Ht & E5).
  exists e1, e2, e3, e4, e5, t. do 6 (split; [assumption|]). split; [split; [exact F2|]|].
  - rewrite V2, E5. f_equal. rewrite E4, VI. field. rewrite U in *. repeat split; lra.
  - split; [|split; [exact V2|]].
    + rewrite V2. split; [apply rnd_ge_fmt; [apply fmt_0|lra]|apply rnd_le; lra].
    + replace (n * x / D) with (n * (x / D)) by (field; lra). assert (Q : 0 <= x / D < 1).
      { split; [apply le_div_iff; lra|]. apply Rmult_lt_reg_r with D; [lra|]. unfold Rdiv. rewrite Rmult_assoc, Rinv_l by lra. lra. }
      nra.
Qed.

Lemma val_top a v : ordinary a -> finite v = true -> in_range a v -> 0 <= val (fval a v) < IZR (fx_n a) + 1.
Proof.
  intros O Fv Hv. destruct (val_facts a v O Fv Hv) as (e1 & e2 & e3 & e4 & e5 & t & H1 & H2 & H3 & _ & _ & _ & _ & [V0 V1] & _ & _).
  destruct O as (_ & _ & Hn & _). assert (Hn' : 1 <= IZR (fx_n a) <= 4194304) by (split; apply IZR_le; lia).
  set (n := IZR (fx_n a)) in *. split; [exact V0|]. eapply Rle_lt_trans; [exact V1|].
  assert (U : u = / 16777216) by reflexivity. assert (X2 := Rabs_bound _ H2). assert (X3 := Rabs_bound _ H3).
  assert (Q : 1 - 3 * u <= (1 + e3) / (1 + e2) <= 1 + 2 * u + 4 * u * u). { split; [apply le_div_iff|apply div_le_iff]; rewrite U in *; nra. }
  set (q := (1 + e3) / (1 + e2)) in *.
  assert (NZ : bpow radix2 (-126) <= Rabs (n * q)).
  { rewrite Rabs_right by (rewrite U in *; nra). assert (L := bpow_le radix2 (-126) (-1) ltac:(lia)). change (bpow radix2 (-1)) with (/ 2) in L. rewrite U in *. nra. }
  destruct (rnd_rel (n * q) NZ) as (e & He & ->). assert (X := Rabs_bound _ He).
  assert (Q' : q * (1 + e) <= 1 + / 4794000).
  { apply Rle_trans with ((1 + 2 * u + 4 * u * u) * (1 + u)); [apply Rmult_le_compat; rewrite U in *; lra|rewrite U; lra]. }
  rewrite Rmult_assoc. nra.
Qed.

Lemma cvtt_small x : finite x = true -> 0 <= val x < 2147483648 -> cvtt x = Zfloor (val x) /\ (0 <= cvtt x < 2 ^ 31)%Z.
Proof.
  intros Fx Hx. assert (T : Btrunc x = Zfloor (val x)).
  { apply eq_IZR. rewrite (Btrunc_correct 24 128 _ x). unfold round, scaled_mantissa, F2R, cexp, FIX_exp. cbn [Fnum Fexp]. change (bpow radix2 (- 0)) with 1. change (bpow radix2 0) with 1.
    rewrite !Rmult_1_r. now rewrite Ztrunc_floor. }
  assert (Z0 : (0 <= Zfloor (val x) < 2 ^ 31)%Z). { split; [apply Zfloor_lub; cbn; lra|]. apply lt_IZR. eapply Rle_lt_trans; [apply Zfloor_lb|]. change (IZR (2 ^ 31)) with 2147483648. lra. }
  destruct x as [s| | |s m e B]; try discriminate.
  - cbn [cvtt B2R]. rewrite (Zfloor_IZR 0). lia.
  - cbn [cvtt]. rewrite T. destruct (Z.leb_spec (- 2 ^ 31) (Zfloor (val (B754_finite s m e B)))); [|lia].
    destruct (Z.ltb_spec (Zfloor (val (B754_finite s m e B))) (2 ^ 31)); [|lia]. cbn [andb]. lia.
Qed.

Lemma fbin_in a v : ordinary a -> finite v = true -> in_range a v ->
  fbin a v = (let b := Zfloor (val (fval a v)) in if (b =? fx_n a)%Z then (b - 1)%Z else b) /\ (0 <= fbin a v < fx_n a)%Z.
Proof.
  intros O Fv Hv. assert (T := val_top a v O Fv Hv). destruct (val_facts a v O Fv Hv) as (e1 & e2 & e3 & e4 & e5 & t & _ & _ & _ & _ & _ & _ & [FV _] & _).
  assert (O' := O). destruct O' as (Fm & FM & Hn & _). assert (Hn' : 1 <= IZR (fx_n a) <= 4194304) by (split; apply IZR_le; lia).
  destruct (cvtt_small (fval a v) FV ltac:(lra)) as [C1 C2].
  assert (E : fbin a v = (let b := Zfloor (val (fval a v)) in if (b =? fx_n a)%Z then (b - 1)%Z else b)).
  { unfold fbin. rewrite Bltb_correct, Bleb_correct by assumption. unfold in_range in Hv.
    rewrite Rlt_bool_false, Rle_bool_false by lra. cbn [orb]. rewrite C1, Z.mod_small by lia. reflexivity. }
  split; [exact E|]. rewrite E. cbv zeta. rewrite <- C1.
  assert (L : (cvtt (fval a v) < fx_n a + 1)%Z). { rewrite C1. apply lt_IZR. rewrite plus_IZR. eapply Rle_lt_trans; [apply Zfloor_lb|]. lra. }
  destruct (Z.eqb_spec (cvtt (fval a v)) (fx_n a)); lia.
Qed.
