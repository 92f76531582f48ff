(** Proofs for C65: wrapping in a box without tilt. *)
From Coq Require Import ZArith Reals Lra Lia Psatz Bool.
From Flocq Require Import Core BinarySingleNaN Relative Plus_error Sterbenz.
From Verif Require Import RBase F32Model F32Spec F32Proofs F32Proofs2 F32Proofs3.
Local Open Scope R_scope.

(** Half of a number that is not too small is a number. *)
Lemma fmt_canon x : fmt x -> bpow radix2 (-100) <= x -> exists M e, x = IZR M * bpow radix2 e /\ (2 ^ 23 <= M < 2 ^ 24)%Z /\ (-148 <= e)%Z.
Proof.
  intros F H. assert (X : x <> 0) by (assert (P := bpow_gt_0 radix2 (-100)); lra). assert (X0 : 0 < x) by (assert (P := bpow_gt_0 radix2 (-100)); lra).
  exists (Ztrunc (scaled_mantissa radix2 fex x)), (cexp radix2 fex x).
  assert (E : x = IZR (Ztrunc (scaled_mantissa radix2 fex x)) * bpow radix2 (cexp radix2 fex x)) by exact F.
  assert (C : cexp radix2 fex x = (mag radix2 x - 24)%Z).
  { unfold cexp. rewrite fex_flt. unfold FLT_exp. assert (G : (-99 <= mag radix2 x)%Z). { apply (mag_ge_bpow radix2 x (-99)). rewrite Rabs_right by lra. exact H. } lia. }
  assert (G : (-99 <= mag radix2 x)%Z). { apply (mag_ge_bpow radix2 x (-99)). rewrite Rabs_right by lra. exact H. }
  split; [exact E|]. set (M := Ztrunc _) in *. rewrite C in *. split; [|lia].
  destruct (mag radix2 x) as [m Hm]. cbn [mag_val] in *. specialize (Hm X). rewrite Rabs_right in Hm by lra.
  assert (P := bpow_gt_0 radix2 (m - 24)).
  assert (B1 : bpow radix2 (m - 1) = IZR (2 ^ 23) * bpow radix2 (m - 24)) by (change (IZR (2 ^ 23)) with (bpow radix2 23); rewrite <- bpow_plus; f_equal; lia).
  assert (B2 : bpow radix2 m = IZR (2 ^ 24) * bpow radix2 (m - 24)) by (change (IZR (2 ^ 24)) with (bpow radix2 24); rewrite <- bpow_plus; f_equal; lia).
  rewrite B1, B2, E in Hm. split.
  - apply le_IZR. apply Rmult_le_reg_r with (bpow radix2 (m - 24)); lra.
  - apply lt_IZR. apply Rmult_lt_reg_r with (bpow radix2 (m - 24)); lra.
Qed.
Lemma fmt_half x : fmt x -> bpow radix2 (-100) <= x -> fmt (x / 2).
Proof.
  intros F H. destruct (fmt_canon x F H) as (M & e & -> & HM & He).
  replace (IZR M * bpow radix2 e / 2) with (IZR M * bpow radix2 (e - 1)). { apply fmt_F2R; lia. }
  unfold Zminus. rewrite bpow_plus. change (bpow radix2 (- (1))) with (/ 2). field.
Qed.

(** A fraction below one times a length is rounded below the length. *)
Lemma below_length L f : fmt L -> bpow radix2 (-100) <= L -> fmt f -> 0 <= f < 1 -> 0 <= rnd (f * L) < L.
Proof.
  intros FL HL Ff Hf. assert (P := bpow_gt_0 radix2 (-100)). split; [apply rnd_ge_fmt; [apply fmt_0|nra]|].
  assert (F1 : f <= 1 - u).
  { assert (F1 : fmt 1) by (apply (fmt_IZR 1); cbn; lia). assert (G := pred_ge_gt radix2 fex f 1 Ff F1 ltac:(lra)).
    replace (pred radix2 fex 1) with (1 - u) in G; [exact G|]. change 1 with (bpow radix2 0) at 2. rewrite pred_bpow. reflexivity. }
  assert (G : exists g, fmt g /\ g < L /\ L * (1 - 2 * u) < g).
  { destruct (fmt_canon L FL HL) as (M & e & -> & HM & He). assert (Pe := bpow_gt_0 radix2 e).
    destruct (Z.eq_dec M (2 ^ 23)) as [->|N].
    - exists (IZR (2 ^ 24 - 1) * bpow radix2 (e - 1)). split; [apply fmt_F2R; lia|].
      replace (bpow radix2 (e - 1)) with (bpow radix2 e / 2). 2: { unfold Zminus. rewrite bpow_plus. change (bpow radix2 (- (1))) with (/ 2). field. }
      change (IZR (2 ^ 24 - 1)) with 16777215. change (IZR (2 ^ 23)) with 8388608. unfold u. split; nra.
    - exists (IZR (M - 1) * bpow radix2 e). split; [apply fmt_F2R; lia|]. rewrite minus_IZR.
      assert (HM' : 8388609 <= IZR M) by (apply IZR_le; lia). split; [nra|]. unfold u.
      replace (IZR M * bpow radix2 e * (1 - 2 * / 16777216)) with ((IZR M - IZR M * / 8388608) * bpow radix2 e) by field.
      apply Rmult_lt_compat_r; [exact Pe|]. lra. }
  destruct G as (g & Fg & G1 & G2).
  assert (Gp := pred_ge_gt radix2 fex g L Fg FL G1). set (p := pred radix2 fex L) in *.
  assert (L0 : 0 < L) by lra. assert (Fp : fmt p) by (apply generic_format_pred; [typeclasses eauto|exact FL]).
  assert (Pl : p < L) by (apply pred_lt_id; lra).
  apply Rle_lt_trans with p; [|exact Pl]. apply round_N_le_midp; [typeclasses eauto|exact Fp|].
  unfold p at 2. rewrite succ_pred by (typeclasses eauto || exact FL). fold p. nra.
Qed.

(** One direction. *)
Lemma is_flo L : ordinary_length L -> is (flo L) (- (val L / 2)).
Proof.
  intros [F H]. assert (P := bpow_gt_0 radix2 (-60)). assert (B := bpow_le radix2 60 127 ltac:(lia)). assert (B' := bpow_le radix2 (-100) (-60) ltac:(lia)).
  destruct (is_lit_Z 2) as [F2 V2]. { cbn. lia. }
  destruct (is_div L (lit 2 0) F) as [F3 V3]. { rewrite V2. lra. } { rewrite V2. unfold fits. rewrite Rabs_right by lra. lra. }
  rewrite V2 in V3. rewrite rnd_fmt in V3 by (apply fmt_half; [apply fmt_val|lra]).
  unfold flo, fopp. split; [now rewrite is_finite_Bopp|]. now rewrite B2R_Bopp, V3.
Qed.

Lemma wrap1 (per : bool) L v d q :
  ordinary_length L -> ordinary_coord v -> is d (rnd (val v - - (val L / 2))) -> q = fdiv d L ->
  image_of per L v (fadd (flo L) (fmul (if per then fmodulus q fone else q) L)) /\
  Rabs (val (fadd (flo L) (fmul (if per then fmodulus q fone else q) L))) <= bpow radix2 63.
Proof.
  intros HL Hv [Fd Vd] ->. destruct (is_flo L HL) as [F0 V0]. destruct HL as [FL HL], Hv as [Fv Hv].
  assert (P60 := bpow_gt_0 radix2 (-60)). assert (B63 : bpow radix2 63 = 8 * bpow radix2 60) by (change 63%Z with (3 + 60)%Z; rewrite bpow_plus; reflexivity).
  assert (L127 := bpow_le radix2 63 127 ltac:(lia)). assert (M100 := bpow_le radix2 (-100) (-60) ltac:(lia)).
  assert (One : bpow radix2 60 * bpow radix2 (-60) = 1) by (rewrite <- bpow_plus; reflexivity).
  assert (One60 : 1 <= bpow radix2 60) by (apply (bpow_le radix2 0 60); lia).
  assert (T150 : bpow radix2 (-150) <= u * bpow radix2 (-60) / 4).
  { rewrite u_bpow, <- bpow_plus. assert (E := bpow_plus radix2 (-84) (-2)). change (bpow radix2 (-2)) with (/ 4) in E.
    change (-24 + -60)%Z with (-84)%Z. unfold Rdiv. rewrite <- E. apply bpow_le. lia. }
  assert (U := u_pos). assert (Hu : u = / 16777216) by reflexivity.
  set (l := val L) in *. set (a := val v) in *. assert (HH : fmt (l / 2)) by (apply fmt_half; [apply fmt_val|lra]).
  destruct (rnd_minus a (- (l / 2)) (fmt_val v) (fmt_opp _ HH)) as (e1 & H1 & E1). set (dd := a - - (l / 2)) in *. rewrite E1 in Vd.
  assert (X1 := Rabs_bound _ H1). assert (Ha := Rabs_le_inv _ _ Hv).
  assert (Hdd : Rabs dd <= Rabs a + l / 2). { unfold dd. apply Rabs_le. assert (Z1 := Rle_abs a). assert (Z2 := Rle_abs (- a)). rewrite Rabs_Ropp in Z2. lra. }
  assert (Hd1 : Rabs (dd * (1 + e1)) <= bpow radix2 60 * 2).
  { rewrite Rabs_mult, (Rabs_right (1 + e1)) by lra. assert (Z := Rabs_pos dd). rewrite Hu in *. nra. }
  assert (L0 : 0 < l) by lra.
  assert (Qb : Rabs (val d / l) <= bpow radix2 126).
  { unfold Rdiv. rewrite Rabs_mult, Rabs_inv, (Rabs_right l), Vd by lra. apply div_le_iff; [exact L0|].
    eapply Rle_trans; [exact Hd1|]. assert (B66 : bpow radix2 126 * bpow radix2 (-60) = bpow radix2 66) by (rewrite <- bpow_plus; reflexivity).
    assert (L66 := bpow_le radix2 61 66 ltac:(lia)). assert (E61 : bpow radix2 61 = 2 * bpow radix2 60) by exact (bpow_S 60).
    assert (G := bpow_gt_0 radix2 126). nra. }
  destruct (is_div d L Fd) as [Fq Vq]. { fold l. lra. } { fold l. unfold fits. eapply Rle_trans; [exact Qb|]. apply bpow_le. lia. }
  fold l in Vq. destruct (rnd_err (val d / l)) as (e2 & t2 & H2 & Ht2 & E2). rewrite E2 in Vq. assert (X2 := Rabs_bound _ H2).
  set (q := val (fdiv d L)) in *. destruct is_one as [F1 V1].
  assert (B126 := bpow_le radix2 0 126 ltac:(lia)). change (bpow radix2 0) with 1 in B126.
  (* the fraction used *)
  assert (Fr : exists m k, is (if per then fmodulus (fdiv d L) fone else fdiv d L) m /\ (per = true -> 0 <= m < 1) /\ (per = false -> k = 0%Z /\ m = q) /\
                 Rabs (m - (q + IZR k)) <= 2 * u).
  { destruct per.
    - destruct (is_modulus (fdiv d L) fone Fq F1) as [Fm Vm]. { rewrite V1. lra. } rewrite V1 in Vm.
      assert (FO : fmt 1) by (apply (fmt_IZR 1); cbn; lia).
      destruct (rmodulus_congruent q 1 (fmt_val _) FO ltac:(lra)) as (k & K). exists (rmodulus q 1), k.
      split; [split; [exact Fm|exact Vm]|]. split; [intros _; apply rmodulus_range; [exact FO|lra]|]. split; [discriminate|].
      rewrite !Rmult_1_r in K. exact K.
    - exists q, 0%Z. split; [split; [exact Fq|reflexivity]|]. split; [discriminate|]. split; [intros _; split; reflexivity|]. rewrite Rplus_0_r, Rminus_diag_eq, Rabs_R0 by reflexivity. lra. }
  destruct Fr as (m & k & [Fm Vm] & Mr & Mk & Ek). set (fm := if per then _ else _) in *. clearbody fm.
  (* m L *)
  assert (QL : q * l = dd * ((1 + e1) * (1 + e2)) + t2 * l). { rewrite Vq, Vd. field. lra. }
  assert (HmL : Rabs (m * l) <= 4 * bpow radix2 60).
  { destruct per.
    - specialize (Mr eq_refl). rewrite Rabs_right by nra. nra.
    - destruct (Mk eq_refl) as [_ ->]. rewrite QL.
      assert (Z1 : Rabs (dd * ((1 + e1) * (1 + e2)) + t2 * l) <= bpow radix2 60 * 2 * (1 + u) + u * l).
      { eapply Rle_trans; [apply Rabs_triang|]. apply Rplus_le_compat.
        - rewrite <- Rmult_assoc, Rabs_mult. apply Rmult_le_compat; try apply Rabs_pos; [exact Hd1|]. apply Rabs_le. lra.
        - rewrite Rabs_mult, (Rabs_right l) by lra. apply Rmult_le_compat_r; [lra|]. eapply Rle_trans; [exact Ht2|]. rewrite Hu in *. nra. }
      rewrite Hu in *. lra. }
  destruct (is_mul fm L Fm FL) as [Fx Vx]. { rewrite Vm. fold l. unfold fits. lra. } rewrite Vm in Vx. fold l in Vx.
  destruct (rnd_err (m * l)) as (e3 & t3 & H3 & Ht3 & E3). assert (X3 := Rabs_bound _ H3).
  set (x := val (fmul fm L)) in *.
  assert (Hx : Rabs x <= 5 * bpow radix2 60).
  { rewrite Vx, E3. eapply Rle_trans; [apply Rabs_triang|]. rewrite Rabs_mult, (Rabs_right (1 + e3)) by lra. assert (Z := Rabs_pos (m * l)). rewrite Hu in *. nra. }
  destruct (is_add (flo L) (fmul fm L) F0 Fx) as [Fw Vw].
  { rewrite V0. fold x. unfold fits. eapply Rle_trans; [apply Rabs_triang|]. rewrite Rabs_Ropp, (Rabs_right (l / 2)) by lra. lra. }
  fold x in Vw. rewrite V0 in Vw.
  destruct (rnd_plus (- (l / 2)) x (fmt_opp _ HH) (fmt_val _)) as (e4 & H4 & E4). assert (X4 := Rabs_bound _ H4).
  set (w := val (fadd (flo L) (fmul fm L))) in *.
  assert (Range : per = true -> 0 <= x < l /\ - (l / 2) <= w < l / 2).
  { intros Hp. specialize (Mr Hp). assert (Fm' : fmt m) by (rewrite <- Vm; apply fmt_val).
    assert (BX := below_length l m (fmt_val L) ltac:(unfold l in *; lra) Fm' Mr). rewrite <- Vx in BX. split; [exact BX|].
    rewrite Vw. split; [apply rnd_ge_fmt; [apply fmt_opp, HH|lra]|].
    destruct (Rle_or_lt (l / 4) x) as [Big|Small].
    - rewrite rnd_fmt; [lra|]. replace (- (l / 2) + x) with (x - l / 2) by ring. apply sterbenz; try typeclasses eauto; [apply fmt_val|exact HH|]. lra.
    - apply Rle_lt_trans with 0; [apply rnd_le_fmt; [apply fmt_0|lra]|lra]. }
  assert (Acc : Rabs (w - (a + IZR k * l)) <= 6 * u * (Rabs a + l)).
  { assert (Ew : w - (a + IZR k * l) = dd * (e1 + e2 + e1 * e2) + t2 * l + (m - (q + IZR k)) * l + (m * l * e3 + t3) + (- (l / 2) + x) * e4).
    { rewrite Vw, E4. replace ((- (l / 2) + x) * (1 + e4)) with (- (l / 2) + x + (- (l / 2) + x) * e4) by ring.
      rewrite Vx at 1. rewrite E3. replace (dd * (e1 + e2 + e1 * e2)) with (q * l - t2 * l - dd) by (rewrite QL; ring). unfold dd. field. }
    rewrite Ew.
    assert (A1 : Rabs (dd * (e1 + e2 + e1 * e2)) <= (Rabs a + l / 2) * (2 * u + u * u)).
    { rewrite Rabs_mult. apply Rmult_le_compat; try apply Rabs_pos; [exact Hdd|]. apply Rabs_le. rewrite Hu in *. nra. }
    assert (A2 : Rabs (t2 * l) <= u * l / 4).
    { rewrite Rabs_mult, (Rabs_right l) by lra. replace (u * l / 4) with (u / 4 * l) by field. apply Rmult_le_compat_r; [lra|].
      eapply Rle_trans; [exact Ht2|]. eapply Rle_trans; [exact T150|]. assert (bpow radix2 (-60) <= 1) by (apply (bpow_le radix2 (-60) 0); lia). nra. }
    assert (A3 : Rabs ((m - (q + IZR k)) * l) <= 2 * u * l). { rewrite Rabs_mult, (Rabs_right l) by lra. apply Rmult_le_compat_r; lra. }
    assert (A4 : Rabs t3 <= u * l / 4). { eapply Rle_trans; [exact Ht3|]. eapply Rle_trans; [exact T150|]. unfold Rdiv. apply Rmult_le_compat_r; [lra|]. apply Rmult_le_compat_l; lra. }
    assert (T5 : forall p q r s t, Rabs (p + q + r + s + t) <= Rabs p + Rabs q + Rabs r + Rabs s + Rabs t).
    { intros. repeat (eapply Rle_trans; [apply Rabs_triang|]; apply Rplus_le_compat_r). lra. }
    eapply Rle_trans; [apply T5|]. assert (A5 := Rabs_triang (m * l * e3) t3). assert (Za := Rabs_pos a).
    destruct per.
    - destruct (Range eq_refl) as [Rx _]. specialize (Mr eq_refl).
      assert (A6 : Rabs (m * l * e3) <= u * l). { rewrite Rabs_mult, (Rabs_right (m * l)) by nra. replace (u * l) with (l * u) by ring. apply Rmult_le_compat; try apply Rabs_pos; [nra|nra|exact H3]. }
      assert (A7 : Rabs ((- (l / 2) + x) * e4) <= u * l / 2). { rewrite Rabs_mult. replace (u * l / 2) with (l / 2 * u) by field. apply Rmult_le_compat; try apply Rabs_pos; [|exact H4]. apply Rabs_le. lra. }
      rewrite Hu in *. lra.
    - destruct (Mk eq_refl) as [K0 Mq]. rewrite K0, Rplus_0_r, Mq, Rminus_diag_eq, Rmult_0_l, Rabs_R0 by reflexivity.
      assert (Hml : Rabs (m * l) <= (Rabs a + l / 2) * (1 + (2 * u + u * u)) + u * l / 4).
      { rewrite Mq, QL. eapply Rle_trans; [apply Rabs_triang|]. apply Rplus_le_compat; [|exact A2].
        replace (dd * ((1 + e1) * (1 + e2))) with (dd + dd * (e1 + e2 + e1 * e2)) by ring. eapply Rle_trans; [apply Rabs_triang|]. lra. }
      assert (A6 : Rabs (m * l * e3) <= ((Rabs a + l / 2) * (1 + (2 * u + u * u)) + u * l / 4) * u).
      { rewrite Rabs_mult. apply Rmult_le_compat; try apply Rabs_pos; assumption. }
      assert (A7 : Rabs (- (l / 2) + x) <= Rabs a + (Rabs a + l / 2) * (2 * u + u * u) + u * l / 4 + (Rabs (m * l * e3) + u * l / 4)).
      { replace (- (l / 2) + x) with (a + dd * (e1 + e2 + e1 * e2) + t2 * l + (m * l * e3 + t3) + 0).
        - eapply Rle_trans; [apply T5|]. rewrite Rabs_R0. lra.
        - rewrite Vx, E3. replace (dd * (e1 + e2 + e1 * e2)) with (q * l - t2 * l - dd) by (rewrite QL; ring). rewrite Mq. unfold dd. field. }
      assert (A8 : Rabs ((- (l / 2) + x) * e4) <= (Rabs a + (Rabs a + l / 2) * (2 * u + u * u) + u * l / 4 + (Rabs (m * l * e3) + u * l / 4)) * u).
      { rewrite Rabs_mult. apply Rmult_le_compat; try apply Rabs_pos; assumption. }
      rewrite <- Mq. rewrite Hu in *. lra. }
  split; [|].
  - split; [exact Fw|]. split; [destruct per; [apply Range; reflexivity|exact I]|]. exists k. split; [intros Hp; apply (Mk Hp)|exact Acc].
  - fold w. rewrite Vw. eapply Rle_trans; [apply rnd_abs with (e := 63%Z); [lia|]|lra].
    eapply Rle_trans; [apply Rabs_triang|]. rewrite Rabs_Ropp, (Rabs_right (l / 2)) by lra. lra.
Qed.
