(** Proofs about distances in single precision: arrays, one direction, squares. *)
From Coq Require Import Psatz Permutation.
From Verif Require Import F32Proofs F32Proofs4 F32Props Vec FaabbProofs FaabbProofs2 FcellProofs4 FdistSpec.
Open Scope R_scope.

(** * The output array *)
Lemma store_length x : forall l i, length (store l i x) = length l.
Proof. induction l as [|y l IH]; intros [|i]; simpl; auto. Qed.
Lemma store_same x d : forall l i, (i < length l)%nat -> nth i (store l i x) d = x.
Proof. induction l as [|y l IH]; intros [|i] H; simpl in *; try lia; auto. apply IH. lia. Qed.
Lemma store_other x d : forall l i j, i <> j -> nth j (store l i x) d = nth j l d.
Proof. induction l as [|y l IH]; intros [|i] [|j] H; simpl; auto; try congruence. Qed.
Section Stores.
Context {T : Type}.
Variables (ix : T -> nat) (value : T -> f32).
Let go := fun out t => store out (ix t) (value t).
Lemma stores_length : forall ts out, length (fold_left go ts out) = length out.
Proof. induction ts as [|t ts IH]; intros out; cbn [fold_left]; auto. rewrite IH. apply store_length. Qed.
Lemma stores_other d j : forall ts out, ~ In j (map ix ts) -> nth j (fold_left go ts out) d = nth j out d.
Proof. induction ts as [|t ts IH]; intros out H; cbn [fold_left]; auto. rewrite IH by (intros X; apply H; right; exact X). apply store_other. intros E. apply H. left. exact E. Qed.
Lemma stores_in d t : forall ts out, NoDup (map ix ts) -> In t ts -> (ix t < length out)%nat -> nth (ix t) (fold_left go ts out) d = value t.
Proof.
  induction ts as [|s ts IH]; intros out N I L; [destruct I|]. cbn [map] in N. inversion N as [|a c N1 N2]; subst. cbn [fold_left]. destruct I as [->|I].
  - rewrite stores_other by exact N1. apply store_same. exact L.
  - apply IH; auto. unfold go. rewrite store_length. exact L.
Qed.
End Stores.

(** * Squares do not see the sign *)
Lemma square_abs (a c : f32) : finite a = true -> finite c = true -> Rabs (val a) = Rabs (val c) -> fmul a a = fmul c c.
Proof.
  intros Fa Fc E.
  assert (Z : forall x : f32, finite x = true -> val x = 0 -> exists s, x = B754_zero s).
  { intros [s| | |s m e B] F V; try discriminate; [exists s; reflexivity|]. exfalso. cbn [B2R] in V. apply eq_0_F2R in V. cbn in V. destruct s; discriminate. }
  destruct (Req_dec (val a) 0) as [A|A].
  - assert (C : val c = 0). { rewrite A, Rabs_R0 in E. destruct (Req_dec (val c) 0) as [C|C]; auto. apply Rabs_pos_lt in C. lra. }
    destruct (Z a Fa A) as [s ->]. destruct (Z c Fc C) as [s' ->]. destruct s, s'; reflexivity.
  - assert (C : val c <> 0). { intros C. rewrite C, Rabs_R0 in E. apply Rabs_pos_lt in A. lra. }
    assert (S : val a = val c \/ val a = - val c) by (unfold Rabs in E; destruct (Rcase_abs (val a)), (Rcase_abs (val c)); lra).
    assert (ST : forall x : f32, finite x = true -> val x <> 0 -> is_finite_strict x = true) by (intros [s| | |s m e B] F V; try discriminate; auto; exfalso; apply V; reflexivity).
    destruct S as [S|S].
    + assert (a = c) by (apply B2R_inj; auto). subst. reflexivity.
    + assert (X : a = Bopp c). { apply B2R_inj; auto; [apply ST; [rewrite is_finite_Bopp; auto|rewrite B2R_Bopp; lra]|rewrite B2R_Bopp; auto]. }
      subst a. destruct c as [s| | |s m e B]; try discriminate; [exfalso; apply C; reflexivity|]. apply B2SF_inj. unfold fmul, Bmult, Bopp. rewrite !B2SF_SF2B. destruct s; reflexivity.
Qed.
Lemma norm2_abs (v w : fvec) : fin3 v -> fin3 w -> Rabs (val (fvx v)) = Rabs (val (fvx w)) -> Rabs (val (fvy v)) = Rabs (val (fvy w)) -> Rabs (val (fvz v)) = Rabs (val (fvz w)) ->
  fnorm2 v = fnorm2 w.
Proof. intros (A & B & C) (A' & B' & C') X Y Z. unfold fnorm2. rewrite (square_abs _ _ A A' X), (square_abs _ _ B B' Y), (square_abs _ _ C C' Z). reflexivity. Qed.

(** * One direction *)
Lemma half_sub (p q : f32) : half_coord p -> half_coord q -> ordinary_coord (fsub p q) /\ Rabs (val p - val q) <= bpow radix2 60 /\ is (fsub p q) (rnd (val p - val q)) /\
  Rabs (val (fsub p q) - (val p - val q)) <= u * Rabs (val p - val q).
Proof.
  intros [Fp Bp] [Fq Bq]. apply Rabs_le_inv in Bp. apply Rabs_le_inv in Bq. assert (D : Rabs (val p - val q) <= bpow radix2 60).
  { change 60%Z with (1 + 59)%Z. rewrite bpow_plus. change (bpow radix2 1) with 2. apply Rabs_le. lra. }
  destruct (is_sub p q Fp Fq) as [F V]. { unfold fits. eapply Rle_trans; [exact D|]. apply bpow_le. lia. }
  split; [split; [exact F|rewrite V; apply rnd_abs; [lia|exact D]]|]. split; [exact D|]. split; [split; [exact F|exact V]|].
  destruct (rnd_minus (val p) (val q) (fmt_val p) (fmt_val q)) as (e & Ee & R). rewrite V, R.
  replace ((val p - val q) * (1 + e) - (val p - val q)) with (e * (val p - val q)) by ring. rewrite Rabs_mult. apply Rmult_le_compat_r; auto using Rabs_pos.
Qed.
(** The distance along one direction from [x] to the nearest multiple of [L]. *)
Lemma nearest_multiple (L x : R) : 0 < L -> exists k : Z, Rabs (x - IZR k * L) <= L / 2 /\ forall k', Rabs (x - IZR k * L) <= Rabs (x - IZR k' * L).
Proof.
  intros HL. set (k := Zfloor (x / L + / 2)). exists k. assert (A := Zfloor_lb (x / L + / 2)). assert (B := Zfloor_ub (x / L + / 2)). fold k in A, B.
  assert (X : x = x / L * L) by (field; lra). assert (H : Rabs (x - IZR k * L) <= L / 2). { rewrite X at 1. apply Rabs_le. nra. }
  split; [exact H|]. intros k'. destruct (Z.eq_dec k' k) as [->|N]; [apply Rle_refl|]. apply Rle_trans with (L / 2); [exact H|]. apply Rabs_le_inv in H.
  assert (C : (k' - k <= -1 \/ 1 <= k' - k)%Z) by lia. destruct C as [C|C]; apply IZR_le in C; rewrite minus_IZR in C.
  - assert ((IZR k' - IZR k) * L <= -1 * L) by (apply Rmult_le_compat_r; lra). unfold Rabs. destruct (Rcase_abs _); lra.
  - assert (1 * L <= (IZR k' - IZR k) * L) by (apply Rmult_le_compat_r; lra). unfold Rabs. destruct (Rcase_abs _); lra.
Qed.
(** The wrapped coordinate is as long as the nearest image, up to 8 u (|p - q| + L). *)
Lemma axis_near (per : bool) (L p q w : f32) : ordinary_length L -> half_coord p -> half_coord q -> F32Spec.image_of per L (fsub p q) w ->
  exists k : Z, (per = false -> k = 0%Z) /\ (forall k', (per = false -> k' = 0%Z) -> Rabs (val p - (val q + IZR k * val L)) <= Rabs (val p - (val q + IZR k' * val L))) /\
    Rabs (Rabs (val w) - Rabs (val p - (val q + IZR k * val L))) <= 8 * u * (val L + Rabs (val p - val q)) /\ finite w = true /\ Rabs (val w) <= bpow radix2 62.
Proof.
  intros [FL [L0 L1]] Hp Hq (Fw & Bw & k & K & E). destruct (half_sub p q Hp Hq) as ([_ Bv] & Bd & _ & Ev). assert (P := bpow_gt_0 radix2 (-60)). assert (U : 0 < u < / 1000) by (unfold u; lra).
  set (x := val p - val q) in *. set (v := val (fsub p q)) in *. assert (X0 := Rabs_pos x).
  assert (V1 : Rabs v <= Rabs x + u * Rabs x). { replace v with (x + (v - x)) by ring. eapply Rle_trans; [apply Rabs_triang|]. lra. }
  assert (UX : u * Rabs x <= / 1000 * Rabs x) by (apply Rmult_le_compat_r; lra).
  assert (EX : Rabs (val w - (x + IZR k * val L)) <= 8 * u * (val L + Rabs x)).
  { replace (val w - (x + IZR k * val L)) with ((val w - (v + IZR k * val L)) + (v - x)) by ring. eapply Rle_trans; [apply Rabs_triang|].
    assert (6 * u * (Rabs v + val L) <= 6 * u * (Rabs x + / 1000 * Rabs x + val L)) by (apply Rmult_le_compat_l; lra).
    replace (6 * u * (Rabs x + / 1000 * Rabs x + val L)) with (6 * (1001 / 1000) * (u * Rabs x) + 6 * (u * val L)) in H by field. replace (8 * u * (val L + Rabs x)) with (8 * (u * val L) + 8 * (u * Rabs x)) by ring.
    assert (0 <= u * Rabs x) by (apply Rmult_le_pos; lra). assert (0 <= u * val L) by (apply Rmult_le_pos; lra). lra. }
  assert (L60 : bpow radix2 62 = 4 * bpow radix2 60) by (change 62%Z with (2 + 60)%Z; rewrite bpow_plus; reflexivity).
  destruct per.
  - destruct (nearest_multiple (val L) x) as (n & N1 & N2); [lra|]. exists n. split; [discriminate|].
    assert (R : forall k', val p - (val q + IZR k' * val L) = x - IZR k' * val L) by (intros; unfold x; ring).
    split; [intros k' _; rewrite !R; apply N2|]. rewrite R. split; [|split; [exact Fw|apply Rabs_le; lra]].
    assert (M := N2 (- k)%Z). rewrite opp_IZR in M. replace (x - - IZR k * val L) with (x + IZR k * val L) in M by ring.
    set (e := 8 * u * (val L + Rabs x)) in *. set (y := x + IZR k * val L) in *. set (z := x - IZR n * val L) in *.
    assert (E1 : Rabs y <= Rabs (val w) + e). { replace y with (val w + (y - val w)) by ring. eapply Rle_trans; [apply Rabs_triang|]. rewrite (Rabs_minus_sym y). lra. }
    assert (E2 : Rabs (val w) <= Rabs y + e). { replace (val w) with (y + (val w - y)) by ring. eapply Rle_trans; [apply Rabs_triang|]. lra. }
    apply Rabs_le. split; [lra|]. destruct (Z.eq_dec n (- k)%Z) as [->|NE].
    + assert (y = z) by (unfold y, z; rewrite opp_IZR; ring). rewrite <- H. lra.
    + assert (W : Rabs (val w) <= val L / 2) by (apply Rabs_le; lra). assert (DZ : val L <= Rabs y + Rabs z).
      { assert (Y : Rabs (y - z) <= Rabs y + Rabs z) by (unfold Rminus; eapply Rle_trans; [apply Rabs_triang|]; rewrite Rabs_Ropp; lra). eapply Rle_trans; [|exact Y].
        replace (y - z) with (IZR (k + n) * val L) by (unfold y, z; rewrite plus_IZR; ring). rewrite Rabs_mult, (Rabs_pos_eq (val L)) by lra. rewrite <- abs_IZR.
        assert (1 <= IZR (Z.abs (k + n))) by (apply (IZR_le 1); lia). assert (1 * val L <= IZR (Z.abs (k + n)) * val L) by (apply Rmult_le_compat_r; lra). lra. }
      lra.
  - exists 0%Z. split; [auto|]. split; [intros k' H; rewrite (H eq_refl); apply Rle_refl|]. rewrite (K eq_refl) in EX. replace (val p - (val q + 0 * val L)) with x by (unfold x; ring).
    replace (x + 0 * val L) with x in EX by ring. split; [|split; [exact Fw|]].
    + eapply Rle_trans; [apply Rabs_triang_inv2|exact EX].
    + replace (val w) with (x + (val w - x)) by ring. eapply Rle_trans; [apply Rabs_triang|]. assert (8 * u * (val L + Rabs x) <= 8 * / 1000 * (val L + Rabs x)) by (apply Rmult_le_compat_r; lra). lra.
Qed.
