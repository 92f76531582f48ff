(** The tree in single precision: layout, enclosure, skip pointers, traversal; pruning is monotone under rounding. *)
From Coq Require Import Psatz.
From Verif Require Import NListProofs MArrayProofs F32Proofs FaabbSpec.
Open Scope nat_scope.

(** * Rounding is monotone *)
Section Monotone.
Local Open Scope R_scope.
Lemma fsub_args (x y : f32) : finite (fsub x y) = true -> finite x = true /\ finite y = true.
Proof. unfold fsub. destruct x as [[]|[]| |[] ? ? ?], y as [[]|[]| |[] ? ? ?]; simpl; try discriminate; auto. Qed.
Lemma fadd_args (x y : f32) : finite (fadd x y) = true -> finite x = true /\ finite y = true.
Proof. unfold fadd. destruct x as [[]|[]| |[] ? ? ?], y as [[]|[]| |[] ? ? ?]; simpl; try discriminate; auto. Qed.
Lemma fmul_args (x : f32) : finite (fmul x x) = true -> finite x = true.
Proof. unfold fmul. destruct x as [[]|[]| |[] ? ? ?]; simpl; try discriminate; auto. Qed.
Lemma not_finite_overflow s : is_finite_SF (binary_overflow 24 128 mode_NE s) = false.
Proof. destruct s; reflexivity. Qed.
Lemma fsub_val (x y : f32) : finite x = true -> finite y = true ->
  (finite (fsub x y) = true <-> Rabs (rnd (val x - val y)) < bpow radix2 128) /\ (finite (fsub x y) = true -> val (fsub x y) = rnd (val x - val y)).
Proof.
  intros Hx Hy. assert (C := Bminus_correct 24 128 _ _ mode_NE x y Hx Hy). change (round_mode mode_NE) with ZnearestE in C. unfold fsub.
  destruct (Rlt_bool_spec (Rabs (round radix2 (SpecFloat.fexp 24 128) ZnearestE (val x - val y))) (bpow radix2 128)) as [H|H].
  - destruct C as [V [F _]]. split; [split; auto|auto].
  - destruct C as [E _]. assert (F : finite (Bminus mode_NE x y) = false) by (rewrite <- is_finite_SF_B2SF, E; apply not_finite_overflow). rewrite F. split; [split; [discriminate|intros; exfalso; change (rnd (val x - val y)) with (round radix2 (SpecFloat.fexp 24 128) ZnearestE (val x - val y)) in *; lra]|discriminate].
Qed.
Lemma fadd_val (x y : f32) : finite x = true -> finite y = true ->
  (finite (fadd x y) = true <-> Rabs (rnd (val x + val y)) < bpow radix2 128) /\ (finite (fadd x y) = true -> val (fadd x y) = rnd (val x + val y)).
Proof.
  intros Hx Hy. assert (C := Bplus_correct 24 128 _ _ mode_NE x y Hx Hy). change (round_mode mode_NE) with ZnearestE in C. unfold fadd.
  destruct (Rlt_bool_spec (Rabs (round radix2 (SpecFloat.fexp 24 128) ZnearestE (val x + val y))) (bpow radix2 128)) as [H|H].
  - destruct C as [V [F _]]. split; [split; auto|auto].
  - destruct C as [E _]. assert (F : finite (Bplus mode_NE x y) = false) by (rewrite <- is_finite_SF_B2SF, E; apply not_finite_overflow). rewrite F. split; [split; [discriminate|intros; exfalso; change (rnd (val x + val y)) with (round radix2 (SpecFloat.fexp 24 128) ZnearestE (val x + val y)) in *; lra]|discriminate].
Qed.
Lemma fmul_val (x y : f32) : finite x = true -> finite y = true ->
  (finite (fmul x y) = true <-> Rabs (rnd (val x * val y)) < bpow radix2 128) /\ (finite (fmul x y) = true -> val (fmul x y) = rnd (val x * val y)).
Proof.
  intros Hx Hy. assert (C := Bmult_correct 24 128 _ _ mode_NE x y). change (round_mode mode_NE) with ZnearestE in C. unfold fmul.
  destruct (Rlt_bool_spec (Rabs (round radix2 (SpecFloat.fexp 24 128) ZnearestE (val x * val y))) (bpow radix2 128)) as [H|H].
  - destruct C as [V [F _]]. rewrite Hx, Hy in F. split; [split; auto|auto].
  - assert (F : finite (Bmult mode_NE x y) = false) by (rewrite <- is_finite_SF_B2SF, C; apply not_finite_overflow). rewrite F. split; [split; [discriminate|intros; exfalso; change (rnd (val x * val y)) with (round radix2 (SpecFloat.fexp 24 128) ZnearestE (val x * val y)) in *; lra]|discriminate].
Qed.
Lemma rnd_abs_mono x y : Rabs x <= Rabs y -> Rabs (rnd x) <= Rabs (rnd y).
Proof.
  assert (G : forall z, Rabs (rnd z) = rnd (Rabs z)) by (intros z; unfold rnd; symmetry; apply round_NE_abs; typeclasses eauto).
  intros H. rewrite !G. apply rnd_le. auto.
Qed.
Lemma rnd_nonneg x : 0 <= x -> 0 <= rnd x.
Proof. intros H. rewrite <- rnd_0. apply rnd_le. auto. Qed.
Lemma sse_min_val (a b : f32) : finite a = true -> finite b = true -> finite (sse_min a b) = true /\ val (sse_min a b) = Rmin (val a) (val b).
Proof.
  intros Ha Hb. unfold sse_min. rewrite Bltb_correct by auto. destruct (Rlt_bool_spec (val a) (val b)); split; auto; [rewrite Rmin_left|rewrite Rmin_right]; lra.
Qed.
Lemma sse_max_val (a b : f32) : finite a = true -> finite b = true -> finite (sse_max a b) = true /\ val (sse_max a b) = Rmax (val a) (val b).
Proof.
  intros Ha Hb. unfold sse_max. rewrite Bltb_correct by auto. destruct (Rlt_bool_spec (val b) (val a)); split; auto; [rewrite Rmax_left|rewrite Rmax_right]; lra.
Qed.
Lemma clamp_le_abs p lo hi x : lo <= x <= hi -> Rabs (Rmin (Rmax p lo) hi - p) <= Rabs (x - p).
Proof.
  intros H. destruct (Rle_lt_dec p lo).
  - rewrite (Rmax_right p lo), Rmin_left by lra. rewrite !Rabs_pos_eq by lra. lra.
  - rewrite (Rmax_left p lo) by lra. destruct (Rle_lt_dec p hi).
    + rewrite Rmin_left by lra. replace (p - p) with 0 by ring. rewrite Rabs_R0. apply Rabs_pos.
    + rewrite Rmin_right by lra. rewrite !Rabs_left1 by lra. lra.
Qed.
Lemma fclamp_le (p lo hi x : f32) : finite lo = true -> finite hi = true -> finite x = true -> val lo <= val x <= val hi -> finite (fsub x p) = true ->
  finite (fclamp_delta p lo hi) = true /\ Rabs (val (fclamp_delta p lo hi)) <= Rabs (val (fsub x p)).
Proof.
  intros Fl Fh Fx H F. destruct (fsub_args x p F) as [_ Fp]. unfold fclamp_delta.
  destruct (sse_max_val p lo Fp Fl) as [F1 V1]. destruct (sse_min_val (sse_max p lo) hi F1 Fh) as [F2 V2]. set (m := sse_min (sse_max p lo) hi) in *.
  destruct (fsub_val x p Fx Fp) as [I1 E1]. destruct (fsub_val m p F2 Fp) as [I2 E2].
  assert (L : Rabs (rnd (val m - val p)) <= Rabs (rnd (val x - val p))) by (apply rnd_abs_mono; rewrite V2, V1; apply clamp_le_abs; auto).
  assert (Fm : finite (fsub m p) = true) by (apply I2; eapply Rle_lt_trans; [exact L|apply I1; auto]). split; auto. rewrite E1, E2 by auto. auto.
Qed.
Lemma fsq_le (d e : f32) : finite d = true -> Rabs (val d) <= Rabs (val e) -> finite (fmul e e) = true ->
  finite (fmul d d) = true /\ 0 <= val (fmul d d) <= val (fmul e e).
Proof.
  intros Fd H F. assert (Fe := fmul_args e F). destruct (fmul_val e e Fe Fe) as [I1 E1]. destruct (fmul_val d d Fd Fd) as [I2 E2].
  assert (L : Rabs (val d * val d) <= Rabs (val e * val e)) by (rewrite !Rabs_mult; apply Rmult_le_compat; auto using Rabs_pos).
  assert (Fm : finite (fmul d d) = true) by (apply I2; eapply Rle_lt_trans; [apply rnd_abs_mono; exact L|apply I1; auto]). split; auto. rewrite E1, E2 by auto.
  split; [apply rnd_nonneg; nra|apply rnd_le]. rewrite !Rabs_pos_eq in L by nra. auto.
Qed.
Lemma fadd_le (a a' b b' : f32) : finite a' = true -> finite b' = true -> 0 <= val a' <= val a -> 0 <= val b' <= val b -> finite (fadd a b) = true ->
  finite (fadd a' b') = true /\ 0 <= val (fadd a' b') <= val (fadd a b).
Proof.
  intros Fa Fb Ha Hb F. destruct (fadd_args a b F) as [F1 F2]. destruct (fadd_val a b F1 F2) as [I1 E1]. destruct (fadd_val a' b' Fa Fb) as [I2 E2].
  assert (Fm : finite (fadd a' b') = true) by (apply I2; eapply Rle_lt_trans; [apply (rnd_abs_mono _ (val a + val b)); rewrite !Rabs_pos_eq by lra; lra|apply I1; auto]). split; auto. rewrite E1, E2 by auto.
  split; [apply rnd_nonneg; lra|apply rnd_le; lra].
Qed.
(** Squares and their sums are not a number, plus infinity or not negative. *)
Definition up (x : f32) : Prop := x = B754_nan \/ x = B754_infinity false \/ (finite x = true /\ Bsign x = false).
Lemma sf_infinity (x : f32) : B2SF x = SpecFloat.S754_infinity false -> x = B754_infinity false.
Proof. destruct x; simpl; intros H; try discriminate. congruence. Qed.
Lemma sf_nan (x : f32) : B2SF x = SpecFloat.S754_nan -> x = B754_nan.
Proof. destruct x; simpl; intros H; try discriminate. auto. Qed.
Lemma up_sq (x : f32) : up (fmul x x).
Proof.
  destruct (finite x) eqn:Fx.
  - assert (C := Bmult_correct 24 128 _ _ mode_NE x x). unfold fmul. destruct (Rlt_bool _ _).
    + destruct C as [_ [F S]]. rewrite Fx in F. right. right. split; auto. rewrite S by (destruct (Bmult mode_NE x x); try discriminate; auto). destruct (Bsign x); auto.
    + right. left. apply sf_infinity. rewrite C. destruct (Bsign x); reflexivity.
  - destruct x as [|[]| |]; try discriminate; unfold up, fmul; simpl; auto.
Qed.
Lemma sign_val (x : f32) : finite x = true -> Bsign x = false -> 0 <= val x.
Proof. destruct x as [| | |[] m e H]; simpl; intros; try discriminate; try lra. unfold F2R. simpl. apply Rmult_le_pos; [apply (IZR_le 0); lia|apply bpow_ge_0]. Qed.
Lemma up_add (x y : f32) : up x -> up y -> up (fadd x y).
Proof.
  intros [->|[->|[Fx Sx]]] [->|[->|[Fy Sy]]];
    try (left; reflexivity); try (right; left; reflexivity);
    try (destruct y as [|[]| |]; try discriminate; try (left; reflexivity); right; left; reflexivity);
    try (destruct x as [|[]| |]; try discriminate; try (left; reflexivity); right; left; reflexivity).
  - assert (C := Bplus_correct 24 128 _ _ mode_NE x y Fx Fy). unfold fadd. destruct (Rlt_bool _ _).
    + destruct C as [_ [F S]]. right. right. split; auto. rewrite S, Sx, Sy. assert (P := sign_val x Fx Sx). assert (Q := sign_val y Fy Sy). destruct (Rcompare_spec (val x + val y) 0); auto. exfalso; lra.
    + destruct C as [E _]. right. left. apply sf_infinity. rewrite E, Sx. reflexivity.
Qed.
Lemma up_lt (x r : f32) : up x -> Bltb x r = true -> finite x = true.
Proof. intros [->|[->|[F _]]] H; auto; destruct r as [[]|[]| |[] ? ? ?]; discriminate. Qed.
Lemma lt_mono (x y r : f32) : finite x = true -> finite y = true -> val x <= val y -> Bltb y r = true -> Bltb x r = true.
Proof.
  intros Fx Fy L H. destruct (finite r) eqn:Fr.
  - rewrite Bltb_correct in * by auto. destruct (Rlt_bool_spec (val y) (val r)); [|discriminate]. apply Rlt_bool_true. lra.
  - destruct r as [|[]| |]; try discriminate; destruct x as [[]|[]| |[] ? ? ?]; try discriminate; try reflexivity; destruct y as [[]|[]| |[] ? ? ?]; discriminate.
Qed.
End Monotone.

(** * Boxes *)
Definition le3 (a b : fvec) : Prop := (val (fvx a) <= val (fvx b))%R /\ (val (fvy a) <= val (fvy b))%R /\ (val (fvz a) <= val (fvz b))%R.
Definition fbox_ok (a : faabb) : Prop := fin3 (fa_lo a) /\ fin3 (fa_hi a).
Definition finside (a b : faabb) : Prop := le3 (fa_lo b) (fa_lo a) /\ le3 (fa_hi a) (fa_hi b).
Lemma le3_refl a : le3 a a. Proof. repeat split; apply Rle_refl. Qed.
Lemma le3_trans a b c : le3 a b -> le3 b c -> le3 a c.
Proof. intros (?&?&?) (?&?&?). repeat split; eapply Rle_trans; eauto. Qed.
Lemma finside_refl a : finside a a. Proof. split; apply le3_refl. Qed.
Lemma finside_trans a b c : finside a b -> finside b c -> finside a c.
Proof. intros [] []. split; eapply le3_trans; eauto. Qed.
Lemma fmerge_ok a b : fbox_ok a -> fbox_ok b -> fbox_ok (fmerge a b) /\ finside a (fmerge a b) /\ finside b (fmerge a b) /\
  forall c, finside a c -> finside b c -> finside (fmerge a b) c.
Proof.
  intros [(A1 & A2 & A3) (A4 & A5 & A6)] [(B1 & B2 & B3) (B4 & B5 & B6)].
  destruct (sse_min_val _ _ A1 B1) as [F1 V1], (sse_min_val _ _ A2 B2) as [F2 V2], (sse_min_val _ _ A3 B3) as [F3 V3].
  destruct (sse_max_val _ _ A4 B4) as [F4 V4], (sse_max_val _ _ A5 B5) as [F5 V5], (sse_max_val _ _ A6 B6) as [F6 V6].
  split; [repeat split; assumption|]. unfold finside, le3, fmerge, fvmin, fvmax. cbn [fa_lo fa_hi fvx fvy fvz]. rewrite V1, V2, V3, V4, V5, V6.
  split; [repeat split; auto using Rmin_l, Rmax_l|]. split; [repeat split; auto using Rmin_r, Rmax_r|].
  intros c [(?&?&?) (?&?&?)] [(?&?&?) (?&?&?)]. repeat split; try (apply Rmin_glb; auto); try (apply Rmax_lub; auto).
Qed.

(** * Trees and their array layout *)
Inductive tree := TLeaf (bx : faabb) (els : list faabb) | TNode (bx : faabb) (l r : tree).
Definition tbox (t : tree) : faabb := match t with TLeaf b _ => b | TNode b _ _ => b end.
Fixpoint tsize (t : tree) : nat := match t with TLeaf _ _ => 1 | TNode _ l r => S (tsize l + tsize r) end.
Fixpoint elements (t : tree) : list faabb := match t with TLeaf _ e => e | TNode _ l r => elements l ++ elements r end.
Fixpoint layout (sk : bool) (t : tree) (base : nat) (parent : option nat) : list fnode :=
  match t with
  | TLeaf b e => [FNode b None None parent 0 (map fa_tag e)]
  | TNode b l r => FNode b (Some (S base)) (Some (S base + tsize l)) parent (if sk then tsize l + tsize r else 0) []
                   :: layout sk l (S base) (Some base) ++ layout sk r (S base + tsize l) (Some base)
  end.
Lemma layout_length sk t : forall base p, length (layout sk t base p) = tsize t.
Proof. induction t; intros; simpl; auto. rewrite app_length, IHt1, IHt2. auto. Qed.
Fixpoint wf (t : tree) : Prop :=
  match t with
  | TLeaf b e => fbox_ok b /\ forall x, In x e -> finside x b
  | TNode b l r => fbox_ok b /\ finside (tbox l) b /\ finside (tbox r) b /\ wf l /\ wf r
  end.
Lemma wf_box t : wf t -> fbox_ok (tbox t). Proof. destruct t; simpl; tauto. Qed.
Lemma wf_elements t : wf t -> forall x, In x (elements t) -> finside x (tbox t).
Proof.
  induction t; simpl; [tauto|]. intros (_ & Hl & Hr & Wl & Wr) x Hx. apply in_app_or in Hx as [Hx|Hx]; eapply finside_trans; eauto.
Qed.

(** * The merge over a segment is its least enclosing box *)
Definition my_box (arr : list faabb) (start len : nat) : faabb :=
  fold_left (fun m i => fmerge m (nth (start + i) arr faabb0)) (seq 1 (len - 1)) (nth start arr faabb0).
Lemma merge_fold_spec arr start : forall n a0 m0, fbox_ok m0 -> (forall i, i < a0 + n -> fbox_ok (nth (start + i) arr faabb0)) ->
  (forall B, finside m0 B <-> forall i, i < a0 -> finside (nth (start + i) arr faabb0) B) ->
  let m := fold_left (fun m i => fmerge m (nth (start + i) arr faabb0)) (seq a0 n) m0 in
  fbox_ok m /\ forall B, finside m B <-> forall i, i < a0 + n -> finside (nth (start + i) arr faabb0) B.
Proof.
  induction n as [|n IH]; intros a0 m0 Hm Ho H0; simpl.
  - split; auto. intros B. rewrite H0. split; intros H i Hi; apply H; lia.
  - replace (a0 + S n) with (S a0 + n) in * by lia. destruct (fmerge_ok m0 (nth (start + a0) arr faabb0) Hm (Ho a0 ltac:(lia))) as (K & ML & MR & LL). apply IH; auto.
    intros C. split.
    + intros HI i Hi. destruct (Nat.eq_dec i a0) as [->|N].
      * eapply finside_trans; [exact MR|auto].
      * apply (H0 C); [|lia]. eapply finside_trans; [exact ML|auto].
    + intros HA. apply LL; [apply H0; intros; apply HA; lia|apply HA; lia].
Qed.
Lemma my_box_spec pre seg post : 0 < length seg -> (forall x, In x seg -> fbox_ok x) ->
  fbox_ok (my_box (pre ++ seg ++ post) (length pre) (length seg)) /\
  forall B, finside (my_box (pre ++ seg ++ post) (length pre) (length seg)) B <-> forall x, In x seg -> finside x B.
Proof.
  intros H Hok. unfold my_box.
  assert (NT : forall i, i < length seg -> nth (length pre + i) (pre ++ seg ++ post) faabb0 = nth i seg faabb0) by (intros i Hi; rewrite app_nth2, app_nth1 by lia; f_equal; lia).
  destruct (merge_fold_spec (pre ++ seg ++ post) (length pre) (length seg - 1) 1 (nth (length pre) (pre ++ seg ++ post) faabb0)) as [K G].
  - rewrite <- (Nat.add_0_r (length pre)) at 1. rewrite NT by auto. apply Hok, nth_In. auto.
  - intros i Hi. rewrite NT by lia. apply Hok, nth_In. lia.
  - intros C. split; [intros HI i Hi; replace (length pre + i) with (length pre) by lia; auto|]. intros HI. specialize (HI 0 ltac:(lia)). rewrite Nat.add_0_r in HI. auto.
  - split; [exact K|]. intros B. rewrite (G B). replace (1 + (length seg - 1)) with (length seg) by lia. split.
    + intros HI x Hx. apply (In_nth _ _ faabb0) in Hx as (i & Hi & <-). specialize (HI i Hi). rewrite NT in HI by auto. auto.
    + intros HI i Hi. rewrite NT by auto. apply HI. apply nth_In. lia.
Qed.

(** * Swaps and the partition loop *)
Lemma upd_app_mid {T} (pre seg post : list T) i x : i < length seg -> upd (pre ++ seg ++ post) (length pre + i) x = pre ++ upd seg i x ++ post.
Proof.
  intros H. induction pre as [|y pre IH]; simpl.
  - revert i H. induction seg as [|z seg IH]; intros i H; [simpl in H; lia|]. destruct i; simpl; auto. f_equal. apply IH. simpl in H. lia.
  - f_equal. exact IH.
Qed.
Lemma nth_app_mid {T} (pre seg post : list T) i d : i < length seg -> nth (length pre + i) (pre ++ seg ++ post) d = nth i seg d.
Proof. intros H. rewrite app_nth2, app_nth1 by lia. f_equal. lia. Qed.
Lemma swap_mid {T} (d : T) pre seg post i j : i < length seg -> j < length seg ->
  fswap d (pre ++ seg ++ post) (length pre + i) (length pre + j) = pre ++ fswap d seg i j ++ post.
Proof. intros Hi Hj. unfold fswap. rewrite !nth_app_mid by auto. rewrite upd_app_mid by auto. rewrite upd_app_mid; auto. rewrite upd_length. auto. Qed.
Lemma swap_perm {T} (d : T) l i j : i < length l -> j < length l -> Permutation l (fswap d l i j).
Proof.
  intros Hi Hj. unfold fswap. apply (Permutation_nth l _ d). cbv zeta. rewrite !upd_length. split; auto.
  exists (fun k => if k =? j then i else if k =? i then j else k). split; [|split].
  - intros k Hk. destruct (k =? j); auto. destruct (k =? i); auto.
  - intros x y Hx Hy. destruct (Nat.eqb_spec x j), (Nat.eqb_spec y j), (Nat.eqb_spec x i), (Nat.eqb_spec y i); intros; lia.
  - intros k Hk. rewrite nth_upd_if by (rewrite upd_length; auto). destruct (Nat.eqb_spec k j); auto. rewrite nth_upd_if by auto. destruct (Nat.eqb_spec k i); auto.
Qed.
Lemma part_spec axis mid pre post : forall fuel seg i sr, sr - i <= fuel -> sr <= length seg ->
  exists seg' sr', fpart fuel axis mid (pre ++ seg ++ post) (length pre) i sr = Some (pre ++ seg' ++ post, sr') /\ Permutation seg seg' /\ sr' <= sr.
Proof.
  induction fuel as [|fuel IH]; intros seg i sr HF HS; simpl; destruct (Nat.ltb_spec i sr).
  - lia.
  - exists seg, sr. auto.
  - destruct (Bltb _ mid).
    + destruct (IH seg (S i) sr) as (seg' & sr' & E & P & L); [lia..|]. eauto.
    + replace (length pre + sr - 1) with (length pre + (sr - 1)) by lia. rewrite swap_mid by lia.
      destruct (IH (fswap faabb0 seg i (sr - 1)) i (sr - 1)) as (seg' & sr' & E & P & L); [lia| |].
      { unfold fswap. rewrite !upd_length. lia. }
      exists seg', sr'. split; auto. split; [|lia]. transitivity (fswap faabb0 seg i (sr - 1)); auto. apply swap_perm; lia.
  - exists seg, sr. auto.
Qed.

(** * Building *)
Lemma build_spec : forall fuel nodes parent pre seg post, 0 < length seg <= fuel -> (forall x, In x seg -> fbox_ok x) ->
  exists seg' t, fbuild fuel (pre ++ seg ++ post) nodes (length pre) (length seg) parent =
      Some (length nodes, pre ++ seg' ++ post, nodes ++ layout false t (length nodes) parent) /\
    Permutation seg seg' /\ elements t = seg' /\ wf t /\ (forall B, finside (tbox t) B <-> forall x, In x seg -> finside x B).
Proof.
  induction fuel as [|fuel IH]; intros nodes parent pre seg post HL Hok; [lia|].
  cbn [fbuild]. fold (my_box (pre ++ seg ++ post) (length pre) (length seg)).
  destruct (my_box_spec pre seg post (proj1 HL) Hok) as [MK MB]. set (my := my_box (pre ++ seg ++ post) (length pre) (length seg)) in *.
  destruct (Nat.leb_spec (length seg) CAPACITY) as [HC|HC].
  - exists seg, (TLeaf my seg). rewrite skipn_app, skipn_all, Nat.sub_diag. cbn [skipn app].
    rewrite firstn_app, firstn_all, Nat.sub_diag. cbn [firstn]. rewrite app_nil_r. split; [reflexivity|].
    split; auto. split; auto. split; [|exact MB]. split; [exact MK|]. apply MB. apply finside_refl.
  - set (axis := if _ && _ then fvx else _).
    assert (N2 : (length seg =? 2) = false) by (apply Nat.eqb_neq; unfold CAPACITY in HC; lia). rewrite N2.
    destruct (part_spec axis (axis (faabb_pos my)) pre post (length seg) seg 0 (length seg)) as (sg & sr & -> & HP & HS); [lia..|].
    set (sr1 := if sr =? length seg then length seg - 1 else sr). set (sr2 := if sr1 =? 0 then 1 else sr1).
    assert (B2 : 0 < sr2 < length seg).
    { unfold CAPACITY in HC. unfold sr2, sr1. destruct (Nat.eqb_spec sr (length seg)).
      - destruct (Nat.eqb_spec (length seg - 1) 0); lia.
      - destruct (Nat.eqb_spec sr 0); lia. }
    assert (LS : length sg = length seg) by (symmetry; apply Permutation_length; auto).
    assert (ES : sg = firstn sr2 sg ++ skipn sr2 sg) by (symmetry; apply firstn_skipn).
    set (s1 := firstn sr2 sg) in *. set (s2 := skipn sr2 sg) in *.
    assert (L1 : length s1 = sr2) by (unfold s1; rewrite firstn_length; lia).
    assert (L2 : length s2 = length seg - sr2) by (unfold s2; rewrite skipn_length; lia).
    assert (Hok' : forall x, In x sg -> fbox_ok x) by (intros x Hx; apply Hok; eapply Permutation_in; [symmetry; exact HP|auto]).
    destruct (IH (nodes ++ [fnode0]) (Some (length nodes)) pre s1 (s2 ++ post)) as (s1' & t1 & E1 & P1 & X1 & W1 & I1); [lia|intros x Hx; apply Hok'; rewrite ES; apply in_or_app; auto|].
    rewrite L1 in E1. replace (pre ++ sg ++ post) with (pre ++ s1 ++ s2 ++ post) by (rewrite ES, <- app_assoc; reflexivity). rewrite E1.
    destruct (IH ((nodes ++ [fnode0]) ++ layout false t1 (length (nodes ++ [fnode0])) (Some (length nodes))) (Some (length nodes))
                (pre ++ s1') s2 post) as (s2' & t2 & E2 & P2 & X2 & W2 & I2); [lia|intros x Hx; apply Hok'; rewrite ES; apply in_or_app; auto|].
    assert (LL : length (pre ++ s1') = length pre + sr2) by (rewrite app_length, <- (Permutation_length P1); lia).
    rewrite LL, L2 in E2. rewrite <- app_assoc in E2. rewrite E2.
    exists (s1' ++ s2'), (TNode my t1 t2). split; [|split; [|split; [|split]]].
    + rewrite !app_length, layout_length. cbn [length]. f_equal. f_equal; [f_equal; rewrite !app_assoc; reflexivity|].
      rewrite <- !app_assoc. cbn [app]. rewrite upd_app. cbn [layout]. replace (length nodes + 1) with (S (length nodes)) by lia. reflexivity.
    + rewrite HP, ES. apply Permutation_app; auto.
    + simpl. congruence.
    + simpl. assert (G : forall x, In x sg -> finside x my).
      { intros x Hx. apply (proj1 (MB my) (finside_refl my)). eapply Permutation_in; [symmetry; exact HP|auto]. }
      split; [exact MK|]. split; [|split; [|split; auto]]; [apply I1|apply I2]; intros x Hx; apply G; rewrite ES; apply in_or_app; auto.
    + simpl. exact MB.
Qed.

(** * Skip pointers *)
Lemma nth_app_len {T} (A : list T) x B d : nth (length A) (A ++ x :: B) d = x.
Proof. rewrite app_nth2, Nat.sub_diag by lia. reflexivity. Qed.
Lemma skip_spec : forall t fuel A p B, tsize t <= fuel ->
  fskip fuel (A ++ layout false t (length A) p ++ B) (length A) = Some (tsize t, A ++ layout true t (length A) p ++ B).
Proof.
  induction t as [bx e|bx l IHl r IHr]; intros fuel A p B HF; simpl in HF; destruct fuel as [|fuel]; try lia.
  - cbn [fskip layout app]. rewrite nth_app_len. reflexivity.
  - cbn [fskip layout]. rewrite <- app_comm_cons, <- app_assoc, nth_app_len. cbn [fn_left fn_right].
    set (n0 := FNode bx _ _ _ _ _).
    assert (LA : length (A ++ [n0]) = S (length A)) by (rewrite app_length; simpl; lia).
    pose proof (IHl fuel (A ++ [n0]) (Some (length A)) (layout false r (S (length A) + tsize l) (Some (length A)) ++ B) ltac:(lia)) as E1.
    rewrite LA, <- !app_assoc in E1. cbn [app] in E1. rewrite E1.
    assert (LB : length (A ++ n0 :: layout true l (S (length A)) (Some (length A))) = S (length A) + tsize l).
    { rewrite app_length. simpl. rewrite layout_length. lia. }
    pose proof (IHr fuel (A ++ n0 :: layout true l (S (length A)) (Some (length A))) (Some (length A)) B ltac:(lia)) as E2.
    rewrite LB in E2. rewrite <- !app_assoc in E2. cbn [app] in E2. rewrite E2.
    rewrite nth_app_len. cbn [fn_box fn_left fn_right fn_parent fn_tags n0].
    rewrite upd_app. cbn [tsize layout]. rewrite <- app_comm_cons, <- app_assoc. f_equal. f_equal. lia.
Qed.

(** * The ball iterator as one run of its loops *)
Fixpoint ball_run (fuel : nat) (step : fball_state -> fball_event) (s : fball_state) : option (list fbond) :=
  match fuel with
  | O => None
  | S fuel => match step s with
              | FEmit x s => option_map (cons x) (ball_run fuel step s)
              | FGo s => ball_run fuel step s
              | FFinished => Some []
              end
  end.
Section Drain.
  Variable step : fball_state -> fball_event.
  Lemma next_mono : forall f s r, fball_next f step s = Some r -> forall g, f <= g -> fball_next g step s = Some r.
  Proof.
    induction f as [|f IH]; simpl; intros s r E g Hg; [discriminate|]. destruct g as [|g]; [lia|]. simpl. destruct (step s); auto. apply IH; auto. lia.
  Qed.
  Lemma drain_eq f s : fball_drain (S f) step s =
    match fball_next (S f) step s with None => None | Some (None, _) => Some [] | Some (Some x, s) => option_map (cons x) (fball_drain f step s) end.
  Proof. reflexivity. Qed.
  Lemma drain_mono : forall f s l, fball_drain f step s = Some l -> forall g, f <= g -> fball_drain g step s = Some l.
  Proof.
    induction f as [|f IH]; intros s l E g Hg; [discriminate|]. destruct g as [|g]; [lia|]. rewrite drain_eq in E. rewrite drain_eq.
    destruct (fball_next (S f) step s) as [[[x|] s']|] eqn:EN; [| |discriminate]; rewrite (next_mono _ _ _ EN (S g)) by auto; auto.
    destruct (fball_drain f step s') eqn:ED; [|discriminate]. rewrite (IH _ _ ED g) by lia. auto.
  Qed.
  Lemma drain_det s l1 l2 : fdrains step s l1 -> fdrains step s l2 -> l1 = l2.
  Proof.
    intros [f1 E1] [f2 E2]. apply (drain_mono _ _ _) with (g := f1 + f2) in E1; [|lia]. apply (drain_mono _ _ _) with (g := f1 + f2) in E2; [|lia]. congruence.
  Qed.
  Lemma run_drains : forall f s l, ball_run f step s = Some l -> fdrains step s l.
  Proof.
    induction f as [|f IH]; simpl; intros s l E; [discriminate|]. destruct (step s) as [x s'|s'|] eqn:ES.
    - destruct (ball_run f step s') as [l'|] eqn:ER; [|discriminate]. injection E as <-. destruct (IH _ _ ER) as [g Eg]. exists (S g). simpl. rewrite ES, Eg. reflexivity.
    - destruct (IH _ _ E) as [g Eg]. exists (S g). destruct g as [|g]; [discriminate|]. rewrite drain_eq in Eg. rewrite drain_eq.
      replace (fball_next (S (S g)) step s) with (fball_next (S g) step s') by (cbn [fball_next]; rewrite ES; reflexivity).
      destruct (fball_next (S g) step s') as [[[x|] s2]|]; [|auto|discriminate].
      destruct (fball_drain g step s2) eqn:ED; [|discriminate]. rewrite (drain_mono _ _ _ ED (S g)) by lia. auto.
    - injection E as <-. exists 1. simpl. rewrite ES. reflexivity.
  Qed.
End Drain.

(** * Traversal by the ball iterator *)
Section Ball.
  Variables (b : fbox) (points images : list fvec) (q : fvec) (qi : nat) (r_max r_min : f32) (excl : bool).
  Notation step nodes := (fball_step b points nodes images q qi r_max r_min excl).
  Definition emit (c : fvec) (j : nat) : list fbond :=
    if excl && (qi =? j) then []
    else let r_ij := fvsub (fflat b (nth j points fv0)) c in
         if Bltb (fnorm2 r_ij) (fmul r_max r_max) && Bleb (fmul r_min r_min) (fnorm2 r_ij)
         then [FBond qi j (Bsqrt mode_NE (fnorm2 r_ij)) r_ij] else [].
  Fixpoint hits (c : fvec) (t : tree) : list fbond :=
    if foverlap (tbox t) c r_max
    then match t with TLeaf _ e => flat_map (emit c) (map fa_tag e) | TNode _ l r => hits c l ++ hits c r end else [].
  Definition center (m : nat) : fvec := fvadd (fflat b q) (nth m images fv0).
  Definition leads (nodes : list fnode) (s : fball_state) (pre : list fbond) (s' : fball_state) : Prop :=
    forall f l, ball_run f (step nodes) s' = Some l -> exists g, ball_run g (step nodes) s = Some (pre ++ l).
  Lemma leads_trans nodes s1 p1 s2 p2 s3 : leads nodes s1 p1 s2 -> leads nodes s2 p2 s3 -> leads nodes s1 (p1 ++ p2) s3.
  Proof. intros H1 H2 f l E. destruct (H2 _ _ E) as [g Eg]. destruct (H1 _ _ Eg) as [h Eh]. exists h. rewrite <- app_assoc. auto. Qed.
  Lemma leads_go nodes s s' : step nodes s = FGo s' -> leads nodes s [] s'.
  Proof. intros E f l R. exists (S f). simpl. rewrite E. exact R. Qed.
  Lemma leads_emit nodes s x s' : step nodes s = FEmit x s' -> leads nodes s [x] s'.
  Proof. intros E f l R. exists (S f). simpl. rewrite E, R. reflexivity. Qed.
  Lemma leaf_leads nodes m k n : m < length images -> k < length nodes -> nth k nodes fnode0 = n -> fis_leaf n = true ->
    foverlap (fn_box n) (center m) r_max = true ->
    forall todo ref, skipn ref (fn_tags n) = todo -> leads nodes (FBS m k ref) (flat_map (emit (center m)) todo) (FBS m (S k) 0).
  Proof.
    intros Hm Hk En El Ho. induction todo as [|j todo IH]; intros ref HR.
    - assert (HL : (ref <? length (fn_tags n)) = false).
      { apply Nat.ltb_ge. destruct (Nat.le_gt_cases (length (fn_tags n)) ref); auto. exfalso.
        pose proof (skipn_length ref (fn_tags n)). rewrite HR in H0. simpl in H0. lia. }
      simpl. apply leads_go. unfold fball_step. cbn [fs_img fs_node fs_ref]. rewrite (proj2 (Nat.ltb_lt _ _) Hm), (proj2 (Nat.ltb_lt _ _) Hk).
      cbv zeta. rewrite En. fold (center m). rewrite Ho, El, HL. reflexivity.
    - assert (HL : ref < length (fn_tags n)).
      { destruct (Nat.le_gt_cases (length (fn_tags n)) ref); auto. rewrite skipn_all2 in HR by auto. discriminate. }
      assert (HN : nth ref (fn_tags n) 0 = j).
      { rewrite <- (firstn_skipn ref (fn_tags n)), HR. rewrite app_nth2; rewrite firstn_length; [|lia]. rewrite Nat.min_l, Nat.sub_diag by lia. reflexivity. }
      assert (HS : skipn (S ref) (fn_tags n) = todo).
      { clear -HR. revert HR. generalize (fn_tags n). induction ref as [|ref IHr]; intros [|y w] HR; simpl in *; try discriminate.
        - injection HR as _ ->. reflexivity.
        - apply (IHr w HR). }
      cbn [flat_map]. apply leads_trans with (FBS m k (S ref)); [|apply IH; auto].
      assert (ST : step nodes (FBS m k ref) =
        if excl && (qi =? j) then FGo (FBS m k (S ref))
        else let r_ij := fvsub (fflat b (nth j points fv0)) (center m) in
             if Bltb (fnorm2 r_ij) (fmul r_max r_max) && Bleb (fmul r_min r_min) (fnorm2 r_ij)
             then FEmit (FBond qi j (Bsqrt mode_NE (fnorm2 r_ij)) r_ij) (FBS m k (S ref)) else FGo (FBS m k (S ref))).
      { unfold fball_step. cbn [fs_img fs_node fs_ref]. rewrite (proj2 (Nat.ltb_lt _ _) Hm), (proj2 (Nat.ltb_lt _ _) Hk).
        cbv zeta. rewrite En. fold (center m). rewrite Ho, El, (proj2 (Nat.ltb_lt _ _) HL). cbn [andb]. rewrite HN. reflexivity. }
      unfold emit. destruct (excl && (qi =? j)); [apply leads_go; exact ST|]. cbv zeta in ST |- *.
      destruct (_ && _); [apply leads_emit|apply leads_go]; exact ST.
  Qed.
  Lemma tree_leads : forall t A p B m, m < length images ->
    leads (A ++ layout true t (length A) p ++ B) (FBS m (length A) 0) (hits (center m) t) (FBS m (length A + tsize t) 0).
  Proof.
    induction t as [bx e|bx tl IHl tr IHr]; intros A p B m Hm.
    - cbn [layout app tsize hits tbox]. set (n := FNode bx None None p 0 (map fa_tag e)).
      assert (HK : length A < length (A ++ n :: B)) by (rewrite app_length; simpl; lia).
      replace (length A + 1) with (S (length A)) by lia. destruct (foverlap bx (center m) r_max) eqn:EO.
      + apply (leaf_leads (A ++ n :: B) m (length A) n Hm HK (nth_app_len _ _ _ _) eq_refl EO (map fa_tag e) 0 eq_refl).
      + apply leads_go. unfold fball_step. cbn [fs_img fs_node fs_ref]. rewrite (proj2 (Nat.ltb_lt _ _) Hm), (proj2 (Nat.ltb_lt _ _) HK).
        cbv zeta. rewrite nth_app_len. fold (center m). cbn [fn_box n]. rewrite EO. cbn [fn_skip]. rewrite Nat.add_0_r. reflexivity.
    - cbn [layout]. rewrite <- app_comm_cons, <- app_assoc.
      set (n0 := FNode bx (Some (S (length A))) (Some (S (length A) + tsize tl)) p (tsize tl + tsize tr) []).
      set (nodes := A ++ n0 :: layout true tl (S (length A)) (Some (length A)) ++ layout true tr (S (length A) + tsize tl) (Some (length A)) ++ B).
      assert (HK : length A < length nodes) by (unfold nodes; rewrite app_length; simpl; lia).
      assert (HN : nth (length A) nodes fnode0 = n0) by apply nth_app_len.
      cbn [hits tbox tsize]. destruct (foverlap bx (center m) r_max) eqn:EO.
      + assert (LA : length (A ++ [n0]) = S (length A)) by (rewrite app_length; simpl; lia).
        assert (LB : length (A ++ n0 :: layout true tl (S (length A)) (Some (length A))) = S (length A) + tsize tl).
        { rewrite app_length. simpl. rewrite layout_length. lia. }
        pose proof (IHl (A ++ [n0]) (Some (length A)) (layout true tr (S (length A) + tsize tl) (Some (length A)) ++ B) m Hm) as E1.
        rewrite LA in E1. rewrite <- !app_assoc in E1. cbn [app] in E1. fold nodes in E1.
        pose proof (IHr (A ++ n0 :: layout true tl (S (length A)) (Some (length A))) (Some (length A)) B m Hm) as E2.
        rewrite LB in E2. rewrite <- !app_assoc in E2. cbn [app] in E2. fold nodes in E2.
        replace (length A + S (tsize tl + tsize tr)) with (S (length A) + tsize tl + tsize tr) by lia.
        change (hits (center m) tl ++ hits (center m) tr) with ([] ++ (hits (center m) tl ++ hits (center m) tr)).
        eapply leads_trans; [|eapply leads_trans; [exact E1|exact E2]].
        apply leads_go. unfold fball_step. cbn [fs_img fs_node fs_ref]. rewrite (proj2 (Nat.ltb_lt _ _) Hm), (proj2 (Nat.ltb_lt _ _) HK).
        cbv zeta. rewrite HN. fold (center m). cbn [fn_box n0]. rewrite EO. reflexivity.
      + apply leads_go. unfold fball_step. cbn [fs_img fs_node fs_ref]. rewrite (proj2 (Nat.ltb_lt _ _) Hm), (proj2 (Nat.ltb_lt _ _) HK).
        cbv zeta. rewrite HN. fold (center m). cbn [fn_box n0]. rewrite EO. cbn [fn_skip n0].
        replace (S (length A + (tsize tl + tsize tr))) with (length A + S (tsize tl + tsize tr)) by lia. reflexivity.
  Qed.
  Lemma ball_drains_hits t : let nodes := layout true t 0 None in
    fdrains (step nodes) (FBS 0 0 0) (flat_map (fun im => hits (fvadd (fflat b q) im) t) images).
  Proof.
    intros nodes.
    assert (G : forall k m, m + k = length images ->
      exists f, ball_run f (step nodes) (FBS m 0 0) = Some (flat_map (fun im => hits (fvadd (fflat b q) im) t) (skipn m images))).
    { induction k as [|k IH]; intros m Hm.
      - exists 1. cbn [ball_run]. unfold fball_step. cbn [fs_img]. destruct (Nat.ltb_spec m (length images)); [lia|]. rewrite skipn_all2 by lia. reflexivity.
      - destruct (IH (S m) ltac:(lia)) as [f Ef].
        pose proof (tree_leads t [] None [] m ltac:(lia)) as TL. simpl in TL. rewrite app_nil_r in TL. fold nodes in TL.
        assert (GO : leads nodes (FBS m (tsize t) 0) [] (FBS (S m) 0 0)).
        { apply leads_go. unfold fball_step. cbn [fs_img fs_node fs_ref]. rewrite (proj2 (Nat.ltb_lt m (length images)) ltac:(lia)).
          unfold nodes. rewrite layout_length, Nat.ltb_irrefl. reflexivity. }
        destruct (leads_trans _ _ _ _ _ _ TL GO _ _ Ef) as [g Eg]. exists g. rewrite Eg. f_equal. rewrite app_nil_r.
        assert (SK : skipn m images = nth m images fv0 :: skipn (S m) images).
        { clear -Hm. revert images Hm. induction m as [|m IH]; intros [|y l] H; simpl in *; try lia; auto. }
        rewrite SK. reflexivity. }
    destruct (G (length images) 0 eq_refl) as [f Ef]. simpl in Ef. eapply run_drains. exact Ef.
  Qed.

  (** Skipping a subtree loses nothing: the computed distance from the box is at most the computed distance of any of its points. *)
  Lemma overlap_near a c x : fbox_ok a -> fin3 x -> le3 (fa_lo a) x -> le3 x (fa_hi a) -> Bltb (fnorm2 (fvsub x c)) (fmul r_max r_max) = true ->
    foverlap a c r_max = true.
  Proof.
    intros [(L1 & L2 & L3) (H1 & H2 & H3)] (X1 & X2 & X3) (A1 & A2 & A3) (B1 & B2 & B3) H. unfold fnorm2 in H. cbn [fvsub fvx fvy fvz] in H.
    set (ex := fsub (fvx x) (fvx c)) in *. set (ey := fsub (fvy x) (fvy c)) in *. set (ez := fsub (fvz x) (fvz c)) in *.
    assert (F : finite (fadd (fadd (fmul ex ex) (fmul ey ey)) (fmul ez ez)) = true) by (eapply up_lt; [|exact H]; apply up_add; [apply up_add|]; apply up_sq).
    destruct (fadd_args _ _ F) as [Fxy Fz]. destruct (fadd_args _ _ Fxy) as [Fx Fy].
    destruct (fclamp_le (fvx c) (fvx (fa_lo a)) (fvx (fa_hi a)) (fvx x) L1 H1 X1 (conj A1 B1) (fmul_args _ Fx)) as [Dx Vx].
    destruct (fclamp_le (fvy c) (fvy (fa_lo a)) (fvy (fa_hi a)) (fvy x) L2 H2 X2 (conj A2 B2) (fmul_args _ Fy)) as [Dy Vy].
    destruct (fclamp_le (fvz c) (fvz (fa_lo a)) (fvz (fa_hi a)) (fvz x) L3 H3 X3 (conj A3 B3) (fmul_args _ Fz)) as [Dz Vz].
    unfold foverlap. set (dx := fclamp_delta (fvx c) (fvx (fa_lo a)) (fvx (fa_hi a))) in *. set (dy := fclamp_delta (fvy c) (fvy (fa_lo a)) (fvy (fa_hi a))) in *. set (dz := fclamp_delta (fvz c) (fvz (fa_lo a)) (fvz (fa_hi a))) in *.
    destruct (fsq_le dx ex Dx Vx Fx) as [Qx Wx]. destruct (fsq_le dy ey Dy Vy Fy) as [Qy Wy]. destruct (fsq_le dz ez Dz Vz Fz) as [Qz Wz].
    destruct (fadd_le _ _ _ _ Qx Qy Wx Wy Fxy) as [Qxy Wxy].
    change (fmul (fclamp_delta fzero fzero fzero) (fclamp_delta fzero fzero fzero)) with fzero.
    assert (Z0 : finite (fadd (fmul dz dz) fzero) = true /\ val (fadd (fmul dz dz) fzero) = val (fmul dz dz)).
    { destruct (fadd_val (fmul dz dz) fzero Qz eq_refl) as [I E]. cbn [B2R fzero] in I, E. rewrite Rplus_0_r in I, E. rewrite rnd_fmt in I, E by apply fmt_val.
      assert (K : finite (fadd (fmul dz dz) fzero) = true) by (apply I; apply abs_B2R_lt_emax). auto. }
    destruct Z0 as [Z1 Z2]. destruct (fadd_le _ _ _ (fadd (fmul dz dz) fzero) Qxy Z1 Wxy ltac:(rewrite Z2; exact Wz) F) as [Qs Ws].
    cbv zeta. eapply lt_mono; [exact Qs|exact F|exact (proj2 Ws)|exact H].
  Qed.
  Definition point_element (x : faabb) : Prop :=
    fa_lo x = fflat b (nth (fa_tag x) points fv0) /\ fa_hi x = fflat b (nth (fa_tag x) points fv0) /\ fin3 (fflat b (nth (fa_tag x) points fv0)).
  Lemma emit_far c bx els : fbox_ok bx -> foverlap bx c r_max = false -> (forall x, In x els -> finside x bx /\ point_element x) ->
    flat_map (emit c) (map fa_tag els) = [].
  Proof.
    intros HK HO. induction els as [|x els IH]; intros H; simpl; auto. rewrite IH by (intros; apply H; right; auto). rewrite app_nil_r.
    destruct (H x (or_introl eq_refl)) as [[HL HH] (EL & EH & FX)]. rewrite EL in HL. rewrite EH in HH. unfold emit. destruct (_ && _); auto. cbv zeta.
    destruct (Bltb (fnorm2 (fvsub (fflat b (nth (fa_tag x) points fv0)) c)) (fmul r_max r_max)) eqn:E; auto.
    rewrite (overlap_near bx c _ HK FX HL HH E) in HO. discriminate.
  Qed.
  Lemma hits_all c t : wf t -> (forall x, In x (elements t) -> point_element x) -> hits c t = flat_map (emit c) (map fa_tag (elements t)).
  Proof.
    induction t as [bx e|bx l IHl r IHr]; intros W HE; cbn [hits]; destruct (foverlap _ c r_max) eqn:EO; auto.
    - symmetry. apply (emit_far c bx); auto; [apply W|]. intros x Hx. split; [apply W; auto|apply HE; auto].
    - simpl in W. cbn [elements] in *. rewrite IHl, IHr; try tauto; try (intros; apply HE; apply in_or_app; auto). rewrite map_app, flat_map_app. reflexivity.
    - symmetry. apply (emit_far c bx); auto; [apply (wf_box _ W)|]. intros x Hx. split; [apply (wf_elements _ W x Hx)|apply HE; auto].
  Qed.
End Ball.

Lemma ftree_spec b points : points <> [] -> Forall fin3 points ->
  exists t, ftree b points = Some (layout true t 0 None) /\ wf t /\
    (forall x, In x (elements t) -> point_element b points x) /\ Permutation (map fa_tag (elements t)) (seq 0 (length points)).
Proof.
  intros HN HF. unfold ftree. set (boxes := map _ (combine (seq 0 (length points)) points)).
  assert (LB : length boxes = length points) by (unfold boxes; rewrite map_length, combine_length, seq_length; lia).
  assert (FF : forall p, fin3 p -> fin3 (fflat b p)) by (intros p (A & B & C); unfold fflat; destruct (f2d b); repeat split; auto).
  assert (NB : forall i, i < length points -> nth i boxes faabb0 = faabb_point (fflat b (nth i points fv0)) i).
  { intros i Hi. unfold boxes. set (f := fun ip : nat * fvec => faabb_point (fflat b (snd ip)) (fst ip)).
    rewrite (nth_indep _ faabb0 (f (0, fv0))) by (rewrite map_length, combine_length, seq_length; lia).
    rewrite map_nth, combine_nth by (rewrite seq_length; auto). unfold f. simpl. rewrite seq_nth by auto. reflexivity. }
  assert (PB : forall x, In x boxes -> point_element b points x).
  { intros x Hx. apply (In_nth _ _ faabb0) in Hx as (i & Hi & <-). rewrite LB in Hi. rewrite NB by auto. repeat split; try reflexivity; cbn [fa_tag faabb_point];
    assert (K := FF _ (proj1 (Forall_forall _ _) HF _ (nth_In points fv0 Hi))); apply K. }
  destruct (build_spec (length points) [] None [] boxes []) as (seg' & t & E & P & X & W & _).
  { rewrite LB. destruct points; [congruence|simpl; lia]. }
  { intros x Hx. destruct (PB x Hx) as (E1 & E2 & K). split; rewrite ?E1, ?E2; auto. }
  simpl in E. rewrite app_nil_r, LB in E. rewrite E. exists t. split; [|split; auto; split].
  - pose proof (skip_spec t (tsize t) [] None [] (le_n _)) as U. simpl in U. rewrite app_nil_r in U. simpl. rewrite layout_length, U. simpl. rewrite app_nil_r. reflexivity.
  - intros x Hx. apply PB. rewrite X in Hx. eapply Permutation_in; [symmetry; exact P|auto].
  - rewrite X, <- P. assert (EQ : map fa_tag boxes = seq 0 (length points)); [|rewrite EQ; reflexivity].
    apply nth_ext with (d := 0) (d' := 0); [rewrite map_length, seq_length; lia|]. intros i Hi. rewrite map_length in Hi. change 0 with (fa_tag faabb0) at 1. rewrite map_nth, NB, seq_nth by lia. reflexivity.
Qed.
Lemma flat_map_perm_in {A B} (f : A -> list B) l l' : Permutation l l' -> Permutation (flat_map f l) (flat_map f l').
Proof. induction 1; simpl; auto. - apply Permutation_app_head. auto. - rewrite !app_assoc. apply Permutation_app_tail. apply Permutation_app_comm. - etransitivity; eauto. Qed.
Lemma brute_spec b points q qi r_max r_min excl images : points <> [] -> Forall fin3 points ->
  exists nodes l, ftree b points = Some nodes /\ fdrains (fball_step b points nodes images q qi r_max r_min excl) (FBS 0 0 0) l /\
    Permutation l (brute_force b points q qi r_max r_min excl images).
Proof.
  intros HN HF. destruct (ftree_spec b points HN HF) as (t & ET & W & HE & HP).
  exists (layout true t 0 None). eexists. split; [exact ET|]. split; [apply ball_drains_hits|].
  unfold brute_force. induction images as [|im images IH]; simpl; auto. apply Permutation_app; auto.
  rewrite hits_all; auto. change (pair_bond b points q qi r_max r_min excl im) with (emit b points qi r_max r_min excl (fvadd (fflat b q) im)). apply flat_map_perm_in. auto.
Qed.
