(** Proofs about grids of voxels. *)
From Verif Require Import RBase AABBProofs2 BoxProofs BoxProofs2 MArrayProofs GridSpec Vec.
From Coq Require Import Reals ZArith List Lia Lra.
Import ListNotations.
Local Open Scope R_scope.

Lemma in_zrange a b k : In k (zrange a b) <-> (a <= k <= b)%Z.
Proof.
  unfold zrange. rewrite in_map_iff. split.
  - intros (i & <- & Hi). apply in_seq in Hi. lia.
  - intros H. exists (Z.to_nat (k - a)). rewrite in_seq. split; lia.
Qed.
Lemma NoDup_zrange a b : NoDup (zrange a b).
Proof. unfold zrange. apply FinFun.Injective_map_NoDup; [intros x y H; lia|apply seq_NoDup]. Qed.

(** *** One direction *)
Section dir.
  Variables (L : R) (w : Z) (per : bool) (r : R).
  Hypotheses (HL : 0 < L) (Hw : (0 < w < 2 ^ 30)%Z) (Hr : 0 < r).
  Let d := VDir L w per false.
  Lemma w_pos : 0 < IZR w. Proof. apply IZR_lt. lia. Qed.
  Lemma g_pos : 0 < L / IZR w. Proof. pose proof w_pos. apply Rmult_lt_0_compat; auto. apply Rinv_0_lt_compat; auto. Qed.
  Lemma g_w : L / IZR w * IZR w = L. Proof. pose proof w_pos. field. lra. Qed.
  Lemma delta_centre p k : vd_delta d p k = centre L w k - p.
  Proof. pose proof w_pos. unfold vd_delta, vd_g, d, centre; simpl. field. lra. Qed.
  Lemma centre_period n m : centre L w (n + m * w) = centre L w n + IZR m * L.
  Proof. pose proof w_pos. unfold centre. rewrite plus_IZR, mult_IZR. field. lra. Qed.
  Lemma cut_floor : vd_cut r d = Zfloor (r / (L / IZR w)).
  Proof. unfold vd_cut, vd_g, d; simpl. apply Ztrunc_floor. apply Rlt_le, Rmult_lt_0_compat; auto. apply Rinv_0_lt_compat, g_pos. Qed.
  Lemma cut_bounds : IZR (vd_cut r d) * (L / IZR w) <= r < (IZR (vd_cut r d) + 1) * (L / IZR w) /\ (0 <= vd_cut r d)%Z.
  Proof.
    rewrite cut_floor. pose proof g_pos. pose proof (Zfloor_bounds (r / (L / IZR w))) as [A B].
    assert (E : r / (L / IZR w) * (L / IZR w) = r) by (field; split; [apply Rgt_not_eq, w_pos|lra]).
    split; [split; nra|]. apply Zfloor_lub. simpl. apply Rlt_le, Rmult_lt_0_compat; auto. apply Rinv_0_lt_compat; auto.
  Qed.
  Lemma bin_bounds p : Rabs p <= L / 2 -> IZR (vd_bin d p) * (L / IZR w) <= p + L / 2 < (IZR (vd_bin d p) + 1) * (L / IZR w) /\ (0 <= vd_bin d p <= w)%Z.
  Proof.
    intros Hp. apply Rabs_le_inv in Hp. pose proof g_pos as G. pose proof w_pos. assert (Q : 0 <= (p + L / 2) / (L / IZR w)) by (apply Rmult_le_pos; [lra|left; apply Rinv_0_lt_compat; auto]).
    unfold vd_bin, vd_g, d; simpl. rewrite Ztrunc_floor by auto. pose proof (Zfloor_bounds ((p + L / 2) / (L / IZR w))) as [A B].
    assert (E : (p + L / 2) / (L / IZR w) * (L / IZR w) = p + L / 2) by (field; split; lra).
    split; [split; nra|]. split; [apply Zfloor_lub; simpl; auto|]. apply le_IZR. eapply Rle_trans; [exact A|].
    apply Rmult_le_reg_r with (L / IZR w); auto. rewrite E, Rmult_comm, g_w. lra.
  Qed.
  Lemma in_span p k : In k (vd_span r d p) <-> (vd_bin d p - vd_cut r d <= k <= vd_bin d p + vd_cut r d)%Z /\ (per = false -> (0 <= k < w)%Z).
  Proof.
    unfold vd_span. rewrite filter_In, in_zrange. unfold d at 3 4; simpl. rewrite Bool.orb_true_iff, Bool.andb_true_iff, Z.leb_le, Z.ltb_lt.
    destruct per; split; intros [A B]; split; auto; try (intros; discriminate); destruct B as [B|B]; auto; discriminate.
  Qed.
  Lemma span_NoDup p : NoDup (vd_span r d p).
  Proof. apply NoDup_filter, NoDup_zrange. Qed.
  Lemma cut_le_w : r <= L -> (vd_cut r d <= w)%Z.
  Proof. intros H. destruct cut_bounds as [[A _] _]. apply le_IZR. pose proof g_pos. pose proof g_w. nra. Qed.

  (** Storage index of a visited bin. *)
  Lemma span_index p k : Rabs p <= L / 2 -> fits r L w per -> In k (vd_span r d p) ->
    (0 <= vd_index d k < w)%Z /\ exists m, (k = vd_index d k + m * w)%Z /\ (per = false -> m = 0%Z).
  Proof.
    intros Hp HF Hk. apply in_span in Hk as [Hk Ha]. destruct (bin_bounds p Hp) as [_ HB]. destruct cut_bounds as [_ HC].
    unfold vd_index, d; simpl vd_w.
    assert (K : (- w <= k /\ k < 2 ^ 30 + 2 ^ 30 + 1)%Z).
    { destruct (Bool.bool_dec per true) as [E|E]; [|apply Bool.not_true_is_false in E; specialize (Ha E); lia]. pose proof (cut_le_w (HF E)). lia. }
    rewrite (Z.mod_small (k + w) (2 ^ 32)) by lia. split; [apply Z.mod_pos_bound; lia|].
    exists ((k + w) / w - 1)%Z. split; [pose proof (Z_div_mod_eq_full (k + w) w); lia|].
    intros E. specialize (Ha E). replace (k + w)%Z with (k + 1 * w)%Z by lia. rewrite Z_div_plus_full, Z.div_small by lia. lia.
  Qed.
  Lemma index_congr k n m : (k = n + m * w)%Z -> (0 <= n < w)%Z -> (- w <= k < 2 ^ 31)%Z -> vd_index d k = n.
  Proof.
    intros -> Hn Hk. unfold vd_index, d; simpl vd_w. rewrite (Z.mod_small _ (2 ^ 32)) by lia.
    replace (n + m * w + w)%Z with (n + (m + 1) * w)%Z by ring. rewrite Z_mod_plus_full. apply Z.mod_small; auto.
  Qed.
  (** Which bins the window reaches. *)
  Lemma reach p n m : Rabs p <= L / 2 -> fits r L w per -> (0 <= n < w)%Z -> (per = false -> m = 0%Z) ->
    Rabs (centre L w n - p + IZR m * L) < r -> safe r (centre L w n - p + IZR m * L) L w per ->
    exists k m', In k (vd_span r d p) /\ (k = n + m' * w)%Z /\ vd_index d k = n /\ (per = false -> m' = 0%Z).
  Proof.
    intros Hp HF Hn Hm HR HS. destruct (bin_bounds p Hp) as [[B1 B2] B3]. destruct cut_bounds as [[C1 C2] C3]. pose proof g_pos as G. pose proof w_pos as W. pose proof g_w as GW.
    set (g := L / IZR w) in *. set (bn := vd_bin d p) in *. set (ct := vd_cut r d) in *.
    assert (DX : centre L w n - p + IZR m * L = (IZR (n + m * w) + 1 / 2) * g - (p + L / 2)).
    { unfold centre, g. rewrite plus_IZR, mult_IZR. field. lra. }
    assert (CF : IZR (Zfloor (r / g)) = IZR ct) by (unfold ct; rewrite cut_floor; reflexivity).
    assert (Q : r / g * g = r) by (unfold g; field; lra).
    assert (Main : Rabs (centre L w n - p + IZR m * L) < (IZR ct + 1 / 2) * g -> (bn - ct <= n + m * w <= bn + ct)%Z).
    { rewrite DX. intros A. apply Rabs_lt_inv in A as [A1 A2]. split.
      - apply Z.lt_succ_r. apply lt_IZR. rewrite minus_IZR, succ_IZR. apply Rmult_lt_reg_r with g; [exact G|]. lra.
      - apply Z.lt_succ_r. apply lt_IZR. rewrite succ_IZR, (plus_IZR bn ct). apply Rmult_lt_reg_r with g; [exact G|]. lra. }
    assert (Go : (bn - ct <= n + m * w <= bn + ct)%Z -> exists k m', In k (vd_span r d p) /\ (k = n + m' * w)%Z /\ vd_index d k = n /\ (per = false -> m' = 0%Z)).
    { intros A. exists (n + m * w)%Z, m.
      assert (SP : In (n + m * w)%Z (vd_span r d p)) by (apply in_span; split; [exact A|intros E; rewrite (Hm E); lia]).
      split; [exact SP|]. split; [reflexivity|]. split; [|exact Hm].
      apply (index_congr _ n m); auto. destruct (Bool.bool_dec per true) as [E|E]; [|apply Bool.not_true_is_false in E; rewrite (Hm E); lia].
      pose proof (cut_le_w (HF E)) as CW. fold ct in CW. lia. }
    destruct HS as [[HS|[E HS]]|HS].
    - apply Go, Main. fold g in HS. rewrite CF in HS. eapply Rlt_le_trans; [exact HR|]. nra.
    - fold g in HS. assert (CZ : Zfloor (r / g) = ct) by (apply eq_IZR; auto). rewrite CZ in HS. pose proof (cut_le_w (HF E)) as CW. fold ct in CW.
      set (k := (bn - ct + (n - (bn - ct)) mod w)%Z). pose proof (Z.mod_pos_bound (n - (bn - ct)) w ltac:(lia)) as MB.
      exists k, (- ((n - (bn - ct)) / w))%Z. pose proof (Z_div_mod_eq_full (n - (bn - ct)) w) as DM.
      assert (KE : (k = n + - ((n - (bn - ct)) / w) * w)%Z) by (unfold k; lia).
      split; [apply in_span; split; [unfold k; fold bn ct; lia|intros X; congruence]|]. split; [exact KE|]. split; [|intros X; congruence].
      apply (index_congr _ n (- ((n - (bn - ct)) / w))%Z); auto. unfold k. lia.
    - apply Go. fold g in HS. rewrite DX in HS. apply Rabs_le_inv in HS as [A1 A2]. split.
      + apply Z.lt_succ_r. apply lt_IZR. rewrite minus_IZR, succ_IZR. apply Rmult_lt_reg_r with g; [exact G|]. lra.
      + apply Z.lt_succ_r. apply lt_IZR. rewrite succ_IZR, (plus_IZR bn ct). apply Rmult_lt_reg_r with g; [exact G|]. lra.
  Qed.
  (** A narrow window visits no storage index twice. *)
  Lemma index_inj p k k' : Rabs p <= L / 2 -> narrow r L w per -> fits r L w per -> In k (vd_span r d p) -> In k' (vd_span r d p) -> vd_index d k = vd_index d k' -> k = k'.
  Proof.
    intros Hp HN HF Hk Hk' E. destruct (span_index p k Hp HF Hk) as [_ (m & Em & Pm)]. destruct (span_index p k' Hp HF Hk') as [_ (m' & Em' & Pm')].
    apply in_span in Hk as [A _]. apply in_span in Hk' as [A' _]. destruct (Bool.bool_dec per true) as [P|P].
    - specialize (HN P). rewrite <- cut_floor in HN. rewrite E in Em. change (vd_cut r (VDir L w per false)) with (vd_cut r d) in HN. assert (X : (- w < (m - m') * w < w)%Z) by lia. assert (m = m')%Z by nia. congruence.
    - apply Bool.not_true_is_false in P. rewrite Pm, E in Em by auto. rewrite Pm' in Em' by auto. congruence.
  Qed.
  Lemma narrow_fits : narrow r L w per -> (2 * Zfloor (r / (L / IZR w)) < w)%Z -> r <= L.
  Proof. intros _ H. rewrite <- cut_floor in H. destruct cut_bounds as [[_ C] C3]. pose proof g_w. pose proof g_pos. assert (IZR (vd_cut r d) + 1 <= IZR w) by (rewrite <- succ_IZR; apply IZR_le; lia). nra. Qed.
End dir.

(** *** Directions including the flat one *)
Definition dir_ok (d : vdir) : Prop := if vd_flat d then vd_L d = 0 /\ vd_w d = 1%Z else 0 < vd_L d /\ (0 < vd_w d < 2 ^ 30)%Z.
Definition dmul (d : vdir) (m : Z) : Prop := (vd_per d = false -> m = 0%Z) /\ (vd_flat d = true -> m = 0%Z).
Lemma dir_index d r p k : dir_ok d -> 0 < r -> Rabs p <= vd_L d / 2 -> (vd_flat d = false -> fits r (vd_L d) (vd_w d) (vd_per d)) -> In k (vd_span r d p) ->
  (0 <= vd_index d k < vd_w d)%Z /\ exists m, dmul d m /\ vd_delta d p k = centre (vd_L d) (vd_w d) (vd_index d k) - p + IZR m * vd_L d.
Proof.
  intros HD Hr Hp HF Hk. destruct d as [L w per flat]. unfold dir_ok, dmul in *. cbn [vd_L vd_w vd_per vd_flat] in *. destruct flat.
  - destruct HD as [-> ->]. unfold vd_index; cbn [vd_w]. rewrite Z.mod_1_r. split; [lia|]. exists 0%Z. split; [auto|]. unfold vd_delta, vd_g, centre; simpl. field.
  - destruct HD as [HL Hw]. destruct (span_index L w per r HL Hw Hr p k Hp (HF eq_refl) Hk) as [I (m & E & M)]. split; [exact I|]. exists m. split; [split; [exact M|discriminate]|].
    rewrite delta_centre by auto. rewrite E at 1. rewrite centre_period by auto. ring.
Qed.
Lemma dir_reach d r p n m : dir_ok d -> 0 < r -> Rabs p <= vd_L d / 2 -> (vd_flat d = false -> fits r (vd_L d) (vd_w d) (vd_per d)) ->
  (0 <= n < vd_w d)%Z -> dmul d m -> Rabs (centre (vd_L d) (vd_w d) n - p + IZR m * vd_L d) < r ->
  (vd_flat d = false -> safe r (centre (vd_L d) (vd_w d) n - p + IZR m * vd_L d) (vd_L d) (vd_w d) (vd_per d)) ->
  exists k m', In k (vd_span r d p) /\ vd_index d k = n /\ dmul d m' /\ vd_delta d p k = centre (vd_L d) (vd_w d) n - p + IZR m' * vd_L d.
Proof.
  intros HD Hr Hp HF Hn [Hm Hf] HR HS. destruct d as [L w per flat]. unfold dir_ok, dmul in *. cbn [vd_L vd_w vd_per vd_flat] in *. destruct flat.
  - destruct HD as [-> ->]. exists 0%Z, 0%Z. split; [unfold vd_span, vd_bin, vd_cut; cbn; destruct per; left; reflexivity|].
    split; [unfold vd_index; cbn [vd_w]; rewrite Z.mod_1_r; lia|]. split; [auto|]. unfold vd_delta, vd_g, centre; simpl. field.
  - destruct HD as [HL Hw]. destruct (reach L w per r HL Hw Hr p n m Hp (HF eq_refl) Hn Hm HR (HS eq_refl)) as (k & m' & A & B & C & D).
    exists k, m'. split; [exact A|]. split; [exact C|]. split; [split; [exact D|discriminate]|]. rewrite delta_centre by auto. rewrite B. rewrite centre_period by auto. ring.
Qed.
Lemma dir_inj d r p k k' : dir_ok d -> 0 < r -> Rabs p <= vd_L d / 2 -> (vd_flat d = false -> narrow r (vd_L d) (vd_w d) (vd_per d)) ->
  (vd_flat d = false -> fits r (vd_L d) (vd_w d) (vd_per d)) -> In k (vd_span r d p) -> In k' (vd_span r d p) -> vd_index d k = vd_index d k' -> k = k'.
Proof.
  intros HD Hr Hp HN HF Hk Hk' E. destruct d as [L w per flat]. unfold dir_ok in *. cbn [vd_L vd_w vd_per vd_flat] in *. destruct flat.
  - apply filter_In in Hk as [Hk _]. apply filter_In in Hk' as [Hk' _]. apply in_zrange in Hk. apply in_zrange in Hk'. unfold vd_bin, vd_cut in Hk, Hk'; cbn in Hk, Hk'. lia.
  - destruct HD as [HL Hw]. eapply (index_inj L w per r); eauto.
Qed.
Lemma dir_span_NoDup d r p : NoDup (vd_span r d p).
Proof. apply NoDup_filter, NoDup_zrange. Qed.

(** *** Wrapping in an untilted box *)
Lemma ortho_image b u v : ortho b -> nonsingular b -> (image_of b u v <-> exists i j k, allowed b i j k /\ u = V3 (vx v + IZR i * vx (b_L b)) (vy v + IZR j * vy (b_L b)) (vz v + IZR k * vz (b_L b))).
Proof.
  intros (X & Y & Z) HN. unfold image_of. split; intros (i & j & k & A & ->); exists i, j, k; (split; [exact A|]); apply vec_eq; unfold BoxSpec.shift, comb, a1, a2, a3; cbn; rewrite ?X, ?Y, ?Z; ring.
Qed.
Lemma min_comp x L m : Rabs x <= L / 2 -> x * x <= (x + IZR m * L) * (x + IZR m * L).
Proof.
  intros H. apply Rabs_le_inv in H. destruct (Z.eq_dec m 0) as [-> |]; [simpl; nra|].
  assert (1 <= IZR m \/ IZR m <= -1) as [B|B] by (destruct (Z_lt_le_dec 0 m); [left|right]; apply IZR_le; lia);
    assert (0 <= L) by lra; [assert (0 <= (IZR m - 1) * L) by nra; assert (0 <= IZR m * L * (2 * x + IZR m * L)) by (apply Rmult_le_pos; nra)|assert (0 <= (- IZR m - 1) * L) by nra; assert (0 <= - (IZR m * L) * (- (2 * x) - IZR m * L)) by (apply Rmult_le_pos; nra)]; nra.
Qed.
Lemma ortho_wrap b v : BoxSpec.positive b -> ortho b -> in_space b v ->
  image_of b (wrap b v) v /\ forall u, image_of b u v -> dot (wrap b v) (wrap b v) <= dot u u.
Proof.
  intros HP HO HS. pose proof HP as (HN & Px & Py & Pz). split; [apply wrap_image; auto|]. intros u Hu.
  assert (IU : image_of b u (wrap b v)).
  { pose proof (wrap_image b v HN HS) as IW. apply (ortho_image b _ _ HO HN) in IW as (i & j & k & A & EW). apply (ortho_image b _ _ HO HN) in Hu as (i' & j' & k' & A' & EU).
    apply (ortho_image b _ _ HO HN). exists (i' - i)%Z, (j' - j)%Z, (k' - k)%Z. split.
    - destruct A as (A1 & A2 & A3 & A4), A' as (B1 & B2 & B3 & B4). repeat split; intros E; [rewrite A1, B1|rewrite A2, B2|rewrite A3, B3|rewrite A4, B4]; auto.
    - rewrite EW, EU. cbn [vx vy vz]. rewrite !minus_IZR. apply vec_eq; simpl; ring. }
  pose proof (wrap_in_cell b v HN HS) as WC. cbv zeta in WC. destruct WC as (Wx & Wy & Wz).
  apply (ortho_image b _ _ HO HN) in IU as (i & j & k & (A1 & A2 & A3 & A4) & ->). destruct HO as (X & Y & Z). destruct HN as (N1 & N2 & N3 & N4 & N5).
  unfold make_fractional in Wx, Wy, Wz. rewrite X, Y, Z, N5 in *. cbn [vx vy vz] in *. set (u := wrap b v) in *. unfold dot; cbn [vx vy vz].
  assert (Cx : vx u * vx u <= (vx u + IZR i * vx (b_L b)) * (vx u + IZR i * vx (b_L b))).
  { destruct (b_px b); [|rewrite A1 by auto; simpl; lra]. specialize (Wx eq_refl). apply min_comp. cbn in Wx.
    match type of Wx with 0 <= ?q < 1 => assert (E : q * vx (b_L b) = vx u + vx (b_L b) / 2) by (field; auto) end. apply Rabs_le. nra. }
  assert (Cy : vy u * vy u <= (vy u + IZR j * vy (b_L b)) * (vy u + IZR j * vy (b_L b))).
  { destruct (b_py b); [|rewrite A2 by auto; simpl; lra]. specialize (Wy eq_refl). apply min_comp. cbn in Wy.
    match type of Wy with 0 <= ?q < 1 => assert (E : q * vy (b_L b) = vy u + vy (b_L b) / 2) by (field; auto) end. apply Rabs_le. nra. }
  assert (Cz : vz u * vz u <= (vz u + IZR k * vz (b_L b)) * (vz u + IZR k * vz (b_L b))).
  { destruct (b_pz b); [|rewrite A3 by auto; simpl; lra]. destruct (b_2d b) eqn:E2; [rewrite A4 by auto; simpl; lra|]. specialize (Wz eq_refl). apply min_comp. cbn in Wz.
    match type of Wz with 0 <= ?q < 1 => assert (E : q * vz (b_L b) = vz u + vz (b_L b) / 2) by (field; auto) end. specialize (Pz eq_refl). apply Rabs_le. nra. }
  lra.
Qed.

(** *** The three directions together *)
Lemma eff_good b w : good_width b w -> eff_width b w = w.
Proof. intros HW. destruct w as [[x y] z]. unfold eff_width. destruct (b_2d b) eqn:E; auto. destruct HW as (_ & _ & _ & Z1). rewrite Z1; auto. Qed.
Lemma width_good b w : good_width b w -> width_pos w = true.
Proof. intros HW. destruct w as [[x y] z]. destruct HW as (A & B & C & _). unfold width_pos. rewrite !Bool.andb_true_iff, !Z.ltb_lt. lia. Qed.
Lemma shape_valid b w : good_width b w -> valid_shape (shape_of w).
Proof. intros HW. destruct w as [[x y] z]. destruct HW as (A & B & C & _). repeat constructor; lia. Qed.
Lemma in_shape3 w n : in_shape (shape_of w) n <-> exists i j k, n = [i; j; k] /\ (let '(x, y, z) := w in (0 <= i < x /\ 0 <= j < y /\ 0 <= k < z)%Z).
Proof.
  destruct w as [[x y] z]. unfold shape_of. split.
  - intros H. inversion H as [|? i ? l1 A H1]; subst. inversion H1 as [|? j ? l2 B H2]; subst. inversion H2 as [|? k ? l3 C H3]; subst. inversion H3; subst. exists i, j, k. auto.
  - intros (i & j & k & -> & A & B & C). repeat constructor; tauto.
Qed.
Lemma NoDup_flat_map {A B} (f : A -> list B) l : NoDup l -> (forall a, In a l -> NoDup (f a)) -> (forall a a' x, In a l -> In a' l -> In x (f a) -> In x (f a') -> a = a') -> NoDup (flat_map f l).
Proof.
  induction 1 as [|a l N ND IH]; intros H1 H2; simpl; [constructor|]. apply NoDup_app_intro.
  - apply H1. left; auto.
  - apply IH; intros; [apply H1; right; auto|eapply H2; eauto; right; auto].
  - intros x Hx Hx'. apply in_flat_map in Hx' as (a' & Ha' & Hx'). apply N. rewrite (H2 a a' x); auto; [left; auto|right; auto].
Qed.
Lemma NoDup_map_on {A B} (f : A -> B) l : NoDup l -> (forall x y, In x l -> In y l -> f x = f y -> x = y) -> NoDup (map f l).
Proof.
  induction 1 as [|a l N ND IH]; intros H; simpl; constructor.
  - intros C. apply in_map_iff in C as (y & E & Hy). apply N. rewrite (H a y); auto; [left; auto|right; auto].
  - apply IH. intros; apply H; auto; right; auto.
Qed.
Section grid.
  Variables (b : box) (w : width) (r : R).
  Hypotheses (HP : BoxSpec.positive b) (HO : ortho b) (HW : good_width b w) (Hr : 0 < r) (HF : in_each (fits r) b w).
  Let g := grid_of b w.
  Lemma dirs : dir_ok (vg_x g) /\ dir_ok (vg_y g) /\ dir_ok (vg_z g).
  Proof using HP HO HW Hr HF.
    destruct HP as (HN & X & Y & Z). destruct HN as (_ & _ & _ & Z0 & _). unfold g, grid_of. rewrite eff_good by exact HW. destruct w as [[x y] z]. destruct HW as (A & B & C & D).
    unfold dir_ok; cbn. split; [auto|]. split; [auto|]. destruct (b_2d b); auto.
  Qed.
  Lemma gdims : vg_x g = VDir (vx (b_L b)) (fst (fst w)) (b_px b) false /\ vg_y g = VDir (vy (b_L b)) (snd (fst w)) (b_py b) false /\ vg_z g = VDir (vz (b_L b)) (snd w) (b_pz b) (b_2d b).
  Proof using HP HO HW Hr HF. unfold g, grid_of. rewrite eff_good by exact HW. destruct w as [[x y] z]. cbn. auto. Qed.
  Lemma in_window p i j k : In (i, j, k) (vox_window r g p) <-> In i (vd_span r (vg_x g) (vx p)) /\ In j (vd_span r (vg_y g) (vy p)) /\ In k (vd_span r (vg_z g) (vz p)).
  Proof.
    unfold vox_window. rewrite in_flat_map. split.
    - intros (k' & K & H). apply in_flat_map in H as (j' & J & H). apply in_map_iff in H as (i' & E & I). injection E as -> -> ->. auto.
    - intros (I & J & K). exists k. split; auto. apply in_flat_map. exists j. split; auto. apply in_map_iff. exists i. auto.
  Qed.
  Lemma window_image p i j k : in_box b p -> In (i, j, k) (vox_window r g p) ->
    in_shape (shape_of w) (vox_index g (i, j, k)) /\
    image_of b (V3 (vd_delta (vg_x g) (vx p) i) (vd_delta (vg_y g) (vy p) j) (vd_delta (vg_z g) (vz p) k)) (vsub (voxel_centre b w (vox_index g (i, j, k))) p).
  Proof using HP HO HW Hr HF.
    intros (Px & Py & Pz) H. apply in_window in H as (Hi & Hj & Hk). destruct dirs as (Dx & Dy & Dz). pose proof gdims as (Gx & Gy & Gz).
    assert (HF' : fits r (vx (b_L b)) (fst (fst w)) (b_px b) /\ fits r (vy (b_L b)) (snd (fst w)) (b_py b) /\ (b_2d b = false -> fits r (vz (b_L b)) (snd w) (b_pz b))) by (destruct w as [[x y] z]; exact HF).
    destruct HF' as (Fx & Fy & Fz). cbn [vox_index].
    destruct (dir_index _ r _ _ Dx Hr ltac:(rewrite Gx; exact Px) ltac:(rewrite Gx; intros _; exact Fx) Hi) as (Ix & mx & Mx & Ex).
    destruct (dir_index _ r _ _ Dy Hr ltac:(rewrite Gy; exact Py) ltac:(rewrite Gy; intros _; exact Fy) Hj) as (Iy & my & My & Ey).
    destruct (dir_index _ r _ _ Dz Hr ltac:(rewrite Gz; exact Pz) ltac:(rewrite Gz; exact Fz) Hk) as (Iz & mz & Mz & Ez).
    rewrite Ex, Ey, Ez. clear Ex Ey Ez. rewrite Gx, Gy, Gz in *. cbn [vd_L vd_w vd_per vd_flat] in *. unfold dmul in *; cbn [vd_per vd_flat] in *. split.
    - apply in_shape3. eexists _, _, _. split; [reflexivity|]. destruct w as [[x y] z]. auto.
    - apply ortho_image; auto. { apply HP. } exists mx, my, mz. split; [unfold allowed; tauto|]. destruct w as [[x y] z]. apply vec_eq; cbn; ring.
  Qed.
  Lemma norm_sq u : norm u * norm u = dot u u.
  Proof. unfold norm. apply sqrt_sqrt. unfold dot. nra. Qed.
  Lemma norm_pos u : 0 <= norm u.
  Proof. apply sqrt_pos. Qed.
  Lemma centre_space n p : in_box b p -> in_space b (vsub (voxel_centre b w n) p).
  Proof using HP.
    clear HF HO HW. intros HB E2. destruct HP as ((_ & _ & _ & Z0 & _) & _). destruct HB as (_ & _ & B). rewrite (Z0 E2) in B. replace (0 / 2) with 0 in B by field. destruct w as [[x y] z]. cbn. rewrite (Z0 E2). unfold centre.
    assert (vz p = 0) as -> by (destruct (Rabs_le_inv _ _ B); lra). ring.
  Qed.
  Lemma hit_distance p h : in_box b p -> In h (vox_hits b r g p) -> in_shape (shape_of w) (fst h) /\ 0 <= snd h < r * r /\ is_distance b w (fst h) p (sqrt (snd h)).
  Proof using HP HO HW Hr HF.
    intros HB H. unfold vox_hits in H. apply in_map_iff in H as ([[i j] k] & <- & H). apply filter_In in H as [H HR]. cbn [fst snd].
    destruct (window_image p i j k HB H) as [SH IM]. split; [exact SH|]. unfold vox_rsq in *. set (dl := V3 _ _ _) in *.
    apply Rltb_true in HR. split. { split; auto. unfold dot; nra. }
    assert (SP : in_space b (vsub (voxel_centre b w (vox_index g (i, j, k))) p)).
    { intros E2. destruct HP as ((_ & _ & _ & Z0 & _) & _). destruct HB as (_ & _ & B). rewrite (Z0 E2) in B. replace (0 / 2) with 0 in B by field. destruct w as [[x y] z]. cbn. rewrite (Z0 E2). unfold centre.
      assert (vz p = 0) as -> by (destruct (Rabs_le_inv _ _ B); lra). ring. }
    assert (SD : in_space b dl) by (eapply image_of_in_space; eauto; apply HP).
    destruct (ortho_wrap b dl HP HO SD) as [I1 I2]. split.
    - exists (wrap b dl). split; [|reflexivity]. eapply image_of_trans; eauto.
    - intros u Hu. apply sqrt_le_1_alt. apply I2. eapply image_of_trans; [exact Hu|]. apply image_of_sym, IM.
  Qed.
  Lemma comp_le u : Rabs (vx u) <= norm u /\ Rabs (vy u) <= norm u /\ Rabs (vz u) <= norm u.
  Proof.
    pose proof (norm_sq u) as S. pose proof (norm_pos u) as N. unfold dot in S. repeat split; apply Rabs_le; nra.
  Qed.
  Lemma hit_complete p n u : in_box b p -> in_shape (shape_of w) n -> separation b w n p u -> norm u < r -> in_each_of (safe r) b w u -> exists h, In h (vox_hits b r g p) /\ fst h = n.
  Proof using HP HO HW Hr HF.
    intros (Px & Py & Pz) SH SU NU SF. destruct dirs as (Dx & Dy & Dz). pose proof gdims as (Gx & Gy & Gz).
    assert (HF' : fits r (vx (b_L b)) (fst (fst w)) (b_px b) /\ fits r (vy (b_L b)) (snd (fst w)) (b_py b) /\ (b_2d b = false -> fits r (vz (b_L b)) (snd w) (b_pz b))) by (destruct w as [[x y] z]; exact HF).
    assert (SF' : safe r (vx u) (vx (b_L b)) (fst (fst w)) (b_px b) /\ safe r (vy u) (vy (b_L b)) (snd (fst w)) (b_py b) /\ (b_2d b = false -> safe r (vz u) (vz (b_L b)) (snd w) (b_pz b))) by (destruct w as [[x y] z]; exact SF).
    destruct HF' as (Fx & Fy & Fz). destruct SF' as (Sx & Sy & Sz). destruct (proj1 (in_shape3 w n) SH) as (nx & ny & nz & EN & N3).
    assert (N3' : (0 <= nx < fst (fst w) /\ 0 <= ny < snd (fst w) /\ 0 <= nz < snd w)%Z) by (destruct w as [[x y] z]; exact N3). destruct N3' as (Nx & Ny & Nz).
    destruct (proj1 (ortho_image b _ _ HO ltac:(apply HP)) SU) as (mx & my & mz & (Ax & Ay & Az & A2) & EU).
    destruct (comp_le u) as (Cx & Cy & Cz).
    assert (Ux : vx u = centre (vx (b_L b)) (fst (fst w)) nx - vx p + IZR mx * vx (b_L b)) by (rewrite EU, EN; destruct w as [[x y] z]; reflexivity).
    assert (Uy : vy u = centre (vy (b_L b)) (snd (fst w)) ny - vy p + IZR my * vy (b_L b)) by (rewrite EU, EN; destruct w as [[x y] z]; reflexivity).
    assert (Uz : vz u = centre (vz (b_L b)) (snd w) nz - vz p + IZR mz * vz (b_L b)) by (rewrite EU, EN; destruct w as [[x y] z]; reflexivity).
    rewrite Ux in Cx, Sx. rewrite Uy in Cy, Sy. rewrite Uz in Cz, Sz.
    destruct (dir_reach (vg_x g) r (vx p) nx mx Dx Hr) as (kx & mx' & Kx & Ex & Mx & Qx); try (rewrite Gx; cbn; auto; lra); [rewrite Gx; split; cbn; auto; discriminate|].
    destruct (dir_reach (vg_y g) r (vy p) ny my Dy Hr) as (ky & my' & Ky & Ey & My & Qy); try (rewrite Gy; cbn; auto; lra); [rewrite Gy; split; cbn; auto; discriminate|].
    destruct (dir_reach (vg_z g) r (vz p) nz mz Dz Hr) as (kz & mz' & Kz & Ez & Mz & Qz); try (rewrite Gz; cbn; auto; lra); [rewrite Gz; split; cbn; auto|].
    assert (HWin : In (kx, ky, kz) (vox_window r g p)) by (apply in_window; auto).
    assert (EI : vox_index g (kx, ky, kz) = n) by (cbn [vox_index]; rewrite Ex, Ey, Ez; auto).
    exists (vox_index g (kx, ky, kz), vox_rsq b g p (kx, ky, kz)). split; [|exact EI]. unfold vox_hits. apply in_map_iff. exists (kx, ky, kz). split; auto.
    apply filter_In. split; auto. destruct (window_image p kx ky kz ltac:(repeat split; auto) HWin) as [_ IM]. rewrite EI in IM.
    apply Rltb_true. unfold vox_rsq. set (dl := V3 (vd_delta (vg_x g) (vx p) kx) (vd_delta (vg_y g) (vy p) ky) (vd_delta (vg_z g) (vz p) kz)) in *. cbv zeta.
    assert (SD : in_space b dl).
    { intros E2. destruct HP as ((_ & _ & _ & Z0 & _) & _). rewrite (Z0 E2) in Pz. replace (0 / 2) with 0 in Pz by field. change (vd_delta (vg_z g) (vz p) kz = 0). rewrite Qz, Gz. cbn [vd_L vd_w]. rewrite (Z0 E2). unfold centre.
      assert (vz p = 0) as -> by (destruct (Rabs_le_inv _ _ Pz); lra). ring. }
    destruct (ortho_wrap b dl HP HO SD) as [_ I2]. apply Rle_lt_trans with (dot u u).
    - apply I2. eapply image_of_trans; [exact SU|]. apply image_of_sym, IM.
    - rewrite <- norm_sq. pose proof (norm_pos u). nra.
  Qed.
  Lemma hits_NoDup p : in_box b p -> in_each (narrow r) b w -> NoDup (map fst (vox_hits b r g p)).
  Proof using HP HO HW Hr HF.
    intros (Px & Py & Pz) NW. destruct dirs as (Dx & Dy & Dz). pose proof gdims as (Gx & Gy & Gz).
    assert (HF' : fits r (vx (b_L b)) (fst (fst w)) (b_px b) /\ fits r (vy (b_L b)) (snd (fst w)) (b_py b) /\ (b_2d b = false -> fits r (vz (b_L b)) (snd w) (b_pz b))) by (destruct w as [[x y] z]; exact HF).
    assert (NW' : narrow r (vx (b_L b)) (fst (fst w)) (b_px b) /\ narrow r (vy (b_L b)) (snd (fst w)) (b_py b) /\ (b_2d b = false -> narrow r (vz (b_L b)) (snd w) (b_pz b))) by (destruct w as [[x y] z]; exact NW).
    destruct HF' as (Fx & Fy & Fz). destruct NW' as (Nx & Ny & Nz). unfold vox_hits. rewrite map_map. cbn [fst].
    assert (ND : NoDup (vox_window r g p)).
    { unfold vox_window. apply NoDup_flat_map; [apply dir_span_NoDup| |].
      - intros k _. apply NoDup_flat_map; [apply dir_span_NoDup| |].
        + intros j _. apply FinFun.Injective_map_NoDup; [intros ? ? E; congruence|apply dir_span_NoDup].
        + intros j j' t _ _ H H'. apply in_map_iff in H as (? & <- & _). apply in_map_iff in H' as (? & E & _). congruence.
      - intros k k' t _ _ H H'. apply in_flat_map in H as (? & _ & H). apply in_flat_map in H' as (? & _ & H'). apply in_map_iff in H as (? & <- & _). apply in_map_iff in H' as (? & E & _). congruence. }
    apply NoDup_map_on; [apply NoDup_filter, ND|]. intros [[i j] k] [[i' j'] k'] H H' E. apply filter_In in H as [H _]. apply filter_In in H' as [H' _].
    apply in_window in H as (Hi & Hj & Hk). apply in_window in H' as (Hi' & Hj' & Hk'). cbn [vox_index] in E. injection E as E1 E2 E3.
    assert (i = i') by (apply (dir_inj (vg_x g) r (vx p)); auto; rewrite Gx; cbn; auto). assert (j = j') by (apply (dir_inj (vg_y g) r (vy p)); auto; rewrite Gy; cbn; auto).
    assert (k = k') by (apply (dir_inj (vg_z g) r (vz p)); auto; rewrite Gz; cbn; auto). congruence.
  Qed.
End grid.
