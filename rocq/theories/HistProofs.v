From Verif Require Import RBase HistModel HistSpec MArrayProofs ParProofs.
Open Scope Z_scope.

(** ** One axis *)
Lemma width_pos a : valid_axis a -> (0 < bin_width a)%R.
Proof.
  intros (Hn & Hm). unfold bin_width. apply Rdiv_lt_0_compat; [lra|]. apply IZR_lt. lia.
Qed.

Lemma edge_interval a i : bin_edge a i = interval_lo a i.
Proof. reflexivity. Qed.

Lemma interval_first a : interval_lo a 0 = ax_min a.
Proof. unfold interval_lo. simpl. ring. Qed.
Lemma interval_last a : valid_axis a -> interval_lo a (ax_n a) = ax_max a.
Proof.
  intros (Hn & _). unfold interval_lo. field. apply not_0_IZR. lia.
Qed.
Lemma interval_mono a i j : valid_axis a -> i < j -> (interval_lo a i < interval_lo a j)%R.
Proof.
  intros H Hij. pose proof (width_pos a H) as W. unfold interval_lo. fold (bin_width a).
  apply IZR_lt in Hij. nra.
Qed.
Lemma interval_mono_le a i j : valid_axis a -> i <= j -> (interval_lo a i <= interval_lo a j)%R.
Proof.
  intros H Hij. destruct (Z.eq_dec i j) as [->|]; [lra|]. apply Rlt_le, interval_mono; auto; lia.
Qed.

Lemma interval_unique a i j v : valid_axis a ->
  (interval_lo a i <= v < interval_lo a (i + 1))%R -> (interval_lo a j <= v < interval_lo a (j + 1))%R -> i = j.
Proof.
  intros H (A1 & A2) (B1 & B2).
  destruct (Z.lt_trichotomy i j) as [L|[E|L]]; auto; exfalso.
  - assert (interval_lo a (i + 1) <= interval_lo a j)%R by (apply interval_mono_le; auto; lia). lra.
  - assert (interval_lo a (j + 1) <= interval_lo a i)%R by (apply interval_mono_le; auto; lia). lra.
Qed.

Lemma axis_bin_in a v : valid_axis a -> (ax_min a <= v < ax_max a)%R ->
  let i := axis_bin a v in 0 <= i < ax_n a /\ (interval_lo a i <= v < interval_lo a (i + 1))%R.
Proof.
  intros H (V1 & V2). assert (H' := H). destruct H' as (Hn & Hm). pose proof (width_pos a H) as W.
  cbv zeta. unfold axis_bin.
  destruct (Rltb_spec v (ax_min a)); [lra|]. destruct (Rleb_spec (ax_max a) v); [lra|]. simpl.
  set (x := ((v - ax_min a) * inverse_bin_width a)%R).
  assert (Ex : (x * bin_width a = v - ax_min a)%R) by (unfold x, inverse_bin_width; field; lra).
  assert (Hx0 : (0 <= x)%R) by (destruct (Rle_dec 0 x); auto; nra).
  assert (HnW : (IZR (ax_n a) * bin_width a = ax_max a - ax_min a)%R).
  { unfold bin_width. field. apply not_0_IZR. lia. }
  assert (Hxn : (x < IZR (ax_n a))%R) by nra.
  rewrite Ztrunc_floor by auto.
  pose proof (Zfloor_bounds x) as [F1 F2].
  assert (B1 : 0 <= Zfloor x). { apply le_IZR. apply Rnot_lt_le. intros L. assert (IZR (Zfloor x) + 1 <= 0)%R.
    { rewrite <- plus_IZR. apply IZR_le. apply lt_IZR in L. lia. } lra. }
  assert (B2 : Zfloor x < ax_n a) by (apply lt_IZR; lra).
  destruct (Z.eqb_spec (Zfloor x) (ax_n a)); [lia|].
  split; [lia|]. unfold interval_lo. fold (bin_width a). rewrite plus_IZR. nra.
Qed.

Lemma axis_bin_out a v : ~ (ax_min a <= v < ax_max a)%R -> axis_bin a v = OVERFLOW_BIN.
Proof.
  intros H. unfold axis_bin. destruct (Rltb_spec v (ax_min a)); auto.
  destruct (Rleb_spec (ax_max a) v); auto. exfalso. apply H. lra.
Qed.

Lemma bin_edges_length a : 0 <= ax_n a -> length (bin_edges a) = S (Z.to_nat (ax_n a)).
Proof. intros. unfold bin_edges. rewrite map_length, seq_length. reflexivity. Qed.
Lemma bin_edges_nth a i : 0 <= i <= ax_n a -> nth (Z.to_nat i) (bin_edges a) 0%R = interval_lo a i.
Proof.
  intros Hi. unfold bin_edges.
  rewrite (nth_indep _ 0%R (bin_edge a (Z.of_nat 0))) by (rewrite map_length, seq_length; lia).
  rewrite (map_nth (fun i => bin_edge a (Z.of_nat i))). rewrite seq_nth by lia. simpl. rewrite Z2Nat.id by lia. reflexivity.
Qed.
Lemma bin_centers_length a : length (bin_centers a) = Z.to_nat (ax_n a).
Proof. unfold bin_centers. rewrite map_length, seq_length. reflexivity. Qed.
Lemma bin_centers_nth a i : 0 <= i < ax_n a ->
  nth (Z.to_nat i) (bin_centers a) 0%R = ((interval_lo a i + interval_lo a (i + 1)) / 2)%R.
Proof.
  intros Hi. unfold bin_centers. set (f := fun i : nat => _).
  rewrite (nth_indep _ 0%R (f 0%nat)) by (rewrite map_length, seq_length; lia).
  rewrite (map_nth f). rewrite seq_nth by lia. unfold f. rewrite Nat.add_0_l.
  replace (Z.to_nat i + 1)%nat with (Z.to_nat (i + 1)) by lia.
  rewrite !bin_edges_nth by lia. reflexivity.
Qed.

(** ** Several axes *)
Lemma in_cell_in_shape axes vals idx : in_cell axes vals idx -> in_shape (map ax_n axes) idx.
Proof. induction 1; simpl; constructor; auto. Qed.

Lemma in_cell_unique axes vals i j : Forall valid_axis axes -> in_cell axes vals i -> in_cell axes vals j -> i = j.
Proof.
  intros HV Hi. revert j. induction Hi as [|a axes v vals i idx Hr Hv Hi IH]; intros j Hj; inversion Hj; subst; auto.
  inversion HV; subst. f_equal; [eapply interval_unique; eauto|auto].
Qed.

Lemma axes_bins_spec axes : forall vals, Forall valid_axis axes -> length vals = length axes ->
  match axes_bins axes vals with
  | Some idx => in_cell axes vals idx
  | None => ~ in_range axes vals
  end.
Proof.
  induction axes as [|a axes IH]; intros [|v vals] HV HL; simpl in *; try discriminate.
  - constructor.
  - inversion HV as [|? ? Ha HVs]; subst. specialize (IH vals HVs ltac:(lia)).
    destruct (Rle_dec (ax_min a) v) as [A|A].
    1: destruct (Rlt_dec v (ax_max a)) as [B|B].
    + destruct (axis_bin_in a v Ha (conj A B)) as [I1 I2]; cbv zeta in *.
      destruct (Z.eqb_spec (axis_bin a v) OVERFLOW_BIN) as [E|E].
      { exfalso. destruct Ha as [? _]. lia. }
      destruct (axes_bins axes vals).
      * constructor; auto.
      * intros HR. inversion HR; subst. auto.
    + rewrite axis_bin_out by lra. rewrite Z.eqb_refl. intros HR; inversion HR; subst. lra.
    + rewrite axis_bin_out by lra. rewrite Z.eqb_refl. intros HR; inversion HR; subst. lra.
Qed.

Lemma in_cell_in_range axes vals idx : Forall valid_axis axes -> in_cell axes vals idx -> in_range axes vals.
Proof.
  intros HV H. induction H as [|a axes v vals i idx Hr Hv Hi IH]; [constructor|].
  inversion HV; subst. constructor; [|apply IH; auto].
  pose proof (interval_mono_le a 0 i ltac:(auto) ltac:(lia)). pose proof (interval_mono_le a (i + 1) (ax_n a) ltac:(auto) ltac:(lia)).
  rewrite interval_first in *. rewrite interval_last in * by auto. lra.
Qed.

Lemma in_cellb_iff axes : forall idx vals, in_shape (map ax_n axes) idx ->
  (in_cellb axes idx vals = true <-> in_cell axes vals idx).
Proof.
  unfold in_cellb. induction axes as [|a axes IH]; intros idx vals HS; inversion HS; subst.
  - destruct vals; simpl; split; intros H; try discriminate; auto; [constructor|inversion H].
  - destruct vals as [|v vals]; simpl.
    + split; intros H; [discriminate|inversion H].
    + rename l' into idx'. rename y into i. specialize (IH idx' vals ltac:(auto)).
      assert (EQ : Nat.eqb (length axes) (length idx') = true).
      { apply Nat.eqb_eq. apply in_shape_length in H3. rewrite map_length in H3. auto. }
      rewrite EQ in *. rewrite andb_true_r in *. split; intros H.
      * apply andb_true_iff in H as [H1' H2']. apply andb_true_iff in H2' as [H2' H3'].
        apply andb_true_iff in H2' as [HA HB]. apply Rleb_true in HA. apply Rltb_true in HB.
        constructor; auto. apply IH. rewrite H1', H3'. auto.
      * inversion H; subst. assert (IH' := proj2 IH ltac:(assumption)). apply andb_true_iff in IH' as [I1 I2].
        rewrite I1, I2. simpl. rewrite (proj2 (Rleb_true _ _)) by lra. rewrite (proj2 (Rltb_true _ _)) by lra. auto.
Qed.

Lemma in_rangeb_iff axes : forall vals, in_rangeb axes vals = true <-> in_range axes vals.
Proof.
  unfold in_rangeb. induction axes as [|a axes IH]; intros [|v vals]; simpl; split; intros H; try discriminate; auto;
    try constructor; try inversion H; subst.
  - apply andb_true_iff in H as [A B]. apply andb_true_iff in B as [B C]. apply andb_true_iff in B as [B D].
    apply Rleb_true in B. apply Rltb_true in D. lra.
  - apply andb_true_iff in H as [A B]. apply andb_true_iff in B as [B C]. apply IH. rewrite A, C. auto.
  - assert (I := proj2 (IH vals) ltac:(assumption)). apply andb_true_iff in I as [I1 I2]. rewrite I1, I2.
    rewrite (proj2 (Rleb_true _ _)) by lra. rewrite (proj2 (Rltb_true _ _)) by lra. auto.
Qed.

(** ** Pure view of arrays *)
Section Pure.
  Context {T : Type} (zero : T) (op : T -> T -> T).

  Definition addat (l : list T) (k : nat) (w : T) : list T := upd l k (op (nth k l zero) w).

  Lemma addat_length l k w : length (addat l k w) = length l.
  Proof. apply upd_length. Qed.
  Lemma nth_upd (l : list T) k j x : (k < length l)%nat -> nth j (upd l k x) zero = if Nat.eqb j k then x else nth j l zero.
  Proof.
    revert k j. induction l as [|y l IH]; intros [|k] [|j] H; simpl in *; auto; try lia. apply IH. lia.
  Qed.
  Lemma nth_addat l k j w : (k < length l)%nat ->
    nth j (addat l k w) zero = if Nat.eqb j k then op (nth k l zero) w else nth j l zero.
  Proof. intros. unfold addat. apply nth_upd; auto. Qed.

  Lemma ma_get_nth (a : marray T) k : well_formed a -> (k < Z.to_nat (ma_size a))%nat ->
    ma_get a (Z.of_nat k) = Some (nth k (ma_data a) zero).
  Proof.
    intros (HV & Hs & Hl) Hk. unfold ma_get.
    destruct (Z.ltb_spec (Z.of_nat k) 0); [lia|]. destruct (Z.leb_spec (ma_size a) (Z.of_nat k)); [lia|]. simpl.
    rewrite Nat2Z.id. apply nth_error_nth'. lia.
  Qed.
  Lemma ma_set_upd (a : marray T) k x : well_formed a -> (k < Z.to_nat (ma_size a))%nat ->
    ma_set a (Z.of_nat k) x = Some (MArray (ma_shape a) (ma_size a) (upd (ma_data a) k x)).
  Proof.
    intros (HV & Hs & Hl) Hk. unfold ma_set.
    destruct (Z.ltb_spec (Z.of_nat k) 0); [lia|]. destruct (Z.leb_spec (ma_size a) (Z.of_nat k)); [lia|]. simpl.
    rewrite Nat2Z.id. reflexivity.
  Qed.
  Lemma wf_upd (a : marray T) k x : well_formed a -> well_formed (MArray (ma_shape a) (ma_size a) (upd (ma_data a) k x)).
  Proof. intros (HV & Hs & Hl). unfold well_formed; simpl. rewrite upd_length. auto. Qed.
  Lemma ma_reset_wf (a : marray T) : well_formed a -> well_formed (ma_reset zero a).
  Proof. intros (HV & Hs & Hl). unfold well_formed, ma_reset; simpl. rewrite repeat_length. auto. Qed.
  Lemma ma_reset_nth (a : marray T) k : nth k (ma_data (ma_reset zero a)) zero = zero.
  Proof. unfold ma_reset; simpl. apply nth_repeat. Qed.

  (** histograms over fixed axes *)
  Context (axes : list axis) (HV : valid_axes axes).
  Definition shape_ := map ax_n axes.
  Definition size_ := Z.to_nat (size_of shape_).

  Definition good (h : hist T) : Prop :=
    h_axes h = axes /\ well_formed (h_counts h) /\ ma_shape (h_counts h) = shape_.

  Lemma valid_shape_ : valid_shape shape_.
  Proof.
    destruct HV as [HA _]. unfold valid_shape, shape_. induction HA as [|a l Ha HA IH]; simpl; constructor; auto.
    - destruct Ha as [? _]. lia.
    - apply IH. destruct HV as [HA' Hs]; inversion HA'; subst. split; auto.
      simpl in Hs. destruct Ha as [? _]. assert (1 <= size_of (map ax_n l)).
      { clear -HA. induction HA as [|a l Ha HA IH]; simpl; [lia|]. destruct Ha as [? _]. nia. }
      unfold OVERFLOW_BIN in *. nia.
  Qed.

  Lemma good_make : good (hist_make zero axes).
  Proof. split; [reflexivity|]. split; [|reflexivity]. apply ma_make_wf. apply valid_shape_. Qed.
  Lemma good_reset h : good h -> good (hist_reset zero h).
  Proof. intros (A & B & C). split; auto. split; [apply ma_reset_wf; auto|auto]. Qed.
  Lemma good_size h : good h -> ma_size (h_counts h) = size_of shape_.
  Proof. intros (A & (B1 & B2 & B3) & C). rewrite B2, C. reflexivity. Qed.
  Lemma good_length h : good h -> length (ma_data (h_counts h)) = size_.
  Proof. intros G. assert (S := good_size h G). destruct G as (A & (B1 & B2 & B3) & C). rewrite B3, S. reflexivity. Qed.

  Definition data (h : hist T) : list T := ma_data (h_counts h).

  (** linear bin of a sample, if any *)
  Definition lin (vals : list R) : option nat :=
    match axes_bins axes vals with None => None | Some idx => Some (Z.to_nat (row_major shape_ idx)) end.

  Lemma lin_bound vals k : length vals = length axes -> lin vals = Some k -> (k < size_)%nat.
  Proof.
    intros HL. unfold lin. destruct HV as [HA _]. pose proof (axes_bins_spec axes vals HA HL) as S.
    destruct (axes_bins axes vals) as [idx|]; [|discriminate]. intros E; injection E as <-.
    apply in_cell_in_shape in S. apply row_major_range in S. unfold size_, shape_. lia.
  Qed.

  Lemma hist_bin_lin h vals : good h -> length vals = length axes ->
    hist_bin h vals = Some (match lin vals with None => OVERFLOW_BIN | Some k => Z.of_nat k end).
  Proof.
    intros (A & B & C) HL. unfold hist_bin, lin. rewrite A, HL, Nat.eqb_refl, C. simpl.
    destruct HV as [HA _]. pose proof (axes_bins_spec axes vals HA HL) as S.
    destruct (axes_bins axes vals) as [idx|]; auto.
    apply in_cell_in_shape in S. fold shape_ in S. rewrite (get_index_in_range _ _ S).
    apply row_major_range in S. rewrite Z2Nat.id by lia. reflexivity.
  Qed.

  Lemma hist_add_pure h vals w : good h -> length vals = length axes ->
    exists h', hist_add op h vals w = Some h' /\ good h' /\
      data h' = match lin vals with None => data h | Some k => addat (data h) k w end.
  Proof.
    intros G HL. unfold hist_add. rewrite (hist_bin_lin h vals G HL). simpl. unfold hist_increment.
    destruct (lin vals) as [k|] eqn:E.
    - apply lin_bound in E; auto. assert (S := good_size h G). unfold size_ in E.
      destruct (Z.eqb_spec (Z.of_nat k) OVERFLOW_BIN) as [EO|EO].
      { exfalso. destruct HV as [_ Hs]. fold shape_ in Hs. lia. }
      assert (G' := G). destruct G' as (A & B & C).
      rewrite ma_get_nth by (auto; rewrite S; lia). simpl.
      rewrite ma_set_upd by (auto; rewrite S; lia). simpl.
      eexists; split; [reflexivity|]. split; [|reflexivity].
      split; auto. split; [apply wf_upd; auto|auto].
    - rewrite Z.eqb_refl. exists h; auto.
  Qed.

  (** weights landing in linear bin k *)
  Definition at_bin (k : nat) (s : list R * T) : bool :=
    match lin (fst s) with Some j => Nat.eqb k j | None => false end.
  Definition wts (k : nat) (samples : list (list R * T)) : list T := map snd (filter (at_bin k) samples).

  Lemma wts_app k a b : wts k (a ++ b) = wts k a ++ wts k b.
  Proof. unfold wts. rewrite filter_app, map_app. reflexivity. Qed.
  Lemma wts_perm k a b : Permutation a b -> Permutation (wts k a) (wts k b).
  Proof.
    intros H. unfold wts. apply Permutation_map. induction H; simpl; auto.
    - destruct (at_bin k x); auto.
    - destruct (at_bin k x), (at_bin k y); auto. constructor.
    - etransitivity; eauto.
  Qed.

  Definition arity (samples : list (list R * T)) : Prop := forall s, In s samples -> length (fst s) = length axes.

  Lemma hist_add_all_pure samples : forall h, good h -> arity samples ->
    exists h', hist_add_all op samples h = Some h' /\ good h' /\
      forall k, (k < size_)%nat -> nth k (data h') zero = fold_left op (wts k samples) (nth k (data h) zero).
  Proof.
    unfold hist_add_all. induction samples as [|s samples IH]; intros h G HA; simpl.
    - exists h; auto.
    - destruct (hist_add_pure h (fst s) (snd s) G) as (h1 & E1 & G1 & D1); [apply HA; left; auto|].
      rewrite E1. destruct (IH h1 G1) as (h2 & E2 & G2 & D2); [intros x Hx; apply HA; right; auto|].
      exists h2. split; auto. split; auto. intros k Hk. rewrite D2 by auto. unfold wts at 2; simpl.
      unfold at_bin. destruct (lin (fst s)) as [j|] eqn:E; rewrite D1; auto.
      apply lin_bound in E; [|apply HA; left; auto].
      rewrite nth_addat by (unfold data; rewrite good_length; auto).
      destruct (Nat.eqb_spec k j) as [->|]; reflexivity.
  Qed.

  (** relation with the specification's cells *)
  Lemma at_bin_cell idx s : in_shape shape_ idx -> length (fst s) = length axes ->
    at_bin (Z.to_nat (row_major shape_ idx)) s = in_cellb axes idx (fst s).
  Proof.
    intros HS HL. unfold at_bin, lin. destruct HV as [HA _].
    pose proof (axes_bins_spec axes (fst s) HA HL) as S.
    destruct (in_cellb axes idx (fst s)) eqn:E.
    - apply in_cellb_iff in E; auto. destruct (axes_bins axes (fst s)) as [idx'|].
      + rewrite (in_cell_unique axes _ _ _ HA S E). apply Nat.eqb_refl.
      + exfalso. apply S. eapply in_cell_in_range; eauto.
    - destruct (axes_bins axes (fst s)) as [idx'|]; auto.
      apply Nat.eqb_neq. intros EQ. assert (in_shape shape_ idx') by (apply in_cell_in_shape in S; auto).
      pose proof (row_major_range _ _ HS). pose proof (row_major_range _ _ H).
      assert (row_major shape_ idx = row_major shape_ idx') by lia.
      apply row_major_inj in H2; auto. subst. apply in_cellb_iff in S; auto. congruence.
  Qed.

  Lemma wts_cell idx samples : in_shape shape_ idx -> arity samples ->
    wts (Z.to_nat (row_major shape_ idx)) samples = weights_in axes idx samples.
  Proof.
    intros HS HA. unfold wts, weights_in. f_equal. apply filter_ext_in. intros s Hs. apply at_bin_cell; auto.
  Qed.

  (** every linear bin is the image of a multi-index *)
  Lemma lin_idx k : (k < size_)%nat -> exists idx, in_shape shape_ idx /\ Z.to_nat (row_major shape_ idx) = k.
  Proof.
    intros Hk. unfold size_ in Hk.
    destruct (multi_loop_spec shape_ (Z.of_nat k)) as [A B].
    - apply size_pos_all; [apply valid_shape_|lia].
    - lia.
    - exists (multi_loop shape_ (size_of shape_) (Z.of_nat k)). split; auto. rewrite B. lia.
  Qed.

  Lemma list_nth_ext (l l' : list T) : length l = length l' -> (forall k, (k < length l)%nat -> nth k l zero = nth k l' zero) -> l = l'.
  Proof. intros. eapply nth_ext; eauto. Qed.

  (** ** Reduction *)
  Lemma reduce_one_pure ls : forall r k, well_formed r -> (k < Z.to_nat (ma_size r))%nat ->
    Forall (fun a => well_formed a /\ ma_size a = ma_size r) ls ->
    reduce_one op ls (Z.of_nat k) r =
    Some (MArray (ma_shape r) (ma_size r) (upd (ma_data r) k
          (fold_left op (map (fun a => nth k (ma_data a) zero) ls) (nth k (ma_data r) zero)))).
  Proof.
    unfold reduce_one. induction ls as [|a ls IH]; intros r k Hr Hk HF; simpl.
    - f_equal. destruct r as [sh sz d]; simpl. f_equal. symmetry.
      apply list_nth_ext; [apply upd_length|]. intros j Hj. rewrite upd_length in Hj.
      destruct Hr as (_ & _ & Hl); simpl in *. rewrite nth_upd by lia.
      destruct (Nat.eqb_spec j k) as [->|]; auto.
    - inversion HF as [|? ? [Ha Has] HFs]; subst.
      rewrite (ma_get_nth r k) by auto. simpl. rewrite (ma_get_nth a k) by (auto; rewrite Has; auto). simpl.
      rewrite ma_set_upd by auto.
      rewrite IH; simpl; auto; [|apply wf_upd; auto].
      f_equal. f_equal. destruct Hr as (_ & _ & Hl). simpl.
      rewrite (nth_upd (ma_data r)) by lia. rewrite Nat.eqb_refl.
      apply list_nth_ext; [rewrite !upd_length; auto|]. intros j Hj. rewrite !upd_length in Hj.
      rewrite !nth_upd by (rewrite ?upd_length; lia). destruct (Nat.eqb_spec j k); auto.
  Qed.

  Lemma reduce_events_pure ls ev : forall r, well_formed r ->
    Forall (fun a => well_formed a /\ ma_size a = ma_size r) ls ->
    (forall e, In e ev -> (snd e < Z.to_nat (ma_size r))%nat) -> NoDup (map snd ev) ->
    exists r', reduce_events op ls ev r = Some r' /\ well_formed r' /\ ma_shape r' = ma_shape r /\ ma_size r' = ma_size r /\
      forall k, (k < Z.to_nat (ma_size r))%nat ->
        nth k (ma_data r') zero =
        if in_dec Nat.eq_dec k (map snd ev)
        then fold_left op (map (fun a => nth k (ma_data a) zero) ls) (nth k (ma_data r) zero)
        else nth k (ma_data r) zero.
  Proof.
    unfold reduce_events. induction ev as [|e ev IH]; intros r Hr HF HB HN; simpl.
    - exists r. repeat (split; [auto|]). auto.
    - rewrite reduce_one_pure by (auto; apply HB; left; auto).
      inversion HN as [|? ? Hnot HNs]; subst.
      match goal with |- context [Some ?q] => set (r1 := q) end.
      assert (Hr1 : well_formed r1) by (apply wf_upd; auto).
      destruct (IH r1 Hr1) as (r' & E & W & S1 & S2 & D); auto.
      { intros e' He'. apply (HB e'). right; auto. }
      exists r'. split; [exact E|]. split; auto. split; [rewrite S1; reflexivity|]. split; [rewrite S2; reflexivity|].
      intros k Hk. rewrite D by auto.
      destruct Hr as (_ & _ & Hl).
      assert (He : (snd e < Z.to_nat (ma_size r))%nat) by (apply HB; left; auto).
      assert (N : nth k (ma_data r1) zero = if Nat.eqb k (snd e) then
         fold_left op (map (fun a => nth (snd e) (ma_data a) zero) ls) (nth (snd e) (ma_data r) zero) else nth k (ma_data r) zero).
      { unfold r1; simpl. apply nth_upd. lia. }
      rewrite N.
      destruct (in_dec Nat.eq_dec k (map snd ev)) as [I|I].
      + destruct (Nat.eqb_spec k (snd e)) as [->|Ne]; [contradiction|].
        destruct (Nat.eq_dec (snd e) k); [congruence|]. destruct (in_dec Nat.eq_dec k (map snd ev)); [auto|contradiction].
      + destruct (Nat.eqb_spec k (snd e)) as [->|Ne].
        * destruct (Nat.eq_dec (snd e) (snd e)); [auto|congruence].
        * destruct (Nat.eq_dec (snd e) k); [congruence|]. destruct (in_dec Nat.eq_dec k (map snd ev)); [contradiction|auto].
  Qed.

  Lemma reduce_full ls r ev : well_formed r ->
    Forall (fun a => well_formed a /\ ma_size a = ma_size r) ls ->
    execution 0 (Z.to_nat (ma_size r)) ev ->
    exists r', reduce_events op ls ev r = Some r' /\ well_formed r' /\ ma_shape r' = ma_shape r /\ ma_size r' = ma_size r /\
      forall k, (k < Z.to_nat (ma_size r))%nat ->
        nth k (ma_data r') zero = fold_left op (map (fun a => nth k (ma_data a) zero) ls) (nth k (ma_data r) zero).
  Proof.
    intros Hr HF HE. apply execution_perm in HE. set (n := Z.to_nat (ma_size r)) in *.
    destruct (reduce_events_pure ls ev r Hr HF) as (r' & E & W & S1 & S2 & D).
    - intros e He. assert (I : In (snd e) (range 0 n)) by (eapply Permutation_in; [exact HE|]; apply in_map; auto).
      unfold range in I. apply in_seq in I. fold n. lia.
    - eapply Permutation_NoDup; [symmetry; exact HE|]. apply seq_NoDup.
    - exists r'. repeat (split; [auto|]). intros k Hk. rewrite D by auto.
      destruct (in_dec Nat.eq_dec k (map snd ev)) as [|I]; auto. exfalso. apply I.
      eapply Permutation_in; [symmetry; exact HE|]. unfold range. apply in_seq. fold n in Hk. lia.
  Qed.

  (** ** Thread-local accumulation *)
  Definition lgood (ls : locals (option (hist T))) : Prop :=
    Forall (fun tl => exists h, snd tl = Some h /\ good h) ls.
  Definition lvals (k : nat) (ls : locals (option (hist T))) : list T :=
    map (fun tl => match snd tl with Some h => nth k (data h) zero | None => zero end) ls.

  Hypothesis laws : sum_laws zero op.
  Let assoc := proj1 laws. Let comm := proj1 (proj2 laws). Let unit := proj2 (proj2 laws).
  Notation tot := (total zero op).

  Lemma data_make k : nth k (data (hist_make zero axes)) zero = zero.
  Proof. unfold data, hist_make, ma_make; simpl. apply nth_repeat. Qed.

  Lemma local_update_pure t samples ls : lgood ls -> arity samples ->
    let ls' := local_update (Some (hist_make zero axes)) (fun o => bind o (hist_add_all op samples)) t ls in
    lgood ls' /\ forall k, (k < size_)%nat -> tot (lvals k ls') = op (tot (lvals k ls)) (tot (wts k samples)).
  Proof.
    intros HG HA. cbv zeta. induction HG as [|[t' o] ls (h & E & G) HG IH].
    - destruct (hist_add_all_pure samples (hist_make zero axes) good_make HA) as (h & E & G & D).
      simpl. rewrite E. split; [constructor; [exists h; auto|constructor]|].
      intros k Hk. unfold lvals. simpl. rewrite D by auto. rewrite data_make.
      rewrite (total_one zero op unit). symmetry. apply unit.
    - simpl in E; subst o. simpl. destruct (Nat.eqb_spec t t') as [->|Ht].
      + destruct (hist_add_all_pure samples h G HA) as (h' & E & G' & D). simpl. rewrite E.
        split; [constructor; [exists h'; auto|auto]|].
        intros k Hk. unfold lvals. simpl. rewrite D by auto.
        rewrite !(total_cons zero op assoc comm unit). rewrite (fold_total zero op assoc comm unit).
        rewrite <- !assoc. f_equal. apply comm.
      + destruct IH as [IH1 IH2]. split; [constructor; [exists h; auto|exact IH1]|].
        intros k Hk. unfold lvals in *; simpl. rewrite !(total_cons zero op assoc comm unit), IH2 by auto. apply assoc.
  Qed.

  Lemma accumulate_pure (samples : nat -> list (list R * T)) ev : forall ls, lgood ls ->
    (forall i, arity (samples i)) ->
    let ls' := accumulate zero op axes samples ev ls in
    lgood ls' /\ forall k, (k < size_)%nat ->
      tot (lvals k ls') = op (tot (lvals k ls)) (tot (wts k (flat_map samples (map snd ev)))).
  Proof.
    unfold accumulate, run_local. induction ev as [|e ev IH]; intros ls HG HA; simpl.
    - split; auto. intros k Hk. unfold wts; simpl. unfold total at 3; simpl. rewrite comm, unit. reflexivity.
    - destruct (local_update_pure (fst e) (samples (snd e)) ls HG (HA _)) as [G1 D1].
      destruct (IH _ G1 HA) as [G2 D2]. split; auto. intros k Hk. rewrite D2, D1 by auto.
      rewrite wts_app, (total_app zero op assoc comm unit). symmetry. apply assoc.
  Qed.

  Lemma flat_map_perm {A B} (f : A -> list B) l l' : Permutation l l' -> Permutation (flat_map f l) (flat_map f l').
  Proof.
    induction 1; simpl; auto.
    - apply Permutation_app_head; auto.
    - rewrite !app_assoc. apply Permutation_app_tail. apply Permutation_app_comm.
    - etransitivity; eauto.
  Qed.

  Lemma accumulate_range (samples : nat -> list (list R * T)) n ev ls : lgood ls ->
    (forall i, arity (samples i)) -> execution 0 n ev ->
    let ls' := accumulate zero op axes samples ev ls in
    lgood ls' /\ forall k, (k < size_)%nat ->
      tot (lvals k ls') = op (tot (lvals k ls)) (tot (wts k (flat_map samples (range 0 n)))).
  Proof.
    intros HG HA HE. destruct (accumulate_pure samples ev ls HG HA) as [G D]. cbv zeta in *. split; auto.
    intros k Hk. rewrite D by auto. f_equal. apply total_perm; auto.
    apply wts_perm, flat_map_perm, execution_perm; auto.
  Qed.

  Lemma collect_good ls : lgood ls -> exists l, collect ls = Some l /\
    Forall (fun a => well_formed a /\ ma_size a = size_of shape_) l /\
    forall k, map (fun a => nth k (ma_data a) zero) l = lvals k ls.
  Proof.
    induction 1 as [|[t o] ls (h & E & G) HG IH]; simpl.
    - exists []. split; auto.
    - simpl in E; subst o. destruct IH as (l & E & F & M). rewrite E. simpl.
      exists (h_counts h :: l). split; auto. split.
      + constructor; auto. split; [apply G|apply good_size; auto].
      + intros k. simpl. rewrite M. reflexivity.
  Qed.

  (** ** Reading *)
  Lemma tlh_reduce_good ls l h ev : lgood ls -> collect ls = Some l -> good h ->
    execution 0 size_ ev ->
    exists c, tlh_reduce_into zero op l ev (h_counts h) = Some c /\ good (Hist (h_axes h) c) /\
      forall k, (k < size_)%nat -> nth k (ma_data c) zero = tot (lvals k ls).
  Proof.
    intros HG HC G HE. destruct (collect_good ls HG) as (l' & E & F & M). rewrite HC in E; injection E as <-.
    assert (S := good_size h G). assert (G' := G). destruct G' as (A & B & C).
    unfold tlh_reduce_into.
    destruct (reduce_full l (ma_reset zero (h_counts h)) ev) as (c & E & W & S1 & S2 & D).
    - apply ma_reset_wf; auto.
    - simpl. rewrite S. exact F.
    - simpl. rewrite S. exact HE.
    - exists c. split; auto. split.
      + split; auto. split; auto. simpl. rewrite S1. simpl. auto.
      + intros k Hk. rewrite D by (simpl; rewrite S; auto). rewrite ma_reset_nth, M. reflexivity.
  Qed.

  (** ** Histories (C17) *)
  Context {F : Type}.
  Definition all_samples (fs : list (frame T F)) : list (list R * T) := flat_map frame_samples fs.

  Definition inv (s : bhc T F) (fs : list (frame T F)) : Prop :=
    bhc_axes s = axes /\ good (bhc_hist s) /\ lgood (bhc_locals s) /\ bhc_frames s = length fs /\
    (forall k, (k < size_)%nat -> tot (lvals k (bhc_locals s)) = tot (wts k (all_samples fs))) /\
    (bhc_reduce s = false -> forall k, (k < size_)%nat -> nth k (data (bhc_hist s)) zero = tot (wts k (all_samples fs))).

  Lemma inv_make : inv (bhc_make zero axes) [].
  Proof.
    split; [reflexivity|]. split; [apply good_make|]. split; [constructor|]. split; [reflexivity|].
    split; [intros; reflexivity|]. discriminate.
  Qed.

  Lemma lvals_reset k ls : lgood ls ->
    tot (lvals k (map (fun tl => (fst tl, option_map (hist_reset zero) (snd tl))) ls)) = zero.
  Proof.
    induction 1 as [|[t o] ls (h & E & G) HG IH]; simpl; auto.
    simpl in E; subst o. unfold lvals in *; simpl. rewrite (total_cons zero op assoc comm unit), IH.
    unfold data; simpl. rewrite nth_repeat. apply unit.
  Qed.

  Lemma inv_reset s fs : inv s fs -> inv (bhc_reset zero s) [].
  Proof.
    intros (A & G & L & N & D & R). split; [exact A|]. split.
    { simpl. destruct G as (GA & _). rewrite GA. apply good_make. }
    split.
    { simpl. clear -L HV. induction L as [|[t o] ls (h & E & G) HG IH]; simpl; constructor; auto.
      simpl in E; subst o. simpl. exists (hist_reset zero h). split; auto. apply good_reset; auto. }
    split; [reflexivity|]. split; [|discriminate].
    intros k Hk. simpl. rewrite lvals_reset by auto. reflexivity.
  Qed.

  Lemma inv_accumulate s fs f : inv s fs -> valid_frame axes f -> inv (bhc_accumulate zero op s f) (fs ++ [f]).
  Proof.
    intros (A & G & L & N & D & R) (HE & HA). split; [exact A|]. split; [exact G|].
    destruct (accumulate_range (fr_samples f) (fr_n f) (fr_ev f) (bhc_locals s) L (fun i s Hs => HA i s Hs) HE) as [G2 D2].
    cbv zeta in *. split; [simpl; rewrite A; exact G2|]. split; [simpl; rewrite app_length; simpl; lia|].
    split; [|discriminate].
    intros k Hk. simpl. rewrite A, D2, D by auto. unfold all_samples. rewrite flat_map_app, wts_app.
    rewrite (total_app zero op assoc comm unit). simpl. rewrite app_nil_r. reflexivity.
  Qed.

  Lemma inv_read s fs ev : inv s fs -> execution 0 size_ ev ->
    exists s', bhc_read zero op s ev = Some s' /\ inv s' fs /\ bhc_last s' = bhc_last s /\ bhc_reduce s' = false.
  Proof.
    intros HI HE. assert (HI' := HI). destruct HI' as (A & G & L & N & D & R). unfold bhc_read.
    destruct (bhc_reduce s) eqn:ER.
    - destruct (collect_good _ L) as (l & E & _). rewrite E. simpl.
      destruct (tlh_reduce_good _ l _ ev L E G HE) as (c & Ec & Gc & Dc). rewrite Ec. simpl.
      eexists; split; [reflexivity|]. split; [|auto].
      split; [exact A|]. split; [exact Gc|]. split; [exact L|]. split; [exact N|]. split; [exact D|].
      intros _ k Hk. simpl. unfold data; simpl. rewrite Dc, D by auto. reflexivity.
    - exists s. auto.
  Qed.

  Fixpoint last_data (h : list (hop T F)) (acc : option F) : option F :=
    match h with [] => acc | Compute _ f :: h => last_data h (Some (fr_data f)) | Read _ :: h => last_data h acc end.

  Lemma run_history_inv h : forall s fs, inv s fs -> Forall (valid_hop axes) h ->
    exists s', run_history zero op s h = Some s' /\ inv s' (frames_since h fs) /\ bhc_last s' = last_data h (bhc_last s).
  Proof.
    unfold run_history. induction h as [|o h IH]; intros s fs HI HVh; simpl.
    - exists s; auto.
    - inversion HVh as [|? ? Ho HVs]; subst. destruct o as [r f|ev]; simpl in *.
      + destruct r; unfold bhc_compute.
        * destruct (IH _ _ (inv_accumulate _ _ f (inv_reset _ _ HI) Ho) HVs) as (s' & E & I & LD).
          exists s'. auto.
        * destruct (IH _ _ (inv_accumulate _ _ f HI Ho) HVs) as (s' & E & I & LD). exists s'. auto.
      + destruct (inv_read s fs ev HI Ho) as (s1 & E1 & I1 & LD1 & _). rewrite E1.
        destruct (IH _ _ I1 HVs) as (s' & E & I & LD). exists s'. rewrite LD, LD1. auto.
  Qed.
End Pure.
