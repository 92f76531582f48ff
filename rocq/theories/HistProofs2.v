(** Consequences used by the final statements: totals, equality with the sequential loop, wrap-around counters. *)
From Coq Require Import Eqdep_dec.
From Verif Require Import RBase HistModel HistSpec MArrayProofs ParProofs HistProofs.
Open Scope Z_scope.

Lemma nat_laws : sum_laws 0%nat Nat.add.
Proof. split; [intros; lia|split; intros; lia]. Qed.
Lemma R_laws : sum_laws 0%R Rplus.
Proof. split; [intros; ring|split; intros; ring]. Qed.

Lemma u32_eq x y : u32_val x = u32_val y -> x = y.
Proof.
  destruct x as [x Hx], y as [y Hy]; simpl. intros ->. f_equal. apply UIP_dec. apply Bool.bool_dec.
Qed.
Lemma u32_range x : 0 <= u32_val x < 2 ^ 32.
Proof.
  destruct x as [x Hx]; simpl. unfold in_u32 in Hx. apply andb_true_iff in Hx as [A B].
  apply Z.leb_le in A. apply Z.ltb_lt in B. lia.
Qed.
Lemma u32_laws : sum_laws (u32 0) u32_add.
Proof.
  split; [|split].
  - intros a b c. apply u32_eq. unfold u32_add, u32, u32_val; simpl.
    rewrite Zplus_mod_idemp_l, Zplus_mod_idemp_r. f_equal. lia.
  - intros a b. unfold u32_add. f_equal. lia.
  - intros a. apply u32_eq. unfold u32_add, u32, u32_val at 1 2; simpl.
    apply Z.mod_small. apply u32_range.
Qed.
Lemma u32_sum_mod l : u32_val (sum_of (u32 0) u32_add l) = fold_right Z.add 0 (map u32_val l) mod 2 ^ 32.
Proof.
  destruct u32_laws as (A & B & C). change (sum_of (u32 0) u32_add l) with (total (u32 0) u32_add l).
  induction l as [|x l IH]; [reflexivity|].
  rewrite (total_cons (u32 0) u32_add A B C). unfold u32_add at 1, u32 at 1. simpl u32_val at 1.
  rewrite IH. simpl. rewrite Zplus_mod_idemp_r. reflexivity.
Qed.

Section More.
  Context {T : Type} (zero : T) (op : T -> T -> T) (axes : list axis) (HV : valid_axes axes) (laws : sum_laws zero op).
  Let assoc := proj1 laws. Let comm := proj1 (proj2 laws). Let unit := proj2 (proj2 laws).
  Notation tot := (total zero op).
  Notation shape := (map ax_n axes).

  Lemma get_cell h idx : good axes h -> in_shape shape idx ->
    ma_get (h_counts h) (row_major shape idx) = Some (nth (Z.to_nat (row_major shape idx)) (data h) zero).
  Proof.
    intros G HS. pose proof (row_major_range _ _ HS) as HR.
    rewrite <- (Z2Nat.id (row_major shape idx)) at 1 by lia.
    apply ma_get_nth; [apply G|]. rewrite (good_size axes h G). unfold shape_. lia.
  Qed.

  Lemma counts_spec samples : (forall s, In s samples -> length (fst s) = length axes) ->
    exists h, hist_add_all op samples (hist_make zero axes) = Some h /\
      forall idx, in_shape shape idx ->
        ma_get (h_counts h) (row_major shape idx) = Some (sum_of zero op (weights_in axes idx samples)).
  Proof.
    intros HA. destruct (hist_add_all_pure zero op axes HV samples _ (good_make zero axes HV) HA) as (h & E & G & D).
    exists h. split; auto. intros idx HS. rewrite get_cell by auto. f_equal.
    pose proof (row_major_range _ _ HS) as HR.
    rewrite D by (unfold size_, shape_; lia). rewrite data_make.
    unfold shape_. rewrite <- (wts_cell axes HV idx samples HS HA). reflexivity.
  Qed.

  Lemma total_addat l k w : (k < length l)%nat -> tot (addat zero op l k w) = op (tot l) w.
  Proof.
    unfold addat. revert k. induction l as [|x l IH]; intros [|k] Hk; simpl in *; try lia.
    - rewrite !(total_cons zero op assoc comm unit). rewrite <- !assoc. f_equal. apply comm.
    - rewrite !(total_cons zero op assoc comm unit). rewrite IH by lia. apply assoc.
  Qed.

  Lemma in_range_lin s : length (fst s) = length axes ->
    in_rangeb axes (@fst _ T s) = match lin axes (fst s) with Some _ => true | None => false end.
  Proof.
    intros HL. unfold lin. destruct HV as [HA _]. pose proof (axes_bins_spec axes (fst s) HA HL) as S.
    destruct (axes_bins axes (fst s)).
    - apply in_rangeb_iff. eapply in_cell_in_range; eauto.
    - destruct (in_rangeb axes (fst s)) eqn:E; auto. apply in_rangeb_iff in E. contradiction.
  Qed.

  Lemma hist_add_all_total samples : forall h, good axes h -> (forall s, In s samples -> length (fst s) = length axes) ->
    exists h', hist_add_all op samples h = Some h' /\ good axes h' /\
      tot (data h') = op (tot (data h)) (tot (weights_in_range axes samples)).
  Proof.
    unfold hist_add_all. induction samples as [|s samples IH]; intros h G HA; simpl.
    - exists h. split; auto. split; auto. unfold weights_in_range; simpl. unfold total at 3; simpl. rewrite comm, unit. auto.
    - destruct (hist_add_pure zero op axes HV h (fst s) (snd s) G) as (h1 & E1 & G1 & D1); [apply HA; left; auto|].
      rewrite E1. destruct (IH h1 G1) as (h2 & E2 & G2 & D2); [intros x Hx; apply HA; right; auto|].
      exists h2. split; auto. split; auto. rewrite D2, D1. unfold weights_in_range; simpl.
      rewrite in_range_lin by (apply HA; left; auto).
      destruct (lin axes (fst s)) as [j|] eqn:E; auto.
      apply lin_bound in E; auto; [|apply HA; left; auto].
      rewrite total_addat by (unfold data; rewrite (good_length axes); auto).
      simpl. rewrite (total_cons zero op assoc comm unit). symmetry. apply assoc.
  Qed.

  Lemma total_repeat n : tot (repeat zero n) = zero.
  Proof. induction n; simpl; auto. rewrite (total_cons zero op assoc comm unit), IHn. apply unit. Qed.

  Lemma parallel_counts n samples ev ev2 r :
    (forall i s, In s (samples i) -> length (fst s) = length axes) ->
    execution 0 n ev -> execution 0 (Z.to_nat (size_of shape)) ev2 ->
    well_formed r -> ma_shape r = shape ->
    exists ls c h, collect (accumulate zero op axes samples ev []) = Some ls /\
      tlh_reduce_into zero op ls ev2 r = Some c /\
      hist_add_all op (flat_map samples (range 0 n)) (hist_make zero axes) = Some h /\
      c = h_counts h.
  Proof.
    intros HA HE HE2 Wr Sr.
    destruct (accumulate_range zero op axes HV laws samples n ev [] ltac:(constructor) (fun i s Hs => HA i s Hs) HE) as [G D].
    cbv zeta in *.
    destruct (collect_good zero axes _ G) as (ls & Ec & _ & _).
    assert (Gr : good axes (Hist axes r)) by (split; [reflexivity|split; auto]).
    destruct (tlh_reduce_good zero op axes _ ls (Hist axes r) ev2 G Ec Gr HE2) as (c & E & Gc & Dc).
    assert (HA' : arity axes (flat_map samples (range 0 n))).
    { intros s Hs. apply in_flat_map in Hs as (i & _ & Hs). eapply HA; eauto. }
    destruct (hist_add_all_pure zero op axes HV _ _ (good_make zero axes HV) HA') as (h & Eh & Gh & Dh).
    exists ls, c, h. split; auto. split; [exact E|]. split; auto.
    assert (ED : ma_data c = ma_data (h_counts h)).
    { apply (list_nth_ext zero).
      - pose proof (good_length axes _ Gc) as L1. pose proof (good_length axes _ Gh) as L2. simpl in L1. congruence.
      - intros k Hk. pose proof (good_length axes _ Gc) as L1. simpl in L1. rewrite L1 in Hk.
        rewrite Dc, D by auto. fold (data h). rewrite Dh by auto. rewrite data_make.
        unfold lvals, total; simpl. apply unit. }
    pose proof (good_size axes _ Gc) as S1. pose proof (good_size axes _ Gh) as S2. simpl in S1.
    destruct Gc as (_ & _ & S3), Gh as (_ & _ & S4). simpl in S3.
    destruct c as [sh sz d], (h_counts h) as [sh' sz' d']; simpl in *. congruence.
  Qed.

  (** ThreadStorage::reduceInto, exactly. *)
  Lemma ts_reduce_spec ls ev r :
    well_formed r -> Forall (fun a => well_formed a /\ ma_size a = ma_size r) ls ->
    execution 0 (Z.to_nat (ma_size r)) ev ->
    exists r', ts_reduce_into zero op ls ev r = Some r' /\ well_formed r' /\ ma_shape r' = ma_shape r /\
      forall k, (k < Z.to_nat (ma_size r))%nat ->
        nth k (ma_data r') zero =
        match ls with
        | [] => zero
        | _ => op (nth k (ma_data r) zero) (sum_of zero op (map (fun a => nth k (ma_data a) zero) ls))
        end.
  Proof.
    intros Wr HF HE. destruct ls as [|a ls].
    - exists (ma_reset zero r). split; auto. split; [apply ma_reset_wf; auto|]. split; auto.
      intros k Hk. apply ma_reset_nth.
    - destruct (reduce_full zero op (a :: ls) r ev Wr HF HE) as (r' & E & W & S1 & S2 & D).
      exists r'. split; auto. split; auto. split; auto. intros k Hk. rewrite D by auto.
      apply (fold_total zero op assoc comm unit).
  Qed.

  Context {F : Type}.
  Lemma history_spec (h : list (hop T F)) ev :
    Forall (valid_hop axes) h -> execution 0 (Z.to_nat (size_of shape)) ev ->
    exists s, run_history zero op (bhc_make zero axes) (h ++ [Read ev]) = Some s /\
      (forall idx, in_shape shape idx ->
         ma_get (h_counts (bhc_hist s)) (row_major shape idx)
         = Some (sum_of zero op (weights_in axes idx (flat_map frame_samples (frames_since h []))))) /\
      length (ma_data (h_counts (bhc_hist s))) = Z.to_nat (size_of shape) /\
      bhc_frames s = length (frames_since h []) /\ bhc_last s = last_data h None.
  Proof.
    intros HVh HE.
    assert (AR : arity axes (flat_map frame_samples (frames_since h []))).
    { intros s Hs. apply in_flat_map in Hs as (f & Hf & Hs). unfold frame_samples in Hs.
      apply in_flat_map in Hs as (i & _ & Hs).
      assert (VF : Forall (valid_frame axes) (frames_since h [])).
      { assert (G : forall h acc, Forall (valid_hop axes) h -> Forall (valid_frame axes) acc -> Forall (@valid_frame T F axes) (frames_since h acc)).
        { clear. induction h as [|[[|] f|ev] h IH]; intros acc Hh Hacc; simpl; auto; inversion Hh; subst; apply IH; auto.
          apply Forall_app; auto. }
        apply G; auto. }
      rewrite Forall_forall in VF. destruct (VF _ Hf) as [_ HA]. eapply HA; eauto. }
    destruct (run_history_inv zero op axes HV laws h _ _ (inv_make zero op axes HV) HVh) as (s1 & E1 & I1 & L1).
    destruct (inv_read zero op axes s1 _ ev I1 HE) as (s2 & E2 & I2 & L2 & R2).
    exists s2. split.
    { unfold run_history in *. rewrite fold_left_app, E1. simpl. exact E2. }
    destruct I2 as (A & G & L & N & D & R). split; [|split; [|split]].
    - intros idx HS. rewrite get_cell by auto. f_equal. pose proof (row_major_range _ _ HS) as HR.
      rewrite (R R2) by (unfold size_, shape_; lia). unfold all_samples.
      rewrite <- (wts_cell axes HV idx _ HS AR). reflexivity.
    - apply good_length; auto.
    - exact N.
    - rewrite L2, L1. reflexivity.
  Qed.
End More.

(** The last frame's data is that of the last frame since the reset. *)
Lemma last_data_frames {T F} (h : list (hop T F)) : forall acc a,
  (forall l f, acc = l ++ [f] -> a = Some (fr_data f)) ->
  forall l f, frames_since h acc = l ++ [f] -> last_data h a = Some (fr_data f).
Proof.
  induction h as [|[[|] g|ev] h IH]; intros acc a HA l f E; simpl in *; eauto.
  - eapply IH; [|exact E]. intros l' f' E'. destruct l' as [|? [|]]; try discriminate. injection E' as <-. auto.
  - eapply IH; [|exact E]. intros l' f' E'. apply app_inj_tail in E' as [_ <-]. auto.
Qed.
Lemma last_data_none {T F} (h : list (hop T F)) : forall acc a,
  frames_since h acc = [] -> last_data h a = a.
Proof.
  induction h as [|[[|] g|ev] h IH]; intros acc a E; simpl in *; eauto.
  - exfalso. clear -E. assert (G : forall acc, acc <> [] -> frames_since h acc <> []).
    { clear. induction h as [|[[|] g|ev] h IH]; intros acc Ha; simpl; auto; apply IH; try discriminate.
      destruct acc; discriminate. }
    revert E. apply G. discriminate.
  - exfalso. clear -E. assert (G : forall acc, acc <> [] -> frames_since h acc <> []).
    { clear. induction h as [|[[|] g|ev] h IH]; intros acc' Ha; simpl; auto; apply IH; try discriminate.
      destruct acc'; discriminate. }
    revert E. apply G. destruct acc; discriminate.
Qed.

Lemma history_determined {T F} zero (op : T -> T -> T) axes (h1 h2 : list (hop T F)) ev1 ev2 :
  valid_axes axes -> sum_laws zero op -> Forall (valid_hop axes) h1 -> Forall (valid_hop axes) h2 ->
  execution 0 (Z.to_nat (size_of (map ax_n axes))) ev1 -> execution 0 (Z.to_nat (size_of (map ax_n axes))) ev2 ->
  frames_since h1 [] = frames_since h2 [] ->
  option_map observe (run_history zero op (bhc_make zero axes) (h1 ++ [Read ev1])) =
  option_map observe (run_history zero op (bhc_make zero axes) (h2 ++ [Read ev2])).
Proof.
  intros HV laws H1 H2 E1 E2 EQ.
  destruct (history_spec zero op axes HV laws h1 ev1 H1 E1) as (s1 & R1 & C1 & L1 & N1 & D1).
  destruct (history_spec zero op axes HV laws h2 ev2 H2 E2) as (s2 & R2 & C2 & L2 & N2 & D2).
  rewrite R1, R2. simpl. f_equal. unfold observe.
  assert (DD : ma_data (h_counts (bhc_hist s1)) = ma_data (h_counts (bhc_hist s2))).
  { apply (list_nth_ext zero); [congruence|]. intros k Hk. rewrite L1 in Hk.
    destruct (lin_idx axes HV k Hk) as (idx & HS & Ek). unfold shape_ in *.
    specialize (C1 idx HS). specialize (C2 idx HS). rewrite EQ in C1. rewrite <- C2 in C1.
    pose proof (row_major_range _ _ HS) as HR. unfold ma_get in C1.
    destruct (_ || _) eqn:B1 in C1; destruct (_ || _) eqn:B2 in C1.
    - unfold ma_get in C2. rewrite B2 in C2. discriminate.
    - unfold ma_get in C2. rewrite B2 in C2. rewrite C2 in C1; discriminate.
    - unfold ma_get in C2. rewrite B2 in C2. discriminate.
    - rewrite Ek in C1.
      rewrite (nth_error_nth' (ma_data (h_counts (bhc_hist s1))) zero) in C1 by lia.
      rewrite (nth_error_nth' (ma_data (h_counts (bhc_hist s2))) zero) in C1 by (rewrite L2; auto).
      congruence. }
  rewrite DD, N1, N2, D1, D2, EQ. f_equal.
  destruct (frames_since h2 []) as [|f l] eqn:EF using rev_ind.
  - rewrite (last_data_none h1 [] None), (last_data_none h2 [] None); auto; congruence.
  - rewrite (last_data_frames h1 [] None) with (l := l) (f := f); [|intros [|]; discriminate|congruence].
    rewrite (last_data_frames h2 [] None) with (l := l) (f := f); [auto|intros [|]; discriminate|auto].
Qed.
