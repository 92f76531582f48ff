(** C50: the correlation function. *)
From Verif Require Import HistProofs HistProofs2 HistProps ParProofs MatchEnvProofs CountHist CorrSpec.
From Coq Require Import Lra Lia.
Local Open Scope R_scope.

Lemma c_laws : sum_laws c0 cadd.
Proof. unfold cadd, c0. unfold sum_laws. repeat split; intros; repeat (match goal with z : cplx |- _ => destruct z end); simpl; f_equal; ring. Qed.
Lemma csum_of l : sum_of c0 cadd l = csum l.
Proof.
  unfold sum_of. destruct c_laws as (A & C & Z).
  assert (G : forall l z, fold_left cadd l z = cadd z (csum l)).
  { clear l. induction l as [|x l IH]; intros z; simpl; [rewrite C, Z; reflexivity|]. rewrite IH, <- A. reflexivity. }
  rewrite G, Z. reflexivity.
Qed.

Definition op_n (o : cf_op) : hop U32 unit := match o with CfCompute r f => Compute r (cf_frame_n f) | CfRead e _ => Read e end.
Definition op_c (o : cf_op) : hop cplx unit := match o with CfCompute r f => Compute r (cf_frame_c f) | CfRead _ e => Read e end.
Definition frame_complex (f : cf_in) : bool := np_iscomplex (ci_values f) || np_iscomplex (ci_qv f).
Definition out_of (bins : Z) (n : bhc U32 unit) (c : bhc cplx unit) : option (list cplx) :=
  omap (fun i => match ma_get (h_counts (bhc_hist n)) (Z.of_nat i), ma_get (h_counts (bhc_hist c)) (Z.of_nat i) with
                 | Some k, Some z => Some (if (u32_val k =? 0)%Z then z else cscale (/ IZR (u32_val k)) z)
                 | _, _ => None
                 end) (seq 0 (Z.to_nat bins)).
Lemma cf_since_snoc h o : forall acc, cf_since (h ++ [o]) acc = match o with CfCompute true f => [f] | CfCompute false f => cf_since h acc ++ [f] | CfRead _ _ => cf_since h acc end.
Proof. induction h as [|[[|] g|e1 e2] h IH]; intros acc; simpl; auto. Qed.
Lemma frames_n h : forall acc, frames_since (map op_n h) (map cf_frame_n acc) = map cf_frame_n (cf_since h acc).
Proof. induction h as [|[[|] f|e1 e2] h IH]; intros acc; simpl; auto; [apply (IH [f])|rewrite <- IH, map_app; reflexivity]. Qed.
Lemma frames_c h : forall acc, frames_since (map op_c h) (map cf_frame_c acc) = map cf_frame_c (cf_since h acc).
Proof. induction h as [|[[|] f|e1 e2] h IH]; intros acc; simpl; auto; [apply (IH [f])|rewrite <- IH, map_app; reflexivity]. Qed.

Lemma read_flag {T F} zero op (s s' : bhc T F) ev : bhc_read zero op s ev = Some s' -> bhc_reduce s' = false.
Proof.
  unfold bhc_read. destruct (bhc_reduce s) eqn:E; [|congruence]. destruct (collect _) as [ls|]; [|discriminate]. cbn [bind].
  destruct (tlh_reduce_into _ _ _ _ _); [|discriminate]. cbn [bind]. intros X; injection X as <-. reflexivity.
Qed.

Section history.
  Variables (bins : Z) (a : axis) (s0 : cf).
  Hypothesis Ha : valid_axes [a].
  Hypothesis Hbins : ax_n a = bins.
  Hypothesis Hs0 : cf_bins s0 = bins /\ cf_n s0 = bhc_make (u32 0) [a] /\ cf_c s0 = bhc_make c0 [a] /\ cf_complex s0 = false.

  Lemma cf_size : size_of (map ax_n [a]) = bins.
  Proof. unfold size_of; simpl. rewrite Hbins. destruct bins; lia. Qed.
  Lemma hops_ok h : Forall (cf_op_ok bins) h -> Forall (valid_hop [a]) (map op_n h) /\ Forall (valid_hop [a]) (map op_c h).
  Proof.
    intros H. split; apply Forall_map; (eapply Forall_impl; [|exact H]); intros [r f|e1 e2] Ho; unfold valid_hop, op_n, op_c; cbv beta iota;
      try (rewrite cf_size; apply Ho); (split; [apply Ho|]; intros i x Hx; apply in_map_iff in Hx as (b & <- & _); reflexivity).
  Qed.
  Lemma cells_at i : (i < Z.to_nat bins)%nat -> in_shape (map ax_n [a]) [Z.of_nat i] /\ row_major (map ax_n [a]) [Z.of_nat i] = Z.of_nat i.
  Proof. intros Hi. split; [constructor; [split; lia|constructor]|unfold row_major; simpl; lia]. Qed.

  Record Inv (s : cf) (h : list cf_op) : Prop := {
    inv_n : run_history (u32 0) u32_add (bhc_make (u32 0) [a]) (map op_n h) = Some (cf_n s);
    inv_c : run_history c0 cadd (bhc_make c0 [a]) (map op_c h) = Some (cf_c s);
    inv_bins : cf_bins s = bins;
    inv_flag : bhc_reduce (cf_n s) = bhc_reduce (cf_c s);
    inv_out : bhc_reduce (cf_n s) = false -> out_of bins (cf_n s) (cf_c s) = Some (cf_out s);
    inv_cplx : cf_complex s = existsb frame_complex (cf_since h []) }.

  Lemma product_ok f : cf_in_ok f -> forall b, In b (ci_every f) -> cf_product f b = Some (pair_value (f, b)).
  Proof.
    intros (_ & Lv & Lq & Hb) b Ib. destruct (Hb b Ib) as [B1 B2]. unfold cf_product, pair_value.
    rewrite (nth_error_g _ _ c0) by lia. rewrite (nth_error_g _ _ c0) by lia. reflexivity.
  Qed.
  Lemma compute_ok s re f : cf_in_ok f -> exists s', cf_compute s re f = CfDone s' /\ cf_bins s' = cf_bins s /\
    cf_n s' = bhc_compute (u32 0) u32_add (cf_n s) re (cf_frame_n f) /\ cf_c s' = bhc_compute c0 cadd (cf_c s) re (cf_frame_c f) /\
    cf_complex s' = (if re then false else cf_complex s) || frame_complex f.
  Proof.
    intros Hf. pose proof (product_ok f Hf) as HP. destruct Hf as (_ & Lv & Lq & _). unfold cf_compute. rewrite Lv, Nat.eqb_refl. cbn [negb].
    assert (Q : match ci_qvalues f with Some q => negb (length q =? ci_nq f)%nat | None => false end = false).
    { unfold ci_qv in Lq. destruct (ci_qvalues f); auto. rewrite Lq, Nat.eqb_refl. reflexivity. }
    rewrite Q. assert (P : forallb (fun b => is_some (cf_product f b)) (ci_every f) = true).
    { apply forallb_forall. intros b Ib. rewrite (HP b Ib). reflexivity. }
    rewrite P. eexists. split; [reflexivity|]. cbn [cf_bins cf_n cf_c cf_complex]. repeat split; auto.
    unfold frame_complex, ci_qv. rewrite <- orb_assoc. f_equal. destruct (ci_qvalues f); auto. destruct (np_iscomplex (ci_values f)); reflexivity.
  Qed.

  Lemma run_snoc {T F} zero op (s : bhc T F) h o : run_history zero op s (h ++ [o]) = bind (run_history zero op s h) (fun s => run_hop zero op s o).
  Proof. unfold run_history. rewrite fold_left_app. reflexivity. Qed.

  Lemma read_ok h e1 e2 s : Inv s h -> Forall (cf_op_ok bins) h -> execution 0 (Z.to_nat bins) e1 -> execution 0 (Z.to_nat bins) e2 ->
    exists s', cf_read s e1 e2 = Some s' /\ Inv s' (h ++ [CfRead e1 e2]) /\ bhc_reduce (cf_n s') = false.
  Proof.
    intros [In Ic Ib If Io Ix] Hh H1 H2. destruct (hops_ok h Hh) as [On Oc].
    destruct (C17_history (u32 0) u32_add [a] (map op_n h) e1 u32_laws Ha On) as (n & Rn & Cn & _); [rewrite cf_size; exact H1|].
    destruct (C17_history c0 cadd [a] (map op_c h) e2 c_laws Ha Oc) as (c & Rc & Cc & _); [rewrite cf_size; exact H2|].
    pose proof Rn as Rn'. pose proof Rc as Rc'. rewrite run_snoc, In in Rn. rewrite run_snoc, Ic in Rc. cbn [bind run_hop] in Rn, Rc.
    assert (Out : out_of bins n c <> None).
    { unfold out_of. destruct (omap _ _) eqn:E; [discriminate|]. exfalso. revert E.
      set (g := fun i => match ma_get (h_counts (bhc_hist n)) (Z.of_nat i), ma_get (h_counts (bhc_hist c)) (Z.of_nat i) with
                 | Some k, Some z => if (u32_val k =? 0)%Z then z else cscale (/ IZR (u32_val k)) z | _, _ => c0 end).
      rewrite (omap_some _ g); [discriminate|]. intros i Hi. apply in_seq in Hi. destruct (cells_at i ltac:(lia)) as [IS RM].
      specialize (Cn _ IS). specialize (Cc _ IS). rewrite RM in Cn, Cc. unfold g. rewrite Cn, Cc. reflexivity. }
    pose proof (read_flag _ _ _ _ _ Rn) as Fn. pose proof (read_flag _ _ _ _ _ Rc) as Fc.
    unfold cf_read. destruct (bhc_reduce (cf_n s)) eqn:Er.
    - unfold cf_reduce. rewrite Rn, Rc, Ib. fold (out_of bins n c). destruct (out_of bins n c) as [out|] eqn:Eo; [|congruence].
      eexists. split; [reflexivity|]. split; [|exact Fn]. constructor; cbn [cf_n cf_c cf_bins cf_out cf_complex]; auto.
      + rewrite map_app. exact Rn'.
      + rewrite map_app. exact Rc'.
      + congruence.
      + change (cf_complex s = existsb frame_complex (cf_since (h ++ [CfRead e1 e2]) [])). rewrite cf_since_snoc. exact Ix.
    - exists s. split; [reflexivity|].
      assert (n = cf_n s) by (unfold bhc_read in Rn; rewrite Er in Rn; congruence). assert (c = cf_c s) by (unfold bhc_read in Rc; rewrite <- If in Rc; congruence). subst n c.
      split; [|exact Er]. constructor; auto; try congruence; try (rewrite map_app; assumption). rewrite cf_since_snoc. exact Ix.
  Qed.

  Lemma run_inv h : Forall (cf_op_ok bins) h -> exists s, cf_run s0 h = Some s /\ Inv s h.
  Proof.
    induction h as [|o h IH] using rev_ind; intros Hh.
    - exists s0. split; [reflexivity|]. destruct Hs0 as (B & N & C & X). constructor; rewrite ?N, ?C, ?X; auto. discriminate.
    - apply Forall_app in Hh as [Hh Ho]. inversion Ho as [|? ? Ho' _]; subst. destruct (IH Hh) as (s & Rs & Is).
      unfold cf_run in *. rewrite ofold_app, Rs. destruct o as [re f|e1 e2].
      + destruct (compute_ok s re f Ho') as (s' & E & B & N & C & X). exists s'. split; [cbn [ofold cf_step]; rewrite E; reflexivity|].
        destruct Is as [In Ic Ib If Io Ix]. constructor.
        * rewrite map_app; cbn [map]; rewrite run_snoc, In, N. reflexivity.
        * rewrite map_app; cbn [map]; rewrite run_snoc, Ic, C. reflexivity.
        * congruence.
        * rewrite N, C. reflexivity.
        * rewrite N. discriminate.
        * rewrite X, cf_since_snoc. destruct re; simpl; [rewrite orb_false_r; reflexivity|]. rewrite existsb_app, Ix. simpl. rewrite orb_false_r. reflexivity.
      + destruct Ho' as [H1 H2]. destruct (read_ok h e1 e2 s Is Hh H1 H2) as (s' & E & I' & _). exists s'. split; [cbn [ofold cf_step]; rewrite E; reflexivity|exact I'].
  Qed.
End history.

Lemma weights_bonds {T} bins r_max (w : cf_in -> bond -> T) i fs : (i < Z.to_nat bins)%nat ->
  weights_in [Axis bins 0 r_max] [Z.of_nat i]
    (flat_map frame_samples (map (fun f => Frame (ci_m f) (fun j => map (fun b => ([bd b], w f b)) (ci_bonds f j)) (ci_exec f) tt) fs)) =
  map (fun fb => w (fst fb) (snd fb)) (bin_bonds bins r_max i fs).
Proof.
  intros Hi. unfold weights_in, bin_bonds. induction fs as [|f fs IH]; [reflexivity|]. cbn [map flat_map]. rewrite !filter_app, !map_app, IH. f_equal.
  unfold frame_samples, ci_every. cbn [fr_samples fr_n].
  assert (E : flat_map (fun j => map (fun b => ([bd b], w f b)) (ci_bonds f j)) (range 0 (ci_m f)) = map (fun b => ([bd b], w f b)) (flat_map (ci_bonds f) (range 0 (ci_m f)))).
  { induction (range 0 (ci_m f)) as [|j l IHl]; [reflexivity|]. cbn [flat_map]. rewrite IHl, map_app. reflexivity. }
  rewrite E. clear E IH. induction (flat_map (ci_bonds f) (range 0 (ci_m f))) as [|b l IH]; [reflexivity|]. cbn [map filter fst snd].
  assert (X : in_cellb [Axis bins 0 r_max] [Z.of_nat i] [bd b] = Rle_bool (cf_edge bins r_max i) (bd b) && Rlt_bool (bd b) (cf_edge bins r_max (S i))).
  { assert (IL : forall k, interval_lo (Axis bins 0 r_max) (Z.of_nat k) = cf_edge bins r_max k).
    { intros k. unfold interval_lo, cf_edge. simpl. rewrite INR_IZR_INZ, Rminus_0_r. ring. }
    apply Bool.eq_iff_eq_true. rewrite in_cellb_iff by (constructor; [simpl; lia|constructor]). rewrite Bool.andb_true_iff.
    rewrite <- !IL, Nat2Z.inj_succ, <- Z.add_1_r. split.
    - intros I. inversion I as [|? ? ? ? ? ? _ [I1 I2] _]; subst. split; [apply Rle_bool_true|apply Rlt_bool_true]; auto.
    - intros [I1 I2]. constructor; [simpl; lia| |constructor]. revert I1 I2. case Rle_bool_spec; case Rlt_bool_spec; intros; try discriminate; auto. }
  rewrite X. destruct (_ && _); cbn [map fst snd]; rewrite IH; reflexivity.
Qed.
Lemma units_count {A} (l : list A) : fold_right Z.add 0%Z (map u32_val (map (fun _ => u32 1) l)) = Z.of_nat (length l).
Proof. induction l; [reflexivity|]. cbn [map fold_right length]. rewrite IHl. change (u32_val (u32 1)) with 1%Z. rewrite Nat2Z.inj_succ. ring. Qed.
Lemma omap_nth {A B} (f : A -> option B) l : forall o i d e, omap f l = Some o -> length o = length l /\ ((i < length l)%nat -> f (nth i l d) = Some (nth i o e)).
Proof.
  induction l as [|x l IH]; intros o i d e; simpl.
  - intros X. injection X as <-. split; [reflexivity|simpl; lia].
  - destruct (f x) as [y|] eqn:Ef; [|discriminate]. destruct (omap f l) as [ys|] eqn:Eo; [|discriminate]. intros X. injection X as <-. simpl.
    destruct i as [|i]; [destruct (IH ys 0%nat d e eq_refl) as [L _]; rewrite L; auto|].
    destruct (IH ys i d e eq_refl) as [L N]. rewrite L. split; auto. intros Hi. apply N. lia.
Qed.
Lemma snd_real (z : cplx) : snd z = 0 -> z = (fst z, 0).
Proof. destruct z; simpl; intros ->; reflexivity. Qed.
Lemma csum_real l : Forall (fun z => snd z = 0) l -> snd (csum l) = 0.
Proof. induction 1; simpl; auto. rewrite H, IHForall. ring. Qed.
Lemma in_since h : forall acc, Forall (fun o => match o with CfCompute _ f => cf_in_ok f | _ => True end) h -> Forall cf_in_ok acc -> Forall cf_in_ok (cf_since h acc).
Proof.
  induction h as [|[[|] f|e1 e2] h IH]; intros acc H A; auto; inversion H; subst; simpl; apply IH; auto. apply Forall_app. split; auto.
Qed.
Lemma iscomplex_false l : np_iscomplex l = false <-> forall z, In z l -> snd z = 0.
Proof.
  unfold np_iscomplex. induction l as [|z l IH]; simpl; [split; [intros _ z []|auto]|]. rewrite orb_false_iff, IH. split.
  - intros [H1 H2] y [<-|I]; auto. destruct (Req_bool_spec (snd z) 0); [assumption|discriminate].
  - intros H. split; auto. rewrite Req_bool_true; auto.
Qed.
Lemma frame_complex_false f : frame_complex f = false <-> real_values f.
Proof.
  unfold frame_complex, real_values. rewrite orb_false_iff, !iscomplex_false. firstorder.
Qed.

(** Constructor arguments are rejected exactly when documented; arrays of the wrong length are refused. *)
Theorem C50_reject bins r_max : (0 <= bins)%Z -> (cf_make bins r_max = None <-> bins = 0%Z \/ r_max <= 0).
Proof.
  intros Hb. unfold cf_make. destruct (Z.eqb_spec bins 0); [tauto|]. destruct (Rle_bool_spec r_max 0); split; intros K; try discriminate; try tauto.
  destruct K as [K|K]; [contradiction|lra].
Qed.
Theorem C50_sizes s reset f : length (ci_values f) <> ci_np f \/ (exists q, ci_qvalues f = Some q /\ length q <> ci_nq f) -> cf_compute s reset f = CfRaised.
Proof.
  intros H. unfold cf_compute. destruct (Nat.eqb_spec (length (ci_values f)) (ci_np f)); [|reflexivity]. cbn [negb].
  destruct H as [H|(q & -> & H)]; [contradiction|]. destruct (Nat.eqb_spec (length q) (ci_nq f)); [contradiction|reflexivity].
Qed.

(** Over every history: each bin holds the mean of conj(value of the point) * (value of the query point) over the bonds of all frames
    since the last reset whose distance lies in the bin, and zero if there are none; real inputs give real outputs and nothing is lost. *)
Theorem C50_mean bins r_max s0 h ev1 ev2 :
  (0 <= bins < OVERFLOW_BIN)%Z -> cf_make bins r_max = Some s0 -> Forall (cf_op_ok bins) h ->
  execution 0 (Z.to_nat bins) ev1 -> execution 0 (Z.to_nat bins) ev2 ->
  (forall i, (Z.of_nat (length (bin_bonds bins r_max i (cf_since h []))) < 2 ^ 32)%Z) ->
  exists s, cf_run s0 (h ++ [CfRead ev1 ev2]) = Some s /\ length (cf_out s) = Z.to_nat bins /\
    (forall i, (i < Z.to_nat bins)%nat ->
       (bin_bonds bins r_max i (cf_since h []) = [] -> nth i (cf_out s) c0 = c0) /\
       cscale (INR (length (bin_bonds bins r_max i (cf_since h [])))) (nth i (cf_out s) c0) = csum (map pair_value (bin_bonds bins r_max i (cf_since h [])))) /\
    (Forall real_values (cf_since h []) -> cf_correlation s = inr (map fst (cf_out s)) /\ Forall (fun z => snd z = 0) (cf_out s)) /\
    (~ Forall real_values (cf_since h []) -> cf_correlation s = inl (cf_out s)).
Proof.
  intros Hb Hm Hh H1 H2 Hn. set (fs := cf_since h []) in *.
  assert (Hc : bins <> 0%Z /\ 0 < r_max /\ s0 = Cf bins (bhc_make (u32 0) [Axis bins 0 r_max]) (bhc_make c0 [Axis bins 0 r_max]) (repeat c0 (Z.to_nat bins)) false).
  { unfold cf_make in Hm. destruct (Z.eqb_spec bins 0); [discriminate|]. destruct (Rle_bool_spec r_max 0); [discriminate|]. split; auto. split; auto. congruence. }
  destruct Hc as (Hb0 & Hr & E0). set (a := Axis bins 0 r_max) in *.
  assert (Va : valid_axes [a]).
  { split; [constructor; [|constructor]; split; simpl; [lia|exact Hr]|]. unfold size_of; simpl. destruct bins; lia. }
  assert (S0 : cf_bins s0 = bins /\ cf_n s0 = bhc_make (u32 0) [a] /\ cf_c s0 = bhc_make c0 [a] /\ cf_complex s0 = false) by (rewrite E0; auto).
  destruct (run_inv bins a s0 Va eq_refl S0 h Hh) as (s1 & R1 & I1).
  destruct (read_ok bins a s0 Va eq_refl S0 h ev1 ev2 s1 I1 Hh H1 H2) as (s & Rs & I & Fl).
  exists s. split; [unfold cf_run in *; rewrite ofold_app, R1; cbn [ofold cf_step]; rewrite Rs; reflexivity|].
  destruct I as [In Ic Ib If Io Ix]. specialize (Io Fl).
  destruct (hops_ok bins a s0 eq_refl S0 h Hh) as [On Oc].
  rewrite map_app in In, Ic. change (map op_n [CfRead ev1 ev2]) with [@Read U32 unit ev1] in In. change (map op_c [CfRead ev1 ev2]) with [@Read cplx unit ev2] in Ic.
  destruct (C17_history (u32 0) u32_add [a] (map op_n h) ev1 u32_laws Va On) as (n & Rn & Cn & _); [rewrite (cf_size bins a s0 eq_refl S0); exact H1|].
  destruct (C17_history c0 cadd [a] (map op_c h) ev2 c_laws Va Oc) as (c & Rc & Cc & _); [rewrite (cf_size bins a s0 eq_refl S0); exact H2|].
  assert (n = cf_n s) by congruence. assert (c = cf_c s) by congruence. subst n c. clear Rn Rc.
  pose proof (frames_n h []) as Fn. pose proof (frames_c h []) as Fc. cbn [map] in Fn, Fc. fold fs in Fn, Fc.
  assert (Hfs : Forall cf_in_ok fs).
  { apply in_since; [|constructor]. eapply Forall_impl; [|exact Hh]. intros [r f|e1 e2]; auto. }
  assert (Bok : forall i fb, List.In fb (bin_bonds bins r_max i fs) -> match cf_product (fst fb) (snd fb) with Some z => z | None => c0 end = pair_value fb).
  { intros i [f b] Hfb. apply filter_In in Hfb as [Hfb _]. apply in_flat_map in Hfb as (g & Hg & Hfb). apply in_map_iff in Hfb as (b' & X & Hb'). injection X as -> ->.
    cbn [fst snd]. rewrite (product_ok f) by (auto; apply (proj1 (Forall_forall _ _) Hfs f Hg)). reflexivity. }
  assert (Val : length (cf_out s) = Z.to_nat bins /\ forall i, (i < Z.to_nat bins)%nat ->
     nth i (cf_out s) c0 = (if (Z.of_nat (length (bin_bonds bins r_max i fs)) =? 0)%Z then csum (map pair_value (bin_bonds bins r_max i fs))
       else cscale (/ IZR (Z.of_nat (length (bin_bonds bins r_max i fs)))) (csum (map pair_value (bin_bonds bins r_max i fs))))).
  { split; [destruct (omap_nth _ _ _ 0 0%nat c0 Io) as [L _]; rewrite L, seq_length; reflexivity|]. intros i Hi.
    destruct (omap_nth _ _ _ i 0%nat c0 Io) as [_ N]. rewrite seq_length, seq_nth in N by lia. cbn [Nat.add] in N. specialize (N Hi).
    destruct (cells_at bins a eq_refl i Hi) as [IS RM]. specialize (Cn _ IS). specialize (Cc _ IS). rewrite RM in Cn, Cc. rewrite Cn, Cc in N.
    rewrite Fn in N. rewrite Fc in N. unfold cf_frame_n, cf_frame_c in N. unfold a in N.
    rewrite (weights_bonds bins r_max (fun _ _ => u32 1)) in N by exact Hi.
    rewrite (weights_bonds bins r_max (fun f b => match cf_product f b with Some z => z | None => c0 end)) in N by exact Hi.
    rewrite u32_sum_mod, units_count, csum_of, Z.mod_small in N by (split; [lia|apply Hn]).
    rewrite (map_ext_in _ pair_value) in N by (intros fb Hfb; apply (Bok i fb Hfb)). congruence. }
  destruct Val as [Len Val]. split; [exact Len|]. split; [|].
  - intros i Hi. rewrite (Val i Hi). set (l := bin_bonds bins r_max i fs). split.
    + intros ->. reflexivity.
    + rewrite <- INR_IZR_INZ. destruct (Z.eqb_spec (Z.of_nat (length l)) 0) as [Z0|Z0].
      * destruct l as [|x l']; [unfold cscale, csum, c0; simpl; f_equal; ring|simpl in Z0; lia].
      * assert (INR (length l) <> 0) by (apply not_0_INR; lia). destruct (csum (map pair_value l)) as [x y]. unfold cscale; simpl. f_equal; field; auto.
  - rewrite cf_since_snoc in Ix. fold fs in Ix. split; intros Hreal.
    + assert (X : existsb frame_complex fs = false).
      { destruct (existsb frame_complex fs) eqn:E; auto. apply existsb_exists in E as (f & Hf & Hc). apply (proj1 (Forall_forall _ _) Hreal) in Hf. apply frame_complex_false in Hf. congruence. }
      unfold cf_correlation. rewrite Ix, X. split; [reflexivity|]. apply Forall_forall. intros z Hz. apply (In_nth _ _ c0) in Hz as (i & Hi & <-). rewrite Len in Hi. rewrite (Val i Hi).
      assert (G : snd (csum (map pair_value (bin_bonds bins r_max i fs))) = 0).
      { apply csum_real. apply Forall_map. apply Forall_forall. intros [f b] Hfb. apply filter_In in Hfb as [Hfb _]. apply in_flat_map in Hfb as (g & Hg & Hfb).
        apply in_map_iff in Hfb as (b' & Y & Hb'). injection Y as -> ->. pose proof (proj1 (Forall_forall _ _) Hreal f Hg) as Hv.
        destruct (proj1 (Forall_forall _ _) Hfs f Hg) as (_ & Lv & Lq & Hbd). destruct (Hbd b Hb') as [B1 B2].
        assert (V1 : snd (nth (bp b) (ci_values f) c0) = 0) by (apply Hv; left; apply nth_In; lia).
        assert (V2 : snd (nth (bq b) (ci_qv f) c0) = 0) by (apply Hv; right; apply nth_In; lia).
        unfold pair_value, cmul, cconj; simpl. rewrite V1, V2. ring. }
      destruct (_ =? _)%Z; [exact G|]. unfold cscale; simpl. rewrite G. ring.
    + assert (X : existsb frame_complex fs = true).
      { destruct (existsb frame_complex fs) eqn:E; auto. exfalso. apply Hreal. apply Forall_forall. intros f Hf. apply frame_complex_false.
        destruct (frame_complex f) eqn:Ef; auto. assert (existsb frame_complex fs = true) by (apply existsb_exists; eauto). congruence. }
      unfold cf_correlation. rewrite Ix, X. reflexivity.
Qed.

(** Documented: if query_values is omitted, values is used. With more query points than points that reads past the end of values. *)
Theorem C50_default_query_values_refuted : exists s0 f, cf_make 1 1 = Some s0 /\ ci_qvalues f = None /\ length (ci_values f) = ci_np f /\
  (forall b, In b (ci_every f) -> (bp b < ci_np f)%nat /\ (bq b < ci_nq f)%nat) /\ cf_compute s0 true f = CfUndefined.
Proof.
  exists (Cf 1 (bhc_make (u32 0) [Axis 1 0 1]) (bhc_make c0 [Axis 1 0 1]) [c0] false).
  exists (CfIn 1 (fun _ => [Bond 1 0 (1/2) 1 (V3 0 0 0)]) [(0%nat, 0%nat)] 1 2 [c0] None).
  split; [unfold cf_make; simpl; rewrite Rle_bool_false by lra; reflexivity|]. split; [reflexivity|]. split; [reflexivity|]. split; [|reflexivity].
  intros b [<-|[]]. simpl. lia.
Qed.

(** Two real values 2 and 3 one bond apart, in the second of two bins: mean 6, then with a second frame of values 1 and i. *)
Definition ex_bond : bond := Bond 0 0 (3/4) 1 (V3 0 0 0).
Definition ex_f1 : cf_in := CfIn 1 (fun _ => [ex_bond]) [(0%nat, 0%nat)] 1 1 [(2, 0)] (Some [(3, 0)]).
Definition ex_f2 : cf_in := CfIn 1 (fun _ => [ex_bond]) [(1%nat, 0%nat)] 1 1 [(0, 1)] (Some [(1, 0)]).
Example C50_ex : exists s0 s, cf_make 2 1 = Some s0 /\
  Forall (cf_op_ok 2) [CfCompute true ex_f1; CfCompute false ex_f2] /\
  bin_bonds 2 1 1 (cf_since [CfCompute true ex_f1; CfCompute false ex_f2] []) = [(ex_f1, ex_bond); (ex_f2, ex_bond)] /\
  cf_run s0 ([CfCompute true ex_f1; CfCompute false ex_f2] ++ [CfRead [(0,0);(0,1)]%nat [(1,0);(1,1)]%nat]) = Some s /\
  nth 0 (cf_out s) c0 = c0 /\ cscale 2 (nth 1 (cf_out s) c0) = (6, -1) /\ cf_correlation s = inl (cf_out s).
Proof.
  set (h := [CfCompute true ex_f1; CfCompute false ex_f2]).
  destruct (cf_make 2 1) as [s0|] eqn:E0; [|unfold cf_make in E0; simpl in E0; rewrite Rle_bool_false in E0 by lra; discriminate].
  assert (X0 : execution 0 (Z.to_nat 2) [(0,0);(0,1)]%nat) by exact (sequential_execution 0 2 0).
  assert (X1 : execution 0 (Z.to_nat 2) [(1,0);(1,1)]%nat) by exact (sequential_execution 0 2 1).
  assert (Hh : Forall (cf_op_ok 2) h).
  { constructor; [|constructor; [|constructor]]; (split; [|split; [reflexivity|split; [reflexivity|]]]).
    - exact (sequential_execution 0 1 0).
    - intros b [<-|[]]; simpl; lia.
    - exact (sequential_execution 0 1 1).
    - intros b [<-|[]]; simpl; lia. }
  assert (B : forall i, bin_bonds 2 1 i (cf_since h []) = if (i =? 1)%nat then [(ex_f1, ex_bond); (ex_f2, ex_bond)] else []).
  { intros i. unfold bin_bonds, h, cf_since, ci_every, cf_edge. simpl flat_map. cbn [filter snd]. change (bd ex_bond) with (3/4).
    destruct (Nat.eqb_spec i 1) as [->|Ni].
    - simpl INR. rewrite Rle_bool_true by lra. rewrite Rlt_bool_true by lra. reflexivity.
    - destruct i as [|[|i]]; [|contradiction|].
      + rewrite (Rlt_bool_false (3/4)) by (simpl INR; lra). rewrite !andb_false_r. reflexivity.
      + rewrite (Rle_bool_false _ (3/4)) by (rewrite !S_INR; pose proof (pos_INR i); lra). reflexivity. }
  destruct (C50_mean 2 1 s0 h _ _ ltac:(unfold OVERFLOW_BIN; lia) E0 Hh X0 X1) as (s & R & _ & V & _ & NC).
  { intros i. rewrite B. destruct (i =? 1)%nat; simpl; lia. }
  exists s0, s. split; [reflexivity|]. split; [exact Hh|]. split; [apply (B 1%nat)|]. split; [exact R|].
  split; [apply (V 0%nat ltac:(simpl; lia)); apply (B 0%nat)|]. split.
  - destruct (V 1%nat ltac:(simpl; lia)) as [_ V1]. rewrite B in V1. simpl in V1. unfold cscale in *. simpl in *.
    unfold cadd, cmul, cconj, c0 in *; simpl in V1. injection V1 as V1 V2. f_equal; lra.
  - apply NC. intros F. inversion F as [|? ? _ F2]; subst. inversion F2 as [|? ? F3 _]; subst. specialize (F3 (0, 1) (or_introl (or_introl eq_refl))). simpl in F3. lra.
Qed.

Print Assumptions C50_reject.
Print Assumptions C50_sizes.
Print Assumptions C50_mean.
Print Assumptions C50_default_query_values_refuted.
Print Assumptions C50_ex.
