(** C66: static structure factors, Debye. *)
From Verif Require Import BoxProofs BoxProps MArrayProofs HistProofs HistProofs2 HistProps ParProofs MatchEnvProofs CorrProps SfProofs.
From Coq Require Import Lra Lia Permutation.
From Verif Require Import BoxSpec SfSpec.
Local Open Scope R_scope.

(** The constructor: one k value is accepted but makes the axis infinite. *)
Theorem C66_debye_constructor bins k_max k_min : (0 <= bins < 2 ^ 31)%Z ->
  (deb_make bins k_max k_min = DebRaised <-> bins = 0%Z \/ k_min < 0 \/ k_max <= k_min) /\
  ((exists s, deb_make bins k_max k_min = DebOk s) <-> (2 <= bins)%Z /\ 0 <= k_min < k_max).
Proof.
  intros Hb. unfold deb_make. destruct (Z.eqb_spec bins 0) as [B|B]; [split; [tauto|split; [intros [s H]; discriminate|lia]]|].
  destruct (Rleb_spec k_max 0) as [K|K]; [split; [split; [intros _; destruct (Rlt_le_dec k_min 0); [tauto|right; right; lra]|tauto]|split; [intros [s H]; discriminate|lra]]|].
  destruct (Rltb_spec k_min 0) as [M|M]; [split; [tauto|split; [intros [s H]; discriminate|lra]]|]. destruct (Rleb_spec k_max k_min) as [N|N]; [split; [tauto|split; [intros [s H]; discriminate|lra]]|].
  rewrite Z.mod_small by lia. destruct (Z.eqb_spec (2 * (bins - 1)) 0) as [Q|Q]; (split; [split; [discriminate|intros [H|[H|H]]; [lia|lra|lra]]|split]).
  - intros [s H]; discriminate.
  - lia.
  - intros _. split; [lia|lra].
  - intros _. eexists. reflexivity.
Qed.
Theorem C66_debye_one_value_refuted : exists k_max k_min, 0 <= k_min < k_max /\ deb_make 1 k_max k_min = DebNotFinite.
Proof. exists 1, 0. split; [lra|]. unfold deb_make. simpl. rewrite (proj2 (Rleb_false _ _)) by lra. rewrite (proj2 (Rltb_false _ _)) by lra. reflexivity. Qed.

Lemma deb_state bins k_max k_min s0 : (0 <= bins < 2 ^ 31)%Z -> deb_make bins k_max k_min = DebOk s0 -> (2 <= bins)%Z /\ 0 <= k_min < k_max /\
  exists a, s0 = Sdb a (bhc_make 0 [a]) (repeat 0 (Z.to_nat bins)) None /\ valid_axes [a] /\ ax_n a = bins /\ forall i, (i < Z.to_nat bins)%nat -> nth i (bin_centers a) 0 = deb_k bins k_max k_min i.
Proof.
  intros Hb H. destruct (proj1 (proj2 (C66_debye_constructor bins k_max k_min Hb)) (ex_intro _ _ H)) as [B K]. split; [exact B|]. split; [exact K|].
  revert H. unfold deb_make. destruct (Z.eqb_spec bins 0); [discriminate|]. destruct (Rleb k_max 0); [discriminate|]. destruct (Rltb k_min 0); [discriminate|]. destruct (Rleb k_max k_min); [discriminate|]. rewrite Z.mod_small by lia. destruct (Z.eqb_spec (2 * (bins - 1)) 0); [lia|].
  set (d := (2 * (bins - 1))%Z). intros H. assert (E0 := f_equal (fun m => match m with DebOk s => s | _ => s0 end) H). cbn beta iota in E0. rewrite <- E0. clear H E0. eexists. split; [reflexivity|].
  assert (BP : 0 < IZR (bins - 1)) by (apply (IZR_lt 0); lia). assert (B0 : 0 < IZR bins) by (apply (IZR_lt 0); lia). assert (BM : IZR bins = IZR (bins - 1) + 1) by (rewrite minus_IZR; ring).
  assert (EP : IZR d = 2 * IZR (bins - 1)) by (unfold d; rewrite mult_IZR; reflexivity). rewrite EP.
  assert (PO : 0 < (k_max - k_min) / (2 * IZR (bins - 1))) by (apply Rdiv_lt_0_compat; lra).
  set (a := Axis _ _ _). assert (V : valid_axis a) by (split; simpl; [unfold OVERFLOW_BIN; lia|lra]). split; [split; [constructor; [exact V|constructor]|unfold size_of, OVERFLOW_BIN; simpl; destruct bins; lia]|]. split; [reflexivity|].
  intros i Hi. destruct (C13_edges a V) as (_ & _ & _ & _ & _ & C). specialize (C (Z.of_nat i)). rewrite Nat2Z.id in C. rewrite C by (simpl; lia). unfold interval_lo, deb_k, a; simpl. rewrite plus_IZR, <- INR_IZR_INZ. rewrite BM at 1. rewrite BM at 1. field. lra.
Qed.
(** k_values are the requested ones: evenly spaced, the first is k_min and the last k_max. *)
Theorem C66_debye_k_values bins k_max k_min s0 : (0 <= bins < 2 ^ 31)%Z -> deb_make bins k_max k_min = DebOk s0 ->
  length (deb_k_values s0) = Z.to_nat bins /\ (forall i, (i < Z.to_nat bins)%nat -> nth i (deb_k_values s0) 0 = deb_k bins k_max k_min i) /\
  deb_k bins k_max k_min 0 = k_min /\ deb_k bins k_max k_min (Z.to_nat bins - 1) = k_max.
Proof.
  intros Hb H. destruct (deb_state _ _ _ _ Hb H) as (B & K & a & -> & V & N & C). unfold deb_k_values; cbn [db_axis]. split; [rewrite bin_centers_length, N; reflexivity|]. split; [exact C|].
  assert (BP : 0 < IZR (bins - 1)) by (apply (IZR_lt 0); lia). unfold deb_k. split; [simpl; ring|]. rewrite INR_IZR_INZ. replace (Z.of_nat (Z.to_nat bins - 1)) with (bins - 1)%Z by lia. field. lra.
Qed.
Print Assumptions C66_debye_k_values.

Section Debye.
  Variable j0 : R -> R.
  Lemma value_deb f k : 0 <= k -> deb_value j0 f k = deb_spec j0 f k.
  Proof.
    intros K. unfold deb_value, deb_spec, Rdiv. f_equal. rewrite fold_lsum, Rplus_0_l. unfold compute_all_distances.
    assert (L : forall (g : R -> R) l, lsum g (concat l) = lsum (fun A => lsum g A) l) by (intros g; induction l as [|A l IH]; simpl; [reflexivity|]; rewrite lsum_app, IH; reflexivity).
    rewrite L, lsum_map. apply lsum_ext. intros p _. rewrite lsum_map. apply lsum_ext. intros q _. unfold deb_term, compute_distance. destruct (b_2d (si_box f)).
    - rewrite Rmax_right by exact K. reflexivity.
    - unfold sinc. destruct (Req_EM_T _ 0) as [E|E]; [rewrite (proj2 (Reqb_true _ _) E)|rewrite (proj2 (Reqb_false _ _) E)]; reflexivity.
  Qed.
  Variables (bins : Z) (a : axis).
  Hypothesis Ha : valid_axes [a].
  Hypothesis Hbins : ax_n a = bins.
  Definition dframe (f : sf_in) : frame R unit := Frame (Z.to_nat bins) (fun i => [([nth i (bin_centers a) 0], deb_value j0 f (nth i (bin_centers a) 0))]) (si_ev f) tt.
  Definition dop (o : sf_op) : hop R unit := match o with SfCompute r f => Compute r (dframe f) | SfRead e _ => Read e end.
  Definition wfh (h : hist R) : Prop := h_axes h = [a] /\ ma_shape (h_counts h) = [bins].
  Definition wfl (ls : locals (option (hist R))) : Prop := Forall (fun tl => match snd tl with Some h => wfh h | None => True end) ls.
  Lemma Hva : valid_axis a. Proof. destruct Ha as [H _]. inversion H; assumption. Qed.
  Lemma center_bin i : (i < Z.to_nat bins)%nat -> axis_bin a (nth i (bin_centers a) 0) = Z.of_nat i.
  Proof.
    intros Hi. assert (V := Hva). destruct (C13_edges a V) as (_ & _ & E0 & En & _ & C). specialize (C (Z.of_nat i)). rewrite Nat2Z.id in C. specialize (C ltac:(lia)). rewrite C.
    assert (W : forall x y, (x < y)%Z -> interval_lo a x < interval_lo a y).
    { intros x y H. unfold interval_lo. apply Rplus_lt_compat_l. apply Rmult_lt_compat_r; [|apply IZR_lt; exact H]. destruct V. apply Rdiv_lt_0_compat; [lra|]. apply (IZR_lt 0). lia. }
    assert (W1 := W (Z.of_nat i) (Z.of_nat i + 1)%Z ltac:(lia)). set (v := (interval_lo a (Z.of_nat i) + interval_lo a (Z.of_nat i + 1)) / 2).
    assert (Lo : interval_lo a 0 <= interval_lo a (Z.of_nat i)) by (destruct (Nat.eq_dec i 0) as [->|]; [right; reflexivity|left; apply W; lia]).
    assert (Hi' : interval_lo a (Z.of_nat i + 1) <= interval_lo a (ax_n a)) by (destruct (Z.eq_dec (Z.of_nat i + 1) (ax_n a)) as [->|]; [right; reflexivity|left; apply W; lia]).
    destruct (C13_in_range a v V) as (_ & _ & U); [unfold v; lra|]. symmetry. apply U. unfold v; lra.
  Qed.
  Lemma increment_add h i w : wfh h -> (i < Z.to_nat bins)%nat -> hist_increment Rplus h (Z.of_nat i) w = hist_add Rplus h [nth i (bin_centers a) 0] w.
  Proof.
    intros [H1 H2] Hi. assert (V := Hva). unfold hist_add, hist_bin. rewrite H1, H2. cbn [length Nat.eqb negb axes_bins]. rewrite center_bin by exact Hi.
    destruct V as [V _]. destruct (Z.eqb_spec (Z.of_nat i) OVERFLOW_BIN); [lia|]. rewrite get_index_in_range by (constructor; [lia|constructor]). cbn [bind]. f_equal. unfold row_major; simpl. lia.
  Qed.
  Lemma increment_wf h i w h' : wfh h -> hist_increment Rplus h i w = Some h' -> wfh h'.
  Proof.
    intros [H1 H2]. unfold hist_increment. destruct (_ =? _)%Z; [intros E; injection E as <-; split; assumption|]. destruct (ma_get _ _); [|discriminate]. cbn [bind]. unfold ma_set. destruct (_ || _)%bool; [discriminate|]. cbn [bind]. intros E; injection E as <-. split; assumption.
  Qed.
  Lemma make_wf : wfh (hist_make 0 [a]). Proof. split; [reflexivity|]. simpl. rewrite Hbins. reflexivity. Qed.
  Lemma step_eq f i (o : option (hist R)) : match o with Some h => wfh h | None => True end -> (i < Z.to_nat bins)%nat ->
    let o1 := bind o (fun h => hist_increment Rplus h (Z.of_nat i) (deb_value j0 f (nth i (bin_centers a) 0))) in
    o1 = bind o (hist_add_all Rplus [([nth i (bin_centers a) 0], deb_value j0 f (nth i (bin_centers a) 0))]) /\ match o1 with Some h => wfh h | None => True end.
  Proof.
    intros W Hi. destruct o as [h|]; [|split; [reflexivity|exact I]]. cbn [bind]. split.
    - unfold hist_add_all; cbn [fold_left fst snd bind]. apply increment_add; assumption.
    - destruct (hist_increment _ _ _ _) eqn:E; [|exact I]. apply (increment_wf _ _ _ _ W E).
  Qed.
  Lemma locals_eq f : (forall e, List.In e (si_ev f) -> (snd e < Z.to_nat bins)%nat) -> forall ls, wfl ls ->
    deb_locals j0 a f ls = accumulate 0 Rplus [a] (fr_samples (dframe f)) (si_ev f) ls /\ wfl (deb_locals j0 a f ls).
  Proof.
    unfold deb_locals, accumulate, run_local. induction (si_ev f) as [|e ev IH]; intros He ls W; [split; [reflexivity|exact W]|]. cbn [fold_left].
    assert (Hi := He e (or_introl eq_refl)).
    assert (U : local_update (Some (hist_make 0 [a])) (fun o => bind o (fun h => hist_increment Rplus h (Z.of_nat (snd e)) (deb_value j0 f (nth (snd e) (bin_centers a) 0)))) (fst e) ls =
      local_update (Some (hist_make 0 [a])) (fun o => bind o (hist_add_all Rplus (fr_samples (dframe f) (snd e)))) (fst e) ls /\
      wfl (local_update (Some (hist_make 0 [a])) (fun o => bind o (fun h => hist_increment Rplus h (Z.of_nat (snd e)) (deb_value j0 f (nth (snd e) (bin_centers a) 0)))) (fst e) ls)).
    { clear IH. induction ls as [|[t o] ls IHl].
      - cbn [local_update]. destruct (step_eq f (snd e) (Some (hist_make 0 [a])) make_wf Hi) as [A B]. split; [f_equal; f_equal; exact A|constructor; [exact B|constructor]].
      - inversion W as [|? ? W1 W2]; subst. cbn [local_update]. cbn [snd] in W1. destruct (step_eq f (snd e) o W1 Hi) as [A B]. destruct (Nat.eqb _ _).
        + split; [f_equal; f_equal; exact A|constructor; [exact B|exact W2]].
        + destruct (IHl W2) as [C D]. split; [f_equal; exact C|constructor; [exact W1|exact D]]. }
    destruct U as [U1 U2]. destruct (IH (fun x Hx => He x (or_intror Hx)) _ U2) as [A B]. split; [|exact B]. rewrite A. f_equal. exact U1.
  Qed.
  Definition out_deb (c : bhc R unit) : option (list R) :=
    omap (fun i => option_map (fun x => x / INR (bhc_frames c)) (ma_get (h_counts (bhc_hist c)) (Z.of_nat i))) (seq 0 (Z.to_nat bins)).
  Record DInv (s : sdb) (h : list sf_op) : Prop := {
    di_axis : db_axis s = a;
    di_axes : bhc_axes (db_s s) = [a];
    di_s : run_history 0 Rplus (bhc_make 0 [a]) (map dop h) = Some (db_s s);
    di_wf : wfl (bhc_locals (db_s s));
    di_out : bhc_reduce (db_s s) = false -> out_deb (db_s s) = Some (db_out s) }.
  Lemma dsize : size_of (map ax_n [a]) = bins.
  Proof. unfold size_of; simpl. rewrite Hbins. destruct bins; lia. Qed.
  Lemma dops_ok h : Forall (deb_ok bins) h -> Forall (valid_hop [a]) (map dop h).
  Proof.
    intros H. apply Forall_map; (eapply Forall_impl; [|exact H]); intros [r f|e1 e2] Ho; unfold valid_hop, dop; cbv beta iota.
    - split; [apply Ho|]. intros i x [<-|[]]; reflexivity.
    - rewrite dsize. exact Ho.
  Qed.
  Lemma dcells i : (i < Z.to_nat bins)%nat -> in_shape (map ax_n [a]) [Z.of_nat i] /\ row_major (map ax_n [a]) [Z.of_nat i] = Z.of_nat i.
  Proof. intros Hi. split; [constructor; [split; lia|constructor]|unfold row_major; simpl; lia]. Qed.
  Lemma read_parts (s s' : bhc R unit) e : bhc_read 0 Rplus s e = Some s' -> bhc_axes s' = bhc_axes s /\ bhc_locals s' = bhc_locals s.
  Proof.
    unfold bhc_read. destruct (bhc_reduce s) eqn:E; [|intros X; injection X as <-; auto]. destruct (collect _) as [ls|]; [|discriminate]. cbn [bind].
    destruct (tlh_reduce_into _ _ _ _ _); [|discriminate]. cbn [bind]. intros X; injection X as <-. auto.
  Qed.
  Lemma dread h e e2 s : DInv s h -> Forall (deb_ok bins) h -> execution 0 (Z.to_nat bins) e ->
    exists s', deb_read s e = Some s' /\ DInv s' (h ++ [SfRead e e2]) /\ bhc_reduce (db_s s') = false /\ db_min s' = db_min s.
  Proof.
    intros [Ia Ib Is Iw Io] Hh He. assert (Od := dops_ok h Hh).
    destruct (C17_history 0 Rplus [a] (map dop h) e R_laws Ha Od) as (c & Rc & Cc & _); [rewrite dsize; exact He|].
    pose proof Rc as Rc'. rewrite run_snoc, Is in Rc. cbn [bind run_hop] in Rc.
    assert (Out : out_deb c <> None).
    { unfold out_deb. rewrite (omap_some _ (fun i => match ma_get (h_counts (bhc_hist c)) (Z.of_nat i) with Some x => x / INR (bhc_frames c) | None => 0 end)); [discriminate|].
      intros i Hi. apply in_seq in Hi. destruct (dcells i ltac:(lia)) as [IS RM]. specialize (Cc _ IS). rewrite RM in Cc. rewrite Cc. reflexivity. }
    pose proof (read_flag _ _ _ _ _ Rc) as Fc. destruct (read_parts _ _ _ Rc) as [Pa Pl]. unfold deb_read. destruct (bhc_reduce (db_s s)) eqn:Er.
    - rewrite Rc, Ia, Hbins. fold (out_deb c). destruct (out_deb c) as [out|] eqn:Eo; [|congruence]. eexists. split; [reflexivity|]. split; [|split; [exact Fc|reflexivity]].
      constructor; cbn [db_axis db_s db_out]; auto; [congruence|rewrite map_app; exact Rc'|rewrite Pl; exact Iw].
    - exists s. split; [reflexivity|]. assert (c = db_s s) by (unfold bhc_read in Rc; rewrite Er in Rc; congruence). subst c. split; [|auto]. constructor; auto. rewrite map_app. exact Rc'.
  Qed.
  Lemma drun : forall h s dn, DInv s dn -> Forall (deb_ok bins) dn -> Forall (deb_ok bins) h -> exists s', deb_run j0 s h = Some s' /\ DInv s' (dn ++ h).
  Proof.
    induction h as [|o h IH]; intros s dn I D Hh; [exists s; rewrite app_nil_r; auto|]. apply Forall_cons_iff in Hh as [Ho Hh']. unfold deb_run. cbn [ofold].
    assert (D' : Forall (deb_ok bins) (dn ++ [o])) by (apply Forall_app; auto).
    assert (S : exists s1, deb_step j0 s o = Some s1 /\ DInv s1 (dn ++ [o])).
    { destruct o as [r f|e1 e2]; cbn [deb_step].
      - eexists. split; [reflexivity|]. destruct Ho as [He _]. destruct I as [Ia Ib Is Iw Io]. unfold deb_compute, deb_accumulate.
        assert (EV : forall e, List.In e (si_ev f) -> (snd e < Z.to_nat bins)%nat). { intros e Hi. assert (P := execution_perm _ _ _ He). assert (X := Permutation_in _ P (in_map snd _ _ Hi)). unfold range in X. apply in_seq in X. lia. }
        assert (W : wfl (bhc_locals (db_s (if r then deb_reset s else s)))).
        { destruct r; [|exact Iw]. unfold deb_reset; cbn [db_s bhc_locals bhc_reset]. unfold wfl. apply Forall_map. eapply Forall_impl; [|exact Iw]. intros [t [h0|]]; cbn [snd fst option_map]; auto. }
        assert (AX : db_axis (if r then deb_reset s else s) = a) by (destruct r; exact Ia). destruct (locals_eq f EV _ W) as [L1 L2].
        constructor; cbn [db_axis db_s db_out bhc_axes bhc_locals bhc_reduce]; rewrite ?AX; auto.
        + destruct r; [exact Ib|exact Ib].
        + rewrite map_app; cbn [map dop]. rewrite run_snoc, Is. cbn [bind run_hop]. unfold bhc_compute, bhc_accumulate. rewrite L1. cbn [fr_ev dframe fr_data].
          assert (BA : bhc_axes (if r then bhc_reset 0 (db_s s) else db_s s) = [a]) by (destruct r; exact Ib). rewrite BA. destruct r; cbn [deb_reset db_s bhc_axes bhc_reset]; rewrite ?Ib; reflexivity.
        + discriminate.
      - destruct (dread dn e1 e2 s I D Ho) as (s1 & A & B & _). eauto. }
    destruct S as (s1 & E1 & I1). rewrite E1. destruct (IH s1 (dn ++ [o]) I1 D' Hh') as (s' & R & I'). exists s'. split; [exact R|]. rewrite <- app_assoc in I'. exact I'.
  Qed.
  Lemma dframes h : forall acc, frames_since (map dop h) (map dframe acc) = map dframe (sf_since h acc).
  Proof. induction h as [|[[|] f|e1 e2] h IH]; intros acc; simpl; auto; [apply (IH [f])|rewrite <- IH, map_app; reflexivity]. Qed.
  Variable ks : nat -> R.
  Hypothesis Hks : forall i, (i < Z.to_nat bins)%nat -> nth i (bin_centers a) 0 = ks i /\ 0 <= ks i.
  Lemma dweights i fs : (i < Z.to_nat bins)%nat -> weights_in [a] [Z.of_nat i] (flat_map frame_samples (map dframe fs)) = map (fun f => deb_spec j0 f (ks i)) fs.
  Proof.
    intros Hi. unfold weights_in. induction fs as [|f fs IH]; [reflexivity|]. cbn [map flat_map]. rewrite filter_app, map_app, IH. change (deb_spec j0 f (ks i) :: map (fun f => deb_spec j0 f (ks i)) fs) with ([deb_spec j0 f (ks i)] ++ map (fun f => deb_spec j0 f (ks i)) fs). f_equal. clear IH.
    unfold frame_samples, dframe; cbn [fr_n fr_samples]. unfold range. rewrite Nat.sub_0_r.
    assert (T : forall j, (j < Z.to_nat bins)%nat -> in_cellb [a] [Z.of_nat i] [nth j (bin_centers a) 0] = Nat.eqb j i).
    { intros j Hj. assert (V := Hva). apply Bool.eq_iff_eq_true. rewrite in_cellb_iff by (constructor; [lia|constructor]). rewrite Nat.eqb_eq. assert (CB := center_bin j Hj).
      assert (R : ax_min a <= nth j (bin_centers a) 0 < ax_max a). { destruct (Rlt_le_dec (nth j (bin_centers a) 0) (ax_min a)) as [Q|Q]; [|destruct (Rle_lt_dec (ax_max a) (nth j (bin_centers a) 0)) as [Q'|Q']; [|split; assumption]]; exfalso; (rewrite axis_bin_out in CB by lra); destruct V as [V _]; lia. }
      destruct (C13_in_range a _ V R) as (_ & I1 & U). rewrite CB in I1, U. split.
      - intros X. inversion X as [|? ? ? ? ? ? _ Y _]; subst. apply U in Y. lia.
      - intros ->. constructor; [lia|exact I1|constructor]. }
    assert (G : forall n d, (d + n <= Z.to_nat bins)%nat -> map snd (filter (fun s => in_cellb [a] [Z.of_nat i] (fst s)) (flat_map (fun j => [([nth j (bin_centers a) 0], deb_value j0 f (nth j (bin_centers a) 0))]) (seq d n))) = if ((d <=? i) && (i <? d + n))%nat then [deb_spec j0 f (ks i)] else []).
    { induction n as [|n IHn]; intros d Hd.
      - cbn [seq flat_map filter map]. destruct (Nat.leb_spec d i); destruct (Nat.ltb_spec i (d + 0)); cbn [andb]; auto; lia.
      - cbn [seq flat_map app filter fst]. rewrite T by lia. destruct (Nat.eqb_spec d i) as [->|ND].
        + cbn [map snd]. rewrite IHn by lia. destruct (Hks i Hi) as [-> K]. rewrite value_deb by exact K. destruct (Nat.leb_spec i i); [|lia]. destruct (Nat.ltb_spec i (i + S n)); [|lia]. destruct (Nat.leb_spec (S i) i); [lia|]. reflexivity.
        + rewrite IHn by lia. destruct (Nat.leb_spec (S d) i); destruct (Nat.leb_spec d i); destruct (Nat.ltb_spec i (S d + n)); destruct (Nat.ltb_spec i (d + S n)); cbn [andb]; auto; lia. }
    rewrite G by lia. destruct (Nat.leb_spec 0 i); [|lia]. destruct (Nat.ltb_spec i (0 + Z.to_nat bins)); [|lia]. reflexivity.
  Qed.
End Debye.

(** Reading after any history of compute calls and reads, for every schedule: entry i is the mean over the frames since the last reset of the
    Debye formula at the i-th requested k. *)
Theorem C66_debye j0 bins k_max k_min s0 h e e' :
  (0 <= bins < 2 ^ 31)%Z -> deb_make bins k_max k_min = DebOk s0 -> Forall (deb_ok bins) (h ++ [SfRead e e']) -> sf_since h [] <> [] ->
  exists s, deb_run j0 s0 (h ++ [SfRead e e']) = Some s /\ length (db_out s) = Z.to_nat bins /\
    forall i, (i < Z.to_nat bins)%nat -> nth i (db_out s) 0 = mean_over (fun f => deb_spec j0 f (deb_k bins k_max k_min i)) (sf_since h []).
Proof.
  intros Hb Hm Hh NE. destruct (deb_state _ _ _ _ Hb Hm) as (B & K & a & E0 & Va & Na & C). apply Forall_app in Hh as [Hh He]. inversion He as [|? ? He1 _]; subst x l. cbn [deb_ok] in He1.
  assert (KS : forall i, (i < Z.to_nat bins)%nat -> nth i (bin_centers a) 0 = deb_k bins k_max k_min i /\ 0 <= deb_k bins k_max k_min i).
  { intros i Hi. split; [apply C; exact Hi|]. unfold deb_k. assert (BP : 0 < IZR (bins - 1)) by (apply (IZR_lt 0); lia). assert (0 <= INR i * ((k_max - k_min) / IZR (bins - 1))); [|lra]. apply Rmult_le_pos; [apply pos_INR|]. left. apply Rdiv_lt_0_compat; lra. }
  assert (I0 : DInv j0 bins a s0 []). { rewrite E0. constructor; cbn [db_axis db_s db_out bhc_make bhc_axes bhc_locals bhc_reduce map]; auto; [constructor|discriminate]. }
  destruct (drun j0 bins a Va Na h s0 [] I0 (Forall_nil _) Hh) as (s1 & R1 & I1). cbn [app] in I1.
  destruct (dread j0 bins a Va Na h e e' s1 I1 Hh He1) as (s & Rs & I & Fl & _).
  exists s. split; [unfold deb_run in *; rewrite ofold_app, R1; cbn [ofold deb_step]; rewrite Rs; reflexivity|]. destruct I as [_ _ Is _ Io]. specialize (Io Fl).
  rewrite map_app in Is. cbn [map dop] in Is. destruct (C17_history 0 Rplus [a] (map (dop j0 bins a) h) e R_laws Va (dops_ok j0 bins a Na h Hh)) as (c & Rc & Cc & Fr & _); [rewrite (dsize bins a Na); exact He1|].
  assert (c = db_s s) by congruence. subst c. assert (FS := dframes j0 bins a h []). cbn [map] in FS. rewrite FS in Cc, Fr. rewrite map_length in Fr.
  split; [destruct (omap_nth _ _ _ 0 0%nat 0 Io) as [L _]; rewrite L, seq_length; reflexivity|]. intros i Hi.
  destruct (omap_nth _ _ _ i 0%nat 0 Io) as [_ N]. rewrite seq_length, seq_nth in N by lia. cbn [Nat.add] in N. specialize (N Hi).
  destruct (dcells bins a Na i Hi) as [IS RM]. specialize (Cc _ IS). rewrite RM in Cc. rewrite Cc in N. rewrite (dweights j0 bins a Va Na (deb_k bins k_max k_min) KS i _ Hi) in N. cbn [option_map] in N. rewrite Fr, sum_of_R, lsum_map in N. injection N as <-. reflexivity.
Qed.
Print Assumptions C66_debye.
Lemma dmin_read s e s' : deb_read s e = Some s' -> db_min s' = db_min s.
Proof. unfold deb_read. destruct (bhc_reduce _); [|intros H; injection H as <-; auto]. destruct (bhc_read _ _ _ _); [|discriminate]. destruct (omap _ _); [|discriminate]. intros H; injection H as <-. auto. Qed.
Lemma dsince_snoc h o : forall acc, sf_since (h ++ [o]) acc = match o with SfCompute true f => [f] | SfCompute false f => sf_since h acc ++ [f] | SfRead _ _ => sf_since h acc end.
Proof. induction h as [|[[|] g|e1 e2] h IH]; intros acc; simpl; auto. Qed.
Lemma domin_fold (g : sf_in -> R) fs : forall x, exists y, fold_left (fun o f => omin o (g f)) fs (Some x) = Some y /\ is_min y (x :: map g fs).
Proof.
  induction fs as [|f fs IH]; intros x; [exists x; split; [reflexivity|]; split; [left; reflexivity|intros y [<-|[]]; lra]|]. cbn [fold_left omin map].
  destruct (IH (Rmin x (g f))) as (y & E & [I M]). exists y. split; [exact E|]. split.
  - destruct I as [<-|I]; [unfold Rmin; destruct (Rle_dec _ _); simpl; auto|simpl; auto].
  - intros z Hz. assert (L := M _ (or_introl eq_refl)). destruct Hz as [<-|[<-|Hz]]; [|  |apply M; right; exact Hz]; eapply Rle_trans; [exact L|apply Rmin_l|exact L|apply Rmin_r].
Qed.
(** min_valid_k is the smallest over the frames since the last reset of 4 pi / L. *)
Theorem C66_debye_min_valid_k j0 bins k_max k_min s0 h s : (0 <= bins < 2 ^ 31)%Z -> deb_make bins k_max k_min = DebOk s0 -> deb_run j0 s0 h = Some s ->
  (sf_since h [] = [] -> db_min s = None) /\
  (sf_since h [] <> [] -> exists x, db_min s = Some x /\ is_min x (map (fun f => 4 * PI / box_length (si_box f)) (sf_since h []))).
Proof.
  intros Hb Hm R. destruct (deb_state _ _ _ _ Hb Hm) as (_ & _ & a & E0 & _).
  assert (G : db_min s = fold_left (fun o f => omin o (2 * TWO_PI / min_length (si_box f))) (sf_since h []) None).
  { revert s R. induction h as [|o h IH] using rev_ind; intros s R; [injection R as <-; rewrite E0; reflexivity|].
    unfold deb_run in R. rewrite ofold_app in R. fold (deb_run j0 s0 h) in R. destruct (deb_run j0 s0 h) as [s1|] eqn:R1; [|discriminate]. specialize (IH s1 eq_refl). rewrite dsince_snoc. cbn [ofold] in R. destruct o as [r f|e1 e2]; cbn [deb_step] in R.
    - injection R as <-. unfold deb_compute, deb_accumulate. cbn [db_min]. destruct r; [reflexivity|]. rewrite IH, fold_left_app. reflexivity.
    - destruct (deb_read s1 e1) as [s2|] eqn:E; [|discriminate]. injection R as <-. rewrite (dmin_read _ _ _ E). exact IH. }
  assert (LE : forall b, 2 * TWO_PI / min_length b = 4 * PI / box_length b).
  { intros b. unfold min_length, box_length. destruct (b_2d b); [|rewrite Rmin_assoc]; unfold TWO_PI, Rdiv; ring. }
  split; [intros E; rewrite G, E; reflexivity|]. intros NE. rewrite G. destruct (sf_since h []) as [|f fs]; [congruence|]. cbn [fold_left omin].
  destruct (domin_fold (fun f => 2 * TWO_PI / min_length (si_box f)) fs (2 * TWO_PI / min_length (si_box f))) as (y & E & M). exists y. split; [exact E|]. cbn [map]. rewrite <- LE. rewrite (map_ext _ (fun f => 2 * TWO_PI / min_length (si_box f))) by (intros; rewrite LE; reflexivity). exact M.
Qed.
Print Assumptions C66_debye_min_valid_k.

(** * The Debye formula *)
Lemma sinc_bound x : Rabs (sin x) <= Rabs x.
Proof.
  assert (P : forall y, 0 <= y -> Rabs (sin y) <= y).
  { intros y Hy. destruct (Rlt_le_dec y 1) as [H|H].
    - destruct (Req_dec y 0) as [->|N]; [rewrite sin_0, Rabs_R0; lra|]. assert (0 < y) by lra. assert (B := PI_RGT_0). assert (P2 := PI2_1). assert (0 < sin y) by (apply sin_gt_0; lra). rewrite Rabs_right by lra. left. apply sin_lt_x. assumption.
    - assert (B := SIN_bound y). apply Rabs_le. lra. }
  destruct (Rle_lt_dec 0 x) as [H|H]; [rewrite (Rabs_right x) by lra; apply P; exact H|]. rewrite (Rabs_left x) by exact H. rewrite <- (Rabs_Ropp (sin x)), <- sin_neg. apply P. lra.
Qed.
Lemma lsum_abs {A} (g : A -> R) l B : (forall x, In x l -> Rabs (g x) <= B) -> Rabs (lsum g l) <= INR (length l) * B.
Proof.
  induction l as [|x l IH]; intros H; [simpl; rewrite Rabs_R0; lra|]. cbn [lsum length]. rewrite S_INR. eapply Rle_trans; [apply Rabs_triang|]. assert (H1 := H x (or_introl eq_refl)). assert (H2 := IH (fun y Hy => H y (or_intror Hy))). lra.
Qed.
(** |S| <= |points| |query points| / N with equality at k = 0: S(0) = N for the total structure factor. *)
Theorem C66_debye_bound j0 f k : (forall x, Rabs (j0 x) <= 1) -> j0 0 = 1 -> (0 < si_total f)%nat ->
  Rabs (deb_spec j0 f k) <= INR (length (si_pts f)) * INR (length (si_query f)) / INR (si_total f) /\
  deb_spec j0 f 0 = INR (length (si_pts f)) * INR (length (si_query f)) / INR (si_total f) /\
  (si_q f = None -> deb_spec j0 f 0 = INR (length (si_pts f))).
Proof.
  intros J J0 T. assert (N : 0 < INR (si_total f)) by (apply lt_0_INR; exact T).
  assert (Z : deb_spec j0 f 0 = INR (length (si_pts f)) * INR (length (si_query f)) / INR (si_total f)).
  { unfold deb_spec. f_equal. rewrite (lsum_ext _ (fun _ => INR (length (si_query f)) * 1)); [rewrite lsum_const; ring|]. intros p _. rewrite <- lsum_const. apply lsum_ext. intros q _. cbv zeta. rewrite Rmult_0_l. destruct (b_2d _); [exact J0|]. destruct (Req_EM_T 0 0); [reflexivity|congruence]. }
  split; [|split; [exact Z|]].
  - unfold deb_spec, Rdiv. rewrite Rabs_mult, (Rabs_right (/ _)) by (left; apply Rinv_0_lt_compat; exact N). apply Rmult_le_compat_r; [left; apply Rinv_0_lt_compat; exact N|].
    apply lsum_abs. intros p _. eapply Rle_trans; [apply (lsum_abs _ _ 1)|lra]. intros q _. cbv zeta. set (x := k * _). destruct (b_2d _); [apply J|]. destruct (Req_EM_T x 0) as [E|E]; [rewrite Rabs_R1; lra|].
    unfold Rdiv. rewrite Rabs_mult, Rabs_inv. assert (A := Rabs_pos_lt x E). apply (Rmult_le_reg_r (Rabs x)); [exact A|]. rewrite Rmult_assoc, Rinv_l by lra. assert (S := sinc_bound x). lra.
  - intros Q. rewrite Z. unfold si_query, si_total in *. rewrite Q in *. field. lra.
Qed.
Print Assumptions C66_debye_bound.
(** Any particle may be given as any of its periodic images. *)
Theorem C66_debye_images j0 b P Q P' Q' ks ev n k :
  nonsingular b -> Forall (in_space b) P -> Forall (in_space b) Q -> Forall2 (image_of b) P' P -> Forall2 (image_of b) Q' Q ->
  deb_spec j0 (SfIn b P' (Some (Q', n)) ks ev) k = deb_spec j0 (SfIn b P (Some (Q, n)) ks ev) k.
Proof.
  intros N SP SQ HP HQ. unfold deb_spec, si_query, si_total; cbn [si_box si_pts si_q]. f_equal. revert SP. induction HP as [|p' p P' P Hp HP IH]; intros SP; [reflexivity|]. inversion SP; subst. cbn [lsum]. rewrite IH by assumption. f_equal. clear IH HP.
  revert SQ. induction HQ as [|q' q Q' Q Hq HQ IH]; intros SQ; [reflexivity|]. inversion SQ; subst. cbn [lsum]. rewrite IH by assumption. f_equal.
  assert (D := C08_distance_lattice_invariant b p q p' q' N). unfold compute_distance in D. rewrite D by assumption. reflexivity.
Qed.
Print Assumptions C66_debye_images.
Definition ex_deb : sf_in := SfIn (mk_box 1 1 1 0 0 0 false) [v0; V3 (1 / 4) 0 0] None [] [(0%nat, 0%nat); (0%nat, 1%nat)].
Example C66_debye_ex : (exists s0, deb_make 2 5 0 = DebOk s0) /\ Forall (deb_ok 2) ([SfCompute false ex_deb] ++ [SfRead [(0%nat, 0%nat); (0%nat, 1%nat)] []]) /\ sf_since [SfCompute false ex_deb] [] <> [] /\ deb_spec cos ex_deb 0 = 2.
Proof.
  split; [apply C66_debye_constructor; [lia|split; [lia|lra]]|]. assert (E : execution 0 2 [(0%nat, 0%nat); (0%nat, 1%nat)]) by exact (sequential_execution 0 2 0).
  split; [repeat constructor; exact E|]. split; [discriminate|]. destruct (C66_debye_bound cos ex_deb 0) as (_ & _ & G); [intros x; apply Rabs_le; assert (B := COS_bound x); lra|apply cos_0|unfold ex_deb, si_total; simpl; lia|]. rewrite G by reflexivity. simpl. ring.
Qed.
