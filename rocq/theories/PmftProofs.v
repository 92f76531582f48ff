(** Histories of a PMFT object. *)
From Verif Require Import PmftSpec HistProofs HistProofs2 HistProps ParProofs MatchEnvProofs MArrayProofs.
From Coq Require Import Lra Lia.
Local Open Scope R_scope.

(** * The counters of a state that has been reduced *)
Section counts.
  Context {F : Type}.
  Lemma inv_cells axes (s : bhc U32 F) cs : valid_axes axes -> inv (u32 0) u32_add axes s (map cframe cs) -> Forall (ci_ok axes) cs -> bhc_reduce s = false ->
    forall idx, in_shape (map ax_n axes) idx -> exists k, ma_get (h_counts (bhc_hist s)) (row_major (map ax_n axes) idx) = Some k /\
      u32_val k = (Z.of_nat (in_cells axes idx cs) mod 2 ^ 32)%Z.
  Proof.
    intros V (A & G & L & N & D & R) Ok Rf idx HS. rewrite (get_cell (u32 0) axes _ idx G HS). eexists. split; [reflexivity|].
    pose proof (row_major_range _ _ HS) as HR. rewrite (R Rf) by (unfold size_, shape_; lia). unfold all_samples.
    assert (AR : arity axes (flat_map frame_samples (map cframe cs))).
    { intros x Hx. apply in_flat_map in Hx as (f & Hf & Hx). apply in_map_iff in Hf as (c & <- & Hc). rewrite cframe_samples in Hx.
      apply in_map_iff in Hx as (p & <- & Hp). unfold ci_all in Hp. apply in_flat_map in Hp as (i & _ & Hp).
      rewrite Forall_forall in Ok. apply (proj2 (Ok c Hc) i p Hp). }
    change (map ax_n axes) with (shape_ axes). rewrite (wts_cell axes V idx _ HS AR).
    assert (W : weights_in axes idx (flat_map frame_samples (map cframe cs)) = map (fun _ => u32 1) (filter (in_cellb axes idx) (flat_map ci_all cs))).
    { clear. unfold weights_in. induction cs as [|f fs IH]; [reflexivity|]. cbn [map flat_map].
      rewrite !filter_app, !map_app, IH. f_equal. rewrite cframe_samples. induction (ci_all f) as [|p l IHl]; [reflexivity|].
      cbn [map filter fst]. destruct (in_cellb _ _ _); cbn [map snd]; rewrite IHl; reflexivity. }
    rewrite W. etransitivity; [exact (u32_sum_mod _)|]. rewrite u32_units. reflexivity.
  Qed.
End counts.

(** * Calls and frames *)
Lemma calls_snoc h o : forall acc, calls (h ++ [o]) acc =
  match o with PCompute true f => [f] | PCompute false f => calls h acc ++ [f] | PRead _ => calls h acc end.
Proof. induction h as [|[[|] g|e] h IH]; intros acc; simpl; auto. Qed.
Lemma fixed_snoc k fs f : fixed k (fs ++ [f]) = match fixed k fs with Some n => Some n | None => if shaped k f then Some (length (pf_eq f)) else None end.
Proof.
  unfold fixed. rewrite filter_app. destruct (filter (shaped k) fs) as [|g l]; simpl; auto. destruct (shaped k f); reflexivity.
Qed.
Lemma fixed_none k fs f : fixed k fs = None -> In f fs -> shaped k f = false.
Proof.
  unfold fixed. intros H I. destruct (shaped k f) eqn:E; auto. exfalso. assert (X : In f (filter (shaped k) fs)) by (apply filter_In; auto).
  destruct (filter (shaped k) fs); [contradiction|discriminate].
Qed.
(** Adding a call does not change which of the earlier ones count. *)
Lemma counted_snoc k fs f : filter (counted k (fs ++ [f])) fs = filter (counted k fs) fs.
Proof.
  assert (E : forall g, In g fs -> counted k (fs ++ [f]) g = counted k fs g).
  { intros g Hg. unfold counted. destruct k; auto. rewrite fixed_snoc. destruct (fixed XYZ fs) eqn:E; auto.
    rewrite (fixed_none _ _ _ E Hg). reflexivity. }
  revert E. generalize (counted k (fs ++ [f])) (counted k fs). induction fs as [|g fs IH]; intros u w E; simpl; auto.
  rewrite (E g) by (left; auto). destruct (w g); rewrite (IH u w); auto; intros; apply E; right; auto.
Qed.
Lemma frames_snoc k fs f : let all := fs ++ [f] in filter (counted k all) all = filter (counted k fs) fs ++ if counted k all f then [f] else [].
Proof. cbv zeta. rewrite filter_app, counted_snoc. reflexivity. Qed.

Definition accepts (k : pkind) (fs : list pin) (f : pin) : bool := counted k (fs ++ [f]) f.

(** * The invariant *)
Definition values (p0 : pmft) (fs : list pin) (f : pin) (pcf : list R) : Prop :=
  length pcf = pm_size (pm_axes p0) /\
  forall idx, in_shape (map ax_n (pm_axes p0)) idx ->
    nth (Z.to_nat (row_major (map ax_n (pm_axes p0)) idx)) pcf 0 =
    IZR (Z.of_nat (points_in (pm_kind p0) (pm_axes p0) idx fs) mod 2 ^ 32) *
      (pd_vol (pf_data f) / INR (pd_nqp (pf_data f)) * (1 / (INR (length fs) * INR (pd_np (pf_data f)) * INR (multiplicity (pm_kind p0) f)))) *
      pm_jf p0 (Z.to_nat (row_major (map ax_n (pm_axes p0)) idx)).

Section history.
  Variables (k : pkind) (p0 : pmft).
  Let axes := pm_axes p0.
  Hypothesis Hk : pm_kind p0 = k.
  Hypothesis HV : valid_axes axes.
  Hypothesis Harity : length axes = match k with XY => 2%nat | _ => 3%nat end.

  Record Inv (p : pmft) (h : list pop) : Prop := {
    i_kind : pm_kind p = k; i_axes : pm_axes p = axes; i_jf : pm_jf p = pm_jf p0;
    i_inv : inv (u32 0) u32_add axes (pm_state p) (map cframe (map (pm_cin k) (frames k h)));
    i_frames : Forall (fun f => ci_ok axes (pm_cin k f)) (frames k h);
    i_equiv : pm_equiv p = match k with XYZ => fixed k (calls h []) | _ => None end;
    i_last : forall l f, frames k h = l ++ [f] -> bhc_last (pm_state p) = Some (pf_data f);
    i_called : pm_called p = true <-> bhc_last (pm_state p) <> None;
    i_pcf : bhc_reduce (pm_state p) = false -> forall l f, frames k h = l ++ [f] -> values p0 (frames k h) f (pm_pcf p) }.

  Lemma points_arity f i q : In q (pm_points k f i) -> length q = length axes.
  Proof.
    unfold pm_points. intros H. apply in_flat_map in H as (b & _ & H). rewrite Harity. unfold pm_sample in H. destruct k.
    - destruct (nth_error (pf_o f) (bp b)), (nth_error (pm_query_orientations f) (bq b)); simpl in H; try contradiction; destruct H as [<-|[]]; reflexivity.
    - destruct (nth_error (pm_query_orientations f) (bq b)); simpl in H; try contradiction; destruct H as [<-|[]]; reflexivity.
    - destruct (nth_error (pf_o f) (bp b)), (nth_error (pm_query_orientations f) (bq b)); simpl in H; try contradiction; destruct H as [<-|[]]; reflexivity.
    - destruct (nth_error (pf_qq f) (bq b)); simpl in H; [|contradiction]. apply in_map_iff in H as (e & <- & _). reflexivity.
  Qed.
  Lemma size_axes : pm_size axes = Z.to_nat (size_of (map ax_n axes)).
  Proof. unfold pm_size. rewrite prodz_size. reflexivity. Qed.

  Lemma defined_ok f : shaped k f = true -> bonds_ok f -> pm_defined k f = true.
  Proof.
    intros W (B & Q). unfold pm_defined. apply forallb_forall. intros i Hi. unfold range in Hi. apply in_seq in Hi. apply forallb_forall. intros b Hb.
    destruct (B i b ltac:(lia) Hb) as [Bp Bq]. unfold shaped in W. apply andb_prop in W as [_ W].
    assert (Nth : forall A (l : list A) n, (n < length l)%nat -> exists x, nth_error l n = Some x).
    { intros A l n H. destruct (nth_error l n) eqn:E; eauto. apply nth_error_None in E. lia. }
    unfold pm_sample, pm_shapes in *. destruct k.
    - apply andb_prop in W as [W1 W2]. apply Nat.eqb_eq in W1. destruct (Nth _ (pf_o f) (bp b)) as [o ->]; [lia|].
      destruct (Nth _ (pm_query_orientations f) (bq b)) as [q ->]; [|reflexivity]. unfold pm_query_orientations.
      destruct (pf_qo f); [apply Nat.eqb_eq in W2; lia|]. specialize (Q eq_refl). lia.
    - destruct (Nth _ (pm_query_orientations f) (bq b)) as [q ->]; [|reflexivity]. unfold pm_query_orientations.
      destruct (pf_qo f); [apply Nat.eqb_eq in W; lia|discriminate].
    - apply andb_prop in W as [W1 W2]. apply Nat.eqb_eq in W1. destruct (Nth _ (pf_o f) (bp b)) as [o ->]; [lia|].
      destruct (Nth _ (pm_query_orientations f) (bq b)) as [q ->]; [|reflexivity]. unfold pm_query_orientations.
      destruct (pf_qo f); [apply Nat.eqb_eq in W2; lia|]. specialize (Q eq_refl). lia.
    - apply Nat.eqb_eq in W. destruct (Nth _ (pf_qq f) (bq b)) as [q ->]; [lia|reflexivity].
  Qed.

  Lemma Inv_init : pm_state p0 = bhc_make (u32 0) axes -> pm_equiv p0 = None -> pm_called p0 = false -> Inv p0 [].
  Proof.
    intros S E C. constructor; auto.
    - rewrite S. apply inv_make, HV.
    - constructor.
    - destruct k; auto.
    - intros l f X. destruct l; discriminate.
    - rewrite C, S. split; [discriminate|]. intros X. exfalso. apply X. reflexivity.
    - intros _ l f X. destruct l; discriminate.
  Qed.
  Lemma Inv_reset p h : Inv p h -> forall h', calls h' [] = [] -> Inv (pm_reset p) h'.
  Proof.
    intros [Ik Ia Ij Ii If Ie Il Ic Ip] h' Hc. assert (Hf : frames k h' = []) by (unfold frames; rewrite Hc; reflexivity).
    constructor; auto; rewrite ?Hf; try (intros; match goal with H : [] = ?l ++ _ |- _ => destruct l; discriminate end).
    - simpl. eapply inv_reset; eauto. apply u32_laws.
    - constructor.
    - simpl. rewrite Hc. destruct k; reflexivity.
  Qed.

  (** One call, from a state whose calls so far are those of [h] (after the reset if there is one). *)
  Lemma step_call p h f h' : Inv p h -> execution 0 (pf_n f) (pf_ev f) -> bonds_ok f -> calls h' [] = calls h [] ++ [f] ->
    exists p', pm_compute p false f = (if accepts k (calls h []) f then PDone p' else PRaised p') /\ Inv p' h'.
  Proof.
    intros [Ik Ia Ij Ii If Ie Il Ic Ip] He Hb Hc. set (cs := calls h []) in *.
    assert (Hf : frames k h' = frames k h ++ if accepts k cs f then [f] else []) by (unfold frames; rewrite Hc; apply frames_snoc).
    unfold pm_compute. cbv zeta beta iota. rewrite Ik. fold (shaped k f).
    assert (Fs : fixed k (cs ++ [f]) = match fixed k cs with Some n => Some n | None => if shaped k f then Some (length (pf_eq f)) else None end) by apply fixed_snoc.
    destruct (shaped k f) eqn:W; cbn [negb].
    2:{ assert (A : accepts k cs f = false) by (unfold accepts, counted; rewrite W; reflexivity).
        rewrite A in Hf |- *. rewrite app_nil_r in Hf. exists p. split; [reflexivity|]. constructor; rewrite ?Hf; auto. rewrite Hc.
        destruct k; auto. rewrite Fs, Ie. destruct (fixed XYZ cs); reflexivity. }
    assert (Core : forall p1, pm_kind p1 = k -> pm_axes p1 = axes -> pm_jf p1 = pm_jf p0 -> pm_state p1 = pm_state p -> pm_pcf p1 = pm_pcf p -> pm_called p1 = pm_called p ->
      pm_equiv p1 = match k with XYZ => fixed k (cs ++ [f]) | _ => None end ->
      (k = XYZ -> fixed k (cs ++ [f]) = Some (length (pf_eq f))) ->
      exists p', (if negb (pm_dimension (pm_kind p1) f) then PRaised p1 else if negb (pm_defined (pm_kind p1) f) then PUndefined else
         PDone (Pmft (pm_kind p1) (pm_axes p1) (pm_jf p1) (bhc_accumulate (u32 0) u32_add (pm_state p1) (cframe (pm_cin (pm_kind p1) f))) (pm_equiv p1) (pm_pcf p1) true))
        = (if accepts k cs f then PDone p' else PRaised p') /\ Inv p' h').
    { intros p1 K1 A1 J1 S1 P1 C1 E1 N1. rewrite K1.
      assert (A : accepts k cs f = pm_dimension k f).
      { unfold accepts, counted. rewrite W. destruct k; simpl; try (destruct (pf_2d f); reflexivity).
        rewrite (N1 eq_refl), Nat.eqb_refl. destruct (pf_2d f); reflexivity. }
      rewrite A in Hf |- *. destruct (pm_dimension k f); cbn [negb].
      - rewrite (defined_ok f W Hb). cbn [negb]. eexists. split; [reflexivity|]. constructor; cbn [pm_kind pm_axes pm_jf pm_state pm_equiv pm_pcf pm_called]; auto.
        + rewrite Hf, !map_app. rewrite S1. apply inv_accumulate; [exact HV|apply u32_laws|exact Ii|].
          split; [exact He|]. intros i x Hx. simpl in Hx. apply in_map_iff in Hx as (q & <- & Hq). simpl. eapply points_arity; exact Hq.
        + rewrite Hf. apply Forall_app. split; auto. constructor; [|constructor]. split; [exact He|]. intros i q Hq. eapply points_arity; exact Hq.
        + rewrite Hc. exact E1.
        + rewrite Hf. intros l g X. apply app_inj_tail in X as [_ <-]. reflexivity.
        + split; intros _; [discriminate|reflexivity].
        + discriminate.
      - rewrite app_nil_r in Hf. exists p1. split; [reflexivity|]. constructor; rewrite ?Hf, ?S1, ?P1, ?C1; auto. rewrite Hc. exact E1. }
    assert (Raise : accepts k cs f = false -> pm_equiv p = match k with XYZ => fixed k (cs ++ [f]) | _ => None end ->
      exists p', PRaised p = (if accepts k cs f then PDone p' else PRaised p') /\ Inv p' h').
    { intros A E. rewrite A in Hf |- *. rewrite app_nil_r in Hf. exists p. split; [reflexivity|]. constructor; rewrite ?Hf; auto. rewrite Hc. exact E. }
    unfold pm_fix_equiv. rewrite Ik. destruct k eqn:Ek; try (apply Core; auto; discriminate).
    rewrite Ie. destruct (fixed XYZ cs) as [m|] eqn:Ef.
    - destruct (Nat.eqb_spec m (length (pf_eq f))) as [->|NE].
      + apply Core; auto. congruence.
      + apply Raise; [|rewrite Fs, Ie; reflexivity].
        unfold accepts, counted. rewrite Fs, W. destruct (Nat.eqb_spec (length (pf_eq f)) m); [congruence|]. destruct (Bool.eqb _ _); reflexivity.
    - apply Core; auto.
  Qed.

  (** A read. *)
  Lemma step_read p h ev : Inv p h -> execution 0 (pm_size axes) ev ->
    exists p', pm_read p ev = Some p' /\ Inv p' (h ++ [PRead ev]) /\ (frames k h <> [] -> bhc_reduce (pm_state p') = false).
  Proof.
    intros HI He. pose proof HI as [Ik Ia Ij Ii If Ie Il Ic Ip].
    assert (Hc : calls (h ++ [PRead ev]) [] = calls h []) by apply calls_snoc.
    assert (Hf : frames k (h ++ [PRead ev]) = frames k h) by (unfold frames; rewrite Hc; reflexivity).
    assert (Same : Inv p (h ++ [PRead ev])) by (constructor; rewrite ?Hf, ?Hc; auto).
    unfold pm_read. destruct (pm_called p) eqn:C; cbn [negb].
    2:{ exists p. split; [reflexivity|]. split; [exact Same|]. intros NE. destruct (exists_last NE) as (l & f & E). specialize (Il l f E).
        exfalso. assert (X : bhc_last (pm_state p) <> None) by congruence. apply Ic in X. congruence. }
    destruct (bhc_reduce (pm_state p)) eqn:Rd; [|exists p; auto].
    rewrite size_axes in He. destruct (inv_read (u32 0) u32_add axes (pm_state p) _ ev Ii He) as (s & Es & Is & Ls & Rs). rewrite Es.
    destruct (bhc_last (pm_state p)) as [d|] eqn:Ld; [|exfalso; apply (proj1 Ic eq_refl); reflexivity].
    assert (Ok : Forall (ci_ok axes) (map (pm_cin k) (frames k h))) by (apply Forall_map; exact If).
    assert (Cnt := inv_cells axes s _ HV Is Ok Rs).
    assert (Idx : forall i, (i < pm_size axes)%nat -> exists idx, in_shape (map ax_n axes) idx /\ Z.to_nat (row_major (map ax_n axes) idx) = i).
    { intros i Hi. rewrite size_axes in Hi. exact (lin_idx axes HV i Hi). }
    assert (Pin : forall idx, in_cells axes idx (map (pm_cin k) (frames k h)) = points_in k axes idx (frames k h)).
    { intros idx. unfold in_cells, points_in. f_equal. f_equal. generalize (frames k h). induction l as [|g l IH]; auto. cbn [map flat_map]. rewrite IH. reflexivity. }
    assert (Cs : exists cs, pm_counts s (pm_size axes) = Some cs /\ forall idx, in_shape (map ax_n axes) idx ->
       nth (Z.to_nat (row_major (map ax_n axes) idx)) cs 0%Z = (Z.of_nat (points_in k axes idx (frames k h)) mod 2 ^ 32)%Z).
    { unfold pm_counts. exists (map (fun i => match ma_get (h_counts (bhc_hist s)) (Z.of_nat i) with Some x => u32_val x | None => 0%Z end) (seq 0 (pm_size axes))). split.
      - apply omap_some. intros i Hi. apply in_seq in Hi. destruct (Idx i ltac:(lia)) as (idx & HS & Hr). destruct (Cnt idx HS) as (x & Ex & _).
        pose proof (row_major_range _ _ HS). rewrite <- Hr, Z2Nat.id, Ex by lia. reflexivity.
      - intros idx HS. pose proof (row_major_range _ _ HS) as RR. rewrite (nth_map_lt _ _ _ 0%nat) by (rewrite seq_length, size_axes; lia).
        rewrite seq_nth by (rewrite size_axes; lia). simpl plus. rewrite Z2Nat.id by lia. destruct (Cnt idx HS) as (x & Ex & Vx). rewrite Ex, Vx, Pin. reflexivity. }
    destruct Cs as (cs & Ecs & Vcs).
    unfold pm_reduce. rewrite Ls, Ia, Ecs. eexists. split; [reflexivity|]. split; [|intros _; exact Rs].
    constructor; cbn [pm_kind pm_axes pm_jf pm_state pm_equiv pm_pcf pm_called]; rewrite ?Hf, ?Hc; auto.
    - intros l f E. rewrite Ls. eapply Il; exact E.
    - rewrite Ls. split; [discriminate|auto].
    - intros _ l f E. assert (Df : d = pf_data f) by (specialize (Il l f E); congruence). subst d.
      split; [rewrite map_length, seq_length; reflexivity|]. fold axes. intros idx HS. pose proof (row_major_range _ _ HS) as RR.
      rewrite (nth_map_lt _ _ _ 0%nat) by (rewrite seq_length, size_axes; lia). rewrite seq_nth by (rewrite size_axes; lia). simpl plus.
      rewrite (Vcs idx HS), Ij, Ik, Hk. destruct Is as (_ & _ & _ & Nf & _). rewrite map_length, map_length in Nf. rewrite Nf.
      assert (Eq : k = XYZ -> pm_equiv p = Some (length (pf_eq f))).
      { intros ->. rewrite Ie. assert (I : In f (frames XYZ h)) by (rewrite E; apply in_or_app; right; left; reflexivity).
        unfold frames in I. apply filter_In in I as [_ I]. unfold counted in I. apply andb_prop in I as [_ I]. destruct (fixed XYZ (calls h [])); [|discriminate].
        apply Nat.eqb_eq in I. congruence. }
      unfold multiplicity. destruct k; try (simpl INR; rewrite !Rmult_1_r; reflexivity). rewrite (Eq eq_refl). reflexivity.
  Qed.

  Lemma step_compute p h re f : Inv p h -> execution 0 (pf_n f) (pf_ev f) -> bonds_ok f ->
    exists p', pm_compute p re f = (if accepts k (if re then [] else calls h []) f then PDone p' else PRaised p') /\ Inv p' (h ++ [PCompute re f]).
  Proof.
    intros HI He Hb. destruct re.
    - change (pm_compute p true f) with (pm_compute (pm_reset p) false f).
      apply (step_call (pm_reset p) [] f (h ++ [PCompute true f])); auto; [|apply calls_snoc]. eapply Inv_reset; [exact HI|reflexivity].
    - apply (step_call p h f (h ++ [PCompute false f])); auto. apply calls_snoc.
  Qed.
  Lemma run_inv h : Forall (pop_ok (pm_size axes)) h -> forall p g, Inv p g -> exists p', pm_run p h = Some p' /\ Inv p' (g ++ h).
  Proof.
    induction h as [|o h IH]; intros Hh p g HI.
    - exists p. rewrite app_nil_r. auto.
    - inversion Hh as [|? ? Ho Hh']; subst. assert (S : exists p1, pop_run p o = Some p1 /\ Inv p1 (g ++ [o])).
      { destruct o as [re f|ev]; simpl in Ho |- *.
        - destruct (step_compute p g re f HI (proj1 Ho) (proj2 Ho)) as (p1 & E & I1). rewrite E. exists p1. destruct (accepts _ _ _); auto.
        - destruct (step_read p g ev HI Ho) as (p1 & E & I1 & _). eauto. }
      destruct S as (p1 & E & I1). destruct (IH Hh' p1 _ I1) as (p' & E' & I'). exists p'. split; [unfold pm_run in *; simpl; rewrite E; exact E'|].
      rewrite <- app_assoc in I'. exact I'.
  Qed.
End history.
