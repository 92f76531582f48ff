(** C96 for the counts of histograms with any number of axes. *)
From Verif Require Import HistProofs HistProofs2 HistProps CoarseProps CoarseSpec.
From Coq Require Import Lia Lra.
Local Open Scope Z_scope.

Lemma fine_cells_spec ks : Forall (fun k => 0 < k) ks -> forall idx c, length idx = length ks -> (In c (fine_cells ks idx) <-> length c = length ks /\ coarse_index ks c = idx).
Proof.
  intros HK. induction HK as [|k ks Hk HK IH]; intros [|i idx] c HL; try discriminate.
  - simpl. destruct c; simpl; split; intros H; auto; [destruct H as [H|[]]; discriminate|destruct H; discriminate].
  - cbn [fine_cells]. rewrite in_flat_map. split.
    + intros (j & Hj & Hc). apply in_map_iff in Hc as (c' & <- & Hc'). apply in_seq in Hj. apply IH in Hc' as [L E]; [|simpl in HL; lia]. split; [simpl; lia|].
      unfold coarse_index in *. cbn [combine map]. rewrite E. f_equal. rewrite Z.div_add_l by lia. rewrite Z.div_small by lia. lia.
    + intros [L E]. destruct c as [|x c]; [discriminate|]. unfold coarse_index in E. cbn [combine map] in E. injection E as E1 E2. exists (Z.to_nat (x mod k)). pose proof (Z.mod_pos_bound x k Hk). split; [apply in_seq; lia|].
      apply in_map_iff. exists c. split; [|apply IH; [simpl in HL; lia|split; [simpl in L; lia|exact E2]]]. f_equal. rewrite Z2Nat.id by lia. pose proof (Z.div_mod x k ltac:(lia)). rewrite <- E1. lia.
Qed.
Lemma NoDup_flat_map_cons (f : nat -> Z) (X : list (list Z)) l : (forall a b, f a = f b -> a = b) -> NoDup X -> NoDup l -> NoDup (flat_map (fun j => map (cons (f j)) X) l).
Proof.
  intros Hf HX Hl. induction Hl as [|j l Hj Hl IH]; simpl; [constructor|]. assert (D : forall c, In c (map (cons (f j)) X) -> ~ In c (flat_map (fun j => map (cons (f j)) X) l)).
  { intros c H1 H2. apply in_map_iff in H1 as (d & <- & _). apply in_flat_map in H2 as (j' & Hj' & H2). apply in_map_iff in H2 as (d' & E & _). injection E as E _. apply Hf in E. subst. auto. }
  assert (N : NoDup (map (cons (f j)) X)) by (apply FinFun.Injective_map_NoDup; auto; intros a b E; congruence).
  revert N D IH. generalize (flat_map (fun j => map (cons (f j)) X) l) as B. generalize (map (cons (f j)) X) as A. clear.
  intros A. induction A as [|a A IHA]; intros B N D HB; simpl; auto. inversion N; subst. constructor; [|apply IHA; auto; intros c Hc; apply D; right; auto]. intros H. apply in_app_or in H as [H|H]; [contradiction|]. apply (D a); [left|]; auto.
Qed.
Lemma fine_cells_NoDup ks : forall idx, NoDup (fine_cells ks idx).
Proof.
  induction ks as [|k ks IH]; intros idx; [simpl; repeat constructor; auto|]. destruct idx as [|i idx]; [simpl; repeat constructor; auto|]. cbn [fine_cells]. apply (NoDup_flat_map_cons (fun j => i * k + Z.of_nat j)); auto; [intros a b E; lia|apply seq_NoDup].
Qed.
Lemma fine_cells_shape axes : forall ks idx c, Forall (fun k => 0 < k) ks -> length ks = length axes -> in_shape (map ax_n axes) idx -> In c (fine_cells ks idx) -> in_shape (map ax_n (refine ks axes)) c.
Proof.
  unfold in_shape. induction axes as [|a axes IH]; intros [|k ks] idx c HK HL HS HI; try discriminate; inversion HS as [|? i ? idx' Hi HS']; subst.
  - simpl in HI. destruct HI as [<-|[]]. constructor.
  - inversion HK; subst. cbn [fine_cells] in HI. apply in_flat_map in HI as (j & Hj & HI). apply in_map_iff in HI as (c' & <- & HI). apply in_seq in Hj. cbn [refine combine map ax_n]. constructor; [nia|]. apply (IH ks idx' c'); auto.
Qed.

Section Sums.
  Context {T : Type} (zero : T) (op : T -> T -> T) (L : sum_laws zero op).
  Lemma sum_cons a l : sum_of zero op (a :: l) = op a (sum_of zero op l).
  Proof.
    destruct L as (A & C & Z0). unfold sum_of. simpl. rewrite Z0. enough (G : forall x, fold_left op l x = op x (fold_left op l zero)) by apply G.
    induction l as [|b l IH]; intros x; simpl; [rewrite C; auto|]. rewrite IH, Z0, (IH b). symmetry. apply A.
  Qed.
  Lemma sum_none {C} (b : C -> bool) w (g : C -> T) l : (forall c, In c l -> b c = false) -> sum_of zero op (map (fun c => if b c then op w (g c) else g c) l) = sum_of zero op (map g l).
  Proof. intros H. f_equal. apply map_ext_in. intros c Hc. rewrite H; auto. Qed.
  Lemma sum_one {C} (b : C -> bool) w (g : C -> T) l c0 : NoDup l -> In c0 l -> (forall c, In c l -> (b c = true <-> c = c0)) ->
    sum_of zero op (map (fun c => if b c then op w (g c) else g c) l) = op w (sum_of zero op (map g l)).
  Proof.
    intros N. induction N as [|c l Hc N IH]; intros HI HB; [destruct HI|]. cbn [map]. rewrite !sum_cons. destruct L as (A & Cm & _). destruct HI as [->|HI].
    - rewrite (proj2 (HB c0 (or_introl eq_refl)) eq_refl). rewrite sum_none; [symmetry; apply A|]. intros c Hc'. destruct (b c) eqn:E; auto. apply HB in E; [|right; auto]. subst. contradiction.
    - destruct (b c) eqn:E; [apply HB in E; [|left; auto]; subst; contradiction|]. rewrite IH; auto; [|intros; apply HB; right; auto]. rewrite !A. f_equal. apply Cm.
  Qed.
  Lemma sum_fine axes ks idx samples : Forall valid_axis axes -> Forall (fun k => 0 < k) ks -> length ks = length axes -> Forall valid_axis (refine ks axes) ->
    (forall s, In s samples -> length (fst s) = length axes) -> in_shape (map ax_n axes) idx ->
    sum_of zero op (weights_in axes idx samples) = sum_of zero op (map (fun c => sum_of zero op (weights_in (refine ks axes) c samples)) (fine_cells ks idx)).
  Proof.
    intros HV HK HL HR HS HI. assert (LI : length idx = length ks) by (rewrite HL; clear - HI; unfold in_shape in HI; revert idx HI; induction axes; intros idx HI; inversion HI; subst; simpl; auto). assert (LR : length (refine ks axes) = length axes) by (unfold refine; rewrite map_length, combine_length; lia).
    induction samples as [|(v, w) samples IH].
    - unfold weights_in. cbn [filter map]. assert (G : forall l : list (list Z), sum_of zero op (map (fun _ => sum_of zero op []) l) = zero) by (induction l as [|x l IHl]; [reflexivity|]; cbn [map]; rewrite sum_cons, IHl; unfold sum_of; simpl; apply L). rewrite G. reflexivity.
    - assert (Lv : length v = length axes) by (apply (HS (v, w)); left; auto). specialize (IH (fun s H => HS s (or_intror H))).
      transitivity (sum_of zero op (map (fun c => if in_cellb (refine ks axes) c v then op w (sum_of zero op (weights_in (refine ks axes) c samples)) else sum_of zero op (weights_in (refine ks axes) c samples)) (fine_cells ks idx))).
      2:{ f_equal. apply map_ext. intros c. unfold weights_in. cbn [filter fst]. destruct (in_cellb (refine ks axes) c v); cbn [map snd]; rewrite ?sum_cons; reflexivity. }
      assert (FB : forall c, In c (fine_cells ks idx) -> (in_cellb (refine ks axes) c v = true <-> in_cell (refine ks axes) v c)) by (intros c Hc; apply in_cellb_iff; eapply fine_cells_shape; eauto).
      unfold weights_in at 1. cbn [filter fst]. destruct (in_cellb axes idx v) eqn:E; cbn [map snd]; rewrite ?sum_cons; change (map snd (filter (fun s => in_cellb axes idx (fst s)) samples)) with (weights_in axes idx samples); rewrite IH.
      + apply (in_cellb_iff axes idx v HI) in E. destruct (C13_cells (refine ks axes) v HR ltac:(congruence)) as [A _]. pose proof (C96_bins axes ks v HV HK HL HR Lv) as CB.
        pose proof (axes_bins_spec (refine ks axes) v HR ltac:(congruence)) as S'. pose proof (axes_bins_spec axes v HV Lv) as S0. destruct (axes_bins (refine ks axes) v) as [c0|] eqn:Ec.
        * rewrite CB in S0. cbn [option_map] in S0. assert (CI : coarse_index ks c0 = idx) by exact (in_cell_unique axes v _ _ HV S0 E). symmetry. apply (sum_one _ w _ _ c0); [apply fine_cells_NoDup| |].
          -- apply fine_cells_spec; auto. split; auto. clear - S' LR HL. assert (G : forall ax vs ix, in_cell ax vs ix -> length ix = length ax) by (induction 1; simpl; congruence). apply G in S'. congruence.
          -- intros c Hc. rewrite FB by auto. split; [intros; eapply in_cell_unique; eauto|intros ->; auto].
        * rewrite CB in S0. cbn [option_map] in S0. exfalso. apply S0. eapply in_cell_in_range; eauto.
      + symmetry. apply sum_none. intros c Hc. destruct (in_cellb (refine ks axes) c v) eqn:Eb; auto. apply FB in Eb; auto. apply cells_coarse in Eb; auto. apply fine_cells_spec in Hc as [_ Hc]; auto. rewrite Hc in Eb. apply (in_cellb_iff axes idx v HI) in Eb. congruence.
  Qed.
End Sums.

(** The content of a coarse bin is the sum of the contents of the fine bins it consists of. *)
Theorem C96_counts : forall T (zero : T) op axes ks samples, sum_laws zero op -> valid_axes axes -> valid_axes (refine ks axes) -> Forall (fun k => 0 < k) ks -> length ks = length axes ->
  (forall s, In s samples -> length (fst s) = length axes) ->
  exists h h', hist_add_all op samples (hist_make zero axes) = Some h /\ hist_add_all op samples (hist_make zero (refine ks axes)) = Some h' /\
    forall idx, in_shape (map ax_n axes) idx -> exists ws,
      map (fun c => ma_get (h_counts h') (row_major (map ax_n (refine ks axes)) c)) (fine_cells ks idx) = map Some ws /\
      ma_get (h_counts h) (row_major (map ax_n axes) idx) = Some (sum_of zero op ws).
Proof.
  intros T zero op axes ks samples L V V' HK HL HS. assert (LR : length (refine ks axes) = length axes) by (unfold refine; rewrite map_length, combine_length; lia).
  destruct (C14_counts zero op axes samples L V HS) as (h & E & C). destruct (C14_counts zero op (refine ks axes) samples L V') as (h' & E' & C'); [intros s Hs; rewrite LR; auto|].
  exists h, h'. split; [exact E|]. split; [exact E'|]. intros idx HI. exists (map (fun c => sum_of zero op (weights_in (refine ks axes) c samples)) (fine_cells ks idx)). split.
  - rewrite map_map. apply map_ext_in. intros c Hc. apply C'. eapply fine_cells_shape; eauto.
  - rewrite C by auto. f_equal. apply sum_fine; auto; [apply V|apply V'].
Qed.
(** The indices of the fine cells are all those that lead back to the coarse cell, each once. *)
Lemma fine_cells_complete : forall ks idx, Forall (fun k => 0 < k) ks -> length idx = length ks ->
  NoDup (fine_cells ks idx) /\ forall c, In c (fine_cells ks idx) <-> length c = length ks /\ coarse_index ks c = idx.
Proof. intros ks idx HK HL. split; [apply fine_cells_NoDup|]. intros c. apply fine_cells_spec; auto. Qed.

Example C96_counts_ex : exists h h', hist_add_all Nat.add [([3/4; 5/2]%R, 3%nat); ([5/8; 17/8]%R, 4%nat); ([1/4; 5/2]%R, 5%nat); ([2; 0]%R, 6%nat)] (hist_make 0%nat [Axis 2 0 1; Axis 3 0 3]) = Some h /\
  hist_add_all Nat.add [([3/4; 5/2]%R, 3%nat); ([5/8; 17/8]%R, 4%nat); ([1/4; 5/2]%R, 5%nat); ([2; 0]%R, 6%nat)] (hist_make 0%nat (refine [2; 2] [Axis 2 0 1; Axis 3 0 3])) = Some h' /\
  fine_cells [2; 2] [1; 2] = [[2; 4]; [2; 5]; [3; 4]; [3; 5]] /\ exists ws, map (fun c => ma_get (h_counts h') (row_major [4; 6] c)) [[2; 4]; [2; 5]; [3; 4]; [3; 5]] = map Some ws /\
  ma_get (h_counts h) (row_major [2; 3] [1; 2]) = Some (sum_of 0%nat Nat.add ws).
Proof.
  assert (SL : sum_laws 0%nat Nat.add) by (repeat split; intros; lia).
  destruct (C96_counts nat 0%nat Nat.add [Axis 2 0 1; Axis 3 0 3] [2; 2] [([3/4; 5/2]%R, 3%nat); ([5/8; 17/8]%R, 4%nat); ([1/4; 5/2]%R, 5%nat); ([2; 0]%R, 6%nat)] SL) as (h & h' & E & E' & V); try (split; [repeat constructor|reflexivity]); try (repeat constructor); auto; simpl; try lia; try lra; try (unfold OVERFLOW_BIN; lia).
  - intros s [<-|[<-|[<-|[<-|[]]]]]; reflexivity.
  - exists h, h'. split; [exact E|]. split; [exact E'|]. split; [reflexivity|]. apply (V [1; 2]). repeat constructor; simpl; lia.
Qed.
Print Assumptions C96_counts.
