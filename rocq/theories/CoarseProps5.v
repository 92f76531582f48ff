(** C96 for the PMFTs. *)
From Verif Require Import HistProofs HistProofs2 HistProps ParProofs QuatModel MatchEnvProofs CoarseProps CoarseProps3 PmftProofs PmftProps PmftSpec CoarseSpec.
From Coq Require Import Lia Lra.
Local Open Scope R_scope.

Definition all_points (k : pkind) (fs : list pin) : list (list R) :=
  flat_map (fun f => flat_map (fun i => flat_map (fun b => match pm_sample k f b with Some l => l | None => [] end) (pf_bonds f i)) (range 0 (pf_n f))) fs.
Lemma sample_arity k f b l q : pm_sample k f b = Some l -> In q l -> length q = match k with XY => 2%nat | _ => 3%nat end.
Proof.
  intros E H. unfold pm_sample in E. destruct k;
    repeat match type of E with context [match ?x with _ => _ end] => destruct x; try discriminate end; injection E as <-; try (destruct H as [<-|[]]; reflexivity).
  apply in_map_iff in H as (e & <- & _). reflexivity.
Qed.
Lemma all_points_arity k fs q : In q (all_points k fs) -> length q = match k with XY => 2%nat | _ => 3%nat end.
Proof.
  unfold all_points. intros H. apply in_flat_map in H as (f & _ & H). apply in_flat_map in H as (i & _ & H). apply in_flat_map in H as (b & _ & H). destruct (pm_sample k f b) as [l|] eqn:E; [|destruct H]. eapply sample_arity; eauto.
Qed.
Lemma nat_laws : sum_laws 0%nat Nat.add. Proof. repeat split; intros; lia. Qed.
Lemma ones_count axes idx (pts : list (list R)) : sum_of 0%nat Nat.add (weights_in axes idx (map (fun p => (p, 1%nat)) pts)) = length (filter (in_cellb axes idx) pts).
Proof.
  induction pts as [|p pts IH]; [reflexivity|]. unfold weights_in in *. cbn [map filter fst]. destruct (in_cellb axes idx p); cbn [map snd length]; [rewrite (sum_cons 0%nat Nat.add nat_laws), IH; reflexivity|exact IH].
Qed.
Lemma points_fine k axes ks idx fs : length axes = match k with XY => 2%nat | _ => 3%nat end -> Forall valid_axis axes -> Forall (fun k => (0 < k)%Z) ks -> length ks = length axes -> Forall valid_axis (refine ks axes) -> in_shape (map ax_n axes) idx ->
  points_in k axes idx fs = sum_of 0%nat Nat.add (map (fun c => points_in k (refine ks axes) c fs) (fine_cells ks idx)).
Proof.
  intros LA HV HK HL HR HI. change (points_in k axes idx fs) with (length (filter (in_cellb axes idx) (all_points k fs))). rewrite <- ones_count. rewrite (sum_fine 0%nat Nat.add nat_laws axes ks idx); auto.
  - f_equal. apply map_ext. intros c. rewrite ones_count. reflexivity.
  - intros s Hs. apply in_map_iff in Hs as (p & <- & Hp). cbn [fst]. rewrite LA. eapply all_points_arity; eauto.
Qed.

(** Two PMFTs of the same kind over the same frames, the second with a multiple of the bins of the first along each axis: the value of a coarse
    bin times its measure is the sum over the fine bins it consists of. *)
Theorem C96_pmft : forall k p0 p1 ks h h' ev ev' fs f, made k p0 -> made k p1 -> Forall (fun k => (0 < k)%Z) ks -> length ks = length (pm_axes p0) -> pm_axes p1 = refine ks (pm_axes p0) ->
  Forall (pop_ok (pm_size (pm_axes p0))) h -> execution 0 (pm_size (pm_axes p0)) ev -> Forall (pop_ok (pm_size (pm_axes p1))) h' -> execution 0 (pm_size (pm_axes p1)) ev' ->
  frames k h = fs ++ [f] -> frames k h' = fs ++ [f] -> data_pos k f ->
  exists p p', pm_run p0 (h ++ [PRead ev]) = Some p /\ pm_run p1 (h' ++ [PRead ev']) = Some p' /\
    forall idx, in_shape (map ax_n (pm_axes p0)) idx -> (Z.of_nat (points_in k (pm_axes p0) idx (fs ++ [f])) < 2 ^ 32)%Z ->
      nth (Z.to_nat (row_major (map ax_n (pm_axes p0)) idx)) (pm_pcf p) 0 * measure k (pm_axes p0) idx =
      fold_right Rplus 0 (map (fun c => nth (Z.to_nat (row_major (map ax_n (pm_axes p1)) c)) (pm_pcf p') 0 * measure k (pm_axes p1) c) (fine_cells ks idx)).
Proof.
  intros k p0 p1 ks h h' ev ev' fs f M M' HK HL HA Hh He Hh' He' Fr Fr' Dp. destruct (made_ok k p0 M) as (_ & V0 & L0 & _). destruct (made_ok k p1 M') as (_ & V1 & _).
  destruct (C54_values k p0 h ev fs f M Hh He Fr Dp) as (p & E & _ & V). destruct (C54_values k p1 h' ev' fs f M' Hh' He' Fr' Dp) as (p' & E' & _ & V').
  exists p, p'. split; [exact E|]. split; [exact E'|]. intros idx HI Sm. destruct Dp as (D1 & D2 & D3 & D4).
  set (N := INR (length (fs ++ [f])) * INR (pd_np (pf_data f)) * INR (pd_nqp (pf_data f)) * INR (multiplicity k f)) in *.
  assert (NP : 0 < N) by (unfold N; repeat apply Rmult_lt_0_compat; apply lt_0_INR; auto; rewrite app_length; simpl; lia).
  assert (PF := points_fine k (pm_axes p0) ks idx (fs ++ [f]) L0 (proj1 V0) HK HL ltac:(rewrite <- HA; apply V1) HI). rewrite <- HA in PF.
  apply (Rmult_eq_reg_r N); [|lra]. transitivity (pd_vol (pf_data f) * INR (points_in k (pm_axes p0) idx (fs ++ [f]))); [rewrite <- (V idx HI Sm); ring|].
  rewrite PF in Sm |- *. assert (SH : forall c, In c (fine_cells ks idx) -> in_shape (map ax_n (pm_axes p1)) c) by (intros c Hc; rewrite HA; eapply fine_cells_shape; eauto).
  revert Sm SH. generalize (fine_cells ks idx) as cs. induction cs as [|c cs IH]; intros Sm SH; [unfold sum_of; simpl; ring|]. cbn [map fold_right] in *. rewrite (sum_cons 0%nat Nat.add nat_laws) in Sm |- *. rewrite plus_INR, Rmult_plus_distr_l, Rmult_plus_distr_r.
  rewrite IH; [|lia|intros; apply SH; right; auto]. f_equal. rewrite <- (V' c); [ring|apply SH; left; auto|lia].
Qed.
(** For XY, XYT and XYZ all bins have the same measure: the coarse value is the plain mean. *)
Theorem C96_pmft_mean : forall k p0 p1 ks h h' ev ev' fs f, k <> R12 -> made k p0 -> made k p1 -> Forall (fun k => (0 < k)%Z) ks -> length ks = length (pm_axes p0) -> pm_axes p1 = refine ks (pm_axes p0) ->
  Forall (pop_ok (pm_size (pm_axes p0))) h -> execution 0 (pm_size (pm_axes p0)) ev -> Forall (pop_ok (pm_size (pm_axes p1))) h' -> execution 0 (pm_size (pm_axes p1)) ev' ->
  frames k h = fs ++ [f] -> frames k h' = fs ++ [f] -> data_pos k f ->
  exists p p', pm_run p0 (h ++ [PRead ev]) = Some p /\ pm_run p1 (h' ++ [PRead ev']) = Some p' /\
    forall idx, in_shape (map ax_n (pm_axes p0)) idx -> (Z.of_nat (points_in k (pm_axes p0) idx (fs ++ [f])) < 2 ^ 32)%Z ->
      IZR (fold_right Z.mul 1%Z ks) * nth (Z.to_nat (row_major (map ax_n (pm_axes p0)) idx)) (pm_pcf p) 0 =
      fold_right Rplus 0 (map (fun c => nth (Z.to_nat (row_major (map ax_n (pm_axes p1)) c)) (pm_pcf p') 0) (fine_cells ks idx)).
Proof.
  intros k p0 p1 ks h h' ev ev' fs f NR M M' HK HL HA Hh He Hh' He' Fr Fr' Dp.
  destruct (C96_pmft k p0 p1 ks h h' ev ev' fs f M M' HK HL HA Hh He Hh' He' Fr Fr' Dp) as (p & p' & E & E' & V). exists p, p'. split; [exact E|]. split; [exact E'|]. intros idx HI Sm. specialize (V idx HI Sm).
  destruct (made_ok k p0 M) as (_ & V0 & L0 & _ & _ & _ & J0). destruct (J0 idx HI) as [MP _].
  assert (W : forall (q : Z) a, valid_axis a -> (0 < q)%Z -> IZR q * width (Axis (q * ax_n a) (ax_min a) (ax_max a)) = width a).
  { intros q a [Hv _] Hq. unfold width. cbn [ax_n ax_min ax_max]. rewrite mult_IZR. field. split; apply not_0_IZR; lia. }
  assert (MM : forall c, IZR (fold_right Z.mul 1%Z ks) * measure k (pm_axes p1) c = measure k (pm_axes p0) idx).
  { intros c. rewrite HA. destruct V0 as [V0 _]. clear - NR V0 L0 HK HL W. destruct (pm_axes p0) as [|a [|b [|d [|]]]]; try (destruct k; discriminate).
    - destruct ks as [|q1 [|q2 [|]]]; try discriminate. destruct k; try discriminate. inversion HK as [|? ? K1 HK2]; subst. inversion HK2 as [|? ? K2 _]; subst. inversion V0 as [|? ? A1 V2]; subst. inversion V2 as [|? ? A2 _]; subst.
      cbn [refine combine map measure fold_right]. rewrite <- (W q1 a), <- (W q2 b) by auto. rewrite !mult_IZR. ring.
    - destruct ks as [|q1 [|q2 [|q3 [|]]]]; try discriminate. inversion HK as [|? ? K1 HK2]; subst. inversion HK2 as [|? ? K2 HK3]; subst. inversion HK3 as [|? ? K3 _]; subst. inversion V0 as [|? ? A1 V2]; subst. inversion V2 as [|? ? A2 V3]; subst. inversion V3 as [|? ? A3 _]; subst.
      destruct k; try discriminate; try congruence; cbn [refine combine map measure fold_right]; rewrite <- (W q1 a), <- (W q2 b), <- (W q3 d) by auto; rewrite !mult_IZR; unfold Rdiv; ring. }
  assert (PK : 0 < IZR (fold_right Z.mul 1%Z ks)) by (apply IZR_lt; clear - HK; induction HK; simpl; nia).
  apply (Rmult_eq_reg_r (measure k (pm_axes p0) idx)); [|lra]. rewrite Rmult_assoc, V. generalize (fine_cells ks idx) as cs. induction cs as [|c cs IH]; cbn [map fold_right]; [ring|]. rewrite Rmult_plus_distr_l, IH, Rmult_plus_distr_r. f_equal. rewrite <- (MM c). ring.
Qed.
(** One bin against two by three, two frames. *)
Lemma ex_xy n m : (1 <= n)%Z -> (1 <= m)%Z -> (n * m < 4294967295)%Z -> exists p, made XY p /\ pm_axes p = [Axis n (- (1)) 1; Axis m (- (1)) 1].
Proof.
  intros Hn Hm Hs. destruct (pmftxy_make 1 1 n m) as [p|] eqn:E.
  - exists p. split; [eapply made_xy; [| |exact E|exact Hs]; lra|]. unfold pmftxy_make in E. destruct (Z.ltb_spec n 1); [discriminate|]. destruct (Z.ltb_spec m 1); [discriminate|]. destruct (Rltb 1 0); [discriminate|].
    apply (f_equal (option_map pm_axes)) in E. cbn [option_map pm_new pm_axes] in E. congruence.
  - exfalso. unfold pmftxy_make in E. destruct (Z.ltb_spec n 1); [lia|]. destruct (Z.ltb_spec m 1); [lia|]. unfold Rltb in E. destruct (Rlt_dec 1 0); [lra|discriminate].
Qed.
Example C96_pmft_ex : exists p0 p1 p p' ev', let h := [PCompute true (ex_pin true 1); PCompute false (ex_pin true 1)] in
  pm_axes p0 = [Axis 1 (- (1)) 1; Axis 1 (- (1)) 1] /\ pm_axes p1 = [Axis 2 (- (1)) 1; Axis 3 (- (1)) 1] /\ pm_run p0 (h ++ [PRead [(0%nat, 0%nat)]]) = Some p /\ pm_run p1 (h ++ [PRead ev']) = Some p' /\
  6 * nth 0 (pm_pcf p) 0 = nth 0 (pm_pcf p') 0 + (nth 1 (pm_pcf p') 0 + (nth 2 (pm_pcf p') 0 + (nth 3 (pm_pcf p') 0 + (nth 4 (pm_pcf p') 0 + (nth 5 (pm_pcf p') 0 + 0))))).
Proof.
  destruct (ex_xy 1 1) as (p0 & M0 & A0); try lia. destruct (ex_xy 2 3) as (p1 & M1 & A1); try lia. set (h := [PCompute true (ex_pin true 1); PCompute false (ex_pin true 1)]). set (ev' := map (fun i => (0%nat, i)) (range 0 6)).
  destruct (C96_pmft_mean XY p0 p1 [2; 3]%Z h h [(0%nat, 0%nat)] ev' [ex_pin true 1] (ex_pin true 1)) as (p & p' & E & E' & V); auto; try discriminate; try (rewrite A0); try (rewrite A1); try reflexivity.
  - repeat constructor; lia.
  - constructor; [apply ex_pin_ok|constructor; [apply ex_pin_ok|apply Forall_nil]].
  - exact (sequential_execution 0 1 0).
  - constructor; [apply ex_pin_ok|constructor; [apply ex_pin_ok|apply Forall_nil]].
  - exact (sequential_execution 0 6 0).
  - repeat split; simpl; try lra; lia.
  - exists p0, p1, p, p', ev'. cbv zeta. split; [exact A0|]. split; [exact A1|]. split; [exact E|]. split; [exact E'|].
    rewrite A0, A1 in V. specialize (V [0; 0]%Z). apply V; [repeat constructor; simpl; lia|].
    assert (B : forall g (l : list (list R)), (length (filter g l) <= length l)%nat) by (intros g l; induction l as [|x l IH]; simpl; [lia|destruct (g x); simpl; lia]).
    unfold points_in. eapply Z.le_lt_trans; [apply inj_le, B|]. simpl. lia.
Qed.
Print Assumptions C96_pmft.
Print Assumptions C96_pmft_mean.
