(** C96: coarser bins show the sums of the finer bins they consist of; a smaller range shows the beginning of the larger one. *)
From Verif Require Import HistProofs HistProofs2 HistProps ParProofs MatchEnvProofs RdfSpec RdfProps CoarseSpec.
From Coq Require Import Lra Lia.
Local Open Scope R_scope.

Lemma edge_fine (k : nat) bins r_max r_min i : (0 < k)%nat -> (0 < bins)%Z -> edge (Z.of_nat k * bins) r_max r_min (i * k) = edge bins r_max r_min i.
Proof.
  intros Hk Hb. unfold edge. rewrite mult_INR, mult_IZR, <- INR_IZR_INZ. assert (0 < INR k) by (apply lt_0_INR; auto). assert (IZR bins <> 0) by (apply not_0_IZR; lia). field. split; auto. lra.
Qed.
Lemma pre_ok bins r_max r_min r0 : rdf_make bins r_max r_min = Some r0 -> (0 <= bins)%Z -> (0 < bins)%Z /\ 0 <= r_min < r_max.
Proof.
  intros Mk Hb. assert (HM : rdf_make bins r_max r_min <> None) by congruence.
  destruct (Z.eq_dec bins 0); [|destruct (Rlt_le_dec r_min 0); [|destruct (Rle_lt_dec r_max r_min)]]; try (exfalso; apply HM; apply (C49_reject bins r_max r_min); [lia|tauto]). split; [lia|lra].
Qed.
Lemma edge_mono bins r_max r_min i j : (0 < bins)%Z -> r_min < r_max -> (i <= j)%nat -> edge bins r_max r_min i <= edge bins r_max r_min j.
Proof.
  intros Hb Hr Hij. unfold edge. apply Rplus_le_compat_l. apply Rmult_le_compat_r; [|apply le_INR; exact Hij]. apply Rlt_le, Rdiv_lt_0_compat; [lra|apply (IZR_lt 0); lia].
Qed.
Lemma edge_strict bins r_max r_min i : (0 < bins)%Z -> r_min < r_max -> edge bins r_max r_min i < edge bins r_max r_min (S i).
Proof.
  intros Hb Hr. unfold edge. rewrite S_INR. assert (0 < (r_max - r_min) / IZR bins) by (apply Rdiv_lt_0_compat; [lra|apply (IZR_lt 0); lia]). lra.
Qed.
Lemma dist_none lo fs : dist_count lo lo fs = 0%nat.
Proof.
  unfold dist_count. induction (flat_map ri_all fs) as [|b l IH]; simpl; auto. destruct (Rle_bool_spec lo (bd b)), (Rlt_bool_spec (bd b) lo); simpl; auto. lra.
Qed.
(** Counts of consecutive bins add up. *)
Lemma dist_chain (e : nat -> R) fs s : (forall i j, (i <= j)%nat -> e i <= e j) -> forall n,
  fold_right Rplus 0 (map (fun j => INR (dist_count (e (s + j)%nat) (e (S (s + j))) fs)) (seq 0 n)) = INR (dist_count (e s) (e (s + n)%nat) fs).
Proof.
  intros M n. induction n as [|n IH]; [rewrite Nat.add_0_r, dist_none; reflexivity|]. rewrite seq_S, map_app, fold_right_app. cbn [map fold_right plus].
  assert (G : forall l x, fold_right Rplus x l = fold_right Rplus 0 l + x) by (clear; induction l as [|a l IH]; intros x; simpl; [ring|rewrite IH; ring]).
  rewrite G, IH, Rplus_0_r, <- plus_INR. f_equal. replace (s + S n)%nat with (S (s + n)) by lia. apply dist_add. split; apply M; lia.
Qed.
Lemma density_pos m d : data_ok m d -> 0 < density m d /\ 0 < INR (rd_np d) /\ 0 < INR (rd_nqp d).
Proof.
  intros (Dv & Dp & Dq). split; [|split; apply lt_0_INR; destruct m; lia]. unfold density. destruct m; apply Rdiv_lt_0_compat; auto; [apply lt_0_INR; auto|]. apply lt_INR in Dq. simpl in Dq. lra.
Qed.

(** The RDF with k times as many bins, over the same frames. *)
Theorem C96_rdf : forall k bins r_max r_min r0 r0' h h' ev ev' fs f, (0 < k)%nat ->
  rdf_make bins r_max r_min = Some r0 -> rdf_make (Z.of_nat k * bins) r_max r_min = Some r0' -> (0 <= bins)%Z -> (Z.of_nat k * bins < 4294967295)%Z ->
  Forall (rop_ok bins) h -> execution 0 (Z.to_nat bins) ev -> Forall (rop_ok (Z.of_nat k * bins)) h' -> execution 0 (Z.to_nat (Z.of_nat k * bins)) ev' ->
  rsince h [] = fs ++ [f] -> rsince h' [] = fs ++ [f] -> read_mode h' false Exact None = read_mode h false Exact None ->
  data_ok (read_mode h false Exact None) (ri_data f) -> (Z.of_nat (dist_count r_min r_max (fs ++ [f])) < 2 ^ 32)%Z ->
  exists r r', rdf_run r0 (h ++ [RRead ev]) = Some r /\ rdf_run r0' (h' ++ [RRead ev']) = Some r' /\
    let e := edge bins r_max r_min in let e' := edge (Z.of_nat k * bins) r_max r_min in let vol := shell (rd_2d (ri_data f)) in
    forall i, (i < Z.to_nat bins)%nat ->
      nth i (rdf_nr r) 0 = nth (i * k + (k - 1)) (rdf_nr r') 0 /\
      nth i (rdf_pcf r) 0 * vol (e i) (e (S i)) = within k i (fun j => nth j (rdf_pcf r') 0 * vol (e' j) (e' (S j))) /\
      vol (e i) (e (S i)) = within k i (fun j => vol (e' j) (e' (S j))).
Proof.
  intros k bins r_max r_min r0 r0' h h' ev ev' fs f Hk Mk Mk' Hb Hb' Hh He Hh' He' Hs Hs' Hmode Hd Small.
  destruct (pre_ok _ _ _ _ Mk Hb) as (B0 & R0 & R1). set (K := (Z.of_nat k * bins)%Z) in *. assert (K0 : (0 < K)%Z) by (unfold K; nia).
  destruct (C49_values bins r_max r_min r0 h ev fs f Mk ltac:(unfold K in *; nia) Hh He Hs Hd Small) as (r & E & _ & _ & V).
  destruct (C49_values K r_max r_min r0' h' ev' fs f Mk' ltac:(lia) Hh' He' Hs' ltac:(rewrite Hmode; exact Hd) Small) as (r' & E' & _ & _ & V').
  exists r, r'. split; [exact E|]. split; [exact E'|]. cbv zeta in V, V' |- *. intros i Hi. rewrite Hmode in V'.
  assert (NK : Z.to_nat K = (k * Z.to_nat bins)%nat) by (unfold K; rewrite Z2Nat.inj_mul, Nat2Z.id by lia; reflexivity).
  assert (IN : forall j, (j < k)%nat -> (i * k + j < Z.to_nat K)%nat) by (intros j Hj; rewrite NK; nia).
  destruct (V i Hi) as [P N]. destruct (density_pos _ _ Hd) as (D1 & D2 & D3). assert (NF : 0 < INR (length (fs ++ [f]))) by (rewrite app_length; apply lt_0_INR; simpl; lia).
  assert (EF : edge K r_max r_min (i * k) = edge bins r_max r_min i) by (apply edge_fine; auto).
  assert (EL : edge K r_max r_min (i * k + k) = edge bins r_max r_min (S i)) by (replace (i * k + k)%nat with (S i * k)%nat by lia; apply edge_fine; auto).
  split; [|split].
  - destruct (V' (i * k + (k - 1))%nat (IN (k - 1)%nat ltac:(lia))) as [_ N']. replace (S (i * k + (k - 1))) with (i * k + k)%nat in N' by lia. rewrite EL in N'. rewrite <- N in N'.
    apply Rmult_eq_reg_r in N'; auto. apply Rgt_not_eq, Rmult_lt_0_compat; auto.
  - set (m := read_mode h false Exact None) in *. set (C := density m (ri_data f) * INR (rd_np (ri_data f)) * INR (length (fs ++ [f]))). assert (CP : 0 < C) by (unfold C; apply Rmult_lt_0_compat; auto; apply Rmult_lt_0_compat; auto).
    apply (Rmult_eq_reg_r C); [|lra]. transitivity (INR (dist_count (edge bins r_max r_min i) (edge bins r_max r_min (S i)) (fs ++ [f]))); [rewrite <- P; unfold C; ring|].
    rewrite <- EF, <- EL, <- (dist_chain (edge K r_max r_min) (fs ++ [f]) (i * k) (fun a b H => edge_mono K r_max r_min a b K0 R1 H) k). unfold within.
    assert (G : forall (l : list nat), (forall j, In j l -> (j < k)%nat) -> fold_right Rplus 0 (map (fun j => INR (dist_count (edge K r_max r_min (i * k + j)) (edge K r_max r_min (S (i * k + j))) (fs ++ [f]))) l) =
      fold_right Rplus 0 (map (fun j => nth (i * k + j) (rdf_pcf r') 0 * shell (rd_2d (ri_data f)) (edge K r_max r_min (i * k + j)) (edge K r_max r_min (S (i * k + j)))) l) * C).
    { induction l as [|j l IH]; intros Hl; simpl; [ring|]. rewrite IH by (intros; apply Hl; right; auto). destruct (V' (i * k + j)%nat (IN j (Hl j (or_introl eq_refl)))) as [P' _]. rewrite <- P'. unfold C. ring. }
    apply G. intros j Hj. apply in_seq in Hj. lia.
  - unfold within. rewrite <- EF, <- EL. assert (G : forall n, fold_right Rplus 0 (map (fun j => shell (rd_2d (ri_data f)) (edge K r_max r_min (i * k + j)) (edge K r_max r_min (S (i * k + j)))) (seq 0 n))
      = shell (rd_2d (ri_data f)) (edge K r_max r_min (i * k)) (edge K r_max r_min (i * k + n))).
    { induction n as [|n IH]; [rewrite Nat.add_0_r; destruct (rd_2d (ri_data f)); rewrite ?shell_2d, ?shell_3d; simpl; ring|]. rewrite seq_S, map_app, fold_right_app. cbn [map fold_right plus].
      assert (Q : forall l x, fold_right Rplus x l = fold_right Rplus 0 l + x) by (clear; induction l as [|a l IH]; intros x; simpl; [ring|rewrite IH; ring]). rewrite Q, IH, Rplus_0_r, shell_add. f_equal. f_equal. lia. }
    symmetry. apply G.
Qed.
(** A smaller range with bins of the same width shows the same values. *)
Theorem C96_rdf_range : forall bins bins' r_max r_max' r_min r0 r0' h h' ev ev' fs f,
  rdf_make bins r_max r_min = Some r0 -> rdf_make bins' r_max' r_min = Some r0' -> (0 <= bins <= bins')%Z -> (bins' < 4294967295)%Z ->
  (r_max - r_min) / IZR bins = (r_max' - r_min) / IZR bins' ->
  Forall (rop_ok bins) h -> execution 0 (Z.to_nat bins) ev -> Forall (rop_ok bins') h' -> execution 0 (Z.to_nat bins') ev' ->
  rsince h [] = fs ++ [f] -> rsince h' [] = fs ++ [f] -> read_mode h' false Exact None = read_mode h false Exact None ->
  data_ok (read_mode h false Exact None) (ri_data f) -> (Z.of_nat (dist_count r_min r_max' (fs ++ [f])) < 2 ^ 32)%Z ->
  exists r r', rdf_run r0 (h ++ [RRead ev]) = Some r /\ rdf_run r0' (h' ++ [RRead ev']) = Some r' /\
    forall i, (i < Z.to_nat bins)%nat -> nth i (rdf_pcf r) 0 = nth i (rdf_pcf r') 0 /\ nth i (rdf_nr r) 0 = nth i (rdf_nr r') 0.
Proof.
  intros bins bins' r_max r_max' r_min r0 r0' h h' ev ev' fs f Mk Mk' Hb Hb' W Hh He Hh' He' Hs Hs' Hmode Hd Small.
  destruct (pre_ok _ _ _ _ Mk ltac:(lia)) as (B0 & R0 & R1). destruct (pre_ok _ _ _ _ Mk' ltac:(lia)) as (B0' & _ & R1').
  assert (EE : forall i, edge bins r_max r_min i = edge bins' r_max' r_min i) by (intros i; unfold edge; rewrite W; reflexivity).
  assert (RR : r_max <= r_max').
  { assert (Q : edge bins r_max r_min (Z.to_nat bins) = r_max) by (unfold edge; rewrite INR_IZR_INZ, Z2Nat.id by lia; field; apply not_0_IZR; lia).
    assert (Q' : edge bins' r_max' r_min (Z.to_nat bins') = r_max') by (unfold edge; rewrite INR_IZR_INZ, Z2Nat.id by lia; field; apply not_0_IZR; lia).
    rewrite <- Q, <- Q', EE. apply edge_mono; auto. lia. }
  assert (Small' : (Z.of_nat (dist_count r_min r_max (fs ++ [f])) < 2 ^ 32)%Z) by (pose proof (dist_add r_min r_max r_max' (fs ++ [f]) ltac:(lra)); lia).
  destruct (C49_values bins r_max r_min r0 h ev fs f Mk ltac:(lia) Hh He Hs Hd Small') as (r & E & _ & _ & V).
  destruct (C49_values bins' r_max' r_min r0' h' ev' fs f Mk' ltac:(lia) Hh' He' Hs' ltac:(rewrite Hmode; exact Hd) Small) as (r' & E' & _ & _ & V').
  exists r, r'. split; [exact E|]. split; [exact E'|]. cbv zeta in V, V'. intros i Hi. rewrite Hmode in V'. destruct (V i Hi) as [P N]. destruct (V' i ltac:(lia)) as [P' N']. rewrite (EE i), (EE (S i)) in P. rewrite (EE (S i)) in N. rewrite <- P' in P. rewrite <- N' in N.
  destruct (density_pos _ _ Hd) as (D1 & D2 & D3). assert (NF : 0 < INR (length (fs ++ [f]))) by (rewrite app_length; apply lt_0_INR; simpl; lia).
  assert (SH : 0 < shell (rd_2d (ri_data f)) (edge bins' r_max' r_min i) (edge bins' r_max' r_min (S i))).
  { assert (A : 0 <= edge bins' r_max' r_min i) by (apply Rle_trans with r_min; auto; pose proof (edge_mono bins' r_max' r_min 0 i B0' R1' ltac:(lia)) as X; unfold edge at 1 in X; simpl in X; lra).
    pose proof (edge_strict bins' r_max' r_min i B0' R1') as B. pose proof PI_RGT_0. set (x := edge bins' r_max' r_min i) in *. set (y := edge bins' r_max' r_min (S i)) in *. destruct (rd_2d (ri_data f)); rewrite ?shell_2d, ?shell_3d.
    - apply Rmult_lt_0_compat; auto. nra.
    - apply Rmult_lt_0_compat; [lra|]. assert (0 < (y - x) * (y * y + y * x + x * x)); [|nra]. apply Rmult_lt_0_compat; [lra|]. nra. }
  split.
  - apply Rmult_eq_reg_r in P; auto. apply Rgt_not_eq. repeat apply Rmult_lt_0_compat; auto.
  - apply Rmult_eq_reg_r in N; auto. apply Rgt_not_eq, Rmult_lt_0_compat; auto.
Qed.

Lemma cells_coarse : forall axes ks vals idx, Forall valid_axis axes -> Forall (fun k => (0 < k)%Z) ks -> length ks = length axes ->
  in_cell (refine ks axes) vals idx -> in_cell axes vals (coarse_index ks idx).
Proof.
  induction axes as [|a axes IH]; intros ks vals idx HV HK HL H.
  - destruct ks; [|discriminate]. simpl in H. inversion H; subst. constructor.
  - destruct ks as [|k ks]; [discriminate|]. inversion HV as [|? ? Va HV']; subst. inversion HK as [|? ? Hk HK']; subst. simpl in H. inversion H as [|a' axes' v vals' i idx' Hi Hv Hc]; subst. cbn [coarse_index combine map]. cbn [ax_n ax_min ax_max] in *. destruct Va as [Va1 Va2].
    pose proof (Z.div_mod i k ltac:(lia)) as DM. pose proof (Z.mod_pos_bound i k Hk) as MB. set (q := (i / k)%Z) in *. set (m := (i mod k)%Z) in *.
    assert (Hq : (0 <= q < ax_n a)%Z) by (unfold q; split; [apply Z.div_pos; lia|apply Z.div_lt_upper_bound; lia]).
    constructor; auto.
    + unfold interval_lo in *. cbn [ax_n ax_min ax_max] in Hv. set (w := (ax_max a - ax_min a) / IZR (ax_n a)). assert (KP : 0 < IZR k) by (apply (IZR_lt 0); lia). assert (NP : 0 < IZR (ax_n a)) by (apply (IZR_lt 0); lia).
      assert (W : (ax_max a - ax_min a) / IZR (k * ax_n a) = w / IZR k) by (unfold w; rewrite mult_IZR; field; split; lra). rewrite W in Hv. assert (WP : 0 < w / IZR k) by (apply Rdiv_lt_0_compat; auto; apply Rdiv_lt_0_compat; auto; lra).
      assert (WE : w = IZR k * (w / IZR k)) by (field; lra). set (u := w / IZR k) in *. clearbody u. rewrite WE.
      assert (A1 : IZR q * IZR k <= IZR i) by (rewrite <- mult_IZR; apply IZR_le; lia). assert (A2 : IZR (i + 1) <= IZR (q + 1) * IZR k) by (rewrite <- mult_IZR; apply IZR_le; lia).
      destruct Hv as [Hv1 Hv2]. split.
      * apply Rle_trans with (2 := Hv1). apply Rplus_le_compat_l. rewrite <- Rmult_assoc. apply Rmult_le_compat_r; lra.
      * apply Rlt_le_trans with (1 := Hv2). apply Rplus_le_compat_l. rewrite <- Rmult_assoc. apply Rmult_le_compat_r; lra.
    + apply (IH ks vals' idx'); auto.
Qed.

(** Any histogram, any number of axes: the bin of a sample in the coarse histogram is the one holding its bin in the refined histogram, and the same samples are dropped. *)
Theorem C96_bins : forall axes ks vals, Forall valid_axis axes -> Forall (fun k => (0 < k)%Z) ks -> length ks = length axes -> Forall valid_axis (refine ks axes) -> length vals = length axes ->
  axes_bins axes vals = option_map (coarse_index ks) (axes_bins (refine ks axes) vals).
Proof.
  intros axes ks vals HV HK HL HR HN. assert (LR : length (refine ks axes) = length axes) by (unfold refine; rewrite map_length, combine_length; lia).
  destruct (C13_cells axes vals HV HN) as [A1 A2]. destruct (C13_cells (refine ks axes) vals HR ltac:(congruence)) as [B1 B2].
  assert (IR : in_range (refine ks axes) vals <-> in_range axes vals).
  { clear - HL. unfold in_range, refine. revert ks vals HL. induction axes as [|a axes IH]; intros [|k ks] vals HL; try discriminate; simpl; [tauto|]. specialize (IH ks). split; intros H; inversion H; subst; constructor; auto; apply IH; auto. }
  destruct (axes_bins (refine ks axes) vals) as [idx|] eqn:E.
  - assert (R' : in_range (refine ks axes) vals) by (pose proof (axes_bins_spec (refine ks axes) vals HR ltac:(congruence)) as S; rewrite E in S; eapply in_cell_in_range; eauto). destruct (B1 R') as (i & Ei & Ci & _). injection Ei as <-.
    destruct (A1 (proj1 IR R')) as (j & Ej & _ & U). rewrite Ej. simpl. f_equal. symmetry. apply U. apply cells_coarse; auto.
  - simpl. apply A2. intros R'. apply IR in R'. destruct (B1 R') as (i & Ei & _). discriminate.
Qed.
Example C96_bins_ex : axes_bins [Axis 2 0 1; Axis 3 0 3] [3/4; 5/2] = Some [1; 2]%Z /\ axes_bins (refine [2; 4]%Z [Axis 2 0 1; Axis 3 0 3]) [3/4; 5/2] = Some [3; 10]%Z /\ coarse_index [2; 4]%Z [3; 10]%Z = [1; 2]%Z.
Proof.
  assert (G : axes_bins (refine [2; 4]%Z [Axis 2 0 1; Axis 3 0 3]) [3/4; 5/2] = Some [3; 10]%Z).
  { destruct (C13_cells (refine [2; 4]%Z [Axis 2 0 1; Axis 3 0 3]) [3/4; 5/2]) as [A _]; auto.
    - repeat constructor; simpl; try lia; lra.
    - destruct A as (i & E & _ & U); [repeat constructor; simpl; lra|]. rewrite E. f_equal. symmetry. apply U. repeat constructor; unfold interval_lo; simpl; try lia; lra. }
  split; [|split; [exact G|reflexivity]]. rewrite (C96_bins [Axis 2 0 1; Axis 3 0 3] [2; 4]%Z); [rewrite G; reflexivity| | | | |]; auto; repeat constructor; simpl; try lia; lra.
Qed.

(** Two frames, one bin against two. *)
Lemma ex_make2 : exists r0, rdf_make 2 1 0 = Some r0.
Proof.
  destruct (rdf_make 2 1 0) as [r|] eqn:E; [eauto|]. exfalso. apply (C49_reject 2 1 0) in E; [|lia]. destruct E as [E|[E|[E|E]]]; [discriminate|lra|lra|lra].
Qed.
Example C96_rdf_ex : exists r0 r0' r r' ev', rdf_run r0 ([RCompute true (ex_frame 2 1); RCompute false (ex_frame 2 3)] ++ [RRead [(0%nat, 0%nat)]]) = Some r /\
  rdf_run r0' ([RCompute true (ex_frame 2 1); RCompute false (ex_frame 2 3)] ++ [RRead ev']) = Some r' /\ nth 0 (rdf_nr r) 0 = nth 1 (rdf_nr r') 0 /\
  nth 0 (rdf_pcf r) 0 * shell false 0 1 = within 2 0 (fun j => nth j (rdf_pcf r') 0 * shell false (edge 2 1 0 j) (edge 2 1 0 (S j))).
Proof.
  destruct ex_make as [r0 E0], ex_make2 as [r0' E0']. set (ev' := map (fun i => (0%nat, i)) (range 0 2)).
  destruct (C96_rdf 2 1 1 0 r0 r0' [RCompute true (ex_frame 2 1); RCompute false (ex_frame 2 3)] [RCompute true (ex_frame 2 1); RCompute false (ex_frame 2 3)] [(0%nat, 0%nat)] ev' [ex_frame 2 1] (ex_frame 2 3)) as (r & r' & R1 & R2 & V); auto; try lia.
  - repeat constructor; apply ex_ok.
  - exact (sequential_execution 0 1 0).
  - repeat constructor; apply ex_ok.
  - exact (sequential_execution 0 2 0).
  - repeat split; simpl; try lra; lia.
  - rewrite ex_count_app, !ex_count by lra. simpl. lia.
  - exists r0, r0', r, r', ev'. cbv zeta in V. destruct (V 0%nat ltac:(simpl; lia)) as (A & B & _). destruct ex_edge as [X Y]. cbn [rd_2d ri_data ex_frame] in B. rewrite X, Y in B. auto.
Qed.
Example C96_range_ex : exists r0 r0' r r' ev', rdf_run r0 ([RCompute true (ex_frame 2 1); RCompute false (ex_frame 2 3)] ++ [RRead [(0%nat, 0%nat)]]) = Some r /\
  rdf_run r0' ([RCompute true (ex_frame 2 1); RCompute false (ex_frame 2 3)] ++ [RRead ev']) = Some r' /\ nth 0 (rdf_pcf r) 0 = nth 0 (rdf_pcf r') 0.
Proof.
  destruct ex_make as [r0 E0]. assert (M : exists r0', rdf_make 2 2 0 = Some r0').
  { destruct (rdf_make 2 2 0) as [r|] eqn:E; [eauto|]. exfalso. apply (C49_reject 2 2 0) in E; [|lia]. destruct E as [E|[E|[E|E]]]; [discriminate|lra|lra|lra]. }
  destruct M as [r0' E0']. set (ev' := map (fun i => (0%nat, i)) (range 0 2)).
  destruct (C96_rdf_range 1 2 1 2 0 r0 r0' [RCompute true (ex_frame 2 1); RCompute false (ex_frame 2 3)] [RCompute true (ex_frame 2 1); RCompute false (ex_frame 2 3)] [(0%nat, 0%nat)] ev' [ex_frame 2 1] (ex_frame 2 3)) as (r & r' & R1 & R2 & V); auto; try lia; try lra.
  - repeat constructor; apply ex_ok.
  - exact (sequential_execution 0 1 0).
  - repeat constructor; apply ex_ok.
  - exact (sequential_execution 0 2 0).
  - repeat split; simpl; try lra; lia.
  - rewrite ex_count_app, !ex_count by lra. simpl. lia.
  - exists r0, r0', r, r', ev'. destruct (V 0%nat ltac:(simpl; lia)) as (A & B). auto.
Qed.
Print Assumptions C96_rdf.
Print Assumptions C96_rdf_range.
Print Assumptions C96_bins.
