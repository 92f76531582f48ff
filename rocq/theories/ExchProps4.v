(** C92: nearest neighbours are not mutual; cases that meet the hypotheses. *)
From Coq Require Import Reals ZArith List Permutation Lia Lra.
From Verif Require Import FilterProps BoxProofs BoxProps AABBProofs2 AABBProps LinkCellProps QueryProps RdfProps ParProofs KnnProps KnnProps3 KnnProps4 KnnProps5 CorrProps PmftProps LocalDensProps SymmProofs SymmProps SymmProps2 ExchProofs ExchProps ExchProps2.
From Verif Require Import KnnSpec BoxSpec QueryArgSpec QuerySpec RdfShell.
From Verif Require Import ExchSpec.
From Verif Require Import BoxSpec SymmSpec QuerySpec.
Import ListNotations.
Local Open Scope R_scope.

Definition one_near : pyargs := PA PyNone None None None (Some 1%Z) (Some false) None false.
Lemma one_near_ok : no_sentinel one_near /\ well_formed one_near /\ asks_nearest one_near 1.
Proof. split; [repeat split; discriminate|]. split; [split; [reflexivity|split; [discriminate|]]; intros k E; injection E as <-; lia|]. split; auto. right; left; reflexivity. Qed.
(** In the cube of side ten, points on the x axis at most five apart are nearest without any image. *)
Lemma line_candidate points j a c qi : (j < length points)%nat -> nth j points v0 = V3 a 0 0 -> Rabs (a - c) <= 5 ->
  candidate ex_cube points (V3 c 0 0) qi false 0 near_images j (V3 (a - c) 0 0) /\ norm (V3 (a - c) 0 0) = Rabs (a - c).
Proof.
  intros Hj E D. assert (N : norm (V3 (a - c) 0 0) = Rabs (a - c)) by (unfold norm, dot; simpl; rewrite <- sqrt_Rsqr_abs; f_equal; unfold Rsqr; ring).
  split; [|exact N]. split; [exact Hj|]. split; [intros [? _]; discriminate|]. split; [|rewrite N; apply Rabs_pos]. split.
  - exists 0%Z, 0%Z, 0%Z. split; [repeat split; auto|]. split; [repeat split; lia|]. unfold sep. rewrite E. unfold flat, shift, comb, a1, a2, a3, ex_cube. apply vec_eq; simpl; ring.
  - intros i1 i2 i3 _ _. rewrite N. eapply Rle_trans; [|apply abs_vx_norm]. rewrite cube_sep, E. cbn [vx].
    assert (K : (i1 = 0 \/ i1 <= -1 \/ 1 <= i1)%Z) by lia. destruct K as [-> |[K|K]]; [right; f_equal; simpl; ring| |]; apply IZR_le in K; revert D; unfold Rabs; repeat destruct (Rcase_abs _); lra.
Qed.
(** One query point on the axis always gets one neighbour, if a point is near. *)
Lemma one_found points qs ls i j a c : nq_ok ex_cube points = true -> py_query BAABB ex_cube points qs one_near (Some ls) -> (i < length qs)%nat -> nth i qs v0 = V3 c 0 0 ->
  (j < length points)%nat -> nth j points v0 = V3 a 0 0 -> Rabs (a - c) <= 5 -> length (nth i ls []) = 1%nat.
Proof.
  intros Hn Q Hi Ei Hj Ej D. destruct one_near_ok as (S & W & A).
  destruct (C34_query BAABB ex_cube points qs one_near 1) as (_ & _ & H); auto; try discriminate; [apply ex_cube_positive|apply ex_cube_fp|destruct qs; [simpl in Hi; lia|discriminate]|lia|].
  destruct (H ls Q) as [_ H']. destruct (H' i Hi) as (_ & LE & HC). cbn [or_else one_near pa_rmin pa_excl pa_rmax pa_scale] in HC. rewrite Ei in HC. change (Z.to_nat 1) with 1%nat in *.
  destruct (line_candidate points j a c i Hj Ej D) as [C N]. destruct (in_dec Nat.eq_dec j (map bp (nth i ls []))) as [I|I].
  - destruct (nth i ls []); [destruct I|simpl in *; lia].
  - destruct (HC _ _ C I) as [[L _]|[_ L]]; auto. exfalso. rewrite N in L. unfold xmin, max_plane in L. rewrite ex_cube_planes in L. simpl in L. revert L. unfold Rmax. repeat destruct (Rle_dec _ _); lra.
Qed.
(** Nearest neighbours are not mutual: one bond from one side, two from the other. *)
Theorem C92_nearest_refuted : exists b points qs p, BoxSpec.positive b /\ fully_periodic b /\ (forall x, In x (points ++ qs) -> in_cell b x) /\ asks_nearest p 1 /\ NoDup points /\
  (exists ls, py_query BAABB b points qs p (Some ls)) /\ (exists ls', py_query BAABB b qs points p (Some ls')) /\
  forall ls ls', py_query BAABB b points qs p (Some ls) -> py_query BAABB b qs points p (Some ls') ->
    length (concat ls) = 1%nat /\ length (concat ls') = 2%nat /\ ~ exchanged ls ls'.
Proof.
  exists ex_cube, [v0; V3 1 0 0], [v0], one_near. destruct one_near_ok as (S & W & A).
  split; [apply ex_cube_positive|]. split; [apply ex_cube_fp|]. split; [intros x [<-|[<-|[<-|[]]]]; apply ex_corner; lra|]. split; [exact A|].
  split; [repeat constructor; simpl; auto; intros [E|[]]; injection E; lra|].
  assert (G : forall points qs, nq_ok ex_cube points = true -> qs <> [] -> (exists ls, py_query BAABB ex_cube points qs one_near (Some ls)) /\ forall ls, py_query BAABB ex_cube points qs one_near (Some ls) -> length ls = length qs).
  { intros points qs Hn Hq. destruct (C34_query BAABB ex_cube points qs one_near 1) as (E & _ & H); auto; try discriminate; [apply ex_cube_positive|apply ex_cube_fp|lia|]. split; auto. intros ls Q. apply (H ls Q). }
  destruct (G [v0; V3 1 0 0] [v0] eq_refl ltac:(discriminate)) as [E1 L1]. destruct (G [v0] [v0; V3 1 0 0] eq_refl ltac:(discriminate)) as [E2 L2].
  split; [exact E1|]. split; [exact E2|]. intros ls ls' Q Q'. specialize (L1 ls Q). specialize (L2 ls' Q').
  assert (K1 : length (concat ls) = 1%nat).
  { assert (F := one_found [v0; V3 1 0 0] [v0] ls 0 0 0 0 eq_refl Q ltac:(simpl; lia) eq_refl ltac:(simpl; lia) eq_refl). destruct ls as [|l [|? ?]]; try discriminate L1. simpl in *. rewrite app_nil_r. apply F. rewrite Rminus_0_r, Rabs_R0. lra. }
  assert (K2 : length (concat ls') = 2%nat).
  { assert (F := one_found [v0] [v0; V3 1 0 0] ls' 0 0 0 0 eq_refl Q' ltac:(simpl; lia) eq_refl ltac:(simpl; lia) eq_refl). assert (F' := one_found [v0] [v0; V3 1 0 0] ls' 1 0 0 1 eq_refl Q' ltac:(simpl; lia) eq_refl ltac:(simpl; lia) eq_refl).
    destruct ls' as [|l [|m [|? ?]]]; try discriminate L2. simpl in *. rewrite app_nil_r, app_length, F, F'; auto; unfold Rabs; destruct (Rcase_abs _); lra. }
  split; [exact K1|]. split; [exact K2|]. intros X. apply Permutation_length in X. rewrite map_length in X. lia.
Qed.

(** * The conditions can be met: two points and one query point across the boundary. *)
Example C92_case : exists points qs, setting ex_cube points qs ex_args 3 /\ (Z.of_nat (length qs) <= 2 ^ 31)%Z /\ usable BAABB ex_cube points /\ usable BCell ex_cube qs /\ length points <> length qs /\
  exists x, in_range ex_cube points (nth 0 qs v0) 0 3 0 true all_images x.
Proof.
  exists [V3 0 0 0; V3 4 0 0], [V3 (-4) 0 0]. destruct ex_args_ok as (S & W & A).
  assert (C : forall x, In x ([V3 0 0 0; V3 4 0 0] ++ [V3 (-4) 0 0]) -> in_cell ex_cube x) by (intros x [<-|[<-|[<-|[]]]]; apply ex_corner; lra).
  split; [|split; [simpl; lia|split; [exact I|split; [exact I|split; [simpl; lia|]]]]].
  - constructor; auto; try (simpl; lra); try discriminate.
    + apply ex_cube_positive. + apply ex_cube_fp. + intros x Hx. apply C, in_or_app. auto. + intros x Hx. apply C, in_or_app. auto.
    + unfold radius_ok. rewrite ex_cube_planes. simpl. repeat split; intros; lra.
  - set (d := sep ex_cube [V3 0 0 0; V3 4 0 0] (V3 (-4) 0 0) 1 1 0 0).
    assert (ED : d = V3 (-2) 0 0) by (unfold d, sep, flat, shift, comb, a1, a2, a3, ex_cube; apply vec_eq; simpl; ring).
    assert (N2 : norm d = 2) by (rewrite ED; unfold norm, dot; simpl; replace (_ + _) with (Rsqr 2) by (unfold Rsqr; ring); apply sqrt_Rsqr; lra).
    exists (Bond 0 1 (norm d) 1 d). exists 1%nat, 1%Z, 0%Z, 0%Z. cbn [nth]. fold d. rewrite N2. split; [simpl; lia|]. split; [repeat split; simpl; discriminate|]. split; [exact I|].
    split; [intros [_ ?]; discriminate|]. split; [lra|auto].
Qed.
(** Calls of the analyses with two points and one query point. *)
Definition ex_pair : list (list bond) := [[Bond 0 1 2 1 (V3 (-2) 0 0)]].
Definition ex_pair' : list (list bond) := [[]; [Bond 1 0 2 1 (V3 2 0 0)]].
Lemma ex_pair_exchanged : exchanged ex_pair ex_pair'.
Proof. unfold exchanged, ex_pair, ex_pair', turned. simpl. apply Permutation_refl'. f_equal. f_equal. unfold vneg. simpl. f_equal; ring. Qed.
Lemma one_run : execution 0 1 [(0%nat, 0%nat)]. Proof. exact (sequential_execution 0 1 0). Qed.
Lemma two_run : execution 0 2 [(0%nat, 0%nat); (0%nat, 1%nat)]. Proof. exact (sequential_execution 0 2 0). Qed.
Example C92_rdf_case : exists fr fr' h h' r0, rdf_make 2 4 0 = Some r0 /\ Forall (rop_ok 2) h /\ Forall (rop_ok 2) h' /\ Forall2 exchanged_op h h' /\ rsince h [] = [] ++ [fr] /\ rsince h' [] = [fr'] /\
  data_ok Exact (ri_data fr) /\ rd_np (ri_data fr) <> rd_nqp (ri_data fr) /\ dist_count 0 4 [fr] = 1%nat.
Proof.
  destruct (rdf_make 2 4 0) as [r0|] eqn:M; [|apply C49_reject in M; [destruct M as [M|[M|[M|M]]]; [discriminate|lra..]|lia]].
  assert (F := C92_frames ex_cube ex_pair ex_pair' [(0%nat, 0%nat)] [(0%nat, 0%nat); (0%nat, 1%nat)] ex_pair_exchanged). change (length ex_pair) with 1%nat in F. change (length ex_pair') with 2%nat in F.
  eexists _, _, [RCompute true _], [RCompute true _], r0. split; [reflexivity|]. split; [|split; [|split; [constructor; [constructor; exact F|constructor]|]]].
  - repeat constructor. exact one_run.
  - repeat constructor. exact two_run.
  - split; [reflexivity|]. split; [reflexivity|]. split; [|split; [cbn; lia|]].
    + unfold query_frame, data_ok. cbn. unfold volume, ex_cube. cbn. repeat split; try lia. lra.
    + unfold dist_count, query_frame. cbn. destruct (Rle_bool_spec 0 2), (Rlt_bool_spec 2 4); try lra. reflexivity.
Qed.
Example C92_correlation_case : exists s0 f f', cf_make 2 4 = Some s0 /\ Forall (cf_op_ok 2) [CfCompute true f] /\ Forall (cf_op_ok 2) [CfCompute true f'] /\ Forall2 exchanged_cf [CfCompute true f] [CfCompute true f'] /\
  length (bin_bonds 2 4 1 [f]) = 1%nat /\ ~ real_values f.
Proof.
  destruct (cf_make 2 4) as [s0|] eqn:E0; [|unfold cf_make in E0; simpl in E0; rewrite Rle_bool_false in E0 by lra; discriminate].
  exists s0, (CfIn 1 (fun i => nth i ex_pair []) [(0%nat, 0%nat)] 2 1 [(1, 0); (0, 1)] (Some [(2, 0)])), (CfIn 2 (fun i => nth i ex_pair' []) [(0%nat, 0%nat); (0%nat, 1%nat)] 1 2 [(2, 0)] (Some [(1, 0); (0, 1)])).
  split; [reflexivity|]. split; [|split; [|split; [|split]]].
  - constructor; [|constructor]. split; [exact one_run|]. split; [reflexivity|]. split; [reflexivity|]. intros b [<-|[]]. simpl. lia.
  - constructor; [|constructor]. split; [exact two_run|]. split; [reflexivity|]. split; [reflexivity|]. intros b [<-|[]]. simpl. lia.
  - constructor; [|constructor]. constructor. split; [exact ex_pair_exchanged|split; reflexivity].
  - unfold bin_bonds, cf_edge. cbn. destruct (Rle_bool_spec (1 * (4 / 2)) 2), (Rlt_bool_spec 2 ((1 + 1) * (4 / 2))); try lra. reflexivity.
  - intros H. specialize (H (0, 1) (or_introl (or_intror (or_introl eq_refl)))). cbn in H. lra.
Qed.
Definition ex_turn : pin := PF true true (PD 100 2 1) [0; 1] (Some [2]) [] [] 1 (fun i => nth i ex_pair []) [(0%nat, 0%nat)].
Definition ex_turn' : pin := PF true true (PD 100 1 2) [2] (Some [0; 1]) [] [] 2 (fun i => nth i ex_pair' []) [(0%nat, 0%nat); (0%nat, 1%nat)].
Example C92_pmft_case : exists p0 p0', pmftr12_make 4 2 3 5 = Some p0 /\ pmftr12_make 4 2 5 3 = Some p0' /\ Forall (pop_ok 30) [PCompute true ex_turn] /\ Forall (pop_ok 30) [PCompute true ex_turn'] /\
  Forall2 exchanged_pop [PCompute true ex_turn] [PCompute true ex_turn'] /\ frames R12 [PCompute true ex_turn] = [] ++ [ex_turn] /\ data_pos R12 ex_turn.
Proof.
  assert (T : Rltb 4 0 = false) by (apply Rltb_false; lra).
  eexists _, _. unfold pmftr12_make. rewrite T. split; [reflexivity|]. split; [reflexivity|]. split; [|split; [|split; [|split]]].
  - constructor; [|constructor]. split; [exact one_run|]. split; [|discriminate]. intros [|i] b Hi; [intros [<-|[]]; simpl; lia|simpl in Hi; lia].
  - constructor; [|constructor]. split; [exact two_run|]. split; [|discriminate]. intros [|[|i]] b Hi; [intros []|intros [<-|[]]; simpl; lia|simpl in Hi; lia].
  - constructor; [|constructor]. constructor. split; [exact ex_pair_exchanged|]. repeat split.
  - reflexivity.
  - repeat split; simpl; try lia; lra.
Qed.
Example C92_local_density_case : exists l, ldn_make 2 1 = Some l /\ 0 < 1 /\ exchanged ex_pair ex_pair' /\ inside 2 1 2 = / 2.
Proof.
  exists (LDens 2 1). split; [unfold ldn_make; destruct (Rleb_spec 2 0); [lra|]; destruct (Rltb_spec 1 0); [lra|reflexivity]|]. split; [lra|]. split; [exact ex_pair_exchanged|].
  unfold inside. rewrite Rmin_right; lra.
Qed.
Print Assumptions C92_nearest_refuted.
