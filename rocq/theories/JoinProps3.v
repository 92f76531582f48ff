(** C93: the conditions can be met, with one bond across the boundary. *)
From Coq Require Import Reals ZArith List Permutation Lia Lra.
From Verif Require Import HistProofs HistProps MArrayProofs PmftProofs PmftProps RdfProps BoxProofs LocalDensProps CorrProps ExchProofs ExchProps ExchProps2 ExchProps3 ExchProps4 JoinProofs JoinProps JoinProps2.
From Verif Require Import JoinSpec RdfShell RdfSpec LocalDensModel LocalDensSpec CorrSpec.
From Verif Require Import HistSpec PmftSpec JoinSpec.
Import ListNotations.
Local Open Scope R_scope.

Definition ex_ring : rin := RI 1 (fun i => nth i ex_pair []) [(0%nat, 0%nat)] (RD 100 true 2 1).
Lemma ex_ring_made bins r : (1 <= bins)%Z -> 0 < r -> exists r0, rdf_make bins r 0 = Some r0.
Proof. intros B H. destruct (rdf_make bins r 0) as [r0|] eqn:M; eauto. apply C49_reject in M; [destruct M as [M|[M|[M|M]]]; try lra; lia|lia]. Qed.
Example C93_rings_case : exists p0 r0, pmftr12_make 4 2 3 5 = Some p0 /\ rdf_make 2 4 0 = Some r0 /\ Forall (pop_ok (Z.to_nat (2 * 3 * 5))) [PCompute true ex_turn] /\ Forall (rop_ok 2) [RCompute true ex_ring] /\
  read_mode [RCompute true ex_ring] false Exact None = Exact /\ rsince [RCompute true ex_ring] [] = [] ++ [ex_ring] /\ frames R12 [PCompute true ex_turn] = [] ++ [ex_turn] /\ Forall2 same_rings ([] ++ [ex_ring]) ([] ++ [ex_turn]) /\
  data_ok Exact (ri_data ex_ring) /\ dist_count (edge 2 4 0 1) (edge 2 4 0 2) [ex_ring] = 1%nat.
Proof.
  destruct (ex_ring_made 2 4) as [r0 M]; [lia|lra|]. assert (T : Rltb 4 0 = false) by (apply Rltb_false; lra).
  eexists _, r0. split; [unfold pmftr12_make; rewrite T; reflexivity|]. split; [exact M|]. split; [|split; [|split; [reflexivity|split; [reflexivity|split; [reflexivity|split; [|split]]]]]].
  - constructor; [|constructor]. split; [exact one_run|]. split; [|discriminate]. intros [|i] b Hi; [intros [<-|[]]; simpl; lia|simpl in Hi; lia].
  - repeat constructor. exact one_run.
  - constructor; [|constructor]. split; [apply Permutation_refl|]. repeat split.
  - repeat split; simpl; try lia; lra.
  - unfold dist_count, edge. cbn. destruct (Rle_bool_spec (0 + 1 * ((4 - 0) / 2)) 2), (Rlt_bool_spec 2 (0 + (1 + 1) * ((4 - 0) / 2))); try lra. reflexivity.
Qed.
Example C93_plane_case : exists p0 p1, pmftxyt_make 4 4 2 2 3 = Some p0 /\ pmftxy_make 4 4 2 2 = Some p1 /\ Forall (pop_ok (Z.to_nat (2 * 2 * 3))) [PCompute true ex_turn] /\ Forall (pop_ok (Z.to_nat (2 * 2))) [PCompute true ex_turn] /\
  frames XYT [PCompute true ex_turn] = [] ++ [ex_turn] /\ frames XY [PCompute true ex_turn] = [] ++ [ex_turn] /\ Forall2 same_plane ([] ++ [ex_turn]) ([] ++ [ex_turn]) /\ data_pos XYT ex_turn /\ length (pin_bonds ex_turn) = 1%nat.
Proof.
  assert (T : Rltb 4 0 = false) by (apply Rltb_false; lra).
  eexists _, _. split; [unfold pmftxyt_make; rewrite T; reflexivity|]. split; [unfold pmftxy_make; rewrite T; reflexivity|].
  assert (O : forall n, Forall (pop_ok n) [PCompute true ex_turn]).
  { intros n. constructor; [|constructor]. split; [exact one_run|]. split; [|discriminate]. intros [|i] b Hi; [intros [<-|[]]; simpl; lia|simpl in Hi; lia]. }
  split; [apply O|]. split; [apply O|]. split; [reflexivity|]. split; [reflexivity|]. split; [|split; [|reflexivity]].
  - constructor; [|constructor]. repeat split; auto.
  - repeat split; simpl; try lia; lra.
Qed.
Definition ex_ones : cf_in := CfIn 1 (fun i => nth i ex_pair []) [(0%nat, 0%nat)] 2 1 [(1, 0); (1, 0)] (Some [(1, 0)]).
Example C93_ones_case : exists s0, cf_make 2 4 = Some s0 /\ Forall (cf_op_ok 2) [CfCompute true ex_ones] /\ cf_since [CfCompute true ex_ones] [] = [ex_ones] /\ Forall2 same_distances [ex_ring] [ex_ones] /\ Forall ones [ex_ones] /\
  dist_count (edge 2 4 0 0) (edge 2 4 0 1) [ex_ring] = 0%nat /\ dist_count (edge 2 4 0 1) (edge 2 4 0 2) [ex_ring] = 1%nat.
Proof.
  destruct (cf_make 2 4) as [s0|] eqn:E0; [|unfold cf_make in E0; simpl in E0; rewrite Rle_bool_false in E0 by lra; discriminate].
  exists s0. split; [reflexivity|]. split; [|split; [reflexivity|split; [|split; [|split]]]].
  - constructor; [|constructor]. split; [exact one_run|]. split; [reflexivity|]. split; [reflexivity|]. intros b [<-|[]]. simpl. lia.
  - constructor; [|constructor]. apply Permutation_refl.
  - constructor; [|constructor]. split; simpl; intuition auto.
  - unfold dist_count, edge. cbn. destruct (Rle_bool_spec (0 + 0 * ((4 - 0) / 2)) 2), (Rlt_bool_spec 2 (0 + 1 * ((4 - 0) / 2))); try lra. reflexivity.
  - unfold dist_count, edge. cbn. destruct (Rle_bool_spec (0 + 1 * ((4 - 0) / 2)) 2), (Rlt_bool_spec 2 (0 + (1 + 1) * ((4 - 0) / 2))); try lra. reflexivity.
Qed.
Example C93_local_density_case : exists l r0 r1, ldn_make 2 1 = Some l /\ (forall b, In b (ri_all ex_ring) -> 0 <= bd b <= 2 + 1 / 2) /\ rdf_make 3 (2 - 1 / 2) 0 = Some r0 /\ rdf_make 3 4 0 = Some r1 /\
  Forall (rop_ok 3) [RCompute true ex_ring] /\ rsince [RCompute true ex_ring] [] = [ex_ring] /\ data_ok Exact (ri_data ex_ring) /\ length (ri_all ex_ring) = 1%nat /\ inside 2 1 2 = / 2.
Proof.
  destruct (ex_ring_made 3 (2 - 1 / 2)) as [r0 M0]; [lia|lra|]. destruct (ex_ring_made 3 4) as [r1 M1]; [lia|lra|].
  exists (LDens 2 1), r0, r1. split; [unfold ldn_make; destruct (Rleb_spec 2 0); [lra|]; destruct (Rltb_spec 1 0); [lra|reflexivity]|].
  split; [intros b [<-|[]]; simpl; lra|]. split; [exact M0|]. split; [exact M1|]. split; [repeat constructor; exact one_run|]. split; [reflexivity|]. split; [repeat split; simpl; try lia; lra|]. split; [reflexivity|].
  unfold inside. rewrite Rmin_right; lra.
Qed.
