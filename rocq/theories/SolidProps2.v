(** C58: SolidLiquid always comes to a result, and to only one. *)
From Verif Require Import DsetProofs DsetProps ClusterModel ClusterProofs ClusterProps ClusterProps2 SolidProps.
From Coq Require Import Permutation Reals List Lia.
From Verif Require Import SteinProps SteinProofs SolidSpec.
Import ListNotations.

(** When the sizes match, the call completes; however the solid-like bonds are dealt out to threads, the clustering ends, and
    all results agree in number, indices and keys of the clusters. *)
Theorem C58_result : forall fsph c s f, fsph_ok fsph (sq_l c) -> sq_reach fsph c s -> sq_ok (sq_l c) f -> sizes_match f ->
  exists o, sq_call fsph c s f = SQDone o /\
    (forall threads, Permutation (map (fun b => (bp b, bq b)) (nl_bonds (so_solid o))) (concat threads) -> exists r, sq_cluster (qi_pts f) o threads r) /\
    (forall t1 t2 r1 r2, sq_cluster (qi_pts f) o t1 r1 -> sq_cluster (qi_pts f) o t2 r2 ->
       cr_num r1 = cr_num r2 /\ (forall i, i < length (qi_pts f) -> cr_idx r1 i = cr_idx r2 i) /\ (forall k, k < cr_num r1 -> cr_keys r1 k = cr_keys r2 k))%nat.
Proof.
  intros fsph c s f F H OK M. destruct (C58_accept fsph c F s f H OK) as [_ A]. destruct (A M) as [o E]. exists o. split; auto.
  pose proof (C58_links fsph c F s f o H OK E) as L. assert (HB : forall p q, In (p, q) (map (fun b => (bp b, bq b)) (nl_bonds (so_solid o))) -> (p < length (qi_pts f) /\ q < length (qi_pts f))%nat).
  { intros p q I. rewrite L in I. apply (links_bound c f p q (proj1 OK) M I). }
  split.
  - intros threads P. destruct (C39_result _ _ threads None HB P) as [[r R] _]. exists r. split; auto.
  - intros t1 t2 r1 r2 [P1 R1] [P2 R2]. apply (C40_schedule_independent _ _ t1 t2 None r1 r2 HB P1 P2 R1 R2).
Qed.
Example C58_result_ex : exists o r, sq_call fsph_ref (sp_conf (1 / 2) 1) stl_new sp_in = SQDone o /\ sq_cluster (qi_pts sp_in) o [map (fun b => (bp b, bq b)) (nl_bonds (so_solid o))] r.
Proof.
  destruct (C58_result fsph_ref (sp_conf (1 / 2) 1) stl_new sp_in (fsph_ref_ok 2) (sq_new _ _) sp_ok sp_match) as (o & E & X & _). exists o. destruct (X [map (fun b => (bp b, bq b)) (nl_bonds (so_solid o))]) as [r R]; [cbn [concat]; rewrite app_nil_r; apply Permutation_refl|]. exists r. auto.
Qed.
Print Assumptions C58_result.
