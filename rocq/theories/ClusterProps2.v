(** C39: Cluster.compute ends with a result, for every distribution of the bonds over threads. *)
From Verif Require Import DsetSpec DsetProofs DsetProps DsetProofs2 DsetProps2 DsetProofs3 DsetProps3 ClusterSpec ClusterModel ClusterProofs ClusterProofs2 ClusterProps.

(** From every completed merge (C41_cluster_terminates: there is no infinite one) the passes that follow run to a result. *)
Theorem C39_result : forall n bonds threads keys, (forall p q, In (p, q) bonds -> p < n /\ q < n) -> Permutation bonds (concat threads) ->
  (exists r, cluster_run n threads keys r) /\
  (forall m1, merge_run threads m1 -> exists m2 m3 st idx r, run1 m1 (label_pass n (seq 0 n) (labels_init n)) m2 st /\ sorted_indexes st idx /\
     run1 m2 (assign_pass keys st (invert idx) (seq 0 n) (CR (lb_num st) (fun _ => 0) (fun _ => []))) m3 r).
Proof.
  intros n bonds threads keys HB0 P. assert (HB : forall p q, In (p, q) (concat threads) -> p < n /\ q < n) by (intros p q H; apply HB0; eapply Permutation_in; [apply Permutation_sym; exact P|auto]).
  assert (G : forall m1, merge_run threads m1 -> exists m2 m3 st idx r, run1 m1 (label_pass n (seq 0 n) (labels_init n)) m2 st /\ sorted_indexes st idx /\
     run1 m2 (assign_pass keys st (invert idx) (seq 0 n) (CR (lb_num st) (fun _ => 0) (fun _ => []))) m3 r).
  { intros m1 MR. destruct (merge_result n threads m1 HB MR) as [HI _]. pose proof (merge_ranks n threads m1 HB MR) as HW.
    assert (HS : forall i, In i (seq 0 n) -> i < n) by (intros i Hi; apply in_seq in Hi; lia).
    destruct (label_three n (concat threads) (seq 0 n) HS) as (L1 & L2 & L3).
    destruct (one_ends n (connected (concat threads)) m1 (label_pass n (seq 0 n) (labels_init n)) HI HW) as (m2 & st & R1 & HI2 & HW2); auto.
    destruct (sort_exists st) as [idx SI]. destruct (assign_three n (concat threads) keys st (invert idx) (seq 0 n) HS) as (A1 & A2 & A3).
    destruct (one_ends n (connected (concat threads)) m2 (assign_pass keys st (invert idx) (seq 0 n) (CR (lb_num st) (fun _ => 0) (fun _ => []))) HI2 HW2) as (m3 & r & R2 & _); auto.
    exists m2, m3, st, idx, r. auto. }
  split; auto. destruct (C41_cluster_terminates n threads HB) as (_ & _ & m1 & MR). destruct (G m1 MR) as (m2 & m3 & st & idx & r & R1 & SI & R2). exists r, m1, m2, m3, st, idx. auto.
Qed.
(** With C39, C40: for every set of bonds there is exactly one answer, and Cluster.compute gives it. *)
Theorem C39_answer : forall n bonds threads keys, (forall p q, In (p, q) bonds -> p < n /\ q < n) -> Permutation bonds (concat threads) ->
  exists num idx, canonical n bonds num idx /\ (exists r, cluster_run n threads keys r) /\
    forall r, cluster_run n threads keys r -> cr_num r = num /\ forall i, i < n -> cr_idx r i = idx i.
Proof.
  intros n bonds threads keys HB P. destruct (C39_result n bonds threads keys HB P) as [[r R] _]. pose proof (C40_numbering n bonds threads keys r HB P R) as C. exists (cr_num r), (cr_idx r). split; auto. split; eauto.
  intros r' R'. pose proof (C40_numbering n bonds threads keys r' HB P R') as C'. apply (C40_unique _ _ _ _ _ _ C' C).
Qed.
Example C39_answer_ex : exists r, cluster_run 4 [[(0, 2); (2, 0)]; [(3, 2); (1, 1)]] None r /\ cr_idx r 0 = cr_idx r 3 /\ cr_idx r 0 <> cr_idx r 1.
Proof.
  set (ts := [[(0, 2); (2, 0)]; [(3, 2); (1, 1)]]). assert (HB : forall p q, In (p, q) (concat ts) -> p < 4 /\ q < 4) by (intros p q H; repeat destruct H as [H|H]; try injection H as <- <-; try destruct H; lia).
  destruct (C39_result 4 (concat ts) ts None HB (Permutation_refl _)) as [[r R] _]. exists r. split; auto. split.
  - apply (C39_components 4 (concat ts) ts None r HB (Permutation_refl _) R); try lia. eapply connected_trans; [apply connected_in; left; reflexivity|]. apply connected_sym, connected_in. simpl. auto.
  - intros E. apply (C39_components 4 (concat ts) ts None r HB (Permutation_refl _) R) in E; try lia.
    assert (G : forall a b, connected (concat ts) a b -> a = 1 <-> b = 1).
    { intros a b C. induction C as [a b H|a|a b C IH|a b c C1 IH1 C2 IH2]; [|tauto|tauto|tauto]. simpl in H. repeat destruct H as [H|H]; try injection H as <- <-; try destruct H; lia. }
    apply G in E. lia.
Qed.
Print Assumptions C39_result.
Print Assumptions C39_answer.
