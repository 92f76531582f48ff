(** C95: the conditions can be met. *)
From Coq Require Import Reals ZArith List Permutation Lia Lra.
From Verif Require Import RBase Vec BoxProofs ParProofs MArrayProofs NListProofs NListProofs2 NListProps AABBProps LinkCellProps CellQueryProps QueryProofs QueryProps RdfProps GridProofs VoxProps GaussProps FilterProps KnnModel KnnProps KnnProps2 KnnProps3 IfaceProps JoinProofs CutProps3 MoreProps2.
From Verif Require Import DsetSpec DsetProofs DsetProps ClusterModel ClusterSpec ClusterProps.
From Verif Require Import NListSpec QueryArgSpec RdfShell RdfSpec GridSpec MoreSpec BoxSpec QuerySpec.
Import ListNotations.
Local Open Scope R_scope.

Lemma case_apart : exists r, cluster_run 3 [[]] None r /\ cr_num r = 3%nat /\ map (cr_idx r) (seq 0 3) = [0; 1; 2]%nat.
Proof.
  set (bs := [[]] : list (list (nat * nat))). set (s1 := sched (repeat 0%nat 200) dset_init (map bonds_prog bs)).
  set (p1 := label_pass 3 (seq 0 3) (labels_init 3)). set (s2 := sched (repeat 0%nat 100) (fst s1) [p1]).
  assert (E2 : exists st, snd s2 = [Ret st]) by (eexists; vm_compute; reflexivity). destruct E2 as [st E2].
  assert (ST : st = match snd s2 with [Ret st] => st | _ => labels_init 0 end) by (rewrite E2; auto).
  set (p2 := assign_pass None st (invert [0; 1; 2]%nat) (seq 0 3) (CR (lb_num st) (fun _ => 0%nat) (fun _ => []))). set (s3 := sched (repeat 0%nat 100) (fst s2) [p2]).
  assert (E3 : exists r, snd s3 = [Ret r]) by (unfold s3, p2; rewrite ST; eexists; vm_compute; reflexivity). destruct E3 as [r E3].
  assert (ER : r = match snd s3 with [Ret r] => r | _ => CR 0 (fun _ => 0%nat) (fun _ => []) end) by (rewrite E3; auto).
  exists r. split.
  - exists (fst s1), (fst s2), (fst s3), st, [0; 1; 2]%nat. split; [|split; [|split]].
    + unfold merge_run. pose proof (sched_star (repeat 0%nat 200) dset_init (map bonds_prog bs)) as X. fold s1 in X. rewrite (surjective_pairing s1) in X.
      replace (map (fun _ => Ret tt) bs) with (snd s1) by (vm_compute; reflexivity). exact X.
    + apply run1_sched. exact E2.
    + split; [rewrite ST; vm_compute; apply Permutation_refl|]. rewrite ST. intros a b H. cbn [length] in H. assert (C : ((a = 0 /\ b = 1) \/ (a = 0 /\ b = 2) \/ (a = 1 /\ b = 2))%nat) by lia.
      destruct C as [[-> ->]|[[-> ->]|[-> ->]]]; vm_compute; reflexivity.
    + apply run1_sched. exact E3.
  - rewrite ER. unfold s3, p2. rewrite ST. split; vm_compute; reflexivity.
Qed.
Lemma case_joined : exists r, cluster_run 3 [[(2, 1)]]%nat None r /\ cr_num r = 2%nat /\ map (cr_idx r) (seq 0 3) = [1; 0; 0]%nat.
Proof.
  set (bs := [[(2, 1)]]%nat : list (list (nat * nat))). set (s1 := sched (repeat 0%nat 200) dset_init (map bonds_prog bs)).
  set (p1 := label_pass 3 (seq 0 3) (labels_init 3)). set (s2 := sched (repeat 0%nat 100) (fst s1) [p1]).
  assert (E2 : exists st, snd s2 = [Ret st]) by (eexists; vm_compute; reflexivity). destruct E2 as [st E2].
  assert (ST : st = match snd s2 with [Ret st] => st | _ => labels_init 0 end) by (rewrite E2; auto).
  set (p2 := assign_pass None st (invert [1; 0]%nat) (seq 0 3) (CR (lb_num st) (fun _ => 0%nat) (fun _ => []))). set (s3 := sched (repeat 0%nat 100) (fst s2) [p2]).
  assert (E3 : exists r, snd s3 = [Ret r]) by (unfold s3, p2; rewrite ST; eexists; vm_compute; reflexivity). destruct E3 as [r E3].
  assert (ER : r = match snd s3 with [Ret r] => r | _ => CR 0 (fun _ => 0%nat) (fun _ => []) end) by (rewrite E3; auto).
  exists r. split.
  - exists (fst s1), (fst s2), (fst s3), st, [1; 0]%nat. split; [|split; [|split]].
    + unfold merge_run. pose proof (sched_star (repeat 0%nat 200) dset_init (map bonds_prog bs)) as X. fold s1 in X. rewrite (surjective_pairing s1) in X.
      replace (map (fun _ => Ret tt) bs) with (snd s1) by (vm_compute; reflexivity). exact X.
    + apply run1_sched. exact E2.
    + split; [rewrite ST; vm_compute; apply perm_swap|]. rewrite ST. intros a b H. cbn [length] in H. assert (C : (a = 0 /\ b = 1)%nat) by lia.
      destruct C as [-> ->]; vm_compute; reflexivity.
    + apply run1_sched. exact E3.
  - rewrite ER. unfold s3, p2. rewrite ST. split; vm_compute; reflexivity.
Qed.
(** Three points; the bond 2-1 makes two clusters out of three. *)
Example C95_bond_case : exists r r', cluster_run 3 [[]] None r /\ cluster_run 3 [[(2, 1)]]%nat None r' /\ Permutation [] (concat ([[]] : list (list (nat * nat)))) /\ Permutation [(2, 1)]%nat (concat [[(2, 1)]]%nat) /\ incl [] [(2, 1)]%nat /\
  cr_num r = 3%nat /\ cr_num r' = 2%nat /\ map (cr_idx r) (seq 0 3) = [0; 1; 2]%nat /\ map (cr_idx r') (seq 0 3) = [1; 0; 0]%nat.
Proof.
  destruct case_apart as (r & A & B & C). destruct case_joined as (r' & A' & B' & C'). exists r, r'. repeat split; auto. intros x [].
Qed.
(** Two points, each a part of its own, and two query points. *)
Example C95_points_case : let A := [V3 (-4) 0 0] in let B := [V3 4 0 0] in let Q1 := [V3 (-4) 0 0] in let Q2 := [V3 0 0 0] in
  setting ex_cube (A ++ B) (Q1 ++ Q2) (cut_args 3 0 false) 3 /\ A <> [] /\ B <> [] /\ Q1 <> [] /\ Q2 <> [] /\ or_else (pa_excl (cut_args 3 0 false)) false = false /\ usable BCell ex_cube (A ++ B) /\ usable BAABB ex_cube A /\ usable BRaw ex_cube B /\
  (exists x, in_range ex_cube (A ++ B) (nth 0 Q1 v0) 0 3 0 false all_images x /\ bp x = 0%nat) /\ exists x, in_range ex_cube (A ++ B) (nth 0 Q1 v0) 0 3 0 false all_images x /\ bp x = 1%nat.
Proof.
  intros A B Q1 Q2. split; [apply cut_setting; auto; lra|]. do 4 (split; [discriminate|]). split; [reflexivity|]. do 3 (split; [exact I|]).
  assert (N : forall x a, 0 <= a -> norm (V3 x 0 0) = a \/ x * x <> a * a).
  { intros x a Ha. destruct (Req_dec (x * x) (a * a)) as [E|E]; auto. left. unfold norm, dot. simpl. rewrite !Rmult_0_l, !Rplus_0_r, E. apply sqrt_square. auto. }
  split.
  - set (d := sep ex_cube (A ++ B) (nth 0 Q1 v0) 0 0 0 0). assert (ED : d = V3 0 0 0) by (unfold d, sep, flat, shift, comb, a1, a2, a3, ex_cube; apply vec_eq; simpl; ring).
    assert (N0 : norm d = 0) by (rewrite ED; destruct (N 0 0) as [E|E]; [lra|exact E|lra]).
    exists (Bond 0 0 (norm d) 1 d). split; [|reflexivity]. exists 0%nat, 0%Z, 0%Z, 0%Z. fold d. rewrite N0. split; [simpl; lia|]. split; [repeat split; simpl; auto|]. split; [exact I|]. split; [intros [? _]; discriminate|]. split; [lra|reflexivity].
  - set (d := sep ex_cube (A ++ B) (nth 0 Q1 v0) 1 1 0 0). assert (ED : d = V3 (-2) 0 0) by (unfold d, sep, flat, shift, comb, a1, a2, a3, ex_cube; apply vec_eq; simpl; ring).
    assert (N2 : norm d = 2) by (rewrite ED; destruct (N (-2) 2) as [E|E]; [lra|exact E|lra]).
    exists (Bond 0 1 (norm d) 1 d). split; [|reflexivity]. exists 1%nat, 1%Z, 0%Z, 0%Z. fold d. rewrite N2. split; [simpl; lia|]. split; [repeat split; simpl; try discriminate; auto|]. split; [exact I|]. split; [intros [? _]; discriminate|]. split; [lra|reflexivity].
Qed.
(** Densities with values 2 and -1. *)
Example C95_grid_case : exists s g, good_width ex_box4 (gd_width g) /\ good_width ex_box4 (sv_width s) /\ same_dim (gd_dim g) (b_2d ex_box4) = true /\ same_dim (sv_dim s) (b_2d ex_box4) = true /\
  values_together (Some [2; -1]) (Some [2]) (Some [-1]).
Proof.
  exists (SV (4, 4, 4)%Z (6/5) None None), (GD (4, 4, 4)%Z (6/5) 1 None None). destruct C53_ex as (_ & _ & C & _). split; [exact C|]. split; [exact C|]. split; [reflexivity|]. split; [reflexivity|]. right. exists [2], [-1]. auto.
Qed.
Definition ex_all : rin := RI 1 (fun _ => [Bond 0 0 1 1 (V3 1 0 0); Bond 0 2 2 1 (V3 2 0 0)]) [(0%nat, 0%nat)] (RD 100 true 3 1).
Definition ex_first : rin := RI 1 (fun _ => [Bond 0 0 1 1 (V3 1 0 0)]) [(0%nat, 0%nat)] (RD 100 true 2 1).
Definition ex_second : rin := RI 1 (fun _ => [Bond 0 0 2 1 (V3 2 0 0)]) [(0%nat, 0%nat)] (RD 100 true 1 1).
(** One query point, two points of the first kind and one of the second. *)
Example C95_rdf_case : put_together ([] ++ [ex_all]) ([] ++ [ex_first]) ([] ++ [ex_second]) /\ data_together (ri_data ex_all) (ri_data ex_first) (ri_data ex_second) /\ data_ok Exact (ri_data ex_first) /\ data_ok Exact (ri_data ex_second) /\
  Forall (rop_ok 2) [RCompute true ex_all] /\ rsince [RCompute true ex_all] [] = [] ++ [ex_all] /\ dist_count 0 4 [ex_all] = 2%nat /\ dist_count 0 4 [ex_second] = 1%nat.
Proof.
  split; [split; [reflexivity|]; split; [reflexivity|apply Permutation_refl]|]. split; [repeat split|]. split; [repeat split; simpl; try lia; lra|]. split; [repeat split; simpl; try lia; lra|].
  split; [constructor; [exact (sequential_execution 0 1 0)|constructor]|]. split; [reflexivity|]. unfold dist_count. cbn. destruct (Rle_bool_spec 0 1), (Rlt_bool_spec 1 4), (Rle_bool_spec 0 2), (Rlt_bool_spec 2 4); try lra. split; reflexivity.
Qed.
(** With exclude_ii the neighbours do not add up: it compares the numbers, which differ between the part and the whole. *)
Theorem C95_exclude_refuted : exists b A B qs p r ls l1 l2, setting b (A ++ B) qs p r /\ A <> [] /\ B <> [] /\ or_else (pa_excl p) false = true /\
  py_query BAABB b (A ++ B) qs p (Some ls) /\ py_query BAABB b A qs p (Some l1) /\ py_query BAABB b B qs p (Some l2) /\ ~ Permutation (nth 0 ls []) (nth 0 l1 [] ++ map (points_before (length A)) (nth 0 l2 [])).
Proof.
  set (A := [V3 (-4) 0 0]). set (B := [V3 4 0 0]). set (qs := [V3 (-4) 0 0; V3 0 0 0]). set (p := cut_args 3 0 true).
  assert (St : setting ex_cube (A ++ B) qs p 3) by (apply cut_setting; auto; lra).
  assert (SA : setting ex_cube A qs p 3) by (apply (MoreProps2.setting_points ex_cube (A ++ B)); auto; [discriminate|intros x Hx; apply in_or_app; auto|simpl; lia]).
  assert (SB : setting ex_cube B qs p 3) by (apply (MoreProps2.setting_points ex_cube (A ++ B)); auto; [discriminate|intros x Hx; apply in_or_app; auto|simpl; lia]).
  destruct (C32_ball BAABB _ _ _ _ _ St I) as (ls & E & _ & H). destruct (C32_ball BAABB _ _ _ _ _ SA I) as (l1 & E1 & _ & H1). destruct (C32_ball BAABB _ _ _ _ _ SB I) as (l2 & E2 & _ & H2).
  exists ex_cube, A, B, qs, p, 3, ls, l1, l2. split; [exact St|]. split; [discriminate|]. split; [discriminate|]. split; [reflexivity|]. split; [apply E; reflexivity|]. split; [apply E1; reflexivity|]. split; [apply E2; reflexivity|].
  intros P. destruct (H 0%nat) as [_ G]; [simpl; lia|]. destruct (H1 0%nat) as [_ G1]; [simpl; lia|]. destruct (H2 0%nat) as [_ G2]; [simpl; lia|].
  set (d := sep ex_cube (A ++ B) (nth 0 qs v0) 1 1 0 0). assert (ED : d = V3 (-2) 0 0) by (unfold d, sep, flat, shift, comb, a1, a2, a3, ex_cube; apply vec_eq; simpl; ring).
  assert (N2 : norm d = 2) by (rewrite ED; unfold norm, dot; simpl; replace (-2 * -2 + 0 * 0 + 0 * 0) with (2 * 2) by ring; apply sqrt_square; lra).
  assert (X : In (Bond 0 1 (norm d) 1 d) (nth 0 ls [])).
  { apply G. exists 1%nat, 1%Z, 0%Z, 0%Z. fold d. rewrite N2. split; [simpl; lia|]. split; [repeat split; simpl; try discriminate; auto|]. split; [exact Logic.I|]. split; [intros [_ ?]; discriminate|]. split; [simpl; lra|reflexivity]. }
  apply (Permutation_in _ P) in X. apply in_app_iff in X as [X|X].
  - apply G1 in X as (j & i1 & i2 & i3 & Hj & _ & _ & _ & _ & Q). injection Q as <- _ _. simpl in Hj. lia.
  - apply in_map_iff in X as (y & _ & Y). apply G2 in Y as (j & i1 & i2 & i3 & Hj & _ & _ & Ex & _ & _). apply Ex. split; [reflexivity|]. simpl in Hj. lia.
Qed.
Print Assumptions C95_exclude_refuted.
