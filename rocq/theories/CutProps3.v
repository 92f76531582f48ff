(** C94: the conditions can be met. *)
From Coq Require Import Reals ZArith List Permutation Lia Lra.
From Verif Require Import RBase Vec BoxProofs ParProofs MArrayProofs NListProofs NListProofs2 NListProps FilterProps AABBProps LinkCellProps CellQueryProps QueryProofs QueryProps KnnModel KnnProps KnnProps2 KnnProps3 RdfProps IfaceProps JoinProofs CutProps CutProps2.
From Verif Require Import NListSpec QueryArgSpec RdfShell RdfSpec CutSpec BoxSpec QuerySpec KnnSpec.
Import ListNotations.
Local Open Scope R_scope.

Definition cut_args (r rm : R) (ex : bool) : pyargs := PA PyNone (Some r) (Some rm) None None (Some ex) None false.
Definition near_args (k : Z) : pyargs := PA PyNone None None None (Some k) (Some true) None false.
Lemma cut_setting qs r rm ex : qs = [V3 (-4) 0 0; V3 0 0 0] -> 0 <= rm < r -> r < 5 -> setting ex_cube [V3 (-4) 0 0; V3 4 0 0] qs (cut_args r rm ex) r.
Proof.
  intros -> R1 R2. constructor; try (simpl; lra); try discriminate; try (simpl; lia).
  - apply ex_cube_positive.
  - apply ex_cube_fp.
  - intros x [<-|[<-|[]]]; apply ex_corner; lra.
  - intros x [<-|[<-|[]]]; apply ex_corner; lra.
  - unfold no_sentinel, cut_args. simpl. repeat split; try discriminate. intros E. injection E as E. lra.
  - unfold well_formed, cut_args. simpl. repeat split; intros; discriminate.
  - unfold asks_ball, mode_unset, cut_args. simpl. auto.
  - unfold radius_ok. rewrite ex_cube_planes. simpl. repeat split; intros; lra.
Qed.
(** A query of radius 4.5 holds bonds that the query of radius 3 does not. *)
Example C94_cut_case : exists points qs, setting ex_cube points qs (cut_args (9 / 2) 0 true) (9 / 2) /\ setting ex_cube points qs (cut_args 3 1 true) 3 /\ usable BAABB ex_cube points /\ usable BCell ex_cube points /\ narrower (cut_args (9 / 2) 0 true) (cut_args 3 1 true) (9 / 2) 3 /\
  excluding (cut_args 3 0 false) (cut_args 3 0 true) /\ setting ex_cube points qs (cut_args 3 0 false) 3 /\ setting ex_cube points qs (cut_args 3 0 true) 3 /\
  (exists x, in_range ex_cube points (nth 1 qs v0) 1 (9 / 2) 0 true all_images x /\ bd x = 4) /\ exists x, in_range ex_cube points (nth 0 qs v0) 0 3 1 true all_images x.
Proof.
  set (ps := [V3 (-4) 0 0; V3 4 0 0]). set (qs := [V3 (-4) 0 0; V3 0 0 0]). exists ps, qs.
  split; [apply cut_setting; auto; lra|]. split; [apply cut_setting; auto; lra|]. split; [exact I|]. split; [exact I|]. split; [unfold narrower; simpl; repeat split; lra|]. split; [repeat split; simpl; lra|].
  split; [apply cut_setting; auto; lra|]. split; [apply cut_setting; auto; lra|].
  assert (N : forall x a, 0 <= a -> norm (V3 x 0 0) = a \/ x * x <> a * a).
  { intros x a Ha. destruct (Req_dec (x * x) (a * a)) as [E|E]; auto. left. unfold norm, dot. simpl. rewrite !Rmult_0_l, !Rplus_0_r, E. apply sqrt_square. auto. }
  split.
  - set (d := sep ex_cube ps (nth 1 qs v0) 0 0 0 0). assert (ED : d = V3 (-4) 0 0) by (unfold d, sep, flat, shift, comb, a1, a2, a3, ex_cube; apply vec_eq; simpl; ring).
    assert (N4 : norm d = 4) by (rewrite ED; destruct (N (-4) 4) as [E|E]; [lra|exact E|lra]).
    exists (Bond 1 0 (norm d) 1 d). split; [|exact N4]. exists 0%nat, 0%Z, 0%Z, 0%Z. fold d. rewrite N4. split; [simpl; lia|]. split; [repeat split; simpl; auto|]. split; [exact I|]. split; [intros [_ ?]; discriminate|]. split; [lra|reflexivity].
  - set (d := sep ex_cube ps (nth 0 qs v0) 1 1 0 0). assert (ED : d = V3 (-2) 0 0) by (unfold d, sep, flat, shift, comb, a1, a2, a3, ex_cube; apply vec_eq; simpl; ring).
    assert (N2 : norm d = 2) by (rewrite ED; destruct (N (-2) 2) as [E|E]; [lra|exact E|lra]).
    exists (Bond 0 1 (norm d) 1 d). exists 1%nat, 1%Z, 0%Z, 0%Z. fold d. rewrite N2. split; [simpl; lia|]. split; [repeat split; simpl; try discriminate; auto|]. split; [exact I|]. split; [intros [_ ?]; discriminate|]. split; [lra|reflexivity].
Qed.
Example C94_nearest_case : no_sentinel (near_args 1) /\ well_formed (near_args 1) /\ asks_nearest (near_args 1) 1 /\ pa_rguess (near_args 1) = None /\ pa_rmax (near_args 1) = None /\
  or_else (pa_rmin (near_args 1)) 0 = or_else (pa_rmin (cut_args 3 0 true)) 0 /\ or_else (pa_excl (near_args 1)) false = or_else (pa_excl (cut_args 3 0 true)) false.
Proof.
  split; [unfold no_sentinel; simpl; repeat split; discriminate|]. split; [split; [reflexivity|split; [discriminate|]]; intros k E; injection E as <-; lia|]. split; [split; auto; right; left; reflexivity|]. repeat split.
Qed.
Definition ex_wide : rin := RI 1 (fun _ => [Bond 0 1 2 1 (V3 2 0 0); Bond 0 2 7 1 (V3 7 0 0)]) [(0%nat, 0%nat)] (RD 100 true 3 1).
Definition ex_tight : rin := RI 1 (fun _ => [Bond 0 1 2 1 (V3 2 0 0)]) [(0%nat, 0%nat)] (RD 100 true 3 1).
Example C94_range_case : same_within 0 4 ex_wide ex_tight /\ data_ok Exact (ri_data ex_wide) /\ length (ri_all ex_wide) = 2%nat /\ dist_count 0 4 [ex_wide] = 1%nat /\ rop_ok 2 (RCompute true ex_wide) /\ rsince [RCompute true ex_wide] [] = [] ++ [ex_wide].
Proof.
  split.
  - split; [|reflexivity]. simpl. rewrite (proj2 (Rleb_true 0 2)), (proj2 (Rltb_true 2 4)), (proj2 (Rltb_false 7 4)) by lra. rewrite Bool.andb_false_r. simpl. auto.
  - split; [repeat split; simpl; try lia; lra|]. split; [reflexivity|]. split; [|split; [exact (sequential_execution 0 1 0)|reflexivity]].
    unfold dist_count. cbn. destruct (Rle_bool_spec 0 2), (Rlt_bool_spec 2 4), (Rlt_bool_spec 7 4); try lra. rewrite Bool.andb_false_r. reflexivity.
Qed.
