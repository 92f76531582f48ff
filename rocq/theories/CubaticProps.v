(** C61: the cubatic order parameter. *)
From Coq Require Import Reals List Lra Lia Permutation.
From Verif Require Import ParProofs MArrayProofs NListProofs QuatProofs CubaticProofs CubaticProofs2 CubaticProofs3 CubaticProofs4.
From Verif Require Import CubaticSpec.
Import CubaticModel.
Import ListNotations.
Local Open Scope R_scope.

(** ** Settings *)
Theorem C61_constructor s : cub_accepts s = true <->
  t_final s <= t_initial s /\ 1 / 1000000 <= t_final s /\ 0 < scale s < 1.
Proof.
  unfold cub_accepts. destruct (Rltb_spec (t_initial s) (t_final s)); [split; [discriminate|lra]|].
  destruct (Rltb_spec (t_final s) (1 / 1000000)); [split; [discriminate|lra]|].
  destruct (Rleb_spec 1 (scale s)); [split; [discriminate|lra]|].
  destruct (Rleb_spec (scale s) 0); cbn [orb]; split; try discriminate; try lra; auto.
Qed.
Example C61_constructor_example : cub_accepts (mkSet 5 (1 / 1000) (95 / 100) 1 0) = true.
Proof. apply C61_constructor. cbn. lra. Qed.

(** The constructor accepts n_replicates = 0; compute then raises whatever it is given. *)
Theorem C61_zero_replicates s rng os ev1 ev2 cs ev3 : n_replicates s = 0%nat -> cub_compute s rng os ev1 ev2 cs ev3 = CRaised.
Proof. intros H. unfold cub_compute. now rewrite H. Qed.

(** ** The tensor of a cube never has length zero, so the order is always defined *)
Theorem C61_norm q : 0 < sq_len (cube q) /\ (unitq q -> sq_len (cube q) = 24 / 5).
Proof. split; [apply sq_len_pos|apply sq_len_unit]. Qed.

(** ** Values *)
(** For every seed, generator, schedule and accepted or unaccepted setting: the global tensor is the average of the
    cube tensors of the particles, the order of a particle is the match between its own tensor and that average, the
    orientation returned is a unit quaternion, the cubatic tensor is the tensor of that orientation and the order is the
    match between the two tensors. *)
Theorem C61_values s rng os ev1 ev2 cs ev3 :
  (0 < n_replicates s)%nat -> os <> [] -> schedule (length os) (n_replicates s) ev1 ev2 cs ev3 ->
  exists r, cub_compute s rng os ev1 ev2 cs ev3 = CDone r /\
    same_tensor (entry (glob_tensor r)) (average os) /\
    particle_order r = map (fun q => match_order (cube q) (average os)) os /\
    unitq (orientation r) /\
    same_tensor (entry (cubatic_tensor r)) (cube (orientation r)) /\
    order r = match_order (cube (orientation r)) (average os).
Proof.
  intros Hr Hn (H1 & H2 & (cs0 & H3 & P) & H4). unfold cub_compute. destruct (Nat.eqb_spec (n_replicates s) 0); [lia|].
  destruct os as [|o os']; [congruence|]. set (os := o :: os') in *.
  rewrite (global_spec os ev1 ev2 Hn H1 H2). set (reps := replicates s (tab (average os)) rng cs).
  destruct (replicates_spec s (tab (average os)) rng cs cs0 Hr H3 P) as [L N]. fold reps in L, N.
  destruct (best_index_spec reps ltac:(lia)) as [B _].
  assert (G : good (tab (average os)) (nth (best_index reps) reps no_run)).
  { destruct (chunking_cover _ _ _ Hr H3 P) as (_ & C & _). destruct (C (best_index reps) ltac:(lia)) as (c & Hc & Hi).
    rewrite (N _ c Hc Hi). apply replicate_good. }
  destruct G as (G1 & G2 & G3).
  eexists. split; [reflexivity|]. cbn [glob_tensor particle_order orientation cubatic_tensor order].
  split; [apply tab_entry|]. split.
  { rewrite (par_write (fun i => cub_order (cub_tensor (nth i os qid)) (tab (average os))) (length os)); [|assumption|apply repeat_length].
    transitivity (map (fun q => match_order (cube q) (average os)) (map (fun i => nth i os qid) (range 0 (length os)))).
    - rewrite map_map. apply map_ext. intros i. apply cub_order_match.
    - now rewrite map_nth_range. }
  split; [exact G1|]. split; [rewrite G2, cub_tensor_tab; apply tab_entry|].
  rewrite G3. apply cub_order_match.
Qed.

Definition sched_seq (n reps : nat) := (map (fun i => (0%nat, i)) (range 0 n)).
Example C61_values_example : schedule 1 1 [(0%nat, 0%nat)] (sched_seq 81 1) [(0, 1)]%nat [(3%nat, 0%nat)] /\ [qid] <> [].
Proof.
  split; [|discriminate]. split; [|split; [|split]].
  - exists [(0, 1)]%nat. split; [cbn; constructor; lia|]. cbn. apply Permutation_refl.
  - apply sequential_execution.
  - exists [(0, 1)]%nat. split; [cbn; constructor; lia|apply Permutation_refl].
  - exists [(0, 1)]%nat. split; [cbn; constructor; lia|]. cbn. apply Permutation_refl.
Qed.

(** ** Bounds, for unit orientations *)
Lemma average_bounds os q : os <> [] -> Forall unitq os -> unitq q -> - (16 / 5) <= ip (average os) (cube q) <= 24 / 5.
Proof.
  intros Hn Ho Hq. rewrite ip_average.
  assert (HN : 0 < INR (length os)) by (destruct os; [congruence|apply lt_0_INR; cbn; lia]).
  assert (B : INR (length os) * (- (16 / 5)) <= Rsum (map (fun p => ip (cube p) (cube q)) os) <= INR (length os) * (24 / 5)).
  { apply Rsum_bound. eapply Forall_impl; [|exact Ho]. intros p Hp. rewrite ip_unit by assumption.
    assert (Q := quartic_bounds p q Hp Hq). lra. }
  unfold Rdiv. split.
  - apply Rmult_le_reg_r with (INR (length os)); [exact HN|]. rewrite (Rmult_assoc (Rsum _)), Rinv_l by lra. lra.
  - apply Rmult_le_reg_r with (INR (length os)); [exact HN|]. rewrite (Rmult_assoc (Rsum _)), Rinv_l by lra. lra.
Qed.
Lemma average_self os : os <> [] -> Forall unitq os -> 0 <= ip (average os) (average os) <= 24 / 5.
Proof.
  intros Hn Ho. split; [apply ip_nonneg|]. rewrite ip_average.
  assert (HN : 0 < INR (length os)) by (destruct os; [congruence|apply lt_0_INR; cbn; lia]).
  assert (B : INR (length os) * (- (16 / 5)) <= Rsum (map (fun p => ip (cube p) (average os)) os) <= INR (length os) * (24 / 5)).
  { apply Rsum_bound. eapply Forall_impl; [|exact Ho]. intros p Hp. rewrite ip_comm. now apply average_bounds. }
  apply Rmult_le_reg_r with (INR (length os)); [exact HN|]. unfold Rdiv. rewrite (Rmult_assoc (Rsum _)), Rinv_l by lra. lra.
Qed.
Theorem C61_bounds os q : os <> [] -> Forall unitq os -> unitq q -> -7 / 3 <= match_order (cube q) (average os) <= 1.
Proof.
  intros Hn Ho Hq. split; [|apply match_order_le, sq_len_pos].
  rewrite match_order_ip by (assert (H := sq_len_pos q); lra). rewrite sq_len_unit by exact Hq.
  assert (B := average_bounds os q Hn Ho Hq). assert (S := average_self os Hn Ho). lra.
Qed.
Example C61_bounds_example : [qid] <> [] /\ Forall unitq [qid] /\ unitq qid.
Proof. repeat split; [discriminate|repeat constructor; apply unitq_id|apply unitq_id]. Qed.

(** The particle orders average to the squared length of the global tensor, in units of that of a perfect system: a
    number between 0 and 1 that needs no annealing. *)
Theorem C61_mean_particle_order os : os <> [] -> Forall unitq os ->
  let m := Rsum (map (fun q => match_order (cube q) (average os)) os) / INR (length os) in
  m = sq_len (average os) / (24 / 5) /\ 0 <= m <= 1.
Proof.
  intros Hn Ho. cbn zeta.
  assert (HN : 0 < INR (length os)) by (destruct os; [congruence|apply lt_0_INR; cbn; lia]).
  assert (E : Rsum (map (fun q => match_order (cube q) (average os)) os) / INR (length os) = sq_len (average os) / (24 / 5)).
  { rewrite (map_ext_in _ (fun q => (5 / 12) * ip (cube q) (average os) - 5 / 24 * ip (average os) (average os))).
    - rewrite Rsum_const, Rsum_scale. unfold sq_len at 1. rewrite (ip_average os (average os)) at 1.
      rewrite (ip_average os (average os)). field. lra.
    - intros q Hq. rewrite Forall_forall in Ho. assert (Hu := Ho q Hq).
      rewrite match_order_ip by (assert (H := sq_len_pos q); lra). rewrite sq_len_unit by exact Hu. rewrite (ip_comm (average os)). field. }
  split; [exact E|]. rewrite E. assert (S := average_self os Hn Ho). unfold sq_len. lra.
Qed.

(** ** Perfect order *)
(** Every particle has order 1 exactly when all particles show the same cube, up to the symmetries of the cube. *)
Theorem C61_perfect os : os <> [] -> Forall unitq os ->
  ((forall q, In q os -> match_order (cube q) (average os) = 1) <-> (forall p q, In p os -> In q os -> same_cube p q)).
Proof.
  intros Hn Ho. rewrite Forall_forall in Ho. split.
  - intros H p q Hp Hq. apply same_tensor_cube; auto.
    assert (E1 := proj1 (match_order_one _ _ (sq_len_pos p)) (H p Hp)). assert (E2 := proj1 (match_order_one _ _ (sq_len_pos q)) (H q Hq)).
    intros i j k l Hi Hj Hk Hl. rewrite <- E1, <- E2 by assumption. reflexivity.
  - intros H q Hq. apply match_order_one; [apply sq_len_pos|]. intros i j k l _ _ _ _. unfold average.
    rewrite (map_ext_in _ (fun _ => 0 - - cube q i j k l)).
    + rewrite (Rsum_const (fun _ => 0) (- cube q i j k l)).
      assert (Z : forall (l0 : list quat), Rsum (map (fun _ => 0) l0) = 0) by (induction l0; cbn; unfold Rsum in *; lra).
      rewrite Z. field. destruct os; [congruence|]. apply not_0_INR. discriminate.
    + intros p Hp. rewrite (same_cube_tensor p q) by auto. lra.
Qed.

(** A quarter turn about an axis of the cube shows the same cube. *)
Example C61_same_cube_example : same_cube (Q (sqrt 2 / 2) (V3 0 0 (sqrt 2 / 2))) qid /\ unitq (Q (sqrt 2 / 2) (V3 0 0 (sqrt 2 / 2))).
Proof.
  assert (S : sqrt 2 * sqrt 2 = 2) by (apply sqrt_sqrt; lra).
  assert (S' : sqrt 2 / 2 * (sqrt 2 / 2) = 1 / 2) by lra.
  split.
  - exists 1%nat, 0%nat, 2%nat, 1, (-1), 1. repeat split; try lra; try (left; lra); try (right; lra).
    + apply perm_swap.
    + unfold axis, rotate, dot, cross, vadd, vscale. simpl. apply f_equal3; nra.
    + unfold axis, rotate, dot, cross, vadd, vscale. simpl. apply f_equal3; nra.
    + unfold axis, rotate, dot, cross, vadd, vscale. simpl. apply f_equal3; nra.
  - unfold unitq. simpl. lra.
Qed.

(** ** Invariances *)
(** Turning the whole system changes no particle order. *)
Theorem C61_rotation p q os : unitq p -> match_order (cube (qmul p q)) (average (map (qmul p) os)) = match_order (cube q) (average os).
Proof. apply match_order_rotate. Qed.
(** Replacing orientations by others that show the same cubes changes no tensor. *)
Theorem C61_cube_symmetry os os' : Forall2 same_cube os os' -> forall i j k l, average os i j k l = average os' i j k l.
Proof.
  intros H i j k l. unfold average. f_equal; [|apply f_equal; induction H; cbn; congruence].
  f_equal. induction H as [|p q os os' Hpq _ IH]; cbn [map]; [reflexivity|]. now rewrite IH, (same_cube_tensor p q).
Qed.
(** The order in which particles are given does not matter. *)
Theorem C61_order_of_particles os os' : Permutation os os' -> forall i j k l, average os i j k l = average os' i j k l.
Proof.
  intros H i j k l. unfold average. rewrite (Permutation_length H). f_equal. apply Rsum_perm. now apply Permutation_map.
Qed.

(** ** Seeds, schedules and replicates *)
(** The global tensor and the particle orders depend neither on the settings nor on the seed, generator or schedule. *)
Theorem C61_seed_free s s' rng rng' os ev1 ev2 cs ev3 ev1' ev2' cs' ev3' r r' :
  os <> [] -> schedule (length os) (n_replicates s) ev1 ev2 cs ev3 -> schedule (length os) (n_replicates s') ev1' ev2' cs' ev3' ->
  cub_compute s rng os ev1 ev2 cs ev3 = CDone r -> cub_compute s' rng' os ev1' ev2' cs' ev3' = CDone r' ->
  glob_tensor r = glob_tensor r' /\ particle_order r = particle_order r'.
Proof.
  intros Hn S S' E E'.
  assert (Hr : (0 < n_replicates s)%nat). { unfold cub_compute in E. destruct (Nat.eqb_spec (n_replicates s) 0); [discriminate|lia]. }
  assert (Hr' : (0 < n_replicates s')%nat). { unfold cub_compute in E'. destruct (Nat.eqb_spec (n_replicates s') 0); [discriminate|lia]. }
  split.
  - unfold cub_compute in E, E'. destruct (Nat.eqb_spec (n_replicates s) 0); [lia|]. destruct (Nat.eqb_spec (n_replicates s') 0); [lia|].
    destruct os; [congruence|]. injection E as <-. injection E' as <-. cbn [glob_tensor].
    destruct S as (S1 & S2 & _), S' as (S1' & S2' & _). rewrite !global_spec by assumption. reflexivity.
  - destruct (C61_values s rng os ev1 ev2 cs ev3 Hr Hn S) as (r1 & E1 & _ & P1 & _).
    destruct (C61_values s' rng' os ev1' ev2' cs' ev3' Hr' Hn S') as (r2 & E2 & _ & P2 & _). congruence.
Qed.

Lemma compute_schedule s rng os ev1 ev2 cs ev3 : (0 < n_replicates s)%nat -> os <> [] ->
  schedule (length os) (n_replicates s) ev1 ev2 cs ev3 ->
  exists po, cub_compute s rng os ev1 ev2 cs ev3 =
    CDone (let reps := replicates s (tab (average os)) rng cs in let b := nth (best_index reps) reps no_run in
           mkCub (r_o b) (r_q b) po (tab (average os)) (r_t b)).
Proof.
  intros Hr Hn (H1 & H2 & _). unfold cub_compute. destruct (Nat.eqb_spec (n_replicates s) 0); [lia|]. destruct os as [|o os]; [congruence|].
  rewrite (global_spec (o :: os) ev1 ev2 Hn H1 H2). eexists. reflexivity.
Qed.

(** With the same cutting of the loop over replicates, executed in any order by any threads, the result is the same. *)
Theorem C61_same_cutting s rng os ev1 ev2 cs ev3 ev1' ev2' cs' ev3' : os <> [] ->
  schedule (length os) (n_replicates s) ev1 ev2 cs ev3 -> schedule (length os) (n_replicates s) ev1' ev2' cs' ev3' ->
  Permutation cs cs' -> cub_compute s rng os ev1 ev2 cs ev3 = cub_compute s rng os ev1' ev2' cs' ev3'.
Proof.
  intros Hn S S' P. destruct (Nat.eq_dec (n_replicates s) 0) as [Z|NZ]; [now rewrite !C61_zero_replicates|].
  assert (Hr : (0 < n_replicates s)%nat) by lia.
  destruct (compute_schedule s rng os ev1 ev2 cs ev3 Hr Hn S) as (po & E). destruct (compute_schedule s rng os ev1' ev2' cs' ev3' Hr Hn S') as (po' & E').
  assert (R : replicates s (tab (average os)) rng cs = replicates s (tab (average os)) rng cs').
  { destruct S as (_ & _ & (cs0 & C & P0) & _). assert (P0' : Permutation cs' cs0) by (transitivity cs; [now symmetry|exact P0]).
    destruct (replicates_spec s (tab (average os)) rng cs cs0 Hr C P0) as [L N].
    destruct (replicates_spec s (tab (average os)) rng cs' cs0 Hr C P0') as [L' N'].
    apply nth_ext with (d := no_run) (d' := no_run); [lia|]. intros i Hi.
    destruct (chunking_cover _ _ _ Hr C P0) as (_ & Cov & _). destruct (Cov i ltac:(lia)) as (c & Hc & Hi').
    rewrite (N i c Hc Hi'), (N' i c (Permutation_in _ P Hc) Hi'). reflexivity. }
  assert (PO := C61_seed_free s s rng rng os _ _ _ _ _ _ _ _ _ _ Hn S S' E E'). cbn [particle_order] in PO. destruct PO as [_ ->].
  rewrite E, E', R. reflexivity.
Qed.

Lemma chunking_one cs : chunking 0 1 cs -> cs = [(0, 1)]%nat.
Proof. unfold chunking. cbn. intros H. inversion H; subst; [reflexivity|lia]. Qed.

(** With a single replicate, the default, the result depends on the seed and the orientations only. *)
Theorem C61_single_replicate s rng os ev1 ev2 cs ev3 ev1' ev2' cs' ev3' : os <> [] -> n_replicates s = 1%nat ->
  schedule (length os) (n_replicates s) ev1 ev2 cs ev3 -> schedule (length os) (n_replicates s) ev1' ev2' cs' ev3' ->
  cub_compute s rng os ev1 ev2 cs ev3 = cub_compute s rng os ev1' ev2' cs' ev3'.
Proof.
  intros Hn H1 S S'. apply C61_same_cutting; try assumption.
  destruct S as (_ & _ & (cs0 & C & P) & _), S' as (_ & _ & (cs0' & C' & P') & _). rewrite H1 in *.
  rewrite (chunking_one _ C) in P. rewrite (chunking_one _ C') in P'. now rewrite P, P'.
Qed.

(** More replicates never give a lower order than one replicate with the same seed, whatever the cutting. *)
Definition with_replicates (s : settings) (n : nat) : settings := mkSet (t_initial s) (t_final s) (scale s) n (seed s).
Lemma anneal_reps s n g u fuel : forall t k r, anneal (with_replicates s n) g u fuel t k r = anneal s g u fuel t k r.
Proof.
  induction fuel as [|fuel IH]; intros t k r; cbn [anneal]; [reflexivity|]. cbn [t_final scale with_replicates].
  destruct (Rltb (t_final s) t); [|reflexivity]. destruct (random_quat u k (1 / 10)). rewrite !IH. reflexivity.
Qed.
Lemma rep_reps s n g u k : replicate (with_replicates s n) g u k = replicate s g u k.
Proof. unfold replicate. destruct (random_quat u k 1). apply anneal_reps. Qed.
Lemma drawn_reps s n g u m : drawn (with_replicates s n) g u m = drawn s g u m.
Proof. induction m as [|m IH]; cbn [drawn]; [reflexivity|]. now rewrite IH, rep_reps. Qed.
Lemma rep_at_reps s n g u m : rep_at (with_replicates s n) g u m = rep_at s g u m.
Proof. unfold rep_at. now rewrite drawn_reps, rep_reps. Qed.

Theorem C61_more_replicates s rng os ev1 ev2 cs ev3 ev1' ev2' cs' ev3' r r' :
  os <> [] -> schedule (length os) (n_replicates s) ev1 ev2 cs ev3 -> schedule (length os) 1 ev1' ev2' cs' ev3' ->
  cub_compute s rng os ev1 ev2 cs ev3 = CDone r -> cub_compute (with_replicates s 1) rng os ev1' ev2' cs' ev3' = CDone r' ->
  order r' <= order r.
Proof.
  intros Hn S S' E E'.
  assert (Hr : (0 < n_replicates s)%nat). { unfold cub_compute in E. destruct (Nat.eqb_spec (n_replicates s) 0); [discriminate|lia]. }
  destruct (compute_schedule s rng os ev1 ev2 cs ev3 Hr Hn S) as (po & F).
  destruct (compute_schedule (with_replicates s 1) rng os ev1' ev2' cs' ev3' ltac:(cbn; lia) Hn S') as (po' & F').
  rewrite F in E. rewrite F' in E'. injection E as <-. injection E' as <-. cbn [order].
  set (g := tab (average os)). destruct S as (_ & _ & (cs0 & C & P) & _), S' as (_ & _ & (cs0' & C' & P') & _).
  destruct (replicates_spec s g rng cs cs0 Hr C P) as [L N].
  destruct (replicates_spec (with_replicates s 1) g rng cs' cs0' ltac:(cbn; lia) C' P') as [L' N']. cbn [with_replicates n_replicates] in L'.
  destruct (best_index_spec (replicates s g rng cs) ltac:(lia)) as [_ B]. destruct (best_index_spec (replicates (with_replicates s 1) g rng cs') ltac:(lia)) as [B' _].
  eapply Rle_trans; [|apply (B 0%nat); lia]. replace (best_index (replicates (with_replicates s 1) g rng cs')) with 0%nat by lia.
  destruct (chunking_cover _ _ _ Hr C P) as (_ & Cov & _). destruct (Cov 0%nat Hr) as (c & Hc & Hi). rewrite (N 0%nat c Hc Hi).
  destruct (chunking_cover 1 _ _ ltac:(lia) C' P') as (_ & Cov' & _). destruct (Cov' 0%nat ltac:(lia)) as (c' & Hc' & Hi'). rewrite (N' 0%nat c' Hc' Hi').
  unfold inside in *. replace (fst c) with 0%nat by lia. replace (fst c') with 0%nat by lia. rewrite rep_at_reps. cbn. lra.
Qed.

(** ** Refutations *)
(** No annealing takes place when t_final = t_initial, which the constructor accepts: each replicate is its random
    starting orientation. *)
Lemma replicate_cold s g u k : t_initial s <= t_final s -> replicate s g u k = (run_at g (fst (random_quat u k 1)), snd (random_quat u k 1)).
Proof. intros H. unfold replicate. destruct (random_quat u k 1) as [q k']. now rewrite anneal_cold. Qed.

(** The starting orientation is never turned by more than one radian (the angle is drawn from [0, 1], not [0, 2 pi]), so
    it is not distributed over all orientations.  The cosine of half the angle is the scalar part. *)
Theorem C61_start_within_one_radian s rng os ev1 ev2 cs ev3 r : os <> [] -> uniform_range rng -> t_initial s = t_final s ->
  schedule (length os) (n_replicates s) ev1 ev2 cs ev3 -> cub_compute s rng os ev1 ev2 cs ev3 = CDone r ->
  cos (1 / 2) <= qs (orientation r).
Proof.
  intros Hn U Ht S E.
  assert (Hr : (0 < n_replicates s)%nat). { unfold cub_compute in E. destruct (Nat.eqb_spec (n_replicates s) 0); [discriminate|lia]. }
  destruct (compute_schedule s rng os ev1 ev2 cs ev3 Hr Hn S) as (po & F). rewrite F in E. injection E as <-. cbn [orientation].
  set (g := tab (average os)). destruct S as (_ & _ & (cs0 & C & P) & _).
  destruct (replicates_spec s g rng cs cs0 Hr C P) as [L N]. destruct (best_index_spec (replicates s g rng cs) ltac:(lia)) as [B _].
  destruct (chunking_cover _ _ _ Hr C P) as (_ & Cov & _). destruct (Cov (best_index (replicates s g rng cs)) ltac:(lia)) as (c & Hc & Hi).
  rewrite (N _ c Hc Hi). unfold rep_at. rewrite replicate_cold by lra. cbn [fst]. unfold run_at. cbn [r_q]. rewrite random_quat_eq. cbn [fst q_axis_angle qs].
  set (x := rng _ _ _). assert (Hx : 0 <= x <= 1) by apply U. assert (HP := PI_RGT_0). assert (HP3 : 3 < PI) by (assert (H := PI2_3_2); lra).
  destruct (Req_dec x 1) as [E|NE].
  - replace (1 * x / 2) with (1 / 2) by lra. lra.
  - apply Rlt_le, cos_decreasing_1; lra.
Qed.

(** A generator for the refutations: every axis is z; the angle is pi/4 in the chunk that starts at 0, and 0 in others. *)
Definition ex_rng (s b k : nat) : R :=
  match k with 1%nat | 4%nat => 1 | 2%nat | 5%nat => match b with O => PI / 4 | _ => 0 end | _ => 0 end.
Lemma ex_rng_range : uniform_range ex_rng.
Proof.
  intros s b k. assert (H := PI_RGT_0). assert (H' := PI_4). unfold ex_rng.
  do 6 (destruct k as [|k]; [destruct b; lra|]). lra.
Qed.
Definition ex_set (n : nat) : settings := mkSet 1 1 (1 / 2) n 0.
Definition eighth : quat := q_axis_angle (V3 0 0 1) (PI / 4).
Lemma ex_draw b k : (k = 0 \/ k = 3)%nat ->
  random_quat (ex_rng 0 b) k 1 = (q_axis_angle (V3 0 0 1) (match b with O => PI / 4 | _ => 0 end), (k + 3)%nat).
Proof.
  intros Hk. rewrite random_quat_eq. destruct Hk as [-> | ->]; cbn [ex_rng Nat.add];
    replace (2 * 1 - 1) with 1 by lra; rewrite acos_1, sin_0, cos_0, !Rmult_0_r, Rmult_1_l; reflexivity.
Qed.
Lemma turn0 : q_axis_angle (V3 0 0 1) 0 = qid.
Proof. unfold q_axis_angle, qid. replace (0 / 2) with 0 by lra. rewrite cos_0, sin_0. unfold vscale. simpl. now rewrite !Rmult_0_l. Qed.
Lemma eighth_unit : unitq eighth.
Proof. apply axis_angle_unit. unfold dot. simpl. ring. Qed.
Lemma eighth_axes : axis eighth 0 = V3 (sqrt 2 / 2) (sqrt 2 / 2) 0 /\ axis eighth 1 = V3 (- (sqrt 2 / 2)) (sqrt 2 / 2) 0 /\ axis eighth 2 = V3 0 0 1.
Proof.
  assert (C : cos (PI / 4) = sqrt 2 / 2).
  { rewrite cos_PI4. assert (S := sqrt_sqrt 2 ltac:(lra)). assert (P := sqrt_lt_R0 2 ltac:(lra)). apply Rmult_eq_reg_r with (sqrt 2); [|lra]. unfold Rdiv. rewrite Rmult_assoc, Rinv_l by lra. lra. }
  assert (S : sin (PI / 4) = sqrt 2 / 2) by (rewrite sin_cos_PI4; exact C).
  assert (C2 : cos (PI / 4) = cos (PI / 4 / 2) * cos (PI / 4 / 2) - sin (PI / 4 / 2) * sin (PI / 4 / 2)).
  { replace (PI / 4) with (PI / 4 / 2 + PI / 4 / 2) at 1 by field. apply cos_plus. }
  assert (S2 : sin (PI / 4) = 2 * (sin (PI / 4 / 2) * cos (PI / 4 / 2))).
  { replace (PI / 4) with (PI / 4 / 2 + PI / 4 / 2) at 1 by field. rewrite sin_plus. ring. }
  assert (O := sc1 (PI / 4 / 2)). rewrite C in C2. rewrite S in S2.
  unfold axis, eighth, q_axis_angle, rotate, dot, cross, vadd, vscale. simpl.
  set (c := cos (PI / 4 / 2)) in *. set (s := sin (PI / 4 / 2)) in *. repeat split; apply f_equal3; lra.
Qed.
Lemma eighth_order : match_order (cube eighth) (average [qid]) = - (2 / 3).
Proof.
  assert (A : forall i j k l, average [qid] i j k l = cube qid i j k l) by (intros; unfold average; cbn; field).
  rewrite match_order_ip by (assert (H := sq_len_pos eighth); lra). rewrite (sq_len_unit _ eighth_unit).
  rewrite (ip_ext (average [qid]) (cube qid) (cube eighth) (cube eighth)), (ip_ext (average [qid]) (cube qid) (average [qid]) (cube qid)) by (exact A || reflexivity).
  change (ip (cube qid) (cube qid)) with (sq_len (cube qid)). rewrite (sq_len_unit _ unitq_id), (ip_unit _ _ unitq_id eighth_unit).
  assert (Q : quartic qid eighth = 2).
  { unfold quartic, sum3. destruct eighth_axes as (-> & -> & ->). unfold axis, rotate, qid, dot, cross, vadd, vscale. simpl.
    assert (S : sqrt 2 * sqrt 2 = 2) by (apply sqrt_sqrt; lra). set (x := sqrt 2) in *.
    transitivity (1 + 4 * ((x * x) * (x * x) / 16)); [field|rewrite S; field]. }
  rewrite Q. lra.
Qed.
Lemma self_order : match_order (cube qid) (average [qid]) = 1.
Proof. apply match_order_one; [apply sq_len_pos|]. intros i j k l _ _ _ _. unfold average. cbn. field. Qed.

(** Even for a perfectly ordered system the order returned need not be the largest match over all orientations, nor
    positive: here every particle has order 1 and the order is -2/3. *)
Theorem C61_not_optimal_refuted : exists s rng os ev1 ev2 cs ev3 r,
  cub_accepts s = true /\ uniform_range rng /\ schedule (length os) (n_replicates s) ev1 ev2 cs ev3 /\
  cub_compute s rng os ev1 ev2 cs ev3 = CDone r /\ particle_order r = [1] /\ order r = - (2 / 3).
Proof.
  exists (ex_set 1), ex_rng, [qid], [(0%nat, 0%nat)], (sched_seq 81 1), [(0, 1)]%nat, [(3%nat, 0%nat)].
  assert (S := proj1 C61_values_example).
  destruct (C61_values (ex_set 1) ex_rng [qid] _ _ _ _ ltac:(cbn; lia) ltac:(discriminate) S) as (r & E & _ & P & _ & _ & O).
  exists r. split; [apply C61_constructor; cbn; lra|]. split; [apply ex_rng_range|]. split; [exact S|]. split; [exact E|].
  split; [rewrite P; cbn [map]; now rewrite self_order|].
  assert (Q : orientation r = eighth).
  { destruct (compute_schedule (ex_set 1) ex_rng [qid] _ _ _ _ ltac:(cbn; lia) ltac:(discriminate) S) as (po & F).
    rewrite F in E. injection E as <-. cbn [orientation]. unfold replicates, run_chunk, best_index. cbn [ex_set n_replicates repeat fold_left length seq range Nat.sub fst snd nth seed].
    rewrite replicate_cold by (cbn; lra). rewrite (ex_draw 0 0) by lia. reflexivity. }
  rewrite O, Q. apply eighth_order.
Qed.

Lemma ex_cold g u k : replicate (ex_set 2) g u k = (run_at g (fst (random_quat u k 1)), snd (random_quat u k 1)).
Proof. apply replicate_cold. cbn [ex_set t_initial t_final]. lra. Qed.
Lemma ex_start : (0 < n_replicates (ex_set 2))%nat. Proof. cbn [ex_set n_replicates]. lia. Qed.
Lemma ex_cut1 : chunking 0 (n_replicates (ex_set 2)) [(0, 2)]%nat.
Proof. cbn [ex_set n_replicates]. unfold chunking. cbn. constructor; lia. Qed.
Lemma ex_cut2 : chunking 0 (n_replicates (ex_set 2)) [(0, 1); (1, 2)]%nat.
Proof. cbn [ex_set n_replicates]. unfold chunking. cbn. apply (split_node 0 1 2 [(0, 1)] [(1, 2)])%nat; try lia; constructor; lia. Qed.
Lemma two_entries {A} (l : list A) x y d : length l = 2%nat -> nth 0 l d = x -> nth 1 l d = y -> l = [x; y].
Proof. intros L. destruct l as [|a [|b [|c l]]]; try discriminate. cbn [nth]. now intros -> ->. Qed.
Lemma ex_one_chunk g : replicates (ex_set 2) g ex_rng [(0, 2)]%nat = [run_at g eighth; run_at g eighth].
Proof.
  destruct (replicates_spec (ex_set 2) g ex_rng _ _ ex_start ex_cut1 (Permutation_refl _)) as [L N].
  apply two_entries with no_run; [exact L| |].
  - rewrite (N 0%nat (0, 2)%nat) by (cbn; auto; unfold inside; cbn; lia). cbn [fst snd Nat.sub ex_set seed]. change (mkSet 1 1 (1 / 2) 2 0) with (ex_set 2). unfold rep_at. cbn [drawn].
    rewrite ex_cold, (ex_draw 0 0) by lia. reflexivity.
  - rewrite (N 1%nat (0, 2)%nat) by (cbn; auto; unfold inside; cbn; lia). cbn [fst snd Nat.sub ex_set seed]. change (mkSet 1 1 (1 / 2) 2 0) with (ex_set 2). unfold rep_at. cbn [drawn].
    rewrite !ex_cold, (ex_draw 0 0) by lia. cbn [fst snd Nat.add]. rewrite (ex_draw 0 3) by lia. reflexivity.
Qed.
Lemma ex_two_chunks g : replicates (ex_set 2) g ex_rng [(0, 1); (1, 2)]%nat = [run_at g eighth; run_at g qid].
Proof.
  destruct (replicates_spec (ex_set 2) g ex_rng _ _ ex_start ex_cut2 (Permutation_refl _)) as [L N].
  apply two_entries with no_run; [exact L| |].
  - rewrite (N 0%nat (0, 1)%nat) by (cbn; auto; unfold inside; cbn; lia). cbn [fst snd Nat.sub ex_set seed]. change (mkSet 1 1 (1 / 2) 2 0) with (ex_set 2). unfold rep_at. cbn [drawn].
    rewrite ex_cold, (ex_draw 0 0) by lia. reflexivity.
  - rewrite (N 1%nat (1, 2)%nat) by (cbn; auto; unfold inside; cbn; lia). cbn [fst snd Nat.sub ex_set seed]. change (mkSet 1 1 (1 / 2) 2 0) with (ex_set 2). unfold rep_at. cbn [drawn].
    rewrite ex_cold, (ex_draw 1 0), turn0 by lia. reflexivity.
Qed.

(** The result for a fixed seed depends on how the scheduler cuts the loop over replicates: two replicates in one chunk
    share a generator, in two chunks they have one each.  Same settings, seed, generator and orientations, different
    order. *)
Theorem C61_cutting_refuted : exists s rng os ev1 ev2 cs cs' ev3 r r',
  cub_accepts s = true /\ uniform_range rng /\
  schedule (length os) (n_replicates s) ev1 ev2 cs ev3 /\ schedule (length os) (n_replicates s) ev1 ev2 cs' ev3 /\
  cub_compute s rng os ev1 ev2 cs ev3 = CDone r /\ cub_compute s rng os ev1 ev2 cs' ev3 = CDone r' /\
  order r = - (2 / 3) /\ order r' = 1.
Proof.
  destruct (proj1 C61_values_example) as (S1 & S2 & _ & S4).
  exists (ex_set 2), ex_rng, [qid], [(0%nat, 0%nat)], (sched_seq 81 1), [(0, 2)]%nat, [(0, 1); (1, 2)]%nat, [(3%nat, 0%nat)].
  assert (Sa : schedule (length [qid]) (n_replicates (ex_set 2)) [(0%nat, 0%nat)] (sched_seq 81 1) [(0, 2)]%nat [(3%nat, 0%nat)]).
  { split; [exact S1|]. split; [exact S2|]. split; [|exact S4]. exists [(0, 2)]%nat. split; [exact ex_cut1|apply Permutation_refl]. }
  assert (Sb : schedule (length [qid]) (n_replicates (ex_set 2)) [(0%nat, 0%nat)] (sched_seq 81 1) [(0, 1); (1, 2)]%nat [(3%nat, 0%nat)]).
  { split; [exact S1|]. split; [exact S2|]. split; [|exact S4]. exists [(0, 1); (1, 2)]%nat.
    split; [exact ex_cut2|apply Permutation_refl]. }
  assert (Hg : forall q, r_o (run_at (tab (average [qid])) q) = match_order (cube q) (average [qid])) by (intros q; apply cub_order_match).
  assert (Hp1 : (0 < n_replicates (ex_set 2))%nat) by (cbn; lia). assert (Hne : [qid] <> []) by discriminate.
  destruct (compute_schedule (ex_set 2) ex_rng [qid] _ _ _ _ Hp1 Hne Sa) as (po & F). destruct (compute_schedule (ex_set 2) ex_rng [qid] _ _ _ _ Hp1 Hne Sb) as (po' & F').
  eexists. eexists. split; [apply C61_constructor; cbn; lra|]. split; [apply ex_rng_range|]. split; [exact Sa|]. split; [exact Sb|].
  split; [exact F|]. split; [exact F'|]. cbn [order]. set (g := tab (average [qid])) in *.
  assert (R := ex_one_chunk g). assert (R' := ex_two_chunks g).
  rewrite R, R'. split.
  - destruct (best_index_spec [run_at g eighth; run_at g eighth] ltac:(cbn; lia)) as [B _]. cbn [length] in B.
    destruct (best_index _) as [|[|m]]; [| |lia]; cbn [nth]; rewrite Hg; apply eighth_order.
  - destruct (best_index_spec [run_at g eighth; run_at g qid] ltac:(cbn; lia)) as [B M]. cbn [length] in B, M.
    specialize (M 1%nat ltac:(lia)). destruct (best_index _) as [|[|m]]; [| |lia]; cbn [nth] in *; rewrite ?Hg in *.
    + rewrite eighth_order, self_order in M. lra.
    + apply self_order.
Qed.

Print Assumptions C61_constructor.
Print Assumptions C61_norm.
Print Assumptions C61_values.
Print Assumptions C61_bounds.
Print Assumptions C61_mean_particle_order.
Print Assumptions C61_perfect.
Print Assumptions C61_rotation.
Print Assumptions C61_cube_symmetry.
Print Assumptions C61_order_of_particles.
Print Assumptions C61_seed_free.
Print Assumptions C61_same_cutting.
Print Assumptions C61_single_replicate.
Print Assumptions C61_more_replicates.
Print Assumptions C61_start_within_one_radian.
Print Assumptions C61_not_optimal_refuted.
Print Assumptions C61_cutting_refuted.
