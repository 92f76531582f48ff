(** C61: what the annealing guarantees. *)
From Coq Require Import Reals List Lra Lia Permutation.
From Verif Require Import RBase ParProofs MArrayProofs NListProofs QuatProofs CubaticProofs CubaticProofs2 CubaticProofs3 CubaticProofs4 CubaticProps.
From Verif Require Import CubaticSpec.
Import CubaticModel.
Import ListNotations.
Local Open Scope R_scope.

Lemma anneal_drop s g u u0 : 0 < u0 <= 1 -> (forall k, u0 <= u k) -> 0 < scale s < 1 ->
  forall fuel t k r, 0 < t -> r_o r - t * (- ln u0) / (1 - scale s) <= r_o (fst (anneal s g u fuel t k r)).
Proof.
  intros U0 U Sc. assert (L : 0 <= - ln u0) by (destruct (Req_dec u0 1) as [->|Ne]; [rewrite ln_1; lra|assert (Hl := ln_increasing u0 1 ltac:(lra) ltac:(lra)); rewrite ln_1 in Hl; lra]).
  set (l := - ln u0) in *. assert (G : forall t, 0 < t -> t * scale s * l / (1 - scale s) = t * l / (1 - scale s) - t * l) by (intros; field; lra).
  assert (P : forall t, 0 < t -> 0 <= t * l / (1 - scale s)) by (intros t T; apply Rmult_le_pos; [nra|apply Rlt_le, Rinv_0_lt_compat; lra]).
  induction fuel as [|fuel IH]; intros t k r T; cbn [anneal]; [cbn [fst]; specialize (P t T); lra|].
  destruct (Rltb_spec (t_final s) t); [|cbn [fst]; specialize (P t T); lra]. destruct (random_quat u k (1 / 10)) as [dq k']. set (r' := run_at g (qmul dq (r_q r))).
  assert (T' : 0 < t * scale s) by nra. assert (I := IH (t * scale s) k' r' T'). rewrite G in I by exact T. assert (0 <= t * l) by nra.
  destruct (Rltb_spec (r_o r) (r_o r')); [lra|]. destruct (Rleb_spec (u k') (exp (- (r_o r - r_o r') / t))) as [A|A]; [|apply IH; exact T].
  assert (D : r_o r - r_o r' <= t * l).
  { assert (B : ln u0 <= - (r_o r - r_o r') / t).
    { rewrite <- (ln_exp (- (r_o r - r_o r') / t)). specialize (U k'). destruct (Rle_lt_or_eq_dec u0 (exp (- (r_o r - r_o r') / t)) ltac:(lra)) as [H1|<-]; [apply Rlt_le, ln_increasing; lra|lra]. }
    apply (Rmult_le_compat_l t) in B; [|lra]. replace (t * (- (r_o r - r_o r') / t)) with (- (r_o r - r_o r')) in B by (field; lra). unfold l. lra. }
  assert (J := IH (t * scale s) (S k') r' T'). rewrite G in J by exact T. lra.
Qed.
(** Annealing may lower the match, but only as far as the temperature and the smallest number drawn allow: the order returned is at least that of a
    starting orientation that depends on the seed alone, less t_initial ln(1/u0)/(1 - scale). If every draw is 1 it is at least that of the start. *)
Theorem C61_annealing rng sd : uniform_range rng -> exists q0, unitq q0 /\ cos (1 / 2) <= qs q0 /\
  forall s u0 os ev1 ev2 cs ev3 r, seed s = sd -> cub_accepts s = true -> 0 < u0 <= 1 -> (forall b k, u0 <= rng sd b k) ->
  os <> [] -> schedule (length os) (n_replicates s) ev1 ev2 cs ev3 -> cub_compute s rng os ev1 ev2 cs ev3 = CDone r ->
  match_order (cube q0) (average os) - t_initial s * ln (/ u0) / (1 - scale s) <= order r.
Proof.
  intros U. exists (fst (random_quat (rng sd 0%nat) 0 1)). split; [apply random_unit|]. split.
  - rewrite random_quat_eq. cbn [fst q_axis_angle qs]. set (x := rng _ _ _). assert (Hx : 0 <= x <= 1) by apply U. assert (HP := PI_RGT_0). assert (HP3 : 3 < PI) by (assert (H := PI2_3_2); lra).
    destruct (Req_dec x 1) as [E|NE]; [replace (1 * x / 2) with (1 / 2) by lra; lra|apply Rlt_le, cos_decreasing_1; lra].
  - intros s u0 os ev1 ev2 cs ev3 r <- Ac U0 Ul Hn S E. apply C61_constructor in Ac as (A1 & A2 & A3).
    assert (Hr : (0 < n_replicates s)%nat) by (unfold cub_compute in E; destruct (Nat.eqb_spec (n_replicates s) 0); [discriminate|lia]).
    destruct (compute_schedule s rng os ev1 ev2 cs ev3 Hr Hn S) as (po & F). rewrite F in E. injection E as <-. cbn [order].
    set (g := tab (average os)). destruct S as (_ & _ & (cs0 & C & P) & _). destruct (replicates_spec s g rng cs cs0 Hr C P) as [L N].
    destruct (best_index_spec (replicates s g rng cs) ltac:(lia)) as [_ B]. eapply Rle_trans; [|apply (B 0%nat); lia].
    destruct (chunking_cover _ _ _ Hr C P) as (_ & Cov & _). destruct (Cov 0%nat Hr) as (c & Hc & Hi). rewrite (N 0%nat c Hc Hi). unfold inside in Hi. replace (fst c) with 0%nat by lia.
    unfold rep_at. cbn [Nat.sub drawn]. unfold replicate. destruct (random_quat (rng (seed s) 0%nat) 0 1) as [q k]. cbn [fst].
    assert (D := anneal_drop s g (rng (seed s) 0%nat) u0 U0 (Ul 0%nat) A3 max_loops (t_initial s) k (run_at g q) ltac:(lra)).
    rewrite ln_Rinv by lra. eapply Rle_trans; [|exact D]. unfold run_at at 1. cbn [r_o]. unfold g. rewrite cub_order_match. lra.
Qed.
(** A system, schedule and generator meeting the hypotheses, at temperatures where annealing takes place. *)
Example C61_annealing_ex : exists s rng os ev1 ev2 cs ev3 r, uniform_range rng /\ cub_accepts s = true /\ t_final s < t_initial s /\ (forall b k, 1 / 2 <= rng (seed s) b k) /\
  schedule (length os) (n_replicates s) ev1 ev2 cs ev3 /\ cub_compute s rng os ev1 ev2 cs ev3 = CDone r.
Proof.
  assert (Sx := proj1 C61_values_example).
  exists (mkSet 1 (1 / 2) (1 / 2) 1 0), (fun _ _ _ => 1 / 2), [qid], [(0%nat, 0%nat)], (sched_seq 81 1), [(0, 1)]%nat, [(3%nat, 0%nat)].
  destruct (C61_values (mkSet 1 (1 / 2) (1 / 2) 1 0) (fun _ _ _ => 1 / 2) [qid] _ _ _ _ ltac:(cbn; lia) ltac:(discriminate) Sx) as (r & E & _).
  exists r. split; [intros ? ? ?; lra|]. split; [apply C61_constructor; cbn; lra|]. split; [cbn; lra|]. split; [intros; cbn; lra|]. split; [exact Sx|exact E].
Qed.
Print Assumptions C61_annealing.
