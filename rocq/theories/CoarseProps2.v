(** C96 for CorrelationFunction: coarse bins are the weighted means of the fine ones. *)
From Verif Require Import HistProofs ParProofs CorrSpec CorrProps CoarseSpec.
From Coq Require Import Lra Lia.
Local Open Scope R_scope.

Definition between (lo hi : R) (l : list (cf_in * bond)) := filter (fun fb => Rle_bool lo (bd (snd fb)) && Rlt_bool (bd (snd fb)) hi) l.
Definition bsum (lo hi : R) l : cplx := csum (map pair_value (between lo hi l)).
Lemma cadd_swap a b c : cadd a (cadd b c) = cadd b (cadd a c). Proof. destruct a, b, c. unfold cadd; simpl. f_equal; ring. Qed.
Lemma cadd_assoc' a b c : cadd (cadd a b) c = cadd a (cadd b c). Proof. destruct a, b, c. unfold cadd; simpl. f_equal; ring. Qed.
Lemma cadd_0 a : cadd a c0 = a. Proof. destruct a. unfold cadd, c0; simpl. f_equal; ring. Qed.
Lemma between_add lo mid hi l : lo <= mid <= hi -> bsum lo hi l = cadd (bsum lo mid l) (bsum mid hi l) /\ length (between lo hi l) = (length (between lo mid l) + length (between mid hi l))%nat.
Proof.
  intros [H1 H2]. unfold bsum, between. induction l as [|b l [IH1 IH2]]; simpl; [rewrite cadd_0; auto|].
  destruct (Rle_bool_spec lo (bd (snd b))), (Rlt_bool_spec (bd (snd b)) hi), (Rlt_bool_spec (bd (snd b)) mid), (Rle_bool_spec mid (bd (snd b))); cbn [andb map csum length]; try lra; rewrite ?IH1, ?IH2, ?cadd_assoc'; split; auto; try lia. apply cadd_swap.
Qed.
Lemma between_none lo l : between lo lo l = [].
Proof. unfold between. induction l as [|b l IH]; simpl; auto. destruct (Rle_bool_spec lo (bd (snd b))), (Rlt_bool_spec (bd (snd b)) lo); simpl; auto. lra. Qed.
Lemma between_chain (e : nat -> R) l s : (forall i j, (i <= j)%nat -> e i <= e j) -> forall n,
  csum (map (fun j => bsum (e (s + j)%nat) (e (S (s + j))) l) (seq 0 n)) = bsum (e s) (e (s + n)%nat) l /\
  list_sum (map (fun j => length (between (e (s + j)%nat) (e (S (s + j))) l)) (seq 0 n)) = length (between (e s) (e (s + n)%nat) l).
Proof.
  intros M n. assert (Q : forall a b, csum (a ++ b) = cadd (csum a) (csum b)).
  { induction a as [|x a IH]; intros b; simpl; [destruct (csum b); unfold cadd, c0; simpl; f_equal; ring|]. rewrite IH, cadd_assoc'. reflexivity. }
  induction n as [|n [IH1 IH2]]; [rewrite Nat.add_0_r; unfold bsum; rewrite between_none; auto|].
  rewrite seq_S, !map_app, Q, list_sum_app, IH1, IH2. cbn [map csum list_sum fold_right plus]. rewrite cadd_0, Nat.add_0_r.
  destruct (between_add (e s) (e (s + n)%nat) (e (s + S n)%nat) l) as [A B]; [split; apply M; lia|]. rewrite A, B. replace (s + S n)%nat with (S (s + n)) by lia. auto.
Qed.
Lemma cf_edge_fine (k : nat) bins r_max i : (0 < k)%nat -> (0 < bins)%Z -> cf_edge (Z.of_nat k * bins) r_max (i * k) = cf_edge bins r_max i.
Proof.
  intros Hk Hb. unfold cf_edge. rewrite mult_INR, mult_IZR, <- INR_IZR_INZ. assert (0 < INR k) by (apply lt_0_INR; auto). assert (IZR bins <> 0) by (apply not_0_IZR; lia). field. split; auto. lra.
Qed.

(** Correlations with k times as many bins over the same frames: the numbers of bonds of the k fine bins add up to that of the coarse bin,
    and the coarse value is the mean of the fine ones weighted with these numbers. *)
Theorem C96_correlation : forall k bins r_max s0 s0' h h' ev1 ev2 ev1' ev2', (0 < k)%nat -> (0 <= bins)%Z -> (Z.of_nat k * bins < OVERFLOW_BIN)%Z ->
  cf_make bins r_max = Some s0 -> cf_make (Z.of_nat k * bins) r_max = Some s0' -> Forall (cf_op_ok bins) h -> Forall (cf_op_ok (Z.of_nat k * bins)) h' ->
  execution 0 (Z.to_nat bins) ev1 -> execution 0 (Z.to_nat bins) ev2 -> execution 0 (Z.to_nat (Z.of_nat k * bins)) ev1' -> execution 0 (Z.to_nat (Z.of_nat k * bins)) ev2' ->
  cf_since h' [] = cf_since h [] ->
  (forall i, (Z.of_nat (length (bin_bonds bins r_max i (cf_since h []))) < 2 ^ 32)%Z) -> (forall i, (Z.of_nat (length (bin_bonds (Z.of_nat k * bins) r_max i (cf_since h []))) < 2 ^ 32)%Z) ->
  exists s s', cf_run s0 (h ++ [CfRead ev1 ev2]) = Some s /\ cf_run s0' (h' ++ [CfRead ev1' ev2']) = Some s' /\
    let n := fun i => length (bin_bonds bins r_max i (cf_since h [])) in let n' := fun i => length (bin_bonds (Z.of_nat k * bins) r_max i (cf_since h [])) in
    forall i, (i < Z.to_nat bins)%nat ->
      n i = list_sum (map (fun j => n' (i * k + j)%nat) (seq 0 k)) /\
      cscale (INR (n i)) (nth i (cf_out s) c0) = csum (map (fun j => cscale (INR (n' (i * k + j)%nat)) (nth (i * k + j) (cf_out s') c0)) (seq 0 k)).
Proof.
  intros k bins r_max s0 s0' h h' ev1 ev2 ev1' ev2' Hk Hb Hb' Mk Mk' Hh Hh' X1 X2 X3 X4 Hs Sm Sm'.
  assert (P : (0 < bins)%Z /\ 0 < r_max).
  { unfold cf_make in Mk. destruct (Z.eqb_spec bins 0); [discriminate|]. destruct (Rle_bool_spec r_max 0); [discriminate|]. split; [lia|auto]. }
  destruct P as [B0 R0]. set (K := (Z.of_nat k * bins)%Z) in *. assert (K0 : (0 < K)%Z) by (unfold K; nia).
  destruct (C50_mean bins r_max s0 h ev1 ev2 ltac:(unfold K in *; nia) Mk Hh X1 X2 Sm) as (s & E & _ & V & _).
  destruct (C50_mean K r_max s0' h' ev1' ev2' ltac:(lia) Mk' Hh' X3 X4 ltac:(rewrite Hs; exact Sm')) as (s' & E' & _ & V' & _). rewrite Hs in V'.
  exists s, s'. split; [exact E|]. split; [exact E'|]. cbv zeta. intros i Hi.
  assert (NK : Z.to_nat K = (k * Z.to_nat bins)%nat) by (unfold K; rewrite Z2Nat.inj_mul, Nat2Z.id by lia; reflexivity).
  assert (EF : cf_edge K r_max (i * k) = cf_edge bins r_max i) by (apply cf_edge_fine; auto).
  assert (EL : cf_edge K r_max (i * k + k) = cf_edge bins r_max (S i)) by (replace (i * k + k)%nat with (S i * k)%nat by lia; apply cf_edge_fine; auto).
  assert (MO : forall a b, (a <= b)%nat -> cf_edge K r_max a <= cf_edge K r_max b).
  { intros a b Hab. unfold cf_edge. apply Rmult_le_compat_r; [apply Rlt_le, Rdiv_lt_0_compat; auto; apply (IZR_lt 0); lia|apply le_INR; auto]. }
  destruct (between_chain (cf_edge K r_max) (flat_map (fun f => map (fun b => (f, b)) (ci_every f)) (cf_since h [])) (i * k) MO k) as [C1 C2]. rewrite EF, EL in C1, C2. split.
  - symmetry. exact C2.
  - rewrite (proj2 (V i Hi)). transitivity (bsum (cf_edge bins r_max i) (cf_edge bins r_max (S i)) (flat_map (fun f => map (fun b => (f, b)) (ci_every f)) (cf_since h []))); [reflexivity|]. rewrite <- C1. f_equal. apply map_ext_in. intros j Hj. apply in_seq in Hj.
    symmetry. apply (proj2 (V' (i * k + j)%nat ltac:(rewrite NK; nia))).
Qed.
(** Two frames with one bond each at distance 3/4; one bin against two. *)
Example C96_correlation_ex : exists s0 s0' s s', cf_run s0 ([CfCompute true ex_f1; CfCompute false ex_f2] ++ [CfRead [(0,0)]%nat [(1,0)]%nat]) = Some s /\
  cf_run s0' ([CfCompute true ex_f1; CfCompute false ex_f2] ++ [CfRead [(0,0);(0,1)]%nat [(1,0);(1,1)]%nat]) = Some s' /\
  length (bin_bonds 1 1 0 [ex_f1; ex_f2]) = 2%nat /\ length (bin_bonds 2 1 1 [ex_f1; ex_f2]) = 2%nat /\ nth 0 (cf_out s) c0 = nth 1 (cf_out s') c0.
Proof.
  set (h := [CfCompute true ex_f1; CfCompute false ex_f2]).
  destruct (cf_make 1 1) as [s0|] eqn:E0; [|unfold cf_make in E0; simpl in E0; rewrite Rle_bool_false in E0 by lra; discriminate].
  destruct (cf_make 2 1) as [s0'|] eqn:E0'; [|unfold cf_make in E0'; simpl in E0'; rewrite Rle_bool_false in E0' by lra; discriminate].
  assert (Hh : forall b, Forall (cf_op_ok b) h).
  { intros b. constructor; [|constructor; [|constructor]]; (split; [|split; [reflexivity|split; [reflexivity|]]]).
    - exact (sequential_execution 0 1 0).
    - intros c [<-|[]]; simpl; lia.
    - exact (sequential_execution 0 1 1).
    - intros c [<-|[]]; simpl; lia. }
  assert (SM : forall b i, (Z.of_nat (length (bin_bonds b 1 i (cf_since h []))) < 2 ^ 32)%Z).
  { intros b i. unfold bin_bonds, h, cf_since, ci_every. simpl flat_map. cbn [filter snd]. destruct (_ && _); simpl; lia. }
  assert (L1 : length (bin_bonds 1 1 0 [ex_f1; ex_f2]) = 2%nat).
  { unfold bin_bonds, ci_every, cf_edge. simpl flat_map. cbn [filter snd]. change (bd ex_bond) with (3/4). simpl INR. rewrite Rle_bool_true by lra. rewrite Rlt_bool_true by lra. reflexivity. }
  assert (L2 : length (bin_bonds 2 1 1 [ex_f1; ex_f2]) = 2%nat).
  { unfold bin_bonds, ci_every, cf_edge. simpl flat_map. cbn [filter snd]. change (bd ex_bond) with (3/4). simpl INR. rewrite Rle_bool_true by lra. rewrite Rlt_bool_true by lra. reflexivity. }
  destruct (C96_correlation 2 1 1 s0 s0' h h [(0,0)]%nat [(1,0)]%nat [(0,0);(0,1)]%nat [(1,0);(1,1)]%nat) as (s & s' & R1 & R2 & V); auto; try lia; try (unfold OVERFLOW_BIN; lia).
  - exact (sequential_execution 0 1 0).
  - exact (sequential_execution 0 1 1).
  - exact (sequential_execution 0 2 0).
  - exact (sequential_execution 0 2 1).
  - exists s0, s0', s, s'. split; [exact R1|]. split; [exact R2|]. split; [exact L1|]. split; [exact L2|].
    cbv zeta in V. destruct (V 0%nat ltac:(simpl; lia)) as [N W]. change (cf_since h []) with [ex_f1; ex_f2] in *. change (Z.of_nat 2 * 1)%Z with 2%Z in *. cbn [seq map list_sum fold_right csum Nat.mul Nat.add] in N, W. rewrite L1, L2 in *.
    assert (Z0 : length (bin_bonds 2 1 0 [ex_f1; ex_f2]) = 0%nat) by lia. rewrite Z0 in W.
    destruct (nth 0 (cf_out s) c0) as [a b], (nth 1 (cf_out s') c0) as [c d], (nth 0 (cf_out s') c0). unfold cscale, cadd, c0 in W. simpl in W. injection W as W1 W2. f_equal; lra.
Qed.
Print Assumptions C96_correlation.
