(** C95: additional bonds and clusters. *)
From Coq Require Import List Arith Lia Relations Permutation.
From Verif Require Import DsetSpec DsetProofs ClusterModel ClusterSpec ClusterProps.
Import ListNotations.

Lemma connected_incl bs cs i j : incl bs cs -> connected bs i j -> connected cs i j.
Proof.
  intros I. induction 1 as [a b H|a|a b _ IH|a b c _ IH1 _ IH2]; [apply rst_step; auto|apply rst_refl|apply rst_sym; auto|eapply rst_trans; eauto].
Qed.
(** One more pair joins the classes of its ends and nothing else. *)
Lemma connected_cons p q bs i j : connected ((p, q) :: bs) i j -> connected bs i j \/ (connected bs i p /\ connected bs q j) \/ (connected bs i q /\ connected bs p j).
Proof.
  induction 1 as [a b H|a|a b _ IH|a b c _ IH1 _ IH2].
  - destruct H as [H|H]; [injection H as -> ->; right; left; split; apply rst_refl|left; apply rst_step; auto].
  - left. apply rst_refl.
  - destruct IH as [H|[[H1 H2]|[H1 H2]]]; [left; apply rst_sym; auto|right; right; split; apply rst_sym; auto|right; left; split; apply rst_sym; auto].
  - destruct IH1 as [H|[[H1 H2]|[H1 H2]]], IH2 as [K|[[K1 K2]|[K1 K2]]].
    + left. eapply rst_trans; eauto.
    + right. left. split; auto. eapply rst_trans; eauto.
    + right. right. split; auto. eapply rst_trans; eauto.
    + right. left. split; auto. eapply rst_trans; eauto.
    + right. left. auto.
    + left. eapply rst_trans; eauto.
    + right. right. split; auto. eapply rst_trans; eauto.
    + left. eapply rst_trans; eauto.
    + right. right. auto.
Qed.
Lemma injection_le n m (f : nat -> nat) : (forall c, c < n -> f c < m) -> (forall c d, c < n -> d < n -> f c = f d -> c = d) -> n <= m.
Proof.
  intros B I. rewrite <- (seq_length n 0), <- (map_length f), <- (seq_length m 0). apply NoDup_incl_length.
  - apply NoDup_nth with (d := 0). intros i j Hi Hj E. rewrite map_length, seq_length in Hi, Hj. rewrite !(nth_indep _ 0 (f 0)) in E by (rewrite map_length, seq_length; auto). rewrite !map_nth, !seq_nth in E by auto. simpl in E. apply I; auto.
  - intros x Hx. apply in_map_iff in Hx as (c & <- & Hc). apply in_seq in Hc. apply in_seq. specialize (B c). lia.
Qed.
(** A member of every class. *)
Lemma choose n num (idx : nat -> nat) : (forall c, c < num -> exists i, i < n /\ idx i = c) -> exists pick, forall c, c < num -> pick c < n /\ idx (pick c) = c.
Proof.
  intros H. exists (fun c => match find (fun i => Nat.eqb (idx i) c) (seq 0 n) with Some i => i | None => 0 end). intros c Hc.
  destruct (find _ (seq 0 n)) as [i|] eqn:E.
  - apply find_some in E as [E1 E2]. apply in_seq in E1. apply Nat.eqb_eq in E2. split; [lia|auto].
  - destruct (H c Hc) as (i & Hi & Ei). assert (X := find_none _ _ E i ltac:(apply in_seq; lia)). apply Nat.eqb_neq in X. contradiction.
Qed.

(** More bonds: particles that were in one cluster stay in one cluster, and there are at most as many clusters. *)
Theorem C95_more_bonds n bonds bonds' threads threads' keys keys' r r' : (forall p q, In (p, q) bonds' -> p < n /\ q < n) -> incl bonds bonds' -> Permutation bonds (concat threads) -> Permutation bonds' (concat threads') ->
  cluster_run n threads keys r -> cluster_run n threads' keys' r' ->
  (forall i j, i < n -> j < n -> cr_idx r i = cr_idx r j -> cr_idx r' i = cr_idx r' j) /\ cr_num r' <= cr_num r /\ (cr_num r' = cr_num r -> forall i j, i < n -> j < n -> cr_idx r' i = cr_idx r' j -> cr_idx r i = cr_idx r j).
Proof.
  intros HB I P P' R R'. destruct (C40_numbering n bonds threads keys r (fun p q H => HB p q (I _ H)) P R) as (C1 & C2 & C3 & _). destruct (C40_numbering n bonds' threads' keys' r' HB P' R') as (D1 & D2 & D3 & _).
  assert (M : forall i j, i < n -> j < n -> cr_idx r i = cr_idx r j -> cr_idx r' i = cr_idx r' j) by (intros i j Hi Hj E; apply D1; auto; apply (connected_incl bonds); auto; apply C1; auto).
  destruct (choose n _ _ C3) as (f & F). destruct (choose n _ _ D3) as (g & G).
  assert (Inj : forall c d, c < cr_num r' -> d < cr_num r' -> cr_idx r (g c) = cr_idx r (g d) -> c = d).
  { intros c d Hc Hd E. destruct (G c Hc) as [G1 G2]. destruct (G d Hd) as [G3 G4]. rewrite <- G2, <- G4. apply M; auto. }
  split; [exact M|]. split.
  - apply (injection_le _ _ (fun c => cr_idx r (g c))); auto. intros c Hc. apply C2, G; auto.
  - intros E i j Hi Hj E'. destruct (Nat.eq_dec (cr_idx r i) (cr_idx r j)) as [|Ne]; auto. exfalso.
    assert (L : cr_num r <= cr_num r' - 1); [|specialize (D2 i Hi); lia].
    set (a := cr_idx r i) in *.
    (* the map classes of r -> classes of r' is onto between sets of equal size, hence injective, but it identifies two classes *)
    assert (ON : incl (seq 0 (cr_num r')) (map (fun c => cr_idx r' (f c)) (remove Nat.eq_dec a (seq 0 (cr_num r))))).
    { intros d Hd. apply in_seq in Hd. destruct (G d ltac:(lia)) as [G1 G2]. apply in_map_iff.
      destruct (Nat.eq_dec (cr_idx r (g d)) a) as [X|X].
      - exists (cr_idx r j). assert (Hc := C2 j Hj). destruct (F _ Hc) as [F1 F2]. split.
        + rewrite <- G2. transitivity (cr_idx r' j); [apply M; auto|]. rewrite <- E'. apply M; auto.
        + apply in_in_remove; [congruence|]. apply in_seq. lia.
      - exists (cr_idx r (g d)). assert (Hc := C2 _ G1). destruct (F _ Hc) as [F1 F2]. split; [rewrite <- G2 at 2; apply M; auto|]. apply in_in_remove; [auto|]. apply in_seq. lia. }
    apply NoDup_incl_length in ON; [|apply seq_NoDup]. rewrite seq_length, map_length in ON. assert (RL := remove_length_lt Nat.eq_dec (seq 0 (cr_num r)) a ltac:(apply in_seq; specialize (C2 i Hi); unfold a; lia)). rewrite seq_length in RL. lia.
Qed.
(** One more bond: nothing changes if its ends were in one cluster, otherwise there is one cluster less. *)
Theorem C95_one_bond n p q bonds threads threads' keys keys' r r' : p < n -> q < n -> (forall i j, In (i, j) bonds -> i < n /\ j < n) -> Permutation bonds (concat threads) -> Permutation ((p, q) :: bonds) (concat threads') ->
  cluster_run n threads keys r -> cluster_run n threads' keys' r' ->
  (cr_idx r p = cr_idx r q -> cr_num r' = cr_num r /\ forall i, i < n -> cr_idx r' i = cr_idx r i) /\ (cr_idx r p <> cr_idx r q -> S (cr_num r') = cr_num r).
Proof.
  intros Hp Hq HB P P' R R'. assert (HB' : forall i j, In (i, j) ((p, q) :: bonds) -> i < n /\ j < n) by (intros i j [E|H]; [injection E as <- <-; auto|auto]).
  destruct (C40_numbering n bonds threads keys r HB P R) as (C1 & C2 & C3 & C4). destruct (C40_numbering n _ threads' keys' r' HB' P' R') as (D1 & D2 & D3 & D4).
  destruct (choose n _ _ C3) as (f & F). destruct (choose n _ _ D3) as (g & G). split; intros E.
  - assert (X : forall i j, connected ((p, q) :: bonds) i j <-> connected bonds i j).
    { intros i j. split; [|apply connected_incl; intros x Hx; right; auto]. intros H. apply C1 in E; auto. apply connected_cons in H as [H|[[H K]|[H K]]]; auto.
      - eapply rst_trans; [exact H|]. eapply rst_trans; eauto.
      - eapply rst_trans; [exact H|]. eapply rst_trans; [apply rst_sym; exact E|exact K]. }
    destruct (C40_unique n bonds (cr_num r') (cr_idx r') (cr_num r) (cr_idx r)) as [U1 U2]; auto; [|exact (conj C1 (conj C2 (conj C3 C4)))].
    apply (canonical_connected n ((p, q) :: bonds)); [exact X|exact (conj D1 (conj D2 (conj D3 D4)))].
  - assert (M : forall i j, i < n -> j < n -> cr_idx r i = cr_idx r j -> cr_idx r' i = cr_idx r' j) by (intros i j Hi Hj E'; apply D1; auto; apply (connected_incl bonds); [intros x Hx; right; auto|apply C1; auto]).
    assert (PQ : cr_idx r' p = cr_idx r' q) by (apply D1; auto; apply rst_step; left; auto). set (b := cr_idx r q) in *. apply Nat.le_antisymm.
    + apply (injection_le _ _ (fun c => if Nat.eqb c (cr_num r') then b else if Nat.eqb (cr_idx r (g c)) b then cr_idx r p else cr_idx r (g c))).
      * intros c Hc. destruct (Nat.eqb_spec c (cr_num r')); [apply C2; auto|]. destruct (Nat.eqb_spec (cr_idx r (g c)) b); [apply C2; auto|]. apply C2, G. lia.
      * assert (K : forall c, c < cr_num r' -> exists i, i < n /\ cr_idx r i = (if Nat.eqb (cr_idx r (g c)) b then cr_idx r p else cr_idx r (g c)) /\ cr_idx r i <> b /\ cr_idx r' i = c).
        { intros c Hc. destruct (G c Hc) as [G1 G2]. destruct (Nat.eqb_spec (cr_idx r (g c)) b) as [X|X]; [exists p; split; [auto|]; split; [auto|]; split; [auto|]; rewrite PQ, <- G2; apply M; auto|exists (g c); auto]. }
        intros c d Hc Hd. destruct (Nat.eqb_spec c (cr_num r')) as [X|X], (Nat.eqb_spec d (cr_num r')) as [Y|Y]; intros Z; try congruence.
        -- destruct (K d ltac:(lia)) as (i & _ & K1 & K2 & _). congruence.
        -- destruct (K c ltac:(lia)) as (i & _ & K1 & K2 & _). congruence.
        -- destruct (K c ltac:(lia)) as (i & Hi & K1 & _ & K3). destruct (K d ltac:(lia)) as (j & Hj & L1 & _ & L3). rewrite <- K3, <- L3. apply M; auto. congruence.
    + apply (injection_le _ _ (fun c => if Nat.eqb c b then cr_num r' else cr_idx r' (f c))).
      * intros c Hc. destruct (Nat.eqb_spec c b); [lia|]. destruct (F c Hc) as [F1 _]. specialize (D2 _ F1). lia.
      * intros c d Hc Hd. destruct (F c Hc) as [F1 F2]. destruct (F d Hd) as [F3 F4]. assert (A1 := D2 _ F1). assert (A2 := D2 _ F3). destruct (Nat.eqb_spec c b) as [X|X], (Nat.eqb_spec d b) as [Y|Y]; intros Z; try lia.
        apply D1 in Z; auto. rewrite <- F2, <- F4. apply connected_cons in Z as [Z|[[Z1 Z2]|[Z1 Z2]]]; [apply C1; auto| |].
        -- exfalso. apply Y. rewrite <- F4. symmetry. apply C1; auto.
        -- exfalso. apply X. rewrite <- F2. apply C1; auto.
Qed.
Print Assumptions C95_more_bonds.
Print Assumptions C95_one_bond.
