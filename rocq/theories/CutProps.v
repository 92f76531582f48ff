(** C94: neighbours found with a large cutoff serve smaller ones. *)
From Coq Require Import Reals ZArith List Permutation Lia Lra Sorted.
From Verif Require Import RBase Vec BoxProofs ParProofs MArrayProofs NListProofs NListProofs2 NListProps FilterProps AABBProps LinkCellProps CellQueryProps QueryProofs QueryProps KnnModel KnnProps KnnProps2 KnnProps3.
From Verif Require Import NListSpec QueryArgSpec CutSpec BoxSpec QuerySpec KnnSpec.
Import ListNotations.
Local Open Scope R_scope.

Lemma sorted_strong {A} (R0 : A -> A -> Prop) (d : A) l : (forall i j, (i < j < length l)%nat -> R0 (nth i l d) (nth j l d)) <-> StronglySorted R0 l.
Proof.
  split.
  - induction l as [|x l IH]; intros H; constructor.
    + apply IH. intros i j Hij. apply (H (S i) (S j)). simpl. lia.
    + apply Forall_forall. intros y Hy. destruct (In_nth _ _ d Hy) as (j & Hj & <-). apply (H 0%nat (S j)). simpl. lia.
  - induction 1 as [|x l _ IH F]; intros i j Hij; [simpl in Hij; lia|]. destruct j as [|j]; [lia|]. destruct i as [|i]; simpl.
    + rewrite Forall_forall in F. apply F, nth_In. simpl in Hij. lia.
    + apply IH. simpl in Hij. lia.
Qed.
Lemma strong_filter {A} (R0 : A -> A -> Prop) P l : StronglySorted R0 l -> StronglySorted R0 (filter P l).
Proof.
  induction 1 as [|x l _ IH F]; simpl; [constructor|]. destruct (P x); auto. constructor; auto. rewrite Forall_forall in *. intros y Hy. apply filter_In in Hy as [Hy _]. auto.
Qed.
Lemma filter_flat {A B} (P : B -> bool) (f : A -> list B) l : filter P (flat_map f l) = flat_map (fun x => filter P (f x)) l.
Proof. induction l as [|x l IH]; simpl; auto. rewrite filter_app, IH. reflexivity. Qed.
Lemma perm_flat {A B} (f g : A -> list B) l : (forall x, In x l -> Permutation (f x) (g x)) -> Permutation (flat_map f l) (flat_map g l).
Proof. induction l as [|x l IH]; simpl; intros H; auto. apply Permutation_app; [apply H|apply IH]; auto. Qed.

(** Selecting from a neighbour list gives the list of the query that asks for the selected bonds. *)
Lemma selected (be be' : backend) (b : box) (points qs : list vec3) (p p' : pyargs) (r r' : R) (P : bond -> bool) (ls ls' : list (list bond)) (by_d : bool) (ev ev2 ev' ev2' : list (nat * nat)) (nl nl' : nlist) :
  setting b points qs p r -> setting b points qs p' r' -> usable be b points -> usable be' b points ->
  (forall i x, in_range b points (nth i qs v0) i r' (or_else (pa_rmin p') 0) (or_else (pa_excl p') false) all_images x <-> in_range b points (nth i qs v0) i r (or_else (pa_rmin p) 0) (or_else (pa_excl p) false) all_images x /\ P x = true) ->
  py_query be b points qs p (Some ls) -> py_query be' b points qs p' (Some ls') ->
  execution 0 (length qs) ev -> execution 0 (length (nl_bonds nl)) ev2 -> execution 0 (length qs) ev' -> execution 0 (length (nl_bonds nl')) ev2' ->
  to_neighbor_list by_d (length qs) (length points) (fun i => nth i ls []) ev ev2 nl -> to_neighbor_list by_d (length qs) (length points) (fun i => nth i ls' []) ev' ev2' nl' ->
  filter P (nl_bonds nl) = nl_bonds nl'.
Proof.
  intros St St' U U' HPP Q Q' X1 X2 X3 X4 T T'.
  destruct (C32_ball be b points qs p r St U) as (l1 & E & L & H). apply E in Q. injection Q as <-. clear E.
  destruct (C32_ball be' b points qs p' r' St' U') as (l2 & E & L' & H'). apply E in Q'. injection Q' as <-. clear E.
  destruct (to_neighbor_list_spec _ _ _ _ _ _ _ X1 X2 T) as (_ & _ & _ & HP & HO). destruct (to_neighbor_list_spec _ _ _ _ _ _ _ X3 X4 T') as (_ & _ & _ & HP' & HO').
  destruct St' as [Hb FP Hne Hn HPt Hqne HQ S W A R0 R1 RO].
  assert (RB : forall q qi rr rm ex y, in_range b points q qi rr rm ex all_images y -> rebuild y = y /\ bq y = qi) by (intros q qi rr rm ex y (j & i1 & i2 & i3 & _ & _ & _ & _ & _ & ->); split; reflexivity).
  assert (MP : forall ll rr rm ex, (forall i, (i < length qs)%nat -> NoDup (nth i ll []) /\ forall x, In x (nth i ll []) <-> in_range b points (nth i qs v0) i rr rm ex all_images x) ->
    map rebuild (flat_map (fun i => nth i ll []) (range 0 (length qs))) = flat_map (fun i => nth i ll []) (range 0 (length qs))).
  { intros ll rr rm ex G. rewrite <- map_id. apply map_ext_in. intros y Hy. apply in_flat_map in Hy as (i & Hi & Hy). unfold range in Hi. apply in_seq in Hi. destruct (G i ltac:(lia)) as [_ I]. apply I in Hy. apply (RB _ _ _ _ _ _ Hy). }
  rewrite (MP _ _ _ _ H) in HP. rewrite (MP _ _ _ _ H') in HP'. clear MP.
  assert (MEM : forall x, In x (nl_bonds nl') -> (bq x < length qs)%nat /\ in_range b points (nth (bq x) qs v0) (bq x) r' (or_else (pa_rmin p') 0) (or_else (pa_excl p') false) all_images x).
  { intros x Hx. apply (Permutation_in _ (Permutation_sym HP')) in Hx. apply in_flat_map in Hx as (i & Hi & Hx). unfold range in Hi. apply in_seq in Hi. destruct (H' i ltac:(lia)) as [_ I]. apply I in Hx. destruct (RB _ _ _ _ _ _ Hx) as [_ ->]. split; [lia|auto]. }
  assert (PP : Permutation (filter P (nl_bonds nl)) (nl_bonds nl')).
  { rewrite <- HP'. transitivity (filter P (flat_map (fun i => nth i ls []) (range 0 (length qs)))).
    - apply Permutation_sym in HP. clear - HP. induction HP as [|x l l' _ IH|x y l|l m n _ IH _ IH']; simpl; auto; [destruct (P x); auto|destruct (P x), (P y); auto; apply perm_swap|eapply Permutation_trans; eauto].
    - rewrite filter_flat. apply perm_flat. intros i Hi. unfold range in Hi. apply in_seq in Hi. destruct (H i ltac:(lia)) as [N I]. destruct (H' i ltac:(lia)) as [N' I'].
      apply NoDup_Permutation; auto; [apply NoDup_filter; auto|]. intros x. rewrite filter_In, I, I'. symmetry. apply HPP. }
  apply (sort_unique (if by_d then less_as_distance else less_as_tuple)); auto.
  - set (lt := if by_d then less_as_distance else less_as_tuple) in *. apply (sorted_strong (fun x y => lt y x = false) bond0). apply strong_filter. apply (sorted_strong (fun x y => lt y x = false) bond0). exact HO.
  - intros x y Hx Hy Lxy Lyx. apply (Permutation_in _ PP) in Hx, Hy. destruct (MEM x Hx) as [Bx Ix]. destruct (MEM y Hy) as [By Iy].
    assert (E : bq x = bq y /\ bp x = bp y).
    { clear - Lxy Lyx. destruct by_d; [unfold less_as_distance in *|unfold less_as_tuple in *];
        destruct (Nat.eqb_spec (bq x) (bq y)) as [E1|E1], (Nat.eqb_spec (bq y) (bq x)) as [E2|E2]; cbn [negb] in *; try lia;
        try (apply Nat.ltb_ge in Lxy, Lyx; lia); split; auto.
      - destruct (Reqb_spec (bd x) (bd y)) as [E3|E3], (Reqb_spec (bd y) (bd x)) as [E4|E4]; cbn [negb] in *; try congruence.
        + destruct (Nat.eqb_spec (bp x) (bp y)) as [E5|E5], (Nat.eqb_spec (bp y) (bp x)) as [E6|E6]; cbn [negb] in *; try lia. apply Nat.ltb_ge in Lxy, Lyx. lia.
        + apply Rltb_false in Lxy, Lyx. lra.
      - destruct (Nat.eqb_spec (bp x) (bp y)) as [E5|E5], (Nat.eqb_spec (bp y) (bp x)) as [E6|E6]; cbn [negb] in *; try lia. apply Nat.ltb_ge in Lxy, Lyx. lia. }
    destruct E as [Eq Ep]. rewrite <- Eq in Iy. eapply one_bond; [exact Hb|exact HPt| |exact RO|exact Ix|exact Iy|exact Ep]. apply HQ, nth_In; auto.
Qed.

(** filter_r of the list of a ball query is the list of the narrower query, bond by bond, whatever the backends. *)
Theorem C94_filter_r be be' b points qs p p' r r' ls ls' by_d ev ev2 ev' ev2' nl nl' : setting b points qs p r -> setting b points qs p' r' -> usable be b points -> usable be' b points -> narrower p p' r r' ->
  py_query be b points qs p (Some ls) -> py_query be' b points qs p' (Some ls') ->
  execution 0 (length qs) ev -> execution 0 (length (nl_bonds nl)) ev2 -> execution 0 (length qs) ev' -> execution 0 (length (nl_bonds nl')) ev2' ->
  to_neighbor_list by_d (length qs) (length points) (fun i => nth i ls []) ev ev2 nl -> to_neighbor_list by_d (length qs) (length points) (fun i => nth i ls' []) ev' ev2' nl' ->
  exists nlf k, nl_filter_r nl r' (or_else (pa_rmin p') 0) = Some (nlf, k) /\ nl_bonds nlf = nl_bonds nl' /\ nl_nq nlf = nl_nq nl' /\ nl_np nlf = nl_np nl'.
Proof.
  intros St St' U U' (N1 & N2 & N3) Q Q' X1 X2 X3 X4 T T'. destruct (C20_filter_r nl r' (or_else (pa_rmin p') 0)) as (nlf & k & F & B & Eq & Ep & _); [destruct St'; lra|].
  exists nlf, k. split; [exact F|]. destruct (to_neighbor_list_spec _ _ _ _ _ _ _ X1 X2 T) as (A1 & A2 & _). destruct (to_neighbor_list_spec _ _ _ _ _ _ _ X3 X4 T') as (A3 & A4 & _). split; [|split; congruence].
  rewrite B. eapply (selected be be' b points qs p p' r r' _ ls ls' by_d ev ev2 ev' ev2' nl nl'); eauto. intros i x. rewrite N3. split.
  - intros (j & i1 & i2 & i3 & Hj & Al & Im & Ex & [D1 D2] & ->). split; [exists j, i1, i2, i3; split; [exact Hj|]; split; [exact Al|]; split; [exact Im|]; split; [exact Ex|]; split; [lra|reflexivity]|]. cbn [bd]. apply andb_true_intro. split; [apply Rleb_true|apply Rltb_true]; auto.
  - intros [(j & i1 & i2 & i3 & Hj & Al & Im & Ex & [D1 D2] & ->) P]. cbn [bd] in P. apply andb_prop in P as [P1 P2]. apply Rleb_true in P1. apply Rltb_true in P2. exists j, i1, i2, i3. split; [exact Hj|]. split; [exact Al|]. split; [exact Im|]. split; [exact Ex|]. split; [lra|reflexivity].
Qed.
(** Removing the bonds of every point with itself by filter is what exclude_ii does. *)
Theorem C94_exclude_ii be be' b points qs p p' r ls ls' by_d ev ev2 ev' ev2' nl nl' : setting b points qs p r -> setting b points qs p' r -> usable be b points -> usable be' b points -> excluding p p' ->
  py_query be b points qs p (Some ls) -> py_query be' b points qs p' (Some ls') ->
  execution 0 (length qs) ev -> execution 0 (length (nl_bonds nl)) ev2 -> execution 0 (length qs) ev' -> execution 0 (length (nl_bonds nl')) ev2' ->
  to_neighbor_list by_d (length qs) (length points) (fun i => nth i ls []) ev ev2 nl -> to_neighbor_list by_d (length qs) (length points) (fun i => nth i ls' []) ev' ev2' nl' ->
  exists nlf k, nl_filter nl (map (fun x => negb (bq x =? bp x)%nat) (nl_bonds nl)) = Some (nlf, k) /\ nl_bonds nlf = nl_bonds nl' /\ nl_nq nlf = nl_nq nl' /\ nl_np nlf = nl_np nl'.
Proof.
  intros St St' U U' (N1 & N2 & N3) Q Q' X1 X2 X3 X4 T T'. destruct (C20_filter nl (map (fun x => negb (bq x =? bp x)%nat) (nl_bonds nl))) as (nlf & k & F & B & Eq & Ep & _); [apply map_length|].
  exists nlf, k. split; [exact F|]. destruct (to_neighbor_list_spec _ _ _ _ _ _ _ X1 X2 T) as (A1 & A2 & _). destruct (to_neighbor_list_spec _ _ _ _ _ _ _ X3 X4 T') as (A3 & A4 & _). split; [|split; congruence].
  rewrite B. transitivity (filter (fun x => negb (bq x =? bp x)%nat) (nl_bonds nl)).
  { clear. induction (nl_bonds nl) as [|x l IH]; simpl; auto. destruct (negb _); simpl; congruence. }
  apply (selected be be' b points qs p p' r r (fun x => negb (bq x =? bp x)%nat) ls ls' by_d ev ev2 ev' ev2' nl nl'); auto. intros i x. rewrite N1, N2, N3. split.
  - intros (j & i1 & i2 & i3 & Hj & Al & Im & Ex & D & ->). split; [exists j, i1, i2, i3; split; [exact Hj|]; split; [exact Al|]; split; [exact Im|]; split; [intros [? _]; discriminate|]; split; [exact D|reflexivity]|]. cbn [bq bp]. destruct (Nat.eqb_spec i j); [exfalso; auto|reflexivity].
  - intros [(j & i1 & i2 & i3 & Hj & Al & Im & Ex & D & ->) P]. cbn [bq bp] in P. destruct (Nat.eqb_spec i j); [discriminate|]. exists j, i1, i2, i3. split; [exact Hj|]. split; [exact Al|]. split; [exact Im|]. split; [intros [_ ?]; auto|]. split; [exact D|reflexivity].
Qed.
Print Assumptions C94_filter_r.
Print Assumptions C94_exclude_ii.
