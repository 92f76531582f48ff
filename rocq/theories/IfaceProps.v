(** C72: particles at an interface. *)
From Verif Require Import RBase Vec BoxProofs ParProofs MArrayProofs NListProofs NListProofs2 VoronoiProofs2 VoronoiProps FilterProps AABBProps LinkCellProps CellQueryProps QueryProps.
From Coq Require Import Reals ZArith List Lra Lia Bool Arith Permutation Sorted.
From Verif Require Import QueryArgSpec IfaceSpec.
Import ListNotations.
Local Open Scope R_scope.

Lemma insert_in x l i : In i (insert_unique x l) <-> i = x \/ In i l.
Proof.
  induction l as [|y l IH]; cbn [insert_unique]; [simpl; intuition|]. destruct (Nat.ltb_spec x y); [simpl; intuition|]. destruct (Nat.eqb_spec x y) as [->|]; [simpl; intuition|].
  simpl. rewrite IH. intuition.
Qed.
Lemma insert_sorted x l : StronglySorted lt l -> StronglySorted lt (insert_unique x l).
Proof.
  induction 1 as [|y l S IH F]; cbn [insert_unique]; [repeat constructor|]. destruct (Nat.ltb_spec x y) as [L|L].
  - constructor; [constructor; assumption|]. constructor; [exact L|]. apply Forall_forall. intros z Z. rewrite Forall_forall in F. specialize (F z Z). lia.
  - destruct (Nat.eqb_spec x y) as [->|N]; [constructor; assumption|]. constructor; [exact IH|]. apply Forall_forall. intros z Z. apply insert_in in Z as [->|Z]; [lia|]. rewrite Forall_forall in F. auto.
Qed.
Lemma unique_set l : lists_set (np_unique l) (fun i => In i l).
Proof.
  induction l as [|x l [S I]]; [split; [constructor|intros; reflexivity]|]. unfold np_unique in *. cbn [fold_right]. split; [apply insert_sorted; exact S|].
  intros i. rewrite insert_in, I. simpl. intuition.
Qed.
Lemma sets_equal l l' P Q : lists_set l P -> lists_set l' Q -> (forall i, P i <-> Q i) -> l = l'.
Proof.
  intros [S I] [S' I'] E. assert (M : forall i, In i l <-> In i l') by (intros i; rewrite I, I', E; reflexivity). clear I I' E P Q. revert l' S' M. induction S as [|x l S IH F]; intros [|y l'] S' M; auto.
  - destruct (proj2 (M y) (or_introl eq_refl)).
  - destruct (proj1 (M x) (or_introl eq_refl)).
  - inversion S' as [|? ? S2 F2]; subst. rewrite Forall_forall in F, F2. assert (x = y) as ->.
    { destruct (proj1 (M x) (or_introl eq_refl)) as [->|A]; auto. destruct (proj2 (M y) (or_introl eq_refl)) as [->|B]; auto. specialize (F _ B). specialize (F2 _ A). lia. }
    f_equal. apply IH; auto. intros i. split; intros A.
    + destruct (proj1 (M i) (or_intror A)) as [->|B]; auto. specialize (F _ A). lia.
    + destruct (proj2 (M i) (or_intror A)) as [->|B]; auto. specialize (F2 _ A). lia.
Qed.
(** ** Any neighbour list *)
(** The ids are the indices that occur in the list, sorted and without repetition; the counts are their numbers. *)
Theorem C72_list be b points qs nl ev ev2 o out : iface_compute be b points qs (NList nl) ev ev2 o out ->
  exists o', out = IFDone o' /\ lists_set (if_point_ids o') (fun j => exists x, In x (nl_bonds nl) /\ bp x = j) /\
    lists_set (if_query_point_ids o') (fun i => exists x, In x (nl_bonds nl) /\ bq x = i) /\
    (valid_bonds (nl_nq nl) (nl_np nl) (nl_bonds nl) -> (point_count o' <= nl_np nl)%nat /\ (query_point_count o' <= nl_nq nl)%nat) /\
    (point_count o' = 0%nat <-> nl_bonds nl = []) /\ (query_point_count o' = 0%nat <-> nl_bonds nl = []).
Proof.
  intros (nlo & -> & ->). eexists. split; [reflexivity|]. cbn [if_point_ids if_query_point_ids]. unfold point_count, query_point_count. cbn [if_point_ids if_query_point_ids].
  assert (Gm : forall f : bond -> nat, lists_set (np_unique (map f (nl_bonds nl))) (fun j => exists x, In x (nl_bonds nl) /\ f x = j)).
  { intros f. destruct (unique_set (map f (nl_bonds nl))) as [S I]. split; [exact S|]. intros i. rewrite I, in_map_iff. split; intros (x & A & B); exists x; auto. }
  assert (Le : forall l n, StronglySorted lt l -> (forall i, In i l -> (i < n)%nat) -> (length l <= n)%nat).
  { intros l n S H. rewrite <- (seq_length n 0). apply NoDup_incl_length.
    - clear H. induction S as [|x l S IH F]; constructor; auto. intros H. rewrite Forall_forall in F. specialize (F x H). lia.
    - intros i I. apply in_seq. specialize (H i I). lia. }
  assert (Z : forall f : bond -> nat, length (np_unique (map f (nl_bonds nl))) = 0%nat <-> nl_bonds nl = []).
  { intros f. destruct (Gm f) as [_ I]. split; [|intros ->; reflexivity]. intros L. apply length_zero_iff_nil in L. destruct (nl_bonds nl) as [|x l]; [reflexivity|].
    exfalso. assert (A : In (f x) (np_unique (map f (x :: l)))) by (apply I; exists x; split; [left; reflexivity|reflexivity]). rewrite L in A. destruct A. }
  split; [apply Gm|]. split; [apply Gm|]. split; [|split; apply Z]. intros [_ V]. split; apply Le; try apply Gm; intros i I; apply Gm in I as (x & X & <-); apply (V x X).
Qed.
(** ** A cutoff *)
Lemma setting_excl b points qs p r e : setting b points qs p r -> setting b points qs (set_default_excl p e) r.
Proof. intros [A1 A2 A3 A4 A5 A6 A7 A8 A9 A10 A11 A12 A13]. split; auto. Qed.
Lemma allowed_neg b i j k : allowed b i j k -> allowed b (- i) (- j) (- k).
Proof. intros (A & B & C & D). repeat split; intros H; [rewrite (A H)|rewrite (B H)|rewrite (C H)|rewrite (D H)]; reflexivity. Qed.
(** [excl]: whether equal indices are left out. *)
Definition at_interface (excl : bool) (b : box) (points qs : list vec3) r_min r_max (i j : nat) : Prop := close b points qs r_min r_max i j /\ ~ (excl = true /\ i = j).
Lemma bonds_of be b points qs p r ls ev ev2 nl : setting b points qs p r -> usable be b points -> py_query be b points qs p (Some ls) ->
  execution 0 (length qs) ev -> execution 0 (length (nl_bonds nl)) ev2 -> to_neighbor_list false (length qs) (length points) (fun i => nth i ls []) ev ev2 nl ->
  forall i j, (exists x, In x (nl_bonds nl) /\ bq x = i /\ bp x = j) <-> at_interface (or_else (pa_excl p) false) b points qs (or_else (pa_rmin p) 0) r i j.
Proof.
  intros St U Q X1 X2 T i j. destruct (C32_ball be b points qs p r St U) as (l1 & E & L & H). apply E in Q. injection Q as <-. destruct (to_neighbor_list_spec _ _ _ _ _ _ _ X1 X2 T) as (_ & _ & _ & HP & _).
  assert (Fl : forall x, In x points \/ In x qs -> flat b x = x) by (intros x [I|I]; apply flat_id, in_cell_space; try exact (st_pos _ _ _ _ _ St); [exact (st_pts _ _ _ _ _ St x I)|exact (st_qs _ _ _ _ _ St x I)]).
  assert (SE : forall i j i1 i2 i3, (i < length qs)%nat -> (j < length points)%nat -> sep b points (nth i qs v0) j i1 i2 i3 = vsub (nth j points v0) (vadd (nth i qs v0) (shift b i1 i2 i3))).
  { intros i0 j0 i1 i2 i3 A B. unfold sep. rewrite !Fl; auto; [right|left]; apply nth_In; assumption. }
  split.
  - intros (x & I & <- & <-). apply (Permutation_in _ (Permutation_sym HP)) in I. apply in_map_iff in I as (y & <- & Hy). apply in_flat_map in Hy as (i' & Hi & Hy). unfold range in Hi. apply in_seq in Hi.
    destruct (H i' ltac:(lia)) as [_ Ix]. apply Ix in Hy. destruct Hy as (j' & i1 & i2 & i3 & A & B & _ & D & F & ->). cbn [rebuild bond_of_vector bq bp]. rewrite SE in F by (auto; lia).
    split; [|exact D]. split; [lia|]. split; [exact A|]. exists i1, i2, i3. auto.
  - intros ((A & B & i1 & i2 & i3 & C & D) & F). destruct (H i A) as [_ Ix]. rewrite <- SE in D by assumption.
    exists (rebuild (Bond i j (norm (sep b points (nth i qs v0) j i1 i2 i3)) 1 (sep b points (nth i qs v0) j i1 i2 i3))). split; [|split; reflexivity].
    apply (Permutation_in _ HP), in_map, in_flat_map. exists i. split; [unfold range; apply in_seq; lia|]. apply Ix. exists j, i1, i2, i3. repeat split; auto; apply C || apply D.
Qed.
Definition queries (points : list vec3) (qs : option (list vec3)) : list vec3 := match qs with Some l => l | None => points end.
(** [ev2] schedules the copy of as many bonds as were found. *)
Definition scheduled be b points qs p ev ev2 : Prop := execution 0 (length (queries points qs)) ev /\
  forall nl, py_default_nlist be b points (NDict p) qs ev ev2 (NLList nl) -> execution 0 (length (nl_bonds nl)) ev2.
(** With a cutoff: the points (query points) that have a query point (point), image of any kind, at a distance in [r_min, r_max); equal indices are left out only
    if asked for, or by default if no query points are given. *)
Theorem C72_ball be b points qs p r ev ev2 o out : setting b points (queries points qs) p r -> usable be b points -> scheduled be b points qs p ev ev2 ->
  iface_compute be b points qs (NDict p) ev ev2 o out ->
  let excl := or_else (pa_excl p) (match qs with None => true | Some _ => false end) in let rel := at_interface excl b points (queries points qs) (or_else (pa_rmin p) 0) r in
  exists o', out = IFDone o' /\ lists_set (if_point_ids o') (fun j => exists i, rel i j) /\ lists_set (if_query_point_ids o') (fun i => exists j, rel i j).
Proof.
  intros St U [X1 X2] (nlo & D & R). assert (D0 := D). cbn [py_default_nlist] in D. set (e := match qs with None => true | Some _ => false end) in *. fold (queries points qs) in D.
  destruct D as (res & Q & D). assert (St' := setting_excl _ _ _ _ _ e St). destruct (C32_ball be b points _ _ r St' U) as (l1 & E & _). assert (res = Some l1) as -> by (apply E, Q). destruct D as (nl & T & ->).
  assert (B := bonds_of be b points _ _ r l1 ev ev2 nl St' U Q X1 (X2 nl D0) T). intros excl rel.
  assert (G : forall i j, (exists x, In x (nl_bonds nl) /\ bq x = i /\ bp x = j) <-> rel i j).
  { intros i j. rewrite B. unfold rel, excl. destruct p; cbn. destruct pa_excl; reflexivity. }
  eexists. split; [exact R|]. cbn [if_point_ids if_query_point_ids]. split.
  - destruct (unique_set (map bp (nl_bonds nl))) as [S I]. split; [exact S|]. intros j. rewrite I, in_map_iff. split.
    + intros (x & <- & X). exists (bq x). apply G. exists x. auto.
    + intros (i & Hij). apply G in Hij as (x & X & _ & Y). exists x. auto.
  - destruct (unique_set (map bq (nl_bonds nl))) as [S I]. split; [exact S|]. intros i. rewrite I, in_map_iff. split.
    + intros (x & <- & X). exists (bp x). apply G. exists x. auto.
    + intros (j & Hij). apply G in Hij as (x & X & Y & _). exists x. auto.
Qed.
(** Such a computation exists: none of the hypotheses is vacuous. *)
Lemma tuple_asym x y : less_as_tuple x y = true -> less_as_tuple y x = false.
Proof.
  unfold less_as_tuple. rewrite (Nat.eqb_sym (bq y)), (Nat.eqb_sym (bp y)). destruct (Nat.eqb_spec (bq x) (bq y)); cbn [negb]; [|rewrite Nat.ltb_lt, Nat.ltb_ge; lia].
  destruct (Nat.eqb_spec (bp x) (bp y)); cbn [negb]; [|rewrite Nat.ltb_lt, Nat.ltb_ge; lia].
  destruct (Reqb_spec (bw x) (bw y)), (Reqb_spec (bw y) (bw x)); cbn [negb]; rewrite Rltb_true, Rltb_false; lra.
Qed.
Lemma tuple_lex x y : less_as_tuple y x = false <-> (bq x < bq y)%nat \/ (bq x = bq y /\ ((bp x < bp y)%nat \/ (bp x = bp y /\ (bw x < bw y \/ (bw x = bw y /\ bd x <= bd y))))).
Proof.
  unfold less_as_tuple. destruct (Nat.eqb_spec (bq y) (bq x)); cbn [negb]; [|rewrite Nat.ltb_ge; lia]. destruct (Nat.eqb_spec (bp y) (bp x)); cbn [negb]; [|rewrite Nat.ltb_ge; lia].
  destruct (Reqb_spec (bw y) (bw x)); cbn [negb]; rewrite Rltb_false; split.
  - intros H. right. split; [lia|]. right. split; [lia|]. right. split; [lra|exact H].
  - intros [H|[_ [H|[_ [H|[_ H]]]]]]; try lia; lra.
  - intros H. right. split; [lia|]. right. split; [lia|]. left. lra.
  - intros [H|[_ [H|[_ [H|[H _]]]]]]; try lia; lra.
Qed.
Lemma tuple_trans x y z : less_as_tuple y x = false -> less_as_tuple z y = false -> less_as_tuple z x = false.
Proof.
  rewrite !tuple_lex. intros [A|[A [B|[B [C|[C D]]]]]] [A'|[A' [B'|[B' [C'|[C' D']]]]]]; try (left; lia); right; (split; [lia|]); try (left; lia); right; (split; [lia|]); try (left; lra). right. split; lra.
Qed.
Theorem C72_total be b points qs p r o : setting b points (queries points qs) p r -> usable be b points ->
  exists ev ev2 o', scheduled be b points qs p ev ev2 /\ iface_compute be b points qs (NDict p) ev ev2 o (IFDone o').
Proof.
  intros St U. set (e := match qs with None => true | Some _ => false end). assert (St' := setting_excl _ _ _ _ _ e St). destruct (C32_ball be b points _ _ r St' U) as (l1 & E & _).
  set (n := length (queries points qs)). set (bs := map rebuild (flat_map (fun i => nth i l1 []) (range 0 n))).
  set (locs := run_local [] (fun i acc => acc ++ map rebuild (nth i l1 [])) (seq_ev n) []).
  destruct (sort_exists less_as_tuple tuple_asym tuple_trans (flat_map snd locs)) as (l' & P & S).
  assert (SR : sort_result less_as_tuple (flat_map snd locs) l') by (split; [exact P|]; intros i j L; exact (fop_nth _ bond0 l' S i j L)).
  set (ev2 := seq_ev (length l')). set (nl := NL n (length points) (fold_left (fun a e => upd a (snd e) (nth (snd e) l' bond0)) ev2 (repeat bond0 (length l'))) false [] []).
  assert (T : to_neighbor_list false n (length points) (fun i => nth i l1 []) (seq_ev n) ev2 nl) by (exists l'; split; [exact SR|reflexivity]).
  assert (Len : forall nl0, to_neighbor_list false n (length points) (fun i => nth i l1 []) (seq_ev n) ev2 nl0 -> length (nl_bonds nl0) = length l').
  { intros nl0 (l2 & [P2 _] & ->). cbn [nl_bonds]. fold locs in P2. assert (L2 : length l2 = length l') by (rewrite <- (Permutation_length P), (Permutation_length P2); reflexivity).
    assert (G : forall ev (arr : list bond), length (fold_left (fun a (e : nat * nat) => upd a (snd e) (nth (snd e) l2 bond0)) ev arr) = length arr) by (induction ev; intros; simpl; auto; rewrite IHev, upd_length; auto).
    rewrite G, repeat_length. exact L2. }
  exists (seq_ev n), ev2. eexists. split.
  - split; [apply seq_ev_exec|]. intros nl0 (res & Q & D). fold e in Q. assert (res = Some l1) as -> by (apply E, Q). destruct D as (nl1 & T1 & D). injection D as ->. rewrite (Len nl1 T1). apply seq_ev_exec.
  - exists (NLList nl). split; [|reflexivity]. exists (Some l1). fold e. split; [apply E; reflexivity|]. exists nl. split; [exact T|reflexivity].
Qed.
(** Whatever the backend and the schedules, the same ids. *)
Theorem C72_same be be' b points qs p r ev ev2 ev' ev2' o o' out out' : setting b points (queries points qs) p r -> usable be b points -> usable be' b points ->
  scheduled be b points qs p ev ev2 -> scheduled be' b points qs p ev' ev2' -> iface_compute be b points qs (NDict p) ev ev2 o out -> iface_compute be' b points qs (NDict p) ev' ev2' o' out' -> out = out'.
Proof.
  intros St U U' X X' A B. destruct (C72_ball _ _ _ _ _ _ _ _ _ _ St U X A) as (o1 & -> & P1 & Q1). destruct (C72_ball _ _ _ _ _ _ _ _ _ _ St U' X' B) as (o2 & -> & P2 & Q2).
  f_equal. destruct o1, o2. f_equal; [apply (sets_equal _ _ _ _ P1 P2)|apply (sets_equal _ _ _ _ Q1 Q2)]; reflexivity.
Qed.
Lemma close_swap b points qs r0 r1 i j : close b points qs r0 r1 i j <-> close b qs points r0 r1 j i.
Proof.
  assert (G : forall ps ks i j, close b ps ks r0 r1 i j -> close b ks ps r0 r1 j i).
  { intros ps ks i0 j0 (A & B & i1 & i2 & i3 & C & D). split; [exact B|]. split; [exact A|]. exists (- i1)%Z, (- i2)%Z, (- i3)%Z. split; [apply allowed_neg; exact C|].
    replace (norm (vsub (nth i0 ks v0) (vadd (nth j0 ps v0) (shift b (- i1) (- i2) (- i3))))) with (norm (vsub (nth j0 ps v0) (vadd (nth i0 ks v0) (shift b i1 i2 i3)))); [exact D|].
    unfold norm. f_equal. replace (shift b (- i1) (- i2) (- i3)) with (vneg (shift b i1 i2 i3)).
    - unfold dot. destruct (nth j0 ps v0), (nth i0 ks v0), (shift b i1 i2 i3). simpl. ring.
    - unfold shift, comb. rewrite !opp_IZR. vec_ring. }
  split; apply G.
Qed.
(** Exchanging the two sets exchanges the answers. *)
Theorem C72_exchange be be' b ps ks p r ev ev2 ev' ev2' o o' r1 r2 : setting b ps ks p r -> setting b ks ps p r -> usable be b ps -> usable be' b ks ->
  scheduled be b ps (Some ks) p ev ev2 -> scheduled be' b ks (Some ps) p ev' ev2' ->
  iface_compute be b ps (Some ks) (NDict p) ev ev2 o (IFDone r1) -> iface_compute be' b ks (Some ps) (NDict p) ev' ev2' o' (IFDone r2) ->
  if_point_ids r1 = if_query_point_ids r2 /\ if_query_point_ids r1 = if_point_ids r2.
Proof.
  intros S1 S2 U1 U2 X1 X2 A B. destruct (C72_ball _ _ _ (Some ks) _ _ _ _ _ _ S1 U1 X1 A) as (o1 & E1 & P1 & Q1). destruct (C72_ball _ _ _ (Some ps) _ _ _ _ _ _ S2 U2 X2 B) as (o2 & E2 & P2 & Q2).
  injection E1 as <-. injection E2 as <-. cbn [queries] in *. split.
  - apply (sets_equal _ _ _ _ P1 Q2). intros j. split; intros (i & [C D]); exists i; (split; [apply close_swap; exact C|intros [? ?]; apply D; auto]).
  - apply (sets_equal _ _ _ _ Q1 P2). intros j. split; intros (i & [C D]); exists i; (split; [apply close_swap; exact C|intros [? ?]; apply D; auto]).
Qed.
(** Without query points both answers are the points that have another point (or, unless excluded, an image of themselves) in range. *)
Theorem C72_self be b points p r ev ev2 o r1 : setting b points points p r -> usable be b points -> scheduled be b points None p ev ev2 ->
  iface_compute be b points None (NDict p) ev ev2 o (IFDone r1) -> if_point_ids r1 = if_query_point_ids r1.
Proof.
  intros S1 U1 X1 A. destruct (C72_ball _ _ _ None _ _ _ _ _ _ S1 U1 X1 A) as (o1 & E1 & P1 & Q1). injection E1 as <-. cbn [queries] in *.
  apply (sets_equal _ _ _ _ P1 Q1). intros j. split; intros (i & [C D]); exists i; (split; [apply close_swap; exact C|intros [? ?]; apply D; auto]).
Qed.
(** A larger cutoff (or a smaller r_min) never loses a particle. *)
Theorem C72_monotone be be' b points qs p p' r r' ev ev2 ev' ev2' o o' r1 r2 : setting b points (queries points qs) p r -> setting b points (queries points qs) p' r' -> usable be b points -> usable be' b points ->
  scheduled be b points qs p ev ev2 -> scheduled be' b points qs p' ev' ev2' -> pa_excl p = pa_excl p' -> or_else (pa_rmin p') 0 <= or_else (pa_rmin p) 0 -> r <= r' ->
  iface_compute be b points qs (NDict p) ev ev2 o (IFDone r1) -> iface_compute be' b points qs (NDict p') ev' ev2' o' (IFDone r2) ->
  incl (if_point_ids r1) (if_point_ids r2) /\ incl (if_query_point_ids r1) (if_query_point_ids r2) /\ (point_count r1 <= point_count r2)%nat /\ (query_point_count r1 <= query_point_count r2)%nat.
Proof.
  intros S1 S2 U1 U2 X1 X2 Ex Rm Rr A B. destruct (C72_ball _ _ _ _ _ _ _ _ _ _ S1 U1 X1 A) as (o1 & E1 & P1 & Q1). destruct (C72_ball _ _ _ _ _ _ _ _ _ _ S2 U2 X2 B) as (o2 & E2 & P2 & Q2).
  injection E1 as <-. injection E2 as <-. rewrite <- Ex in P2, Q2. set (ex := or_else (pa_excl p) _) in *.
  assert (M : forall i j, at_interface ex b points (queries points qs) (or_else (pa_rmin p) 0) r i j -> at_interface ex b points (queries points qs) (or_else (pa_rmin p') 0) r' i j).
  { intros i j ((C1 & C2 & i1 & i2 & i3 & C3 & C4) & D). split; [|exact D]. split; [exact C1|]. split; [exact C2|]. exists i1, i2, i3. split; [exact C3|lra]. }
  assert (I1 : incl (if_point_ids r1) (if_point_ids r2)) by (intros j J; apply P1 in J as (i & J); apply P2; exists i; auto).
  assert (I2 : incl (if_query_point_ids r1) (if_query_point_ids r2)) by (intros j J; apply Q1 in J as (i & J); apply Q2; exists i; auto).
  assert (ND : forall l P, lists_set l P -> NoDup l).
  { intros l P [S _]. clear P. induction S as [|x l S IH F]; constructor; auto. intros H. rewrite Forall_forall in F. specialize (F x H). lia. }
  split; [exact I1|]. split; [exact I2|]. split; apply NoDup_incl_length; auto; eapply ND; eassumption.
Qed.
(** ** Refutations *)
(** The documented default [neighbors=None] raises for every system. *)
Theorem C72_default_refuted be b points qs ev ev2 o out : iface_compute be b points qs NNone ev ev2 o out -> out = IFRaised.
Proof. intros (nlo & -> & ->). reflexivity. Qed.
(** A neighbour list of another system is accepted; the ids then name no points of the given one. *)
Theorem C72_unchecked_refuted : exists nl, nl_inv nl /\ forall be b points qs ev ev2 o, (length points <= 3)%nat ->
  exists o', iface_compute be b points qs (NList nl) ev ev2 o (IFDone o') /\ exists j, In j (if_point_ids o') /\ (length points <= j)%nat.
Proof.
  exists (NL 1 4 [Bond 0 3 1 1 (V3 1 0 0)] false [] []). split.
  - split; [|discriminate]. split.
    + intros i j H. simpl in H. lia.
    + intros x [<-|[]]. simpl. lia.
  - intros be b points qs ev ev2 o L. eexists. split; [eexists; split; [reflexivity|reflexivity]|]. exists 3%nat. split; [left; reflexivity|exact L].
Qed.
(** Two points of the cube of side 10, 2 apart across its boundary, and a query point at the first: with equal indices excluded only the second counts. *)
Example C72_ex : exists ev ev2 o', setting ex_cube [V3 (-4) 0 0; V3 4 0 0] [V3 (-4) 0 0] ex_args 3 /\
  scheduled BRaw ex_cube [V3 (-4) 0 0; V3 4 0 0] (Some [V3 (-4) 0 0]) ex_args ev ev2 /\
  iface_compute BRaw ex_cube [V3 (-4) 0 0; V3 4 0 0] (Some [V3 (-4) 0 0]) (NDict ex_args) ev ev2 iface_new (IFDone o') /\ if_point_ids o' = [1%nat] /\ if_query_point_ids o' = [0%nat].
Proof.
  set (ps := [V3 (-4) 0 0; V3 4 0 0]). set (qs := [V3 (-4) 0 0]). destruct ex_args_ok as (S & W & A).
  assert (C : forall x, In x ps -> in_cell ex_cube x) by (intros x [<-|[<-|[]]]; apply ex_corner; lra).
  assert (St : setting ex_cube ps qs ex_args 3).
  { constructor; auto; try (simpl; lra); try discriminate.
    + apply ex_cube_positive. + apply ex_cube_fp. + intros x [<-|[]]. apply ex_corner; lra.
    + unfold radius_ok. rewrite ex_cube_planes. simpl. repeat split; intros; lra. }
  destruct (C72_total BRaw ex_cube ps (Some qs) ex_args 3 iface_new St I) as (ev & ev2 & o' & Sc & Co). exists ev, ev2, o'. split; [exact St|]. split; [exact Sc|]. split; [exact Co|].
  destruct (C72_ball BRaw _ _ (Some qs) _ _ _ _ _ _ St I Sc Co) as (o1 & E & P & Q). injection E as <-. cbn [queries or_else pa_excl pa_rmin ex_args] in P, Q.
  assert (R : forall i j, at_interface true ex_cube ps qs 0 3 i j <-> i = 0%nat /\ j = 1%nat).
  { intros i j. split.
    - intros ((H1 & H2 & _) & H). simpl in H1, H2. destruct i as [|i]; [|lia]. split; [reflexivity|]. destruct j as [|[|j]]; [exfalso; auto|reflexivity|lia].
    - intros [-> ->]. split; [|intros [_ ?]; discriminate]. split; [simpl; lia|]. split; [simpl; lia|]. exists 1%Z, 0%Z, 0%Z. split; [repeat split; simpl; discriminate|]. cbn [nth ps qs].
      replace (vsub (V3 4 0 0) (vadd (V3 (-4) 0 0) (shift ex_cube 1 0 0))) with (V3 (-2) 0 0) by (unfold shift, comb, a1, a2, a3, ex_cube; apply vec_eq; simpl; ring).
      unfold norm, dot. simpl. replace (_ + _) with (Rsqr 2) by (unfold Rsqr; ring). rewrite sqrt_Rsqr; lra. }
  split.
  - apply (sets_equal _ [1%nat] _ (fun j => j = 1%nat) P); [split; [repeat constructor|simpl; intuition]|]. intros j. split; [intros (i & H); apply R in H; tauto|intros ->; exists 0%nat; apply R; auto].
  - apply (sets_equal _ [0%nat] _ (fun j => j = 0%nat) Q); [split; [repeat constructor|simpl; intuition]|]. intros j. split; [intros (i & H); apply R in H; tauto|intros ->; exists 1%nat; apply R; auto].
Qed.
Print Assumptions C72_ball.
