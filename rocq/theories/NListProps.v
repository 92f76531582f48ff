(** Properties C18-C21, C23, C24: neighbour lists, their construction, segments, filters, sorting, iteration. *)
From Coq Require Import Permutation Sorting.Sorted.
From Verif Require Import BoxModel BoxSpec BoxProofs BoxProps NListSpec ParProofs NListProofs NListProofs2.
Open Scope nat_scope.

(** ** C18 *)
(** from_arrays succeeds exactly on arrays of equal length with sorted query indices and all indices in range;
    the list then holds the given bonds in order, each with the given vector, weight (1 by default) and the
    length of the vector as its distance. *)
Theorem C18_from_arrays (nq np : nat) (qs ps : list nat) (vs : list vec3) (ws : option (list R)) :
  let w := match ws with Some w => w | None => repeat 1%R (length qs) end in
  let ok := length ps = length qs /\ length vs = length qs /\ length w = length qs /\
            (forall i j, i < j < length qs -> nth i qs 0 <= nth j qs 0) /\
            (forall i, i < length qs -> nth i qs 0 < nq /\ nth i ps 0 < np) in
  (ok -> exists nl, from_arrays nq np qs ps vs ws = Some nl /\ nl_nq nl = nq /\ nl_np nl = np /\
     length (nl_bonds nl) = length qs /\
     forall i, i < length qs -> nth i (nl_bonds nl) bond0 =
       Bond (nth i qs 0) (nth i ps 0) (norm (nth i vs v0)) (nth i w 0%R) (nth i vs v0)) /\
  (~ ok -> from_arrays nq np qs ps vs ws = None).
Proof.
  cbv zeta. destruct (from_arrays_spec nq np qs ps vs ws) as [A B]. split; auto.
  intros H. destruct (A H) as (nl & E & N1 & N2 & N3 & N4 & N5). exists nl. auto.
Qed.
Print Assumptions C18_from_arrays.

Definition ex_bonds : list bond :=
  [Bond 0 2 1%R 1%R (V3 1 0 0); Bond 2 0 1%R 2%R (V3 (-1) 0 0); Bond 2 1 2%R 1%R (V3 0 2 0)].
Example C18_ex : exists nl, from_arrays 4 3 [0; 2; 2] [2; 0; 1] [V3 1 0 0; V3 (-1) 0 0; V3 0 2 0] None = Some nl.
Proof. eexists. reflexivity. Qed.
Example C18_ex_rejected : from_arrays 4 3 [2; 0] [0; 0] [v0; v0] None = None /\ from_arrays 4 3 [0; 4] [0; 0] [v0; v0] None = None.
Proof. split; reflexivity. Qed.

(** ** C19 *)
(** Every list the library can hand out is sorted by query point and in range. *)
Theorem C19_reachable_valid (nl : nlist) : reach nl ->
  sorted_q (nl_bonds nl) /\ forall b, In b (nl_bonds nl) -> bq b < nl_nq nl /\ bp b < nl_np nl.
Proof. intros R. apply reach_inv in R. apply R. Qed.
Print Assumptions C19_reachable_valid.

(** After any history of constructions, filters, sorts, copies and reads, reading counts and segments succeeds,
    leaves the bonds alone, and gives the number of bonds of every query point and, for query points having
    bonds, the position of the first one. *)
Theorem C19_counts_segments (nl : nlist) : reach nl ->
  exists counts segs nl', get_counts nl = Some (counts, nl') /\ get_segments nl = Some (segs, nl') /\
    nl_bonds nl' = nl_bonds nl /\ nl_nq nl' = nl_nq nl /\ nl_np nl' = nl_np nl /\
    length counts = nl_nq nl /\ length segs = nl_nq nl /\
    (forall i, i < nl_nq nl ->
       nth i counts 0 = length (filter (fun b => bq b =? i) (nl_bonds nl)) /\
       (nth i counts 0 > 0 ->
          nth i segs 0 < length (nl_bonds nl) /\ bq (nth (nth i segs 0) (nl_bonds nl) bond0) = i /\
          forall k, k < nth i segs 0 -> bq (nth k (nl_bonds nl) bond0) < i) /\
       (nth i counts 0 = 0 -> nth i segs 0 = 0)) /\
    fold_right Nat.add 0 counts = length (nl_bonds nl).
Proof.
  intros R. apply reach_inv in R. destruct (update_total nl R) as (nl' & E).
  destruct (update_inv nl nl' R E) as (E1 & E2 & E3 & E4 & E5 & E6).
  unfold get_counts, get_segments. rewrite E. simpl. exists (nl_counts nl'), (nl_segments nl'), nl'.
  split; auto. split; auto. split; auto. split; auto. split; auto.
  rewrite E5, E6. unfold spec_counts, spec_segments. rewrite !map_range_length. split; auto. split; auto.
  destruct R as [[HS HV] _]. split.
  - intros i Hi. rewrite !nth_map_range by auto. split; [reflexivity|].
    assert (C : 0 < cnt i (nl_bonds nl) -> (before i (nl_bonds nl) < length (nl_bonds nl) /\
      bq (nth (before i (nl_bonds nl)) (nl_bonds nl) bond0) = i /\
      forall k, k < before i (nl_bonds nl) -> bq (nth k (nl_bonds nl) bond0) < i)).
    { intros P. destruct (before_sides i (nl_bonds nl) HS) as [B1 B2].
      assert (X : exists k, k < length (nl_bonds nl) /\ bq (nth k (nl_bonds nl) bond0) = i).
      { unfold cnt in P. destruct (of_point i (nl_bonds nl)) as [|x l] eqn:EO; [simpl in P; lia|].
        assert (I : In x (of_point i (nl_bonds nl))) by (rewrite EO; left; auto).
        apply filter_In in I as [I Q]. apply Nat.eqb_eq in Q. apply (In_nth _ _ bond0) in I as (k & Hk & <-). eauto. }
      destruct X as (k & Hk & Ek).
      assert (BK : before i (nl_bonds nl) <= k).
      { destruct (Nat.le_gt_cases (before i (nl_bonds nl)) k); auto. specialize (B1 k H). lia. }
      split; [lia|]. split; auto.
      assert (i <= bq (nth (before i (nl_bonds nl)) (nl_bonds nl) bond0)) by (apply B2; lia).
      destruct (Nat.eq_dec (before i (nl_bonds nl)) k); [congruence|].
      assert (bq (nth (before i (nl_bonds nl)) (nl_bonds nl) bond0) <= bq (nth k (nl_bonds nl) bond0)) by (apply HS; lia). lia. }
    split.
    + intros P. rewrite (proj2 (Nat.eqb_neq _ _)) by lia. apply C. lia.
    + intros ->. reflexivity.
  - assert (ADD : forall (f g : nat -> nat) l, fold_right Nat.add 0 (map (fun k => f k + g k) l) =
             fold_right Nat.add 0 (map f l) + fold_right Nat.add 0 (map g l)).
    { clear. induction l; simpl; lia. }
    assert (Z : forall x m a, x < a -> fold_right Nat.add 0 (map (fun k => if x =? k then 1 else 0) (seq a m)) = 0).
    { clear. intros x. induction m as [|m IH]; intros a H; cbn [seq map fold_right]; auto.
      rewrite IH by lia. destruct (Nat.eqb_spec x a); lia. }
    assert (ONE : forall x m a, a <= x < a + m -> fold_right Nat.add 0 (map (fun k => if x =? k then 1 else 0) (seq a m)) = 1).
    { intros x. induction m as [|m IH]; intros a H; cbn [seq map fold_right]; [lia|].
      destruct (Nat.eqb_spec x a); [rewrite Z by lia; lia|rewrite IH by lia; lia]. }
    assert (SP : forall l m a, (forall b, In b l -> a <= bq b < a + m) -> fold_right Nat.add 0 (map (fun k => cnt k l) (seq a m)) = length l).
    { clear -ADD ONE. induction l as [|b l IH]; intros m a H.
      - clear. revert a. induction m as [|m IH]; intros a; auto. cbn [seq map fold_right]. rewrite IH. reflexivity.
      - rewrite (map_ext (fun k => cnt k (b :: l)) (fun k => (if bq b =? k then 1 else 0) + cnt k l)).
        + rewrite ADD, IH by (intros; apply H; right; auto). rewrite ONE by (apply H; left; auto). reflexivity.
        + intros k. change (b :: l) with ([b] ++ l). rewrite cnt_app, cnt_one. reflexivity. }
    unfold range. apply SP. intros b Hb. destruct (HV b Hb). lia.
Qed.
Print Assumptions C19_counts_segments.

(** find_first_index(i), for every i (also beyond the last query point): all bonds before it belong to smaller
    query points, all others do not. *)
Theorem C19_find_first_index (nl : nlist) (i : nat) : reach nl ->
  let k := find_first_index nl i in
  k <= length (nl_bonds nl) /\
  (forall j, j < k -> bq (nth j (nl_bonds nl) bond0) < i) /\
  (forall j, k <= j < length (nl_bonds nl) -> i <= bq (nth j (nl_bonds nl) bond0)).
Proof.
  intros R k. apply reach_inv in R. destruct R as [[HS _] _]. unfold k. rewrite find_first_index_spec by auto.
  split; [apply before_le|]. apply before_sides; auto.
Qed.
Print Assumptions C19_find_first_index.

(** segments is not the prefix sum of the counts: it is 0 for a query point without bonds. *)
Theorem C19_segments_prefix_sum_refuted : exists nl counts segs nl', reach nl /\
  get_counts nl = Some (counts, nl') /\ get_segments nl = Some (segs, nl') /\
  nth 1 counts 0 = 0 /\ nth 1 segs 0 = 0 /\ find_first_index nl 1 = 1 /\ nth 0 counts 0 + nth 0 segs 0 = 1.
Proof.
  exists (NL 2 3 [Bond 0 2 (norm (V3 1 0 0)) 1%R (V3 1 0 0)] false [0; 0] [0; 0]). do 3 eexists.
  split; [apply (reach_arrays 2 3 [0] [2] [V3 1 0 0] None); reflexivity|].
  split; [reflexivity|]. split; [reflexivity|]. repeat split.
Qed.
Print Assumptions C19_segments_prefix_sum_refuted.

Example C19_ex : exists nl, reach nl /\ length (nl_bonds nl) = 2 /\ nl_nq nl = 4.
Proof.
  destruct (from_arrays_spec 4 3 [0; 2; 2] [2; 0; 1] [V3 1 0 0; V3 (-1) 0 0; V3 0 2 0] None) as [A _].
  destruct A as (nl & E & N1 & N2 & N3 & N4 & N5).
  - unfold arrays_ok. simpl. repeat split; auto; intros.
    + destruct i as [|[|[|]]], j as [|[|[|]]]; simpl; lia.
    + destruct i as [|[|[|]]]; simpl; lia.
    + destruct i as [|[|[|]]]; simpl; lia.
  - exists (NL 4 3 (select [true; false; true] (nl_bonds nl)) false (nl_segments nl) (nl_counts nl)).
    assert (F : nl_filter nl [true; false; true] = Some (NL 4 3 (select [true; false; true] (nl_bonds nl)) false (nl_segments nl) (nl_counts nl),
                 length (nl_bonds nl) - length (select [true; false; true] (nl_bonds nl)))).
    { rewrite nl_filter_spec by (rewrite N4; simpl; lia). rewrite N1, N2. reflexivity. }
    split; [eapply reach_filter; [eapply reach_arrays; exact E|exact F]|].
    split; auto. simpl. destruct (nl_bonds nl) as [|? [|? [|? [|]]]]; simpl in N4; try lia. reflexivity.
Qed.

(** ** C20 *)
(** filter keeps exactly the bonds whose mask entry is true, in order and unchanged, and reports how many were
    removed; the list stays valid. *)
Theorem C20_filter (nl : nlist) (mask : list bool) : length mask = length (nl_bonds nl) ->
  exists nl' removed, nl_filter nl mask = Some (nl', removed) /\
    nl_bonds nl' = map fst (filter snd (combine (nl_bonds nl) mask)) /\
    nl_nq nl' = nl_nq nl /\ nl_np nl' = nl_np nl /\ removed + length (nl_bonds nl') = length (nl_bonds nl).
Proof.
  intros H. rewrite nl_filter_spec by lia. do 2 eexists. split; [reflexivity|]. simpl. split; [reflexivity|].
  split; auto. split; auto. pose proof (select_le (nl_bonds nl) mask). lia.
Qed.
Print Assumptions C20_filter.

Theorem C20_filter_r (nl : nlist) (r_max r_min : R) : (0 <= r_min < r_max)%R ->
  exists nl' removed, nl_filter_r nl r_max r_min = Some (nl', removed) /\
    nl_bonds nl' = filter (fun b => Rleb r_min (bd b) && Rltb (bd b) r_max) (nl_bonds nl) /\
    nl_nq nl' = nl_nq nl /\ nl_np nl' = nl_np nl /\ removed + length (nl_bonds nl') = length (nl_bonds nl).
Proof.
  intros [H1 H2]. rewrite nl_filter_r_spec. rewrite (proj2 (Rltb_true 0 r_max)), (proj2 (Rleb_true 0 r_min)), (proj2 (Rltb_true r_min r_max)) by lra.
  cbn [andb]. cbv zeta. do 2 eexists. split; [reflexivity|]. cbn [nl_bonds nl_nq nl_np]. split; auto. split; auto. split; auto.
  match goal with |- context [filter ?f (nl_bonds nl)] => rewrite <- (select_map_filter f (nl_bonds nl)) end.
  match goal with |- context [select ?m _] => pose proof (select_le (nl_bonds nl) m) end. lia.
Qed.
Print Assumptions C20_filter_r.

(** Radii outside 0 <= r_min < r_max are rejected and nothing changes. *)
Theorem C20_filter_r_rejects (nl : nlist) (r_max r_min : R) : ~ (0 <= r_min < r_max)%R -> nl_filter_r nl r_max r_min = None.
Proof.
  intros H. rewrite nl_filter_r_spec. destruct (Rltb 0 r_max) eqn:A; auto. destruct (Rleb 0 r_min) eqn:B; auto.
  destruct (Rltb r_min r_max) eqn:C; auto. exfalso. apply H. apply Rltb_true in A, C. apply Rleb_true in B. lra.
Qed.
Print Assumptions C20_filter_r_rejects.

(** Filters commute and are idempotent: applying a mask computed from the bonds and a radius filter in either
    order, or one of them twice, gives the same bonds. *)
Definition filter_by (nl : nlist) (f : bond -> bool) : option nlist := option_map fst (nl_filter nl (map f (nl_bonds nl))).
Theorem C20_commute (nl : nlist) (f : bond -> bool) (r_max r_min : R) (n1 n2 m1 m2 : nlist) :
  filter_by nl f = Some n1 -> option_map fst (nl_filter_r n1 r_max r_min) = Some n2 ->
  option_map fst (nl_filter_r nl r_max r_min) = Some m1 -> filter_by m1 f = Some m2 -> nl_bonds n2 = nl_bonds m2.
Proof.
  assert (FF : forall (g h : bond -> bool) l, filter g (filter h l) = filter h (filter g l)).
  { intros g h l. induction l as [|x l IH]; simpl; auto.
    destruct (h x) eqn:Hh, (g x) eqn:Hg; simpl; rewrite ?Hh, ?Hg, ?IH; auto. }
  unfold filter_by. rewrite nl_filter_spec by (rewrite map_length; lia). simpl. intros E; injection E as <-.
  rewrite !nl_filter_r_spec. destruct (_ && _ && _); [|discriminate]. cbv zeta. cbn [option_map fst]. intros E; injection E as <-.
  intros E; injection E as <-. rewrite nl_filter_spec by (rewrite map_length; lia). simpl. intros E; injection E as <-.
  cbn [nl_bonds]. rewrite !select_map_filter. apply FF.
Qed.
Print Assumptions C20_commute.
Theorem C20_idempotent (nl : nlist) (f : bond -> bool) (r_max r_min : R) (n1 n2 : nlist) :
  (filter_by nl f = Some n1 -> filter_by n1 f = Some n2 -> nl_bonds n2 = nl_bonds n1) /\
  (option_map fst (nl_filter_r nl r_max r_min) = Some n1 -> option_map fst (nl_filter_r n1 r_max r_min) = Some n2 ->
   nl_bonds n2 = nl_bonds n1).
Proof.
  assert (FF : forall (g : bond -> bool) l, filter g (filter g l) = filter g l).
  { intros g l. induction l as [|x l IH]; simpl; auto. destruct (g x) eqn:Hg; simpl; rewrite ?Hg, ?IH; auto. }
  split.
  - unfold filter_by. rewrite nl_filter_spec by (rewrite map_length; lia). simpl. intros E; injection E as <-.
    rewrite nl_filter_spec by (rewrite map_length; lia). simpl. intros E; injection E as <-. cbn [nl_bonds].
    rewrite !select_map_filter. apply FF.
  - rewrite !nl_filter_r_spec. destruct (_ && _ && _); [|discriminate]. cbv zeta. cbn [option_map fst]. intros E; injection E as <-.
    intros E; injection E as <-. cbn [nl_bonds]. apply FF.
Qed.
Print Assumptions C20_idempotent.

(** The mask length is not checked: a shorter mask makes the code read past its end (undefined behaviour), and
    a longer mask is silently accepted. *)
Theorem C20_mask_length_checked_refuted : exists nl, reach nl /\ nl_bonds nl <> [] /\ nl_filter nl [] = None /\
  exists nl' k, nl_filter nl [true; false; true] = Some (nl', k) /\ nl_bonds nl' = nl_bonds nl.
Proof.
  exists (NL 1 3 [Bond 0 2 (norm (V3 1 0 0)) 1%R (V3 1 0 0)] false [0] [0]).
  split; [apply (reach_arrays 1 3 [0] [2] [V3 1 0 0] None); reflexivity|]. split; [discriminate|]. split; [reflexivity|].
  do 2 eexists. split; reflexivity.
Qed.
Print Assumptions C20_mask_length_checked_refuted.
Example C20_ex : length [true; false; true] = length (nl_bonds (NL 3 3 ex_bonds false [] [])) /\ (0 <= 0 < 3 / 2)%R.
Proof. split; [reflexivity|lra]. Qed.

(** ** C21 *)
Definition lexlt (a b : bond) : Prop := bq a < bq b \/ bq a = bq b /\ bp a < bp b.
Lemma lex_trans a b c : lexlt a b -> lexlt b c -> lexlt a c.
Proof. unfold lexlt. lia. Qed.
Lemma rows_lex b points qpoints excl : forall n, StronglySorted lexlt (flat_map (row b points qpoints excl) (range 0 n)).
Proof.
  assert (APP : forall l l', StronglySorted lexlt l -> StronglySorted lexlt l' -> (forall x y, In x l -> In y l' -> lexlt x y) -> StronglySorted lexlt (l ++ l')).
  { induction l as [|x l IH]; intros l' H1 H2 H3; simpl; auto. inversion H1; subst. constructor.
    - apply IH; auto. intros; apply H3; auto. right; auto.
    - apply Forall_app. split; auto. apply Forall_forall. intros y Hy. apply H3; auto. left; auto. }
  assert (ROW : forall i, StronglySorted lexlt (row b points qpoints excl i)).
  { intros i. unfold row, range. generalize (length points - 0). intros m. generalize 0 as a. induction m as [|m IH]; intros a; simpl; [constructor|].
    assert (F : Forall (lexlt (apb b points qpoints i a)) (map (apb b points qpoints i) (filter (keep excl i) (seq (S a) m)))).
    { apply Forall_forall. intros x Hx. apply in_map_iff in Hx as (j & <- & Hj). apply filter_In in Hj as [Hj _]. apply in_seq in Hj.
      right. simpl. lia. }
    destruct (keep excl i a); simpl; auto. constructor; auto. }
  intros n. unfold range. rewrite Nat.sub_0_r. induction n as [|n IH]; [constructor|].
  rewrite seq_S, flat_map_app. apply APP; auto.
  - simpl. rewrite app_nil_r. apply ROW.
  - intros x y Hx Hy. apply in_flat_map in Hx as (i & Hi & Hx). apply in_seq in Hi. apply in_row in Hx as (j & _ & _ & ->).
    simpl in Hy. rewrite app_nil_r in Hy. apply in_row in Hy as (k & _ & _ & ->). left. simpl. lia.
Qed.
Lemma sorted_nth l : StronglySorted lexlt l -> forall i j, i < j < length l -> lexlt (nth i l bond0) (nth j l bond0).
Proof.
  induction 1 as [|x l H IH F]; intros i j Hij; simpl in *; [lia|]. destruct j as [|j]; [lia|]. destruct i as [|i].
  - rewrite Forall_forall in F. apply F. apply nth_In. lia.
  - apply IH. lia.
Qed.

(** all_pairs: strictly increasing in (query point, point), hence no pair twice; it contains precisely the pairs
    in range (without i = j when excluded); unit weights; wrapped distances.  For every schedule. *)
Theorem C21_all_pairs (b : box) (points qpoints : list vec3) (excl : bool) (ev : list (nat * nat)) :
  execution 0 (length qpoints) ev ->
  exists nl, all_pairs b points qpoints excl ev = Some nl /\
    nl_nq nl = length qpoints /\ nl_np nl = length points /\
    (forall k l, k < l < length (nl_bonds nl) ->
       let x := nth k (nl_bonds nl) bond0 in let y := nth l (nl_bonds nl) bond0 in
       bq x < bq y \/ bq x = bq y /\ bp x < bp y) /\
    (forall i j, (exists x, In x (nl_bonds nl) /\ bq x = i /\ bp x = j) <->
       i < length qpoints /\ j < length points /\ (excl = true -> i <> j)) /\
    (forall x, In x (nl_bonds nl) -> bw x = 1%R /\
       bd x = compute_distance b (nth (bp x) points v0) (nth (bq x) qpoints v0) /\ bd x = norm (bv x)).
Proof.
  intros HE. eexists. split; [apply all_pairs_spec; exact HE|]. cbn [nl_nq nl_np nl_bonds]. split; auto. split; auto.
  split; [|split].
  - intros k l Hkl. apply (sorted_nth _ (rows_lex b points qpoints excl (length qpoints))). auto.
  - intros i j. split.
    + intros (x & Hx & <- & <-). apply in_flat_map in Hx as (i & Hi & Hx). unfold range in Hi. apply in_seq in Hi.
      apply in_row in Hx as (j & Hj & K & ->). simpl. split; [lia|]. split; auto. intros ->. unfold keep in K. simpl in K.
      apply negb_true_iff, Nat.eqb_neq in K. auto.
    + intros (Hi & Hj & K). exists (apb b points qpoints i j). split; [|split; reflexivity]. apply in_flat_map. exists i. split.
      * unfold range. apply in_seq. lia.
      * apply in_row. exists j. split; auto. split; auto. unfold keep. destruct excl; auto. simpl.
        apply negb_true_iff, Nat.eqb_neq. auto.
  - intros x Hx. apply in_flat_map in Hx as (i & Hi & Hx). apply in_row in Hx as (j & Hj & K & ->). simpl. repeat split.
Qed.
Print Assumptions C21_all_pairs.

(** The number of bonds. *)
Theorem C21_size (b : box) (points qpoints : list vec3) (excl : bool) (ev : list (nat * nat)) (nl : nlist) :
  execution 0 (length qpoints) ev -> all_pairs b points qpoints excl ev = Some nl ->
  length (nl_bonds nl) = length points * length qpoints - (if excl then Nat.min (length points) (length qpoints) else 0).
Proof.
  intros HE E. rewrite all_pairs_spec in E by auto. injection E as <-. cbn [nl_bonds].
  rewrite (flat_len _ (length points) excl (fun i => row_length b points qpoints excl i)). unfold ap_offset.
  rewrite Nat.mul_comm, Nat.min_comm. reflexivity.
Qed.
Print Assumptions C21_size.
Example C21_ex : execution 0 (length [V3 1 0 0; V3 0 1 0; V3 0 0 1]) [(1, 2); (0, 0); (1, 1)].
Proof.
  exists [(0, 2); (2, 3)]. split.
  - simpl. apply (split_node 0 2 3 [(0, 2)] [(2, 3)]); try lia; apply split_leaf; lia.
  - simpl. apply perm_trans with [0; 2; 1]; [apply perm_swap|]. apply perm_skip, perm_swap.
Qed.

(** ** C23 *)
(** sort permutes the bonds, keeps the sizes and leaves a list ordered by (query, point) or (query, distance). *)
Theorem C23_sort (by_d : bool) (ev : list (nat * nat)) (nl nl' : nlist) :
  execution 0 (length (nl_bonds nl)) ev -> nl_sort by_d ev nl nl' ->
  Permutation (nl_bonds nl) (nl_bonds nl') /\ nl_nq nl' = nl_nq nl /\ nl_np nl' = nl_np nl /\
  forall i j, i < j < length (nl_bonds nl') ->
    let x := nth i (nl_bonds nl') bond0 in let y := nth j (nl_bonds nl') bond0 in
    bq x < bq y \/ bq x = bq y /\
      if by_d then (bd x < bd y)%R \/ bd x = bd y /\ (bp x < bp y \/ bp x = bp y /\ (bw x <= bw y)%R)
      else bp x < bp y \/ bp x = bp y /\ ((bw x < bw y)%R \/ bw x = bw y /\ (bd x <= bd y)%R).
Proof.
  intros HE H. destruct (nl_sort_spec by_d ev nl nl' HE H) as [[HP HO] E]. split; auto.
  split; [rewrite E; reflexivity|]. split; [rewrite E; reflexivity|].
  intros i j Hij. specialize (HO i j Hij). cbv zeta. revert HO.
  generalize (nth i (nl_bonds nl') bond0) as x, (nth j (nl_bonds nl') bond0) as y. intros x y. destruct by_d.
  - unfold less_as_distance. destruct (Nat.eqb_spec (bq y) (bq x)); cbn [negb]; [|intros HO; apply Nat.ltb_ge in HO; lia].
    destruct (Reqb_spec (bd y) (bd x)); cbn [negb]; [|intros HO; apply Rltb_false in HO; right; split; [lia|]; left; lra].
    destruct (Nat.eqb_spec (bp y) (bp x)); cbn [negb]; [|intros HO; apply Nat.ltb_ge in HO; right; split; [lia|]; right; split; [lra|]; left; lia].
    intros HO. apply Rltb_false in HO. right. split; [lia|]. right. split; [lra|]. right. split; [lia|lra].
  - unfold less_as_tuple. destruct (Nat.eqb_spec (bq y) (bq x)); cbn [negb]; [|intros HO; apply Nat.ltb_ge in HO; lia].
    destruct (Nat.eqb_spec (bp y) (bp x)); cbn [negb]; [|intros HO; apply Nat.ltb_ge in HO; right; split; [lia|]; left; lia].
    destruct (Reqb_spec (bw y) (bw x)); cbn [negb]; [|intros HO; apply Rltb_false in HO; right; split; [lia|]; right; split; [lia|]; left; lra].
    intros HO. apply Rltb_false in HO. right. split; [lia|]. right. split; [lia|]. right. split; [lra|lra].
Qed.
Print Assumptions C23_sort.

(** Every query point keeps its bonds; counts and segments are the same as before. *)
Theorem C23_sort_segments (by_d : bool) (ev : list (nat * nat)) (nl nl' : nlist) :
  reach nl -> execution 0 (length (nl_bonds nl)) ev -> nl_sort by_d ev nl nl' ->
  (forall i, Permutation (of_point i (nl_bonds nl)) (of_point i (nl_bonds nl'))) /\
  option_map fst (get_counts nl') = option_map fst (get_counts nl) /\
  option_map fst (get_segments nl') = option_map fst (get_segments nl) /\
  (forall i, find_first_index nl' i = find_first_index nl i).
Proof.
  intros R HE H. pose proof (reach_sort by_d ev nl nl' R HE H) as R'.
  destruct (nl_sort_spec by_d ev nl nl' HE H) as [[HP HO] E].
  apply reach_inv in R, R'.
  assert (NQ : nl_nq nl' = nl_nq nl) by (rewrite E; reflexivity).
  split; [intros i; apply filter_perm; auto|].
  destruct (update_total nl R) as (u & Eu). destruct (update_total nl' R') as (u' & Eu').
  destruct (update_inv nl u R Eu) as (_ & _ & _ & _ & S1 & S2). destruct (update_inv nl' u' R' Eu') as (_ & _ & _ & _ & S1' & S2').
  destruct (spec_perm (nl_nq nl) _ _ HP) as [P1 P2].
  unfold get_counts, get_segments. rewrite Eu, Eu'. simpl. rewrite S1, S2, S1', S2', NQ, P1, P2. split; auto. split; auto.
  intros i. destruct R as [[V _] _], R' as [[V' _] _]. rewrite !find_first_index_spec by auto. symmetry. apply before_perm; auto.
Qed.
Print Assumptions C23_sort_segments.

(** The documented tie-break of sort(by_distance=False) - (query, point, distance) - is not what happens: bonds
    between the same two points (different images) are ordered by weight before distance. *)
Theorem C23_documented_order_refuted : exists nl nl' ev, reach nl /\ execution 0 (length (nl_bonds nl)) ev /\ nl_sort false ev nl nl' /\
  exists i j, i < j < length (nl_bonds nl') /\
    bq (nth i (nl_bonds nl') bond0) = bq (nth j (nl_bonds nl') bond0) /\
    bp (nth i (nl_bonds nl') bond0) = bp (nth j (nl_bonds nl') bond0) /\
    (bd (nth j (nl_bonds nl') bond0) < bd (nth i (nl_bonds nl') bond0))%R.
Proof.
  set (bs := [Bond 0 0 (norm (V3 2 0 0)) 0%R (V3 2 0 0); Bond 0 0 (norm (V3 1 0 0)) 1%R (V3 1 0 0)]).
  exists (NL 1 1 bs false [0] [0]), (NL 1 1 bs false [0] [0]), [(0, 0); (0, 1)].
  assert (HE : execution 0 2 [(0, 0); (0, 1)]) by exact (sequential_execution 0 2 0).
  split; [apply (reach_arrays 1 1 [0; 0] [0; 0] [V3 2 0 0; V3 1 0 0] (Some [0%R; 1%R])); reflexivity|].
  split; [exact HE|]. split.
  - exists bs. split; [|reflexivity]. split; [reflexivity|]. intros i j Hij. simpl in Hij.
    assert (i = 0 /\ j = 1) as [-> ->] by lia. simpl. unfold less_as_tuple. simpl.
    assert (R1 : Reqb 1 0 = false) by (apply Reqb_false; lra). rewrite R1. simpl. apply Rltb_false. lra.
  - exists 0, 1. simpl. split; [lia|]. split; auto. split; auto. unfold norm, dot. simpl. apply sqrt_lt_1; lra.
Qed.
Print Assumptions C23_documented_order_refuted.
Example C23_ex : exists nl', nl_sort true [(0, 0); (0, 1); (0, 2)] (NL 3 3 ex_bonds false [] []) nl'.
Proof.
  exists (NL 3 3 ex_bonds false [] []). exists ex_bonds. split; [|reflexivity]. split; [reflexivity|].
  intros i j Hij. simpl in Hij. unfold less_as_distance.
  assert (R1 : Reqb 2 1 = false) by (apply Reqb_false; lra). assert (R2 : Rltb 2 1 = false) by (apply Rltb_false; lra).
  destruct i as [|[|[|]]], j as [|[|[|]]]; simpl in *; try lia; auto. rewrite R1, R2. reflexivity.
Qed.

(** ** C24 *)
(** The per-point iterator over a list delivers exactly the bonds of its query point, in list order, and stops. *)
Theorem C24_iterator (nl : nlist) (i : nat) : reach nl ->
  iterate nl i = Some (filter (fun b => bq b =? i) (nl_bonds nl)).
Proof. intros R. apply reach_inv in R. apply iterate_spec, R. Qed.
Print Assumptions C24_iterator.

(** Looping over all query points, under any partition into chunks and any interleaving of threads: every query
    point is handed its own bonds exactly once, and all bonds together are delivered exactly once. *)
Theorem C24_loop_iterator (nl : nlist) (ev : list (nat * nat)) : reach nl -> execution 0 (nl_nq nl) ev ->
  exists res, loop_over_iterator nl ev = Some res /\
    Permutation (map fst res) (range 0 (nl_nq nl)) /\
    (forall i l, In (i, l) res -> l = filter (fun b => bq b =? i) (nl_bonds nl)) /\
    Permutation (flat_map snd res) (nl_bonds nl).
Proof.
  intros R HE. apply reach_inv in R. destruct R as [[HS HV] _]. apply execution_perm in HE.
  rewrite loop_over_iterator_spec by auto. eexists. split; [reflexivity|]. split; [|split].
  - rewrite map_map. simpl. exact HE.
  - intros i l H. apply in_map_iff in H as ([t k] & H & _). injection H as <- <-. reflexivity.
  - rewrite flat_map_concat_map, map_map. simpl. rewrite <- (map_map snd (fun i => of_point i (nl_bonds nl))), <- flat_map_concat_map.
    rewrite (Permutation_flat_map (fun i => of_point i (nl_bonds nl)) HE). unfold range. rewrite all_points; auto.
    intros x Hx. destruct (HV x Hx). lia.
Qed.
Print Assumptions C24_loop_iterator.

Theorem C24_loop_bonds (nl : nlist) (ev : list (nat * nat)) : execution 0 (length (nl_bonds nl)) ev ->
  Permutation (loop_over_neighbors nl ev) (nl_bonds nl).
Proof.
  intros HE. apply execution_perm in HE. unfold loop_over_neighbors. rewrite <- (map_map snd (fun i => nth i (nl_bonds nl) bond0)).
  rewrite (Permutation_map _ HE). rewrite map_nth_range. reflexivity.
Qed.
Print Assumptions C24_loop_bonds.

(** On-the-fly queries: looping over the query delivers the same bonds as materialising it into a list and
    looping over that list. *)
Theorem C24_query_equals_list (by_d : bool) (nq np : nat) (pp : nat -> list bond) (ev ev1 ev2 : list (nat * nat)) (nl : nlist) :
  execution 0 nq ev -> execution 0 nq ev1 -> execution 0 (length (nl_bonds nl)) ev2 ->
  (forall i x, In x (pp i) -> bq x = i /\ bd x = norm (bv x)) ->
  to_neighbor_list by_d nq np pp ev1 ev2 nl ->
  Permutation (loop_over_query pp ev) (nl_bonds nl) /\
  (forall i, i < nq -> Permutation (pp i) (filter (fun b => bq b =? i) (nl_bonds nl))).
Proof.
  intros HE HE1 HE2 HD HT. destruct (to_neighbor_list_spec _ _ _ _ _ _ _ HE1 HE2 HT) as (_ & _ & _ & HP & _).
  assert (ER : map rebuild (flat_map pp (range 0 nq)) = flat_map pp (range 0 nq)).
  { rewrite <- (map_id (flat_map pp (range 0 nq))) at 2. apply map_ext_in. intros x Hx. apply in_flat_map in Hx as (i & _ & Hx).
    destruct (HD i x Hx) as [_ HX]. unfold rebuild, bond_of_vector. destruct x as [q p d w v]. simpl in *. rewrite HX. reflexivity. }
  rewrite ER in HP. split.
  - unfold loop_over_query. rewrite flat_map_concat_map. rewrite <- (map_map snd pp), <- flat_map_concat_map.
    apply execution_perm in HE. rewrite (Permutation_flat_map pp HE). exact HP.
  - intros i Hi. rewrite <- (filter_perm _ _ _ HP). clear -HD Hi. unfold range. rewrite Nat.sub_0_r.
    assert (SK : forall m a, ~ (a <= i < a + m) -> filter (fun b => bq b =? i) (flat_map pp (seq a m)) = []).
    { induction m as [|m IH]; intros a H; simpl; auto. rewrite filter_app, IH by lia. rewrite app_nil_r.
      assert (forall x, In x (pp a) -> bq x <> i) by (intros x Hx; destruct (HD a x Hx); lia).
      induction (pp a) as [|x l IHl]; simpl; auto. rewrite (proj2 (Nat.eqb_neq _ _)) by (apply H0; left; auto).
      apply IHl. intros; apply H0; right; auto. }
    assert (KP : filter (fun b => bq b =? i) (pp i) = pp i).
    { assert (forall x, In x (pp i) -> bq x = i) by (intros x Hx; apply (HD i x Hx)).
      induction (pp i) as [|x l IHl]; simpl; auto. rewrite (proj2 (Nat.eqb_eq _ _)) by (apply H; left; auto).
      f_equal. apply IHl. intros; apply H; right; auto. }
    replace nq with (i + S (nq - S i)) by lia. rewrite seq_app, flat_map_app, filter_app. simpl.
    rewrite filter_app, KP, (SK i 0), (SK (nq - S i) (S i)) by lia. rewrite app_nil_r. reflexivity.
Qed.
Print Assumptions C24_query_equals_list.
Example C24_ex : reach (NL 1 3 [Bond 0 2 (norm (V3 1 0 0)) 1%R (V3 1 0 0)] false [0] [0]) /\ execution 0 1 [(3, 0)].
Proof.
  split; [apply (reach_arrays 1 3 [0] [2] [V3 1 0 0] None); reflexivity|].
  exists [(0, 1)]. split; [apply split_leaf; lia|]. reflexivity.
Qed.
