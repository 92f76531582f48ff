(** Specification of neighbour lists. *)
From Verif Require Export NListModel.

(** Ordered by query point; all indices in range. *)
Definition sorted_q (bs : list bond) : Prop := forall i j, i < j < length bs -> bq (nth i bs bond0) <= bq (nth j bs bond0).
Definition valid_bonds (nq np : nat) (bs : list bond) : Prop :=
  sorted_q bs /\ forall b, In b bs -> bq b < nq /\ bp b < np.

Definition of_point (i : nat) (bs : list bond) : list bond := filter (fun b => bq b =? i) bs.
(** Number of bonds before query point i. *)
Definition before (i : nat) (bs : list bond) : nat := length (filter (fun b => bq b <? i) bs).

Definition select {A} (mask : list bool) (l : list A) : list A :=
  map fst (filter snd (combine l mask)).

(** Reachable neighbour lists: built by any constructor, then filtered, sorted, copied and read. *)
Inductive reach : nlist -> Prop :=
| reach_arrays nq np qs ps vs ws nl : from_arrays nq np qs ps vs ws = Some nl -> reach nl
| reach_pairs b pts qpts excl ev nl : execution 0 (length qpts) ev -> all_pairs b pts qpts excl ev = Some nl -> reach nl
| reach_query by_d nq np pp ev ev2 nl :
    execution 0 nq ev -> execution 0 (length (nl_bonds nl)) ev2 ->
    (forall i b, In b (pp i) -> bq b = i /\ bp b < np) ->
    to_neighbor_list by_d nq np pp ev ev2 nl -> reach nl
| reach_bonds bs ev nl : sorted_q bs -> execution 0 (length bs) ev -> from_bonds bs ev = Some nl -> reach nl
| reach_filter nl mask nl' k : reach nl -> nl_filter nl mask = Some (nl', k) -> reach nl'
| reach_filter_r nl r1 r2 nl' k : reach nl -> nl_filter_r nl r1 r2 = Some (nl', k) -> reach nl'
| reach_sort by_d ev nl nl' : reach nl -> execution 0 (length (nl_bonds nl)) ev -> nl_sort by_d ev nl nl' -> reach nl'
| reach_copy nl : reach nl -> reach (nl_copy nl)
| reach_update nl nl' : reach nl -> update_segment_counts nl = Some nl' -> reach nl'.
