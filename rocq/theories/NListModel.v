(** Model of freud/locality/NeighborBond.h, NeighborList.cc/.h, the list-based iteration of
    NeighborComputeFunctional.h and NeighborQueryIterator::toNeighborList (NeighborQuery.h).
    Simplifications: unsigned int is nat (no wrap-around: fewer than 2^32 bonds); the five parallel arrays
    (neighbors, distances, weights, vectors) are one list of bonds, since the code always reads and writes them
    together. *)
From Verif Require Export BoxModel MArrayModel ParModel.
Open Scope nat_scope.

(* NeighborBond.h:31-43, 161-165 *)
Record bond := Bond { bq : nat; bp : nat; bd : R; bw : R; bv : vec3 }.
Definition bond_of_vector (q p : nat) (w : R) (v : vec3) : bond := Bond q p (sqrt (dot v v)) w v.
Definition bond0 : bond := Bond 0 0 0%R 0%R v0.

(* NeighborBond.h:80-95 *)
Definition less_as_tuple (a b : bond) : bool :=
  if negb (bq a =? bq b) then bq a <? bq b
  else if negb (bp a =? bp b) then bp a <? bp b
  else if negb (Reqb (bw a) (bw b)) then Rltb (bw a) (bw b)
  else Rltb (bd a) (bd b).
(* NeighborBond.h:97-112 *)
Definition less_as_distance (a b : bond) : bool :=
  if negb (bq a =? bq b) then bq a <? bq b
  else if negb (Reqb (bd a) (bd b)) then Rltb (bd a) (bd b)
  else if negb (bp a =? bp b) then bp a <? bp b
  else Rltb (bw a) (bw b).

(** std::sort / tbb::parallel_sort: some permutation in which no later element is less than an earlier one. *)
Definition sort_result (lt : bond -> bond -> bool) (l l' : list bond) : Prop :=
  Permutation l l' /\ forall i j, i < j < length l' -> lt (nth j l' bond0) (nth i l' bond0) = false.

(* NeighborList.h:139-157 *)
Record nlist := NL {
  nl_nq : nat; nl_np : nat; nl_bonds : list bond;
  nl_updated : bool; nl_segments : list nat; nl_counts : list nat }.

(** Array write with bounds check (ManagedArray operator[]). *)
Definition wr {T} (l : list T) (i : nat) (x : T) : option (list T) :=
  if i <? length l then Some (upd l i x) else None.

(* NeighborList.cc:51-82  constructor from arrays; None models std::invalid_argument *)
Fixpoint ctor_loop (nq np last : nat) (rows : list (nat * nat * vec3 * R)) : option (list bond) :=
  match rows with
  | [] => Some []
  | (qi, pi, v, w) :: rows =>
      if qi <? last then None
      else if nq <=? qi then None
      else if np <=? pi then None
      else option_map (cons (bond_of_vector qi pi w v)) (ctor_loop nq np qi rows)
  end.
(* locality.py:485-560  from_arrays: shape checks, weights default to 1, then the C++ constructor *)
Definition from_arrays (nq np : nat) (qs ps : list nat) (vs : list vec3) (ws : option (list R)) : option nlist :=
  let n := length qs in
  let ws := match ws with Some w => w | None => repeat 1%R n end in
  if negb (length ps =? n) then None
  else if negb (length vs =? n) then None
  else if negb (length ws =? n) then None
  else option_map (fun bs => NL nq np bs false (repeat 0 nq) (repeat 0 nq))
         (ctor_loop nq np 0 (combine (combine (combine qs ps) vs) ws)).

(* NeighborList.cc:111-125  inner loop over points j for query point i *)
Fixpoint ap_inner (b : box) (points : list vec3) (q : vec3) (i : nat) (excl : bool) (js : list nat)
         (idx : nat) (arr : list bond) : option (list bond) :=
  match js with
  | [] => Some arr
  | j :: js =>
      if excl && (i =? j) then ap_inner b points q i excl js idx arr
      else
        let dr := wrap b (vsub q (nth j points v0)) in
        match wr arr idx (Bond i j (sqrt (dot dr dr)) 1%R dr) with
        | Some arr => ap_inner b points q i excl js (S idx) arr
        | None => None
        end
  end.
(* NeighborList.cc:101-109 *)
Definition ap_offset (np i : nat) (excl : bool) : nat := i * np - (if excl then Nat.min i np else 0).
Definition ap_row (b : box) (points qpoints : list vec3) (excl : bool) (i : nat) (arr : list bond) : option (list bond) :=
  let np := length points in
  ap_inner b points (nth i qpoints v0) i excl (range 0 np) (ap_offset np i excl) arr.
(* NeighborList.cc:84-128  all-pairs constructor; [ev] is the execution of the parallel loop *)
Definition all_pairs (b : box) (points qpoints : list vec3) (excl : bool) (ev : list (nat * nat)) : option nlist :=
  let np := length points in let nq := length qpoints in
  let num_ii := if excl then Nat.min np nq else 0 in
  let num_bonds := np * nq - num_ii in
  option_map (fun bs => NL nq np bs false (repeat 0 nq) (repeat 0 nq))
    (fold_left (fun o e => match o with Some a => ap_row b points qpoints excl (snd e) a | None => None end)
               ev (Some (repeat bond0 num_bonds))).

(* NeighborList.cc:130-174  constructor from a bond vector.  [ev] schedules the loop.  With no bond at all the
   code dereferences max_element of an empty range: undefined behaviour, modelled by None. *)
Definition max_of (l : list nat) : option nat :=
  match l with [] => None | x :: l => Some (fold_left Nat.max l x) end.
Definition from_bonds (bonds : list bond) (ev : list (nat * nat)) : option nlist :=
  let get i := nth i bonds bond0 in
  let arr := fold_left (fun a e => upd a (snd e) (get (snd e))) ev (repeat bond0 (length bonds)) in
  let step f := fun (i : nat) (m : nat) => if m <? f (get i) then f (get i) else m in
  let maxp := max_of (map snd (run_local 0 (step bp) ev [])) in
  let maxq := max_of (map snd (run_local 0 (step bq) ev [])) in
  match maxp, maxq with
  | Some p, Some q => Some (NL (q + 1) (p + 1) arr false (repeat 0 (q + 1)) (repeat 0 (q + 1)))
  | _, _ => None
  end.

(* NeighborList.cc:199-232  updateSegmentCounts.  last = None is INDEX_TERMINATOR. *)
Fixpoint seg_loop (bs : list bond) (i : nat) (last : option nat) (counter : nat) (segs counts : list nat)
  : option (option nat * nat * list nat * list nat) :=
  match bs with
  | [] => Some (last, counter, segs, counts)
  | b :: bs =>
      let index := bq b in
      if match last with Some l => index =? l | None => false end
      then seg_loop bs (S i) (Some index) (S counter) segs counts
      else
        match wr segs index i with
        | None => None
        | Some segs =>
            if 0 <? index then
              match last with
              | Some l => match wr counts l counter with
                          | None => None
                          | Some counts => seg_loop bs (S i) (Some index) 1 segs counts
                          end
              | None => seg_loop bs (S i) (Some index) 1 segs counts
              end
            else seg_loop bs (S i) (Some index) (S counter) segs counts
        end
  end.
Definition update_segment_counts (nl : nlist) : option nlist :=
  if nl_updated nl then Some nl
  else
    match seg_loop (nl_bonds nl) 0 None 0 (repeat 0 (nl_nq nl)) (repeat 0 (nl_nq nl)) with
    | None => None
    | Some (last, counter, segs, counts) =>
        match last with
        | None => Some (NL (nl_nq nl) (nl_np nl) (nl_bonds nl) true segs counts)
        | Some l => match wr counts l counter with
                    | None => None
                    | Some counts => Some (NL (nl_nq nl) (nl_np nl) (nl_bonds nl) true segs counts)
                    end
        end
    end.
(* NeighborList.h:86-96 *)
Definition get_counts (nl : nlist) : option (list nat * nlist) :=
  option_map (fun n => (nl_counts n, n)) (update_segment_counts nl).
Definition get_segments (nl : nlist) : option (list nat * nlist) :=
  option_map (fun n => (nl_segments n, n)) (update_segment_counts nl).

(* NeighborList.cc:255-269  copy loop of filter: i over old bonds, num_good over new ones *)
Fixpoint filter_loop (bs : list bond) (mask : list bool) (num_good : nat) (arr : list bond) : option (list bond) :=
  match bs with
  | [] => Some arr
  | b :: bs =>
      match mask with
      | [] => None                                   (* reads past the end of the mask: undefined behaviour *)
      | true :: mask => match wr arr num_good b with
                        | Some arr => filter_loop bs mask (S num_good) arr
                        | None => None
                        end
      | false :: mask => filter_loop bs mask num_good arr
      end
  end.
(* NeighborList.cc:239-277  filter; returns the number of removed bonds *)
Definition nl_filter (nl : nlist) (mask : list bool) : option (nlist * nat) :=
  let old_size := length (nl_bonds nl) in
  let new_size := count_occ bool_dec (firstn old_size mask) true in
  option_map (fun bs => (NL (nl_nq nl) (nl_np nl) bs false (nl_segments nl) (nl_counts nl), old_size - new_size))
    (filter_loop (nl_bonds nl) mask 0 (repeat bond0 new_size)).
(* NeighborList.cc:286-307  filter_r *)
Definition nl_filter_r (nl : nlist) (r_max r_min : R) : option (nlist * nat) :=
  if Rleb r_max 0 then None
  else if Rltb r_min 0 then None
  else if Rleb r_max r_min then None
  else nl_filter nl (map (fun b => Rleb r_min (bd b) && Rltb (bd b) r_max) (nl_bonds nl)).

(* NeighborList.cc:416-430  bisection_search; fuel is the width of the interval *)
Fixpoint bisection (fuel : nat) (bs : list bond) (val left right : nat) : nat :=
  match fuel with
  | O => left
  | S fuel =>
      if right <=? left + 1 then left
      else
        let middle := (left + right) / 2 in
        if bq (nth middle bs bond0) <? val then bisection fuel bs val middle right
        else bisection fuel bs val left middle
  end.
(* NeighborList.cc:309-316 *)
Definition find_first_index (nl : nlist) (i : nat) : nat :=
  let n := length (nl_bonds nl) in
  if n =? 0 then 0
  else bisection n (nl_bonds nl) i 0 n + (if bq (nth 0 (nl_bonds nl) bond0) <? i then 1 else 0).

(* NeighborList.cc:346-357 (and the copy constructor 44-49) *)
Definition nl_copy (nl : nlist) : nlist := nl.
(* NeighborList.cc:359-369  validate; false models std::runtime_error *)
Definition nl_validate (nl : nlist) (nq np : nat) : bool := (nq =? nl_nq nl) && (np =? nl_np nl).

(* NeighborList.cc:371-399  sort: toBondVector, sort, write back in parallel ([ev]); segment flag untouched *)
Definition nl_sort (by_distance : bool) (ev : list (nat * nat)) (nl nl' : nlist) : Prop :=
  exists l, sort_result (if by_distance then less_as_distance else less_as_tuple) (nl_bonds nl) l /\
    nl' = NL (nl_nq nl) (nl_np nl)
             (fold_left (fun a e => upd a (snd e) (nth (snd e) l bond0)) ev (nl_bonds nl))
             (nl_updated nl) (nl_segments nl) (nl_counts nl).

(* NeighborQuery.h:434-481  toNeighborList.  [per_point i] is what the per-point iterator of query point i
   delivers; each bond's distance is recomputed from its vector.  [ev] schedules the query loop, [ev2] the
   write-back. *)
Definition rebuild (b : bond) : bond := bond_of_vector (bq b) (bp b) (bw b) (bv b).
Definition to_neighbor_list (by_distance : bool) (nq np : nat) (per_point : nat -> list bond)
           (ev ev2 : list (nat * nat)) (nl : nlist) : Prop :=
  let locs := run_local [] (fun i acc => acc ++ map rebuild (per_point i)) ev [] in
  exists l, sort_result (if by_distance then less_as_distance else less_as_tuple) (flat_map snd locs) l /\
    nl = NL nq np (fold_left (fun a e => upd a (snd e) (nth (snd e) l bond0)) ev2 (repeat bond0 (length l)))
            false [] [].

(* NeighborComputeFunctional.h:40-86  NeighborListPerPointIterator (lines relative to the file) *)
Record nl_iter := NLI { it_cur : nat; it_ret : option nat; it_fin : bool }.
Definition iter_init (nl : nlist) (i : nat) : nl_iter :=
  let cur := find_first_index nl i in
  let n := length (nl_bonds nl) in
  if cur =? n then NLI cur None true else NLI cur (Some (bq (nth cur (nl_bonds nl) bond0))) false.
(** None is ITERATOR_TERMINATOR. *)
Definition iter_next (nl : nlist) (it : nl_iter) : option bond * nl_iter :=
  if it_cur it =? length (nl_bonds nl) then (None, NLI (it_cur it) (it_ret it) true)
  else let b := nth (it_cur it) (nl_bonds nl) bond0 in
       (Some b, NLI (S (it_cur it)) (Some (bq b)) (it_fin it)).
Definition iter_end (i : nat) (it : nl_iter) : bool :=
  negb (match it_ret it with Some r => r =? i | None => false end) || it_fin it.
(** The loop every compute uses: for (nb = it.next(); !it.end(); nb = it.next()) use(nb).
    None: the terminator would be used as a bond, or the loop does not stop within the fuel. *)
Fixpoint visit (fuel : nat) (nl : nlist) (i : nat) (nb : option bond) (it : nl_iter) : option (list bond) :=
  if iter_end i it then Some []
  else match fuel, nb with
       | S fuel, Some b => let (nb', it') := iter_next nl it in option_map (cons b) (visit fuel nl i nb' it')
       | _, _ => None
       end.
Definition iterate (nl : nlist) (i : nat) : option (list bond) :=
  let (nb, it) := iter_next nl (iter_init nl i) in visit (S (length (nl_bonds nl))) nl i nb it.

(* NeighborComputeFunctional.h:112-150 loopOverNeighborsIterator, list branch: the callback for query point i
   consumes the iterator of i; result in order of execution *)
Fixpoint loop_over_iterator (nl : nlist) (ev : list (nat * nat)) : option (list (nat * list bond)) :=
  match ev with
  | [] => Some []
  | (_, i) :: ev => match iterate nl i, loop_over_iterator nl ev with
                    | Some l, Some r => Some ((i, l) :: r)
                    | _, _ => None
                    end
  end.
(* NeighborComputeFunctional.h:180-194 loopOverNeighbors, list branch *)
Definition loop_over_neighbors (nl : nlist) (ev : list (nat * nat)) : list bond :=
  map (fun e => nth (snd e) (nl_bonds nl) bond0) ev.
(* NeighborComputeFunctional.h:197-217 loopOverNeighbors, query branch *)
Definition loop_over_query (per_point : nat -> list bond) (ev : list (nat * nat)) : list bond :=
  flat_map (fun e => per_point (snd e)) ev.

(* NeighborComputeFunctional.cc:16-33  makeDefaultNlist, list branch *)
Definition make_default_nlist (nl : nlist) (nq np : nat) : option nlist :=
  if nl_validate nl nq np then Some nl else None.
