(** Model of freud/locality/Filter.h, FilterSANN.cc and FilterRAD.cc.
    Simplifications: exact reals; the array slice of query point i (first_idx .. first_idx + count) is passed to
    the shell construction as a list, and the indexed loops over it become list recursion. *)
From Verif Require Export NListModel.
Open Scope nat_scope.

(** Result of a compute call: exception, undefined behaviour (empty max_element in the bond-vector constructor),
    or the filtered list. *)
Inductive outcome := Raised | Undefined | Filtered (nl : nlist).

(* FilterSANN.cc:62-69  the three closest neighbours *)
Fixpoint sann_first (l : list bond) (m : nat) (sum : R) : list bond * list bond * nat * R :=
  match l with
  | x :: l' => if m <? 3 then let '(kept, rest, m', sum') := sann_first l' (S m) (sum + bd x)%R in (x :: kept, rest, m', sum')
               else ([], l, m, sum)
  | [] => ([], [], m, sum)
  end.
(* FilterSANN.cc:71-79  further neighbours while the shell radius exceeds the next distance *)
Fixpoint sann_more (l : list bond) (m : nat) (sum : R) : list bond * nat :=
  match l with
  | x :: l' => if Rltb (bd x) (sum / (INR m - 2))
               then let (kept, m') := sann_more l' (S m) (sum + bd x)%R in (x :: kept, m')
               else ([], m)
  | [] => ([], m)
  end.
(* FilterSANN.cc:55-89  shell of one query point: kept bonds and "unfilled" flag.  The bond is re-created with
   query index i (the same index the slice has). *)
Definition set_q (i : nat) (b : bond) : bond := Bond i (bp b) (bd b) (bw b) (bv b).
Definition sann_shell (i : nat) (l : list bond) : list bond * bool :=
  let '(k1, rest, m, sum) := sann_first l 0 0%R in
  let (k2, m') := sann_more rest m sum in
  (map (set_q i) (k1 ++ k2), m' =? length l).

(* FilterRAD.cc:76-90  does k block j?  vj, vk: wrapped query_point - point; dj, dk: distances in the list *)
Definition rad_blocks (rj rk : R) (vj vk : vec3) (dj dk : R) : bool :=
  Rltb (rj * rj * dot vk vk * dj * dk) (rk * rk * dot vj vk * dot vj vj).
(* FilterRAD.cc:62-104  loop over the neighbours j in order; prev: those before j, nearest first *)
Definition rad_vec (b : box) (points : list vec3) (q : vec3) (x : bond) : vec3 := wrap b (vsub q (nth (bp x) points v0)).
Definition rad_blocked (b : box) (points : list vec3) (radii : list R) (q : vec3) (prev : list bond) (x : bond) : bool :=
  existsb (fun k => rad_blocks (nth (bp x) radii 0%R) (nth (bp k) radii 0%R) (rad_vec b points q x) (rad_vec b points q k) (bd x) (bd k)) prev.
Fixpoint rad_loop (b : box) (points : list vec3) (radii : list R) (closed : bool) (i : nat) (q : vec3)
         (prev rest : list bond) (good : bool) : list bond * bool :=
  match rest with
  | [] => ([], good)
  | x :: rest =>
      if rad_blocked b points radii q prev x
      then if closed then ([], false)
           else rad_loop b points radii closed i q (prev ++ [x]) rest false
      else let (kept, g) := rad_loop b points radii closed i q (prev ++ [x]) rest true in
           (Bond i (bp x) (bd x) 1%R (rad_vec b points q x) :: kept, g)
  end.
(* FilterRAD.cc:60-117 *)
Definition rad_shell (b : box) (points : list vec3) (radii : list R) (closed : bool) (qpoints : list vec3)
           (i : nat) (l : list bond) : list bond * bool :=
  let (kept, good) := rad_loop b points radii closed i (nth i qpoints v0) [] l true in (kept, good && closed).

(* FilterRAD.cc:35-130 / FilterSANN.cc:29-102: copy and sort by distance, read counts, build the shell of every
   query point into thread-local vectors, raise if a shell is unfilled and this is not allowed (Filter.h:80-102),
   flatten, sort by distance, construct a list from the bond vector.  [res] is a possible result: the schedules
   of the parallel loops and the choices of the sorts among equivalent orders are existential. *)
Definition slice (nl : nlist) (counts : list nat) (i : nat) : list bond :=
  firstn (nth i counts 0) (skipn (find_first_index nl i) (nl_bonds nl)).
Definition filter_compute (shell : nat -> list bond -> list bond * bool) (allow : bool) (nl : nlist) (res : outcome) : Prop :=
  exists ev_sort sorted, execution 0 (length (nl_bonds nl)) ev_sort /\ nl_sort true ev_sort (nl_copy nl) sorted /\
  match get_counts sorted with
  | None => res = Undefined
  | Some (counts, s) =>
      exists ev, execution 0 (nl_nq s) ev /\
      let locs := run_local [] (fun i acc => acc ++ fst (shell i (slice s counts i))) ev [] in
      let unfilled := existsb (fun i => snd (shell i (slice s counts i))) (range 0 (nl_nq s)) in
      if unfilled && negb allow then res = Raised
      else exists l ev_new, sort_result less_as_distance (flat_map snd locs) l /\ execution 0 (length l) ev_new /\
             res = match from_bonds l ev_new with Some n => Filtered n | None => Undefined end
  end.
(* FilterSANN.cc:22-103 *)
Definition sann_compute (allow : bool) := filter_compute sann_shell allow.
(* FilterRAD.cc:22-131 ; radii default to 1 (28-33) *)
Definition rad_radii (points : list vec3) (radii : option (list R)) : list R :=
  match radii with Some r => r | None => repeat 1%R (length points) end.
Definition rad_compute (allow closed : bool) (b : box) (points qpoints : list vec3) (radii : option (list R)) :=
  filter_compute (rad_shell b points (rad_radii points radii) closed qpoints) allow.
