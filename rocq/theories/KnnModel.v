(** Model of the nearest-neighbour iterators: AABBQueryIterator (freud/locality/AABBQuery.cc:151-275, AABBQuery.h:117-152) and
    LinkCellQueryIterator (freud/locality/LinkCell.cc:575-679).
    Simplifications: coordinates are exact reals, an unbounded r_max (+infinity) is [Inf]; std::map and std::unordered_set are
    association lists and duplicate-free lists (their iteration order is lost in the following sort); std::sort is any result
    meeting its contract ([sort_result]).  LinkCell with num_neighbors = 0 indexes element -1 and has no outcome here. *)
From Verif Require Export AABBModel LinkCellModel.
Open Scope R_scope.

Inductive xreal := Fin (r : R) | Inf.
Definition xmin (a : R) (x : xreal) : R := match x with Fin r => Rmin a r | Inf => a end.
Definition xleb (x : xreal) (a : R) : bool := match x with Fin r => Rleb r a | Inf => false end.
Definition xltb (x : xreal) (a : R) : bool := match x with Fin r => Rltb r a | Inf => false end.

(* NeighborBond.h:62-65  operator<, used by std::sort of found neighbours *)
Definition less_dist (x y : bond) : bool := Rltb (bd x) (bd y).

(* AABBQuery.cc:153-160 *)
Definition min_plane (b : box) : R :=
  let p := plane_distance b in let m := Rmin (vx p) (vy p) in if b_2d b then m else Rmin m (vz p).
Definition max_plane (b : box) : R :=
  let p := plane_distance b in let m := Rmax (vx p) (vy p) in if b_2d b then m else Rmax m (vz p).

(** m_all_bonds_minimum_distance and m_query_points_below_r_min *)
Fixpoint find_bond (m : list (nat * bond)) (k : nat) : option bond :=
  match m with [] => None | (k', v) :: m => if Nat.eqb k k' then Some v else find_bond m k end.
Fixpoint put_bond (m : list (nat * bond)) (k : nat) (v : bond) : list (nat * bond) :=
  match m with [] => [(k, v)] | (k', v') :: m => if Nat.eqb k k' then (k, v) :: m else (k', v') :: put_bond m k v end.
Definition insert_set (s : list nat) (k : nat) : list nat := if existsb (Nat.eqb k) s then s else k :: s.
(* AABBQuery.cc:198-210  body for one bond when the search is extended *)
Definition keep_min (r_min : R) (st : list (nat * bond) * list nat) (x : bond) : list (nat * bond) * list nat :=
  let '(m, below) := st in
  if match find_bond m (bp x) with None => true | Some y => Rltb (bd x) (bd y) end
  then (put_bond m (bp x) x, if Rltb (bd x) r_min then insert_set below (bp x) else below)
  else st.
(* AABBQuery.cc:181-219  what one unchecked ball query leaves in the members *)
Definition knn_collect (ext : bool) (qi : nat) (r_min : R) (excl : bool) (found : list bond)
    : list bond * (list (nat * bond) * list nat) :=
  let l := filter (fun x => negb excl || negb (Nat.eqb qi (bp x))) found in
  if ext then ([], fold_left (keep_min r_min) l ([], [])) else (filter (fun x => Rleb r_min (bd x)) l, ([], [])).
(* AABBQuery.cc:172-262  the search loop, from the current radius and the extended flag to the sorted neighbours.
   None: an exception of the inner ball iterator. *)
Inductive knn_search (b : box) (points : list vec3) (q : vec3) (qi k : nat) (r_max : xreal) (r_min scale : R) (excl : bool)
    : bool -> R -> option (list bond) -> Prop :=
| ks_raise ext r : aabb_ball b points q qi (xmin r r_max) 0 excl false None ->
    knn_search b points q qi k r_max r_min scale excl ext r None
| ks_enough ext r found cur m below s :
    aabb_ball b points q qi (xmin r r_max) 0 excl false (Some found) -> knn_collect ext qi r_min excl found = (cur, (m, below)) ->
    (k <= length cur)%nat -> sort_result less_dist cur s ->
    knn_search b points q qi k r_max r_min scale excl ext r (Some s)
| ks_stop ext r found cur m below s :
    aabb_ball b points q qi (xmin r r_max) 0 excl false (Some found) -> knn_collect ext qi r_min excl found = (cur, (m, below)) ->
    (length cur < k)%nat ->
    xleb r_max (r * scale) || Rleb (max_plane b) (r * scale) || Nat.leb k (length m - length below) = true ->
    sort_result less_dist (cur ++ filter (fun x => Rleb r_min (bd x)) (map snd m)) s ->
    knn_search b points q qi k r_max r_min scale excl ext r (Some s)
| ks_again ext r found cur m below res :
    aabb_ball b points q qi (xmin r r_max) 0 excl false (Some found) -> knn_collect ext qi r_min excl found = (cur, (m, below)) ->
    (length cur < k)%nat ->
    xleb r_max (r * scale) || Rleb (max_plane b) (r * scale) || Nat.leb k (length m - length below) = false ->
    knn_search b points q qi k r_max r_min scale excl (ext || Rltb (min_plane b / 2) (r * scale)) (r * scale) res ->
    knn_search b points q qi k r_max r_min scale excl ext r res.
(* AABBQuery.cc:264-275 (LinkCell.cc:664-678 is the same): return at most k, stop at the first one beyond r_max *)
Fixpoint take_within (r_max : xreal) (l : list bond) : list bond :=
  match l with [] => [] | x :: l => if xltb r_max (bd x) then [] else x :: take_within r_max l end.
Definition deliver (k : nat) (r_max : xreal) (s : list bond) : list bond := take_within r_max (firstn k s).
(* NeighborQuery.h:318-333 *)
Definition near_args_ok (r_max : xreal) (r_min : R) : bool := negb (xleb r_max 0) && negb (xleb r_max r_min).
(* AABBQuery.h:121-131 and AABBQuery.cc:151-275 *)
Definition aabb_nearest (b : box) (points : list vec3) (q : vec3) (qi k : nat) (r_guess : R) (r_max : xreal) (r_min scale : R)
    (excl : bool) (res : option (list bond)) : Prop :=
  if near_args_ok r_max r_min then
    match image_vectors b 0 true with
    | None => res = None
    | Some _ => exists s, knn_search b points q qi k r_max r_min scale excl false r_guess s /\ res = option_map (deliver k r_max) s
    end
  else res = None.

(** *** LinkCell *)
(** IteratorLinkCell run to its end from position [c] of the cell list (LinkCell.h:170-215). *)
Inductive links (L : cell_list) : nat -> list nat -> Prop :=
| lk_end c : nth_error L c = Some None -> links L c []
| lk_next c j l : nth_error L c = Some (Some j) -> links L j l -> links L c (j :: l).
(* LinkCell.cc:601-620  the neighbours found in one cell *)
Definition xsq_ltb (r_sq : R) (r_max : xreal) : bool := match r_max with Fin r => Rltb r_sq (r * r) | Inf => true end.
Definition lk_bonds (lc : linkcell) (q : vec3) (qi : nat) (r_max : xreal) (r_min : R) (excl : bool) (js : list nat) : list bond :=
  flat_map (fun j => if excl && Nat.eqb qi j then [] else
    let r_ij := wrap (lc_box lc) (vsub (nth j (lc_points lc) v0) q) in
    let r_sq := dot r_ij r_ij in
    if xsq_ltb r_sq r_max && Rleb (r_min * r_min) r_sq then [Bond qi j (sqrt r_sq) 1 r_ij] else []) js.
(* LinkCell.cc:586-587 *)
Definition lk_max_range (lc : linkcell) : Z := (Zceil (min_plane (lc_box lc) / (2 * lc_width lc)) + 1)%Z.
(* LinkCell.cc:622-647  advance to the next cell not searched yet; None: the end of the last shell *)
Inductive lk_advance (lc : linkcell) (pc : Z * Z * Z) : shell -> list Z -> shell -> list Z -> option Z -> Prop :=
| la_end sh seen : sh_eqb (sh_next sh) (sh_reset (lk_max_range lc) (b_2d (lc_box lc))) = true ->
    lk_advance lc pc sh seen (sh_next sh) seen None
| la_fresh sh seen : sh_eqb (sh_next sh) (sh_reset (lk_max_range lc) (b_2d (lc_box lc))) = false ->
    existsb (Z.eqb (cell_index (lc_dim lc) (add3 pc (sh_pos (sh_next sh))))) seen = false ->
    lk_advance lc pc sh seen (sh_next sh) (cell_index (lc_dim lc) (add3 pc (sh_pos (sh_next sh))) :: seen)
      (Some (cell_index (lc_dim lc) (add3 pc (sh_pos (sh_next sh)))))
| la_skip sh seen sh' seen' o : sh_eqb (sh_next sh) (sh_reset (lk_max_range lc) (b_2d (lc_box lc))) = false ->
    existsb (Z.eqb (cell_index (lc_dim lc) (add3 pc (sh_pos (sh_next sh))))) seen = true ->
    lk_advance lc pc (sh_next sh) seen sh' seen' o -> lk_advance lc pc sh seen sh' seen' o.
(* LinkCell.cc:594-662  the search loop; [cell] is the cell whose members are read next *)
Inductive lk_search (lc : linkcell) (pc : Z * Z * Z) (q : vec3) (qi k : nat) (r_max : xreal) (r_min : R) (excl : bool)
    : Z -> shell -> list Z -> list bond -> list bond -> Prop :=
| ls_last cell sh seen cur js sh' seen' s :
    links (lc_list lc) (length (lc_points lc) + Z.to_nat cell) js -> lk_advance lc pc sh seen sh' seen' None ->
    sort_result less_dist (cur ++ lk_bonds lc q qi r_max r_min excl js) s ->
    lk_search lc pc q qi k r_max r_min excl cell sh seen cur s
| ls_early cell sh seen cur js sh' seen' c s :
    links (lc_list lc) (length (lc_points lc) + Z.to_nat cell) js -> lk_advance lc pc sh seen sh' seen' (Some c) ->
    sort_result less_dist (cur ++ lk_bonds lc q qi r_max r_min excl js) s ->
    (k <= length s)%nat -> bd (nth (k - 1) s bond0) < IZR (sh_range sh' - 1) * lc_width lc ->
    lk_search lc pc q qi k r_max r_min excl cell sh seen cur s
| ls_again cell sh seen cur js sh' seen' c s res :
    links (lc_list lc) (length (lc_points lc) + Z.to_nat cell) js -> lk_advance lc pc sh seen sh' seen' (Some c) ->
    sort_result less_dist (cur ++ lk_bonds lc q qi r_max r_min excl js) s ->
    ~ ((k <= length s)%nat /\ bd (nth (k - 1) s bond0) < IZR (sh_range sh' - 1) * lc_width lc) ->
    lk_search lc pc q qi k r_max r_min excl c sh' seen' s res -> lk_search lc pc q qi k r_max r_min excl cell sh seen cur res.
Definition lk_nearest (lc : linkcell) (q : vec3) (qi k : nat) (r_max : xreal) (r_min : R) (excl : bool) (res : option (list bond)) : Prop :=
  if near_args_ok r_max r_min then
    (0 < k)%nat /\ exists pc s, cell_coord (lc_box lc) (lc_dim lc) q = Some pc /\
      let sh := sh_reset 0 (b_2d (lc_box lc)) in
      lk_search lc pc q qi k r_max r_min excl (coord_to_index (lc_dim lc) pc) sh [cell_index (lc_dim lc) (add3 pc (sh_pos sh))] [] s /\
      res = Some (deliver k r_max s)
  else res = None.
