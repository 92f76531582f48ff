(** Model of freud/locality/AABB.h, AABBTree.h (build, skip pointers, query).
    Simplifications: coordinates are exact reals; the array of boxes and the array of indices, which the code
    always permutes together, are one list of pairs; node particle arrays are lists whose length is
    num_particles; the reverse mapping (m_mapping) and update()/height(), which no query uses, are left out;
    memory growth in allocateNode is list append. *)
From Verif Require Export NListModel.
Open Scope nat_scope.

(* AABB.h:60-72 ; tag for points (139-152) *)
Record aabb := AB { ab_lo : vec3; ab_hi : vec3; ab_tag : nat }.
Definition aabb0 : aabb := AB v0 v0 0.
Definition aabb_point (p : vec3) (tag : nat) : aabb := AB p p tag.
(* AABB.h:155-167  getPosition *)
Definition aabb_pos (a : aabb) : vec3 := vscale (1 / 2) (vadd (ab_lo a) (ab_hi a)).
(* AABB.h:393-413  merge (tag left at its default 0) *)
Definition vmin (a b : vec3) : vec3 := V3 (Rmin (vx a) (vx b)) (Rmin (vy a) (vy b)) (Rmin (vz a) (vz b)).
Definition vmax (a b : vec3) : vec3 := V3 (Rmax (vx a) (vx b)) (Rmax (vy a) (vy b)) (Rmax (vz a) (vz b)).
Definition merge (a b : aabb) : aabb := AB (vmin (ab_lo a) (ab_lo b)) (vmax (ab_hi a) (ab_hi b)) 0.
(* AABB.h:315-328  overlap of two boxes *)
Definition overlap_box (a b : aabb) : bool :=
  Rleb (vx (ab_lo a)) (vx (ab_hi b)) && Rleb (vx (ab_lo b)) (vx (ab_hi a)) &&
  (Rleb (vy (ab_lo a)) (vy (ab_hi b)) && Rleb (vy (ab_lo b)) (vy (ab_hi a))) &&
  (Rleb (vz (ab_lo a)) (vz (ab_hi b)) && Rleb (vz (ab_lo b)) (vz (ab_hi a))).
(* AABB.h:335-356  overlap of a box and a sphere *)
Definition clamp_delta (p lo hi : R) : R := (Rmin (Rmax p lo) hi - p)%R.
Definition overlap_sphere (a : aabb) (c : vec3) (r : R) : bool :=
  let d := V3 (clamp_delta (vx c) (vx (ab_lo a)) (vx (ab_hi a))) (clamp_delta (vy c) (vy (ab_lo a)) (vy (ab_hi a)))
              (clamp_delta (vz c) (vz (ab_lo a)) (vz (ab_hi a))) in
  Rltb (dot d d) (r * r).

(* AABBTree.h:33-58 ; None is INVALID_NODE *)
Definition NODE_CAPACITY : nat := 16.
Record node := Node { n_box : aabb; n_left : option nat; n_right : option nat; n_parent : option nat;
                      n_skip : nat; n_parts : list nat; n_tags : list nat }.
Definition node0 : node := Node aabb0 None None None 0 [] [].
Definition is_leaf (n : node) : bool := match n_left n with None => true | Some _ => false end.

Definition swap {T} (d : T) (l : list T) (i j : nat) : list T := upd (upd l i (nth j l d)) j (nth i l d).
Definition elt0 : aabb * nat := (aabb0, 0).

(* AABBTree.h:455-475 (and 477-497, 499-519 for the other axes): quick-sort style partition.
   None: the loop did not stop within the fuel. *)
Fixpoint part_loop (fuel : nat) (axis : vec3 -> R) (mid : R) (arr : list (aabb * nat)) (start i sr : nat)
  : option (list (aabb * nat) * nat) :=
  if i <? sr then
    match fuel with
    | O => None
    | S fuel =>
        if Rltb (axis (aabb_pos (fst (nth (start + i) arr elt0)))) mid
        then part_loop fuel axis mid arr start (S i) sr
        else part_loop fuel axis mid (swap elt0 arr (start + i) (start + sr - 1)) start i (sr - 1)
    end
  else Some (arr, sr).

(* AABBTree.h:409-547  buildNode.  None: out of fuel. *)
Fixpoint build_node (fuel : nat) (arr : list (aabb * nat)) (nodes : list node) (start len : nat) (parent : option nat)
  : option (nat * list (aabb * nat) * list node) :=
  match fuel with
  | O => None
  | S fuel =>
      let my := fold_left (fun m i => merge m (fst (nth (start + i) arr elt0))) (seq 1 (len - 1)) (fst (nth start arr elt0)) in
      if len <=? NODE_CAPACITY then
        let sub := firstn len (skipn start arr) in
        Some (length nodes, arr, nodes ++ [Node my None None parent 0 (map snd sub) (map (fun e => ab_tag (fst e)) sub)])
      else
        let my_idx := length nodes in
        let nodes := nodes ++ [node0] in
        let radius := vsub (ab_hi my) (ab_lo my) in
        let axis := if Rltb (vy radius) (vx radius) && Rltb (vz radius) (vx radius) then vx
                    else if Rltb (vz radius) (vy radius) then vy else vz in
        match (if len =? 2 then Some (arr, len) else part_loop len axis (axis (aabb_pos my)) arr start 0 len) with
        | None => None
        | Some (arr, sr) =>
            let sr := if sr =? len then len - 1 else sr in
            let sr := if sr =? 0 then 1 else sr in
            match build_node fuel arr nodes start sr (Some my_idx) with
            | None => None
            | Some (l, arr, nodes) =>
                match build_node fuel arr nodes (start + sr) (len - sr) (Some my_idx) with
                | None => None
                | Some (r, arr, nodes) =>
                    Some (my_idx, arr, upd nodes my_idx (Node my (Some l) (Some r) parent 0 [] []))
                end
            end
        end
  end.

(* AABBTree.h:556-572  updateSkip *)
Fixpoint update_skip (fuel : nat) (nodes : list node) (idx : nat) : option (nat * list node) :=
  match fuel with
  | O => None
  | S fuel =>
      let n := nth idx nodes node0 in
      match n_left n, n_right n with
      | Some l, Some r =>
          match update_skip fuel nodes l with
          | None => None
          | Some (a, nodes) =>
              match update_skip fuel nodes r with
              | None => None
              | Some (b, nodes) =>
                  let n := nth idx nodes node0 in
                  Some (a + b + 1, upd nodes idx (Node (n_box n) (n_left n) (n_right n) (n_parent n) (a + b) (n_parts n) (n_tags n)))
              end
          end
      | _, _ => Some (1, nodes)
      end
  end.

(* AABBTree.h:380-393  buildTree ; AABBQuery.cc:54-71  the boxes are the points (z forced to 0 in 2D), tagged by index *)
Definition build_tree (boxes : list aabb) : option (list node) :=
  let N := length boxes in
  match build_node N (combine boxes (seq 0 N)) [] 0 N None with
  | None => None
  | Some (root, _, nodes) => option_map snd (update_skip (length nodes) nodes root)
  end.
Definition flat_z (b : box) (p : vec3) : vec3 := if b_2d b then V3 (vx p) (vy p) 0 else p.
Definition aabb_query_tree (b : box) (points : list vec3) : option (list node) :=
  build_tree (map (fun ip => aabb_point (flat_z b (snd ip)) (fst ip)) (combine (seq 0 (length points)) points)).

(* AABBTree.h:288-317  query: stackless search for the particles of all overlapping leaves *)
Fixpoint tree_query (fuel : nat) (nodes : list node) (a : aabb) (k : nat) : option (list nat) :=
  if k <? length nodes then
    match fuel with
    | O => None
    | S fuel =>
        let n := nth k nodes node0 in
        if overlap_box (n_box n) a
        then option_map (app (if is_leaf n then n_parts n else [])) (tree_query fuel nodes a (S k))
        else tree_query fuel nodes a (S (k + n_skip n))
    end
  else Some [].

(* NeighborQuery.h:496-565  updateImageVectors.  None models the exception for a too large radius. *)
Definition image_check (b : box) (r : R) : bool :=
  let p := plane_distance b in
  (b_px b && Rleb (vx p) (r * 2)) || (b_py b && Rleb (vy p) (r * 2)) || (negb (b_2d b) && b_pz b && Rleb (vz p) (r * 2)).
Definition n_images (b : box) : nat :=
  Nat.pow 3 ((if b_px b then 1 else 0) + (if b_py b then 1 else 0) + (if b_2d b then 0 else if b_pz b then 1 else 0)).
Definition lattice_or_zero (b : box) (i : nat) : vec3 := match lattice_vector b i with Some v => v | None => v0 end.
(** The triple loop, with its early exit once the list is full. *)
Definition image_step (b : box) (total : nat) (acc : list vec3) (t : Z * Z * Z) : list vec3 :=
  let '(i, j, k) := t in
  if negb (length acc <? total) then acc
  else if (Z.eqb i 0 && Z.eqb j 0 && Z.eqb k 0) then acc
  else if (negb (Z.eqb i 0) && negb (b_px b)) || (negb (Z.eqb j 0) && negb (b_py b)) ||
          (negb (Z.eqb k 0) && (b_2d b || negb (b_pz b))) then acc
  else acc ++ [vadd (vadd (vscale (IZR i) (lattice_or_zero b 0)) (vscale (IZR j) (lattice_or_zero b 1)))
                    (vscale (IZR k) (if b_2d b then v0 else lattice_or_zero b 2))].
Definition triples : list (Z * Z * Z) :=
  flat_map (fun i => flat_map (fun j => map (fun k => (i, j, k)) [-1; 0; 1]%Z) [-1; 0; 1]%Z) [-1; 0; 1]%Z.
Definition image_vectors (b : box) (r : R) (check : bool) : option (list vec3) :=
  if check && image_check b r then None
  else Some (fold_left (image_step b (n_images b)) triples [v0]).

(* AABBQuery.h:166-180 member state of AABBQueryBallIterator *)
Record ball_state := BS { s_img : nat; s_node : nat; s_ref : nat }.
Inductive ball_event := Emit (x : bond) (s : ball_state) | Go (s : ball_state) | Finished.
(* AABBQuery.cc:79-149  one turn of the nested loops of AABBQueryBallIterator::next.  Since all loop variables
   are members, re-entering next() after a returned bond resumes exactly where it left. *)
Definition ball_step (b : box) (points : list vec3) (nodes : list node) (images : list vec3)
    (q : vec3) (qi : nat) (r_max r_min : R) (excl : bool) (s : ball_state) : ball_event :=
  if s_img s <? length images then
    let pos_i := vadd (flat_z b q) (nth (s_img s) images v0) in
    if s_node s <? length nodes then
      let n := nth (s_node s) nodes node0 in
      if overlap_sphere (n_box n) pos_i r_max then
        if is_leaf n && (s_ref s <? length (n_tags n)) then
          let j := nth (s_ref s) (n_tags n) 0 in
          let s' := BS (s_img s) (s_node s) (S (s_ref s)) in
          if excl && (qi =? j) then Go s'
          else
            let r_ij := vsub (flat_z b (nth j points v0)) pos_i in
            let r_sq := dot r_ij r_ij in
            if Rltb r_sq (r_max * r_max) && Rleb (r_min * r_min) r_sq
            then Emit (Bond qi j (sqrt r_sq) 1%R r_ij) s'
            else Go s'
        else Go (BS (s_img s) (S (s_node s)) 0)
      else Go (BS (s_img s) (S (s_node s + n_skip n)) 0)
    else Go (BS (S (s_img s)) 0 (s_ref s))
  else Finished.
(** next(): run until a bond is returned or the search is over.  None: out of fuel. *)
Fixpoint ball_next (fuel : nat) (step : ball_state -> ball_event) (s : ball_state) : option (option bond * ball_state) :=
  match fuel with
  | O => None
  | S fuel => match step s with
              | Emit x s => Some (Some x, s)
              | Go s => ball_next fuel step s
              | Finished => Some (None, s)
              end
  end.
(** while (!it.end()) { nb = it.next(); if (nb != ITERATOR_TERMINATOR) use(nb) }  (NeighborQuery.h:447-459) *)
Fixpoint ball_drain (fuel : nat) (step : ball_state -> ball_event) (s : ball_state) : option (list bond) :=
  match fuel with
  | O => None
  | S f => match ball_next fuel step s with
           | None => None
           | Some (None, _) => Some []
           | Some (Some x, s) => option_map (cons x) (ball_drain f step s)
           end
  end.
Definition drains (step : ball_state -> ball_event) (s : ball_state) (res : list bond) : Prop :=
  exists fuel, ball_drain fuel step s = Some res.

(* NeighborQuery.h:318-333 (checks of the per-point iterator), AABBQuery.h:144-165, AABBQuery.cc:32-52:
   ball query of one point. Outcome None: an exception. *)
Definition point_args_ok (r_max r_min : R) : bool := Rltb 0 r_max && Rltb r_min r_max.
Definition aabb_ball (b : box) (points : list vec3) (q : vec3) (qi : nat) (r_max r_min : R) (excl check : bool)
    (res : option (list bond)) : Prop :=
  if point_args_ok r_max r_min then
    match image_vectors b r_max check, aabb_query_tree b points with
    | Some images, Some nodes =>
        exists l, res = Some l /\ drains (ball_step b points nodes images q qi r_max r_min excl) (BS 0 0 0) l
    | _, _ => res = None
    end
  else res = None.
