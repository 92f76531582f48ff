(** Model of freud.locality.Voronoi (freud/locality/Voronoi.cc, Voronoi.h, locality.py:1159-1270) and of the part of NeighborList it
    writes to. voro++ itself is not modelled: its output for each particle, in its own flat array format, is an input ([vcell]).
    Exact reals. [None]: an array is read outside its bounds. *)
From Verif Require Export NListModel BoxPyModel.
From Coq Require Import Reals List Bool Arith.
Import ListNotations.
Local Open Scope R_scope.

(** What voro++ reports for one particle: id, position, face_areas, face_vertices, neighbors, normals, vertices, volume (Voronoi.cc:72-87, 139).
    Neighbour ids are non-negative, as a container_periodic has no walls. *)
Record vcell := VC { vc_pid : nat; vc_pos : vec3; vc_areas : list R; vc_fverts : list nat; vc_neigh : list nat; vc_normals : list R; vc_verts : list R; vc_vol : R }.

(* Voronoi.cc:90-114  vertices relative to the particle *)
Fixpoint rel_vertices (is2d : bool) (pos : vec3) (vs : list R) : option (list vec3) :=
  match vs with
  | [] => Some []
  | x :: y :: z :: r =>
      if is2d && Rltb z 0 then rel_vertices is2d pos r
      else option_map (cons (vsub (V3 x y (if is2d then 0 else z)) pos)) (rel_vertices is2d pos r)
  | _ => None
  end.
(* Voronoi.cc:117-123  comparison of the std::sort in 2D *)
Definition angle_lt (a b : vec3) : bool := Rltb (atan2 (vy a) (vx a)) (atan2 (vy b) (vx b)).
(** std::sort: some permutation in which no later element is less than an earlier one. *)
Definition sorted_by {A} (lt : A -> A -> bool) (l l' : list A) : Prop := Permutation l l' /\ ForallOrdPairs (fun x y => lt y x = false) l'.

(** Three consecutive doubles (Voronoi.cc:149-150, 177-179). *)
Definition vread (l : list R) (i : nat) : option vec3 :=
  match nth_error l (3 * i), nth_error l (3 * i + 1), nth_error l (3 * i + 2) with Some x, Some y, Some z => Some (V3 x y z) | _, _, _ => None end.
(* Voronoi.cc:175-182; [Some None]: NaN (vertex at the particle) *)
Definition face_cosine (verts : list R) (pos n : vec3) (i : nat) : option (option R) :=
  option_map (fun rv => let riv := vsub rv pos in
     if Reqb (sqrt (dot riv riv)) 0 then None else Some (dot riv n / sqrt (dot riv riv) / sqrt (dot n n))) (vread verts i).
(** Comparison with NaN is false. *)
Definition cos_lt (a b : option R) : bool := match a, b with Some x, Some y => Rltb x y | _, _ => false end.
(** std::max_element over [l] after its first element [m] *)
Fixpoint max_element (f : nat -> option (option R)) (m : nat) (l : list nat) : option nat :=
  match l with
  | [] => Some m
  | x :: l => match f m, f x with Some a, Some b => max_element f (if cos_lt a b then x else m) l | _, _ => None end
  end.
(* Voronoi.cc:184-189: the range is [idx+1, idx+count), so the last vertex of the face is left out; the iterator is dereferenced *)
Definition face_vertex (verts : list R) (fv : list nat) (pos n : vec3) (idx count : nat) : option nat :=
  match count with
  | O => None
  | S _ => match nth_error fv (idx + 1) with
           | None => None
           | Some first => if (length fv <? idx + count)%nat then None else max_element (face_cosine verts pos n) first (firstn (count - 2) (skipn (idx + 2) fv))
           end
  end.
(* Voronoi.cc:159-160 *)
Definition face_skipped (is2d : bool) (n : vec3) : bool :=
  (is2d && Rltb (1 / 2) (Rabs (vz n))) || (Reqb (vx n) 0 && Reqb (vy n) 0 && Reqb (vz n) 0).
(* Voronoi.cc:142-201  loop over the faces *)
Fixpoint face_loop (is2d : bool) (c : vcell) (neigh : list nat) (counter idx : nat) : option (list bond) :=
  match neigh with
  | [] => Some []
  | j :: rest =>
      match vread (vc_normals c) counter, nth_error (vc_fverts c) idx with
      | Some n, Some count =>
          let next := face_loop is2d c rest (S counter) (idx + (count + 1)) in
          if face_skipped is2d n then next
          else match nth_error (vc_areas c) counter, face_vertex (vc_verts c) (vc_fverts c) (vc_pos c) n idx count with
               | Some w, Some v =>
                   match vread (vc_verts c) v with
                   | Some rv => let riv := vsub rv (vc_pos c) in option_map (cons (bond_of_vector (vc_pid c) j w (vscale (2 * dot riv n) n))) next
                   | None => None
                   end
               | _, _ => None
               end
      | _, _ => None
      end
  end.

(* Voronoi.cc:72-203  the loop over all particles in voro++'s order: polytopes and volumes are written at the particle's id, bonds appended *)
Fixpoint vor_loop (is2d : bool) (points : list vec3) (cells : list vcell) (polys : list (list vec3)) (vols : list R) (bonds : list bond)
         (polys' : list (list vec3)) (vols' : list R) (bonds' : list bond) : Prop :=
  match cells with
  | [] => polys' = polys /\ vols' = vols /\ bonds' = bonds
  | c :: cs => exists rel srt sys bs polys1 vols1,
      rel_vertices is2d (vc_pos c) (vc_verts c) = Some rel /\
      (if is2d then sorted_by angle_lt rel srt else srt = rel) /\
      nth_error points (vc_pid c) = Some sys /\
      wr polys (vc_pid c) (map (fun r => vadd r sys) srt) = Some polys1 /\
      wr vols (vc_pid c) (vc_vol c) = Some vols1 /\
      face_loop is2d c (vc_neigh c) 0 0 = Some bs /\
      vor_loop is2d points cs polys1 vols1 (bonds ++ bs) polys' vols' bonds'
  end.

(* NeighborBond.h:67-78 *)
Definition less_id_ref_weight (a b : bond) : bool :=
  if negb (bq a =? bq b)%nat then (bq a <? bq b)%nat
  else if negb (bp a =? bp b)%nat then (bp a <? bp b)%nat
  else Rltb (bw a) (bw b).
(* NeighborList.cc:317-343 resize, 191-197 setNumBonds *)
Definition nl_resize (m : nat) (nl : nlist) : nlist :=
  NL (nl_nq nl) (nl_np nl) (if (m <=? length (nl_bonds nl))%nat then firstn m (nl_bonds nl) else repeat bond0 m) false (nl_segments nl) (nl_counts nl).
Definition nl_set_num_bonds (m nq np : nat) (nl : nlist) : nlist :=
  let nl := nl_resize m nl in NL nq np (nl_bonds nl) false (nl_segments nl) (nl_counts nl).
(** std::vector::resize *)
Definition vec_resize {A} (d : A) (n : nat) (l : list A) : list A := firstn n l ++ repeat d (n - length l).

(** The C++ objects: a heap of NeighborLists, and Voronoi objects holding the address of theirs (a shared_ptr made once, Voronoi.h:21).
    [vo_computed] is the Python wrapper's flag (C60), [vo_2d] the stored box. *)
Definition heap := nat -> nlist.
Record vobj := VO { vo_addr : nat; vo_poly : list (list vec3); vo_vol : list R; vo_2d : bool; vo_computed : bool }.
Definition hset (h : heap) (a : nat) (nl : nlist) : heap := fun x => if (x =? a)%nat then nl else h x.
(* Voronoi.cc:31-221, locality.py:1177-1188; [ev]: execution of the write-back loop. The periodic flags of the box are never read. *)
Definition vor_compute (b : box) (points : list vec3) (cells : list vcell) (ev : list (nat * nat)) (hv hv' : heap * vobj) : Prop :=
  let (h, v) := hv in
  let n := length points in
  exists polys vols bonds srt,
    vor_loop (b_2d b) points cells (vec_resize [] n (vo_poly v)) (repeat 0 n) [] polys vols bonds /\
    sort_result less_id_ref_weight bonds srt /\
    (let nl0 := nl_set_num_bonds (length srt) n n (nl_resize (length srt) (h (vo_addr v))) in
     let nl1 := NL n n (fold_left (fun a e => upd a (snd e) (nth (snd e) srt bond0)) ev (nl_bonds nl0)) false (nl_segments nl0) (nl_counts nl0) in
     hv' = (hset h (vo_addr v) nl1, VO (vo_addr v) polys vols (b_2d b) true)).
(* Voronoi.h:21: a new object with a new, empty NeighborList at a free address *)
Definition vor_new (a : nat) : vobj := VO a [] [] false false.
(* locality.py:1190-1232  the properties; None: AttributeError before compute. [nlist] returns a Python object pointing at the same
   C++ list (_nlist_from_cnlist, locality.py:754-775), i.e. its address; [volumes] the array made by the last compute. *)
Definition vor_polytopes (v : vobj) : option (list (list vec3)) := if vo_computed v then Some (vo_poly v) else None.
Definition vor_volumes (v : vobj) : option (list R) := if vo_computed v then Some (vo_vol v) else None.
Definition vor_nlist (v : vobj) : option nat := if vo_computed v then Some (vo_addr v) else None.
(* locality.py:600-640 NeighborList.filter through such an object *)
Definition heap_filter (h : heap) (a : nat) (mask : list bool) : option heap := option_map (fun r => hset h a (fst r)) (nl_filter (h a) mask).
