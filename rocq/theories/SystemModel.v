(** Model of the conversion of user data to boxes, point arrays and neighbour queries: Box.from_box for every kind of box-like object
    (freud/box.py:750-843), _convert_box and _convert_array (freud/util.py:86-168) and NeighborQuery.from_system (freud/locality.py:270-385).
    Python objects are an inductive type: what the code can ask of them.  Numbers are exact (float32 rounding of the inputs is left out);
    an exception of any kind is [None].  Classes of other libraries are recognised by their path, so that each is one constructor. *)
From Coq Require Import Reals List Bool.
Import ListNotations.
From Verif Require Export BoxPyModel.
From Verif Require Import RBase.
Open Scope R_scope.

(** Attributes or keys Lx .. yz, dimensions, each of which may be missing. *)
Record fields := Fields { g_Lx : option R; g_Ly : option R; g_Lz : option R; g_xy : option R; g_xz : option R; g_yz : option R; g_dims : option nat }.
(** What may stand for a box: a freud Box, an object with attributes, a dictionary, a sequence of numbers, a 3x3 matrix given by its rows
    (as a nested list or array is written), anything else. *)
Inductive box_like := BLBox (b : box) | BLAttr (f : fields) | BLDict (f : fields) | BLList (l : list R) | BLMatrix (r1 r2 r3 : vec3) | BLOther.
Definition orelse0 (o : option R) : R := match o with Some x => x | None => 0 end.
(* box.py:797-804, 814-822  the dimensions argument against those of the object; None: they differ *)
Definition merge_dims (dims own : option nat) : option (option nat) :=
  match dims, own with
  | None, _ => Some own
  | Some d, Some d' => if Nat.eqb d d' then Some (Some d) else None
  | Some d, None => Some (Some d)
  end.
(* box.py:839-843 *)
Definition finish_box (Lx Ly Lz xy xz yz : R) (dims : option nat) : option box :=
  let d := match dims with Some d => d | None => if Reqb Lz 0 then 2%nat else 3%nat end in
  py_box Lx Ly Lz xy xz yz (Some (Nat.eqb d 2)).
(* box.py:789-804, 806-822  Lx and Ly are required; a missing one ends in an exception: an object without them is not subscriptable, and a
   dictionary without them has no key 0 *)
Definition from_fields (f : fields) (dims : option nat) : option box :=
  match g_Lx f, g_Ly f with
  | Some Lx, Some Ly =>
      match merge_dims dims (g_dims f) with
      | Some d => finish_box Lx Ly (orelse0 (g_Lz f)) (orelse0 (g_xy f)) (orelse0 (g_xz f)) (orelse0 (g_yz f)) d
      | None => None
      end
  | _, _ => None
  end.
(* box.py:823-834 *)
Definition from_list (l : list R) (dims : option nat) : option box :=
  match l with
  | [Lx; Ly] => finish_box Lx Ly 0 0 0 0 dims
  | [Lx; Ly; Lz] => finish_box Lx Ly Lz 0 0 0 dims
  | [Lx; Ly; Lz; xy; xz; yz] => finish_box Lx Ly Lz xy xz yz dims
  | _ => None
  end.
(** The columns of a matrix given by rows. *)
Definition columns (r1 r2 r3 : vec3) : vec3 * vec3 * vec3 := (V3 (vx r1) (vx r2) (vx r3), V3 (vy r1) (vy r2) (vy r3), V3 (vz r1) (vz r2) (vz r3)).
(* box.py:786-843 *)
Definition from_box_like (x : box_like) (dims : option nat) : option box :=
  match x with
  | BLMatrix r1 r2 r3 => from_matrix (columns r1 r2 r3) dims
  | BLBox b => from_box b dims
  | BLAttr f | BLDict f => from_fields f dims
  | BLList l => from_list l dims
  | BLOther => None
  end.
(* util.py:142-168  _convert_box *)
Definition convert_box (x : box_like) (dims : option nat) : option box :=
  let b := match x with BLBox b => Some b | _ => from_box_like x None end in
  match b, dims with
  | Some b, Some d => if Nat.eqb (dimensions b) d then Some b else None
  | _, _ => b
  end.
(* util.py:86-139  _convert_array with shape (None, 3): every row has three entries; an empty list has one dimension only *)
Definition convert_row (r : list R) : option vec3 := match r with [x; y; z] => Some (V3 x y z) | _ => None end.
Fixpoint convert_rows (l : list (list R)) : option (list vec3) :=
  match l with
  | [] => Some []
  | r :: l => match convert_row r, convert_rows l with Some v, Some vs => Some (v :: vs) | _, _ => None end
  end.
Definition convert_points (l : list (list R)) : option (list vec3) := match l with [] => None | _ => convert_rows l end.

(** Neighbour query objects: the class, the box and the points. *)
Inductive nq_class := RawPoints | AABBClass | LinkCellClass | CellQueryClass.
Definition nq_class_eqb (x y : nq_class) : bool :=
  match x, y with RawPoints, RawPoints | AABBClass, AABBClass | LinkCellClass, LinkCellClass | CellQueryClass, CellQueryClass => true | _, _ => false end.
Record nquery := NQ { nq_is : nq_class; nq_box : box; nq_points : list vec3 }.
(* locality.py:839-869, 889-892, 917-921; NeighborQuery.h:88-115  construction; [accepts] stands for further checks of the compiled class *)
Definition construct (accepts : nq_class -> box -> list vec3 -> bool) (k : nq_class) (x : box_like) (p : list (list R)) : option nquery :=
  match convert_box x None, convert_points p with
  | Some b, Some pts =>
      if b_2d b && existsb (fun v => Rltb (1 / 1000000) (Rabs (vz v))) pts then None
      else if accepts k b pts then Some (NQ k b pts) else None
  | _, _ => None
  end.

(** Systems: a query object, a pair, and the classes of other libraries with the attributes that are used. *)
Inductive system :=
| SysQuery (x : nquery)
| SysPair (b : box_like) (p : list (list R))
| SysMDAnalysis (r1 r2 r3 : vec3) (p : list (list R))   (* triclinic_dimensions, positions *)
| SysGsd (box : list R) (dims : nat) (p : list (list R))  (* configuration.box, configuration.dimensions, particles.position *)
| SysGarnett (b : box_like) (p : list (list R))
| SysOvito (r1 r2 r3 : vec3) (flat : bool) (p : list (list R))  (* cell.matrix[:, :3], cell.is2D, particles.positions *)
| SysHoomd2 (f : fields) (p : list (list R))            (* box, particles.position *)
| SysAttrs (b : box_like) (p : list (list R))           (* box, points *)
| SysOther.
Definition row_of (v : vec3) : list R := [vx v; vy v; vz v].
(* locality.py:270-385  from_system called on NeighborQuery (None) or a subclass; the argument dimensions is not used *)
Definition from_system (accepts : nq_class -> box -> list vec3 -> bool) (cls : option nq_class) (s : system) (dims : option nat) : option nquery :=
  let make x p := construct accepts (match cls with None => RawPoints | Some k => k end) x p in
  match s with
  | SysQuery x =>
      if match cls with None => true | Some k => nq_class_eqb k (nq_is x) end then Some x
      else match box_from_cpp (nq_box x) with Some b => make (BLBox b) (map row_of (nq_points x)) | None => None end
  | SysPair b p => make b p
  | SysMDAnalysis r1 r2 r3 p => make (BLMatrix r1 r2 r3) p
  | SysGsd l d p =>
      if Nat.eqb d 2 then match l with [Lx; Ly; Lz; xy; xz; yz] => make (BLList [Lx; Ly; 0; xy; 0; 0]) p | _ => None end
      else make (BLList l) p
  | SysGarnett b p => make b p
  | SysOvito r1 r2 r3 flat p => match from_box_like (BLMatrix r1 r2 r3) (Some (if flat then 2 else 3)%nat) with Some b => make (BLBox b) p | None => None end
  | SysHoomd2 f p =>
      match g_dims f, g_Lx f, g_Ly f, g_xy f with
      | Some 2%nat, Some Lx, Some Ly, Some xy => match py_box Lx Ly 0 xy 0 0 None with Some b => make (BLBox b) p | None => None end
      | Some 2%nat, _, _, _ => None
      | None, _, _, _ => None
      | _, _, _, _ => make (BLAttr f) p
      end
  | SysAttrs b p => make b p
  | SysOther => None
  end.
