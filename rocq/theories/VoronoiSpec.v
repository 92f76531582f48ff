(** What a periodic Voronoi tessellation is, and how voro++ reports it. *)
From Verif Require Export NListSpec VoronoiModel.
From Coq Require Import Reals List Bool Arith.
From Verif Require Export BoxSpec.
Import ListNotations.
Local Open Scope R_scope.

(** Squared distance. *)
Definition d2 (a b : vec3) : R := dot (vsub a b) (vsub a b).
(** The lattice of the tessellation: all translations by box vectors; in 2D the plane is stacked at height 1. *)
Definition vshift (b : box) (i j k : Z) : vec3 := if b_2d b then vadd (shift b i j 0) (V3 0 0 (IZR k)) else shift b i j k.
(** A face towards the image of point [f_j] at [f_pos]. *)
Record face := Face { f_j : nat; f_pos : vec3; f_area : R; f_normal : vec3; f_verts : list nat }.
Record scell := SC { sc_pid : nat; sc_pos : vec3; sc_verts : list vec3; sc_faces : list face; sc_vol : R }.
Definition xyz (v : vec3) : list R := [vx v; vy v; vz v].
(** voro++'s arrays. *)
Definition encode (c : scell) : vcell :=
  VC (sc_pid c) (sc_pos c) (map f_area (sc_faces c)) (flat_map (fun f => length (f_verts f) :: f_verts f) (sc_faces c)) (map f_j (sc_faces c))
     (flat_map (fun f => xyz (f_normal f)) (sc_faces c)) (flat_map xyz (sc_verts c)) (sc_vol c).
Definition is_image (b : box) (points : list vec3) (j : nat) (q : vec3) : Prop := exists p i1 i2 i3, nth_error points j = Some p /\ q = vadd p (vshift b i1 i2 i3).
(** [x] is no closer to any image of any point than to [p]: it lies in the closed Voronoi cell of [p]. *)
Definition in_cell (b : box) (points : list vec3) (p x : vec3) : Prop := forall j q, is_image b points j q -> d2 x p <= d2 x q.
(** The contract of voro++ for one cell: positions are images of the right points, normals are unit vectors towards the neighbour (or zero),
    the vertices of a face are equally far from the particle and the neighbour, all vertices are in the closed cell. In 2D neighbours are either in the
    plane or exactly above/below. *)
Record face_ok (b : box) (points : list vec3) (c : scell) (f : face) : Prop := {
  fo_image : is_image b points (f_j f) (f_pos f);
  fo_normal : f_normal f = v0 \/ (0 < d2 (f_pos f) (sc_pos c) /\ vscale (norm (vsub (f_pos f) (sc_pos c))) (f_normal f) = vsub (f_pos f) (sc_pos c));
  fo_verts : (2 <= length (f_verts f))%nat /\ forall v, In v (f_verts f) -> exists x, nth_error (sc_verts c) v = Some x /\ d2 x (sc_pos c) = d2 x (f_pos f);
  fo_2d : b_2d b = true -> vz (f_pos f) = 0 \/ (vx (f_pos f) = vx (sc_pos c) /\ vy (f_pos f) = vy (sc_pos c)) }.
Record cell_ok (b : box) (points : list vec3) (c : scell) : Prop := {
  co_image : exists p i j k, nth_error points (sc_pid c) = Some p /\ (b_2d b = true -> k = 0%Z) /\ sc_pos c = vadd p (vshift b i j k);
  co_faces : forall f, In f (sc_faces c) -> face_ok b points c f;
  co_verts : forall x, In x (sc_verts c) -> in_cell b points (sc_pos c) x }.
Record voro_ok (b : box) (points : list vec3) (cells : list scell) : Prop := {
  vo_flat : b_2d b = true -> forall p, In p points -> vz p = 0;
  vo_once : Permutation (map sc_pid cells) (seq 0 (length points));
  vo_cells : forall c, In c cells -> cell_ok b points c }.

(** A face counts as a neighbour relation: it has a direction and, in 2D, lies in the plane. *)
Definition kept (is2d : bool) (c : scell) (f : face) : bool :=
  negb (Reqb (dot (f_normal f) (f_normal f)) 0) && negb (is2d && negb (Reqb (vz (f_pos f)) (vz (sc_pos c)))).
(** The bond of a face: from the particle to the neighbour's image, weighted by the area. *)
Definition face_bond (c : scell) (f : face) : bond :=
  let d := vsub (f_pos f) (sc_pos c) in Bond (sc_pid c) (f_j f) (norm d) (f_area f) d.
Definition cell_bonds (is2d : bool) (c : scell) : list bond := map (face_bond c) (filter (kept is2d c) (sc_faces c)).
(** Reversal of a bond. *)
Definition flip (b : bond) : bond := Bond (bp b) (bq b) (bd b) (bw b) (vneg (bv b)).
(** Lexicographic order by query point, point, weight. *)
Definition lex_le (x y : bond) : Prop := (bq x < bq y)%nat \/ (bq x = bq y /\ ((bp x < bp y)%nat \/ (bp x = bp y /\ bw x <= bw y))).
(** Convex combinations. *)
Inductive hull (l : list vec3) : vec3 -> Prop :=
| hull_vertex x : In x l -> hull l x
| hull_mix x y t : hull l x -> hull l y -> 0 <= t <= 1 -> hull l (vadd (vscale (1 - t) x) (vscale t y)).
Definition rsum (l : list R) : R := fold_right Rplus 0 l.
(** Two cells share each face: the same area, seen from both sides, whether or not the normal is degenerate. *)
Definition face_data (c : scell) (f : face) : (nat * nat * R * vec3 * bool) := (sc_pid c, f_j f, f_area f, vsub (f_pos f) (sc_pos c), Reqb (dot (f_normal f) (f_normal f)) 0).
Definition seen_back (x : nat * nat * R * vec3 * bool) := let '(i, j, a, d, z) := x in (j, i, a, vneg d, z).
Definition all_faces (cells : list scell) := flat_map (fun c => map (face_data c) (sc_faces c)) cells.
Definition reciprocal (cells : list scell) : Prop := Permutation (map seen_back (all_faces cells)) (all_faces cells).
(** [u] seen from [p] lies at polar angle [th]. *)
Definition polar_at (p u : vec3) (th : R) : Prop := exists r, 0 <= r /\ vx u = vx p + r * cos th /\ vy u = vy p + r * sin th.
