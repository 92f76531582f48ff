(** Specification of grids of voxels. *)
From Verif Require Export GridModel MArraySpec HistSpec QuerySpec BoxSpec.
From Coq Require Import Reals ZArith List.
Import ListNotations.
Local Open Scope R_scope.

(** No tilt. *)
Definition ortho (b : box) : Prop := b_xy b = 0 /\ b_xz b = 0 /\ b_yz b = 0.
(** Centre of voxel (nx, ny, nz) of the grid dividing the box into equal cuboids; in 2D the plane z = 0. *)
Definition centre (L : R) (w n : Z) : R := L * ((IZR n + 1 / 2) / IZR w - 1 / 2).
Definition voxel_centre (b : box) (w : width) (n : list Z) : vec3 :=
  let '(x, y, z) := w in V3 (centre (vx (b_L b)) x (nth 0 n 0%Z)) (centre (vy (b_L b)) y (nth 1 n 0%Z)) (centre (vz (b_L b)) z (nth 2 n 0%Z)).
(** [u] is one of the separations between the centre of voxel [n] and the periodic images of [p]. *)
Definition separation (b : box) (w : width) (n : list Z) (p u : vec3) : Prop := image_of b u (vsub (voxel_centre b w n) p).
(** Periodic distance. *)
Definition is_distance (b : box) (w : width) (n : list Z) (p : vec3) (d : R) : Prop :=
  (exists u, separation b w n p u /\ norm u = d) /\ forall u, separation b w n p u -> d <= norm u.
(** The window of [floor (r / cell)] bins to both sides is wide enough for sure: the radius is at most half a cell larger than a whole
    number of cells, or the window goes round the periodic box. *)
Definition wide (r L : R) (w : Z) (per : bool) : Prop :=
  r / (L / IZR w) - IZR (Zfloor (r / (L / IZR w))) <= 1 / 2 \/ (per = true /\ (w <= 2 * Zfloor (r / (L / IZR w)) + 1)%Z).
(** The window does not meet itself round the periodic box. *)
Definition narrow (r L : R) (w : Z) (per : bool) : Prop := per = true -> (2 * Zfloor (r / (L / IZR w)) < w)%Z.
(** Conditions in the three directions (two in 2D). *)
Definition in_each (P : R -> Z -> bool -> Prop) (b : box) (w : width) : Prop :=
  let '(x, y, z) := w in
  P (vx (b_L b)) x (b_px b) /\ P (vy (b_L b)) y (b_py b) /\ (b_2d b = false -> P (vz (b_L b)) z (b_pz b)).
Definition in_each_of (P : R -> R -> Z -> bool -> Prop) (b : box) (w : width) (u : vec3) : Prop :=
  let '(x, y, z) := w in
  P (vx u) (vx (b_L b)) x (b_px b) /\ P (vy u) (vy (b_L b)) y (b_py b) /\ (b_2d b = false -> P (vz u) (vz (b_L b)) z (b_pz b)).
(** Usable grids: positive widths small enough for int, one layer in 2D. *)
Definition good_width (b : box) (w : width) : Prop :=
  let '(x, y, z) := w in (0 < x < 2 ^ 30 /\ 0 < y < 2 ^ 30 /\ 0 < z < 2 ^ 30 /\ (b_2d b = true -> z = 1))%Z.
(** Normalised Gaussian of width sigma in D dimensions. *)
Definition gaussian (sigma : R) (D : nat) (d : R) : R := exp (- (d * d) / (2 * (sigma * sigma))) / (sqrt (2 * PI) * Rabs sigma) ^ D.
(** The point lies in the (untilted) box. *)
Definition in_box (b : box) (p : vec3) : Prop :=
  Rabs (vx p) <= vx (b_L b) / 2 /\ Rabs (vy p) <= vy (b_L b) / 2 /\ Rabs (vz p) <= vz (b_L b) / 2.
(** The radius does not exceed the box in the periodic directions. *)
Definition fits (r L : R) (w : Z) (per : bool) : Prop := per = true -> r <= L.
(** In one direction: separations up to half a cell below the radius are safe, as is everything if [wide] holds. *)
Definition safe (r d L : R) (w : Z) (per : bool) : Prop := wide r L w per \/ Rabs d <= r - L / IZR w / 2.
(** What one particle of value [v] may add to the density of voxel [n]: its Gaussian if the centre is nearer than [r], nothing
    beyond; nearer voxels are missed only if no separation below [r] is [safe]. *)
Definition contribution (b : box) (w : width) (r sigma : R) (n : list Z) (p : vec3) (v c : R) : Prop :=
  exists d, is_distance b w n p d /\ (r <= d -> c = 0) /\
    (d < r -> c = v * gaussian sigma (if b_2d b then 2 else 3) d \/
              (c = 0 /\ forall u, separation b w n p u -> norm u < r -> ~ in_each_of (safe r) b w u)).
