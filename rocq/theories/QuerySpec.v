(** Specification vocabulary for neighbour queries, independent of the search algorithms. *)
From Verif Require Export NListModel BoxSpec.
Open Scope nat_scope.

(** Position used by every query: in a 2D box the (tiny) z component is dropped. *)
Definition flat (b : box) (p : vec3) : vec3 := if b_2d b then V3 (vx p) (vy p) 0 else p.

(** [p] lies in the closed cell along every periodic direction. *)
Definition in_cell (b : box) (p : vec3) : Prop :=
  exists s t u, p = cell_point b s t u /\
    (b_px b = true -> 0 <= s <= 1)%R /\ (b_py b = true -> 0 <= t <= 1)%R /\ (b_2d b = false -> b_pz b = true -> 0 <= u <= 1)%R.

(** Separation of point [j] from the image of [q] displaced by (i1,i2,i3) cells. *)
Definition sep (b : box) (points : list vec3) (q : vec3) (j : nat) (i1 i2 i3 : Z) : vec3 :=
  vsub (flat b (nth j points v0)) (vadd (flat b q) (shift b i1 i2 i3)).

(** Brute-force definition: [x] is the bond from query point number [qi] at [q] to some point and some allowed lattice
    image whose distance is in [r_min, r_max). *)
Definition in_range (b : box) (points : list vec3) (q : vec3) (qi : nat) (r_max r_min : R) (excl : bool)
    (imgs : Z -> Z -> Z -> Prop) (x : bond) : Prop :=
  exists j i1 i2 i3, j < length points /\ allowed b i1 i2 i3 /\ imgs i1 i2 i3 /\ ~ (excl = true /\ qi = j) /\
    (r_min <= norm (sep b points q j i1 i2 i3) < r_max)%R /\
    x = Bond qi j (norm (sep b points q j i1 i2 i3)) 1%R (sep b points q j i1 i2 i3).
Definition all_images (i1 i2 i3 : Z) : Prop := True.
Definition near_images (i1 i2 i3 : Z) : Prop := (-1 <= i1 <= 1 /\ -1 <= i2 <= 1 /\ -1 <= i3 <= 1)%Z.

(** Number of periodic directions. *)
Definition n_periodic (b : box) : nat :=
  (if b_px b then 1 else 0) + (if b_py b then 1 else 0) + (if b_2d b then 0 else if b_pz b then 1 else 0).

(** The radius is below half of every periodic plane distance. *)
Definition radius_ok (b : box) (r : R) : Prop :=
  (b_px b = true -> 2 * r < vx (plane_distance b))%R /\ (b_py b = true -> 2 * r < vy (plane_distance b))%R /\
  (b_2d b = false -> b_pz b = true -> 2 * r < vz (plane_distance b))%R.
