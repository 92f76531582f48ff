(** Specification vocabulary for the periodic buffer. *)
From Verif Require Export PBufferModel BoxSpec.
Open Scope R_scope.

(** [v] is the point [p] moved by a whole number of lattice vectors (whatever the periodic flags say). *)
Definition lattice_image (b : box) (v p : vec3) : Prop := exists i j k : Z, v = vadd p (shift b i j k).
(** [v] is in the half-open parallelepiped, centred at the origin, whose edges are along the lattice vectors of [b] and
    [x], [y], [z] times as long. *)
Definition in_scaled (b : box) (x y z : R) (v : vec3) : Prop :=
  exists s t u, v = comb b s t u /\ - x / 2 <= s < x / 2 /\ - y / 2 <= t < y / 2 /\ (b_2d b = false -> - z / 2 <= u < z / 2).
Definition home (b : box) (v : vec3) : Prop := in_scaled b 1 1 1 v.
(** Lengths and tilts of a box. *)
Definition box_shape (b : box) (Lx Ly Lz xy xz yz : R) (d : bool) : Prop :=
  vx (b_L b) = Lx /\ vy (b_L b) = Ly /\ (d = false -> vz (b_L b) = Lz) /\ b_xy b = xy /\ b_xz b = xz /\ b_yz b = yz /\ b_2d b = d /\ fully_periodic b.
