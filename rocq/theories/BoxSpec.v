(** Specification vocabulary for boxes, independent of the algorithms of Box.h: lattice vectors,
    congruence modulo the periodic lattice, the primary cell. *)
From Verif Require Export BoxModel.

(** The box is usable: non-zero lengths and centred at the origin (what the constructors establish). *)
Definition nonsingular (b : box) : Prop :=
  vx (b_L b) <> 0 /\ vy (b_L b) <> 0 /\ (b_2d b = false -> vz (b_L b) <> 0) /\
  (b_2d b = true -> vz (b_L b) = 0) /\
  b_lo b = vscale (- (1 / 2)) (b_L b).

(** Physically sensible box: positive lengths. *)
Definition positive (b : box) : Prop :=
  nonsingular b /\ 0 < vx (b_L b) /\ 0 < vy (b_L b) /\ (b_2d b = false -> 0 < vz (b_L b)).

(** Lattice vectors in the HOOMD convention (upper-triangular cell matrix). *)
Definition a1 (b : box) : vec3 := V3 (vx (b_L b)) 0 0.
Definition a2 (b : box) : vec3 := V3 (b_xy b * vy (b_L b)) (vy (b_L b)) 0.
Definition a3 (b : box) : vec3 := V3 (b_xz b * vz (b_L b)) (b_yz b * vz (b_L b)) (vz (b_L b)).

(** Linear combination of lattice vectors with real coefficients. *)
Definition comb (b : box) (s t u : R) : vec3 :=
  vadd (vadd (vscale s (a1 b)) (vscale t (a2 b))) (vscale u (a3 b)).

(** Point of space with cell coordinates (s,t,u), each measured from the lower corner of the cell. *)
Definition cell_point (b : box) (s t u : R) : vec3 := comb b (s - 1/2) (t - 1/2) (u - 1/2).

(** Vectors lying in the space of the box (in 2D: the plane z = 0). *)
Definition in_space (b : box) (v : vec3) : Prop := b_2d b = true -> vz v = 0.

(** Lattice translation along the periodic directions. *)
Definition allowed (b : box) (i j k : Z) : Prop :=
  (b_px b = false -> i = 0%Z) /\ (b_py b = false -> j = 0%Z) /\ (b_pz b = false -> k = 0%Z) /\
  (b_2d b = true -> k = 0%Z).
Definition shift (b : box) (i j k : Z) : vec3 := comb b (IZR i) (IZR j) (IZR k).

(** [u] and [v] are periodic images of each other. *)
Definition image_of (b : box) (u v : vec3) : Prop :=
  exists i j k, allowed b i j k /\ u = vadd v (shift b i j k).

Definition fully_periodic (b : box) : Prop := b_px b = true /\ b_py b = true /\ b_pz b = true.

Definition half_open (b : box) (per : bool) (s : R) : Prop := per = true -> 0 <= s < 1.
