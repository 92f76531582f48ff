(** What the names of the ready-made crystals mean. *)
From Verif Require Export PresetModel UnitCellSpec.
Open Scope R_scope.

(** The infinite crystal of a cell and a basis in fractional coordinates, with a corner of a cell at the origin. *)
Definition crystal (b : box) (basis : list vec3) (p : vec3) : Prop :=
  exists f i j k, In f basis /\ (b_2d b = true -> k = 0%Z) /\ p = comb b (vx f + IZR i) (vy f + IZR j) (vz f + IZR k).
(** Simple cubic: the points with whole coordinates.  Body-centred: also those where all three are halves.  Face-centred: every second
    point of the grid of halves, as the black fields of a chess board. *)
Definition simple_cubic (p : vec3) : Prop := exists x y z : Z, p = V3 (IZR x) (IZR y) (IZR z).
Definition body_centred (p : vec3) : Prop := exists x y z : Z, Z.even (x - y) = true /\ Z.even (y - z) = true /\ p = V3 (IZR x / 2) (IZR y / 2) (IZR z / 2).
Definition face_centred (p : vec3) : Prop := exists x y z : Z, Z.even (x + y + z) = true /\ p = V3 (IZR x / 2) (IZR y / 2) (IZR z / 2).
(** The square lattice, the triangular lattice with its rows along x, and the honeycomb: two triangular lattices, the second in every
    second hole of the first. *)
Definition square_lattice (p : vec3) : Prop := exists x y : Z, p = V3 (IZR x) (IZR y) 0.
Definition triangular_at (x y z : R) (p : vec3) : Prop := exists i j : Z, p = V3 (x + IZR i + IZR j / 2) (y + IZR j * sqrt 3 / 2) z.
Definition triangular (p : vec3) : Prop := triangular_at 0 0 0 p.
Definition honeycomb (p : vec3) : Prop := triangular_at 0 0 0 p \/ triangular_at 0 (sqrt 3 / 3) 0 p.
(** Hexagonal close packing: triangular layers at the height sqrt (2/3) of a regular tetrahedron above each other, every second one over
    the same holes of those between. *)
Definition close_packed (p : vec3) : Prop :=
  exists n : Z, let h := (IZR n + 1 / 2) * sqrt (2 / 3) in
    if Z.even n then triangular_at 0 (sqrt 3 / 3) h p else triangular_at (1 / 2) (sqrt 3 / 6) h p.

(** The points of a periodic system. *)
Definition periodic_point (bx : box) (pts : list vec3) (p : vec3) : Prop :=
  exists m i j k, (m < length pts)%nat /\ allowed bx i j k /\ p = vadd (nth m pts v0) (shift bx i j k).
(** A periodic image (q, (i, j, k)) of a particle as seen from particle m. *)
Definition seen_from (bx : box) (pts : list vec3) (m : nat) (x : nat * (Z * Z * Z)) : vec3 :=
  let '(q, (i, j, k)) := x in vsub (vadd (nth q pts v0) (shift bx i j k)) (nth m pts v0).
Definition neighbour (bx : box) (pts : list vec3) (m : nat) (d : R) (x : nat * (Z * Z * Z)) : Prop :=
  let '(q, (i, j, k)) := x in (q < length pts)%nat /\ allowed bx i j k /\ x <> (m, (0, 0, 0)%Z) /\ norm (seen_from bx pts m x) < d.
(** Every particle has exactly z neighbours nearer than d', and all of them at the distance d. *)
Definition coordination (bx : box) (pts : list vec3) (z : nat) (d d' : R) : Prop :=
  forall m, (m < length pts)%nat -> exists l, NoDup l /\ length l = z /\ (forall x, In x l <-> neighbour bx pts m d' x) /\
    forall x, In x l -> norm (seen_from bx pts m x) = d.

(** The named crystals: cell, number of nearest neighbours, squares of their distance and of the distance of the next ones. *)
Inductive named := SC | BCC | FCC | HCP | Square | Hex | Graphene.
Definition preset (n : named) : option (box * list vec3) :=
  match n with SC => uc_sc | BCC => uc_bcc | FCC => uc_fcc | HCP => uc_hcp | Square => uc_square | Hex => uc_hex | Graphene => uc_graphene end.
Definition structure (n : named) : vec3 -> Prop :=
  match n with SC => simple_cubic | BCC => body_centred | FCC => face_centred | HCP => close_packed | Square => square_lattice | Hex => triangular | Graphene => honeycomb end.
Definition neighbours_of (n : named) : nat := match n with SC => 6 | BCC => 8 | FCC => 12 | HCP => 12 | Square => 4 | Hex => 6 | Graphene => 3 end.
Definition nearest_square (n : named) : R := match n with SC => 1 | BCC => 3 / 4 | FCC => 1 / 2 | HCP => 1 | Square => 1 | Hex => 1 | Graphene => 1 / 3 end.
Definition second_square (n : named) : R := match n with SC => 2 | BCC => 1 | FCC => 1 | HCP => 2 | Square => 2 | Hex => 3 | Graphene => 1 end.
(** Points per volume (or area) of the structure. *)
Definition density_of (n : named) : R := match n with SC => 1 | BCC => 2 | FCC => 4 | HCP => sqrt 2 | Square => 1 | Hex => 2 / sqrt 3 | Graphene => 4 / sqrt 3 end.
