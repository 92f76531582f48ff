(** Specification of cell lists in single precision (C79). *)
From Verif Require Export FaabbSpec FcellModel LinkCellSpec.
From Verif Require Import Vec.
Open Scope R_scope.

(** What C++ guarantees about the conversion of a float to unsigned int. *)
Definition defined_conv (conv : Z -> option Z) : Prop := forall z, (0 <= z < 2 ^ 32)%Z -> conv z = Some z.
Definition all_periodic (b : fbox) : Prop := fpx b = true /\ fpy b = true /\ (f2d b = false -> fpz b = true).
(** A point of the box, faces included; in two dimensions z is nearly zero. *)
Definition on_axis (L x : f32) : Prop := finite x = true /\ Rabs (val x) <= val L / 2.
Definition in_box (b : fbox) (p : fvec) : Prop :=
  on_axis (fvx (fL b)) (fvx p) /\ on_axis (fvy (fL b)) (fvy p) /\
  (if f2d b then finite (fvz p) = true /\ Rabs (val (fvz p)) <= bpow radix2 (-20) else on_axis (fvz (fL b)) (fvz p)).
(** The exact position of a coordinate in units of cells. *)
Definition cell_position (L x : f32) (n : Z) : R := IZR n * ((val x + val L / 2) / val L).
(** Cell [c] of [n] holds a place within 5 u n cells of the exact position; the ends of the axis meet. *)
Definition near_cell (L x : f32) (n c : Z) : Prop :=
  exists y, 0 <= y /\ Rabs (y - cell_position L x n) <= 5 * u * IZR n /\ c = (Zfloor y mod n)%Z.
(** At most 2^22 cells along each direction, one along z in two dimensions. *)
Definition dims_ok (b : fbox) (dim : Z * Z * Z) : Prop :=
  let '(dx, dy, dz) := dim in (1 <= dx <= 4194304 /\ 1 <= dy <= 4194304 /\ 1 <= dz <= 4194304)%Z /\ (f2d b = true -> dz = 1%Z).
(** All three coordinates of a cell. *)
Definition near_cells (b : fbox) (p : fvec) (dim c : Z * Z * Z) : Prop :=
  let '(dx, dy, dz) := dim in let '(x, y, z) := c in
  near_cell (fvx (fL b)) (fvx p) dx x /\ near_cell (fvy (fL b)) (fvy p) dy y /\ (if f2d b then z = 0%Z else near_cell (fvz (fL b)) (fvz p) dz z).
(** A cell width that fits: at least two cells and at most 2^22 along each direction. *)
Definition fitting_axis (L cw : f32) : Prop := 2 * val cw <= val L <= 4194303 * val cw.
Definition fitting_width (b : fbox) (cw : f32) : Prop :=
  ordinary_length cw /\ fitting_axis (fvx (fL b)) cw /\ fitting_axis (fvy (fL b)) cw /\ (f2d b = false -> fitting_axis (fvz (fL b)) cw).
Definition box_size (b : fbox) : R := val (fvx (fL b)) + val (fvy (fL b)) + val (fvz (fL b)).
(** The uncertainty of a distance [D] found through the cell list. *)
Definition cell_uncertainty (b : fbox) (D : R) : R := 8 * u * D + 32 * u * box_size b + bpow radix2 (-70).
(** The radius is at most half of every box length. *)
Definition half_box (b : fbox) (r : f32) : Prop :=
  2 * val r <= val (fvx (fL b)) /\ 2 * val r <= val (fvy (fL b)) /\ (f2d b = false -> 2 * val r <= val (fvz (fL b))).
