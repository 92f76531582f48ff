(** Specification vocabulary for LinkCell without a cell width. *)
From Verif Require Export LinkCellSpec.
Open Scope R_scope.

(** The number of cells aimed at: one for every ten points, at least one. *)
Definition tens (n : nat) : R := INR (Nat.max (n / 10) 1).
(** Every height of the cell is at least twice the edge of a cube whose volume is the share of one cell (in the plane, too, a cube's). *)
Definition roomy (b : box) (n : nat) : Prop :=
  8 * volume b <= tens n * vx (plane_distance b) ^ 3 /\ 8 * volume b <= tens n * vy (plane_distance b) ^ 3 /\
  (b_2d b = false -> 8 * volume b <= tens n * vz (plane_distance b) ^ 3).
Definition accepted (b : box) (points : list vec3) : Prop := exists lc, lc_make b points 0 = Some lc.
(** A system that a user may pass: at least one point, all of them in the box. *)
Definition usable (b : box) (points : list vec3) : Prop :=
  positive b /\ fully_periodic b /\ points <> [] /\ forall p, In p points -> in_cell b p.
Definition square_box (L : R) : box := mk_box L L 0 0 0 0 true.
