(** Specification vocabulary for LinkCell with 32-bit integers (C88). *)
From Verif Require Export FcellSpec Flc32Model.
Open Scope Z_scope.

(** Unsigned numbers are below 2^32. *)
Definition unsigned_conv (conv : Z -> option Z) : Prop := forall z c, conv z = Some c -> 0 <= c < 2 ^ 32.
(** The number a link is stored as. *)
Definition stored (o : option nat) : Z := match o with None => TERMINATOR | Some i => Z.of_nat i end.
(** The same cell list, written with unsigned numbers. *)
Definition written (lc : flinkcell) : flinkcell32 := FLC32 (fl_box lc) (fl_points lc) (fl_width lc) (fl_dim lc) (map stored (fl_list lc)).
(** Cells and points together are fewer than 2^32, and fewer than 2^30 cells lie along each direction. *)
Definition countable (n : nat) (dim : Z * Z * Z) : Prop :=
  let '(dx, dy, dz) := dim in dx < 2 ^ 30 /\ dy < 2 ^ 30 /\ dz < 2 ^ 30 /\ num_cells dim + Z.of_nat n < 2 ^ 32.
(** The radius is below 2^29 cell widths. *)
Definition short (r_max cw : f32) : Prop := Bltb r_max (fmul (lit (2 ^ 29) 0) cw) = true.
(** Volume (area) of a box in units of cells; [u] is half an ulp of 1. *)
Definition box_cells (b : fbox) (cw : f32) : R :=
  (val (fvx (fL b)) * (1 + u) / val cw * (val (fvy (fL b)) * (1 + u) / val cw) * (if f2d b then 1 else val (fvz (fL b)) * (1 + u) / val cw))%R.
