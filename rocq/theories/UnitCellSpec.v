(** Specification of crystals made from a unit cell. *)
From Verif Require Export UnitCellModel PBufferSpec.
From Flocq Require Import Core.
Open Scope R_scope.

(** What may be asked for: three positive whole numbers, or one for every direction of space. *)
Definition requests (b : box) (r : replicas) (n : Z * Z * Z) : Prop :=
  let '(nx, ny, nz) := n in (0 < nx /\ 0 < ny /\ 0 < nz)%Z /\ (b_2d b = true -> nz = 1%Z) /\
  match r with RepScalar x => x = IZR nx /\ x = IZR ny /\ (b_2d b = false -> x = IZR nz) | RepList l => l = [IZR nx; IZR ny; IZR nz] end.
(** The cells of the crystal in the order of the points: the last index runs fastest. *)
Definition counts (n : Z) : list Z := map Z.of_nat (seq 0 (Z.to_nat n)).
Definition cells (n : Z * Z * Z) : list (Z * Z * Z) :=
  let '(nx, ny, nz) := n in flat_map (fun i => flat_map (fun j => map (fun k => (i, j, k)) (counts nz)) (counts ny)) (counts nx).
(** The basis point with fractional coordinates f, in the cell (i, j, k), with the whole crystal moved by d. *)
Definition site (b : box) (d : vec3) (f : vec3) (ijk : Z * Z * Z) : vec3 := let '(i, j, k) := ijk in vadd (vadd (cell_point b (vx f) (vy f) (vz f)) (shift b i j k)) d.
Definition sites (b : box) (d : vec3) (basis : list vec3) (n : Z * Z * Z) : list vec3 := flat_map (fun f => map (site b d f) (cells n)) basis.
(** The half-open cell of a box. *)
Definition in_cell (b : box) (p : vec3) : Prop := exists s t u, p = cell_point b s t u /\ 0 <= s < 1 /\ 0 <= t < 1 /\ (b_2d b = false -> 0 <= u < 1).
(** The displacement that the code uses: half the diagonal of the cell, with the components of odd replica counts left out. *)
Definition parity (n : Z) : R := if Z.even n then 1 else 0.
Definition displacement (b : box) (n : Z * Z * Z) : vec3 :=
  let '(nx, ny, nz) := n in let h := comb b (1 / 2) (1 / 2) (1 / 2) in V3 (parity nx * vx h) (parity ny * vy h) (parity nz * vz h).
(** The one that puts the corner of the first cell on a corner of a cell of the grid that divides the big box. *)
Definition aligned (b : box) (n : Z * Z * Z) : vec3 := let '(nx, ny, nz) := n in comb b (parity nx / 2) (parity ny / 2) (parity nz / 2).
(** Divided into nx by ny by nz equal cells, the big box has f as the position of p within a cell. *)
Definition on_grid (b' : box) (n : Z * Z * Z) (f p : vec3) : Prop :=
  let '(nx, ny, nz) := n in exists i j k : Z, p = cell_point b' ((vx f + IZR i) / IZR nx) ((vy f + IZR j) / IZR ny) ((vz f + IZR k) / IZR nz).
