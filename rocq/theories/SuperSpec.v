(** What it means that a system is a block of copies of another one (C90). *)
From Verif Require Export SymmSpec.
From Coq Require Import Reals ZArith List Permutation.
Import ListNotations.
Local Open Scope R_scope.

(** The copies, and the copy that a lattice vector leads to in a block whose opposite faces are joined. *)
Definition steps (n : Z) : list Z := map Z.of_nat (seq 0 (Z.to_nat n)).
Definition block (n : Z * Z * Z) : list (Z * Z * Z) :=
  let '(nx, ny, nz) := n in flat_map (fun i => flat_map (fun j => map (fun k => (i, j, k)) (steps nz)) (steps ny)) (steps nx).
Definition copy_of (n k : Z * Z * Z) : Z * Z * Z := let '(nx, ny, nz) := n in let '(x, y, z) := k in (x mod nx, y mod ny, z mod nz)%Z.
Definition copies_number (n : Z * Z * Z) : nat := let '(nx, ny, nz) := n in Z.to_nat (nx * ny * nz).
(** The box of nx by ny by nz copies of a box; a planar box is not repeated out of the plane. *)
Definition super_box (n : Z * Z * Z) (b b' : box) : Prop :=
  let '(nx, ny, nz) := n in (0 < nx /\ 0 < ny /\ 0 < nz)%Z /\ (b_2d b = true -> nz = 1%Z) /\
  vx (b_L b') = IZR nx * vx (b_L b) /\ vy (b_L b') = IZR ny * vy (b_L b) /\ vz (b_L b') = IZR nz * vz (b_L b) /\
  b_xy b' = b_xy b /\ b_xz b' = b_xz b /\ b_yz b' = b_yz b /\ b_2d b' = b_2d b /\ fully_periodic b'.
(** Particle j of the block is a copy of particle [f j], displaced by the lattice vector [k j] (and all by [t]), up to the
    lattice of the block; every particle has each copy exactly once. *)
Definition move (b : box) (k : Z * Z * Z) : vec3 := let '(x, y, z) := k in BoxSpec.shift b x y z.
Definition replicated (n : Z * Z * Z) (b b' : box) (t : vec3) (f : nat -> nat) (k : nat -> Z * Z * Z) (ps ps' : list vec3) : Prop :=
  (forall j, (j < length ps')%nat -> image_of b' (nth j ps' v0) (vadd (vadd (nth (f j) ps v0) t) (move b (k j)))) /\
  (forall j, (j < length ps')%nat -> b_2d b = true -> snd (k j) = 0%Z) /\
  Permutation (map (fun j => (f j, copy_of n (k j))) (seq 0 (length ps'))) (list_prod (seq 0 (length ps)) (block n)).
(** A bond of the block as a bond of the original. *)
Definition home (f g : nat -> nat) (x : bond) : bond := Bond (g (bq x)) (f (bp x)) (bd x) (bw x) (bv x).
(** Two frames for the RDF: every distance occurs [m] times as often, and all sizes are [m] times larger. *)
Definition multiple_frame (m : nat) (fr fr' : rin) : Prop :=
  (forall lo hi, dist_count lo hi [fr'] = (m * dist_count lo hi [fr])%nat) /\
  rd_2d (ri_data fr') = rd_2d (ri_data fr) /\ rd_np (ri_data fr') = (m * rd_np (ri_data fr))%nat /\
  rd_nqp (ri_data fr') = (m * rd_nqp (ri_data fr))%nat /\ rd_vol (ri_data fr') = INR m * rd_vol (ri_data fr).
