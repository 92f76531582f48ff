(** Specification of CellQuery in single precision (C84). *)
From Verif Require Export FcqModel FcellSpec.
From Verif Require Import Vec.
Open Scope R_scope.

(** What C++ guarantees about the conversion of a float to int. *)
Definition defined_int (cint : option Z -> Z) : Prop := forall z, (- 2 ^ 31 <= z < 2 ^ 31)%Z -> cint (Some z) = z.
(** A usable grid. *)
Definition grid_ok (g : fgrid) : Prop := (0 < fg_nx g /\ 0 < fg_ny g /\ 0 < fg_nz g)%Z.
(** Cells that touch. *)
Definition touching (c c' : Z * Z * Z) : bool :=
  let '(x, y, z) := c in let '(x', y', z') := c' in ((Z.abs (x - x') <=? 1) && (Z.abs (y - y') <=? 1) && (Z.abs (z - z') <=? 1))%Z.
(** A position is seen from the query point if it lies in the grid, in a cell that touches that of the query point. *)
Definition seen (cint : option Z -> Z) (g : fgrid) (q p : fvec) : bool :=
  (fin_grid g (fcell_xyz cint g p) && touching (fcell_xyz cint g q) (fcell_xyz cint g p))%bool.
(** The bond of the query point to a position of point [j], if the computed distance is in range. *)
Definition site_bond (q : fvec) (qi : nat) (r_max r_min : f32) (excl : bool) (j : nat) (p : fvec) : list fbond :=
  if (excl && Nat.eqb j qi)%bool then []
  else
    let d := fvsub p q in
    if (Bltb (fnorm2 d) (fmul r_max r_max) && Bleb (fmul r_min r_min) (fnorm2 d))%bool then [FBond qi j (Bsqrt mode_NE (fnorm2 d)) d] else [].
(** The positions at which a point is stored: its ghosts and itself. *)
Definition positions (b : fbox) (r : f32) (p : fvec) : list fvec := (map (fun s => fvadd p (fnew_site b s)) (fghost_triples b r p) ++ [p])%list.
(** All points, all their positions: no cells but for [seen], no sorting. *)
Definition cell_search (cint : option Z -> Z) (b : fbox) (points : list fvec) (q : fvec) (qi : nat) (r_max r_min : f32) (excl : bool) : list fbond :=
  flat_map (fun j => flat_map (fun p => if seen cint (fsetup_grid cint b r_max) q p then site_bond q qi r_max r_min excl j p else [])
                              (positions b r_max (nth j points fv0))) (seq 0 (length points)).
(** In two dimensions the point lies in the plane. *)
Definition in_plane (b : fbox) (p : fvec) : Prop := f2d b = true -> val (fvz p) = 0.
(** The radius: at most half of every box length, at least one part in 2^20 of it. *)
Definition fitting_radius (b : fbox) (r : f32) : Prop :=
  ordinary_length r /\ val (fvx (fL b)) <= 1048576 * val r /\ val (fvy (fL b)) <= 1048576 * val r /\ (f2d b = false -> val (fvz (fL b)) <= 1048576 * val r).
