(** Model in single precision of freud.density.LocalDensity (freud/density/LocalDensity.cc, freud/density.py) with its default neighbour query:
    binary32 with one NaN, rounding to nearest even, without fused operations or excess precision; binary64 where C++ multiplies by M_PI and
    where Python adds.  The ball queries are those of FaabbModel.
    Simplified: the two entries of one query point instead of the arrays (every iteration of the parallel loop writes its own entries only; C51
    has the arrays and the schedules). *)
From Coq Require Import ZArith List.
From Flocq Require Import Core BinarySingleNaN.
From Verif Require Export FrdfModel.
Import ListNotations.
Local Open Scope Z_scope.

Record fldens := FLD { fld_r : f32; fld_D : f32 }.
(* LocalDensity.cc:25-37.  None: an exception.  NaN fails no comparison. *)
Definition fld_make (r_max diameter : f32) : option fldens :=
  if Bleb r_max fzero then None else if Bltb diameter fzero then None else Some (FLD r_max diameter).
(* density.py:510-514 default_query_args: Python adds in double precision, QueryArgs stores a float *)
Definition dadd (x y : f64) : f64 := Bplus mode_NE x y.
Definition dlit (m e : Z) : f64 := binary_normalize 53 1024 prec_gt_0_53 prec_lt_emax_53 mode_NE m e false.
Definition fld_radius (l : fldens) : f32 := to_float (dadd (to_double (fld_r l)) (dmul (dlit 1 (-1)) (to_double (fld_D l)))).
(* LocalDensity.cc:59-71: what one bond adds to num_neighbors *)
Definition fld_half (l : fldens) : f32 := fdiv (fld_D l) (lit 2 0).
Definition fld_fraction (l : fldens) (d : f32) : f32 :=
  if Bltb d (fsub (fld_r l) (fld_half l)) then fone else fadd fone (fdiv (fsub (fld_r l) (fadd d (fld_half l))) (fld_D l)).
(* LocalDensity.cc:48-49 *)
Definition ddiv (x y : f64) : f64 := Bdiv mode_NE x y.
Definition fld_measure (l : fldens) (is2d : bool) : f32 :=
  let r := fld_r l in
  if is2d then to_float (dmul (dmul M_PI (to_double r)) (to_double r))
  else fmul (fmul (fmul (to_float (dmul (ddiv (dlit 4 0) (dlit 3 0)) M_PI)) r) r) r.
(* LocalDensity.cc:55-83: the loop over the bonds of one query point; num_neighbors, and the entries of the two arrays *)
Definition fld_step (l : fldens) (is2d : bool) (st : f32 * (f32 * f32)) (d : f32) : f32 * (f32 * f32) :=
  let n := fadd (fst st) (fld_fraction l d) in (n, (n, fdiv n (fld_measure l is2d))).
Definition fld_point (l : fldens) (is2d : bool) (ds : list f32) : f32 * f32 := snd (fold_left (fld_step l is2d) ds (fzero, (fzero, fzero))).
(* LocalDensity.cc:39-86, NeighborComputeFunctional.h: entries num_neighbors[i] and density[i]; None: the query raises *)
Definition fld_entry (l : fldens) (f : fframe) (i : nat) (res : option (f32 * f32)) : Prop :=
  exists bonds, faabb_ball (ff_box f) (ff_points f) (nth i (ff_queries f) fv0) i (fld_radius l) fzero (ff_excl f) true bonds /\
    res = option_map (fun bs => fld_point l (f2d (ff_box f)) (map fb_d bs)) bonds.
