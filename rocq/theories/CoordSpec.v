(** Continuous coordination numbers as formulas of the relative facet volumes. *)
From Verif Require Export VoronoiSpec CoordModel.
From Coq Require Import Reals List.
Import ListNotations.
Local Open Scope R_scope.

(** Volume of the pyramid (area of the triangle) over a facet of measure [w] at half the distance [d], relative to the cell volume. *)
Definition pyramid (is2d : bool) (vol w d : R) : R := (w * (d / 2) / (if is2d then 2 else 3)) / vol.
Definition fractions (is2d : bool) (vol : R) (nbs : list bond) : list R := map (fun b => pyramid is2d vol (bw b) (bd b)) nbs.
Definition len (fs : list R) : R := INR (length fs).
Definition cn_power (m : R) (fs : list R) : R := Rpower (len fs) (2 - m) / rsum (map (fun f => Rpower f m) fs).
Definition cn_log (fs : list R) : R := - 1 / ln (len fs) * rsum (map ln fs).
Definition cn_exp (fs : list R) : R := rsum (map (fun f => exp (f - 1 / len fs)) fs).
(** The power formula as printed in the documentation. *)
Definition cn_power_doc (m : R) (fs : list R) : R := Rpower (len fs) (2 - m) * rsum (map (fun f => / (Rpower f m)) fs).
Definition all_equal_share (fs : list R) : Prop := forall f, In f fs -> f = 1 / len fs.
(** The list of numbers for one particle, in the documented order. *)
Definition cn_all (powers : list R) (clog cexp : bool) (fs : list R) : list R :=
  map (fun m => cn_power m fs) powers ++ (if clog then [cn_log fs] else []) ++ (if cexp then [cn_exp fs] else []).
(** The cell volume is the sum of the pyramids over its facets. *)
Definition pyramids_fill (is2d : bool) (c : scell) : Prop :=
  0 < sc_vol c /\ sc_vol c = rsum (map (fun b => bw b * (bd b / 2) / (if is2d then 2 else 3)) (cell_bonds is2d c)).
