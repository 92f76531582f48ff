(** Specification of k-nearest-neighbour queries in single precision (C82). *)
From Coq Require Export ZArith Reals Permutation.
From Flocq Require Export Core BinarySingleNaN.
From Verif Require Export FnearModel FaabbSpec.
From Verif Require Import Vec.
Open Scope R_scope.

(** The vectors by which the query point is moved: none, and those of the neighbouring cells. *)
Definition cells (b : fbox) : list fvec := match fimages b fzero false with Some l => l | None => [] end.
(** The computed separation and distance of point [j] from the query point moved by [im]. *)
Definition csep (b : fbox) (points : list fvec) (q im : fvec) (j : nat) : fvec := fvsub (fflat b (nth j points fv0)) (fvadd (fflat b q) im).
Definition cdist (b : fbox) (points : list fvec) (q im : fvec) (j : nat) : f32 := Bsqrt mode_NE (fnorm2 (csep b points q im j)).
(** A pair that may be reported: not a point with itself if these are excluded. *)
Definition eligible (b : fbox) (points : list fvec) (qi : nat) (excl : bool) (im : fvec) (j : nat) : Prop :=
  In im (cells b) /\ (j < length points)%nat /\ ~ (excl = true /\ qi = j).
(** [im] is a cell through which point [j] is computed to be nearest. *)
Definition nearest_cell (b : fbox) (points : list fvec) (q im : fvec) (j : nat) : Prop :=
  finite (cdist b points q im j) = true /\
  forall im', In im' (cells b) -> finite (cdist b points q im' j) = true -> val (cdist b points q im j) <= val (cdist b points q im' j).
Definition at_least (d r : f32) : Prop := Bleb r d = true.
(** Sorted by distance. *)
Definition ascending (l : list fbond) : Prop := forall i j, (i < j < length l)%nat -> val (fb_d (nth i l fbond0)) <= val (fb_d (nth j l fbond0)).
(** [x] reaches a maximal distance that may be infinite. *)
Definition reaches (x : R) (r : f32) : Prop := finite r = true /\ val r <= x.

(** A growth factor: a number greater than one or infinity. *)
Definition grows (s : f32) : Prop := Bltb fone s = true.
(** A radius far enough from zero for the growth to be visible: a normal number or infinity. *)
Definition visible (r : f32) : Prop := r = B754_infinity false \/ (finite r = true /\ bpow radix2 (-126) <= val r).

(** The shortest side of a box without tilt, and how well half of it is resolved at a query point. *)
Definition side (b : fbox) : R := if f2d b then Rmin (val (fvx (fL b))) (val (fvy (fL b))) else Rmin (Rmin (val (fvx (fL b))) (val (fvy (fL b)))) (val (fvz (fL b))).
Definition half_margin (b : fbox) (q : fvec) : R := 8 * u * side b + 8 * u * (norm (rv (fflat b q)) + norm (rv (fL b))) + bpow radix2 (-69).
(** A maximal distance: none, or of ordinary size. *)
Definition ordinary_limit (r : f32) : Prop := r = B754_infinity false \/ ordinary_length r.
(** Point [p] is certainly not closer than [r_min] through any cell. *)
Definition clear_of_min (b : fbox) (points : list fvec) (q : fvec) (r_min : f32) (p : nat) : Prop :=
  finite r_min = true /\ (val r_min <= 0 \/ forall i j k, neighbour_cell b i j k ->
    let D := exact_distance b (nth p points fv0) q i j k in val r_min <= D - slack D (norm (moved b q i j k))).
