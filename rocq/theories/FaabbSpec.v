(** Specification of ball queries in single precision (C78). *)
From Coq Require Export ZArith Reals Permutation.
From Flocq Require Export Core BinarySingleNaN.
From Verif Require Export NListSpec FaabbModel F32Spec.
Open Scope nat_scope.

Definition fin3 (v : fvec) : Prop := finite (fvx v) = true /\ finite (fvy v) = true /\ finite (fvz v) = true.
(** The bond of a pair through an image vector, if its computed distance is in range: no tree. *)
Definition pair_bond (b : fbox) (points : list fvec) (q : fvec) (qi : nat) (r_max r_min : f32) (excl : bool) (im : fvec) (j : nat) : list fbond :=
  if excl && (qi =? j) then []
  else
    let r_ij := fvsub (fflat b (nth j points fv0)) (fvadd (fflat b q) im) in
    if Bltb (fnorm2 r_ij) (fmul r_max r_max) && Bleb (fmul r_min r_min) (fnorm2 r_ij) then [FBond qi j (Bsqrt mode_NE (fnorm2 r_ij)) r_ij] else [].
(** All pairs, all images. *)
Definition brute_force (b : fbox) (points : list fvec) (q : fvec) (qi : nat) (r_max r_min : f32) (excl : bool) (images : list fvec) : list fbond :=
  flat_map (fun im => flat_map (pair_bond b points q qi r_max r_min excl im) (seq 0 (length points))) images.

(** The exact vectors and distances of the same question. *)
From Verif Require Import Vec.
Definition rv (v : fvec) : vec3 := V3 (val (fvx v)) (val (fvy v)) (val (fvz v)).
Definition open_box (b : fbox) : Prop := fpx b = false /\ fpy b = false /\ fpz b = false.
(** Neighbouring cells: one cell away at most, along periodic directions only. *)
Definition neighbour_cell (b : fbox) (i j k : Z) : Prop :=
  (Z.abs i <= 1 /\ Z.abs j <= 1 /\ Z.abs k <= 1)%Z /\ (i <> 0%Z -> fpx b = true) /\ (j <> 0%Z -> fpy b = true) /\ (k <> 0%Z -> fpz b = true /\ f2d b = false).
(** The point [q] moved by [i], [j], [k] box lengths (boxes without tilt). *)
Definition moved (b : fbox) (q : fvec) (i j k : Z) : vec3 :=
  (rv (fflat b q) + V3 (IZR i * val (fvx (fL b))) (IZR j * val (fvy (fL b))) (IZR k * val (fvz (fL b))))%V.
Definition exact_distance (b : fbox) (p q : fvec) (i j k : Z) : R := norm (rv (fflat b p) - moved b q i j k)%V.
(** The uncertainty of the computed distance: relative to the distance and to the size of the coordinates. *)
Definition slack (D S : R) : R := (8 * u * D + 4 * u * S + bpow radix2 (-70))%R.
Definition ordinary_radius (r : f32) : Prop := ordinary_length r.
