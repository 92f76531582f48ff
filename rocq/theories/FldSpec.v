(** Specification of LocalDensity in single precision (C91): exact distances, exact fractions. *)
From Coq Require Export ZArith Reals List Permutation.
From Flocq Require Export Core BinarySingleNaN.
From Verif Require Export FrdfSpec FldModel.
Export ListNotations.
Local Open Scope R_scope.

(** The part of the diameter D > 0 of a particle at distance d, along the line of centres, within the distance r. *)
Definition part (r D d : R) : R := Rmax 0 (Rmin 1 ((r + D / 2 - d) / D)).
(** A ball: a disc in 2D. *)
Definition ball (is2d : bool) (r : R) : R := if is2d then PI * r ^ 2 else 4 / 3 * PI * r ^ 3.
(** Numbers of ordinary size: r_max and diameter, which is no thinner than 2^-16 of r_max. *)
Definition handy_ld (l : fldens) : Prop :=
  handy_length (fld_r l) /\ handy_length (fld_D l) /\ val (fld_r l) <= 65536 * val (fld_D l).
Definition rsum (l : list R) : R := fold_right Rplus 0 l.
(** The pairs of query point i. *)
Definition pairs_at (f : fframe) (i : nat) : list (nat * nat * (Z * Z * Z)) := filter (fun t => Nat.eqb (fst (fst t)) i) (pairs f).
Definition exact_number (l : fldens) (f : fframe) (i : nat) : R := rsum (map (fun t => part (val (fld_r l)) (val (fld_D l)) (pair_distance f t)) (pairs_at f i)).
(** How many of them are closer than r_max plus the diameter. *)
Definition close_number (l : fldens) (f : fframe) (i : nat) : nat :=
  length (filter (fun t => Rlt_bool (pair_distance f t) (val (fld_r l) + val (fld_D l))) (pairs_at f i)).
(** The bound on the error: K close pairs, at most S away from the origin. *)
Definition ld_error (K r D S : R) : R := K * u * (2 * K + 40 + (25 * r + 8 * S) / D).
(** No particle is cut by the rim: those closer than r_max plus the diameter are inside, further from the rim than rounding reaches. *)
Definition whole_only (l : fldens) (f : fframe) (i : nat) (S : R) : Prop := forall t, In t (pairs_at f i) ->
  let r := val (fld_r l) in let D := val (fld_D l) in
  pair_distance f t < r + D -> pair_distance f t + u * (12 * r + 12 * D + 8 * S) <= r - D / 2.
