(** Specification of the RDF in single precision (C85): exact distances, exact bins, exact normalisation. *)
From Coq Require Export ZArith Reals List Permutation.
From Flocq Require Export Core BinarySingleNaN.
From Verif Require Export FaabbSpec FrdfModel.
Export ListNotations.

(** The neighbouring cells along one direction and of the box. *)
Definition steps (periodic : bool) : list Z := if periodic then [-1; 0; 1]%Z else [0%Z].
Definition cells (b : fbox) : list (Z * Z * Z) :=
  list_prod (list_prod (steps (fpx b)) (steps (fpy b))) (steps (negb (f2d b) && fpz b)).
(** Every query point with every point and every neighbouring cell; a point is not its own neighbour if exclude_ii holds. *)
Definition pairs (f : fframe) : list (nat * nat * (Z * Z * Z)) :=
  filter (fun t => negb (ff_excl f && Nat.eqb (fst (fst t)) (snd (fst t))))
    (list_prod (list_prod (seq 0 (length (ff_queries f))) (seq 0 (length (ff_points f)))) (cells (ff_box f))).
Definition pair_distance (f : fframe) (t : nat * nat * (Z * Z * Z)) : R :=
  let '(qi, p, (i, j, k)) := t in exact_distance (ff_box f) (nth p (ff_points f) fv0) (nth qi (ff_queries f) fv0) i j k.
Definition pair_size (f : fframe) (t : nat * nat * (Z * Z * Z)) : R :=
  let '(qi, p, (i, j, k)) := t in norm (moved (ff_box f) (nth qi (ff_queries f) fv0) i j k).
Local Open Scope R_scope.
(** Where a distance lies along the axis, in units of bins. *)
Definition range_of (a : faxis) : R := val (fx_max a) - val (fx_min a).
Definition bins_from (a : faxis) (D : R) : R := IZR (fx_n a) * (D - val (fx_min a)) / range_of a.
(** Number of pairs of a frame in bin [c]. *)
Definition exact_count (a : faxis) (f : fframe) (c : nat) : Z :=
  Z.of_nat (length (filter (fun t => Z.eqb (Zfloor (bins_from a (pair_distance f t))) (Z.of_nat c)) (pairs f))).
Definition exact_counts (a : faxis) (fs : list fframe) (c : nat) : Z := fold_right Z.add 0%Z (map (fun f => exact_count a f c) fs).
(** No pair is as close to the edge of a bin as rounding can move it: six roundings of the position, and the slack of the distance. *)
Definition blur (a : faxis) (D S : R) : R := IZR (fx_n a) * (6 * u + slack D S / range_of a).
Definition clear (a : faxis) (f : fframe) : Prop :=
  forall t, In t (pairs f) -> forall m : Z, (0 <= m <= fx_n a)%Z ->
    blur a (pair_distance f t) (pair_size f t) < Rabs (bins_from a (pair_distance f t) - IZR m).
Definition ordinary_frame (f : fframe) : Prop :=
  ff_points f <> [] /\ plain_box (ff_box f) /\ Forall ordinary_point (ff_points f) /\ Forall ordinary_point (ff_queries f) /\
  execution 0 (length (ff_queries f)) (ff_ev f).

(** The same call, executed in another way. *)
Definition same_frame (f g : fframe) : Prop := ff_box f = ff_box g /\ ff_points f = ff_points g /\ ff_queries f = ff_queries g /\ ff_excl f = ff_excl g.
(** Twice the largest distance is below every periodic side. *)
Definition fits_box (a : faxis) (f : fframe) : Prop :=
  (fpx (ff_box f) = true -> 2 * val (fx_max a) < val (fvx (fL (ff_box f)))) /\ (fpy (ff_box f) = true -> 2 * val (fx_max a) < val (fvy (fL (ff_box f)))) /\
  (f2d (ff_box f) = false -> fpz (ff_box f) = true -> 2 * val (fx_max a) < val (fvz (fL (ff_box f)))).

(** * Normalisation *)
Definition bin_width (a : faxis) : R := range_of a / IZR (fx_n a).
Definition edge (a : faxis) (i : nat) : R := val (fx_min a) + INR i * bin_width a.
Definition shell (is2d : bool) (r r' : R) : R := if is2d then PI * (r' ^ 2 - r ^ 2) else 4 / 3 * PI * (r' ^ 3 - r ^ 3).
Definition volume (b : fbox) : R := if f2d b then val (fvx (fL b)) * val (fvy (fL b)) else val (fvx (fL b)) * val (fvy (fL b)) * val (fvz (fL b)).
Definition density (finite_size : bool) (b : fbox) (nqp : Z) : R := (if finite_size then IZR nqp - 1 else IZR nqp) / volume b.
Definition exact_rdf (finite_size : bool) (b : fbox) (a : faxis) (np nqp nf : Z) (c : Z) (i : nat) : R :=
  IZR c / (IZR np * density finite_size b nqp * IZR nf) / shell (f2d b) (edge a i) (edge a (S i)).
Definition exact_n_r (nqp nf : Z) (cs : list Z) : R := IZR (fold_right Z.add 0%Z cs) / (IZR nqp * IZR nf).
(** Numbers far from the limits of the format. *)
Definition handy (x : R) : Prop := bpow radix2 (-110) <= x <= bpow radix2 110.
Definition handy_length (x : f32) : Prop := finite x = true /\ bpow radix2 (-20) <= val x <= bpow radix2 20.
Definition handy_box (b : fbox) : Prop := handy_length (fvx (fL b)) /\ handy_length (fvy (fL b)) /\ (f2d b = false -> handy_length (fvz (fL b))).
(** An axis with bins no finer than 2^-16 of the largest distance. *)
Definition handy_axis (a : faxis) : Prop :=
  (1 <= fx_n a <= 65536)%Z /\ handy_length (fx_max a) /\ finite (fx_min a) = true /\
  (val (fx_min a) = 0 \/ bpow radix2 (-20) <= val (fx_min a)) /\ val (fx_min a) < val (fx_max a) /\ val (fx_max a) <= 65536 * bin_width a.
