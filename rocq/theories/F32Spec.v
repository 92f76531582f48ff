(** Specification for C65: what the computed numbers should be, in real arithmetic. *)
From Coq Require Import ZArith Reals List.
From Flocq Require Import Core BinarySingleNaN.
From Verif Require Import F32Model.
Import ListNotations.
Local Open Scope R_scope.

(** The value of a number that is neither infinite nor NaN. *)
Notation val := (@B2R 24 128).
Notation finite := (@is_finite 24 128).
(** A number has the given value. *)
Definition is (x : f32) (r : R) : Prop := finite x = true /\ val x = r.
(** Half the distance from 1 to the next number. *)
Definition u : R := / 16777216.

(** An axis whose bounds and bin width are far from the limits of the format, with at most 2^22 bins. *)
Definition ordinary (a : faxis) : Prop :=
  finite (fx_min a) = true /\ finite (fx_max a) = true /\ (1 <= fx_n a <= 4194304)%Z /\
  bpow radix2 (-125) <= (val (fx_max a) - val (fx_min a)) / IZR (fx_n a) /\ val (fx_max a) - val (fx_min a) <= bpow radix2 126.
(** The position of a value along the axis in units of bins, and its bin: exact. *)
Definition position (a : faxis) (v : f32) : R := IZR (fx_n a) * (val v - val (fx_min a)) / (val (fx_max a) - val (fx_min a)).
Definition exact_bin (a : faxis) (v : f32) : Z := Zfloor (position a v).
Definition in_range (a : faxis) (v : f32) : Prop := val (fx_min a) <= val v < val (fx_max a).

(** A box without tilt, of ordinary size, and a point within 2^60. *)
Definition ordinary_length (L : f32) : Prop := finite L = true /\ bpow radix2 (-60) <= val L <= bpow radix2 60.
Definition ordinary_coord (v : f32) : Prop := finite v = true /\ Rabs (val v) <= bpow radix2 60.
Definition plain_box (b : fbox) : Prop :=
  ordinary_length (fvx (fL b)) /\ ordinary_length (fvy (fL b)) /\
  (if f2d b then is (fvz (fL b)) 0 else ordinary_length (fvz (fL b))) /\ is (fxy b) 0 /\ is (fxz b) 0 /\ is (fyz b) 0.
Definition ordinary_point (v : fvec) : Prop := ordinary_coord (fvx v) /\ ordinary_coord (fvy v) /\ ordinary_coord (fvz v).
(** [w] is an image of [v] along a direction of length [L]: inside the box if the direction is periodic, up to rounding
    errors otherwise exact. *)
Definition image_of (periodic : bool) (L v w : f32) : Prop :=
  finite w = true /\
  (if periodic then - (val L / 2) <= val w < val L / 2 else True) /\
  exists k : Z, (periodic = false -> k = 0%Z) /\ Rabs (val w - (val v + IZR k * val L)) <= 6 * u * (Rabs (val v) + val L).
