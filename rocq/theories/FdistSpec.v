(** Specification of distances in single precision (C81). *)
From Coq Require Import Permutation.
From Verif Require Export FcellSpec FdistModel.
From Verif Require Import Vec.
Import ListNotations.
Open Scope R_scope.

(** Numbers of box lengths that are allowed: along periodic directions only, none along z in two dimensions. *)
Definition allowed (b : fbox) (i j k : Z) : Prop :=
  (fpx b = false -> i = 0%Z) /\ (fpy b = false -> j = 0%Z) /\ (fpz b = false \/ f2d b = true -> k = 0%Z).
(** The distance to the nearest image, exactly. *)
Definition nearest_distance (b : fbox) (q p : fvec) (D : R) : Prop :=
  (exists i j k, allowed b i j k /\ D = exact_distance b p q i j k) /\ forall i j k, allowed b i j k -> D <= exact_distance b p q i j k.
(** A point of ordinary size, anywhere, in the plane z = 0 if the box has two dimensions. *)
Definition half_coord (v : f32) : Prop := finite v = true /\ Rabs (val v) <= bpow radix2 59.
Definition good_point (b : fbox) (p : fvec) : Prop := half_coord (fvx p) /\ half_coord (fvy p) /\ half_coord (fvz p) /\ (f2d b = true -> is (fvz p) 0).
(** How far apart two points are before wrapping, and how large the numbers involved are. *)
Definition spread (q p : fvec) : R := Rabs (val (fvx p) - val (fvx q)) + Rabs (val (fvy p) - val (fvy q)) + Rabs (val (fvz p) - val (fvz q)).
Definition extent (p : fvec) : R := Rabs (val (fvx p)) + Rabs (val (fvy p)) + Rabs (val (fvz p)).
Definition distance_error (b : fbox) (q p : fvec) (D : R) : R := 8 * u * D + 16 * u * (box_size b + spread q p) + bpow radix2 (-70).
(** The radius is at most half the length of every periodic direction. *)
Definition half_periodic (b : fbox) (r : f32) : Prop :=
  (fpx b = true -> 2 * val r <= val (fvx (fL b))) /\ (fpy b = true -> 2 * val r <= val (fvy (fL b))) /\ (fpz b = true -> f2d b = false -> 2 * val r <= val (fvz (fL b))).
(** A box of ordinary size with any moderate tilt. *)
Definition sane_box (b : fbox) : Prop :=
  ordinary_length (fvx (fL b)) /\ ordinary_length (fvy (fL b)) /\ (if f2d b then is (fvz (fL b)) 0 else ordinary_length (fvz (fL b))) /\
  half_coord (fxy b) /\ half_coord (fxz b) /\ half_coord (fyz b).
(** A schedule performs every assignment once. *)
Definition schedule1 (n : nat) (order : list nat) : Prop := Permutation order (seq 0 n).
Definition schedule2 (n m : nat) (order : list (nat * nat)) : Prop := Permutation order (list_prod (seq 0 n) (seq 0 m)).
