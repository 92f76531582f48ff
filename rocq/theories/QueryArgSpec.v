(** Specification of query arguments, following docs/source/topics/querying.rst, independent of the sentinel encoding. *)
From Verif Require Export QueryModel QuerySpec.
Open Scope R_scope.

Definition mode_unset (p : pyargs) : Prop := pa_mode p = PyNone \/ pa_mode p = PyStrNone.
Definition or_else {A} (o : option A) (d : A) : A := match o with Some x => x | None => d end.
(** Only known names, a known mode and a neighbour count that fits an unsigned int. *)
Definition well_formed (p : pyargs) : Prop :=
  pa_unknown p = false /\ pa_mode p <> PyOther /\ forall k, pa_k p = Some k -> (0 <= k < 2 ^ 32)%Z.
(** A ball query with cutoff [r]: requested by name or by giving r_max alone. *)
Definition asks_ball (p : pyargs) (r : R) : Prop :=
  pa_rmax p = Some r /\ pa_k p = None /\ (pa_mode p = PyBall \/ mode_unset p).
(** A nearest-neighbour query for [k] neighbours: requested by name or by giving num_neighbors. *)
Definition asks_nearest (p : pyargs) (k : Z) : Prop :=
  pa_k p = Some k /\ (pa_mode p = PyNearest \/ mode_unset p).
(** No argument has one of the values the C++ layer uses for "not given". *)
Definition no_sentinel (p : pyargs) : Prop :=
  pa_rmax p <> Some (-1) /\ pa_k p <> Some 4294967295%Z /\ pa_scale p <> Some (-1) /\ pa_rguess p <> Some (-1).

(** The radius of a ball that holds [k] of [n] points at uniform density in volume [v]. *)
Definition density_radius (k : Z) (n : nat) (v g : R) : Prop := 0 <= g /\ 4 / 3 * PI * g ^ 3 = IZR k * v / INR n.
(** Smallest plane distance of the box (the z distance counts in 3D only). *)
Definition smallest_plane (b : box) (m : R) : Prop :=
  m <= vx (plane_distance b) /\ m <= vy (plane_distance b) /\ (b_2d b = false -> m <= vz (plane_distance b)) /\
  (m = vx (plane_distance b) \/ m = vy (plane_distance b) \/ b_2d b = false /\ m = vz (plane_distance b)).
