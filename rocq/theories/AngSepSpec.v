(** Specification of angular separations, in terms of rotation matrices. *)
From Verif Require Export AngSepModel QuatSpec NListSpec.
Local Open Scope R_scope.

Definition trace (m : rotm) : R := vx (r0 m) + vy (r1 m) + vz (r2 m).
(** [theta] is the angle of the rotation that takes orientation [a] to orientation [b]. *)
Definition turn_angle (a b : quat) (theta : R) : Prop :=
  0 <= theta <= PI /\ trace (rmul (rot_of_quat b) (rtrans (rot_of_quat a))) = 1 + 2 * cos theta.
(** The symmetry group of a particle, as the documentation asks for it: unit quaternions, with q also -q, closed under composition
    and inversion. *)
Definition symmetries (G : list quat) : Prop :=
  G <> [] /\ (forall g, In g G -> unitq g /\ In (qopp g) G /\ In (qconj g) G) /\ (forall g h, In g G -> In h G -> In (qmul g h) G).
(** The least angle over all equivalent orientations of [b]. *)
Definition least_angle (G : list quat) (a b : quat) (theta : R) : Prop :=
  (exists g, In g G /\ turn_angle a (qmul b g) theta) /\
  (forall g t, In g G -> turn_angle a (qmul b g) t -> theta <= t).
