(** Specification of local bond projections. *)
From Verif Require Export LbpModel QuatSpec NListSpec AngSepSpec.
Local Open Scope R_scope.

(** The reference vector [p], fixed to a particle of orientation [o], as seen in the laboratory when the particle is replaced by its
    equivalent under the symmetry [g]. *)
Definition carried (o g : quat) (p : vec3) : vec3 := rotate (qmul o g) p.
(** [m] is the largest projection of the bond [v] on any of the carried vectors. *)
Definition largest_projection (G : list quat) (o : quat) (p v : vec3) (m : R) : Prop :=
  (exists g, In g G /\ m = dot (carried o g p) v) /\ (forall g, In g G -> dot (carried o g p) v <= m).
(** A list of symmetries with or without their negatives: every product and inverse is there up to sign. *)
Definition same_rotation (a b : quat) : Prop := a = b \/ a = qopp b.
Definition rotations_of (G : list quat) : Prop :=
  (forall g, In g G -> unitq g) /\ (exists g, In g G /\ same_rotation g qid) /\
  (forall g h, In g G -> In h G -> exists k, In k G /\ same_rotation (qmul g h) k) /\
  (forall g, In g G -> exists k, In k G /\ same_rotation (qconj g) k).
