(** Specification vocabulary for bounding boxes. *)
From Verif Require Export AABBModel.
(** Componentwise order, and a box lying inside another. *)
Definition vle (a b : vec3) : Prop := (vx a <= vx b)%R /\ (vy a <= vy b)%R /\ (vz a <= vz b)%R.
Definition inside (a b : aabb) : Prop := vle (ab_lo b) (ab_lo a) /\ vle (ab_hi a) (ab_hi b).
