(** Specification of rotations, independent of quaternions. *)
From Verif Require Export QuatModel MatchEnvSpec.
Local Open Scope R_scope.

(** A proper rotation matrix: orthonormal rows, determinant one. *)
Definition rotation (m : rotm) : Prop := orthonormal m /\ rdet m = 1.
Definition unitq (q : quat) : Prop := qs q * qs q + vx (qv q) * vx (qv q) + vy (qv q) * vy (qv q) + vz (qv q) * vz (qv q) = 1.
(** Turning [v] by [theta] about the unit axis [u] (right-handed): the part along the axis stays, the part across it turns. *)
Definition turn (u : vec3) (theta : R) (v : vec3) : vec3 :=
  let along := (dot u v * u)%V in let across := (v - along)%V in
  (along + cos theta * across + sin theta * cross u v)%V.
Definition qopp (q : quat) : quat := Q (- qs q) (- qv q)%V.
