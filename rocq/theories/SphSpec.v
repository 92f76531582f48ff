(** Specification of directions, solid angles and descriptor rows. *)
From Verif Require Export SphModel QuatSpec HistSpec NListSpec.
Local Open Scope R_scope.

(** [theta] (azimuth) and [phi] (polar angle) of a vector; on the z axis the azimuth is 0 by convention. *)
Definition direction (v : vec3) (theta phi : R) : Prop :=
  0 <= theta < 2 * PI /\ 0 <= phi <= PI /\
  v = V3 (norm v * (sin phi * cos theta)) (norm v * (sin phi * sin theta)) (norm v * cos phi) /\
  (vx v = 0 -> vy v = 0 -> theta = 0).
Definition down (v : vec3) : Prop := vx v = 0 /\ vy v = 0 /\ vz v < 0.

(** The vector a mode looks at: [w] are the coordinates of [v] in the frame of orientation [q] when turning them by q gives v. *)
Definition in_frame (q : quat) (w v : vec3) : Prop := rotate q w = v.
Definition mode_vector (m : bo_mode) (ref_q q : quat) (v w : vec3) : Prop :=
  match m with
  | Bod => w = v
  | Lbod => in_frame ref_q w v
  | Obcd => exists u, in_frame ref_q u v /\ w = rotate q u
  | Oocd => in_frame ref_q w (rotate q (V3 0 0 1))
  end.

(** Position of bond k among the bonds of its query point. *)
Definition rank (bs : list bond) (k : nat) : nat :=
  length (filter (fun b => (bq b =? bq (nth k bs bond0))%nat) (firstn k bs)).
Definition used (max : Z) (bs : list bond) (k : nat) : Prop := (Z.of_nat (rank bs k) < max)%Z.
(** The bonds of query point i that are used, in list order. *)
Definition first_bonds (max : Z) (bs : list bond) (i : nat) : list bond :=
  firstn (Z.to_nat max) (filter (fun b => (bq b =? i)%nat) bs).
(** Sum of r^2 I - r r^T. *)
Fixpoint inertia (rs : list vec3) : rotm :=
  match rs with
  | [] => RM v0 v0 v0
  | r :: rs => let t := inertia rs in
      RM (V3 (vx (r0 t) + (vy r * vy r + vz r * vz r)) (vy (r0 t) - vx r * vy r) (vz (r0 t) - vx r * vz r))
         (V3 (vx (r1 t) - vx r * vy r) (vy (r1 t) + (vx r * vx r + vz r * vz r)) (vz (r1 t) - vy r * vz r))
         (V3 (vx (r2 t) - vx r * vz r) (vy (r2 t) - vy r * vz r) (vz (r2 t) + (vx r * vx r + vy r * vy r)))
  end.
(** The frame of query point i. *)
Definition point_frame (diag : rotm -> rotm) (m : ld_mode) (o : list quat) (max : Z) (bs : list bond) (i : nat) : rotm :=
  match m with
  | LocalNeighborhood => diag (inertia (map bv (first_bonds max bs i)))
  | ParticleLocal => rtrans (rot_of_quat (nth i o qid))
  | Global => rid
  end.
