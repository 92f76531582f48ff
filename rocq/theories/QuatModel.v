(** Model of the quaternion part of freud/util/VectorMath.h, over exact reals. *)
From Verif Require Export MatchEnvModel.
Local Open Scope R_scope.

(* VectorMath.h:594-628  struct quat *)
Record quat := Q { qs : R; qv : vec3 }.
(* VectorMath.h:611  default constructor *)
Definition qid : quat := Q 1 (V3 0 0 0).
(* VectorMath.h:719-722  quat * quat *)
Definition qmul (a b : quat) : quat :=
  Q (qs a * qs b - dot (qv a) (qv b)) (qs a * qv b + qs b * qv a + cross (qv a) (qv b))%V.
(* VectorMath.h:637-640  scalar * quat; 662-665 sum; 688-691 difference *)
Definition qscale (c : R) (a : quat) : quat := Q (c * qs a) (c * qv a)%V.
Definition qadd (a b : quat) : quat := Q (qs a + qs b) (qv a + qv b)%V.
Definition qsub (a b : quat) : quat := Q (qs a - qs b) (qv a - qv b)%V.
(* VectorMath.h:731-747  vec3 * quat and quat * vec3 promote the vector *)
Definition qvec (v : vec3) : quat := Q 0 v.
(* VectorMath.h:754-757 norm2, 764-767 conj, 855-858 dot *)
Definition qnorm2 (a : quat) : R := qs a * qs a + dot (qv a) (qv a).
Definition qconj (a : quat) : quat := Q (qs a) (- qv a)%V.
Definition qdot (a b : quat) : R := qs a * qs b + dot (qv a) (qv b).
(* VectorMath.h:619-623  fromAxisAngle *)
Definition q_axis_angle (axis : vec3) (theta : R) : quat := Q (cos (theta / 2)) (sin (theta / 2) * axis)%V.
(* VectorMath.h:812-825  rotate(quat, vec3) *)
Definition rotate (a : quat) (b : vec3) : vec3 :=
  ((qs a * qs a - dot (qv a) (qv a)) * b + (2 * qs a) * cross (qv a) b + (2 * dot (qv a) b) * qv a)%V.
(* VectorMath.h:835-848  rotate(quat, vec2) *)
Definition rotate2 (a : quat) (x y : R) : R * R := let r := rotate a (V3 x y 0) in (vx r, vy r).
(* VectorMath.h:983-1002  rotmat3(quat) *)
Definition rot_of_quat (q : quat) : rotm :=
  let a := qs q in let b := vx (qv q) in let c := vy (qv q) in let d := vz (qv q) in
  RM (V3 (a * a + b * b - c * c - d * d) (2 * b * c - 2 * a * d) (2 * b * d + 2 * a * c))
     (V3 (2 * b * c + 2 * a * d) (a * a - b * b + c * c - d * d) (2 * c * d - 2 * a * b))
     (V3 (2 * b * d - 2 * a * c) (2 * c * d + 2 * a * b) (a * a - b * b - c * c + d * d)).
(* VectorMath.h:1014-1017  rotmat3::fromAxisAngle; 1020-1024 det *)
Definition rot_axis_angle (axis : vec3) (theta : R) : rotm := rot_of_quat (q_axis_angle axis theta).
Definition rdet (m : rotm) : R :=
  vx (r0 m) * (vy (r1 m) * vz (r2 m) - vz (r1 m) * vy (r2 m)) - vy (r0 m) * (vx (r1 m) * vz (r2 m) - vz (r1 m) * vx (r2 m))
  + vz (r0 m) * (vx (r1 m) * vy (r2 m) - vy (r1 m) * vx (r2 m)).
(* VectorMath.h:773-803  quat(rotmat3) *)
Definition quat_of_rot (r : rotm) : quat :=
  let tr := vx (r0 r) + vy (r1 r) + vz (r2 r) in
  if Rlt_bool 0 tr then
    let S := sqrt (tr + 1) * 2 in
    Q (1 / 4 * S) (V3 ((vy (r2 r) - vz (r1 r)) / S) ((vz (r0 r) - vx (r2 r)) / S) ((vx (r1 r) - vy (r0 r)) / S))
  else if Rlt_bool (vy (r1 r)) (vx (r0 r)) && Rlt_bool (vz (r2 r)) (vx (r0 r)) then
    let S := sqrt (1 + vx (r0 r) - vy (r1 r) - vz (r2 r)) * 2 in
    Q ((vy (r2 r) - vz (r1 r)) / S) (V3 (1 / 4 * S) ((vy (r0 r) + vx (r1 r)) / S) ((vz (r0 r) + vx (r2 r)) / S))
  else if Rlt_bool (vz (r2 r)) (vy (r1 r)) then
    let S := sqrt (1 + vy (r1 r) - vx (r0 r) - vz (r2 r)) * 2 in
    Q ((vz (r0 r) - vx (r2 r)) / S) (V3 ((vy (r0 r) + vx (r1 r)) / S) (1 / 4 * S) ((vz (r1 r) + vy (r2 r)) / S))
  else
    let S := sqrt (1 + vz (r2 r) - vx (r0 r) - vy (r1 r)) * 2 in
    Q ((vx (r1 r) - vy (r0 r)) / S) (V3 ((vz (r0 r) + vx (r2 r)) / S) ((vz (r1 r) + vy (r2 r)) / S) (1 / 4 * S)).

(* VectorMath.h:877-925, 932-951  rotmat2: from a quaternion, from an angle, product with a vector, transpose *)
Record rotm2 := RM2 { m00 : R; m01 : R; m10 : R; m11 : R }.
Definition rot2_of_quat (q : quat) : rotm2 :=
  let a := qs q in let b := vx (qv q) in let c := vy (qv q) in let d := vz (qv q) in
  RM2 (a * a + b * b - c * c - d * d) (2 * b * c - 2 * a * d) (2 * b * c + 2 * a * d) (a * a - b * b + c * c - d * d).
Definition rot2_of_angle (theta : R) : rotm2 := RM2 (cos theta) (- sin theta) (sin theta) (cos theta).
Definition r2apply (m : rotm2) (x y : R) : R * R := (m00 m * x + m01 m * y, m10 m * x + m11 m * y).
Definition r2trans (m : rotm2) : rotm2 := RM2 (m00 m) (m10 m) (m01 m) (m11 m).
