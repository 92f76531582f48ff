(** C59: quaternion rotations are isometries consistent with rotation matrices. *)
From Verif Require Export QuatSpec QuatProofs.
From Coq Require Import Lra.
From Verif Require Import Vec.
Local Open Scope R_scope.

(** C59.  A unit quaternion acts as a rotation: lengths, angles and handedness are kept. *)
Theorem C59_isometry q : unitq q -> forall v w,
  dot (rotate q v) (rotate q w) = dot v w /\ norm (rotate q v) = norm v /\ rotate q (cross v w) = cross (rotate q v) (rotate q w) /\
  rotate q (v + w)%V = (rotate q v + rotate q w)%V.
Proof.
  intros H v w. apply unitq_norm2 in H.
  assert (D : forall v w, dot (rotate q v) (rotate q w) = dot v w) by (intros; rewrite rotate_norm2, H; ring).
  split; [apply D|]. split; [unfold norm; rewrite D; reflexivity|].
  split; [|apply vec_eq; unfold rotate, dot; simpl; ring].
  assert (G : forall c, c = qnorm2 q -> (c * rotate q (cross v w))%V = cross (rotate q v) (rotate q w)).
  { intros c ->. unfold qnorm2. apply vec_eq; unfold rotate, dot; simpl; ring. }
  specialize (G 1 (eq_sym H)). rewrite <- G. apply vec_eq; simpl; ring.
Qed.

(** The conjugate undoes the rotation; products compose; the identity and the negative quaternion. *)
Theorem C59_group a b v : unitq a ->
  rotate (qconj a) (rotate a v) = v /\ rotate a (rotate (qconj a) v) = v /\ rotate (qmul a b) v = rotate a (rotate b v) /\
  rotate qid v = v /\ rotate (qopp a) v = rotate a v /\ (unitq b -> unitq (qmul a b)) /\
  qmul (qmul a (qvec v)) (qconj a) = qvec (rotate a v).
Proof.
  intros H.
  assert (I : rotate qid v = v) by (apply vec_eq; unfold rotate, dot; simpl; unfold dot; simpl; ring).
  split; [rewrite <- rotate_mul, unit_inv_l; auto|]. split; [rewrite <- rotate_mul, unit_inv_r; auto|].
  split; [apply rotate_mul|]. split; [exact I|]. split; [apply vec_eq; unfold rotate, dot; simpl; unfold dot; simpl; ring|].
  split; [apply unitq_mul; exact H|].
  apply quat_eq; [simpl; unfold dot; simpl; ring|apply vec_eq; unfold rotate, dot; simpl; unfold dot; simpl; ring].
Qed.

(** The matrix of a quaternion is a proper rotation matrix and acts in the same way; transposes and products correspond. *)
Theorem C59_matrix q p : unitq q ->
  rotation (rot_of_quat q) /\ (forall v, rapply (rot_of_quat q) v = rotate q v) /\
  rot_of_quat (qconj q) = rtrans (rot_of_quat q) /\ rot_of_quat (qmul q p) = rmul (rot_of_quat q) (rot_of_quat p).
Proof. intros H. repeat split; try (apply rot_rotation; assumption); [apply rotate_matrix|apply rot_conj|apply rot_mul]. Qed.

(** Converting a proper rotation matrix gives a unit quaternion with the same action, the only one up to sign. *)
Theorem C59_from_matrix m : rotation m ->
  unitq (quat_of_rot m) /\ rot_of_quat (quat_of_rot m) = m /\ (forall v, rotate (quat_of_rot m) v = rapply m v) /\
  forall q, unitq q -> (forall v, rotate q v = rapply m v) -> q = quat_of_rot m \/ q = qopp (quat_of_rot m).
Proof.
  intros H. destruct (quat_of_rot_ok m H) as [U E]. split; [exact U|]. split; [exact E|].
  split; [intros; rewrite <- rotate_matrix, E; reflexivity|].
  intros q Hq Hv. apply rot_inj; auto. rewrite E.
  assert (X := Hv (V3 1 0 0)). assert (Y := Hv (V3 0 1 0)). assert (Z := Hv (V3 0 0 1)).
  rewrite <- rotate_matrix in X, Y, Z. set (n := rot_of_quat q) in *. clearbody n.
  destruct m as [[a b c] [d e f] [g h i]], n as [[a' b' c'] [d' e' f'] [g' h' i']].
  unfold rapply, dot in X, Y, Z; simpl in X, Y, Z.
  injection X; injection Y; injection Z; intros. f_equal; f_equal; lra.
Qed.
Theorem C59_round_trip q : unitq q -> quat_of_rot (rot_of_quat q) = q \/ quat_of_rot (rot_of_quat q) = qopp q.
Proof. intros H. destruct (quat_of_rot_ok _ (rot_rotation q H)) as [U E]. apply rot_inj; assumption. Qed.

(** A quaternion made from a unit axis and an angle turns vectors by that angle about that axis. *)
Lemma half_angle t : cos t = cos (t / 2) * cos (t / 2) - sin (t / 2) * sin (t / 2) /\ sin t = 2 * sin (t / 2) * cos (t / 2) /\
  cos (t / 2) * cos (t / 2) + sin (t / 2) * sin (t / 2) = 1.
Proof.
  pose proof (sin2_cos2 (t / 2)) as S. unfold Rsqr in S.
  assert (C1 := cos_2a (t / 2)). assert (S1 := sin_2a (t / 2)). replace (2 * (t / 2)) with t in C1, S1 by field.
  repeat split; lra.
Qed.
Theorem C59_axis_angle u theta : dot u u = 1 ->
  unitq (q_axis_angle u theta) /\ (forall v, rotate (q_axis_angle u theta) v = turn u theta v) /\
  (forall v, rapply (rot_axis_angle u theta) v = turn u theta v).
Proof.
  intros Hu. destruct (half_angle theta) as (C & S & P). set (c := cos (theta / 2)) in *. set (s := sin (theta / 2)) in *.
  assert (U : unitq (q_axis_angle u theta)).
  { unfold unitq, q_axis_angle; simpl. fold c s. unfold dot in Hu.
    replace (c * c + s * vx u * (s * vx u) + s * vy u * (s * vy u) + s * vz u * (s * vz u))
      with (c * c + s * s * (vx u * vx u + vy u * vy u + vz u * vz u)) by ring. rewrite Hu. lra. }
  assert (T : forall v, rotate (q_axis_angle u theta) v = turn u theta v).
  { intros v. unfold rotate, turn, q_axis_angle; simpl. fold c s. rewrite C, S.
    assert (D : dot (s * u)%V (s * u)%V = s * s) by (unfold dot in *; simpl; nra).
    rewrite D. assert (E : dot (s * u)%V v = s * dot u v) by (unfold dot; simpl; ring). rewrite E.
    set (k := dot u v). clearbody k. replace (s * s) with (1 - c * c) by lra.
    assert (s * s = 1 - c * c) as Q by lra.
    apply vec_eq; simpl.
    - replace (2 * (s * k) * (s * vx u)) with (2 * (s * s) * k * vx u) by ring. rewrite Q. ring.
    - replace (2 * (s * k) * (s * vy u)) with (2 * (s * s) * k * vy u) by ring. rewrite Q. ring.
    - replace (2 * (s * k) * (s * vz u)) with (2 * (s * s) * k * vz u) by ring. rewrite Q. ring. }
  split; [exact U|]. split; [exact T|]. intros v. unfold rot_axis_angle. rewrite rotate_matrix. apply T.
Qed.

(** In the plane: the two-dimensional forms agree with the three-dimensional ones. *)
Theorem C59_plane q theta x y :
  rotate2 q x y = r2apply (rot2_of_quat q) x y /\
  rotate2 (q_axis_angle (V3 0 0 1) theta) x y = r2apply (rot2_of_angle theta) x y /\
  r2apply (rot2_of_angle theta) x y = (cos theta * x - sin theta * y, sin theta * x + cos theta * y) /\
  r2trans (rot2_of_angle theta) = rot2_of_angle (- theta).
Proof.
  split; [unfold rotate2, r2apply, rotate, dot; simpl; f_equal; ring|].
  split.
  { unfold rotate2. destruct (C59_axis_angle (V3 0 0 1) theta) as (_ & T & _); [unfold dot; simpl; ring|].
    rewrite T. unfold turn, r2apply, dot; simpl. f_equal; ring. }
  split; [unfold r2apply; simpl; f_equal; ring|].
  unfold r2trans, rot2_of_angle; simpl. rewrite cos_neg, sin_neg, Ropp_involutive. reflexivity.
Qed.

(** An improper matrix is not representable: the conversion gives a quaternion with another action. *)
Theorem C59_improper m : rdet m < 0 -> rot_of_quat (quat_of_rot m) <> m.
Proof.
  intros H E. rewrite <- E, rot_det in H.
  assert (0 <= qnorm2 (quat_of_rot m)) by (unfold qnorm2; pose proof (dot_nonneg (qv (quat_of_rot m))); pose proof (Rle_0_sqr (qs (quat_of_rot m))); unfold Rsqr in *; lra).
  pose proof (Rmult_le_pos _ _ (Rmult_le_pos _ _ H0 H0) H0). lra.
Qed.

(** Non-trivial instances: a half turn about the y axis (trace -1, third branch of the conversion), and a
    third of a turn about (1,1,1). *)
Definition half_turn_y : rotm := RM (V3 (-1) 0 0) (V3 0 1 0) (V3 0 0 (-1)).
Definition third_turn : rotm := RM (V3 0 0 1) (V3 1 0 0) (V3 0 1 0).
Example C59_ex : rotation half_turn_y /\ rotation third_turn /\ unitq (Q (1/2) (V3 (1/2) (1/2) (1/2))) /\
  rotate (Q (1/2) (V3 (1/2) (1/2) (1/2))) (V3 1 2 3) = V3 3 1 2 /\ rapply third_turn (V3 1 2 3) = V3 3 1 2.
Proof.
  split; [|split; [|split; [|split]]].
  1,2: split; [split|]; unfold rmul, rtrans, rid, rdet, half_turn_y, third_turn, dot; simpl;
    [apply rotm_eq; apply vec_eq; simpl; lra|apply rotm_eq; apply vec_eq; simpl; lra|lra].
  - unfold unitq; simpl; lra.
  - apply vec_eq; unfold rotate, dot; simpl; unfold dot; simpl; lra.
  - apply vec_eq; unfold rapply, third_turn, dot; simpl; lra.
Qed.
Print Assumptions C59_from_matrix.
Print Assumptions C59_axis_angle.
