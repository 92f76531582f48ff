(** Quaternion algebra, rotation matrices and the conversion between them. *)
From Verif Require Import QuatSpec MatchEnvProofs.
From Coq Require Import Lra Nsatz.
Local Open Scope R_scope.

Lemma quat_eq a b : qs a = qs b -> qv a = qv b -> a = b.
Proof. destruct a, b; simpl; congruence. Qed.
Ltac quat_ring := apply quat_eq; [simpl; unfold dot; simpl; ring | apply vec_eq; simpl; unfold dot; simpl; ring].
Lemma rotm_eq a b : r0 a = r0 b -> r1 a = r1 b -> r2 a = r2 b -> a = b.
Proof. destruct a, b; simpl; congruence. Qed.

Lemma qmul_assoc a b c : qmul a (qmul b c) = qmul (qmul a b) c. Proof. quat_ring. Qed.
Lemma qmul_id_l a : qmul qid a = a. Proof. quat_ring. Qed.
Lemma qmul_id_r a : qmul a qid = a. Proof. quat_ring. Qed.
Lemma qconj_mul a b : qconj (qmul a b) = qmul (qconj b) (qconj a). Proof. quat_ring. Qed.
Lemma qconj_conj a : qconj (qconj a) = a. Proof. quat_ring. Qed.
Lemma qmul_conj_r a : qmul a (qconj a) = Q (qnorm2 a) v0.
Proof. apply quat_eq; [unfold qnorm2, dot; simpl; unfold dot; simpl; ring | apply vec_eq; simpl; ring]. Qed.
Lemma qmul_conj_l a : qmul (qconj a) a = Q (qnorm2 a) v0.
Proof. apply quat_eq; [unfold qnorm2, dot; simpl; unfold dot; simpl; ring | apply vec_eq; simpl; ring]. Qed.
Lemma qnorm2_mul a b : qnorm2 (qmul a b) = qnorm2 a * qnorm2 b.
Proof. unfold qnorm2; simpl; unfold dot; simpl; ring. Qed.
Lemma unitq_norm2 q : unitq q <-> qnorm2 q = 1.
Proof. unfold unitq, qnorm2, dot. split; intros <-; ring. Qed.
Lemma unitq_mul a b : unitq a -> unitq b -> unitq (qmul a b).
Proof. rewrite !unitq_norm2, qnorm2_mul. intros -> ->. ring. Qed.
Lemma unitq_conj a : unitq a -> unitq (qconj a).
Proof. unfold unitq; simpl. intros <-; ring. Qed.
Lemma unitq_opp a : unitq a -> unitq (qopp a).
Proof. unfold unitq; simpl. intros <-; ring. Qed.
Lemma unitq_id : unitq qid. Proof. unfold unitq; simpl; ring. Qed.
Lemma unit_inv_r a : unitq a -> qmul a (qconj a) = qid.
Proof. rewrite unitq_norm2. intros H. rewrite qmul_conj_r, H. reflexivity. Qed.
Lemma unit_inv_l a : unitq a -> qmul (qconj a) a = qid.
Proof. rewrite unitq_norm2. intros H. rewrite qmul_conj_l, H. reflexivity. Qed.

Lemma rotate_mul a b v : rotate (qmul a b) v = rotate a (rotate b v).
Proof. apply vec_eq; unfold rotate, dot; simpl; unfold dot; simpl; ring. Qed.
Lemma rotate_norm2 q v w : dot (rotate q v) (rotate q w) = qnorm2 q * qnorm2 q * dot v w.
Proof. unfold rotate, qnorm2, dot; simpl; ring. Qed.
Lemma rotate_matrix q v : rapply (rot_of_quat q) v = rotate q v.
Proof. apply vec_eq; unfold rotate, dot; simpl; unfold dot; simpl; ring. Qed.
Lemma rot_mul a b : rot_of_quat (qmul a b) = rmul (rot_of_quat a) (rot_of_quat b).
Proof. apply rotm_eq; apply vec_eq; unfold dot; simpl; unfold dot; simpl; ring. Qed.
Lemma rot_conj a : rot_of_quat (qconj a) = rtrans (rot_of_quat a).
Proof. apply rotm_eq; apply vec_eq; simpl; ring. Qed.
Lemma rot_opp a : rot_of_quat (qopp a) = rot_of_quat a.
Proof. apply rotm_eq; apply vec_eq; simpl; ring. Qed.
Lemma rot_id : rot_of_quat qid = rid.
Proof. apply rotm_eq; apply vec_eq; simpl; ring. Qed.
Lemma rot_det q : rdet (rot_of_quat q) = qnorm2 q * qnorm2 q * qnorm2 q.
Proof. unfold rdet, qnorm2, dot; simpl; ring. Qed.
Lemma rot_rotation q : unitq q -> rotation (rot_of_quat q).
Proof.
  intros H. split; [split|].
  - rewrite <- rot_conj, <- rot_mul, (unit_inv_l _ H). apply rot_id.
  - rewrite <- rot_conj, <- rot_mul, (unit_inv_r _ H). apply rot_id.
  - rewrite rot_det. apply unitq_norm2 in H. rewrite H. ring.
Qed.

(** Entries of a rotation matrix: the symmetric 4x4 matrix built from them has rank one. *)
Record rmat_ids (m00 m01 m02 m10 m11 m12 m20 m21 m22 : R) : Prop := {
  rr0 : m00*m00 + m01*m01 + m02*m02 = 1; rr1 : m10*m10 + m11*m11 + m12*m12 = 1; rr2 : m20*m20 + m21*m21 + m22*m22 = 1;
  rr01 : m00*m10 + m01*m11 + m02*m12 = 0; rr02 : m00*m20 + m01*m21 + m02*m22 = 0; rr12 : m10*m20 + m11*m21 + m12*m22 = 0;
  cc0 : m00*m00 + m10*m10 + m20*m20 = 1; cc1 : m01*m01 + m11*m11 + m21*m21 = 1; cc2 : m02*m02 + m12*m12 + m22*m22 = 1;
  cc01 : m00*m01 + m10*m11 + m20*m21 = 0; cc02 : m00*m02 + m10*m12 + m20*m22 = 0; cc12 : m01*m02 + m11*m12 + m21*m22 = 0;
  k00 : m00 = m11*m22 - m12*m21; k01 : m01 = m12*m20 - m10*m22; k02 : m02 = m10*m21 - m11*m20;
  k10 : m10 = m02*m21 - m01*m22; k11 : m11 = m00*m22 - m02*m20; k12 : m12 = m01*m20 - m00*m21;
  k20 : m20 = m01*m12 - m02*m11; k21 : m21 = m02*m10 - m00*m12; k22 : m22 = m00*m11 - m01*m10 }.

Lemma rotation_ids m : rotation m ->
  rmat_ids (vx (r0 m)) (vy (r0 m)) (vz (r0 m)) (vx (r1 m)) (vy (r1 m)) (vz (r1 m)) (vx (r2 m)) (vy (r2 m)) (vz (r2 m)).
Proof.
  destruct m as [[a b c] [d e f] [g h i]]. unfold rotation, orthonormal, rmul, rtrans, rid, rdet, dot; simpl.
  intros [[Hc Hr] Hd].
  assert (C : a*a+d*d+g*g = 1 /\ a*b+d*e+g*h = 0 /\ a*c+d*f+g*i = 0 /\ b*b+e*e+h*h = 1 /\ b*c+e*f+h*i = 0 /\ c*c+f*f+i*i = 1)
    by (injection Hc; intros; repeat split; assumption).
  assert (Rw : a*a+b*b+c*c = 1 /\ a*d+b*e+c*f = 0 /\ a*g+b*h+c*i = 0 /\ d*d+e*e+f*f = 1 /\ d*g+e*h+f*i = 0 /\ g*g+h*h+i*i = 1)
    by (injection Hr; intros; repeat split; assumption).
  clear Hc Hr. destruct C as (C0 & C01 & C02 & C1 & C12 & C2), Rw as (R0 & R01 & R02 & R1 & R12 & R2).
  constructor; try lra; nsatz.
Qed.

(** The result of the conversion, given its pivot: components c_i with 4 c_i c_j = w_ij. *)
Lemma pivot w p a b c waa wab wac wbb wbc wcc : 0 < w ->
  a * a = waa * w -> b * b = wbb * w -> c * c = wcc * w -> a * b = wab * w -> a * c = wac * w -> b * c = wbc * w ->
  p = sqrt w * 2 ->
  let P := 1 / 4 * p in
  4 * (P * P) = w /\ 4 * (P * (a / p)) = a /\ 4 * (P * (b / p)) = b /\ 4 * (P * (c / p)) = c /\
  4 * (a / p * (a / p)) = waa /\ 4 * (b / p * (b / p)) = wbb /\ 4 * (c / p * (c / p)) = wcc /\
  4 * (a / p * (b / p)) = wab /\ 4 * (a / p * (c / p)) = wac /\ 4 * (b / p * (c / p)) = wbc.
Proof.
  intros Hw Ha Hb Hc Hab Hac Hbc Hp P.
  assert (Hpos : 0 < p) by (rewrite Hp; pose proof (sqrt_lt_R0 _ Hw); lra).
  assert (Hpp : p * p = 4 * w).
  { rewrite Hp. pose proof (sqrt_sqrt w ltac:(lra)). nra. }
  assert (D : forall x y wxy, x * y = wxy * w -> 4 * (x / p * (y / p)) = wxy).
  { intros x y wxy E. replace (4 * (x / p * (y / p))) with (4 * (x * y) / (p * p)) by (field; lra).
    rewrite Hpp, E. field. lra. }
  subst P. repeat split; try (apply D; assumption); try (field; lra).
  replace (4 * (1 / 4 * p * (1 / 4 * p))) with (1 / 4 * (p * p)) by field. rewrite Hpp. field.
Qed.

Lemma quat_of_rot_ok m : rotation m -> unitq (quat_of_rot m) /\ rot_of_quat (quat_of_rot m) = m.
Proof.
  intros Hm. pose proof (rotation_ids m Hm) as I. clear Hm.
  destruct m as [[a b c] [d e f] [g h i]]. simpl in I.
  unfold quat_of_rot; simpl. destruct I.
  destruct (Rlt_bool_spec 0 (a + e + i)) as [Ht|Ht].
  - destruct (pivot (a + e + i + 1) (sqrt (a + e + i + 1) * 2) (h - f) (c - g) (d - b)
        (1 + a - e - i) (b + d) (c + g) (1 + e - a - i) (f + h) (1 + i - a - e)) as (E & E1 & E2 & E3 & E4 & E5 & E6 & E7 & E8 & E9);
      try reflexivity; try lra.
    set (p := sqrt (a + e + i + 1) * 2) in *. clearbody p.
    split; [unfold unitq; simpl; lra|]. apply rotm_eq; apply vec_eq; simpl; lra.
  - destruct (Rlt_bool_spec e a) as [H1|H1], (Rlt_bool_spec i a) as [H2|H2]; simpl.
    { destruct (pivot (1 + a - e - i) (sqrt (1 + a - e - i) * 2) (h - f) (b + d) (c + g)
        (1 + a + e + i) (c - g) (d - b) (1 + e - a - i) (f + h) (1 + i - a - e)) as (E & E1 & E2 & E3 & E4 & E5 & E6 & E7 & E8 & E9);
      try reflexivity; try lra.
      set (p := sqrt _ * 2) in *. clearbody p.
      split; [unfold unitq; simpl; lra|]. apply rotm_eq; apply vec_eq; simpl; lra. }
    all: destruct (Rlt_bool_spec i e) as [H3|H3]; try lra.
    all: first
     [ destruct (pivot (1 + e - a - i) (sqrt (1 + e - a - i) * 2) (c - g) (b + d) (f + h)
        (1 + a + e + i) (h - f) (d - b) (1 + a - e - i) (c + g) (1 + i - a - e)) as (E & E1 & E2 & E3 & E4 & E5 & E6 & E7 & E8 & E9);
       [lra | lra | lra | lra | lra | lra | lra | reflexivity |];
       set (p := sqrt (1 + e - a - i) * 2) in *; clearbody p;
       split; [unfold unitq; simpl; lra|]; apply rotm_eq; apply vec_eq; simpl; lra
     | destruct (pivot (1 + i - a - e) (sqrt (1 + i - a - e) * 2) (d - b) (c + g) (f + h)
        (1 + a + e + i) (h - f) (c - g) (1 + a - e - i) (b + d) (1 + e - a - i)) as (E & E1 & E2 & E3 & E4 & E5 & E6 & E7 & E8 & E9);
       [lra | lra | lra | lra | lra | lra | lra | reflexivity |];
       set (p := sqrt (1 + i - a - e) * 2) in *; clearbody p;
       split; [unfold unitq; simpl; lra|]; apply rotm_eq; apply vec_eq; simpl; lra ].
Qed.

Lemma rot_inj a b : unitq a -> unitq b -> rot_of_quat a = rot_of_quat b -> a = b \/ a = qopp b.
Proof.
  intros Ha Hb E.
  assert (C : rot_of_quat (qmul a (qconj b)) = rid).
  { rewrite rot_mul, E, <- rot_mul, unit_inv_r by assumption. apply rot_id. }
  assert (Hu : unitq (qmul a (qconj b))) by (apply unitq_mul; [|apply unitq_conj]; assumption).
  assert (Ea : a = qmul (qmul a (qconj b)) b) by (rewrite <- qmul_assoc, unit_inv_l, qmul_id_r; auto).
  rewrite Ea. destruct (qmul a (qconj b)) as [s [x y z]]. clear Ea.
  unfold unitq in Hu; simpl in Hu. unfold rot_of_quat, rid in C; simpl in C.
  assert (K : s*s+x*x-y*y-z*z = 1 /\ s*s-x*x+y*y-z*z = 1 /\ s*s-x*x-y*y+z*z = 1) by (injection C; intros; repeat split; assumption).
  destruct K as (K1 & K2 & K3).
  assert (x = 0) by (apply Rsqr_0_uniq; unfold Rsqr; lra).
  assert (y = 0) by (apply Rsqr_0_uniq; unfold Rsqr; lra).
  assert (z = 0) by (apply Rsqr_0_uniq; unfold Rsqr; lra). subst.
  assert (S : s = 1 \/ s = -1).
  { assert (0 = (s - 1) * (s + 1)) as F by lra. symmetry in F. apply Rmult_integral in F as [F|F]; [left|right]; lra. }
  destruct S as [-> | ->]; [left|right]; quat_ring.
Qed.

