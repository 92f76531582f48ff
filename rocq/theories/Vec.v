(** Three-component vectors (freud/util/VectorMath.h:30-290), over exact reals. *)
From Verif Require Export RBase.

Record vec3 := V3 { vx : R; vy : R; vz : R }.

(* VectorMath.h: operator+, operator-, unary -, scalar *, dot, cross *)
Definition vadd (a b : vec3) := V3 (vx a + vx b) (vy a + vy b) (vz a + vz b).
Definition vsub (a b : vec3) := V3 (vx a - vx b) (vy a - vy b) (vz a - vz b).
Definition vneg (a : vec3) := V3 (- vx a) (- vy a) (- vz a).
Definition vscale (s : R) (a : vec3) := V3 (s * vx a) (s * vy a) (s * vz a).
Definition vmul (a b : vec3) := V3 (vx a * vx b) (vy a * vy b) (vz a * vz b).
Definition vdiv (a b : vec3) := V3 (vx a / vx b) (vy a / vy b) (vz a / vz b).
Definition dot (a b : vec3) : R := vx a * vx b + vy a * vy b + vz a * vz b.
Definition cross (a b : vec3) : vec3 :=
  V3 (vy a * vz b - vz a * vy b) (vz a * vx b - vx a * vz b) (vx a * vy b - vy a * vx b).
Definition v0 := V3 0 0 0.
Definition norm (a : vec3) : R := sqrt (dot a a).

Declare Scope vec_scope.
Delimit Scope vec_scope with V.
Infix "+" := vadd : vec_scope.
Infix "-" := vsub : vec_scope.
Infix "*" := vscale : vec_scope.
Notation "- x" := (vneg x) : vec_scope.
Bind Scope vec_scope with vec3.

Lemma vec_eq a b : vx a = vx b -> vy a = vy b -> vz a = vz b -> a = b.
Proof. destruct a, b; simpl; congruence. Qed.

Ltac vec_ext := apply vec_eq; simpl.
Ltac vec_ring := vec_ext; ring.

Lemma vadd_comm a b : (a + b = b + a)%V. Proof. vec_ring. Qed.
Lemma vadd_assoc a b c : (a + (b + c) = a + b + c)%V. Proof. vec_ring. Qed.
Lemma vsub_diag a : (a - a)%V = v0. Proof. vec_ring. Qed.
Lemma vadd_0_r a : (a + v0)%V = a. Proof. vec_ring. Qed.
Lemma vadd_0_l a : (v0 + a)%V = a. Proof. vec_ring. Qed.
Lemma vsub_add a b : (a - b + b)%V = a. Proof. vec_ring. Qed.
Lemma vadd_sub a b : (a + b - b)%V = a. Proof. vec_ring. Qed.

Lemma dot_nonneg a : 0 <= dot a a.
Proof. unfold dot; nra. Qed.
Lemma dot_comm a b : dot a b = dot b a. Proof. unfold dot; ring. Qed.
Lemma norm_nonneg a : 0 <= norm a. Proof. apply sqrt_pos. Qed.
Lemma norm_sq a : norm a * norm a = dot a a.
Proof. apply sqrt_sqrt, dot_nonneg. Qed.
Lemma norm_vneg a : norm (- a)%V = norm a.
Proof. unfold norm; f_equal; unfold dot; simpl; ring. Qed.
Lemma norm_0 : norm v0 = 0.
Proof. unfold norm, dot; simpl. replace (0*0+0*0+0*0) with 0 by ring. apply sqrt_0. Qed.

Lemma cauchy_schwarz a b : dot a b * dot a b <= dot a a * dot b b.
Proof.
  unfold dot. destruct a as [a1 a2 a3], b as [b1 b2 b3]; simpl.
  pose proof (Rle_0_sqr (a1*b2-a2*b1)). pose proof (Rle_0_sqr (a1*b3-a3*b1)).
  pose proof (Rle_0_sqr (a2*b3-a3*b2)). unfold Rsqr in *. lra.
Qed.

Lemma abs_dot_le a b : Rabs (dot a b) <= norm a * norm b.
Proof.
  apply Rsqr_incr_0_var.
  - rewrite <- Rsqr_abs. unfold Rsqr.
    replace (norm a * norm b * (norm a * norm b)) with ((norm a * norm a) * (norm b * norm b)) by ring.
    rewrite !norm_sq. apply cauchy_schwarz.
  - apply Rmult_le_pos; apply norm_nonneg.
Qed.

Lemma norm_triangle a b : norm (a + b)%V <= norm a + norm b.
Proof.
  apply Rsqr_incr_0_var.
  - unfold Rsqr. rewrite norm_sq.
    replace (dot (a + b)%V (a + b)%V) with (dot a a + dot b b + 2 * dot a b) by (unfold dot; simpl; ring).
    replace ((norm a + norm b) * (norm a + norm b)) with
      (norm a * norm a + norm b * norm b + 2 * (norm a * norm b)) by ring.
    rewrite !norm_sq. pose proof (abs_dot_le a b). pose proof (Rle_abs (dot a b)). lra.
  - pose proof (norm_nonneg a); pose proof (norm_nonneg b); lra.
Qed.

Lemma norm_lt_sq a r : 0 <= r -> (norm a < r <-> dot a a < r * r).
Proof.
  intros Hr. rewrite <- norm_sq. pose proof (norm_nonneg a). split; intros.
  - nra.
  - destruct (Rlt_le_dec (norm a) r); auto. nra.
Qed.
Lemma norm_le_sq a r : 0 <= r -> (r <= norm a <-> r * r <= dot a a).
Proof.
  intros Hr. rewrite <- norm_sq. pose proof (norm_nonneg a). split; intros.
  - nra.
  - destruct (Rle_lt_dec r (norm a)); auto. nra.
Qed.
