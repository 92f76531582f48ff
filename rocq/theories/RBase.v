(** Common base: real numbers, boolean comparisons, C-style truncation and fmod. *)
From Coq Require Export Reals ZArith Lia Lra List Bool Arith.
From Flocq Require Export Core.Raux.
Export ListNotations.
Open Scope R_scope.

(** Boolean comparisons on reals (C++ [<], [<=], [==] on floats, without NaN). *)
Definition Rltb (x y : R) : bool := if Rlt_dec x y then true else false.
Definition Rleb (x y : R) : bool := if Rle_dec x y then true else false.
Definition Reqb (x y : R) : bool := if Req_EM_T x y then true else false.

Lemma Rltb_true x y : Rltb x y = true <-> x < y.
Proof. unfold Rltb; destruct (Rlt_dec x y); split; intros; auto; discriminate. Qed.
Lemma Rltb_false x y : Rltb x y = false <-> y <= x.
Proof. unfold Rltb; destruct (Rlt_dec x y); split; intros; auto; try discriminate; lra. Qed.
Lemma Rleb_true x y : Rleb x y = true <-> x <= y.
Proof. unfold Rleb; destruct (Rle_dec x y); split; intros; auto; discriminate. Qed.
Lemma Rleb_false x y : Rleb x y = false <-> y < x.
Proof. unfold Rleb; destruct (Rle_dec x y); split; intros; auto; try discriminate; lra. Qed.
Lemma Reqb_true x y : Reqb x y = true <-> x = y.
Proof. unfold Reqb; destruct (Req_EM_T x y); split; intros; auto; discriminate. Qed.
Lemma Reqb_false x y : Reqb x y = false <-> x <> y.
Proof. unfold Reqb; destruct (Req_EM_T x y); split; intros; auto; try discriminate; contradiction. Qed.

Lemma Rltb_spec x y : reflect (x < y) (Rltb x y).
Proof. destruct (Rltb x y) eqn:E; constructor; [apply Rltb_true | apply Rltb_false in E]; auto; lra. Qed.
Lemma Rleb_spec x y : reflect (x <= y) (Rleb x y).
Proof. destruct (Rleb x y) eqn:E; constructor; [apply Rleb_true | apply Rleb_false in E]; auto; lra. Qed.
Lemma Reqb_spec x y : reflect (x = y) (Reqb x y).
Proof. destruct (Reqb x y) eqn:E; constructor; [apply Reqb_true | apply Reqb_false in E]; auto. Qed.

(** C [fmod]: remainder with the sign of the dividend (exact in IEEE arithmetic). *)
Definition fmod (a b : R) : R := a - b * IZR (Ztrunc (a / b)).

Lemma Ztrunc_nonneg_eq x : 0 <= x -> Ztrunc x = Zfloor x.
Proof. apply Ztrunc_floor. Qed.

Lemma Zfloor_bounds x : IZR (Zfloor x) <= x < IZR (Zfloor x) + 1.
Proof. split; [apply Zfloor_lb | apply Zfloor_ub]. Qed.

Lemma Zfloor_uniq x n : IZR n <= x < IZR n + 1 -> Zfloor x = n.
Proof. intros H; apply Zfloor_imp; rewrite plus_IZR; simpl; lra. Qed.

Lemma Ztrunc_neg_ceil x : x <= 0 -> Ztrunc x = (- Zfloor (- x))%Z.
Proof. intros H. rewrite Ztrunc_ceil by auto. reflexivity. Qed.

Lemma Zfloor_plus_IZR x n : Zfloor (x + IZR n) = (Zfloor x + n)%Z.
Proof. apply Zfloor_uniq. rewrite plus_IZR. pose proof (Zfloor_bounds x). lra. Qed.
