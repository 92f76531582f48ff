(** Volumes of rings and shells as integrals. *)
From Coq Require Import Reals Lra.
From Coquelicot Require Import Coquelicot.
Local Open Scope R_scope.

(** Volume of the ring (in the plane) or shell between two radii: the integral of the circumference or surface. *)
Definition shell (two_d : bool) (lo hi : R) : R :=
  if two_d then RInt (fun r => 2 * PI * r) lo hi else RInt (fun r => 4 * PI * (r * r)) lo hi.

Lemma shell_2d lo hi : shell true lo hi = PI * (hi * hi - lo * lo).
Proof.
  apply is_RInt_unique. replace (PI * (hi * hi - lo * lo)) with (minus (PI * (hi * hi)) (PI * (lo * lo))) by (unfold minus, plus, opp; simpl; ring).
  apply (is_RInt_derive (fun x => PI * (x * x)) (fun r => 2 * PI * r)).
  - intros x _. auto_derive; auto. ring.
  - intros x _. apply (ex_derive_continuous (V := R_NormedModule)). auto_derive; auto.
Qed.
Lemma shell_3d lo hi : shell false lo hi = 4 / 3 * PI * (hi * hi * hi - lo * lo * lo).
Proof.
  apply is_RInt_unique. replace (4 / 3 * PI * (hi * hi * hi - lo * lo * lo)) with (minus (4 / 3 * PI * (hi * hi * hi)) (4 / 3 * PI * (lo * lo * lo))) by (unfold minus, plus, opp; simpl; ring).
  apply (is_RInt_derive (fun x => 4 / 3 * PI * (x * x * x)) (fun r => 4 * PI * (r * r))).
  - intros x _. auto_derive; auto. field.
  - intros x _. apply (ex_derive_continuous (V := R_NormedModule)). auto_derive; auto.
Qed.
Lemma shell_pos two_d lo hi : 0 <= lo < hi -> 0 < shell two_d lo hi.
Proof.
  intros H. pose proof PI_RGT_0. destruct two_d; [rewrite shell_2d|rewrite shell_3d].
  - apply Rmult_lt_0_compat; nra.
  - apply Rmult_lt_0_compat; [lra|]. assert (lo * lo <= hi * hi) by nra. assert (0 < hi * hi) by nra. nra.
Qed.
Lemma shell_add two_d a b c : shell two_d a b + shell two_d b c = shell two_d a c.
Proof. destruct two_d; rewrite ?shell_2d, ?shell_3d; ring. Qed.
