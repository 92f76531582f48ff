(** Specification for C69: the rotational autocorrelation as a function of the misorientation angle. *)
From Verif Require Export RotAutoModel.
From Coq Require Import Reals List.
Local Open Scope R_scope.

(** sin((l+1) t) / ((l+1) sin t), 1 where sin t = 0: for even l the normalised character of the rotation by 2t. *)
Definition character (l : nat) (t v : R) : Prop :=
  (sin t = 0 -> v = 1) /\ (sin t <> 0 -> v = sin (INR (S l) * t) / (INR (S l) * sin t)).
Definition unitq (q : quat) : Prop := qnorm2 q = 1.
Definition unitqs (l : list quat) : Prop := forall q, In q l -> unitq q.
Definition qneg (q : quat) : quat := qscale (-1) q.
(** the mean of a list *)
Definition mean (l : list R) : R := fold_right Rplus 0 l / INR (length l).
