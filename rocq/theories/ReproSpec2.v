(** Specification for C77: the exact tensor of a direction. *)
From Verif Require Export ReproSpec F32Spec FaabbSpec.
From Verif Require Import Vec.
Local Open Scope R_scope.

(** A direction of ordinary length. *)
Definition direction (v : fvec) : Prop := fin3 v /\ bpow radix2 (-40) <= norm (rv v) <= bpow radix2 40.
Definition along (v : fvec) (a : nat) : R := match a with 0%nat => val (fvx v) | 1%nat => val (fvy v) | _ => val (fvz v) end / norm (rv v).
(** Entry (a, b) of the exact tensor: 3/2 u_a u_b - 1/2 on the diagonal. *)
Definition exact_entry (a b : nat) (v : fvec) : R := 3 / 2 * along v a * along v b - (if Nat.eqb a b then 1 / 2 else 0).
Definition mean (l : list R) : R := fold_right Rplus 0 l / INR (length l).
