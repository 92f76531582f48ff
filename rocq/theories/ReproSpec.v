(** Specification of sums in machine arithmetic (C77). *)
From Coq Require Export ZArith Reals List Permutation.
From Flocq Require Export Core BinarySingleNaN.
From Verif Require Export ReproModel.
Export ListNotations.

(** The addends that a sequence of frames gives to entry c, in order of frames and iterations. *)
Definition addends {T} (fs : list (nat * (nat -> nat -> list T) * list (nat * nat))) (c : nat) : list T :=
  flat_map (fun f => flat_map (fun i => snd (fst f) i c) (seq 0 (fst (fst f)))) fs.
(** Every frame runs its iterations under some schedule. *)
Definition scheduled {T} (fs : list (nat * (nat -> nat -> list T) * list (nat * nat))) : Prop :=
  Forall (fun f => execution 0 (fst (fst f)) (snd f)) fs.
(** A number that entry c can have at the end: any schedules, any zeroed arrays left from earlier calls, any order of reduction. *)
Definition outcome {T} (zero : T) (add : T -> T -> T) (fs : list (nat * (nat -> nat -> list T) * list (nat * nat))) (c : nat) (r : T) : Prop :=
  exists old ls, scheduled fs /\ Forall (fun l => forall k, snd l k = zero) old /\
    Permutation ls (accumulate_frames zero add fs old) /\ r = reduced zero add ls c.
(** Two sequences of frames that differ in their schedules only. *)
Definition same_work {T} (fs fs' : list (nat * (nat -> nat -> list T) * list (nat * nat))) : Prop := map fst fs = map fst fs'.
Local Open Scope R_scope.
(** Exact sums of floating-point numbers, and the unit roundoff. *)
Definition exact_sum {prec emax} (l : list (binary_float prec emax)) : R := fold_right (fun x acc => B2R x + acc) 0 l.
Definition size_sum {prec emax} (l : list (binary_float prec emax)) : R := fold_right (fun x acc => Rabs (B2R x) + acc) 0 l.
Definition roundoff (prec : Z) : R := bpow radix2 (- prec).
Definition all_finite {prec emax} (l : list (binary_float prec emax)) : Prop := Forall (fun x => is_finite x = true) l.
Definition fplus {prec emax} {Hp : Prec_gt_0 prec} {He : Prec_lt_emax prec emax} (x y : binary_float prec emax) : binary_float prec emax := Bplus mode_NE x y.
