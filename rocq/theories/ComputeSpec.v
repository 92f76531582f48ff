(** Specification for C60: which calls succeed, and what an object should hold, as a function of the calls made. *)
From Coq Require Import List Bool.
From Verif Require Import ComputeModel.
Import ListNotations.

Section Spec.
Context {P : Type}.

(** The call raises nothing. *)
Definition succeeds (k : call P) : Prop := cfail k = Never.
(** obj.compute(...) with valid arguments occurs among the operations. *)
Definition computed (ps : list (op P)) : Prop := exists k, In (Compute k) ps /\ succeeds k.

Definition the_call (p : op P) : call P := match p with Compute k | Unbound k => k end.

(** The call asks for erasing and gets as far as erasing. *)
Definition erasing (p : op P) : bool := (creset (the_call p) && match cfail (the_call p) with Before => false | _ => true end)%bool.

(** The results an object should hold: those of the successful calls since the last erasing one, in order. *)
Definition contributes (p : op P) : list P := match cfail (the_call p) with Never => [cargs (the_call p)] | _ => [] end.
Fixpoint since_erasure (ps : list (op P)) : list (op P) :=
  match ps with
  | [] => []
  | p :: ps' => if existsb erasing ps' then since_erasure ps' else p :: ps'
  end.
Definition relevant (with_reset : bool) (ps : list (op P)) : list P :=
  flat_map contributes (if with_reset then since_erasure ps else ps).
End Spec.
