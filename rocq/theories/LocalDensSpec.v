(** Specification of the local density. *)
From Verif Require Export LocalDensModel RdfShell.
From Coq Require Import Reals List.
Import ListNotations.
Local Open Scope R_scope.

(** How much of a particle of diameter D > 0 at distance d is counted: the part of its diameter, along the line of centres, that lies
    within r_max; not more than all of it. *)
Definition inside (r_max D d : R) : R := Rmin 1 ((r_max - (d - D / 2)) / D).
Definition rsum (l : list R) : R := fold_right Rplus 0 l.
