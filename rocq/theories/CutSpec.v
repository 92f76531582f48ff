(** When two neighbour queries differ only in their cutoffs (C94). *)
From Verif Require Export QuerySpec QueryArgSpec KnnSpec RdfSpec.
From Coq Require Import Reals ZArith List Permutation.
Import ListNotations.
Local Open Scope R_scope.

(** The arguments [p'] of a ball query of radius [r'] ask for part of what [p] with radius [r] asks for. *)
Definition narrower (p p' : pyargs) (r r' : R) : Prop :=
  r' <= r /\ or_else (pa_rmin p) 0 <= or_else (pa_rmin p') 0 /\ or_else (pa_excl p) false = or_else (pa_excl p') false.
(** [p'] is [p] with exclude_ii switched on. *)
Definition excluding (p p' : pyargs) : Prop :=
  or_else (pa_rmin p) 0 = or_else (pa_rmin p') 0 /\ or_else (pa_excl p) false = false /\ or_else (pa_excl p') false = true.
(** Two calls of RDF.compute whose bonds agree within [lo, hi). *)
Definition same_within (lo hi : R) (f g : rin) : Prop :=
  Permutation (filter (fun x => Rleb lo (bd x) && Rltb (bd x) hi) (ri_all f)) (filter (fun x => Rleb lo (bd x) && Rltb (bd x) hi) (ri_all g)) /\ ri_data f = ri_data g.
