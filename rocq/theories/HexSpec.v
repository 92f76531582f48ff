(** Specification of the k-atic order parameter. *)
From Verif Require Export HexModel.
From Coq Require Import Reals List.
Import ListNotations.
Local Open Scope R_scope.

(** The direction of a plane vector as a complex number of modulus one (1 for the zero vector), and its powers. *)
Definition dir (v : vec3) : cplx :=
  let r := sqrt (vx v * vx v + vy v * vy v) in if Req_EM_T r 0 then (1, 0) else (vx v / r, vy v / r).
Fixpoint cpow (z : cplx) (n : nat) : cplx := match n with O => (1, 0) | S n => cmul z (cpow z n) end.
Definition modulus2 (z : cplx) : R := fst z * fst z + snd z * snd z.
(** A bond's vector, weight and term. *)
Definition hvec (b : box) (pts : list vec3) (i : nat) (nb : bond) : vec3 := wrap b (vsub (nth (bp nb) pts v0) (nth i pts v0)).
Definition hweight (weighted : bool) (nb : bond) : R := if weighted then bw nb else 1.
Definition hterms (k : nat) (weighted : bool) (vec : bond -> vec3) (bs : list bond) : list (R * cplx) :=
  map (fun nb => (hweight weighted nb, cpow (dir (vec nb)) k)) bs.
Definition wtotal (l : list (R * cplx)) : R := fold_right (fun t a => fst t + a) 0 l.
Definition wsum (l : list (R * cplx)) : cplx := fold_right (fun t a => cadd (cscale (fst t) (snd t)) a) c0 l.
(** [z] is the weighted mean of the terms. *)
Definition wmean (l : list (R * cplx)) (z : cplx) : Prop := wtotal l <> 0 /\ cscale (wtotal l) z = wsum l.
Definition hbonds_ok (n : nat) (bonds : nat -> list bond) : Prop := forall i nb, (i < n)%nat -> In nb (bonds i) -> (bp nb < n)%nat.
