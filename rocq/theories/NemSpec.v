(** Specification of the nematic tensor. *)
From Verif Require Export NemModel.
From Coq Require Import Reals List.
Import ListNotations.
Local Open Scope R_scope.

Definition comp (v : vec3) (a : nat) : R := match a with O => vx v | S O => vy v | _ => vz v end.
Definition delta (a b : nat) : R := if Nat.eqb a b then 1 else 0.
(** cosine between a non-zero vector and m, for unit m *)
Definition along (m u : vec3) : R := dot m u / sqrt (dot u u).
Definition total {A} (f : A -> R) (l : list A) : R := fold_right (fun x acc => f x + acc) 0 l.
Definition mean {A} (f : A -> R) (l : list A) : R := total f l / INR (length l).
(** The average over the orientations of (3 u u^T - 1) / 2, u made a unit vector. *)
Definition single (u : vec3) (a b : nat) : R := (3 * (comp u a * comp u b) / dot u u - delta a b) / 2.
Definition tensor (us : list vec3) (a b : nat) : R := mean (fun u => single u a b) us.
Definition row (Q : nat -> nat -> R) (a : nat) : vec3 := V3 (Q a 0%nat) (Q a 1%nat) (Q a 2%nat).
Definition apply (Q : nat -> nat -> R) (m : vec3) : vec3 := V3 (dot (row Q 0) m) (dot (row Q 1) m) (dot (row Q 2) m).
Definition form (Q : nat -> nat -> R) (m : vec3) : R := dot m (apply Q m).
Definition nonzero (u : vec3) : Prop := dot u u <> 0.
Definition unitv (m : vec3) : Prop := dot m m = 1.
(** Eigenvalues in increasing order with an orthonormal basis of eigenvectors: what the solver promises. *)
Definition eigen_ok (Q : nat -> nat -> R) (e : (R * vec3) * (R * vec3) * (R * vec3)) : Prop :=
  let '((l1, v1), (l2, v2), (l3, v3)) := e in
  l1 <= l2 <= l3 /\ unitv v1 /\ unitv v2 /\ unitv v3 /\ dot v1 v2 = 0 /\ dot v1 v3 = 0 /\ dot v2 v3 = 0 /\
  apply Q v1 = vscale l1 v1 /\ apply Q v2 = vscale l2 v2 /\ apply Q v3 = vscale l3 v3.
Definition entries (Q : nat -> nat -> R) : list R := flat_map (fun a => map (Q a) [0; 1; 2]%nat) [0; 1; 2]%nat.
Definition ni_ok (f : ninput) : Prop := execution 0 (length (ni_us f)) (ni_ev f) /\ execution 0 9 (ni_ev2 f).
