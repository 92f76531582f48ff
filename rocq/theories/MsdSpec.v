(** Specification of the mean squared displacement, from its definition. *)
From Verif Require Export MsdModel BoxSpec.
From Coq Require Import Reals ZArith List.
Import ListNotations.
Local Open Scope R_scope.

Definition dist2 (u v : vec3) : R := (vx u - vx v) * (vx u - vx v) + (vy u - vy v) * (vy u - vy v) + (vz u - vz v) * (vz u - vz v).
Definition total {A} (f : A -> R) (l : list A) : R := fold_right (fun x acc => f x + acc) 0 l.
Definition mean {A} (f : A -> R) (l : list A) : R := total f l / INR (length l).
(** Mean over all windows of length m of a trajectory of N frames; displacement from the start. *)
Definition msd_of (mode : mmode) (N : nat) (r : nat -> vec3) (m : nat) : R :=
  match mode with
  | Window => mean (fun k => dist2 (r (k + m)%nat) (r k)) (seq 0 (N - m))
  | Direct => dist2 (r m) (r 0%nat)
  end.
(** The true trajectory of particle i of a call. *)
Definition place (b : option box) (f : minput) (t i : nat) : vec3 :=
  match b, mi_images f with
  | Some b, Some (_, im) => let '(x, y, z) := im t i in vadd (mi_pos f t i) (BoxSpec.shift b x y z)
  | _, _ => mi_pos f t i
  end.
Definition accepted (f : minput) : bool :=
  mi_ok f && match mi_images f with Some (ok, _) => ok | None => true end && (0 <? mi_n f)%nat.
(** The accepted calls since the last reset. *)
Fixpoint accumulated (h : list (bool * minput)) (acc : list minput) : list minput :=
  match h with
  | [] => acc
  | (re, f) :: h => let old := if re then [] else acc in accumulated h (if accepted f then old ++ [f] else old)
  end.
(** All particles of these calls, in order. *)
Definition particles (b : option box) (fs : list minput) : list (nat -> vec3) :=
  flat_map (fun f => map (fun i t => place b f t i) (seq 0 (mi_p f))) fs.
Definition box_ok (b : option box) (f : minput) : Prop :=
  match b, mi_images f with
  | Some b, Some (_, im) => nonsingular b /\ (b_2d b = true -> forall t i, snd (im t i) = 0%Z)
  | _, _ => True
  end.
