(** Model of freud.density.LocalDensity: freud/density/LocalDensity.cc and the class in freud/density.py. *)
From Verif Require Export NListModel MatchEnvModel QueryModel.
From Coq Require Import Reals List.
Import ListNotations.
Local Open Scope R_scope.

Record ldens := LDens { ldn_rmax : R; ldn_diam : R }.
(* LocalDensity.cc:25-37 *)
Definition ldn_make (r_max diameter : R) : option ldens :=
  if Rleb r_max 0 then None else if Rltb diameter 0 then None else Some (LDens r_max diameter).
(** Results of float arithmetic that may divide by zero: None stands for an infinity or NaN, which every later operation keeps. *)
Definition fadd (x y : option R) : option R := match x, y with Some a, Some b => Some (a + b) | _, _ => None end.
Definition fdiv (x : option R) (y : R) : option R := match x with Some a => if Reqb y 0 then None else Some (a / y) | None => None end.
(* LocalDensity.cc:60-73: what one bond adds to num_neighbors *)
Definition ldn_fraction (l : ldens) (d : R) : option R :=
  if Rltb d (ldn_rmax l - ldn_diam l / 2) then Some 1 else fadd (Some 1) (fdiv (Some (ldn_rmax l - (d + ldn_diam l / 2))) (ldn_diam l)).
(* LocalDensity.cc:48-49 *)
Definition ldn_measure (l : ldens) (two_d : bool) : R :=
  if two_d then PI * ldn_rmax l * ldn_rmax l else 4 / 3 * PI * ldn_rmax l * ldn_rmax l * ldn_rmax l.
(* LocalDensity.cc:53-86: the body for query point [i], writing the two arrays after every bond *)
Definition ldn_point (l : ldens) (two_d : bool) (bs : list bond) (i : nat) (arrs : list (option R) * list (option R)) : list (option R) * list (option R) :=
  snd (fold_left (fun st b => let n := fadd (fst st) (ldn_fraction l (bd b)) in
         (n, (put (fst (snd st)) i n, put (snd (snd st)) i (fdiv n (ldn_measure l two_d))))) bs (Some 0, arrs)).
(* LocalDensity.cc:39-86: the arrays start at zero; [ev] is the execution of the loop over query points *)
Definition ldn_compute (l : ldens) (two_d : bool) (nq : nat) (bonds : nat -> list bond) (ev : list (nat * nat)) : list (option R) * list (option R) :=
  fold_left (fun arrs e => ldn_point l two_d (bonds (snd e)) (snd e) arrs) ev (repeat (Some 0) nq, repeat (Some 0) nq).
(* density.py LocalDensity.default_query_args with the exclude_ii flag added by locality.py _resolve_neighbors *)
Definition ldn_default_args (l : ldens) (excl : bool) : pyargs := PA PyBall (Some (ldn_rmax l + / 2 * ldn_diam l)) None None None (Some excl) None false.
