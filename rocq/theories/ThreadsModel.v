(** Model of freud/parallel.py and freud/parallel/tbb_config.cc: the number of threads, the context manager
    NumThreads, and the programs that use them.

    Trusted: CPython's with statement and exceptions, nanobind's conversion to unsigned int (TypeError for anything
    but an integer in [0, 2^32)), and oneTBB's rule that the active max_allowed_parallelism is the smallest value
    among the living global_control objects and the hardware default when there is none. *)
From Coq Require Import ZArith List.
Import ListNotations.
Local Open Scope Z_scope.

(** What a caller may pass as nthreads: None, an integer, a number that is not an integer (only its sign matters,
    [negative]; [tag] tells such numbers apart), or something that cannot be compared with 0. *)
Inductive arg := ANone | AInt (z : Z) | ANum (negative : bool) (tag : nat) | AOther (tag : nat).

(** The process state: the module variable parallel.py:12 [_num_threads], and the living global_control objects
    (tbb_config.cc:16 [tbb_thread_control] owns at most one of them). *)
Record tstate := mkT { py_num : arg; controls : list Z }.

(** parallel.py:12, tbb_config.cc:16: at import. *)
Definition start : tstate := mkT (AInt 0) [].

Inductive outcome := Normal | Raised.

Section Threads.
(** std::thread::hardware_concurrency() *)
Variable hw : Z.

(** oneTBB: active value of max_allowed_parallelism. *)
Definition active (s : tstate) : Z := match controls s with [] => hw | c :: cs => fold_left Z.min cs c end.

(** tbb_config.cc:25-35  the new control is created (both are alive), then the old one is destroyed. *)
Definition cpp_set (n : Z) (cs : list Z) : list Z :=
  let n' := if n =? 0 then hw else n in
  let both := cs ++ [n'] in
  skipn (length cs) both.

(** module-parallel.cc:13: conversion of the argument to unsigned int. *)
Definition to_unsigned (a : arg) : option Z :=
  match a with AInt z => if (0 <=? z) && (z <? 2 ^ 32) then Some z else None | _ => None end%bool.

(** parallel.py:15-21 *)
Definition get_num_threads (s : tstate) : arg := py_num s.

(** parallel.py:24-38  [nthreads < 0] raises TypeError for values that cannot be compared. *)
Definition set_num_threads (a : arg) (s : tstate) : tstate * outcome :=
  let go v :=
    match to_unsigned v with
    | Some n => (mkT v (cpp_set n (controls s)), Normal)
    | None => (mkT v (controls s), Raised)
    end in
  match a with
  | ANone => go (AInt 0)
  | AInt z => if z <? 0 then go (AInt 0) else go (AInt z)
  | ANum neg _ => if neg then go (AInt 0) else go a
  | AOther _ => (s, Raised)
  end.

(** parallel.py:41-59  a NumThreads object. *)
Record manager := mkM { restore_N : arg; mN : arg }.
Definition manager_init (a : arg) (s : tstate) : manager := mkM (py_num s) a.
Definition manager_enter (m : manager) (s : tstate) : tstate * outcome := set_num_threads (mN m) s.
Definition manager_exit (m : manager) (s : tstate) : tstate * outcome := set_num_threads (restore_N m) s.

(** Programs that use the module: a straight-line language with exceptions.  [With] is Python's with statement, on
    a manager built in place or on one kept in a variable; [Enter]/[Exit] call the two methods directly (as
    contextlib.ExitStack does).  Branches and loops add nothing: every finite execution is one of these. *)
Inductive mexpr := New (a : arg) | Var (x : nat).
Inductive stmt :=
| Skip
| Raise
| Set_ (a : arg)
| Assign (x : nat) (e : mexpr)
| Seq (p q : stmt)
| Try (p h : stmt)
| With (e : mexpr) (body : stmt)
| Enter (x : nat)
| Exit (x : nat).

Definition heap := list (nat * manager).
Fixpoint lookup (x : nat) (h : heap) : option manager :=
  match h with [] => None | (y, m) :: h => if Nat.eqb x y then Some m else lookup x h end.

Definition meval (e : mexpr) (s : tstate) (h : heap) : option manager :=
  match e with New a => Some (manager_init a s) | Var x => lookup x h end.

(** The with statement: the manager is evaluated, then entered; when entering raises, the body is not run and
    __exit__ is not called; otherwise __exit__ is called however the body ends; it returns None, so an exception of
    the body goes on, and an exception raised by __exit__ replaces it. *)
Fixpoint exec (p : stmt) (s : tstate) (h : heap) : tstate * heap * outcome :=
  match p with
  | Skip => (s, h, Normal)
  | Raise => (s, h, Raised)
  | Set_ a => let '(s, o) := set_num_threads a s in (s, h, o)
  | Assign x e => match meval e s h with Some m => (s, (x, m) :: h, Normal) | None => (s, h, Raised) end
  | Seq p q => match exec p s h with (s, h, Normal) => exec q s h | r => r end
  | Try p k => match exec p s h with (s, h, Raised) => exec k s h | r => r end
  | With e body =>
      match meval e s h with
      | None => (s, h, Raised)
      | Some m =>
          match manager_enter m s with
          | (s, Raised) => (s, h, Raised)
          | (s, Normal) =>
              let '(s, h, o) := exec body s h in
              match manager_exit m s with (s, Normal) => (s, h, o) | (s, Raised) => (s, h, Raised) end
          end
      end
  | Enter x => match lookup x h with Some m => let '(s, o) := manager_enter m s in (s, h, o) | None => (s, h, Raised) end
  | Exit x => match lookup x h with Some m => let '(s, o) := manager_exit m s in (s, h, o) | None => (s, h, Raised) end
  end.
End Threads.
