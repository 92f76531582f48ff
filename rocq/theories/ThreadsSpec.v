(** Specification for C63, written without the functions of the model: which arguments name a number of threads,
    which number they name, and which parallelism that means on a machine with [hw] hardware threads. *)
From Coq Require Import ZArith List.
From Verif Require Import ThreadsModel.
Local Open Scope Z_scope.

(** [names a n]: a caller who passes [a] asks for setting [n]; 0 stands for all hardware threads. *)
Inductive names : arg -> Z -> Prop :=
| names_none : names ANone 0
| names_negative z : z < 0 -> names (AInt z) 0
| names_negative_number t : names (ANum true t) 0
| names_int z : 0 <= z < 2 ^ 32 -> names (AInt z) z.

(** [means hw n p]: setting [n] allows [p] threads. *)
Definition means (hw n p : Z) : Prop := (n = 0 /\ p = hw) \/ (0 < n /\ p = n).

(** Every argument written in a program names a number of threads. *)
Definition fine (a : arg) : Prop := exists n, names a n.
Definition fine_expr (e : mexpr) : Prop := match e with New a => fine a | Var _ => True end.
Fixpoint fine_program (p : stmt) : Prop :=
  match p with
  | Skip | Raise | Enter _ | Exit _ => True
  | Set_ a => fine a
  | Assign _ e => fine_expr e
  | Seq p q | Try p q => fine_program p /\ fine_program q
  | With e p => fine_expr e /\ fine_program p
  end.

(** The state is in order: the number reported is a setting and TBB uses what it means. *)
Definition in_order (hw : Z) (s : tstate) : Prop :=
  exists n, get_num_threads s = AInt n /\ 0 <= n < 2 ^ 32 /\ means hw n (active hw s).
