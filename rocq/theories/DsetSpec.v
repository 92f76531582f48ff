(** What the union-find is to achieve: representatives are found by following parents; two elements are joined when they have
    the same one. *)
From Coq Require Export Relations.
From Verif Require Export DsetModel.

Definition par (m : mem) (i : nat) : nat := parent_of (m i).
Inductive reach (m : mem) : nat -> nat -> Prop :=
| reach_root a : par m a = a -> reach m a a
| reach_up a r : par m a <> a -> reach m (par m a) r -> reach m a r.
Definition joined (m : mem) (a b : nat) : Prop := exists r, reach m a r /\ reach m b r.
(** Joined by a path of pairs, in either direction. *)
Definition connected (pairs : list (nat * nat)) : nat -> nat -> Prop := clos_refl_sym_trans nat (fun a b => In (a, b) pairs).

(** Client programs: sequences of operations, whose results are logged. *)
Inductive op := OFind (a : nat) | OSame (a b : nat) | OUnite (a b : nat).
Inductive result := RNode (r : nat) | RBool (b : bool) | RDone.
Fixpoint ops_prog (ops : list op) : prog (list (op * result)) :=
  match ops with
  | [] => Ret []
  | OFind a :: t => CallFind a (fun r => bind (ops_prog t) (fun l => Ret ((OFind a, RNode r) :: l)))
  | OSame a b :: t => CallSame a b (fun r => bind (ops_prog t) (fun l => Ret ((OSame a b, RBool r) :: l)))
  | OUnite a b :: t => CallUnite a b (fun _ => bind (ops_prog t) (fun l => Ret ((OUnite a b, RDone) :: l)))
  end.
Definition op_pairs (o : op) : list (nat * nat) := match o with OUnite a b => [(a, b)] | _ => [] end.
Definition united (threads : list (list op)) : list (nat * nat) := flat_map (flat_map op_pairs) threads.
Definition op_ok (n : nat) (o : op) : Prop := match o with OFind a => a < n | OSame a b | OUnite a b => a < n /\ b < n end.
Definition only_reads (o : op) : Prop := match o with OUnite _ _ => False | _ => True end.
