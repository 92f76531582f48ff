(** Model of extern/dset/dset.h (class DisjointSets, lock-free union-find) with interleaving semantics.
    All accesses are std::atomic with the default (sequentially consistent) order, so executions are interleavings of the
    atomic reads and compare-exchanges.  A 64-bit entry is modelled by the pair of its rank (high word) and parent (low word);
    ranks are unbounded and the lock bit (used only by try_lock/unlock/unite_unlock, which freud does not call) is not modelled. *)
From Coq Require Export List Arith Lia Permutation Bool.
Export ListNotations.

Definition word := (nat * nat)%type.                  (* (rank, parent) *)
Definition mem := nat -> word.
Definition rank_of (w : word) : nat := fst w.
Definition parent_of (w : word) : nat := snd w.
Definition upd (m : mem) (i : nat) (w : word) : mem := fun j => if Nat.eqb j i then w else m j.
Definition word_eqb (a b : word) : bool := Nat.eqb (fst a) (fst b) && Nat.eqb (snd a) (snd b).

(** Programs: sequences of atomic accesses and calls of the three member functions. *)
Inductive prog (A : Type) : Type :=
| Ret (a : A)
| Read (i : nat) (k : word -> prog A)                             (* mData[i].load() *)
| Cas (weak : bool) (i : nat) (old new : word) (k : bool -> prog A)   (* compare_exchange_weak / _strong *)
| CallFind (id : nat) (k : nat -> prog A)
| CallSame (id1 id2 : nat) (k : bool -> prog A)
| CallUnite (id1 id2 : nat) (k : nat -> prog A).
Arguments Ret {A}. Arguments Read {A}. Arguments Cas {A}. Arguments CallFind {A}. Arguments CallSame {A}. Arguments CallUnite {A}.
Fixpoint bind {A B} (p : prog A) (f : A -> prog B) : prog B :=
  match p with
  | Ret a => f a
  | Read i k => Read i (fun w => bind (k w) f)
  | Cas weak i old new k => Cas weak i old new (fun b => bind (k b) f)
  | CallFind id k => CallFind id (fun r => bind (k r) f)
  | CallSame a b k => CallSame a b (fun r => bind (k r) f)
  | CallUnite a b k => CallUnite a b (fun r => bind (k r) f)
  end.

(* dset.h:34-46  find: one turn of the while loop, the next turn is the tail call *)
Definition find_body (id : nat) : prog nat :=
  Read id (fun w => if Nat.eqb id (parent_of w) then Ret id else
  Read id (fun value =>
  Read (parent_of value) (fun w2 => let new_parent := parent_of w2 in
  let new_value := (rank_of value, new_parent) in
  if word_eqb value new_value then CallFind new_parent Ret
  else Cas true id value new_value (fun _ => CallFind new_parent Ret)))).
(* dset.h:48-57  same *)
Definition same_body (id1 id2 : nat) : prog bool :=
  CallFind id1 (fun id1 => CallFind id2 (fun id2 =>
  if Nat.eqb id1 id2 then Ret true else
  Read id1 (fun w => if Nat.eqb (parent_of w) id1 then Ret false else CallSame id1 id2 Ret))).
(* dset.h:59-90  unite *)
Definition unite_body (id1 id2 : nat) : prog nat :=
  CallFind id1 (fun id1 => CallFind id2 (fun id2 =>
  if Nat.eqb id1 id2 then Ret id1 else
  Read id1 (fun w1 => Read id2 (fun w2 =>
  let r1 := rank_of w1 in let r2 := rank_of w2 in
  let '(r1, id1, r2, id2) := if Nat.ltb r2 r1 || (Nat.eqb r1 r2 && Nat.ltb id1 id2) then (r2, id2, r1, id1) else (r1, id1, r2, id2) in
  Cas false id1 (r1, id1) (r1, id2) (fun ok =>
    if ok then (if Nat.eqb r1 r2 then Cas true id2 (r2, id2) (S r2, id2) (fun _ => Ret id2) else Ret id2)
    else CallUnite id1 id2 Ret))))).

(** One atomic step of a thread. *)
Inductive tstep {A} : mem -> prog A -> mem -> prog A -> Prop :=
| t_read m i k : tstep m (Read i k) m (k (m i))
| t_cas_ok m weak i old new k : m i = old -> tstep m (Cas weak i old new k) (upd m i new) (k true)
| t_cas_fail m weak i old new k : m i <> old \/ weak = true -> tstep m (Cas weak i old new k) m (k false)
| t_find m id k : tstep m (CallFind id k) m (bind (find_body id) k)
| t_same m a b k : tstep m (CallSame a b k) m (bind (same_body a b) k)
| t_unite m a b k : tstep m (CallUnite a b k) m (bind (unite_body a b) k).
(** Any thread may take the next step. *)
Inductive pstep {A} : mem * list (prog A) -> mem * list (prog A) -> Prop :=
| p_step m l1 p l2 m' p' : tstep m p m' p' -> pstep (m, l1 ++ p :: l2) (m', l1 ++ p' :: l2).
Inductive star {S} (R : S -> S -> Prop) : S -> S -> Prop :=
| star_refl s : star R s s
| star_step s s' s'' : R s s' -> star R s' s'' -> star R s s''.

(* dset.h:29-32  constructor *)
Definition dset_init : mem := fun i => (0, i).
