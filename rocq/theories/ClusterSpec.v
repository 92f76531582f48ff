(** What clusters are, independently of how they are computed. *)
From Coq Require Export List Arith Lia Relations Permutation.
From Verif Require Export DsetSpec.
Export ListNotations.

(** The members of cluster [c], in increasing order of index. *)
Definition members (n : nat) (idx : nat -> nat) (c : nat) : list nat := filter (fun i => Nat.eqb (idx i) c) (seq 0 n).
Definition size (n : nat) (idx : nat -> nat) (c : nat) : nat := length (members n idx c).
Definition smallest (n : nat) (idx : nat -> nat) (c i : nat) : Prop := In i (members n idx c) /\ forall j, In j (members n idx c) -> i <= j.
(** A canonical numbering of the connected components of [n] points. *)
Definition canonical (n : nat) (bonds : list (nat * nat)) (num : nat) (idx : nat -> nat) : Prop :=
  (forall i j, i < n -> j < n -> idx i = idx j <-> connected bonds i j) /\
  (forall i, i < n -> idx i < num) /\
  (forall c, c < num -> exists i, i < n /\ idx i = c) /\
  (forall c d i j, c < d < num -> smallest n idx c i -> smallest n idx d j -> size n idx d < size n idx c \/ (size n idx c = size n idx d /\ i < j)).
