(** Model of tbb::parallel_for as used through freud/util/utils.h:54-91 (forLoopWrapper, forLoopWrapper2D) and
    of tbb::enumerable_thread_specific as used by Histogram.h and ThreadStorage.h.
    TBB itself is trusted to behave like this: the range is cut into sub-ranges by repeated splitting, every
    sub-range is executed once by some thread, and [local()] returns the calling thread's own instance. *)
From Coq Require Export List Arith Lia Permutation.
Export ListNotations.

Definition range (b e : nat) : list nat := seq b (e - b).

(** utils.h:57-61  blocked_range splitting: any binary splitting of [b,e). *)
Inductive splits : nat -> nat -> list (nat * nat) -> Prop :=
| split_leaf b e : b < e -> splits b e [(b, e)]
| split_node b m e l r : b < m -> m < e -> splits b m l -> splits m e r -> splits b e (l ++ r).

(** All leaf sub-ranges of parallel_for over [b,e) (no leaf for an empty range). *)
Definition chunking (b e : nat) (cs : list (nat * nat)) : Prop := if e <=? b then cs = [] else splits b e cs.

(** An execution is a sequence of (thread, index) events in global time order.  Iterations of different threads
    may interleave arbitrarily; all we require is that each index of each chunk is executed exactly once.  (This
    is more general than TBB, which also keeps the indices of one chunk in order on one thread.) *)
Definition execution (b e : nat) (ev : list (nat * nat)) : Prop :=
  exists cs, chunking b e cs /\ Permutation (map snd ev) (flat_map (fun c => range (fst c) (snd c)) cs).

(** Thread-local instances in creation order (enumerable_thread_specific iteration order). *)
Definition locals (A : Type) := list (nat * A).
Fixpoint local_update {A} (init : A) (f : A -> A) (t : nat) (ls : locals A) : locals A :=
  match ls with
  | [] => [(t, f init)]
  | (t', a) :: ls => if Nat.eqb t t' then (t', f a) :: ls else (t', a) :: local_update init f t ls
  end.

(** Run a body that updates the executing thread's local instance. *)
Definition run_local {A} (init : A) (body : nat -> A -> A) (ev : list (nat * nat)) (ls : locals A) : locals A :=
  fold_left (fun ls e => local_update init (body (snd e)) (fst e) ls) ev ls.
