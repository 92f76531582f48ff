(** The 64-bit entries of extern/dset/dset.h behind the pairs of DsetModel.v. *)
From Coq Require Export NArith.
From Verif Require Export DsetModel.
Local Open Scope N_scope.
(* dset.h:72-73,79-80  ((uint64_t) r << 32) | id; the shift drops what exceeds 64 bits *)
Definition entry (w : word) : N := N.lor (N.land (N.shiftl (N.of_nat (rank_of w)) 32) (N.ones 64)) (N.of_nat (parent_of w)).
(* dset.h:142-144  rank() *)
Definition entry_rank (v : N) : N := N.land (N.land (N.shiftr v 32) (N.ones 32)) 0x7FFFFFFF.
(* dset.h:146-148  parent() *)
Definition entry_parent (v : N) : N := N.land v (N.ones 32).
(* dset.h:39-40  the new value in find *)
Definition entry_moved (v : N) (new_parent : nat) : N := N.lor (N.land v 0xFFFFFFFF00000000) (N.of_nat new_parent).
(* dset.h:99,102  the lock flag as tested by try_lock *)
Definition entry_locked (v : N) : bool := N.testbit v 63.
