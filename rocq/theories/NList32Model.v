(** The all-pairs constructor of NeighborList (freud/locality/NeighborList.cc:84-128) with the arithmetic of unsigned int:
    every number is taken modulo 2^32.  Arrays, boxes and bonds as in NListModel; an access beyond the end of an array raises an
    exception (ManagedArray.h:103-112), [None]. *)
From Coq Require Import ZArith.
From Verif Require Export NListModel.
Open Scope Z_scope.

Definition u32 (z : Z) : Z := z mod 2 ^ 32.
(* NeighborList.cc:111-125  the loop over the points j *)
Fixpoint ap_inner32 (b : box) (points : list vec3) (q : vec3) (i : nat) (excl : bool) (js : list nat) (idx : Z) (arr : list bond) : option (list bond) :=
  match js with
  | [] => Some arr
  | j :: js =>
      if excl && (i =? j)%nat then ap_inner32 b points q i excl js idx arr
      else
        let dr := wrap b (vsub q (nth j points v0)) in
        match wr arr (Z.to_nat idx) (Bond i j (sqrt (dot dr dr)) 1%R dr) with
        | Some arr => ap_inner32 b points q i excl js (u32 (idx + 1)) arr
        | None => None
        end
  end.
(* NeighborList.cc:103-109 *)
Definition ap_offset32 (np i : Z) (excl : bool) : Z :=
  let idx := u32 (i * np) in if excl then u32 (idx - Z.min i np) else idx.
(* NeighborList.cc:84-128, export-NeighborList.cc:40-49: the numbers of rows become unsigned int *)
Definition all_pairs32 (b : box) (points qpoints : list vec3) (excl : bool) (ev : list (nat * nat)) : option nlist :=
  let np := u32 (Z.of_nat (length points)) in let nq := u32 (Z.of_nat (length qpoints)) in
  let num_ii := if excl then Z.min np nq else 0 in
  let num_bonds := u32 (u32 (np * nq) - num_ii) in
  let n := Z.to_nat nq in
  option_map (fun bs => NL n (Z.to_nat np) bs false (repeat 0%nat n) (repeat 0%nat n))
    (fold_left (fun o e => match o with
                           | Some a => ap_inner32 b points (nth (snd e) qpoints v0) (snd e) excl (range 0 (Z.to_nat np))
                                                  (ap_offset32 np (Z.of_nat (snd e)) excl) a
                           | None => None
                           end)
               ev (Some (repeat bond0 (Z.to_nat num_bonds)))).
