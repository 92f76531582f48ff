(** Model of freud/cluster/Cluster.cc (Cluster::compute) over the union-find of DsetModel.v.
    std::vector<size_t> of a fixed size is a function from indices; std::sort is any permutation in which no later entry
    compares less than an earlier one. *)
From Verif Require Export DsetModel.

(* Cluster.cc:29-37  the body of the neighbour loop, for the bonds handled by one thread *)
Fixpoint bonds_prog (bonds : list (nat * nat)) : prog unit :=       (* (point_idx, query_point_idx) *)
  match bonds with
  | [] => Ret tt
  | (p, q) :: t => CallSame p q (fun s => if s then bonds_prog t else CallUnite p q (fun _ => bonds_prog t))
  end.

Definition vec := nat -> nat.
Definition vset (v : vec) (i x : nat) : vec := fun j => if Nat.eqb j i then x else v j.
Record labels := LB { lb_label : vec; lb_count : vec; lb_min : vec; lb_num : nat }.
(* Cluster.cc:44-49 *)
Definition labels_init (n : nat) : labels := LB (fun _ => n) (fun _ => 0) (fun _ => n) 0.
(* Cluster.cc:54-66  one point, [s] the representative returned by find *)
Definition label_step (n s i : nat) (st : labels) : labels :=
  let st := if Nat.eqb (lb_label st s) n
            then LB (vset (lb_label st) s (lb_num st)) (lb_count st) (vset (lb_min st) (lb_num st) i) (S (lb_num st))
            else st in
  LB (lb_label st) (vset (lb_count st) (lb_label st s) (S (lb_count st (lb_label st s)))) (lb_min st) (lb_num st).
(* Cluster.cc:50-67 *)
Fixpoint label_pass (n : nat) (todo : list nat) (st : labels) : prog labels :=
  match todo with [] => Ret st | i :: t => CallFind i (fun s => label_pass n t (label_step n s i st)) end.
(* Cluster.cc:110-119  comparator: [true] when i1 goes before i2 *)
Definition before (st : labels) (i1 i2 : nat) : bool :=
  if negb (Nat.eqb (lb_count st i1) (lb_count st i2)) then Nat.ltb (lb_count st i2) (lb_count st i1)
  else Nat.ltb (lb_min st i1) (lb_min st i2).
(* Cluster.cc:105-119  std::sort of iota *)
Definition sorted_indexes (st : labels) (idx : list nat) : Prop :=
  Permutation (seq 0 (lb_num st)) idx /\ forall a b, a < b < length idx -> before st (nth b idx 0) (nth a idx 0) = false.
(* Cluster.cc:121-127 *)
Definition invert (idx : list nat) : vec := fold_left (fun v i => vset v (nth i idx 0) i) (seq 0 (length idx)) (fun _ => 0).
(* Cluster.cc:26,79  m_cluster_idx and m_cluster_keys *)
Record cresult := CR { cr_num : nat; cr_idx : vec; cr_keys : nat -> list nat }.
(* Cluster.cc:86-97; [keys] is None when no keys are given *)
Definition assign_step (keys : option vec) (st : labels) (reindex : vec) (s i : nat) (r : cresult) : cresult :=
  let c := reindex (lb_label st s) in
  let key := match keys with Some k => k i | None => i end in
  CR (cr_num r) (vset (cr_idx r) i c) (fun d => if Nat.eqb d c then cr_keys r d ++ [key] else cr_keys r d).
Fixpoint assign_pass (keys : option vec) (st : labels) (reindex : vec) (todo : list nat) (r : cresult) : prog cresult :=
  match todo with [] => Ret r | i :: t => CallFind i (fun s => assign_pass keys st reindex t (assign_step keys st reindex s i r)) end.

(** A complete run of one thread. *)
Definition run1 {A} (m : mem) (p : prog A) (m' : mem) (a : A) : Prop := star pstep (m, [p]) (m', [Ret a]).
(* Cluster.cc:21-98; [threads] says which thread handles which bonds, in which order *)
Definition merge_run (threads : list (list (nat * nat))) (m : mem) : Prop :=
  star pstep (dset_init, map bonds_prog threads) (m, map (fun _ => Ret tt) threads).
Definition cluster_run (n : nat) (threads : list (list (nat * nat))) (keys : option vec) (r : cresult) : Prop :=
  exists m1 m2 m3 st idx, merge_run threads m1 /\
    run1 m1 (label_pass n (seq 0 n) (labels_init n)) m2 st /\ sorted_indexes st idx /\
    run1 m2 (assign_pass keys st (invert idx) (seq 0 n) (CR (lb_num st) (fun _ => 0) (fun _ => []))) m3 r.
