(** Specification of histograms: which cell a sample belongs to is decided by the bin edges alone; counts are
    sums of weights. *)
From Verif Require Export HistModel MArraySpec.

Definition valid_axis (a : axis) : Prop := 1 <= ax_n a < OVERFLOW_BIN /\ (ax_min a < ax_max a)%R.
Definition valid_axes (axes : list axis) : Prop :=
  Forall valid_axis axes /\ size_of (map ax_n axes) < OVERFLOW_BIN.

(** The i-th of n equal intervals of [min,max). *)
Definition interval_lo (a : axis) (i : Z) : R := (ax_min a + IZR i * ((ax_max a - ax_min a) / IZR (ax_n a)))%R.

(** [vals] lies in the cell with multi-index [idx]. *)
Inductive in_cell : list axis -> list R -> list Z -> Prop :=
| in_cell_nil : in_cell [] [] []
| in_cell_cons a axes v vals i idx :
    0 <= i < ax_n a -> (interval_lo a i <= v < interval_lo a (i + 1))%R ->
    in_cell axes vals idx -> in_cell (a :: axes) (v :: vals) (i :: idx).

(** [vals] lies inside the histogram range. *)
Definition in_range (axes : list axis) (vals : list R) : Prop :=
  Forall2 (fun a v => (ax_min a <= v < ax_max a)%R) axes vals.

(** Decision procedures used to select samples. *)
Definition in_cellb (axes : list axis) (idx : list Z) (vals : list R) : bool :=
  Nat.eqb (length axes) (length vals) && Nat.eqb (length axes) (length idx) &&
  forallb (fun '((a, v), i) => Rleb (interval_lo a i) v && Rltb v (interval_lo a (i + 1))) (combine (combine axes vals) idx).
Definition in_rangeb (axes : list axis) (vals : list R) : bool :=
  Nat.eqb (length axes) (length vals) &&
  forallb (fun '(a, v) => Rleb (ax_min a) v && Rltb v (ax_max a)) (combine axes vals).

(** Sum of a list in the histogram's number type. *)
Definition sum_of {T} (zero : T) (op : T -> T -> T) (l : list T) : T := fold_left op l zero.

Definition weights_in {T} (axes : list axis) (idx : list Z) (samples : list (list R * T)) : list T :=
  map snd (filter (fun s => in_cellb axes idx (fst s)) samples).
Definition weights_in_range {T} (axes : list axis) (samples : list (list R * T)) : list T :=
  map snd (filter (fun s => in_rangeb axes (fst s)) samples).

(** Laws of the number type: satisfied by nat, by R and by counters modulo 2^32 (U32 below). *)
Definition sum_laws {T} (zero : T) (op : T -> T -> T) : Prop :=
  (forall a b c, op a (op b c) = op (op a b) c) /\ (forall a b, op a b = op b a) /\ (forall a, op zero a = a).

(** Frames contributing after a history of compute/read operations: those since the last reset. *)
Inductive hop (T F : Type) :=
| Compute (reset : bool) (f : frame T F)
| Read (ev : list (nat * nat)).
Arguments Compute {T F}. Arguments Read {T F}.

Fixpoint frames_since {T F} (h : list (hop T F)) (acc : list (frame T F)) : list (frame T F) :=
  match h with
  | [] => acc
  | Compute true f :: h => frames_since h [f]
  | Compute false f :: h => frames_since h (acc ++ [f])
  | Read _ :: h => frames_since h acc
  end.

Definition run_hop {T F} zero op (s : bhc T F) (o : hop T F) : option (bhc T F) :=
  match o with
  | Compute r f => Some (bhc_compute zero op s r f)
  | Read ev => bhc_read zero op s ev
  end.
Definition run_history {T F} zero op (s : bhc T F) (h : list (hop T F)) : option (bhc T F) :=
  fold_left (fun o x => bind o (fun s => run_hop zero op s x)) h (Some s).

Definition frame_samples {T F} (f : frame T F) : list (list R * T) := flat_map (fr_samples f) (range 0 (fr_n f)).
Definition valid_frame {T F} (axes : list axis) (f : frame T F) : Prop :=
  execution 0 (fr_n f) (fr_ev f) /\ forall i s, In s (fr_samples f i) -> length (fst s) = length axes.
Definition valid_hop {T F} (axes : list axis) (o : hop T F) : Prop :=
  match o with
  | Compute _ f => valid_frame axes f
  | Read ev => execution 0 (Z.to_nat (size_of (map ax_n axes))) ev
  end.

(** unsigned int counters: addition modulo 2^32. *)
Definition in_u32 (z : Z) : bool := (0 <=? z) && (z <? 2 ^ 32).
Definition U32 : Type := { z : Z | in_u32 z = true }.
Lemma u32_mod_range z : in_u32 (z mod 2 ^ 32) = true.
Proof.
  pose proof (Z.mod_pos_bound z (2 ^ 32) ltac:(lia)). unfold in_u32.
  apply andb_true_iff; split; [apply Z.leb_le|apply Z.ltb_lt]; lia.
Qed.
Definition u32 (z : Z) : U32 := exist _ (z mod 2 ^ 32) (u32_mod_range z).
Definition u32_val (x : U32) : Z := proj1_sig x.
Definition u32_add (x y : U32) : U32 := u32 (u32_val x + u32_val y).
