(** Model of freud/util/ManagedArray.h.  Sizes and indices are Z; size_t is assumed not to wrap except where
    the code itself narrows (the [int] accumulator of getMultiIndex). *)
From Coq Require Export ZArith List Lia Bool.
Export ListNotations.
Open Scope Z_scope.

(* ManagedArray.h:46-56  constructor: size is the product of the shape, data zeroed *)
Record marray (T : Type) := MArray { ma_shape : list Z; ma_size : Z; ma_data : list T }.
Arguments MArray {T}. Arguments ma_shape {T}. Arguments ma_size {T}. Arguments ma_data {T}.

Definition prodz (l : list Z) : Z := fold_left Z.mul l 1.

Definition ma_make {T} (zero : T) (shape : list Z) : marray T :=
  let n := prodz shape in MArray shape n (repeat zero (Z.to_nat n)).

(* ManagedArray.h:82-88  reset (memset 0) *)
Definition ma_reset {T} (zero : T) (a : marray T) : marray T :=
  MArray (ma_shape a) (ma_size a) (repeat zero (length (ma_data a))).

(* ManagedArray.h:112-133  operator[]; [None] models std::invalid_argument *)
Definition ma_get {T} (a : marray T) (i : Z) : option T :=
  if (i <? 0) || (ma_size a <=? i) then None else nth_error (ma_data a) (Z.to_nat i).

Fixpoint upd {T} (l : list T) (n : nat) (x : T) : list T :=
  match l, n with
  | [], _ => []
  | _ :: l, O => x :: l
  | y :: l, S n => y :: upd l n x
  end.
Definition ma_set {T} (a : marray T) (i : Z) (x : T) : option (marray T) :=
  if (i <? 0) || (ma_size a <=? i) then None
  else Some (MArray (ma_shape a) (ma_size a) (upd (ma_data a) (Z.to_nat i) x)).

(* ManagedArray.h:246-259 (and the identical loops at 186-215)  static getIndex.
   The loop runs over the indices from last to first. *)
Definition get_index_static (shape idx : list Z) : Z :=
  snd (fold_left (fun '(prod, acc) '(i, s) => (prod * s, acc + i * prod)) (rev (combine idx shape)) (1, 0)).

(* ManagedArray.h:269-288  getIndex with checks; note [>] in the comparison *)
Definition get_index (shape idx : list Z) : option Z :=
  if negb (Nat.eqb (length idx) (length shape)) then None
  else if existsb (fun '(i, s) => s <? i) (combine idx shape) then None
  else Some (get_index_static shape idx).

(* ManagedArray.h:186-199  operator()(indices): linear index, then checked operator[] *)
Definition ma_at {T} (a : marray T) (idx : list Z) : option T := ma_get a (get_index_static (ma_shape a) idx).

(** Conversions of C++: to signed 32-bit int and to size_t (64 bits). *)
Definition to_int32 (z : Z) : Z := (z + 2 ^ 31) mod 2 ^ 32 - 2 ^ 31.
Definition to_size_t (z : Z) : Z := z mod 2 ^ 64.

(* ManagedArray.h:224-237  getMultiIndex.  std::accumulate starts from the int literal 1, so the accumulator
   is an int after every multiplication; the result is converted to size_t. *)
Definition index_size0 (shape : list Z) : Z :=
  to_size_t (fold_left (fun acc s => to_int32 (to_size_t acc * s)) shape 1).
Fixpoint multi_loop (shape : list Z) (isz index : Z) : list Z :=
  match shape with
  | [] => []
  | s :: ss => let isz := isz / s in index / isz :: multi_loop ss isz (index mod isz)
  end.
Definition get_multi_index (shape : list Z) (index : Z) : list Z := multi_loop shape (index_size0 shape) index.
