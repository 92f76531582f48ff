(** Which arrays freud hands out, which of them it later overwrites, and which of the caller's arrays it keeps.
    A heap of arrays; python objects hold addresses of arrays; the caller holds the addresses it was given.
    What the arrays contain is a parameter here (the other model files compute it); this file models only where
    the values are stored.
    Simplified: one address per array (a slice such as nlist[:, 0] is a view of the array at that address); python
    wrappers around one C++ object are that object; a call that raises does so before it stores anything except that
    compute(reset=True) has already erased; the dimension and type checks of arguments are the success flag [ok];
    no garbage collection. The only writable arrays freud gives out that are modelled are those of
    NeighborQuery.points; DiffractionPattern, MSD and Interface, which keep numpy arrays of their own, are not
    modelled here. *)
From Coq Require Import List Bool Arith.
Import ListNotations.

(** What the arrays contain, as functions of what they are computed from. *)
Record lib (V : Type) := Lib {
  (** Number of arrays of an accumulating class, their initial contents, and their contents as a function of the
      frames added (density/RDF.cc:31-64, CorrelationFunction.cc:48-66, pmft/PMFT.h:60-95, environment/BondOrder.cc:
      60-90, diffraction/StaticStructureFactorDebye.cc:60-127, StaticStructureFactorDirect.cc:70-127). *)
  acc_n : nat -> nat;
  acc_zero : nat -> nat -> V;
  acc_out : nat -> nat -> list (list V) -> V;
  (** The same for the classes whose compute starts from nothing. *)
  shot_n : nat -> nat;
  shot_out : nat -> nat -> list V -> V;
  (** NeighborList: contents after sort(by_distance), filter(mask), from segments (locality/NeighborList.cc:199-399);
      the list of a default query. *)
  nl_sort : bool -> list V -> nat -> V;
  nl_filter : V -> list V -> nat -> V;
  nl_seg : list V -> nat -> V;
  nl_default : list V -> nat -> V;
  (** NeighborQuery: a query reads the points, the structure built from the points when the object was made, and the
      query points. *)
  nq_query : V -> V -> V -> nat -> V }.
Arguments acc_n {V}. Arguments acc_zero {V}. Arguments acc_out {V}. Arguments shot_n {V}. Arguments shot_out {V}.
Arguments nl_sort {V}. Arguments nl_filter {V}. Arguments nl_seg {V}. Arguments nl_default {V}. Arguments nq_query {V}.

Section Heap.
  (** The contents of an array. *)
  Variable V : Type.
  Variable L : lib V.

  (** An array: contents, and whether numpy lets the caller assign to it. freud's results are exported as
      nanobind::ndarray<numpy, const T> (util/export-ManagedArray.h:22-29, 36-53), which numpy marks read-only. *)
  Definition cell := (V * bool)%type.

  Inductive obj :=
  (** locality/BondHistogramCompute.h:29-103 and its subclasses; diffraction/StaticStructureFactor.h:43-76.
      class, m_histogram / m_pcf / m_N_r ..., local histograms, m_reduce, _called_compute. *)
  | Acc (c : nat) (outs : list nat) (hist : list (list V)) (stale called : bool)
  (** The other classes; [nl] is m_nlist. *)
  | Shot (c : nat) (outs : list nat) (nl : option nat) (called : bool)
  (** locality/NeighborList.h: m_neighbors, m_distances, m_weights, m_vectors; m_segments, m_counts;
      m_segments_counts_updated. *)
  | NL (arrs : list nat) (segs : list nat) (updated : bool)
  (** locality.py:840-898: self._points, and the tree or cell list of the C++ object. *)
  | NQ (pts : nat) (built : V)
  (** locality.py:182-187: NeighborQueryResult. *)
  | QR (nq : nat) (qp : nat).

  Record world := World { mem : list cell; objs : list obj }.

  Inductive op :=
  | UserNew (v : V)                  (* a numpy array the caller makes *)
  | UserWrite (a : nat) (v : V)      (* assignment to the elements of an array *)
  | MkAcc (c : nat)
  | AccCompute (o : nat) (reset : bool) (inputs : list nat) (nl : option nat) (ok : bool)
  | AccRead (o : nat)
  | MkShot (c : nat)
  | ShotCompute (o : nat) (inputs : list nat) (nl : option nat) (ok : bool)
  | ShotRead (o : nat)
  | ShotNl (o : nat)
  | MkNL (inputs : list nat)
  | NLRead (o : nat)
  | NLSegRead (o : nat)
  | NLSort (o : nat) (by_distance : bool)
  | NLFilter (o : nat) (mask : nat)
  | NLCopy (o : nat)
  | NLCopyInto (o : nat) (from : nat)
  | MkNQ (a : nat)
  | NQPoints (o : nat)
  | Query (o : nat) (a : nat)
  | QREval (o : nat).

  (** What a statement gives back to the caller: an exception, arrays, an object, or nothing. *)
  Inductive result := Raised | Arrays (l : list nat) | Object (o : nat) | Done.

  (** New arrays with the given contents (std::make_shared<ManagedArray>, numpy allocation). *)
  Definition alloc (m : list cell) (vs : list V) (writable : bool) : list cell * list nat :=
    (m ++ map (fun v => (v, writable)) vs, seq (length m) (length vs)).

  (** Overwriting the elements of an array that stays where it is. *)
  Fixpoint store (m : list cell) (a : nat) (v : V) : list cell :=
    match m, a with
    | [], _ => []
    | (_, w) :: m', O => (v, w) :: m'
    | c :: m', S a' => c :: store m' a' v
    end.

  Fixpoint store_all (m : list cell) (l : list (nat * V)) : list cell :=
    match l with [] => m | (a, v) :: l' => store_all (store m a v) l' end.

  Fixpoint set_obj (l : list obj) (o : nat) (x : obj) : list obj :=
    match l, o with
    | [], _ => []
    | _ :: l', O => x :: l'
    | y :: l', S o' => y :: set_obj l' o' x
    end.

  Definition contents (m : list cell) (l : list nat) : list V :=
    flat_map (fun a => match nth_error m a with Some c => [fst c] | None => [] end) l.

  Definition table (n : nat) (f : nat -> V) : list V := map f (seq 0 n).

  (** The contents of the neighbour list given to compute, if any (locality.py:927-1010). *)
  Definition nl_contents (w : world) (nl : option nat) : list V :=
    match nl with
    | None => []
    | Some k => match nth_error (objs w) k with Some (NL arrs _ _) => contents (mem w) arrs | _ => [] end
    end.

  Definition step (w : world) (p : op) : world * result :=
    let m := mem w in let os := objs w in
    match p with
    | UserNew v => let '(m', l) := alloc m [v] true in (World m' os, Arrays l)
    | UserWrite a v =>
        match nth_error m a with
        | Some (_, true) => (World (store m a v) os, Done)
        | _ => (w, Raised)                        (* ValueError: assignment destination is read-only *)
        end
    (* the C++ constructors allocate *)
    | MkAcc c =>
        let '(m', l) := alloc m (table (acc_n L c) (acc_zero L c)) false in
        (World m' (os ++ [Acc c l [] true false]), Object (length os))
    (* density.py:637-647: if reset: self._reset(); then validation; then accumulate.
       reset() puts new arrays in place of the old ones: BondHistogramCompute.h:39-50, RDF.cc:66-73. *)
    | AccCompute o reset inputs nl ok =>
        match nth_error os o with
        | Some (Acc c outs hist stale called) =>
            let '(m1, outs1, hist1, stale1) :=
              if reset then let '(m', l) := alloc m (table (acc_n L c) (acc_zero L c)) false in (m', l, [], true)
              else (m, outs, hist, stale) in
            if ok
            then (World m1 (set_obj os o (Acc c outs1 (hist1 ++ [contents m inputs ++ nl_contents w nl]) true true)),
                  Done)
            else (World m1 (set_obj os o (Acc c outs1 hist1 stale1 called)), Raised)
        | _ => (w, Raised)
        end
    (* BondHistogramCompute.h:63-72 (reduceAndReturn); RDF.cc:75-100: reduce writes into the arrays of the object *)
    | AccRead o =>
        match nth_error os o with
        | Some (Acc c outs hist stale true) =>
            let m' := if stale
                      then store_all m (combine outs (table (acc_n L c) (fun j => acc_out L c j hist))) else m in
            (World m' (set_obj os o (Acc c outs hist false true)), Arrays outs)
        | _ => (w, Raised)
        end
    | MkShot c => (World m (os ++ [Shot c [] None false]), Object (length os))
    (* e.g. environment/LocalBondProjection.cc:60-116: the given list or a new one (NeighborComputeFunctional.cc:
       17-36) is kept, and new arrays are made for the results. *)
    | ShotCompute o inputs nl ok =>
        match nth_error os o, ok with
        | Some (Shot c outs nl0 called), true =>
            let ins := contents m inputs in
            match nl with
            | Some k =>
                match nth_error os k with
                | Some (NL arrs _ _) =>
                    let '(m', l) := alloc m (table (shot_n L c) (fun j => shot_out L c j (ins ++ contents m arrs))) false in
                    (World m' (set_obj os o (Shot c l (Some k) true)), Done)
                | _ => (w, Raised)
                end
            | None =>
                let '(m1, arrs) := alloc m (table 4 (nl_default L ins)) false in
                let '(m2, segs) := alloc m1 (table 2 (nl_seg L (contents m1 arrs))) false in
                let '(m', l) := alloc m2 (table (shot_n L c) (fun j => shot_out L c j (ins ++ contents m1 arrs))) false in
                (World m' (set_obj os o (Shot c l (Some (length os)) true) ++ [NL arrs segs true]), Done)
            end
        | _, _ => (w, Raised)
        end
    | ShotRead o =>
        match nth_error os o with
        | Some (Shot _ outs _ true) => (w, Arrays outs)
        | _ => (w, Raised)
        end
    (* environment.py:136-141, 498-503, 1077-1082; locality.py:754-775 *)
    | ShotNl o =>
        match nth_error os o with
        | Some (Shot _ _ (Some k) true) => (w, Object k)
        | _ => (w, Raised)
        end
    (* locality.py:532-598 (from_arrays): the C++ constructor copies its arguments (NeighborList.cc:30-110) *)
    | MkNL inputs =>
        let '(m1, arrs) := alloc m (table 4 (nl_default L (contents m inputs))) false in
        let '(m2, segs) := alloc m1 (table 2 (nl_seg L (contents m1 arrs))) false in
        (World m2 (os ++ [NL arrs segs true]), Object (length os))
    (* locality.py:628-664 *)
    | NLRead o =>
        match nth_error os o with
        | Some (NL arrs _ _) => (w, Arrays arrs)
        | _ => (w, Raised)
        end
    (* locality.py:666-676; NeighborList.cc:199-231: new arrays if they are out of date *)
    | NLSegRead o =>
        match nth_error os o with
        | Some (NL arrs segs true) => (w, Arrays segs)
        | Some (NL arrs segs false) =>
            let '(m', l) := alloc m (table 2 (nl_seg L (contents m arrs))) false in
            (World m' (set_obj os o (NL arrs l true)), Arrays l)
        | _ => (w, Raised)
        end
    (* NeighborList.cc:371-399: in place *)
    | NLSort o k =>
        match nth_error os o with
        | Some (NL arrs segs u) =>
            (World (store_all m (combine arrs (table 4 (nl_sort L k (contents m arrs))))) os, Done)
        | _ => (w, Raised)
        end
    (* NeighborList.cc:239-278: new arrays *)
    | NLFilter o mask =>
        match nth_error os o, nth_error m mask with
        | Some (NL arrs segs _), Some (v, _) =>
            let '(m', l) := alloc m (table 4 (nl_filter L v (contents m arrs))) false in
            (World m' (set_obj os o (NL l segs false)), Done)
        | _, _ => (w, Raised)
        end
    (* locality.py:607-626; NeighborList.cc:345-357: new arrays *)
    | NLCopy o =>
        match nth_error os o with
        | Some (NL arrs segs u) =>
            let '(m1, l1) := alloc m (contents m arrs) false in
            let '(m2, l2) := alloc m1 (contents m segs) false in
            (World m2 (os ++ [NL l1 l2 u]), Object (length os))
        | _ => (w, Raised)
        end
    | NLCopyInto o from =>
        match nth_error os o, nth_error os from with
        | Some (NL _ _ _), Some (NL arrs segs u) =>
            let '(m1, l1) := alloc m (contents m arrs) false in
            let '(m2, l2) := alloc m1 (contents m segs) false in
            (World m2 (set_obj os o (NL l1 l2 u)), Done)
        | _, _ => (w, Raised)
        end
    (* locality.py:858-898: self._points = _convert_array(points).copy(); the C++ object refers to that copy and
       builds its tree or cell list from it *)
    | MkNQ a =>
        match nth_error m a with
        | Some (v, _) =>
            let '(m', l) := alloc m [v] true in
            (World m' (os ++ [NQ (length m) v]), Object (length os))
        | None => (w, Raised)
        end
    (* locality.py:391-393: np.asarray of the array itself, writable *)
    | NQPoints o =>
        match nth_error os o with
        | Some (NQ p _) => (w, Arrays [p])
        | _ => (w, Raised)
        end
    (* locality.py:395-424 and 182-187: np.array(points) copies; the caller is never given that array, so it is
       marked as one that cannot be assigned to *)
    | Query o a =>
        match nth_error os o, nth_error m a with
        | Some (NQ _ _), Some (v, _) =>
            let '(m', l) := alloc m [v] false in
            (World m' (os ++ [QR o (length m)]), Object (length os))
        | _, _ => (w, Raised)
        end
    (* locality.py:203-221: toNeighborList runs the query now *)
    | QREval o =>
        match nth_error os o with
        | Some (QR k q) =>
            match nth_error os k, nth_error m q with
            | Some (NQ p built), Some (vq, _) =>
                match nth_error m p with
                | Some (vp, _) =>
                    let '(m1, arrs) := alloc m (table 4 (nq_query L vp built vq)) false in
                    let '(m2, segs) := alloc m1 (table 2 (nl_seg L (contents m1 arrs))) false in
                    (World m2 (os ++ [NL arrs segs true]), Object (length os))
                | None => (w, Raised)
                end
            | _, _ => (w, Raised)
            end
        | _ => (w, Raised)
        end
    end.

  Definition start : world := World [] [].
  Definition run (w : world) (ps : list op) : world := fold_left (fun w p => fst (step w p)) ps w.
  (** The worlds a program can reach. *)
  Definition reachable (w : world) : Prop := exists ps, w = run start ps.
  (** The contents of an array as the caller sees them. *)
  Definition value (w : world) (a : nat) : option V := option_map fst (nth_error (mem w) a).
End Heap.

Arguments UserNew {V}. Arguments UserWrite {V}. Arguments MkAcc {V}. Arguments AccCompute {V}.
Arguments AccRead {V}. Arguments MkShot {V}. Arguments ShotCompute {V}. Arguments ShotRead {V}.
Arguments ShotNl {V}. Arguments MkNL {V}. Arguments NLRead {V}. Arguments NLSegRead {V}. Arguments NLSort {V}.
Arguments NLFilter {V}. Arguments NLCopy {V}. Arguments NLCopyInto {V}. Arguments MkNQ {V}. Arguments NQPoints {V}.
Arguments Query {V}. Arguments QREval {V}.
Arguments Acc {V}. Arguments Shot {V}. Arguments NL {V}. Arguments NQ {V}. Arguments QR {V}.
Arguments World {V}. Arguments mem {V}. Arguments objs {V}. Arguments value {V}. Arguments start {V}.
Arguments alloc {V}. Arguments store {V}. Arguments store_all {V}. Arguments set_obj {V}. Arguments contents {V}.
Arguments table {V}. Arguments step {V}. Arguments run {V}. Arguments reachable {V}. Arguments nl_contents {V}.

