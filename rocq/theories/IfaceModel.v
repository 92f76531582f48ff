(** Interface between two sets of points: freud/interface.py, with the neighbour list built by locality.py:808-836. *)
From Verif Require Export QueryModel NListModel.
From Coq Require Import Reals List Arith.
Import ListNotations.

(* numpy.unique on one-dimensional integer arrays: the distinct values in increasing order *)
Fixpoint insert_unique (x : nat) (l : list nat) : list nat :=
  match l with
  | [] => [x]
  | y :: r => if x <? y then x :: l else if x =? y then l else y :: insert_unique x r
  end.
Definition np_unique (l : list nat) : list nat := fold_right insert_unique [] l.

(** The argument [neighbors]: None, a NeighborList or a dictionary. *)
Inductive narg := NNone | NList (nl : nlist) | NDict (p : pyargs).
(* locality.py:833  query_args.setdefault("exclude_ii", e) *)
Definition set_default_excl (p : pyargs) (e : bool) : pyargs :=
  PA (pa_mode p) (pa_rmax p) (pa_rmin p) (pa_rguess p) (pa_k p) (Some (match pa_excl p with Some e' => e' | None => e end)) (pa_scale p) (pa_unknown p).

Inductive nlout := NLAttributeError | NLRaised | NLList (nl : nlist).
(* locality.py:808-836  _make_default_nlist; None has no attribute copy.  [ev], [ev2] schedule toNeighborList. *)
Definition py_default_nlist (be : backend) (b : box) (points : list vec3) (neighbors : narg) (query_points : option (list vec3))
    (ev ev2 : list (nat * nat)) (out : nlout) : Prop :=
  match neighbors with
  | NNone => out = NLAttributeError
  | NList nl => out = NLList nl
  | NDict p =>
      let p := set_default_excl p (match query_points with None => true | Some _ => false end) in
      let qp := match query_points with Some qp => qp | None => points end in
      exists res, py_query be b points qp p res /\
        match res with
        | None => out = NLRaised
        | Some ls => exists nl, to_neighbor_list false (length qp) (length points) (fun i => nth i ls []) ev ev2 nl /\ out = NLList nl
        end
  end.

(* interface.py:20-22  the object *)
Record iface := IF { if_point_ids : list nat; if_query_point_ids : list nat }.
Definition iface_new : iface := IF [] [].
Inductive ifout := IFRaised | IFDone (o : iface).
(* interface.py:44-48  compute *)
Definition iface_compute (be : backend) (b : box) (points : list vec3) (query_points : option (list vec3)) (neighbors : narg)
    (ev ev2 : list (nat * nat)) (o : iface) (out : ifout) : Prop :=
  exists nlo, py_default_nlist be b points neighbors query_points ev ev2 nlo /\
  match nlo with
  | NLList nl => out = IFDone (IF (np_unique (map bp (nl_bonds nl))) (np_unique (map bq (nl_bonds nl))))
  | _ => out = IFRaised
  end.
(* interface.py:51-53, 61-64 *)
Definition point_count (o : iface) : nat := length (if_point_ids o).
Definition query_point_count (o : iface) : nat := length (if_query_point_ids o).
