(** Model in single precision of Box::computeDistance, computeDistances and computeAllDistances (freud/box/Box.h, export-Box.cc) with
    the arithmetic of F32Model.  The output array is a list that starts with whatever numpy.empty left in it (box.py:468, 497); a
    schedule of tbb::parallel_for is the order in which the assignments of the loop bodies happen: any order that performs each of
    them once.  Sizes are natural numbers (the index i * n_points + j is a size_t). *)
From Coq Require Import List Arith.
From Flocq Require Import Core BinarySingleNaN.
From Verif Require Export FaabbModel.
Import ListNotations.
Open Scope nat_scope.

(* Box.h:416-420  computeDistance *)
Definition fdistance (b : fbox) (ri rj : fvec) : f32 := Bsqrt mode_NE (fnorm2 (fwrap b (fvsub rj ri))).
(** Assignment to an element of the output array. *)
Fixpoint store (l : list f32) (i : nat) (x : f32) : list f32 :=
  match l, i with
  | [], _ => []
  | _ :: l, 0 => x :: l
  | y :: l, S i => y :: store l i x
  end.
(* Box.h:430-439  computeDistances *)
Definition fdistances (b : fbox) (qs ps : list fvec) (order : list nat) (out : list f32) : list f32 :=
  fold_left (fun out i => store out i (fdistance b (nth i qs fv0) (nth i ps fv0))) order out.
(* Box.h:449-462  computeAllDistances *)
Definition fall_distances (b : fbox) (qs ps : list fvec) (order : list (nat * nat)) (out : list f32) : list f32 :=
  fold_left (fun out t => let '(i, j) := t in store out (i * length ps + j) (fdistance b (nth i qs fv0) (nth j ps fv0))) order out.
(* box.py:468-473, export-Box.cc:81-94: std::invalid_argument unless the numbers of rows agree. *)
Definition py_distances (b : fbox) (qs ps : list fvec) (order : list nat) (empty : list f32) : option (list f32) :=
  if Nat.eqb (length qs) (length ps) then Some (fdistances b qs ps order empty) else None.
