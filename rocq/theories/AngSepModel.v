(** Model of freud/environment/AngularSeparation.cc over exact reals.  [None] stands for a read outside an array. *)
From Verif Require Export QuatModel NListModel.
Local Open Scope R_scope.

(* utils.h:18-21  clamp *)
Definition clamp (v lo hi : R) : R := Rmax lo (Rmin v hi).
(* AngularSeparation.cc:23-28 *)
Definition sep_angle (ref_q q : quat) : R := 2 * acos (clamp (qs (qmul q (qconj ref_q))) (-1) 1).
(* AngularSeparation.cc:34-59 *)
Definition min_sep_angle (ref_q q : quat) (equiv_qs : list quat) : option R :=
  match equiv_qs with
  | [] => None
  | qconst :: _ =>
      let qtemp := qmul q (qconj qconst) in
      Some (fold_left (fun min_angle qe => let a := sep_angle ref_q (qmul qtemp qe) in
                                           if Rlt_bool a min_angle then a else min_angle) equiv_qs (sep_angle ref_q q))
  end.

(* AngularSeparation.cc:82-90  the bonds of point i, starting at [bond] *)
Fixpoint sep_bonds (fuel : nat) (bs : list bond) (q : quat) (qo equiv : list quat) (i bond : nat) (angles : list R) :
    option (nat * list R) :=
  match nth_error bs bond with
  | None => Some (bond, angles)
  | Some b =>
      if negb (bq b =? i)%nat then Some (bond, angles)
      else match fuel, nth_error qo (bp b) with
           | S fuel, Some query_q =>
               match min_sep_angle q query_q equiv with
               | Some theta => sep_bonds fuel bs q qo equiv i (S bond) (put angles bond theta)
               | None => None
               end
           | _, _ => None
           end
  end.
(* AngularSeparation.cc:78-91  one sub-range of the parallel loop: the cursor [bond] runs on from point to point *)
Fixpoint sep_points (bs : list bond) (o qo equiv : list quat) (pts : list nat) (st : nat * list R) : option (nat * list R) :=
  match pts with
  | [] => Some st
  | i :: pts =>
      match nth_error o i with
      | None => None
      | Some q => match sep_bonds (length bs) bs q qo equiv i (fst st) (snd st) with
                  | Some st' => sep_points bs o qo equiv pts st'
                  | None => None
                  end
      end
  end.
Definition sep_chunk (nl : nlist) (o qo equiv : list quat) (angles : list R) (c : nat * nat) : option (list R) :=
  option_map snd (sep_points (nl_bonds nl) o qo equiv (range (fst c) (snd c)) (find_first_index nl (fst c), angles)).
(* AngularSeparation.cc:61-93  [cs] is a cutting of the range into sub-ranges, executed in the order of the list; every sub-range
   writes other cells than the rest.  The array is fresh and zero (ManagedArray). *)
Definition sep_neighbor (nl : nlist) (np : nat) (o qo equiv : list quat) (cs : list (nat * nat)) : option (list R) :=
  ofold (fun a c => sep_chunk nl o qo equiv a c) cs (repeat 0 (length (nl_bonds nl))).

(* AngularSeparation.cc:95-115  row i of the array of angles; [ev] is an execution of the loop over the points *)
Definition sep_row (q : quat) (global equiv : list quat) : option (list R) :=
  omap (fun g => min_sep_angle q g equiv) global.
Definition sep_global (global o equiv : list quat) (ev : list (nat * nat)) : option (list (list R)) :=
  ofold (fun a e => match nth_error o (snd e) with
                    | Some q => option_map (put a (snd e)) (sep_row q global equiv)
                    | None => None end) ev (repeat (repeat 0 (length global)) (length o)).
