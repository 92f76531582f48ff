(** Model of freud/environment/LocalBondProjection.cc and of LocalBondProjection.compute (environment.py:997-1100), over exact reals.
    [None] stands for a read outside an array. *)
From Verif Require Export AngSepModel.
Local Open Scope R_scope.

(* LocalBondProjection.cc:31-57  computeMaxProjection *)
Definition max_projection (proj_vec local_bond : vec3) (equiv_qs : list quat) : option R :=
  match equiv_qs with
  | [] => None
  | qconst :: _ =>
      Some (fold_left (fun max_proj qe => let t := dot (rotate (qmul (qconj qconst) qe) proj_vec) local_bond in
                                          if Rlt_bool max_proj t then t else max_proj) equiv_qs (dot proj_vec local_bond))
  end.
(* LocalBondProjection.cc:98  division by the length of the bond; [None] is a value that is not finite *)
Definition over_length (x d : R) : option R := if Req_EM_T d 0 then None else Some (x / d).
Definition lbp_entry : Type := (R * option R)%type.
(* ManagedArray: fresh arrays are zero *)
Definition lbp_zero : lbp_entry := (0, Some 0).
(* LocalBondProjection.cc:83-99  the rows of the two arrays for one bond; the orientation read is that of the point *)
Definition lbp_row (o : list quat) (proj_vecs : list vec3) (equiv : list quat) (b : bond) : option (list lbp_entry) :=
  match nth_error o (bp b) with
  | None => None
  | Some q => let local_bond := rotate (qconj q) (bv b) in
              omap (fun p => option_map (fun m => (m, over_length m (bd b))) (max_projection p local_bond equiv)) proj_vecs
  end.
(* LocalBondProjection.cc:81-101  the bonds of query point i, starting at [bond] *)
Fixpoint lbp_bonds (fuel : nat) (bs : list bond) (o : list quat) (pv : list vec3) (equiv : list quat) (i bond : nat)
    (rows : list (list lbp_entry)) : option (nat * list (list lbp_entry)) :=
  match nth_error bs bond with
  | None => Some (bond, rows)
  | Some b =>
      if negb (bq b =? i)%nat then Some (bond, rows)
      else match fuel, lbp_row o pv equiv b with
           | S fuel, Some row => lbp_bonds fuel bs o pv equiv i (S bond) (put rows bond row)
           | _, _ => None
           end
  end.
(* LocalBondProjection.cc:77-102  one sub-range of the parallel loop: the cursor [bond] runs on from point to point *)
Fixpoint lbp_points (bs : list bond) (o : list quat) (pv : list vec3) (equiv : list quat) (pts : list nat)
    (st : nat * list (list lbp_entry)) : option (nat * list (list lbp_entry)) :=
  match pts with
  | [] => Some st
  | i :: pts => match lbp_bonds (length bs) bs o pv equiv i (fst st) (snd st) with
                | Some st' => lbp_points bs o pv equiv pts st'
                | None => None
                end
  end.
Definition lbp_chunk (nl : nlist) (o : list quat) (pv : list vec3) (equiv : list quat) (rows : list (list lbp_entry)) (c : nat * nat) :
    option (list (list lbp_entry)) :=
  option_map snd (lbp_points (nl_bonds nl) o pv equiv (range (fst c) (snd c)) (find_first_index nl (fst c), rows)).

Inductive lbp_outcome := LRaised | LUndefined | LDone (rows : list (list lbp_entry)).
(* LocalBondProjection.cc:59-103  [n_query] and [n_points] are the numbers of query points and of points of the system; the list of
   neighbours is the one given or the one built from the query arguments (NeighborComputeFunctional.cc:16-33; C32).  The arrays are
   fresh and zero (ManagedArray).  [cs] is a cutting of the range into sub-ranges, in the order of execution; no two sub-ranges write
   the same cell.  environment.py:1048-1077: nothing compares the number of orientations with the number of points. *)
Definition lbp_compute (nl : nlist) (n_query n_points : nat) (o : list quat) (pv : list vec3) (equiv : list quat)
    (cs : list (nat * nat)) : lbp_outcome :=
  match make_default_nlist nl n_query n_points with
  | None => LRaised
  | Some nl =>
      match ofold (fun a c => lbp_chunk nl o pv equiv a c) cs (repeat (repeat lbp_zero (length pv)) (length (nl_bonds nl))) with
      | Some rows => LDone rows
      | None => LUndefined
      end
  end.
(* environment.py:1080-1105  projections and normed_projections, entry (bond, k) *)
Definition projections (rows : list (list lbp_entry)) (k m : nat) : option R :=
  match nth_error rows k with Some r => option_map fst (nth_error r m) | None => None end.
Definition normed_projections (rows : list (list lbp_entry)) (k m : nat) : option (option R) :=
  match nth_error rows k with Some r => option_map snd (nth_error r m) | None => None end.
