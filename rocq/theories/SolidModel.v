(** Model of freud.order.SolidLiquid: freud/order/SolidLiquid.{h,cc} and the class in freud/order.py.
    Built on the models of NeighborList, Steinhardt and Cluster.  [None] as an array entry is NaN; comparisons with NaN are false.
    The neighbour list is the one the user gives or the one made from the query (both are lists that [reach] describes). *)
From Verif Require Export SteinModel ClusterModel NListModel.
From Coq Require Import Reals ZArith List Bool.
Import ListNotations.
Local Open Scope R_scope.

(* SolidLiquid.cc:20-29 *)
Definition sq_accepts (q_threshold : R) : bool := negb (Rltb q_threshold 0).
(* order.py:684-694  a threshold that is no integer is rounded down; a negative one does not convert to unsigned int *)
Definition sq_threshold (x : R) : option nat := if (Int_part x <? 0)%Z then None else Some (Z.to_nat (Int_part x)).
Record sqconf := SQC { sq_l : nat; sq_q : R; sq_s : nat; sq_norm : bool }.
Definition sq_st : stconf := STC false false false false.

(* SolidLiquid.cc:66-71  the products summed over the 2l+1 entries of two rows *)
Definition row_dot (r r' : list (option cplx)) : option cplx :=
  fold_left (fun acc p => oadd acc (omul (fst p) (option_map cconj (snd p)))) (combine r r') (Some c0).
(* SolidLiquid.cc:63-80  the value of one bond; outer None: an index past the end *)
Definition sq_value (c : sqconf) (qlm : list (list (option cplx))) (ql : list (option R)) (b : bond) : option (option R) :=
  match nth_error qlm (bq b), nth_error qlm (bp b), nth_error ql (bq b), nth_error ql (bp b) with
  | Some r, Some r', Some x, Some y =>
      Some (match row_dot r r' with
            | Some z => if sq_norm c
                        then match x, y with
                             | Some x, Some y => if Reqb (x * y) 0 then None else Some (fst z * (4 * PI / INR (2 * sq_l c + 1) / (x * y)))
                             | _, _ => None
                             end
                        else Some (fst z)
            | None => None
            end)
  | _, _, _, _ => None
  end.
(* SolidLiquid.cc:60-83  the bonds of point i, from the first one on; the fuel is the number of bonds *)
Fixpoint sq_bonds (fuel : nat) (c : sqconf) (nl : nlist) qlm ql (i cur : nat) (out : list (option R)) : option (list (option R)) :=
  match fuel with
  | O => Some out
  | S fuel =>
      if ((cur <? length (nl_bonds nl)) && (bq (nth cur (nl_bonds nl) bond0) =? i))%nat%bool
      then match sq_value c qlm ql (nth cur (nl_bonds nl) bond0) with
           | Some v => match wr out cur v with Some out => sq_bonds fuel c nl qlm ql i (S cur) out | None => None end
           | None => None
           end
      else Some out
  end.
(* SolidLiquid.cc:50-86  the loop over query points, schedule [ev] *)
Definition sq_all (c : sqconf) (nl : nlist) qlm ql (ev : list (nat * nat)) : option (list (option R)) :=
  fold_left (fun out e => match out with
                          | Some out => sq_bonds (S (length (nl_bonds nl))) c nl qlm ql (snd e) (find_first_index nl (snd e)) out
                          | None => None
                          end) ev (Some (repeat (Some 0) (length (nl_bonds nl)))).
Definition above (t : R) (x : option R) : bool := match x with Some x => Rltb t x | None => false end.
(* SolidLiquid.cc:98-104 *)
Definition sq_connections (nq : nat) (solid : nlist) : option (list nat) :=
  match get_counts solid with Some (counts, _) => omap (fun i => nth_error counts i) (seq 0 nq) | None => None end.
(* SolidLiquid.cc:106-119 *)
Definition sq_count_mask (s : nat) (conn : list nat) (solid : nlist) : option (list bool) :=
  omap (fun b => match nth_error conn (bq b), nth_error conn (bp b) with Some x, Some y => Some ((s <=? x) && (s <=? y))%nat%bool | _, _ => None end) (nl_bonds solid).
(** What the object holds after a call: the neighbour list used, the harmonics, ql_ij, num_connections and the list handed to Cluster. *)
Record sqout := SQO { so_st : stl; so_nlist : nlist; so_qij : list (option R); so_conn : list nat; so_solid : nlist }.
Inductive sqres := SQRaised | SQUndefined | SQDone (o : sqout).
(* the bonds the Steinhardt computation sees *)
Definition sq_st_in (b : box) (pts : list vec3) (nl : nlist) (ev1 ev3 : list (nat * nat)) : st_in :=
  STI b pts (fun i => match iterate nl i with Some l => l | None => [] end) ev1 ev1 ev3 ev1.
(* SolidLiquid.cc:31-124; [ev1], [ev3] the loops of Steinhardt, [ev5] the loop over query points *)
Definition sq_compute fsph (c : sqconf) (s : stl) (b : box) (pts : list vec3) (nl : nlist) (ev1 ev3 ev5 : list (nat * nat)) : sqres :=
  match make_default_nlist nl (length pts) (length pts) with
  | None => SQRaised
  | Some nl =>
      match st_call fsph (fun _ => None) sq_st (sq_l c) s (sq_st_in b pts nl ev1 ev3) with
      | STRaised => SQRaised
      | STUndefined => SQUndefined
      | STDone s =>
          match sq_all c nl (sl_qlm s) (st_get_ql sq_st s) ev5 with
          | None => SQUndefined
          | Some qij =>
              match nl_filter nl (map (above (sq_q c)) qij) with
              | None => SQUndefined
              | Some (solid, _) =>
                  match sq_connections (nl_nq nl) solid with
                  | None => SQUndefined
                  | Some conn =>
                      match sq_count_mask (sq_s c) conn solid with
                      | None => SQUndefined
                      | Some mask =>
                          match nl_filter solid mask with
                          | None => SQUndefined
                          | Some (solid2, _) => SQDone (SQO s nl qij conn solid2)
                          end
                      end
                  end
              end
          end
      end
  end.
(* SolidLiquid.cc:121-122 with Cluster.cc:21-98; the bonds of the list divided over threads *)
Definition sq_cluster (pts : list vec3) (o : sqout) (threads : list (list (nat * nat))) (r : cresult) : Prop :=
  Permutation (map (fun b => (bp b, bq b)) (nl_bonds (so_solid o))) (concat threads) /\ cluster_run (length pts) threads None r.
(* SolidLiquid.h:96-99  keys[0] of an empty vector is undefined *)
Definition sq_largest (r : cresult) : option nat := if (cr_num r =? 0)%nat then None else Some (length (cr_keys r 0)).
(* SolidLiquid.h:102-111 *)
Definition sq_sizes (r : cresult) : list nat := map (fun k => length (cr_keys r k)) (seq 0 (cr_num r)).
(* SolidLiquid.h:134-137 *)
Definition sq_nlist (o : sqout) : nlist := so_nlist o.
(** A history of calls on one object: only the Steinhardt object inside keeps state that a later call reads. *)
Record sq_in := SQI { qi_box : box; qi_pts : list vec3; qi_nl : nlist; qi_ev1 : list (nat * nat); qi_ev3 : list (nat * nat); qi_ev5 : list (nat * nat) }.
Definition sq_call fsph c s (f : sq_in) : sqres := sq_compute fsph c s (qi_box f) (qi_pts f) (qi_nl f) (qi_ev1 f) (qi_ev3 f) (qi_ev5 f).
