(** Model of freud.order.Hexatic: freud/order/HexaticTranslational.{h,cc} and the class in freud/order.py. Exact reals. *)
From Verif Require Export NListModel MatchEnvModel BoxModel BoxPyModel CorrModel.
From Coq Require Import Reals List.
Import ListNotations.
Local Open Scope R_scope.

(* HexaticTranslational.cc:67-71: exp(i k atan2(y, x)) *)
Definition hex_func (k : nat) (v : vec3) : cplx := let theta := atan2 (vy v) (vx v) in (cos (INR k * theta), sin (INR k * theta)).
(* HexaticTranslational.cc:41-50: one bond, on (psi, total_weight); None: an index past the end of the points *)
Definition hex_bond (k : nat) (weighted : bool) (b : box) (pts : list vec3) (ref : vec3) (st : option (cplx * R)) (nb : bond) : option (cplx * R) :=
  match st, nth_error pts (bp nb) with
  | Some (psi, tw), Some p =>
      let delta := wrap b (vsub p ref) in
      let weight := if weighted then bw nb else 1 in
      Some (cadd psi (cscale weight (hex_func k delta)), tw + weight)
  | _, _ => None
  end.
(** Division by complex(t, 0): None stands for the NaN that division by zero gives. *)
Definition c_div (z : cplx) (t : R) : option cplx := if Reqb t 0 then None else Some (fst z / t, snd z / t).
(* HexaticTranslational.cc:36-60 for point i, normalize_by_k = false *)
Definition hex_point (k : nat) (weighted : bool) (b : box) (pts : list vec3) (bs : list bond) (i : nat) : option (option cplx) :=
  match nth_error pts i with
  | None => None
  | Some ref => match fold_left (hex_bond k weighted b pts ref) bs (Some (c0, 0)) with Some (psi, tw) => Some (c_div psi tw) | None => None end
  end.
Inductive hout := HRaised | HUndefined | HDone (psi : list (option cplx)).
(* HexaticTranslational.cc:21-61; [ev] is the execution of the loop over points *)
Definition hex_compute (k : nat) (weighted : bool) (b : box) (pts : list vec3) (bonds : nat -> list bond) (ev : list (nat * nat)) : hout :=
  if negb (b_2d b) then HRaised
  else match fold_left (fun arr e => match arr, hex_point k weighted b pts (bonds (snd e)) (snd e) with
                                     | Some a, Some z => Some (put a (snd e) z) | _, _ => None end) ev (Some (repeat (Some c0) (length pts))) with
       | Some a => HDone a
       | None => HUndefined
       end.
