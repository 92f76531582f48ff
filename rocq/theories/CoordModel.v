(** Model of freud.order.ContinuousCoordination (freud/order/ContinuousCoordination.cc, .h, order.py:888-1026). Floats are exact reals
    extended with the two infinities and NaN; std::transform_reduce may sum in any order, which does not matter in this arithmetic. *)
From Verif Require Export VoronoiModel.
From Coq Require Import Reals List Bool Arith.
Import ListNotations.
Local Open Scope R_scope.

Inductive ext := Fin (r : R) | PInf | NInf | NaN.
Definition eneg (a : ext) : ext := match a with Fin x => Fin (- x) | PInf => NInf | NInf => PInf | NaN => NaN end.
Definition eadd (a b : ext) : ext :=
  match a, b with Fin x, Fin y => Fin (x + y) | NaN, _ | _, NaN => NaN | PInf, NInf | NInf, PInf => NaN | PInf, _ | _, PInf => PInf | NInf, _ | _, NInf => NInf end.
Definition eof_sign (x : R) : ext := if Rltb 0 x then PInf else if Rltb x 0 then NInf else NaN.
Definition emul (a b : ext) : ext :=
  match a, b with Fin x, Fin y => Fin (x * y) | NaN, _ | _, NaN => NaN | PInf, Fin x | Fin x, PInf => eof_sign x | NInf, Fin x | Fin x, NInf => eof_sign (- x)
  | PInf, PInf | NInf, NInf => PInf | _, _ => NInf end.
(** Division; all zero divisors of this class are positive zeros. *)
Definition ediv (a b : ext) : ext :=
  match a, b with
  | NaN, _ | _, NaN => NaN
  | Fin x, Fin y => if Reqb y 0 then eof_sign x else Fin (x / y)
  | Fin _, _ => Fin 0
  | PInf, Fin y => if Rltb y 0 then NInf else PInf
  | NInf, Fin y => if Rltb y 0 then PInf else NInf
  | _, _ => NaN
  end.
(** std::pow; a negative base does not occur (areas, distances and volumes are not negative). *)
Definition epow (a : ext) (m : R) : ext :=
  if Reqb m 0 then Fin 1
  else match a with
       | Fin x => if Rltb 0 x then Fin (Rpower x m) else if Rltb x 0 then NaN else if Rltb 0 m then Fin 0 else PInf
       | PInf => if Rltb 0 m then PInf else Fin 0
       | _ => NaN
       end.
Definition eln (a : ext) : ext := match a with Fin x => if Rltb 0 x then Fin (ln x) else if Rltb x 0 then NaN else NInf | PInf => PInf | _ => NaN end.
Definition eexp (a : ext) : ext := match a with Fin x => Fin (exp x) | PInf => PInf | NInf => Fin 0 | NaN => NaN end.
Definition esum (l : list ext) : ext := fold_left eadd l (Fin 0).

(* ContinuousCoordination.cc:35-36, 40-48  volume of one pyramid (triangle) relative to the cell *)
Definition cc_frac (is2d : bool) (vol : R) (nb : bond) : ext :=
  emul (emul (ediv (Fin 1) (Fin ((if is2d then 2 else 3) * 2 * vol))) (Fin (bw nb))) (Fin (bd nb)).
(* ContinuousCoordination.cc:49-80  the coordination numbers of one point; [n]: its entry of the counts array *)
Definition cc_row (powers : list R) (clog cexp : bool) (is2d : bool) (vol : R) (n : nat) (nbs : list bond) : list ext :=
  let vs := map (cc_frac is2d vol) nbs in
  map (fun m => ediv (epow (Fin (INR n)) (2 - m)) (esum (map (fun v => epow v m) vs))) powers ++
  (if clog then [ediv (eneg (esum (map eln vs))) (eln (Fin (INR n)))] else []) ++
  (if cexp then [esum (map (fun v => eexp (eadd v (eneg (ediv (Fin 1) (Fin (INR n)))))) vs)] else []).
(* ContinuousCoordination.cc:84-87 *)
Definition cc_number (powers : list R) (clog cexp : bool) : nat := length powers + (if clog then 1 else 0) + (if cexp then 1 else 0).
(* ContinuousCoordination.cc:22-82; [ev] executes the parallel loop over the query points, each writing its own row of a new array.
   The list's segments and counts are brought up to date on the way. None: an array is read outside its bounds. *)
Definition cc_compute (powers : list R) (clog cexp : bool) (is2d : bool) (vols : list R) (nl : nlist) (ev : list (nat * nat)) : option (list (list ext) * nlist) :=
  match get_counts nl with
  | None => None
  | Some (counts, nl) =>
      option_map (fun rows => (rows, nl))
        (fold_left (fun arr e => let i := snd e in
            match arr, iterate nl i, nth_error vols i, nth_error counts i with
            | Some arr, Some nbs, Some vol, Some n => wr arr i (cc_row powers clog cexp is2d vol n nbs)
            | _, _, _, _ => None
            end) ev (Some (repeat (repeat (Fin 0) (cc_number powers clog cexp)) (nl_nq nl))))
  end.
(** Outcome of the Python method. *)
Inductive ccout := CCValueError | CCRuntimeError | CCDone (coordination : list (list ext)).
(* order.py:938-940 *)
Definition cc_powers (powers : option (list R)) : list R := match powers with None => [2] | Some p => p end.
(* order.py:968-983 with a Voronoi object given; [hasattr(voronoi, "nlist")] is false before its compute (C60). With system=None and voronoi=None: ValueError. *)
Definition cc_py (powers : list R) (clog cexp : bool) (have_system : bool) (vor : option vobj) (h : heap) (ev : list (nat * nat)) : option ccout :=
  match vor with
  | None => if have_system then None else Some CCValueError
  | Some v => match vor_nlist v with
              | None => Some CCRuntimeError
              | Some a => option_map (fun r => CCDone (fst r)) (cc_compute powers clog cexp (vo_2d v) (vo_vol v) (h a) ev)
              end
  end.
(* order.py:972-976: with a system only, a new Voronoi object (list at the free address [a]) is computed first *)
Definition cc_system (powers : list R) (clog cexp : bool) (b : box) (points : list vec3) (cells : list vcell) (a : nat) (h : heap) (ev0 ev : list (nat * nat)) (r : option ccout) : Prop :=
  exists h' v', vor_compute b points cells ev0 (h, vor_new a) (h', v') /\ r = cc_py powers clog cexp true (Some v') h' ev.
