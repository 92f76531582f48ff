(** Model of freud.order.Steinhardt: freud/order/Steinhardt.{h,cc}, the loops of Wigner3j.cc, and the class in freud/order.py.
    Exact reals; [None] inside an array is the value that division by zero gives.  The evaluator of the fsph library is a parameter
    [fsph l i theta phi], i the position in the order m = 0, 1, ..., l, -1, ..., -l, without the Condon-Shortley phase; the table of Wigner 3j
    symbols is a parameter (WignerTable.v has the table itself).  The loops over the requested l act on separate arrays and are taken one l at a time. *)
From Verif Require Export HexModel HistModel.
From Coq Require Import Reals ZArith List.
Import ListNotations.
Local Open Scope R_scope.

(* utils.h:18-21 *)
Definition clamp (v lo hi : R) : R := Rmax lo (Rmin v hi).
(* Steinhardt.cc:166-173 *)
Definition st_polar (z d : R) : R := if Reqb d 0 then 0 else acos (clamp (z / d) (-1) 1).
(* Steinhardt.cc:31-52  the phase added to positive odd m *)
Definition st_ylm (fsph : nat -> nat -> R -> R -> cplx) (l i : nat) (theta phi : R) : cplx :=
  cscale (if ((i <=? l) && Nat.odd i)%nat%bool then -1 else 1) (fsph l i theta phi).
(* Steinhardt.cc:153-191: one bond, on (the row of sums, total_weight); None: an index past the end of the points *)
Definition st_bond fsph (l : nat) (weighted : bool) (b : box) (pts : list vec3) (ref : vec3) (st : option (list cplx * R)) (nb : bond) : option (list cplx * R) :=
  match st, nth_error pts (bp nb) with
  | Some (row, tw), Some p =>
      let delta := wrap b (vsub p ref) in
      let weight := if weighted then bw nb else 1 in
      let phi := atan2 (vy delta) (vx delta) in
      let theta := st_polar (vz delta) (bd nb) in
      Some (map (fun i => cadd (nth i row c0) (cscale weight (st_ylm fsph l i theta phi))) (seq 0 (2 * l + 1)), tw + weight)
  | _, _ => None
  end.
(* Steinhardt.cc:136-214  the normalised row of point i *)
Definition st_row fsph l weighted b pts (bs : list bond) (i : nat) : option (list (option cplx)) :=
  match nth_error pts i with
  | None => None
  | Some ref => match fold_left (st_bond fsph l weighted b pts ref) bs (Some (repeat c0 (2 * l + 1), 0)) with
                | Some (row, tw) => Some (map (fun z => c_div z tw) row)
                | None => None
                end
  end.
Definition oadd (x y : option cplx) : option cplx := match x, y with Some x, Some y => Some (cadd x y) | _, _ => None end.
Definition onorm (x : option cplx) : option R := option_map (fun z => fst z * fst z + snd z * snd z) x.
Definition fadd' (x y : option R) : option R := match x, y with Some x, Some y => Some (x + y) | _, _ => None end.
(* Steinhardt.cc:204-213, 283-286, 301-307: sum of squared moduli, times 4 pi / (2l+1), square root *)
Definition st_norm (l : nat) (row : list (option cplx)) : option R :=
  option_map (fun x => sqrt (x * (4 * PI / INR (2 * l + 1)))) (fold_left (fun acc z => fadd' acc (onorm z)) row (Some 0)).
(* Steinhardt.cc:210, 281: qlm_local.local()[k] += row[k] / Np on the thread's own array *)
Definition st_local (np : nat) (row : list (option cplx)) (a : marray (option cplx)) : marray (option cplx) :=
  MArray (ma_shape a) (ma_size a) (map (fun p => oadd (fst p) (match snd p with Some z => c_div z (INR np) | None => None end)) (combine (ma_data a) row)).
Definition st_zero (l : nat) : marray (option cplx) := ma_make (Some c0) [Z.of_nat (2 * l + 1)].
(* Steinhardt.cc:244-288  the averaged row of point i; None: a neighbour index past the end *)
Definition st_ave_row (l : nat) (rows : list (list (option cplx))) (bs : list bond) (i : nat) : option (list (option cplx)) :=
  match fold_left (fun acc nb => match acc, nth_error rows (bp nb) with
                                 | Some (sum, n), Some r => Some (map (fun p => oadd (fst p) (snd p)) (combine sum r), S n)
                                 | _, _ => None end) bs (Some (repeat (Some c0) (2 * l + 1), 1%nat)), nth_error rows i with
  | Some (sum, n), Some r => Some (map (fun p => match oadd (fst p) (snd p) with Some z => c_div z (INR n) | None => None end) (combine sum r))
  | _, _ => None
  end.
(* Wigner3j.cc:17-20 *)
Definition lm_index (l m : Z) : Z := if (m <? 0)%Z then (l - m)%Z else m.
Definition zrange (a b : Z) : list Z := map (fun k => (a + Z.of_nat k)%Z) (seq 0 (Z.to_nat (b - a + 1))).
(* Wigner3j.cc:43-55  the pairs (m1, m2) in loop order *)
Definition m_pairs (l : Z) : list (Z * Z) :=
  flat_map (fun m1 => map (fun m2 => (m1, m2)) (zrange (Z.max (- l - m1) (- l)) (Z.min (l - m1) l))) (zrange (- l) l).
Definition omul (x y : option cplx) : option cplx := match x, y with Some x, Some y => Some (cmul x y) | _, _ => None end.
(* Wigner3j.cc:22-57; outer None: past the end of the table or of the row *)
Definition reduce3j (l : nat) (table : list R) (row : list (option cplx)) : option (option R) :=
  let lz := Z.of_nat l in
  let at_ m := nth_error row (Z.to_nat (lm_index lz m)) in
  match fold_left (fun acc p =>
          match acc with
          | Some (res, counter) =>
              match nth_error table counter, at_ (fst p), at_ (snd p), at_ (- fst p - snd p)%Z with
              | Some w, Some a, Some b, Some c => Some (fadd' res (option_map fst (omul (omul (option_map (cscale w) a) b) c)), S counter)
              | _, _, _, _ => None
              end
          | None => None
          end) (m_pairs lz) (Some (Some 0, 0%nat)) with
  | Some (res, _) => Some res
  | None => None
  end.
(* Steinhardt.cc:312-320, 348-357: the normalised third-order invariant; [ql] the second-order one *)
Definition st_wl (l : nat) (table : list R) (normalize : bool) (row : list (option cplx)) (ql : option R) : option (option R) :=
  option_map (fun w => if normalize
    then match w, ql with Some w, Some q => if Reqb q 0 then None else Some (w * (sqrt (4 * PI / INR (2 * l + 1)) / q) ^ 3) | _, _ => None end
    else w) (reduce3j l table row).

(** The constructor's flags. *)
Record stconf := STC { sc_average : bool; sc_wl : bool; sc_weighted : bool; sc_normalize : bool }.
(** The arrays of one l: thread-local storage (survives between calls); m_qlmi, m_qli, m_qlmiAve, m_qliAve, m_wli, m_qlm and m_norm. *)
Record stl := STL { sl_locals : locals (marray (option cplx)); sl_qlm : list (list (option cplx)); sl_ql : list (option R);
  sl_qlm_ave : list (list (option cplx)); sl_ql_ave : list (option R); sl_w : list (option R); sl_sys : list (option cplx); sl_order : option R }.
Definition stl_new : stl := STL [] [] [] [] [] [] [] (Some 0).
Definition fill {A B} (f : nat -> option A) (g : A -> B) (ev : list (nat * nat)) (init : list B) : option (list B) :=
  fold_left (fun arr e => match arr, f (snd e) with Some a, Some x => Some (put a (snd e) (g x)) | _, _ => None end) ev (Some init).
(* the loop over points adding each row to the local array of the thread running it *)
Definition st_accumulate (l np : nat) (row : nat -> option (list (option cplx))) (ev : list (nat * nat)) (ls : locals (marray (option cplx))) : locals (marray (option cplx)) :=
  run_local (st_zero l) (fun i a => match row i with Some r => st_local np r a | None => a end) ev ls.
Inductive stout := STRaised | STUndefined | STDone (s : stl).
(* Steinhardt.cc:88-122 for one l: base loop [ev1], averaging loop [ev2], reduction [ev3], third-order loop [ev4].
   [table l = None] is the exception for l > 20. *)
Definition st_compute fsph (table : nat -> option (list R)) (c : stconf) (l : nat) (s : stl) (b : box) (pts : list vec3) (bonds : nat -> list bond)
    (ev1 ev2 ev3 ev4 : list (nat * nat)) : stout :=
  let np := length pts in
  let row i := st_row fsph l (sc_weighted c) b pts (bonds i) i in
  let ls0 := map (fun p => (fst p, ma_reset (Some c0) (snd p))) (sl_locals s) in
  match fill row (fun r => r) ev1 (repeat (repeat (Some c0) (2 * l + 1)) np), fill row (st_norm l) ev1 (repeat (Some 0) np) with
  | Some qlm, Some ql =>
      let ave i := st_ave_row l qlm (bonds i) i in
      match (if sc_average c then fill ave (fun r => r) ev2 (repeat (repeat (Some c0) (2 * l + 1)) np) else Some (sl_qlm_ave s)),
            (if sc_average c then fill ave (st_norm l) ev2 (repeat (Some 0) np) else Some (sl_ql_ave s)) with
      | Some qlm_ave, Some ql_ave =>
          let ls := if sc_average c then st_accumulate l np ave ev2 ls0 else st_accumulate l np row ev1 ls0 in
          match ts_reduce_into (Some c0) oadd (map snd ls) ev3 (st_zero l) with
          | Some sys =>
              let q := ma_data sys in
              if sc_wl c then
                match table l with
                | None => STRaised
                | Some t =>
                    let src := if sc_average c then qlm_ave else qlm in
                    let nrm := if sc_average c then ql_ave else ql in
                    match fill (fun i => st_wl l t (sc_normalize c) (nth i src []) (nth i nrm None)) (fun w => w) ev4 (repeat (Some 0) np),
                          st_wl l t (sc_normalize c) q (st_norm l q) with
                    | Some w, Some o => STDone (STL ls qlm ql qlm_ave ql_ave w q o)
                    | _, _ => STUndefined
                    end
                end
              else STDone (STL ls qlm ql qlm_ave ql_ave (sl_w s) q (st_norm l q))
          | None => STUndefined
          end
      | _, _ => STUndefined
      end
  | _, _ => STUndefined
  end.
(* Steinhardt.h:99-117 and order.py:534-551: the properties ql and particle_order *)
Definition st_get_ql (c : stconf) (s : stl) : list (option R) := if sc_average c then sl_ql_ave s else sl_ql s.
Definition st_get_particle_order (c : stconf) (s : stl) : list (option R) := if sc_wl c then sl_w s else st_get_ql c s.
(** A history of calls on one object. *)
Record st_in := STI { si_box : box; si_pts : list vec3; si_bonds : nat -> list bond; si_ev1 : list (nat * nat); si_ev2 : list (nat * nat); si_ev3 : list (nat * nat); si_ev4 : list (nat * nat) }.
Definition st_call fsph table c l (s : stl) (f : st_in) : stout := st_compute fsph table c l s (si_box f) (si_pts f) (si_bonds f) (si_ev1 f) (si_ev2 f) (si_ev3 f) (si_ev4 f).
Fixpoint st_run fsph table c l (s : stl) (h : list st_in) : stout :=
  match h with [] => STDone s | f :: h => match st_call fsph table c l s f with STDone s => st_run fsph table c l s h | o => o end end.
(* order.py:489-495; the list is empty: ValueError *)
Definition st_accepts (ls : list nat) : bool := match ls with [] => false | _ => true end.
