(** Model of freud.order.RotationalAutocorrelation: freud/order/RotationalAutocorrelation.{h,cc} and the class in freud/order.py. Exact reals;
    the unsigned int factorials and their products wrap at 2^32. [None] stands for a NaN, which division by zero gives. *)
From Verif Require Export QuatModel CorrModel HexModel ParModel.
From Coq Require Import Reals ZArith List Bool.
Import ListNotations.
Local Open Scope R_scope.

(* order.py:845-849; l is a Python integer. None: ValueError *)
Definition ra_make (l : Z) : option nat := if (negb (l mod 2 =? 0) || (l <? 0))%Z%bool then None else Some (Z.to_nat l).
Definition u32m (z : Z) : Z := (z mod 2 ^ 32)%Z.
(* RotationalAutocorrelation.h:59-65 *)
Fixpoint ra_fact (i : nat) : Z := match i with O => 1%Z | S j => u32m (Z.of_nat i * ra_fact j) end.
Definition ra_table (l : nat) : list Z := map ra_fact (seq 0 (S l)).
Definition ra_read (t : list Z) (i : nat) : Z := nth i t 0%Z.
(* RotationalAutocorrelation.cc:28-40 *)
Definition ra_cpow (base : cplx) (p : nat) : cplx := match p with O => (1, 0) | S n => fold_left (fun v _ => cmul v base) (seq 1 n) base end.
Definition oadd (a b : option cplx) : option cplx := match a, b with Some x, Some y => Some (cadd x y) | _, _ => None end.
Definition omul (a b : option cplx) : option cplx := match a, b with Some x, Some y => Some (cmul x y) | _, _ => None end.
(* RotationalAutocorrelation.cc:52: first value of k *)
Definition ra_first (l m1 m2 : nat) : nat := if (m1 + m2 <? l)%nat then 0%nat else (m1 + m2 - l)%nat.
(* RotationalAutocorrelation.cc:54-58: one term *)
Definition ra_term (t : list Z) (l : nat) (xi zeta : cplx) (m1 m2 k : nat) : option cplx :=
  c_div (cmul (cmul (cmul (ra_cpow (cconj xi) k) (ra_cpow zeta (m2 - k))) (ra_cpow (cconj zeta) (m1 - k))) (ra_cpow (cscale (-1) xi) (l + k - m1 - m2)))
        (IZR (ra_read t k) * IZR (ra_read t (l + k - m1 - m2)) * IZR (ra_read t (m1 - k)) * IZR (ra_read t (m2 - k))).
(* RotationalAutocorrelation.cc:42-61 *)
Definition ra_harm (t : list Z) (l : nat) (xi zeta : cplx) (m1 m2 : nat) : option cplx :=
  fold_left (fun s k => oadd s (ra_term t l xi zeta m1 m2 k)) (seq (ra_first l m1 m2) (S (min m1 m2) - ra_first l m1 m2)) (Some c0).
(* RotationalAutocorrelation.cc:76-80, 95-97: the order of the double loops *)
Definition ra_pairs (l : nat) : list (nat * nat) := flat_map (fun a => map (fun b => (a, b)) (seq 0 (S l))) (seq 0 (S l)).
(* RotationalAutocorrelation.cc:72-80: harmonics of the unit quaternion *)
Definition ra_units (t : list Z) (l : nat) : list (option cplx) := map (fun p => option_map cconj (ra_harm t l c0 (0, 1) (fst p) (snd p))) (ra_pairs l).
(* RotationalAutocorrelation.cc:81-83: product of unsigned ints, left to right, then a float division *)
Definition ra_pref (t : list Z) (l a b : nat) : R :=
  IZR (u32m (u32m (u32m (ra_read t a * ra_read t (l - a)) * ra_read t b) * ra_read t (l - b))) / INR (l + 1).
(* RotationalAutocorrelation.cc:92-109: one pair of orientations *)
Definition ra_value (l : nat) (ref q : quat) : option cplx :=
  let t := ra_table l in let units := ra_units t l in
  let qq := qmul (qconj ref) q in
  let xi := (vx (qv qq), vy (qv qq)) in let zeta := (vz (qv qq), qs qq) in
  fst (fold_left (fun st p => (oadd (fst st) (option_map (cscale (ra_pref t l (fst p) (snd p))) (omul (nth (snd st) units None) (ra_harm t l xi zeta (fst p) (snd p)))), S (snd st)))
        (ra_pairs l) (Some c0, 0%nat)).
Inductive raout := RARaised | RADone (particle_order : list (option cplx)) (order : option R).
(* RotationalAutocorrelation.cc:112-117 *)
Definition ra_mean (arr : list (option cplx)) : option R :=
  match fold_left (fun s z => match s, z with Some x, Some c => Some (x + fst c) | _, _ => None end) arr (Some 0) with
  | Some s => if (length arr =? 0)%nat then None else Some (s / INR (length arr))
  | None => None
  end.
(* order.py:851-866, RotationalAutocorrelation.cc:63-118; [ev]: execution of the parallel loop. The array is new in every call, so no call depends on earlier ones. *)
Definition ra_compute (l : nat) (refs qs : list quat) (ev : list (nat * nat)) : raout :=
  if negb (length refs =? length qs)%nat then RARaised
  else let arr := fold_left (fun arr e => put arr (snd e) (ra_value l (nth (snd e) refs qid) (nth (snd e) qs qid))) ev (repeat (Some c0) (length qs)) in
       RADone arr (ra_mean arr).
