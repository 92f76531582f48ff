(** Specification of the Steinhardt order parameters. *)
From Verif Require Export HarmSpec SteinModel.
From Coq Require Import Reals ZArith List Sorted.
Import ListNotations.
Local Open Scope R_scope.

(** What the fsph library promises: the spherical harmonics, without the phase for m > 0. *)
Definition m_of (l i : nat) : nat := if (i <=? l)%nat then (l + i)%nat else (2 * l - i)%nat.
Definition fsph_ok (fsph : nat -> nat -> R -> R -> cplx) (l : nat) : Prop := forall i theta phi, (i < 2 * l + 1)%nat ->
  fsph l i theta phi = cscale (if ((i <=? l) && Nat.odd i)%nat%bool then -1 else 1) (harm l (m_of l i) (sphere theta phi)).
(** The direction of a bond; a bond of length zero counts as pointing up. *)
Definition len (v : vec3) : R := sqrt (dot v v).
Definition bdir (v : vec3) : vec3 := if Req_EM_T (len v) 0 then V3 0 0 1 else vscale (/ len v) v.
(** The weighted mean of the harmonics over the bonds, k = l + m. *)
Definition yterms (l k : nat) (weighted : bool) (vec : bond -> vec3) (bs : list bond) : list (R * cplx) :=
  map (fun nb => (hweight weighted nb, harm l k (bdir (vec nb)))) bs.
Definition wtot (weighted : bool) (bs : list bond) : R := fold_right (fun nb a => hweight weighted nb + a) 0 bs.
Definition qmean (l : nat) (weighted : bool) (vec : bond -> vec3) (bs : list bond) (k : nat) : cplx := cscale (/ wtot weighted bs) (wsum (yterms l k weighted vec bs)).
(** sqrt(4 pi / (2l+1) sum_m |q_lm|^2) *)
Definition invariant (l : nat) (q : nat -> cplx) : R := sqrt (4 * PI / INR (2 * l + 1) * nsum (2 * l + 1) (fun k => modulus2 (q k))).
(** The calls the theorems are about: indices in range, bond lengths those of the bond vectors, complete schedules. *)
Definition lengths_ok (b : box) (pts : list vec3) (bonds : nat -> list bond) : Prop :=
  forall i nb, (i < length pts)%nat -> In nb (bonds i) -> bd nb = len (hvec b pts i nb).
Definition st_ok (l : nat) (f : st_in) : Prop :=
  hbonds_ok (length (si_pts f)) (si_bonds f) /\ lengths_ok (si_box f) (si_pts f) (si_bonds f) /\
  execution 0 (length (si_pts f)) (si_ev1 f) /\ execution 0 (length (si_pts f)) (si_ev2 f) /\ execution 0 (2 * l + 1) (si_ev3 f) /\ execution 0 (length (si_pts f)) (si_ev4 f).
(** The value of q_lm of point i in a call, k = l + m. *)
Definition q_point (l : nat) (weighted : bool) (f : st_in) (i k : nat) : cplx := qmean l weighted (hvec (si_box f) (si_pts f) i) (si_bonds f i) k.
Definition has_mean (weighted : bool) (f : st_in) (i : nat) : Prop := wtot weighted (si_bonds f i) <> 0.
Fixpoint csuml {A} (g : A -> cplx) (l : list A) : cplx := match l with [] => c0 | x :: l => cadd (g x) (csuml g l) end.
(** The mean over a point and its neighbours. *)
Definition q_shell (l : nat) (weighted : bool) (f : st_in) (i k : nat) : cplx :=
  cscale (/ INR (S (length (si_bonds f i)))) (cadd (q_point l weighted f i k) (csuml (fun nb => q_point l weighted f (bp nb) k) (si_bonds f i))).
Definition shell_ok (weighted : bool) (f : st_in) (i : nat) : Prop := has_mean weighted f i /\ forall nb, In nb (si_bonds f i) -> has_mean weighted f (bp nb).
(** The mean over all points. *)
Definition q_all (q : nat -> nat -> cplx) (n k : nat) : cplx := cscale (/ INR n) (csuml (fun i => q i k) (seq 0 n)).
(** A row of an array with values q, in the order m = 0, 1, ..., l, -1, ..., -l; a row of undefined values; a row and its invariant that are values when [ok]. *)
Definition rowval (l : nat) (q : nat -> cplx) : list (option cplx) := map (fun i => Some (q (m_of l i))) (seq 0 (2 * l + 1)).
Definition norow (l : nat) : list (option cplx) := map (fun _ => None) (seq 0 (2 * l + 1)).
Definition cell (l : nat) (row : list (option cplx)) (v : option R) (q : nat -> cplx) (ok : Prop) : Prop :=
  (ok -> row = rowval l q /\ v = Some (invariant l q)) /\ (~ ok -> row = norow l /\ v = None).
(** The rows the invariants are made from: of the point, or of the point and its neighbours. *)
Definition q_used (c : stconf) (l : nat) (f : st_in) (i : nat) : nat -> cplx := if sc_average c then q_shell l (sc_weighted c) f i else q_point l (sc_weighted c) f i.
Definition ok_used (c : stconf) (f : st_in) (i : nat) : Prop := if sc_average c then shell_ok (sc_weighted c) f i else has_mean (sc_weighted c) f i.
(** Sum over m1 + m2 + m3 = 0 of w(m1, m2) q_m1 q_m2 q_m3, real part; [pairs] lists each (m1, m2) once. *)
Definition m_ok (l m1 m2 : Z) : Prop := (- l <= m1 <= l /\ - l <= m2 <= l /\ - l <= m1 + m2 <= l)%Z.
Definition third (w : Z -> Z -> R) (q : Z -> cplx) (pairs : list (Z * Z)) : R :=
  fold_right (fun p a => w (fst p) (snd p) * fst (cmul (cmul (q (fst p)) (q (snd p))) (q (- fst p - snd p)%Z)) + a) 0 pairs.
(** The third-order invariant, divided by (sum_m |q_lm|^2)^(3/2) on request. *)
Definition at_m (l : nat) (q : nat -> cplx) (m : Z) : cplx := q (Z.to_nat (Z.of_nat l + m)).
Definition enumerates (l : nat) (pairs : list (Z * Z)) : Prop := NoDup pairs /\ forall m1 m2, In (m1, m2) pairs <-> m_ok (Z.of_nat l) m1 m2.
Definition w_value (normalize : bool) (l : nat) (w : Z -> Z -> R) (q : nat -> cplx) (pairs : list (Z * Z)) : option R :=
  let s := nsum (2 * l + 1) (fun k => modulus2 (q k)) in
  if normalize then (if Req_EM_T s 0 then None else Some (third w (at_m l q) pairs / sqrt s ^ 3)) else Some (third w (at_m l q) pairs).
(** The table has the entries w(m1, m2) in the order of the loops: m1 from -l to l, and m2 ascending within. *)
Definition before (p p' : Z * Z) : Prop := (fst p < fst p' \/ fst p = fst p' /\ snd p < snd p')%Z.
Definition table_ok (l : nat) (w : Z -> Z -> R) (t : list R) : Prop := exists pairs, enumerates l pairs /\ StronglySorted before pairs /\ t = map (fun p => w (fst p) (snd p)) pairs.
(** Sums over pairs of bonds of the Legendre polynomials of the cosines between them. *)
Fixpoint rsuml {A} (g : A -> R) (l : list A) : R := match l with [] => 0 | x :: l => g x + rsuml g l end.
Definition angle_sum (l : nat) (weighted : bool) (vec vec' : bond -> vec3) (bs bs' : list bond) : R :=
  rsuml (fun a => rsuml (fun a' => hweight weighted a * hweight weighted a' * legendre l (dot (bdir (vec a)) (bdir (vec' a')))) bs') bs.
(** Two calls with the same neighbours whose bond vectors have the same lengths and angles; no bond vector is zero. *)
Definition congruent_calls (f f' : st_in) : Prop :=
  length (si_pts f) = length (si_pts f') /\ si_bonds f = si_bonds f' /\
  (forall i j a c, (i < length (si_pts f))%nat -> (j < length (si_pts f))%nat -> In a (si_bonds f i) -> In c (si_bonds f j) ->
    dot (hvec (si_box f) (si_pts f) i a) (hvec (si_box f) (si_pts f) j c) = dot (hvec (si_box f') (si_pts f') i a) (hvec (si_box f') (si_pts f') j c)) /\
  (forall i a, (i < length (si_pts f))%nat -> In a (si_bonds f i) -> hvec (si_box f) (si_pts f) i a <> v0).
