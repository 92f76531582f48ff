(** Specification for C67: Wigner 3j symbols by Racah's formula (e.g. Edmonds, Angular Momentum in Quantum Mechanics, eq. 3.6.11). *)
From Coq Require Import Reals ZArith.
Local Open Scope R_scope.

Definition F (z : Z) : R := INR (fact (Z.to_nat z)).
Definition parity (z : Z) : R := if Z.even z then 1 else -1.
(** One term of the sum; only arguments of factorials that are not negative occur. *)
Definition racah_term (j1 j2 j3 m1 m2 t : Z) : R :=
  if ((0 <=? t) && (0 <=? j3 - j2 + t + m1) && (0 <=? j3 - j1 + t - m2) && (0 <=? j1 + j2 - j3 - t) && (0 <=? j1 - t - m1) && (0 <=? j2 - t + m2))%Z%bool
  then parity t / (F t * F (j3 - j2 + t + m1) * F (j3 - j1 + t - m2) * F (j1 + j2 - j3 - t) * F (j1 - t - m1) * F (j2 - t + m2))
  else 0.
(** The symbol (j1 j2 j3; m1 m2 m3) for m1 + m2 + m3 = 0, |m_i| <= j_i and the triangle inequalities. *)
Definition wigner3j (j1 j2 j3 m1 m2 m3 : Z) : R :=
  parity (j1 - j2 - m3) *
  sqrt (F (j1 + j2 - j3) * F (j1 - j2 + j3) * F (- j1 + j2 + j3) / F (j1 + j2 + j3 + 1)) *
  sqrt (F (j1 + m1) * F (j1 - m1) * F (j2 + m2) * F (j2 - m2) * F (j3 + m3) * F (j3 - m3)) *
  sum_f_R0 (fun t => racah_term j1 j2 j3 m1 m2 (Z.of_nat t)) (Z.to_nat (j1 + j2 - j3)).
(** The symbols that the third-order invariants need. *)
Definition wigner (l : nat) (m1 m2 : Z) : R := let l := Z.of_nat l in wigner3j l l l m1 m2 (- m1 - m2).
