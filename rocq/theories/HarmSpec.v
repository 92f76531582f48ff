(** Spherical harmonics (Condon-Shortley phase) and Legendre polynomials, as in the textbooks. *)
From Verif Require Export CorrModel HexSpec CplxSum.
From Coq Require Import Reals.
Local Open Scope R_scope.

(** r^l Y_lm = sqrt((2l+1)/(4 pi) (l+m)! (l-m)!) times the sum over p + q + s = l, p - q = m of
    (-(x+iy)/2)^p ((x-iy)/2)^q z^s / (p! q! s!).  The second argument is k = l + m, from 0 to 2l. *)
Definition raising (v : vec3) : cplx := (- vx v / 2, - vy v / 2).
Definition lowering (v : vec3) : cplx := (vx v / 2, - vy v / 2).
Definition harm_sum (l k : nat) (v : vec3) : cplx :=
  csum (S l) (fun p => csum (S (l - p)) (fun q =>
    if (k =? p + l - q)%nat then cmul (cmul (dp p (raising v)) (dp q (lowering v))) (dp (l - p - q) (cr (vz v))) else c0)).
Definition harm (l k : nat) (v : vec3) : cplx := cscale (sqrt (INR (2 * l + 1) / (4 * PI) * (INR (fact k) * INR (fact (2 * l - k))))) (harm_sum l k v).
(** P_l(x) = sum over q of l! / (q! q! (l-2q)!) x^(l-2q) ((x^2-1)/4)^q *)
Fixpoint nsum (n : nat) (f : nat -> R) : R := match n with O => 0 | S n => nsum n f + f n end.
Definition legendre (l : nat) (x : R) : R :=
  nsum (S l) (fun q => if (2 * q <=? l)%nat then INR (fact l) / (INR (fact q) * INR (fact q) * INR (fact (l - 2 * q))) * x ^ (l - 2 * q) * ((x * x - 1) / 4) ^ q else 0).
(** the unit vector with polar angle theta and azimuth phi *)
Definition sphere (theta phi : R) : vec3 := V3 (sin theta * cos phi) (sin theta * sin phi) (cos theta).
