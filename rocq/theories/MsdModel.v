(** Model of freud/msd.py. Arrays of shape (N, P) or (N, P, 3) are index functions with their two sizes; real arithmetic is exact.
    The FFT libraries are modelled by what their documentation says they compute (the discrete Fourier sum and its inverse);
    pyfftw, scipy.fftpack and numpy.fft themselves are not modelled. *)
From Verif Require Export BoxModel.
From Coq Require Import Reals ZArith List Bool.
Import ListNotations.
Local Open Scope R_scope.

(** Sum over 0 .. n-1 (numpy sum along an axis). *)
Fixpoint nsum (n : nat) (f : nat -> R) : R := match n with O => 0 | S n => nsum n f + f n end.

(* msd.py:37-41 / scipy.fftpack.fft(x, n=n, axis=0): x is padded with zeros up to n *)
Definition padded (len : nat) (x : nat -> R) (t : nat) : R := if (t <? len)%nat then x t else 0.
Definition fft (n len : nat) (x : nat -> R) (k : nat) : R * R :=
  (nsum n (fun t => padded len x t * cos (2 * PI * INR k * INR t / INR n)), nsum n (fun t => - (padded len x t * sin (2 * PI * INR k * INR t / INR n)))).
(* msd.py:43-47 / ifft *)
Definition ifft (n : nat) (F : nat -> R * R) (j : nat) : R * R :=
  (nsum n (fun k => fst (F k) * cos (2 * PI * INR k * INR j / INR n) - snd (F k) * sin (2 * PI * INR k * INR j / INR n)) / INR n,
   nsum n (fun k => fst (F k) * sin (2 * PI * INR k * INR j / INR n) + snd (F k) * cos (2 * PI * INR k * INR j / INR n)) / INR n).
Definition c_mul (a b : R * R) : R * R := (fst a * fst b - snd a * snd b, fst a * snd b + snd a * fst b).
Definition c_conj (a : R * R) : R * R := (fst a, - snd a).
(* msd.py:59-67  _autocorrelation, one column *)
Definition autocorrelation (N : nat) (x : nat -> R) (m : nat) : R :=
  let F := fft (2 * N) N x in
  let PSD := fun k => c_mul (F k) (c_conj (F k)) in
  let res := ifft (2 * N) PSD in
  let n := rev (seq 1 N) in
  fst (res m) / INR (nth m n 0%nat).

(** Python index: negative indices count from the end. *)
Definition py_index (len : nat) (i : Z) : nat := Z.to_nat (if (i <? 0)%Z then (i + Z.of_nat len)%Z else i).
(* msd.py:206-214  the first term, one column: D has 2N rows, the last N zero *)
Definition D_of (N : nat) (r : nat -> vec3) (t : nat) : R :=
  if (t <? N)%nat then vx (r t) * vx (r t) + vy (r t) * vy (r t) + vz (r t) * vz (r t) else 0.
Fixpoint Q_after (N : nat) (D : nat -> R) (m : nat) : R :=
  (match m with O => 2 * nsum (2 * N) D | S m' => Q_after N D m' end) - (D (py_index (2 * N) (Z.of_nat m - 1)) + D (N - m)%nat).
Definition S1_of (N : nat) (r : nat -> vec3) (m : nat) : R := Q_after N (D_of N r) m / INR (N - m).
(* msd.py:216-222 *)
Definition S2_of (N : nat) (r : nat -> vec3) (m : nat) : R :=
  autocorrelation N (fun t => vx (r t)) m + autocorrelation N (fun t => vy (r t)) m + autocorrelation N (fun t => vz (r t)) m.
Definition window_column (N : nat) (r : nat -> vec3) (m : nat) : R := S1_of N r m - 2 * S2_of N r m.
(* msd.py:223-227 *)
Definition direct_column (r : nat -> vec3) (m : nat) : R := let d := vsub (r m) (r 0%nat) in vx d * vx d + vy d * vy d + vz d * vz d.

Inductive mmode := Window | Direct.
(** One call: [mi_ok]: positions convert to shape (N, P, 3); images, with whether they convert to the shape of positions. *)
Record minput := MI { mi_ok : bool; mi_n : nat; mi_p : nat; mi_pos : nat -> nat -> vec3; mi_images : option (bool * (nat -> nat -> Z * Z * Z)) }.
Record mblock := MB { mb_n : nat; mb_p : nat; mb_at : nat -> nat -> R }.
Record msd := MSD { ms_box : option box; ms_mode : mmode; ms_blocks : list mblock; ms_called : bool }.
(* msd.py:145-156 *)
Definition msd_new (b : option box) (mode : mmode) : msd := MSD b mode [] false.
(* msd.py:197-203 *)
Definition msd_positions (b : option box) (f : minput) : nat -> nat -> vec3 :=
  match b, mi_images f with
  | Some b, Some (_, im) => fun t i => unwrap b (mi_pos f t i) (im t i)
  | _, _ => mi_pos f
  end.
(* msd.py:186-229  compute; the result says whether it raised. A trajectory of 0 frames raises (FFT of 0 points, index 0 of an empty axis). *)
Definition msd_compute (s : msd) (reset : bool) (f : minput) : msd * bool :=
  let s := if reset then MSD (ms_box s) (ms_mode s) [] (ms_called s) else s in
  let s := MSD (ms_box s) (ms_mode s) (ms_blocks s) true in
  if negb (mi_ok f) then (s, true)
  else if match mi_images f with Some (false, _) => true | _ => false end then (s, true)
  else if (mi_n f =? 0)%nat then (s, true)
  else
    let r := msd_positions (ms_box s) f in
    let block := match ms_mode s with
                 | Window => MB (mi_n f) (mi_p f) (fun m i => window_column (mi_n f) (fun t => r t i) m)
                 | Direct => MB (mi_n f) (mi_p f) (fun m i => direct_column (fun t => r t i) m)
                 end in
    (MSD (ms_box s) (ms_mode s) (ms_blocks s ++ [block]) true, false).

(* numpy.concatenate(blocks, axis=1) *)
Fixpoint concat_at (bs : list mblock) (t j : nat) : R :=
  match bs with [] => 0 | b :: bs => if (j <? mb_p b)%nat then mb_at b t j else concat_at bs t (j - mb_p b) end.
Inductive mread := NotComputed | ConcatError | Values (n p : nat) (a : nat -> nat -> R).
(* msd.py:241-246  particle_msd *)
Definition particle_msd (s : msd) : mread :=
  if negb (ms_called s) then NotComputed
  else match ms_blocks s with
       | [] => ConcatError
       | b :: bs => if forallb (fun c => (mb_n c =? mb_n b)%nat) bs
                    then Values (mb_n b) (list_sum (map mb_p (b :: bs))) (concat_at (b :: bs))
                    else ConcatError
       end.
(* msd.py:235-239  msd: the mean over the columns; None for the mean of no columns (nan) *)
Definition msd_value (s : msd) (m : nat) : option R :=
  match particle_msd s with
  | Values _ p a => if (p =? 0)%nat then None else Some (nsum p (a m) / INR p)
  | _ => None
  end.
(** A history of calls. *)
Fixpoint msd_run (s : msd) (h : list (bool * minput)) : msd :=
  match h with [] => s | (re, f) :: h => msd_run (fst (msd_compute s re f)) h end.
