(** Model of freud.order.Nematic: freud/order/Nematic.{h,cc} and the class in freud/order.py.  Exact reals; [None] is the NaN that 0/0 or
    0*inf give and that every later operation keeps.  Eigen's SelfAdjointEigenSolver (util/diagonalize.cc) is a parameter. *)
From Verif Require Export HistModel LocalDensModel.
From Coq Require Import Reals ZArith List.
Import ListNotations.
Local Open Scope R_scope.

(* Nematic.cc:58-60  the orientation divided by its length *)
Definition nem_unit (u : vec3) : option vec3 := if Reqb (dot u u) 0 then None else Some (vscale (/ sqrt (dot u u)) u).
(* Nematic.cc:62-72  Q_ab *)
Definition nem_q (u : vec3) : list (option R) :=
  match nem_unit u with
  | None => repeat None 9
  | Some u => map Some
      [1.5 * vx u * vx u - 0.5; 1.5 * vx u * vy u; 1.5 * vx u * vz u;
       1.5 * vy u * vx u; 1.5 * vy u * vy u - 0.5; 1.5 * vy u * vz u;
       1.5 * vz u * vx u; 1.5 * vz u * vy u; 1.5 * vz u * vz u - 0.5]
  end.
(* Nematic.cc:79  nt[j] += Q_ab[j] on the thread's own array *)
Definition nem_add (q : list (option R)) (a : marray (option R)) : marray (option R) :=
  MArray (ma_shape a) (ma_size a) (map (fun p => fadd (fst p) (snd p)) (combine (ma_data a) q)).
(** The object: thread-local arrays (they survive between calls), number of particles, particle tensor rows, tensor, order and director. *)
Record nem := NEM { ne_locals : locals (marray (option R)); ne_n : nat; ne_pt : list (list (option R)); ne_t : list (option R); ne_order : option R; ne_dir : option vec3 }.
(* Nematic.h:34-38, 62-63 *)
Definition nem_new : nem := NEM [] 0 [] (repeat (Some 0) 9) (Some 0) (Some v0).
Definition nem_zero : marray (option R) := ma_make (Some 0) [3; 3]%Z.
(** All entries are numbers. *)
Fixpoint all_num (l : list (option R)) : option (list R) :=
  match l with [] => Some [] | Some x :: l => option_map (cons x) (all_num l) | None :: _ => None end.
(* Nematic.cc:46-104 and diagonalize.cc:13-41; [solver] gives the eigenvalues in increasing order with their eigenvectors, or fails.
   What Eigen does with NaN is left open (None). *)
Definition nem_compute (solver : list R -> option ((R * vec3) * (R * vec3) * (R * vec3))) (s : nem) (us : list vec3) (ev ev2 : list (nat * nat)) : option nem :=
  let n := length us in
  let ls := map (fun p => (fst p, ma_reset (Some 0) (snd p))) (ne_locals s) in
  let ls := run_local nem_zero (fun i => nem_add (nem_q (nth i us v0))) ev ls in
  let pt := fold_left (fun rows e => put rows (snd e) (nem_q (nth (snd e) us v0))) ev (repeat (repeat (Some 0) 9) n) in
  match ts_reduce_into (Some 0) fadd (map snd ls) ev2 nem_zero with
  | None => None
  | Some r =>
      let t := map (fun x => match x with Some y => if (n =? 0)%nat then None else Some (y * (1 / INR n)) | None => None end) (ma_data r) in
      let '(order, director) :=
        match all_num t with
        | None => (None, None)
        | Some q => match solver q with
                    | Some (_, (l, v)) => (Some l, Some v)
                    | None => (Some 0, Some (V3 0 0 1))
                    end
        end in
      Some (NEM ls n pt t order director)
  end.
(** A history of calls. *)
Record ninput := NI { ni_us : list vec3; ni_ev : list (nat * nat); ni_ev2 : list (nat * nat) }.
Fixpoint nem_run solver (s : nem) (h : list ninput) : option nem :=
  match h with [] => Some s | f :: h => match nem_compute solver s (ni_us f) (ni_ev f) (ni_ev2 f) with Some s => nem_run solver s h | None => None end end.
(* order.py Nematic.compute: the shape check before the call; [cols] is orientations.shape[1] *)
Definition nem_accepts (cols : nat) : bool := if (cols =? 4)%nat then false else (cols =? 3)%nat.
