(** Model of freud.order.Cubatic: freud/order/Cubatic.{h,cc} and the class in freud/order.py:36-135.  Exact reals.
    The Mersenne twister seeded with (seed, first index of the chunk, 0xffaabb) and std::uniform_real_distribution are a
    parameter: [rng seed begin k] is the k-th number drawn.  Division by the squared length of a cubatic tensor is plain
    real division; C61_norm shows that it is never zero. *)
From Verif Require Export QuatModel ParModel MArrayModel RBase.
From Coq Require Import Reals List.
Import ListNotations.
Local Open Scope R_scope.

(* Cubatic.h:25-38  tensor4: 81 numbers, zero by default *)
Definition tensor := list R.
Definition t_zero : tensor := repeat 0 81.
Definition t_get (t : tensor) (i : nat) : R := nth i t 0.
(* Cubatic.cc:25-43  the constructor from a vector *)
Definition tensor4 (v : vec3) : tensor :=
  let v := [vx v; vy v; vz v] in
  flat_map (fun vi => flat_map (fun vj => flat_map (fun vk => map (fun vl => vi * vj * vk * vl) v) v) v) v.
(* Cubatic.cc:51-78 *)
Definition t_add (a b : tensor) : tensor := map (fun i => t_get a i + t_get b i) (seq 0 81).
Definition t_sub (a b : tensor) : tensor := map (fun i => t_get a i - t_get b i) (seq 0 81).
Definition t_scale (a : tensor) (c : R) : tensor := map (fun i => t_get a i * c) (seq 0 81).
(* Cubatic.cc:91-99  dot *)
Definition t_dot (a b : tensor) : R := fold_left (fun c i => c + t_get a i * t_get b i) (seq 0 81) 0.

(* Cubatic.cc:107-138  the identity matrix and genR4Tensor *)
Definition ident (i j : nat) : R := if Nat.eqb i j then 1 else 0.
Definition gen_r4 : tensor :=
  flat_map (fun i => flat_map (fun j => flat_map (fun k => map (fun l =>
    (((0 + ident i j * ident k l) + ident i k * ident j l) + ident i l * ident j k) * (2 / 5))
    (seq 0 3)) (seq 0 3)) (seq 0 3)) (seq 0 3).

(* Cubatic.cc:140-162  the constructor: which settings are accepted *)
Record settings := mkSet { t_initial : R; t_final : R; scale : R; n_replicates : nat; seed : nat }.
Definition cub_accepts (s : settings) : bool :=
  if Rltb (t_initial s) (t_final s) then false
  else if Rltb (t_final s) (1 / 1000000) then false
  else if orb (Rleb 1 (scale s)) (Rleb (scale s) 0) then false
  else true.
(* Cubatic.cc:158-161 *)
Definition system_vectors : list vec3 := [V3 1 0 0; V3 0 1 0; V3 0 0 1].

(* Cubatic.cc:164-172  calcCubaticTensor *)
Definition cub_tensor (q : quat) : tensor :=
  t_sub (t_scale (fold_left (fun t v => t_add t (tensor4 (rotate q v))) system_vectors t_zero) 2) gen_r4.
(* Cubatic.cc:174-178  calcCubaticOrderParameter *)
Definition cub_order (c g : tensor) : R := let d := t_sub g c in 1 - t_dot d d / t_dot c c.

(* Cubatic.cc:180-190  calcRandomQuaternion; [u] is the stream of numbers, [k] how many have been drawn *)
Definition random_quat (u : nat -> R) (k : nat) (mult : R) : quat * nat :=
  let theta := 2 * PI * u k in
  let phi := acos (2 * u (S k) - 1) in
  let axis := V3 (cos theta * sin phi) (sin theta * sin phi) (cos phi) in
  let axis := vscale (/ sqrt (dot axis axis)) axis in
  let angle := mult * u (S (S k)) in
  (q_axis_angle axis angle, S (S (S k))).

(* Cubatic.cc:192-215  calculatePerParticleTensor: every particle writes its own entry *)
Definition particle_tensors (os : list quat) (ev : list (nat * nat)) : list tensor :=
  fold_left (fun a e => upd a (snd e)
      (t_scale (fold_left (fun t v => t_add t (tensor4 (rotate (nth (snd e) os qid) v))) system_vectors t_zero) 2))
    ev (repeat t_zero (length os)).
(* Cubatic.cc:217-242  calculateGlobalTensor, for at least one particle: the 81 entries are summed in parallel *)
Definition global_tensor (os : list quat) (ev ev2 : list (nat * nat)) : tensor :=
  let pt := particle_tensors os ev in
  let n_inv := 1 / INR (length os) in
  let g := fold_left (fun g e => upd g (snd e) (fold_left (fun s j => s + t_get (nth j pt t_zero) (snd e)) (seq 0 (length os)) 0 * n_inv))
             ev2 t_zero in
  t_sub g gen_r4.

(** The state of one annealing run: orientation, tensor, order. *)
Record run_state := mkRun { r_q : quat; r_t : tensor; r_o : R }.
Definition run_at (g : tensor) (q : quat) : run_state := let c := cub_tensor q in mkRun q c (cub_order c g).

(* Cubatic.cc:290-319  the annealing loop; the temperature drops only when a move is accepted *)
Fixpoint anneal (s : settings) (g : tensor) (u : nat -> R) (fuel : nat) (t : R) (k : nat) (r : run_state) : run_state * nat :=
  match fuel with
  | O => (r, k)
  | S fuel =>
      if Rltb (t_final s) t then
        let '(dq, k) := random_quat u k (1 / 10) in
        let r' := run_at g (qmul dq (r_q r)) in
        if Rltb (r_o r) (r_o r') then anneal s g u fuel (t * scale s) k r'
        else
          let boltzmann_factor := exp (- (r_o r - r_o r') / t) in
          if Rleb (u k) boltzmann_factor then anneal s g u fuel (t * scale s) (S k) r'
          else anneal s g u fuel t (S k) r
      else (r, k)
  end.
(* Cubatic.cc:290  loop_count < 10000 *)
Definition max_loops : nat := 100 * 100.
(* Cubatic.cc:277-325  one replicate *)
Definition replicate (s : settings) (g : tensor) (u : nat -> R) (k : nat) : run_state * nat :=
  let '(q, k) := random_quat u k 1 in
  anneal s g u max_loops (t_initial s) k (run_at g q).

(* Cubatic.cc:262-326  one chunk of the loop over replicates: a generator seeded with the first index of the chunk,
   shared by the replicates of the chunk; each replicate writes its own entries *)
Definition run_chunk (s : settings) (g : tensor) (rng : nat -> nat -> nat -> R) (reps : list run_state) (c : nat * nat) : list run_state :=
  fst (fold_left (fun p i => let '(r, k) := replicate s g (rng (seed s) (fst c)) (snd p) in (upd (fst p) i r, k))
         (range (fst c) (snd c)) (reps, 0%nat)).
Definition no_run : run_state := mkRun qid t_zero 0.
Definition replicates (s : settings) (g : tensor) (rng : nat -> nat -> nat -> R) (cs : list (nat * nat)) : list run_state :=
  fold_left (run_chunk s g rng) cs (repeat no_run (n_replicates s)).

(* Cubatic.cc:328-338  the first replicate with the highest order *)
Definition best_index (reps : list run_state) : nat :=
  fst (fold_left (fun p i => let o := r_o (nth i reps no_run) in if Rltb (snd p) o then (i, o) else p)
         (seq 1 (length reps - 1)) (0%nat, r_o (nth 0 reps no_run))).

(** What the object holds after compute: the properties of order.py:100-127. *)
Record cub_result := mkCub { order : R; orientation : quat; particle_order : list R; glob_tensor : tensor; cubatic_tensor : tensor }.
(** [CRaised]: reading entry 0 of the empty array of replicates throws (ManagedArray.h:112-121); [CNaN]: without particles
    1/0 times 0 is NaN and so is everything else but the annealing path. *)
Inductive cub_out := CRaised | CNaN | CDone (r : cub_result).
(* Cubatic.cc:244-357  [ev1], [ev2], [ev3] are executions of the loops over particles, entries and particles; [cs] the chunks of the
   loop over replicates, in the order in which they are executed (chunks write disjoint entries) *)
Definition cub_compute (s : settings) (rng : nat -> nat -> nat -> R) (os : list quat) (ev1 ev2 : list (nat * nat)) (cs : list (nat * nat))
    (ev3 : list (nat * nat)) : cub_out :=
  if Nat.eqb (n_replicates s) 0 then CRaised
  else match os with
  | [] => CNaN
  | _ =>
    let g := global_tensor os ev1 ev2 in
    let reps := replicates s g rng cs in
    let b := nth (best_index reps) reps no_run in
    let po := fold_left (fun a e => upd a (snd e) (cub_order (cub_tensor (nth (snd e) os qid)) g)) ev3 (repeat 0 (length os)) in
    CDone (mkCub (r_o b) (r_q b) po g (r_t b))
  end.
