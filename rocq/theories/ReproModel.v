(** Model of sums over particles accumulated in thread-local arrays, in machine arithmetic: unsigned 32-bit integers (counts) and IEEE
    floating point of any format (float: 24, 128; double: 53, 1024) with one NaN (Flocq), rounding to nearest even, without fused
    operations or excess precision.  Schedules are those of ParModel.
    An array is a function of the index of its entry.  [old]: thread-local arrays that exist before the loop starts.
    Simplified: the addends of an iteration are given by a function of its index (Nematic's are also written out). *)
From Coq Require Import ZArith.
From Flocq Require Import Core BinarySingleNaN.
From Verif Require Export ParModel F32Model.
Local Open Scope Z_scope.

(** * Arrays of sums *)
Section Sums.
Context {T : Type} (zero : T) (add : T -> T -> T).
(* Nematic.cc:55-83, GaussianDensity.cc:94-166, Histogram.h:302-311, 314-320: local()[c] += x for the addends x of iteration i, in order *)
Definition add_all (w : nat -> list T) (a : nat -> T) : nat -> T := fun c => fold_left add (w c) (a c).
Definition accumulate (w : nat -> nat -> list T) (ev : list (nat * nat)) (ls : locals (nat -> T)) : locals (nat -> T) :=
  run_local (fun _ => zero) (fun i => add_all (w i)) ev ls.
(* Histogram.h:266-278, ThreadStorage.h:102-116 on a fresh result (Nematic.cc:86-87, GaussianDensity.cc:70-71, 169; Steinhardt.cc:103):
   result[c] += local[c] over the thread-local arrays *)
Definition reduced (ls : locals (nat -> T)) (c : nat) : T := fold_left (fun r l => add r (snd l c)) ls zero.
(** Frames accumulated one after the other without reset: for each the number of iterations, its addends and its schedule. *)
Definition accumulate_frames (fs : list (nat * (nat -> nat -> list T) * list (nat * nat))) (ls : locals (nat -> T)) : locals (nat -> T) :=
  fold_left (fun ls f => accumulate (snd (fst f)) (snd f) ls) fs ls.
End Sums.

(* Histogram<unsigned int>: addition of unsigned int *)
Definition uadd (x y : Z) : Z := (x + y) mod 2 ^ 32.

(** * Nematic in single precision *)
(* VectorMath.h:270-273, 208-212 *)
Definition fdot (a b : fvec) : f32 := fadd (fadd (fmul (fvx a) (fvx b)) (fmul (fvy a) (fvy b))) (fmul (fvz a) (fvz b)).
Definition fscaled (a : fvec) (k : f32) : fvec := FV (fmul (fvx a) k) (fmul (fvy a) k) (fmul (fvz a) k).
Definition fsqrt (x : f32) : f32 := Bsqrt mode_NE x.
(* Nematic.cc:59-61 *)
Definition fnormalized (u : fvec) : fvec := fscaled u (fdiv fone (fsqrt (fdot u u))).
(* Nematic.cc:63-73: entry c of the tensor of a particle *)
Definition nematic_q (u : fvec) (c : nat) : f32 :=
  let u := fnormalized u in
  let h := lit 3 (-1) in let half := lit 1 (-1) in
  match c with
  | 0 => fsub (fmul (fmul h (fvx u)) (fvx u)) half
  | 1 => fmul (fmul h (fvx u)) (fvy u)
  | 2 => fmul (fmul h (fvx u)) (fvz u)
  | 3 => fmul (fmul h (fvy u)) (fvx u)
  | 4 => fsub (fmul (fmul h (fvy u)) (fvy u)) half
  | 5 => fmul (fmul h (fvy u)) (fvz u)
  | 6 => fmul (fmul h (fvz u)) (fvx u)
  | 7 => fmul (fmul h (fvz u)) (fvy u)
  | _ => fsub (fmul (fmul h (fvz u)) (fvz u)) half
  end%nat.
(* Nematic.cc:48-95: the nematic tensor; [old]: thread-local arrays, zeroed (line 52) *)
Definition nematic_tensor (us : list fvec) (ev : list (nat * nat)) (old : locals (nat -> f32)) (c : nat) : f32 :=
  let zeroed := map (fun l => (fst l, fun _ : nat => fzero)) old in
  let ls := accumulate fzero fadd (fun i c => match nth_error us i with Some u => [nematic_q u c] | None => [] end) ev zeroed in
  fmul (reduced fzero fadd ls c) (fdiv fone (lit (Z.of_nat (length us)) 0)).
(* Nematic.cc:77-81: the particle tensors, each written by the iteration of its particle *)
Definition particle_tensor (us : list fvec) (ev : list (nat * nat)) : nat -> nat -> option f32 :=
  fold_left (fun out e => fun i c => if Nat.eqb i (snd e) then option_map (fun u => nematic_q u c) (nth_error us i) else out i c) ev (fun _ _ => None).
