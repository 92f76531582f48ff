(** Model in single precision of freud.density.RDF (freud/density/RDF.cc, RDF.h) with its default neighbour query: binary32 with one NaN,
    rounding to nearest even, without fused operations or excess precision; unsigned 32-bit counts; binary64 where the code multiplies by
    M_PI.  The ball queries are those of FaabbModel, the thread-local histograms and their reduction those of ReproModel.
    Simplified: one iteration of the parallel loop gives all its additions to one thread-local histogram (LocalHistogram of the thread that
    runs it); the two tables of shell volumes are functions of the index of the bin (their sizes are [frdf_table2], [frdf_table3]). *)
From Coq Require Import ZArith List Permutation.
From Flocq Require Import Core BinarySingleNaN.
From Verif Require Export FaabbModel ReproModel.
Import ListNotations.
Local Open Scope Z_scope.

#[global] Instance prec_gt_0_53 : Prec_gt_0 53. Proof. reflexivity. Qed.
#[global] Instance prec_lt_emax_53 : Prec_lt_emax 53 1024. Proof. reflexivity. Qed.
Notation f64 := (binary_float 53 1024).
(** Conversions float to double and double to float, rounding to nearest even. *)
Definition to_double (x : f32) : f64 :=
  match x with
  | B754_zero s => B754_zero s
  | B754_infinity s => B754_infinity s
  | B754_nan => B754_nan
  | B754_finite s m e _ => binary_normalize 53 1024 prec_gt_0_53 prec_lt_emax_53 mode_NE (if s then Zneg m else Zpos m) e s
  end.
Definition to_float (x : f64) : f32 :=
  match x with
  | B754_zero s => B754_zero s
  | B754_infinity s => B754_infinity s
  | B754_nan => B754_nan
  | B754_finite s m e _ => binary_normalize 24 128 prec_gt_0_24 prec_lt_emax_24 mode_NE (if s then Zneg m else Zpos m) e s
  end.
(* M_PI of math.h *)
Definition M_PI : f64 := binary_normalize 53 1024 prec_gt_0_53 prec_lt_emax_53 mode_NE 884279719003555 (-48) false.
Definition dmul (x y : f64) : f64 := Bmult mode_NE x y.

(* RDF.cc:25-46; Histogram.h:127-141.  None: an exception.  NaN fails no comparison. *)
Definition frdf_make (bins : Z) (r_max r_min : f32) : option faxis :=
  if bins =? 0 then None else if Bleb r_max fzero then None else if Bltb r_min fzero then None else if Bleb r_max r_min then None
  else Some (FAxis bins r_min r_max).
(* RDF.cc:51-52: numbers of entries of m_vol_array2D and m_vol_array3D; ManagedArray.h:48-52: products of size_t *)
Definition frdf_table2 (bins : Z) : Z := (bins * bins) mod 2 ^ 64.
Definition frdf_table3 (bins : Z) : Z := ((bins * bins) mod 2 ^ 64 * bins) mod 2 ^ 64.
(* RDF.cc:53, 56-63: the volume of shell i *)
Definition volume_prefactor : f32 := to_float (dmul (to_double (fdiv (lit 4 0) (lit 3 0))) M_PI).
Definition fshell (is2d : bool) (a : faxis) (i : Z) : f32 :=
  let r := fedge a i in
  let nextr := fedge a (i + 1) in
  if is2d then to_float (dmul M_PI (to_double (fsub (fmul nextr nextr) (fmul r r))))
  else fmul volume_prefactor (fsub (fmul (fmul nextr nextr) nextr) (fmul (fmul r r) r)).

(** One call of compute: the system, the query points, exclude_ii, and how the parallel loop over the query points is executed. *)
Record fframe := FFrame { ff_box : fbox; ff_points : list fvec; ff_queries : list fvec; ff_excl : bool; ff_ev : list (nat * nat) }.
(* density.py RDF.default_query_args, NeighborComputeFunctional.h (loopOverNeighbors): a ball query with the r_max of the axis for every query
   point; none of them raises. *)
Definition fframe_bonds (a : faxis) (f : fframe) (bonds : nat -> list fbond) : Prop :=
  forall i, (i < length (ff_queries f))%nat ->
    faabb_ball (ff_box f) (ff_points f) (nth i (ff_queries f) fv0) i (fx_max a) fzero (ff_excl f) true (Some (bonds i)).
(* Histogram.h:302-311, 327-351, ManagedArray.h operator[]: the entry a distance is counted in.  Some None: outside the axis.  None: an exception *)
Definition fslot (a : faxis) (d : f32) : option (option nat) :=
  let b := fbin a d in
  if b =? OVERFLOW then Some None else if b <? fx_n a then Some (Some (Z.to_nat b)) else None.
Definition fslots_ok (a : faxis) (f : fframe) (bonds : nat -> list fbond) : Prop :=
  forall i x, (i < length (ff_queries f))%nat -> In x (bonds i) -> fslot a (fb_d x) <> None.
(* RDF.cc:101-110, Histogram.h:302-311: 1 is added to entry c for every bond counted there *)
Definition fadds (a : faxis) (bonds : nat -> list fbond) (i c : nat) : list Z :=
  map (fun _ => 1) (filter (fun x => match fslot a (fb_d x) with Some (Some k) => Nat.eqb k c | _ => false end) (bonds i)).
Definition fwork (a : faxis) (f : fframe) (bonds : nat -> list fbond) : nat * (nat -> nat -> list Z) * list (nat * nat) :=
  (length (ff_queries f), fadds a bonds, ff_ev f).
(* BondHistogramCompute.h:39-49, 104-128, Histogram.h:266-278, 428-440: the bin_counts read after the frames were accumulated, the first of them
   with reset: any schedules, any zeroed histograms left from earlier calls, any order of the reduction *)
Definition frdf_counts (a : faxis) (fs : list fframe) (counts : list Z) : Prop :=
  exists (bs : list (nat -> list fbond)) (old ls : locals (nat -> Z)),
    Forall2 (fun f bonds => fframe_bonds a f bonds /\ fslots_ok a f bonds) fs bs /\
    Forall (fun f => execution 0 (length (ff_queries f)) (ff_ev f)) fs /\
    Forall (fun l => forall k, snd l k = 0) old /\
    Permutation ls (accumulate_frames 0 uadd (map (fun fb => fwork a (fst fb) (snd fb)) (combine fs bs)) old) /\
    counts = map (reduced 0 uadd ls) (seq 0 (Z.to_nat (fx_n a))).

(** * rdf and n_r *)
(** unsigned int to float *)
Definition fcount (z : Z) : f32 := lit z 0.
(* Box.h:198-205 *)
Definition fvolume (b : fbox) : f32 :=
  if f2d b then fmul (fvx (fL b)) (fvy (fL b)) else fmul (fmul (fvx (fL b)) (fvy (fL b))) (fvz (fL b)).
(* RDF.cc:75-84; np, nqp, nf: m_n_points, m_n_query_points, m_frame_counter *)
Definition fprefactor (finite_size : bool) (b : fbox) (np nqp nf : Z) : f32 :=
  let number_density := fdiv (fcount nqp) (fvolume b) in
  let number_density := if finite_size then fmul number_density (fdiv (fcount ((nqp - 1) mod 2 ^ 32)) (fcount nqp)) else number_density in
  fdiv fone (fmul (fmul (fcount np) number_density) (fcount nf)).
(* RDF.cc:86-89 *)
Definition frdf (finite_size : bool) (b : fbox) (a : faxis) (np nqp nf : Z) (counts : list Z) : list f32 :=
  map (fun i => fdiv (fmul (fcount (nth i counts 0)) (fprefactor finite_size b np nqp nf)) (fshell (f2d b) a (Z.of_nat i))) (seq 0 (Z.to_nat (fx_n a))).
(* RDF.cc:93-98 *)
Fixpoint fcumulate (prefactor acc : f32) (counts : list Z) : list f32 :=
  match counts with [] => [] | c :: cs => let x := fadd acc (fmul (fcount c) prefactor) in x :: fcumulate prefactor x cs end.
Definition fn_r (nqp nf : Z) (counts : list Z) : list f32 :=
  let prefactor := fdiv fone (fmul (fcount nqp) (fcount nf)) in
  match counts with [] => [] | c :: cs => let x := fmul (fcount c) prefactor in x :: fcumulate prefactor x cs end.
(** What compute and the properties rdf and n_r give after accumulating frames: the last one supplies the box and the numbers of points. *)
Definition frdf_result (finite_size : bool) (a : faxis) (fs : list fframe) (counts : list Z) : list f32 * list f32 :=
  let f := last fs (FFrame (FBox fv0 fzero fzero fzero false false false false) [] [] false []) in
  let np := Z.of_nat (length (ff_points f)) mod 2 ^ 32 in let nqp := Z.of_nat (length (ff_queries f)) mod 2 ^ 32 in
  let nf := Z.of_nat (length fs) mod 2 ^ 32 in
  (frdf finite_size (ff_box f) a np nqp nf counts, fn_r nqp nf counts).
