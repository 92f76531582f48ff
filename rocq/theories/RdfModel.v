(** Model of freud.density.RDF: freud/density/RDF.cc, RDF.h and the class in freud/density.py. *)
From Verif Require Export NListModel CountHist MatchEnvModel.
From Coq Require Import Reals ZArith List.
Import ListNotations.
Local Open Scope R_scope.

(* RDF.h:21-25 *)
Inductive norm_mode := Exact | FiniteSize.
(* What reduce uses of the last frame, BondHistogramCompute.h:115-126: volume and dimension of the box, numbers of points and query points *)
Record rdf_data := RD { rd_vol : R; rd_2d : bool; rd_np : nat; rd_nqp : nat }.
Record rdf := Rdf {
  rdf_bins : Z;
  rdf_vol2 : list R; rdf_vol3 : list R;      (* m_vol_array2D / 3D; only the first [bins] entries are ever used *)
  rdf_state : bhc U32 rdf_data;
  rdf_mode : norm_mode;                      (* mode *)
  rdf_pcf : list R; rdf_nr : list R }.       (* m_pcf, m_N_r *)
Definition rdf_axis (bins : Z) (r_max r_min : R) : axis := Axis bins r_min r_max.
(* RDF.cc:25-64 *)
Definition rdf_make (bins : Z) (r_max r_min : R) : option rdf :=
  if (bins =? 0)%Z then None else if Rle_bool r_max 0 then None else if Rlt_bool r_min 0 then None else if Rle_bool r_max r_min then None
  else
    let a := rdf_axis bins r_max r_min in
    let e := bin_edges a in
    let idx := seq 0 (Z.to_nat bins) in
    Some (Rdf bins
      (map (fun i => let r := nth i e 0 in let nextr := nth (S i) e 0 in PI * (nextr * nextr - r * r)) idx)
      (map (fun i => let r := nth i e 0 in let nextr := nth (S i) e 0 in 4 / 3 * PI * (nextr * nextr * nextr - r * r * r)) idx)
      (bhc_make (u32 0) [a]) Exact (repeat 0 (Z.to_nat bins)) (repeat 0 (Z.to_nat bins))).

(* RDF.cc:75-84 *)
Definition rdf_prefactor (m : norm_mode) (d : rdf_data) (frames : nat) : R :=
  let nqp := INR (rd_nqp d) in
  let number_density := nqp / rd_vol d in
  let number_density := match m with FiniteSize => number_density * (IZR (Z.of_nat (rd_nqp d) - 1) / INR (rd_nqp d)) | Exact => number_density end in
  1 / (INR (rd_np d) * number_density * INR frames).
(* RDF.cc:93-98 *)
Fixpoint rdf_cumulate (prefactor acc : R) (counts : list Z) : list R :=
  match counts with [] => [] | c :: cs => let x := acc + IZR c * prefactor in x :: rdf_cumulate prefactor x cs end.
Definition rdf_counts (s : bhc U32 rdf_data) (n : nat) : option (list Z) :=
  omap (fun i => option_map u32_val (ma_get (h_counts (bhc_hist s)) (Z.of_nat i))) (seq 0 n).
(* RDF.cc:73-99 after the reduction of the thread local histograms *)
Definition rdf_reduce (r : rdf) (s : bhc U32 rdf_data) : option rdf :=
  match bhc_last s, rdf_counts s (Z.to_nat (rdf_bins r)) with
  | Some d, Some cs =>
      let p := rdf_prefactor (rdf_mode r) d (bhc_frames s) in
      let vol := if rd_2d d then rdf_vol2 r else rdf_vol3 r in
      let pcf := map (fun i => IZR (nth i cs 0%Z) * p / nth i vol 0) (seq 0 (Z.to_nat (rdf_bins r))) in
      let q := 1 / (INR (rd_nqp d) * INR (bhc_frames s)) in
      Some (Rdf (rdf_bins r) (rdf_vol2 r) (rdf_vol3 r) s (rdf_mode r) pcf (rdf_cumulate q 0 cs))
  | _, _ => None
  end.
(* BondHistogramCompute.h:61-75 with RDF::reduce; density.py rdf, n_r, bin_counts.  Before the first compute the Python property
   raises and nothing changes. *)
Definition rdf_read (r : rdf) (ev : list (nat * nat)) : option rdf :=
  match bhc_last (rdf_state r) with
  | None => Some r
  | Some _ =>
      if bhc_reduce (rdf_state r) then match bhc_read (u32 0) u32_add (rdf_state r) ev with Some s => rdf_reduce r s | None => None end
      else Some r
  end.
(* One frame: the bonds that each iteration of the loop over neighbours delivers, and how the loop is executed. *)
Record rin := RI { ri_n : nat; ri_bonds : nat -> list bond; ri_ev : list (nat * nat); ri_data : rdf_data }.
(* RDF.cc:101-110: one sample per bond, its distance *)
Definition rdf_cin (f : rin) : cin rdf_data := CI (ri_n f) (fun i => map (fun b => [bd b]) (ri_bonds f i)) (ri_ev f) (ri_data f).
(* density.py RDF.compute, RDF.cc:66-71, 101-110 *)
Definition rdf_compute (r : rdf) (reset : bool) (f : rin) : rdf :=
  let z := repeat 0 (Z.to_nat (rdf_bins r)) in
  Rdf (rdf_bins r) (rdf_vol2 r) (rdf_vol3 r) (bhc_compute (u32 0) u32_add (rdf_state r) reset (cframe (rdf_cin f))) (rdf_mode r)
      (if reset then z else rdf_pcf r) (if reset then z else rdf_nr r).
(* density.py mode setter *)
Definition rdf_set_mode (r : rdf) (m : norm_mode) : rdf :=
  Rdf (rdf_bins r) (rdf_vol2 r) (rdf_vol3 r) (rdf_state r) m (rdf_pcf r) (rdf_nr r).

Inductive rop := RCompute (reset : bool) (f : rin) | RRead (ev : list (nat * nat)) | RMode (m : norm_mode).
Definition rop_run (r : rdf) (o : rop) : option rdf :=
  match o with
  | RCompute reset f => Some (rdf_compute r reset f)
  | RRead ev => rdf_read r ev
  | RMode m => Some (rdf_set_mode r m)
  end.
Definition rdf_run (r : rdf) (h : list rop) : option rdf := ofold rop_run h r.
