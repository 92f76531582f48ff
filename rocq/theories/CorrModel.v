(** Model of freud.density.CorrelationFunction: freud/density/CorrelationFunction.cc and the class in freud/density.py. *)
From Verif Require Export NListModel HistSpec MatchEnvModel.
From Coq Require Import Reals ZArith List.
Import ListNotations.
Local Open Scope R_scope.

(** std::complex<double> *)
Definition cplx : Type := (R * R)%type.
Definition c0 : cplx := (0, 0).
Definition cadd (x y : cplx) : cplx := (fst x + fst y, snd x + snd y).
Definition cmul (x y : cplx) : cplx := (fst x * fst y - snd x * snd y, fst x * snd y + snd x * fst y).
Definition cconj (x : cplx) : cplx := (fst x, - snd x).
Definition cscale (k : R) (x : cplx) : cplx := (k * fst x, k * snd x).

Record cf := Cf {
  cf_bins : Z;
  cf_n : bhc U32 unit;       (* m_histogram, m_local_histograms, m_reduce *)
  cf_c : bhc cplx unit;      (* m_correlation_function, m_local_correlation_function (same flag) *)
  cf_out : list cplx;        (* contents of m_correlation_function after normalisation *)
  cf_complex : bool }.       (* density.py is_complex *)
(* CorrelationFunction.cc:26-46 *)
Definition cf_make (bins : Z) (r_max : R) : option cf :=
  if (bins =? 0)%Z then None else if Rle_bool r_max 0 then None
  else let a := Axis bins 0 r_max in Some (Cf bins (bhc_make (u32 0) [a]) (bhc_make c0 [a]) (repeat c0 (Z.to_nat bins)) false).

(** One call of compute: the bonds delivered by each iteration, the execution, the values and, if given, the query values; the numbers
    of points and query points. *)
Record cf_in := CfIn { ci_m : nat; ci_bonds : nat -> list bond; ci_exec : list (nat * nat); ci_np : nat; ci_nq : nat;
  ci_values : list cplx; ci_qvalues : option (list cplx) }.
Definition ci_qv (f : cf_in) : list cplx := match ci_qvalues f with Some q => q | None => ci_values f end.
(* CorrelationFunction.cc:70-73, 91-93; None: read outside the arrays *)
Definition cf_product (f : cf_in) (b : bond) : option cplx :=
  match nth_error (ci_values f) (bp b), nth_error (ci_qv f) (bq b) with
  | Some v, Some q => Some (cmul (cconj v) q)
  | _, _ => None
  end.
Definition ci_every (f : cf_in) : list bond := flat_map (ci_bonds f) (range 0 (ci_m f)).
Definition is_some {A} (o : option A) : bool := match o with Some _ => true | None => false end.
(* numpy.iscomplex *)
Definition np_iscomplex (l : list cplx) : bool := existsb (fun z => negb (Req_bool (snd z) 0)) l.
Definition cf_frame_n (f : cf_in) : frame U32 unit :=
  Frame (ci_m f) (fun i => map (fun b => ([bd b], u32 1)) (ci_bonds f i)) (ci_exec f) tt.
Definition cf_frame_c (f : cf_in) : frame cplx unit :=
  Frame (ci_m f) (fun i => map (fun b => ([bd b], match cf_product f b with Some z => z | None => c0 end)) (ci_bonds f i)) (ci_exec f) tt.
Inductive cf_result := CfDone (s : cf) | CfRaised | CfUndefined.
(* density.py CorrelationFunction.compute, CorrelationFunction.cc:62-67, 80-95 *)
Definition cf_compute (s : cf) (reset : bool) (f : cf_in) : cf_result :=
  if negb (length (ci_values f) =? ci_np f)%nat then CfRaised
  else if match ci_qvalues f with Some q => negb (length q =? ci_nq f)%nat | None => false end then CfRaised
  else if forallb (fun b => is_some (cf_product f b)) (ci_every f) then
    CfDone (Cf (cf_bins s) (bhc_compute (u32 0) u32_add (cf_n s) reset (cf_frame_n f)) (bhc_compute c0 cadd (cf_c s) reset (cf_frame_c f))
      (if reset then repeat c0 (Z.to_nat (cf_bins s)) else cf_out s)
      ((if reset then false else cf_complex s) || np_iscomplex (ci_values f) || match ci_qvalues f with Some q => np_iscomplex q | None => false end))
  else CfUndefined.
(* CorrelationFunction.cc:50-60; [ev1], [ev2] execute the two reductions *)
Definition cf_reduce (s : cf) (ev1 ev2 : list (nat * nat)) : option cf :=
  match bhc_read (u32 0) u32_add (cf_n s) ev1, bhc_read c0 cadd (cf_c s) ev2 with
  | Some n, Some c =>
      match omap (fun i => match ma_get (h_counts (bhc_hist n)) (Z.of_nat i), ma_get (h_counts (bhc_hist c)) (Z.of_nat i) with
                           | Some k, Some z => Some (if (u32_val k =? 0)%Z then z else cscale (/ IZR (u32_val k)) z)
                           | _, _ => None
                           end) (seq 0 (Z.to_nat (cf_bins s))) with
      | Some out => Some (Cf (cf_bins s) n c out (cf_complex s))
      | None => None
      end
  | _, _ => None
  end.
(* BondHistogramCompute.h:61-75 *)
Definition cf_read (s : cf) (ev1 ev2 : list (nat * nat)) : option cf :=
  if bhc_reduce (cf_n s) then cf_reduce s ev1 ev2 else Some s.
(** What the property correlation returns: complex numbers, or their real parts. *)
Definition cf_correlation (s : cf) : list cplx + list R :=
  if cf_complex s then inl (cf_out s) else inr (map fst (cf_out s)).

Inductive cf_op := CfCompute (reset : bool) (f : cf_in) | CfRead (ev1 ev2 : list (nat * nat)).
Definition cf_step (s : cf) (o : cf_op) : option cf :=
  match o with
  | CfCompute r f => match cf_compute s r f with CfDone s' => Some s' | _ => None end
  | CfRead e1 e2 => cf_read s e1 e2
  end.
Definition cf_run (s : cf) (h : list cf_op) : option cf := ofold cf_step h s.
