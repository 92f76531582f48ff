(** Model of freud/pmft/PMFT.h, PMFTR12.cc, PMFTXY.cc, PMFTXYT.cc, PMFTXYZ.cc and of the classes in freud/pmft.py.
    Not modelled: the conversion of quaternions to angles with the external package rowan (pmft.py _quat_to_z_angle), plots. *)
From Verif Require Export CountHist SphModel MatchEnvModel.
From Coq Require Import Reals ZArith List.
Import ListNotations.
Local Open Scope R_scope.

Inductive pkind := R12 | XY | XYT | XYZ.
(* What reduce uses of the last frame, BondHistogramCompute.h:115-126 *)
Record pdata := PD { pd_vol : R; pd_np : nat; pd_nqp : nat }.
Record pmft := Pmft {
  pm_kind : pkind;
  pm_axes : list axis;
  pm_jf : nat -> R;                 (* inverse of the volume element of a bin, by linear index *)
  pm_state : bhc U32 pdata;
  pm_equiv : option nat;            (* PMFTXYZ.h m_num_equiv_orientations; None is 0xffffffff *)
  pm_pcf : list R;                  (* m_pcf_array *)
  pm_called : bool }.               (* util.py _called_compute *)
Definition pm_size (axes : list axis) : nat := Z.to_nat (prodz (map ax_n axes)).
Definition pm_new (k : pkind) (axes : list axis) (jf : nat -> R) : pmft :=
  Pmft k axes jf (bhc_make (u32 0) axes) None (repeat 0 (pm_size axes)) false.
(* constants::TWO_PI *)
Definition TWO_PI : R := 2 * PI.

(* PMFTXY.cc:24-60; [None] models std::invalid_argument.  The bin numbers are unsigned. *)
Definition pmftxy_make (x_max y_max : R) (n_x n_y : Z) : option pmft :=
  if (n_x <? 1)%Z then None else if (n_y <? 1)%Z then None else if Rltb x_max 0 then None else if Rltb y_max 0 then None else
  let dx := 2 * x_max / IZR n_x in let dy := 2 * y_max / IZR n_y in
  let jacobian := dx * dy in
  Some (pm_new XY [Axis n_x (- x_max) x_max; Axis n_y (- y_max) y_max] (fun _ => 1 / jacobian)).
(* PMFTXYT.cc:28-73, 75-79 *)
Definition pmftxyt_make (x_max y_max : R) (n_x n_y n_t : Z) : option pmft :=
  if (n_x <? 1)%Z then None else if (n_y <? 1)%Z then None else if (n_t <? 1)%Z then None else
  if Rltb x_max 0 then None else if Rltb y_max 0 then None else
  let dx := 2 * x_max / IZR n_x in let dy := 2 * y_max / IZR n_y in let dt := 1 / IZR n_t in
  let jacobian := dx * dy * dt in
  Some (pm_new XYT [Axis n_x (- x_max) x_max; Axis n_y (- y_max) y_max; Axis n_t 0 TWO_PI] (fun _ => 1 / jacobian)).
(* PMFTXYZ.cc:24-82 *)
Definition pmftxyz_make (x_max y_max z_max : R) (n_x n_y n_z : Z) : option pmft :=
  if (n_x <? 1)%Z then None else if (n_y <? 1)%Z then None else if (n_z <? 1)%Z then None else
  if Rltb x_max 0 then None else if Rltb y_max 0 then None else if Rltb z_max 0 then None else
  let dx := 2 * x_max / IZR n_x in let dy := 2 * y_max / IZR n_y in let dz := 2 * z_max / IZR n_z in
  let jacobian := dx * dy * dz in
  Some (pm_new XYZ [Axis n_x (- x_max) x_max; Axis n_y (- y_max) y_max; Axis n_z (- z_max) z_max] (fun _ => 1 / jacobian)).
(* PMFTR12.cc:53-83, 88-91: the inverse Jacobians, an array filled for every (i, j, k) and read by linear index *)
Definition pmftr12_jacobians (r_max : R) (n_r n_t1 n_t2 : Z) : list R :=
  let bins_r := bin_centers (Axis n_r 0 r_max) in
  let dr := r_max / IZR n_r in let dt1 := TWO_PI / IZR n_t1 in let dt2 := 1 / IZR n_t2 in
  let product := dr * dt1 * dt2 in
  flat_map (fun i => let r := nth i bins_r 0 in flat_map (fun _ => map (fun _ => 1 / (r * product)) (seq 0 (Z.to_nat n_t2))) (seq 0 (Z.to_nat n_t1)))
           (seq 0 (Z.to_nat n_r)).
(* PMFTR12.cc:27-87 *)
Definition pmftr12_make (r_max : R) (n_r n_t1 n_t2 : Z) : option pmft :=
  if (n_r <? 1)%Z then None else if (n_t1 <? 1)%Z then None else if (n_t2 <? 1)%Z then None else if Rltb r_max 0 then None else
  let arr := pmftr12_jacobians r_max n_r n_t1 n_t2 in
  Some (pm_new R12 [Axis n_r 0 r_max; Axis n_t1 0 TWO_PI; Axis n_t2 0 TWO_PI] (fun i => nth i arr 0)).

(** One call of compute: what _preprocess_arguments makes of system, query_points and neighbors ([pf_ok]: it does not raise; bonds as
    delivered by the loop over neighbours), and the orientations as passed. *)
Record pin := PF {
  pf_ok : bool; pf_2d : bool; pf_data : pdata;
  pf_o : list R;                    (* orientations (R12, XYT), angles *)
  pf_qo : option (list R);          (* query_orientations (R12, XY, XYT), angles *)
  pf_qq : list quat;                (* query_orientations (XYZ) *)
  pf_eq : list quat;                (* equiv_orientations (XYZ); [1,0,0,0] alone if omitted *)
  pf_n : nat; pf_bonds : nat -> list bond; pf_ev : list (nat * nat) }.
(* pmft.py compute: shapes are checked by _convert_array before anything is passed to C++ *)
Definition pm_shapes (k : pkind) (f : pin) : bool :=
  match k with
  | R12 | XYT => (length (pf_o f) =? pd_np (pf_data f))%nat && match pf_qo f with None => true | Some q => (length q =? pd_nqp (pf_data f))%nat end
  | XY => match pf_qo f with None => false | Some q => (length q =? pd_nqp (pf_data f))%nat end
  | XYZ => (length (pf_qq f) =? pd_nqp (pf_data f))%nat
  end.
(* pmft.py "if query_orientations is None: query_orientations = orientations" *)
Definition pm_query_orientations (f : pin) : list R := match pf_qo f with None => pf_o f | Some q => q end.
(* VectorMath.h:912-921, 934-937 *)
Definition rot2 (theta : R) (v : vec3) : R * R := (cos theta * vx v + - sin theta * vy v, sin theta * vx v + cos theta * vy v).
(* The lambdas in PMFTR12.cc:100-113, PMFTXY.cc:77-87, PMFTXYT.cc:88-103, PMFTXYZ.cc:126-144: the points added for one bond;
   [None]: an orientation is read out of bounds. *)
Definition pm_sample (k : pkind) (f : pin) (b : bond) : option (list (list R)) :=
  let d := bv b in
  match k with
  | R12 =>
      match nth_error (pf_o f) (bp b), nth_error (pm_query_orientations f) (bq b) with
      | Some o, Some q =>
          let d_theta1 := atan2 (vy d) (vx d) in
          let d_theta2 := atan2 (- vy d) (- vx d) in
          let t1 := modulus_positive (o - d_theta1) TWO_PI in
          let t2 := modulus_positive (q - d_theta2) TWO_PI in
          Some [[bd b; t1; t2]]
      | _, _ => None
      end
  | XY =>
      match nth_error (pm_query_orientations f) (bq b) with
      | Some q => let w := rot2 (- q) d in Some [[fst w; snd w]]
      | None => None
      end
  | XYT =>
      match nth_error (pf_o f) (bp b), nth_error (pm_query_orientations f) (bq b) with
      | Some o, Some q =>
          let w := rot2 (- q) d in
          let d_theta := atan2 (- vy d) (- vx d) in
          let t := modulus_positive (o - d_theta) TWO_PI in
          Some [[fst w; snd w; t]]
      | _, _ => None
      end
  | XYZ =>
      match nth_error (pf_qq f) (bq b) with
      | Some q => Some (map (fun e => let v := rotate (qconj q) d in let v := rotate e v in [vx v; vy v; vz v]) (pf_eq f))
      | None => None
      end
  end.
Definition pm_points (k : pkind) (f : pin) (i : nat) : list (list R) :=
  flat_map (fun b => match pm_sample k f b with Some l => l | None => [] end) (pf_bonds f i).
Definition pm_defined (k : pkind) (f : pin) : bool :=
  forallb (fun i => forallb (fun b => match pm_sample k f b with Some _ => true | None => false end) (pf_bonds f i)) (range 0 (pf_n f)).
(* Box.h:571-585  enforce2D, enforce3D *)
Definition pm_dimension (k : pkind) (f : pin) : bool := match k with XYZ => negb (pf_2d f) | _ => pf_2d f end.
Definition pm_cin (k : pkind) (f : pin) : cin pdata := CI (pf_n f) (pm_points k f) (pf_ev f) (pf_data f).

(* PMFT.h:43-50, PMFTXYZ.cc:101-105 *)
Definition pm_reset (p : pmft) : pmft :=
  Pmft (pm_kind p) (pm_axes p) (pm_jf p) (bhc_reset (u32 0) (pm_state p)) None (repeat 0 (pm_size (pm_axes p))) (pm_called p).
Definition pm_set_equiv (p : pmft) (e : option nat) : pmft :=
  Pmft (pm_kind p) (pm_axes p) (pm_jf p) (pm_state p) e (pm_pcf p) (pm_called p).
(* PMFTXYZ.cc:113-125: done before the box is checked; the other classes have no such counter *)
Definition pm_fix_equiv (p : pmft) (f : pin) : option pmft :=
  match pm_kind p with
  | XYZ => match pm_equiv p with
           | None => Some (pm_set_equiv p (Some (length (pf_eq f))))
           | Some m => if (m =? length (pf_eq f))%nat then Some p else None
           end
  | _ => Some p
  end.
(** Outcome of a call: results, an exception (the object keeps the given state), or an out-of-bounds read. *)
Inductive pout := PDone (p : pmft) | PRaised (p : pmft) | PUndefined.
(* pmft.py compute and the accumulate methods *)
Definition pm_compute (p : pmft) (reset : bool) (f : pin) : pout :=
  let p := if reset then pm_reset p else p in
  if negb (pf_ok f && pm_shapes (pm_kind p) f) then PRaised p else
  match pm_fix_equiv p f with
  | None => PRaised p
  | Some p =>
      if negb (pm_dimension (pm_kind p) f) then PRaised p else
      if negb (pm_defined (pm_kind p) f) then PUndefined else
      PDone (Pmft (pm_kind p) (pm_axes p) (pm_jf p) (bhc_accumulate (u32 0) u32_add (pm_state p) (cframe (pm_cin (pm_kind p) f)))
                  (pm_equiv p) (pm_pcf p) true)
  end.
(* PMFT.h:74-84, PMFTXYZ.cc:86-99.  With no frame since the last reset the code divides by zero and stores not-a-number;
   the model then stores meaningless numbers. *)
Definition pm_counts (s : bhc U32 pdata) (n : nat) : option (list Z) :=
  omap (fun i => option_map u32_val (ma_get (h_counts (bhc_hist s)) (Z.of_nat i))) (seq 0 n).
Definition pm_reduce (p : pmft) (s : bhc U32 pdata) : option pmft :=
  match bhc_last s, pm_counts s (pm_size (pm_axes p)) with
  | Some d, Some cs =>
      let inv_num_dens := pd_vol d / INR (pd_nqp d) in
      let equiv := match pm_equiv p with Some m => INR m | None => IZR 4294967295 end in
      let norm_factor := match pm_kind p with
                         | XYZ => 1 / (INR (bhc_frames s) * INR (pd_np d) * equiv)
                         | _ => 1 / (INR (bhc_frames s) * INR (pd_np d))
                         end in
      let prefactor := inv_num_dens * norm_factor in
      Some (Pmft (pm_kind p) (pm_axes p) (pm_jf p) s (pm_equiv p)
             (map (fun i => IZR (nth i cs 0%Z) * prefactor * pm_jf p i) (seq 0 (pm_size (pm_axes p)))) (pm_called p))
  | _, _ => None
  end.
(* pmft.py pmft, bin_counts; BondHistogramCompute.h:61-75.  Before the first successful compute the property raises. *)
Definition pm_read (p : pmft) (ev : list (nat * nat)) : option pmft :=
  if negb (pm_called p) then Some p
  else if bhc_reduce (pm_state p) then match bhc_read (u32 0) u32_add (pm_state p) ev with Some s => pm_reduce p s | None => None end
  else Some p.
(* pmft.py -np.log(pcf): numpy gives +inf at zero *)
Inductive ext := Fin (r : R) | PInf.
Definition pm_value (x : R) : ext := if Rltb 0 x then Fin (- ln x) else PInf.
Definition pm_pmft (p : pmft) : list ext := map pm_value (pm_pcf p).

Inductive pop := PCompute (reset : bool) (f : pin) | PRead (ev : list (nat * nat)).
(* [None]: an out-of-bounds read *)
Definition pop_run (p : pmft) (o : pop) : option pmft :=
  match o with
  | PCompute reset f => match pm_compute p reset f with PDone p => Some p | PRaised p => Some p | PUndefined => None end
  | PRead ev => pm_read p ev
  end.
Definition pm_run (p : pmft) (h : list pop) : option pmft := ofold pop_run h p.

(* pmft.py PMFTXYZ.compute with shiftvec: the query points are moved, but a NeighborList passed by the user carries its own vectors.
   [query] stands for the neighbour query with the given query points. *)
Definition pm_shifted_bonds (query : list vec3 -> list bond) (nl : option (list bond)) (shift : vec3) (query_points : list vec3) : list bond :=
  match nl with
  | Some bonds => bonds
  | None => query (map (fun q => vsub q shift) query_points)
  end.
