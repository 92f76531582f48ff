(** Specification of the pair correlation histograms behind the PMFTs. *)
From Verif Require Export PmftModel.
From Coq Require Import Reals ZArith List.
Import ListNotations.
Local Open Scope R_scope.

(** Objects made with positive extents and a number of bins that fits the counters. *)
Inductive made : pkind -> pmft -> Prop :=
| made_r12 r_max n1 n2 n3 p : 0 < r_max -> pmftr12_make r_max n1 n2 n3 = Some p -> (n1 * n2 * n3 < 4294967295)%Z -> made R12 p
| made_xy x_max y_max n1 n2 p : 0 < x_max -> 0 < y_max -> pmftxy_make x_max y_max n1 n2 = Some p -> (n1 * n2 < 4294967295)%Z -> made XY p
| made_xyt x_max y_max n1 n2 n3 p : 0 < x_max -> 0 < y_max -> pmftxyt_make x_max y_max n1 n2 n3 = Some p -> (n1 * n2 * n3 < 4294967295)%Z -> made XYT p
| made_xyz x_max y_max z_max n1 n2 n3 p : 0 < x_max -> 0 < y_max -> 0 < z_max -> pmftxyz_make x_max y_max z_max n1 n2 n3 = Some p ->
    (n1 * n2 * n3 < 4294967295)%Z -> made XYZ p.

(** * Which calls count *)
(** The calls of compute since (and including) the last one with reset. *)
Fixpoint calls (h : list pop) (acc : list pin) : list pin :=
  match h with
  | [] => acc
  | PCompute true f :: h => calls h [f]
  | PCompute false f :: h => calls h (acc ++ [f])
  | PRead _ :: h => calls h acc
  end.
(** Acceptable as far as the shapes of the arguments go. *)
Definition shaped (k : pkind) (f : pin) : bool := pf_ok f && pm_shapes k f.
(** The number of equivalent orientations is set by the first such call. *)
Definition fixed (k : pkind) (fs : list pin) : option nat := option_map (fun f => length (pf_eq f)) (hd_error (filter (shaped k) fs)).
Definition counted (k : pkind) (fs : list pin) (f : pin) : bool :=
  shaped k f && Bool.eqb (pf_2d f) (match k with XYZ => false | _ => true end) &&
  match k with XYZ => match fixed k fs with Some n => (length (pf_eq f) =? n)%nat | None => false end | _ => true end.
(** The frames whose bonds are in the histogram after history h. *)
Definition frames (k : pkind) (h : list pop) : list pin := let fs := calls h [] in filter (counted k fs) fs.

Definition bonds_ok (f : pin) : Prop :=
  (forall i b, (i < pf_n f)%nat -> In b (pf_bonds f i) -> (bp b < pd_np (pf_data f))%nat /\ (bq b < pd_nqp (pf_data f))%nat) /\
  (pf_qo f = None -> (pd_nqp (pf_data f) <= pd_np (pf_data f))%nat).
Definition pop_ok (size : nat) (o : pop) : Prop :=
  match o with PCompute _ f => execution 0 (pf_n f) (pf_ev f) /\ bonds_ok f | PRead ev => execution 0 size ev end.

(** * Coordinates *)
(** [a] is an angle of the plane vector (x, y). *)
Definition angle_of (x y a : R) : Prop := x = sqrt (x * x + y * y) * cos a /\ y = sqrt (x * x + y * y) * sin a.
(** [t] in [0, 2 pi): the orientation [o] seen from the direction (x, y). *)
Definition relative (o x y t : R) : Prop := 0 <= t < 2 * PI /\ angle_of x y (o - t).
(** (u, w) are the coordinates of (x, y) in the frame turned by [q]. *)
Definition frame2 (q x y u w : R) : Prop := x = cos q * u - sin q * w /\ y = sin q * u + cos q * w.
Definition query_orientation (f : pin) (b : bond) : R := nth (bq b) (match pf_qo f with Some q => q | None => pf_o f end) 0.
(** The points a bond contributes. *)
Definition coordinates (k : pkind) (f : pin) (b : bond) (pts : list (list R)) : Prop :=
  let x := vx (bv b) in let y := vy (bv b) in
  let o := nth (bp b) (pf_o f) 0 in let q := query_orientation f b in
  match k with
  | R12 => exists t1 t2, pts = [[bd b; t1; t2]] /\ relative o x y t1 /\ relative q (- x) (- y) t2
  | XY => exists u w, pts = [[u; w]] /\ frame2 q x y u w
  | XYT => exists u w t, pts = [[u; w; t]] /\ frame2 q x y u w /\ relative o (- x) (- y) t
  | XYZ => Forall2 (fun e p => exists w, rotate (nth (bq b) (pf_qq f) qid) w = bv b /\ p = [vx (rotate e w); vy (rotate e w); vz (rotate e w)]) (pf_eq f) pts
  end.

(** * Normalisation *)
Definition width (a : axis) : R := (ax_max a - ax_min a) / IZR (ax_n a).
(** Measure of a bin: lengths in space, angular ranges of a second particle as a fraction of the full turn. *)
Definition measure (k : pkind) (axes : list axis) (idx : list Z) : R :=
  match k, axes, idx with
  | R12, [a; t1; t2], i :: _ => (interval_lo a (i + 1) * interval_lo a (i + 1) - interval_lo a i * interval_lo a i) / 2 * width t1 * (width t2 / (2 * PI))
  | XY, [a; b], _ => width a * width b
  | XYT, [a; b; t], _ => width a * width b * (width t / (2 * PI))
  | XYZ, [a; b; c], _ => width a * width b * width c
  | _, _, _ => 0
  end.
Definition multiplicity (k : pkind) (f : pin) : nat := match k with XYZ => length (pf_eq f) | _ => 1%nat end.
(** Points falling into a bin, over several frames. *)
Definition points_in (k : pkind) (axes : list axis) (idx : list Z) (fs : list pin) : nat :=
  length (filter (in_cellb axes idx) (flat_map (fun f => flat_map (fun i => flat_map (fun b => match pm_sample k f b with Some l => l | None => [] end) (pf_bonds f i)) (range 0 (pf_n f))) fs)).
Definition data_pos (k : pkind) (f : pin) : Prop := 0 < pd_vol (pf_data f) /\ (0 < pd_np (pf_data f))%nat /\ (0 < pd_nqp (pf_data f))%nat /\ (0 < multiplicity k f)%nat.
