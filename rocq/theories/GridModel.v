(** Model of freud/density/SphereVoxelization.cc and freud/density/GaussianDensity.cc over exact reals. *)
From Verif Require Export BoxModel MArrayModel HistModel.
From Coq Require Import Reals ZArith List.
Import ListNotations.
Local Open Scope R_scope.

(** One direction of the grid: box length, number of bins, periodicity, and whether it is the z direction of a 2D box. *)
Record vdir := VDir { vd_L : R; vd_w : Z; vd_per : bool; vd_flat : bool }.
(* SphereVoxelization.cc:72-74, GaussianDensity.cc:79-81 *)
Definition vd_g (d : vdir) : R := if vd_flat d then 0 else vd_L d / IZR (vd_w d).
(* SphereVoxelization.cc:77-79, GaussianDensity.cc:84-86 *)
Definition vd_cut (r : R) (d : vdir) : Z := if vd_flat d then 0%Z else Ztrunc (r / vd_g d).
(* SphereVoxelization.cc:88-91, GaussianDensity.cc:102-109 (in 2D GaussianDensity first converts 0/0 to int and then overwrites it) *)
Definition vd_bin (d : vdir) (p : R) : Z := if vd_flat d then 0%Z else Ztrunc ((p + vd_L d / 2) / vd_g d).
Definition zrange (a b : Z) : list Z := map (fun i => (a + Z.of_nat i)%Z) (seq 0 (Z.to_nat (b - a + 1))).
(* SphereVoxelization.cc:95-100 (and 104-109, 113-118): loop and rejection of bins outside in aperiodic directions *)
Definition vd_span (r : R) (d : vdir) (p : R) : list Z :=
  filter (fun k => vd_per d || ((0 <=? k)%Z && (k <? vd_w d)%Z)) (zrange (vd_bin d p - vd_cut r d) (vd_bin d p + vd_cut r d)).
(* SphereVoxelization.cc:101-102, 110-111, 119-120 *)
Definition vd_delta (d : vdir) (p : R) (k : Z) : R := vd_g d * IZR k + vd_g d / 2 - p - vd_L d / 2.
(* SphereVoxelization.cc:132-134: int + unsigned int is computed modulo 2^32 *)
Definition vd_index (d : vdir) (k : Z) : Z := (((k + vd_w d) mod 2 ^ 32) mod vd_w d)%Z.

Record vgrid := VGrid { vg_x : vdir; vg_y : vdir; vg_z : vdir }.
Definition width := (Z * Z * Z)%type.
(* SphereVoxelization.cc:57-60 *)
Definition eff_width (b : box) (w : width) : width := let '(x, y, z) := w in if b_2d b then (x, y, 1%Z) else w.
Definition grid_of (b : box) (w : width) : vgrid :=
  let '(x, y, z) := eff_width b w in
  VGrid (VDir (vx (b_L b)) x (b_px b) false) (VDir (vy (b_L b)) y (b_py b) false) (VDir (vz (b_L b)) z (b_pz b) (b_2d b)).
Definition shape_of (w : width) : list Z := let '(x, y, z) := w in [x; y; z].
Definition vox_window (r : R) (g : vgrid) (p : vec3) : list (Z * Z * Z) :=
  flat_map (fun k => flat_map (fun j => map (fun i => (i, j, k)) (vd_span r (vg_x g) (vx p))) (vd_span r (vg_y g) (vy p))) (vd_span r (vg_z g) (vz p)).
(* SphereVoxelization.cc:122-125, GaussianDensity.cc:139-142 *)
Definition vox_rsq (b : box) (g : vgrid) (p : vec3) (t : Z * Z * Z) : R :=
  let '(i, j, k) := t in
  let delta := wrap b (V3 (vd_delta (vg_x g) (vx p) i) (vd_delta (vg_y g) (vy p) j) (vd_delta (vg_z g) (vz p) k)) in dot delta delta.
Definition vox_index (g : vgrid) (t : Z * Z * Z) : list Z :=
  let '(i, j, k) := t in [vd_index (vg_x g) i; vd_index (vg_y g) j; vd_index (vg_z g) k].
(** The cells of the window of [p] closer than r_max, with their storage index and squared distance, in program order. *)
Definition vox_hits (b : box) (r : R) (g : vgrid) (p : vec3) : list (list Z * R) :=
  map (fun t => (vox_index g t, vox_rsq b g p t)) (filter (fun t => Rltb (vox_rsq b g p t) (r * r)) (vox_window r g p)).

Inductive vresult (S : Type) := VDone (s : S) | VRaised | VUndefined.
Arguments VDone {S}. Arguments VRaised {S}. Arguments VUndefined {S}.
Definition width_pos (w : width) : bool := let '(x, y, z) := w in (0 <? x)%Z && (0 <? y)%Z && (0 <? z)%Z.

(** *** SphereVoxelization *)
Record sv := SV { sv_width : width; sv_r : R; sv_dim : option bool; sv_array : option (marray Z) }.
(* SphereVoxelization.cc:21-28 *)
Definition sv_make (w : width) (r : R) : option sv := if Rleb r 0 then None else Some (SV w r None None).
(* SphereVoxelization.cc:136-138 *)
Definition sv_write (o : option (marray Z)) (h : list Z * R) : option (marray Z) :=
  bind o (fun a => ma_set a (get_index_static (ma_shape a) (fst h)) 1%Z).
Definition same_dim (o : option bool) (two_d : bool) : bool := match o with None => true | Some d => Bool.eqb d two_d end.
(* SphereVoxelization.cc:43-143.  [ws] is the order in which the writes of all points ([sv_writes]) take effect.  VUndefined: remainder by a zero
   width, or ManagedArray raising inside the parallel loop. *)
Definition sv_compute (s : sv) (b : box) (ws : list (list Z * R)) : vresult sv :=
  if negb (same_dim (sv_dim s) (b_2d b)) then VRaised else
  let w := eff_width b (sv_width s) in
  if negb (width_pos w) then VUndefined else
  match fold_left sv_write ws (Some (ma_make 0%Z (shape_of w))) with
  | Some a => VDone (SV w (sv_r s) (Some (b_2d b)) (Some a))
  | None => VUndefined
  end.
Definition sv_writes (s : sv) (b : box) (points : list vec3) : list (list Z * R) :=
  flat_map (vox_hits b (sv_r s) (grid_of b (sv_width s))) points.

(** *** GaussianDensity *)
Record gd := GD { gd_width : width; gd_r : R; gd_sigma : R; gd_dim : option bool; gd_array : option (marray R) }.
(* GaussianDensity.cc:23-31 *)
Definition gd_make (w : width) (r sigma : R) : option gd := if Rleb r 0 then None else Some (GD w r sigma None None).
(* GaussianDensity.cc:88-91, 147-148 *)
Definition gd_gaussian (sigma : R) (two_d : bool) (value rsq : R) : R :=
  let base := 1 / sqrt (2 * PI * (sigma * sigma)) in
  value * base ^ (if two_d then 2 else 3) * exp (- rsq / (2 * (sigma * sigma))).
(* GaussianDensity.cc:155-157: one addition to the executing thread's array *)
Definition gd_add (o : option (marray R)) (h : list Z * R) : option (marray R) :=
  bind o (fun a => let k := get_index_static (ma_shape a) (fst h) in bind (ma_get a k) (fun x => ma_set a k (x + snd h))).
Definition gd_adds (s : gd) (b : box) (p : vec3) (value : R) : list (list Z * R) :=
  map (fun h => (fst h, gd_gaussian (gd_sigma s) (b_2d b) value (snd h))) (vox_hits b (gd_r s) (grid_of b (gd_width s)) p).
Fixpoint all_some {A} (ls : locals (option A)) : option (list A) :=
  match ls with [] => Some [] | (_, None) :: _ => None | (_, Some a) :: ls => bind (all_some ls) (fun l => Some (a :: l)) end.
(* GaussianDensity.cc:46-166.  [values] is None for a null pointer (all values 1); [ev] executes the loop over points, [ev2] the
   reduction. *)
Definition gd_compute (s : gd) (b : box) (points : list vec3) (values : option (list R)) (ev ev2 : list (nat * nat)) : vresult gd :=
  if negb (same_dim (gd_dim s) (b_2d b)) then VRaised else
  let w := eff_width b (gd_width s) in
  if negb (width_pos w) then VUndefined else
  let body i o := fold_left gd_add (gd_adds s b (nth i points v0) (match values with Some l => nth i l 0 | None => 1 end)) o in
  match bind (all_some (run_local (Some (ma_make 0 (shape_of w))) body ev [])) (fun ls => ts_reduce_into 0 Rplus ls ev2 (ma_make 0 (shape_of w))) with
  | Some a => VDone (GD w (gd_r s) (gd_sigma s) (Some (b_2d b)) (Some a))
  | None => VUndefined
  end.
(* density.py GaussianDensity.compute: values must have one entry per point *)
Definition gd_py_compute (s : gd) (b : box) (points : list vec3) (values : option (list R)) (ev ev2 : list (nat * nat)) : vresult gd :=
  match values with
  | Some l => if (length l =? length points)%nat then gd_compute s b points values ev ev2 else VRaised
  | None => gd_compute s b points values ev ev2
  end.
