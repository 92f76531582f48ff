(** Model of freud/box/Box.h (class Box) and of freud/box.py (Python wrapper), over exact reals.
    Simplification: C++ [float] is modelled by [R]; no rounding, NaN or infinities. *)
From Verif Require Export Vec.

(* Box.h:596-606  private members *)
Record box := MkBox {
  b_lo : vec3; b_hi : vec3; b_L : vec3; b_Linv : vec3;
  b_xy : R; b_xz : R; b_yz : R;
  b_px : bool; b_py : bool; b_pz : bool;
  b_2d : bool }.

(* Box.h:99-115  setL (m_2d is already assigned).  [lo = -hi], [hi = L / 2]. *)
Definition set_L (b : box) (Lx Ly Lz : R) : box :=
  let L := if b_2d b then V3 Lx Ly 0 else V3 Lx Ly Lz in
  let Linv := if b_2d b then V3 (1 / Lx) (1 / Ly) 0 else V3 (1 / Lx) (1 / Ly) (1 / Lz) in
  let hi := vscale (1 / 2) L in
  MkBox (vneg hi) hi L Linv (b_xy b) (b_xz b) (b_yz b) (b_px b) (b_py b) (b_pz b) (b_2d b).

(* Box.h:74-83  triclinic constructor *)
Definition mk_box (Lx Ly Lz xy xz yz : R) (is2d : bool) : box :=
  set_L (MkBox v0 v0 v0 v0 xy xz yz true true true is2d) Lx Ly Lz.

(* Box.h:118-123  set2D: zeroes L.z and Linv.z whatever the argument, leaves lo/hi alone *)
Definition set_2d (b : box) (is2d : bool) : box :=
  let L := b_L b in let Li := b_Linv b in
  MkBox (b_lo b) (b_hi b) (V3 (vx L) (vy L) 0) (V3 (vx Li) (vy Li) 0)
        (b_xy b) (b_xz b) (b_yz b) (b_px b) (b_py b) (b_pz b) is2d.

(* Box.h:180-196 *)
Definition set_xy (b : box) (t : R) : box :=
  MkBox (b_lo b) (b_hi b) (b_L b) (b_Linv b) t (b_xz b) (b_yz b) (b_px b) (b_py b) (b_pz b) (b_2d b).
Definition set_xz (b : box) (t : R) : box :=
  MkBox (b_lo b) (b_hi b) (b_L b) (b_Linv b) (b_xy b) t (b_yz b) (b_px b) (b_py b) (b_pz b) (b_2d b).
Definition set_yz (b : box) (t : R) : box :=
  MkBox (b_lo b) (b_hi b) (b_L b) (b_Linv b) (b_xy b) (b_xz b) t (b_px b) (b_py b) (b_pz b) (b_2d b).

(* Box.h:520-545  setPeriodic *)
Definition set_periodic (b : box) (x y z : bool) : box :=
  MkBox (b_lo b) (b_hi b) (b_L b) (b_Linv b) (b_xy b) (b_xz b) (b_yz b) x y z (b_2d b).

(* Box.h:197-205  getVolume *)
Definition volume (b : box) : R :=
  if b_2d b then vx (b_L b) * vy (b_L b) else vx (b_L b) * vy (b_L b) * vz (b_L b).

(* Box.h:212-222  makeAbsolute *)
Definition make_absolute (b : box) (f : vec3) : vec3 :=
  let v := vadd (b_lo b) (vmul f (b_L b)) in
  let x := vx v + (b_xy b * vy v + b_xz b * vz v) in
  let y := vy v + b_yz b * vz v in
  V3 x y (if b_2d b then 0 else vz v).

(* Box.h:243-255  makeFractional.  In 2D the z component of [delta / m_L] is a float 0/0 or x/0 which is
   overwritten by 0; the model never evaluates it. *)
Definition make_fractional (b : box) (v : vec3) : vec3 :=
  let delta := vsub v (b_lo b) in
  let dx := vx delta - ((b_xz b - b_yz b * b_xy b) * vz v + b_xy b * vy v) in
  let dy := vy delta - b_yz b * vz v in
  V3 (dx / vx (b_L b)) (dy / vy (b_L b)) (if b_2d b then 0 else vz delta / vz (b_L b)).

(* Box.h:283-285  cast to int truncates toward zero *)
Definition image_round (f : R) : Z :=
  if Rleb 0 f then Ztrunc (f + 1 / 2) else Ztrunc (f - 1 / 2).

(* Box.h:276-286  getImage *)
Definition get_image (b : box) (v : vec3) : Z * Z * Z :=
  let f := vsub (make_fractional b v) (V3 (1/2) (1/2) (1/2)) in
  let fz := if b_2d b then 0 else vz f in
  (image_round (vx f), image_round (vy f), image_round fz).

(* utils.h:27-30  modulusPositive *)
Definition modulus_positive (a b : R) : R := fmod (fmod a b + b) b.

(* Box.h:307-329  wrap *)
Definition wrap (b : box) (v : vec3) : vec3 :=
  if negb (b_px b) && negb (b_py b) && negb (b_pz b) then v
  else
    let f := make_fractional b v in
    let fx := if b_px b then modulus_positive (vx f) 1 else vx f in
    let fy := if b_py b then modulus_positive (vy f) 1 else vy f in
    let fz := if b_pz b then modulus_positive (vz f) 1 else vz f in
    make_absolute b (V3 fx fy fz).

(* Box.h:503-518  getLatticeVector; [None] models std::out_of_range *)
Definition lattice_vector (b : box) (i : nat) : option vec3 :=
  let L := b_L b in
  match i with
  | 0%nat => Some (V3 (vx L) 0 0)
  | 1%nat => Some (V3 (vy L * b_xy b) (vy L) 0)
  | 2%nat => if b_2d b then None else Some (V3 (vz L * b_xz b) (vz L * b_yz b) (vz L))
  | _ => None
  end.

(* Box.h:352-365  unwrap for one vector *)
Definition unwrap (b : box) (v : vec3) (img : Z * Z * Z) : vec3 :=
  let '(i, j, k) := img in
  let L := b_L b in
  let r := vadd (vadd v (vscale (IZR i) (V3 (vx L) 0 0)))
                (vscale (IZR j) (V3 (vy L * b_xy b) (vy L) 0)) in
  if b_2d b then r
  else vadd r (vscale (IZR k) (V3 (vz L * b_xz b) (vz L * b_yz b) (vz L))).

(* Box.h:416-420  computeDistance *)
Definition compute_distance (b : box) (ri rj : vec3) : R := norm (wrap b (vsub rj ri)).

(* Box.h:430-439 computeDistances and export-Box.cc computeDistances (length check) *)
Definition compute_distances (b : box) (qs ps : list vec3) : option (list R) :=
  if Nat.eqb (length qs) (length ps)
  then Some (map (fun qp => compute_distance b (fst qp) (snd qp)) (combine qs ps)) else None.

(* Box.h:449-462 computeAllDistances: row-major (query point, point) *)
Definition compute_all_distances (b : box) (qs ps : list vec3) : list (list R) :=
  map (fun q => map (fun p => compute_distance b q p) ps) qs.

(* Box.h:469-480  contains *)
Definition contains (b : box) (v : vec3) : bool :=
  let '(i, j, k) := get_image b v in Z.eqb i 0 && Z.eqb j 0 && Z.eqb k 0.

(* Box.h:489-497 (getNearestPlaneDistance) *)
Definition plane_distance (b : box) : vec3 :=
  let L := b_L b in let xy := b_xy b in let xz := b_xz b in let yz := b_yz b in
  V3 (vx L / sqrt (1 + xy * xy + (xy * yz - xz) * (xy * yz - xz)))
     (vy L / sqrt (1 + yz * yz))
     (vz L).

(* Box.h:85-92  operator== : does not compare m_2d *)
Definition box_eqb (a b : box) : bool :=
  Reqb (vx (b_L a)) (vx (b_L b)) && Reqb (vy (b_L a)) (vy (b_L b)) && Reqb (vz (b_L a)) (vz (b_L b))
  && Reqb (b_xy a) (b_xy b) && Reqb (b_xz a) (b_xz b) && Reqb (b_yz a) (b_yz b)
  && Bool.eqb (b_px a) (b_px b) && Bool.eqb (b_py a) (b_py b) && Bool.eqb (b_pz a) (b_pz b).
