(** Model of the Python layer freud/box.py: constructors and conversions, and of Box::centerOfMass. *)
From Verif Require Export BoxModel.

(* box.py:58-76  Box.__init__; [None] models ValueError.  Warnings are not modelled. *)
Definition py_box (Lx Ly Lz xy xz yz : R) (is2D : option bool) : option box :=
  let two := match is2D with Some d => d | None => Reqb Lz 0 end in
  if two then
    if Reqb Lx 0 || Reqb Ly 0 then None else Some (mk_box Lx Ly Lz xy xz yz true)
  else
    if Reqb Lx 0 || Reqb Ly 0 || Reqb Lz 0 then None else Some (mk_box Lx Ly Lz xy xz yz false).

(* box.py:171-181 *)
Definition dimensions (b : box) : nat := if b_2d b then 2 else 3.

(* box.py:156-170  Box.__eq__ *)
Definition py_eq (a b : box) : Prop :=
  b_L a = b_L b /\ b_xy a = b_xy b /\ b_xz a = b_xz b /\ b_yz a = b_yz b /\ b_2d a = b_2d b /\
  b_px a = b_px b /\ b_py a = b_py b /\ b_pz a = b_pz b.

(* box.py:628-648  to_matrix, as the triple of its columns *)
Definition to_matrix (b : box) : vec3 * vec3 * vec3 :=
  let L := b_L b in
  (V3 (vx L) 0 0, V3 (b_xy b * vy L) (vy L) 0, V3 (b_xz b * vz L) (b_yz b * vz L) (vz L)).

(* box.py:845-883  from_matrix *)
Definition from_matrix (m : vec3 * vec3 * vec3) (dims : option nat) : option box :=
  let '(c0, c1, c2) := m in
  let Lx := sqrt (dot c0 c0) in
  let a2x := dot c0 c1 / Lx in
  let Ly := sqrt (dot c1 c1 - a2x * a2x) in
  let xy := a2x / Ly in
  let c0xc1 := cross c0 c1 in
  let mag := sqrt (dot c0xc1 c0xc1) in
  let Lz := dot c2 c0xc1 / mag in
  let a3x := dot c0 c2 / Lx in
  let xz := if Reqb Lz 0 then 0 else a3x / Lz in
  let yz := if Reqb Lz 0 then 0 else (dot c1 c2 - a2x * a3x) / (Ly * Lz) in
  let d := match dims with Some d => d | None => if Reqb Lz 0 then 2%nat else 3%nat end in
  py_box Lx Ly Lz xy xz yz (Some (Nat.eqb d 2)).

(* box.py:750-843  from_box applied to an object with attributes Lx..yz, dimensions (a freud Box) *)
Definition from_box (b : box) (dims : option nat) : option box :=
  let L := b_L b in
  let go d := py_box (vx L) (vy L) (vz L) (b_xy b) (b_xz b) (b_yz b) (Some (Nat.eqb d 2)) in
  match dims with
  | None => go (dimensions b)
  | Some d => if Nat.eqb d (dimensions b) then go d else None
  end.

(* box.py:700-712  __mul__ *)
Definition py_mul (b : box) (scale : R) : option box :=
  let L := b_L b in
  if Rltb 0 scale then
    py_box (vx L * scale) (vy L * scale) (vz L * scale) (b_xy b) (b_xz b) (b_yz b) (Some (b_2d b))
  else None.

(* box.py:668-687  to_box_lengths_and_angles *)
Definition to_lengths_and_angles (b : box) : R * R * R * R * R * R :=
  let xy := b_xy b in let xz := b_xz b in let yz := b_yz b in let L := b_L b in
  let alpha := acos ((xy * xz + yz) / (sqrt (1 + xy ^ 2) * sqrt (1 + xz ^ 2 + yz ^ 2))) in
  let beta := acos (xz / sqrt (1 + xz ^ 2 + yz ^ 2)) in
  let gamma := acos (xy / sqrt (1 + xy ^ 2)) in
  (vx L, norm (V3 (vy L * xy) (vy L) 0), norm (V3 (vz L * xz) (vz L * yz) (vz L)), alpha, beta, gamma).

(* box.py:920-978  from_box_lengths_and_angles *)
Definition from_lengths_and_angles (L1 L2 L3 alpha beta gamma : R) (dims : option nat) : option box :=
  let ok a := Rltb 0 a && Rltb a PI in
  if negb (ok alpha) || negb (ok beta) || negb (ok gamma) then None else
  let c1 := V3 L1 0 0 in
  let c2 := V3 (L2 * cos gamma) (L2 * sin gamma) 0 in
  let a3x := cos beta in
  let a3y := (cos alpha - cos beta * cos gamma) / sin gamma in
  let under := 1 - a3x ^ 2 - a3y ^ 2 in
  if Rltb under 0 then None else
  let a3z := sqrt under in
  let c3 := V3 (L3 * a3x) (L3 * a3y) (L3 * a3z) in
  let d := match dims with Some d => d | None => if Reqb L3 0 then 2%nat else 3%nat end in
  from_matrix (c1, c2, c3) (Some d).

(* box.py:981-995  BoxFromCPP *)
Definition box_from_cpp (b : box) : option box :=
  let L := b_L b in
  match py_box (vx L) (vy L) (vz L) (b_xy b) (b_xz b) (b_yz b) (Some (b_2d b)) with
  | Some r => Some (set_periodic r (b_px b) (b_py b) (b_pz b))
  | None => None
  end.

(** C [atan2] = argument of the complex number x + i y (std::arg). *)
Definition atan2 (y x : R) : R :=
  if Rltb 0 x then atan (y / x)
  else if Rltb x 0 then (if Rleb 0 y then atan (y / x) + PI else atan (y / x) - PI)
  else if Rltb 0 y then PI / 2 else if Rltb y 0 then - (PI / 2) else 0.

(* Box.h:373-395  centerOfMass.  The phases of the three coordinates are complex numbers
   (cos, sin); the mass-weighted mean is divided by the total mass.  TWO_PI is the exact 2 pi. *)
Definition csum (f : vec3 -> R) (l : list (vec3 * R)) : R :=
  fold_right (fun vm acc => f (fst vm) * snd vm + acc) 0 l.
Definition total_mass (l : list (vec3 * R)) : R := fold_right (fun vm acc => snd vm + acc) 0 l.

Definition mean_phase (coord : vec3 -> R) (b : box) (l : list (vec3 * R)) : R :=
  let c := csum (fun v => cos (2 * PI * coord (make_fractional b v))) l / total_mass l in
  let s := csum (fun v => sin (2 * PI * coord (make_fractional b v))) l / total_mass l in
  atan2 s c.

Definition center_of_mass (b : box) (l : list (vec3 * R)) : vec3 :=
  wrap b (make_absolute b (V3 (mean_phase vx b l / (2 * PI)) (mean_phase vy b l / (2 * PI))
                              (mean_phase vz b l / (2 * PI)))).

(* Box.h:401-410  center *)
Definition center (b : box) (l : list (vec3 * R)) : list vec3 :=
  map (fun vm => wrap b (vsub (fst vm) (center_of_mass b l))) l.
