(** Model of freud/locality/PeriodicBuffer.cc and of the argument handling of freud/locality.py:PeriodicBuffer, over exact reals.
    Simplification: in 2D the conversion to int of the z quotient (a division by zero, overwritten later) is not evaluated. *)
From Verif Require Export BoxModel.
Open Scope R_scope.

(* locality.py:1121-1128  a scalar or a sequence of three numbers; None: ValueError *)
Inductive buffer_arg := BufScalar (x : R) | BufList (l : list R).
Definition buffer_vec (a : buffer_arg) : option vec3 :=
  match a with BufScalar x => Some (V3 x x x) | BufList [x; y; z] => Some (V3 x y z) | BufList _ => None end.

(* integers from lo to hi, in order (the loop headers of PeriodicBuffer.cc:71-76) *)
Definition zrange (lo hi : Z) : list Z := map (fun i => (lo + Z.of_nat i)%Z) (seq 0 (Z.to_nat (hi - lo + 1))).

(* PeriodicBuffer.cc:45-63 *)
Definition pb_images (b : box) (buff : vec3) (use_images : bool) : Z * Z * Z :=
  let L := b_L b in
  let n := if use_images then (Zceil (vx buff), Zceil (vy buff), if b_2d b then 0%Z else Zceil (vz buff))
           else (Zceil (vx buff / vx L), Zceil (vy buff / vy L), if b_2d b then 0%Z else Zceil (vz buff / vz L)) in
  n.
(* PeriodicBuffer.cc:48-57; the z image count of the box is the one before it is set to zero in 2D (the constructor then ignores it) *)
Definition pb_box (b : box) (buff : vec3) (use_images : bool) : box :=
  let L := b_L b in
  if use_images then
    mk_box (IZR (1 + Zceil (vx buff)) * vx L) (IZR (1 + Zceil (vy buff)) * vy L) (IZR (1 + Zceil (vz buff)) * vz L) (b_xy b) (b_xz b) (b_yz b) (b_2d b)
  else mk_box (vx L + 2 * vx buff) (vy L + 2 * vy buff) (vz L + 2 * vz buff) (b_xy b) (b_xz b) (b_yz b) (b_2d b).
(* PeriodicBuffer.cc:84-91 *)
Definition lv (b : box) (i : nat) : vec3 := match lattice_vector b i with Some v => v | None => v0 end.
Definition pb_image (b : box) (p : vec3) (i j k : Z) : vec3 :=
  let v := vadd (vadd p (vscale (IZR i) (lv b 0))) (vscale (IZR j) (lv b 1)) in
  if b_2d b then v else vadd v (vscale (IZR k) (lv b 2)).
(* PeriodicBuffer.cc:78-118  body of the innermost loop *)
Definition pb_one (b b' : box) (use_images incl : bool) (p : vec3) (id : nat) (ijk : Z * Z * Z) : list (vec3 * nat) :=
  let '(i, j, k) := ijk in
  if negb incl && (Z.eqb i 0 && Z.eqb j 0 && Z.eqb k 0) then [] else
  let v := pb_image b p i j k in
  if use_images then [(wrap b' v, id)] else
  let f := make_fractional b' v in
  if Rleb 0 (vx f) && Rltb (vx f) 1 && (Rleb 0 (vy f) && Rltb (vy f) 1) && (b_2d b || (Rleb 0 (vz f) && Rltb (vz f) 1)) then [(v, id)] else [].
Definition pb_loop (use_images : bool) (n : Z * Z * Z) : list (Z * Z * Z) :=
  let '(nx, ny, nz) := n in let lo m := if use_images then 0%Z else (- m)%Z in
  flat_map (fun i => flat_map (fun j => map (fun k => (i, j, k)) (zrange (lo nz) nz)) (zrange (lo ny) ny)) (zrange (lo nx) nx).
(* PeriodicBuffer.cc:20-122  compute; the result is the buffer box and the list of (buffer point, buffer id).  None: std::invalid_argument *)
Definition pb_compute (b : box) (points : list vec3) (buff : vec3) (use_images incl : bool) : option (box * list (vec3 * nat)) :=
  if Rltb (vx buff) 0 || Rltb (vy buff) 0 || Rltb (vz buff) 0 then None else
  let b' := pb_box b buff use_images in
  Some (b', flat_map (fun id => flat_map (pb_one b b' use_images incl (nth id points v0) id) (pb_loop use_images (pb_images b buff use_images))) (seq 0 (length points))).
