(** Model of freud/data.py: UnitCell.generate_system, over exact reals.  The Gaussian noise is any displacement of every point;
    the box given to the constructor has been through Box.from_box. *)
From Verif Require Export PBufferModel BoxPyModel.
Open Scope R_scope.

(* data.py:107-111  a number or a sequence; a sequence that is not of length three cannot be unpacked (ValueError) *)
Inductive replicas := RepScalar (x : R) | RepList (l : list R).
Definition uc_unpack (b : box) (r : replicas) : option (R * R * R) :=
  match r with
  | RepScalar x => Some (x, x, if b_2d b then 1 else x)
  | RepList [x; y; z] => Some (x, y, z)
  | RepList _ => None
  end.
(* data.py:113  int(n) == n and n > 0 *)
Definition uc_valid (x : R) : bool := Reqb (IZR (Ztrunc x)) x && Rltb 0 x.
(* data.py:113-119 *)
Definition uc_replicas (b : box) (r : replicas) : option (Z * Z * Z) :=
  match uc_unpack b r with
  | None => None
  | Some (x, y, z) =>
      if negb (uc_valid x && uc_valid y && uc_valid z) then None
      else if b_2d b && negb (Reqb z 1) then None
      else Some (Ztrunc x, Ztrunc y, Ztrunc z)
  end.
(* data.py:121-135  box and positions before scaling the latter; None: ValueError *)
Definition uc_replicate (b : box) (basis : list vec3) (n : Z * Z * Z) (scale : R) : option (box * list vec3) :=
  let '(nx, ny, nz) := n in
  let abs := map (make_absolute b) basis in
  if (1 <? nx)%Z || (1 <? ny)%Z || (1 <? nz)%Z then
    match pb_compute b abs (V3 (IZR (nx - 1)) (IZR (ny - 1)) (IZR (nz - 1))) true true with
    | None => None
    | Some (b', l) =>
        match box_from_cpp b' with
        | None => None
        | Some b' => option_map (fun bx => (bx, map fst l)) (py_mul b' scale)
        end
    end
  else option_map (fun bx => (bx, abs)) (py_mul b scale).
(* data.py:138-139  the product with the parities is taken component by component *)
Definition uc_shift (b : box) (n : Z * Z * Z) : vec3 :=
  let '(nx, ny, nz) := n in vmul (V3 (IZR ((nx + 1) mod 2)) (IZR ((ny + 1) mod 2)) (IZR ((nz + 1) mod 2))) (make_absolute b (V3 1 1 1)).
(* data.py:106-151; [noise] is None when sigma_noise is 0 *)
Definition uc_generate (b : box) (basis : list vec3) (r : replicas) (scale : R) (noise : option (nat -> vec3)) : option (box * list vec3) :=
  match uc_replicas b r with
  | None => None
  | Some n =>
      match uc_replicate b basis n scale with
      | None => None
      | Some (bx, pos) =>
          let pos := map (fun p => wrap bx (vscale scale (vadd p (uc_shift b n)))) pos in
          let pos := match noise with None => pos | Some d => map (fun i => vadd (nth i pos v0) (d i)) (seq 0 (length pos)) end in
          Some (bx, map (wrap bx) pos)
      end
  end.
