(** Model of freud/diffraction.py:521-903 (DiffractionPattern) over exact reals.
    The numpy and scipy functions it calls are written out: np.histogram2d with equally spaced edges, np.fft.fft2 (the sum that defines
    it), scipy.ndimage.fourier_gaussian, np.fft.fftshift, np.fft.fftfreq, np.linalg.inv, scipy.ndimage.affine_transform with order=1 and
    mode="constant" (bilinear between the pixels, zero outside), rowan.rotate (the product q v q* ).
    An n x n array is a function of two indices; only indices below n matter.
    [None] stands for an exception.  Simplified: a call with weights that add up to zero, without points, or with zoom 0 (not-a-number
    results or ZeroDivisionError) is a call that raises; the box and the points are given directly (NeighborQuery.from_system).
    Not modelled: to_image, plot, _repr_png_, rounding. *)
From Verif Require Export QuatModel BoxPyModel.
Local Open Scope R_scope.

(** * One frame *)
(* box.py:543-556  cubic; np.allclose(a, b): |a - b| <= atol + rtol |b| *)
Definition close5 (a b : R) : bool := Rleb (Rabs (a - b)) (/ 100000 + / 100000 * Rabs b).
Definition cubic (b : box) : bool :=
  let L := b_L b in
  negb (b_2d b) && (close5 (vx L) (vy L) && close5 (vx L) (vz L) && close5 (vy L) (vx L) && close5 (vy L) (vz L) && close5 (vz L) (vx L) && close5 (vz L) (vy L))
  && (close5 0 (b_xy b) && close5 0 (b_yz b) && close5 0 (b_xz b)).
(* box.py:642-648  the rows of to_matrix *)
Definition matrix_rows (b : box) : rotm :=
  let '(c0, c1, c2) := to_matrix b in RM (V3 (vx c0) (vx c1) (vx c2)) (V3 (vy c0) (vy c1) (vy c2)) (V3 (vz c0) (vz c1) (vz c2)).
(* rowan.rotate *)
Definition rowan_rotate (q : quat) (v : vec3) : vec3 := qv (qmul (qmul q (qvec v)) (qconj q)).
(* np.linalg.inv of a 2 x 2 matrix *)
Definition inv2 (m : rotm2) : option rotm2 :=
  let d := m00 m * m11 m - m01 m * m10 m in
  if Reqb d 0 then None else Some (RM2 (m11 m / d) (- m01 m / d) (- m10 m / d) (m00 m / d)).
(* the entry of a vector, index modulo 3 (np.roll, % 3) *)
Definition ent (v : vec3) (i : nat) : R := match Nat.modulo i 3 with O => vx v | 1%nat => vy v | _ => vz v end.
(* diffraction.py:596-601: |z component| of cross(column i-1, column i+1) *)
Definition projection (B : rotm) (i : nat) : R := Rabs (ent (r0 B) (i + 2) * ent (r1 B) (i + 1) - ent (r1 B) (i + 2) * ent (r0 B) (i + 1)).
(* np.argmax of three numbers: the first largest *)
Definition argmax3 (f : nat -> R) : nat :=
  let i := if Rltb (f 0%nat) (f 1%nat) then 1%nat else 0%nat in if Rltb (f i) (f 2%nat) then 2%nat else i.
(* diffraction.py:577-614  _calc_proj *)
Definition view_matrix (q : quat) (b : box) : rotm :=
  let m := matrix_rows b in RM (rowan_rotate q (r0 m)) (rowan_rotate q (r1 m)) (rowan_rotate q (r2 m)).
Definition shear_of (B : rotm) : rotm2 :=
  let i := argmax3 (projection B) in RM2 (ent (r0 B) (i + 1)) (ent (r0 B) (i + 2)) (ent (r1 B) (i + 1)) (ent (r1 B) (i + 2)).
Definition calc_proj (q : quat) (b : box) : option rotm2 := inv2 (shear_of (view_matrix q b)).

(* diffraction.py:730-731, 739-740: xy @ inv_shear.T, += 0.5, %= 1 *)
Definition mod1 (x : R) : R := x - IZR (Zfloor x).
Definition place (q : quat) (inv : rotm2) (p : vec3) : R * R :=
  let r := rowan_rotate q p in let '(x, y) := r2apply inv (vx r) (vy r) in (mod1 (x + / 2), mod1 (y + / 2)).
(* diffraction.py:741-746  np.histogram2d with edges k / n; a number in [0, 1) lies in bin floor (n x) *)
Definition bin_of (n : nat) (x : R) : nat := Z.to_nat (Zfloor (x * INR n)).
Definition histogram (n : nat) (xys : list (R * R)) (ws : list R) (a b : nat) : R :=
  fold_right (fun t acc => (if Nat.eqb (bin_of n (fst (fst t))) a && Nat.eqb (bin_of n (snd (fst t))) b then snd t else 0) + acc) 0 (combine xys ws).
(* diffraction.py:733-735 *)
Definition total (ws : list R) : R := fold_right Rplus 0 ws.
Definition normalise (ws : list R) : list R := map (fun w => w * INR (length ws) / total ws) ws.
(* np.fft.fft2: real and imaginary part of entry (j0, j1) *)
Fixpoint asum (n : nat) (f : nat -> R) : R := match n with O => 0 | S k => asum k f + f k end.
Definition fft2 (n : nat) (im : nat -> nat -> R) (j0 j1 : nat) : R * R :=
  let arg a b := - 2 * PI * (INR a * INR j0 + INR b * INR j1) / INR n in
  (asum n (fun a => asum n (fun b => im a b * cos (arg a b))), asum n (fun a => asum n (fun b => im a b * sin (arg a b)))).
(* the signed frequency of index j: np.fft.fftfreq and scipy.ndimage.fourier_gaussian *)
Definition sfreq (n j : nat) : R := if Nat.ltb j ((n + 1) / 2) then INR j else INR j - INR n.
(* scipy.ndimage.fourier_gaussian: the factor of an entry *)
Definition gauss (n : nat) (sigma : R) (j0 j1 : nat) : R :=
  exp (- 2 * (PI * sigma / INR n) * (PI * sigma / INR n) * (sfreq n j0 * sfreq n j0)) *
  exp (- 2 * (PI * sigma / INR n) * (PI * sigma / INR n) * (sfreq n j1 * sfreq n j1)).
(* np.fft.fftshift: entry a of the result is entry (a - n // 2) mod n *)
Definition shifted (n a : nat) : nat := Nat.modulo (a + (n - n / 2)) n.
(* diffraction.py:748-756: squared modulus of the shifted, convolved transform *)
Definition intensity (n : nat) (sigma : R) (im : nat -> nat -> R) (a b : nat) : R :=
  let j0 := shifted n a in let j1 := shifted n b in
  let '(x, y) := fft2 n im j0 j1 in let g := gauss n sigma j0 j1 in (x * g) * (x * g) + (y * g) * (y * g).

(* np.linalg.inv of a 3 x 3 matrix *)
Definition inv3 (m : rotm) : option rotm :=
  let d := rdet m in
  if Reqb d 0 then None
  else let c1 := cross (r1 m) (r2 m) in let c2 := cross (r2 m) (r0 m) in let c3 := cross (r0 m) (r1 m) in
       Some (RM (V3 (vx c1 / d) (vx c2 / d) (vx c3 / d)) (V3 (vy c1 / d) (vy c2 / d) (vy c3 / d)) (V3 (vz c1 / d) (vz c2 / d) (vz c3 / d))).
(* scipy.ndimage.affine_transform, order 1, mode constant: the value of an n x n image at real coordinates *)
Definition bilinear (n : nat) (img : nat -> nat -> R) (x y : R) : R :=
  if Rleb 0 x && Rleb x (INR n - 1) && Rleb 0 y && Rleb y (INR n - 1) then
    let a := Z.to_nat (Zfloor x) in let b := Z.to_nat (Zfloor y) in
    let u := x - INR a in let v := y - INR b in
    (1 - u) * (1 - v) * img a b + (1 - u) * v * img a (S b) + u * (1 - v) * img (S a) b + u * v * img (S a) (S b)
  else 0.
(* np.max of the box matrix *)
Definition max_entry (b : box) : R :=
  let m := matrix_rows b in
  let mx v := Rmax (vx v) (Rmax (vy v) (vz v)) in Rmax (mx (r0 m)) (Rmax (mx (r1 m)) (mx (r2 m))).
(* diffraction.py:640-667  the matrices of _transform *)
Definition forward (n out : nat) (b : box) (inv : rotm2) (zoom : R) : rotm :=
  let roll := if Nat.eqb (n mod 2) 1 then INR n / 2 - / 2 else INR n / 2 in
  let roll_shift := if Nat.eqb (out mod 2) 1 then INR out / zoom / 2 - / 2 / zoom else INR out / zoom / 2 in
  let s := max_entry b in
  let shift_matrix := RM (V3 1 0 (- roll)) (V3 0 1 (- roll)) (V3 0 0 1) in
  let shear_matrix := RM (V3 (s * m10 inv) (s * m00 inv) roll_shift) (V3 (s * m11 inv) (s * m01 inv) roll_shift) (V3 0 0 1) in
  let zoom_matrix := RM (V3 zoom 0 0) (V3 0 zoom 0) (V3 0 0 1) in
  rmul (rmul zoom_matrix shear_matrix) shift_matrix.
(* diffraction.py:616-675  _transform *)
Definition transform (n out : nat) (img : nat -> nat -> R) (b : box) (inv : rotm2) (zoom : R) : option (nat -> nat -> R) :=
  match inv3 (forward n out b inv zoom) with
  | Some t => Some (fun i j => let p := rapply t (V3 (INR i) (INR j) 1) in bilinear n img (vx p) (vy p))
  | None => None
  end.
(** The arguments of compute. *)
Record dargs := DA { a_box : box; a_pts : list vec3; a_view : option quat; a_zoom : R; a_width : R; a_weights : option (list R); a_reset : bool }.
Definition view_of (a : dargs) : quat := match a_view a with Some q => q | None => qid end.
(* diffraction.py:716-764: the frame added by a call *)
Definition frame (n out : nat) (a : dargs) : option (nat -> nat -> R) :=
  let N := length (a_pts a) in
  if negb (cubic (a_box a)) then None
  else match calc_proj (view_of a) (a_box a) with
       | None => None
       | Some inv =>
           let ws := match a_weights a with Some w => normalise w | None => repeat 1 N end in
           if negb (Nat.eqb (length ws) N) || Nat.eqb N 0 || Reqb (a_zoom a) 0
              || match a_weights a with Some w => Reqb (total w) 0 | None => false end then None
           else let im := histogram n (map (place (view_of a) inv) (a_pts a)) ws in
                match transform n out (intensity n (a_width a / a_zoom a) im) (a_box a) inv (a_zoom a) with
                | Some f => Some (fun i j => f i j / INR N)
                | None => None
                end
       end.

(** * The object *)
Record dp := DPat {
  d_grid : nat; d_out : nat;
  d_sum : nat -> nat -> R; d_frames : nat; d_called : bool; d_n : nat;
  d_korig : nat -> R; d_kvorig : nat -> nat -> vec3;
  d_scale : R; d_view : quat;
  d_k : nat -> R; d_k_ok : bool; d_kv : nat -> nat -> vec3; d_kv_ok : bool }.
(* diffraction.py:562-575  __init__; what np.empty contains is arbitrary *)
Definition new_dp (grid : nat) (out : option nat) (junk : nat -> R) (junkv : nat -> nat -> vec3) : dp :=
  DPat grid (match out with Some o => o | None => grid end) (fun _ _ => 0) 0 false 0 junk junkv 0 qid junk false junkv false.
(* np.fft.fftshift(np.fft.fftfreq(n)) *)
Definition k_grid1 (n i : nat) : R := sfreq n (shifted n i) / INR n.
(* diffraction.py:677-791  compute: the object afterwards, and whether the call returned *)
Definition compute (d : dp) (a : dargs) : dp * bool :=
  let d1 := if a_reset a
            then DPat (d_grid d) (d_out d) (fun _ _ => 0) 0 (d_called d) (d_n d) (d_korig d) (d_kvorig d) (d_scale d) (d_view d) (d_k d) (d_k_ok d) (d_kv d) (d_kv_ok d)
            else d in
  match frame (d_grid d) (d_out d) a with
  | None => (d1, false)
  | Some f =>
      let ko := if d_called d then d_korig d1 else k_grid1 (d_out d) in
      let kvo := if d_called d then d_kvorig d1 else fun i j => V3 (k_grid1 (d_out d) i) (k_grid1 (d_out d) j) 0 in
      (DPat (d_grid d) (d_out d) (fun i j => d_sum d1 i j + f i j) (S (d_frames d1)) true (length (a_pts a)) ko kvo
         (2 * PI * INR (d_out d) / (max_entry (a_box a) * a_zoom a)) (view_of a) (d_k d) false (d_kv d) false, true)
  end.
(** What reading a property gives: AttributeError, not-a-numbers (0 / 0), or values. *)
Inductive read (A : Type) := NoAttribute | NotANumber | Values (v : A).
Arguments NoAttribute {A}. Arguments NotANumber {A}. Arguments Values {A}.
(* diffraction.py:803-809 *)
Definition diffraction (d : dp) : read (nat -> nat -> R) :=
  if negb (d_called d) then NoAttribute
  else if Nat.eqb (d_frames d) 0 then NotANumber else Values (fun i j => d_sum d i j / INR (d_frames d)).
(* diffraction.py:811-814 *)
Definition n_points (d : dp) : read nat := if d_called d then Values (d_n d) else NoAttribute.
(* diffraction.py:816-822  k_values: the array is kept and handed out *)
Definition k_values (d : dp) : dp * read (nat -> R) :=
  if negb (d_called d) then (d, NoAttribute)
  else let k := if d_k_ok d then d_k d else fun i => d_korig d i * d_scale d in
       (DPat (d_grid d) (d_out d) (d_sum d) (d_frames d) (d_called d) (d_n d) (d_korig d) (d_kvorig d) (d_scale d) (d_view d) k true (d_kv d) (d_kv_ok d), Values k).
(* diffraction.py:824-834  k_vectors *)
Definition k_vectors (d : dp) : dp * read (nat -> nat -> vec3) :=
  if negb (d_called d) then (d, NoAttribute)
  else let k := if d_kv_ok d then d_kv d else fun i j => vscale (d_scale d) (rowan_rotate (d_view d) (d_kvorig d i j)) in
       (DPat (d_grid d) (d_out d) (d_sum d) (d_frames d) (d_called d) (d_n d) (d_korig d) (d_kvorig d) (d_scale d) (d_view d) (d_k d) (d_k_ok d) k true, Values k).
(** The caller assigns to the elements of the array last returned by k_values (np.asarray of an array is that array). *)
Definition assign_k (d : dp) (v : nat -> R) : dp :=
  DPat (d_grid d) (d_out d) (d_sum d) (d_frames d) (d_called d) (d_n d) (d_korig d) (d_kvorig d) (d_scale d) (d_view d) v (d_k_ok d) (d_kv d) (d_kv_ok d).
(** Programs without such assignments. *)
Inductive dop := Compute (a : dargs) | ReadK | ReadKV.
Definition dstep (d : dp) (o : dop) : dp :=
  match o with Compute a => fst (compute d a) | ReadK => fst (k_values d) | ReadKV => fst (k_vectors d) end.
Definition drun (d : dp) (os : list dop) : dp := fold_left dstep os d.
