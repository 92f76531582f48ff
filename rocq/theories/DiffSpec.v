(** Specification of diffraction patterns (C76), in terms of positions and wavevectors. *)
From Coq Require Export Permutation.
From Verif Require Export QuatSpec DiffModel.
Local Open Scope R_scope.

(** The sum over weighted positions in the plane that a wavevector (kx, ky) scatters: its squared modulus. *)
Definition scatter (l : list (R * (R * R))) (kx ky : R) : R :=
  let c := fold_right (fun t acc => fst t * cos (kx * fst (snd t) + ky * snd (snd t)) + acc) 0 l in
  let s := fold_right (fun t acc => fst t * sin (kx * fst (snd t) + ky * snd (snd t)) + acc) 0 l in c * c + s * s.
(** [g] is the corner of the pixel of width L / n, counted from - L / 2, that contains an image of x. *)
Definition snapped (n : nat) (L x g : R) : Prop :=
  exists k z : Z, (0 <= k < Z.of_nat n)%Z /\ g = L * IZR k / INR n - L / 2 /\ g <= x + L * IZR z < g + L / INR n.
(** Linear interpolation between integers: the weight of the value at distance x. *)
Definition tent (x : R) : R := Rmax 0 (1 - Rabs x).
(** The sum of f over the signed frequencies - n/2, ..., of a grid of n points. *)
Definition over (n : nat) (f : R -> R) : R := asum n (fun a => f (INR a - INR (n / 2))).
(** What convolution with a Gaussian of width sigma pixels does to the intensity at frequency (m0, m1). *)
Definition damping (n : nat) (sigma m0 m1 : R) : R := exp (- ((2 * PI * sigma / INR n) * (2 * PI * sigma / INR n)) * (m0 * m0 + m1 * m1)).
(** A cube of side L. *)
Definition cube_box (b : box) (L : R) : Prop := 0 < L /\ b_L b = V3 L L L /\ b_xy b = 0 /\ b_xz b = 0 /\ b_yz b = 0 /\ b_2d b = false.
(** The weights of the points, scaled to have mean one. *)
Definition scaled (a : dargs) (ws : list R) : Prop :=
  length ws = length (a_pts a) /\
  match a_weights a with
  | None => forall w, In w ws -> w = 1
  | Some w => fold_right Rplus 0 w <> 0 /\ exists c, c * fold_right Rplus 0 w = INR (length (a_pts a)) /\ ws = map (Rmult c) w
  end.
(** Arguments that the documentation allows: a cubic box, points, one weight per point with a sum, a zoom. *)
Definition fine_args (a : dargs) : Prop :=
  cubic (a_box a) = true /\ 0 < vx (b_L (a_box a)) /\ 0 < vy (b_L (a_box a)) /\
  a_pts a <> [] /\ a_zoom a <> 0 /\ unitq (view_of a) /\
  match a_weights a with None => True | Some w => length w = length (a_pts a) /\ fold_right Rplus 0 w <> 0 end.
(** The squared modulus of the sum of exp(i k . r) over points in space. *)
Definition strength (pts : list vec3) (k : vec3) : R :=
  let c := fold_right (fun p acc => cos (dot k p) + acc) 0 pts in
  let s := fold_right (fun p acc => sin (dot k p) + acc) 0 pts in c * c + s * s.
(** The frames that a program leaves in the average: those of the calls that returned since the last call with reset=True. *)
Definition kept (n out : nat) (os : list dop) : list (nat -> nat -> R) :=
  fold_left (fun l o =>
    match o with
    | Compute a => (if a_reset a then [] else l) ++ match frame n out a with Some f => [f] | None => [] end
    | _ => l
    end) os [].
(** The arguments of the last call that returned. *)
Definition last_done (n out : nat) (os : list dop) : option dargs :=
  fold_left (fun r o =>
    match o with
    | Compute a => match frame n out a with Some _ => Some a | None => r end
    | _ => r
    end) os None.
(** The same points with the same weights, listed in another order. *)
Definition reordered (a a' : dargs) : Prop :=
  match a_weights a, a_weights a' with
  | None, None => Permutation (a_pts a) (a_pts a')
  | Some w, Some w' => Permutation (combine (a_pts a) w) (combine (a_pts a') w')
  | _, _ => False
  end.
(** The view turns the axes of the cube into axes. *)
Definition axis_view (q : quat) : Prop := exists a b c d e f g h i : Z,
  rot_of_quat q = RM (V3 (IZR a) (IZR b) (IZR c)) (V3 (IZR d) (IZR e) (IZR f)) (V3 (IZR g) (IZR h) (IZR i)).
(** Two calls that differ in their points only. *)
Definition same_but_points (a a' : dargs) : Prop :=
  a_box a' = a_box a /\ view_of a' = view_of a /\ a_zoom a' = a_zoom a /\ a_width a' = a_width a /\ a_weights a' = a_weights a.
(** Two calls add the same frame. *)
Definition same_frame (n out : nat) (a a' : dargs) : Prop :=
  exists f f', frame n out a = Some f /\ frame n out a' = Some f' /\ forall i j, f' i j = f i j.
