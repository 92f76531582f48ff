(** Model in single precision of the binning of one axis (freud/util/Histogram.h), of modulusPositive (freud/util/utils.h)
    and of Box::wrap along one direction of a box without tilt (freud/box/Box.h).  Numbers are IEEE-754 binary32 with one
    NaN (Flocq), operations round to nearest even: plain SSE arithmetic, without fused operations or excess precision. *)
From Coq Require Import ZArith Bool List.
From Flocq Require Import Core BinarySingleNaN.
From Verif Require Import MArrayModel.
Import ListNotations.
Local Open Scope Z_scope.

#[global] Instance prec_gt_0_24 : Prec_gt_0 24. Proof. reflexivity. Qed.
#[global] Instance prec_lt_emax_24 : Prec_lt_emax 24 128. Proof. reflexivity. Qed.
Notation f32 := (binary_float 24 128).

Definition fadd (x y : f32) : f32 := Bplus mode_NE x y.
Definition fsub (x y : f32) : f32 := Bminus mode_NE x y.
Definition fmul (x y : f32) : f32 := Bmult mode_NE x y.
Definition fdiv (x y : f32) : f32 := Bdiv mode_NE x y.
Definition fopp (x : f32) : f32 := Bopp x.
(** [m * 2^e] rounded: literals and conversions from integers. *)
Definition lit (m e : Z) : f32 := binary_normalize 24 128 prec_gt_0_24 prec_lt_emax_24 mode_NE m e false.
Definition fone : f32 := lit 1 0.

(** std::fmod: the remainder of the quotient truncated towards zero, exact; NaN for an infinite or NaN dividend and for a
    zero or NaN divisor. *)
Definition ffmod (a b : f32) : f32 :=
  match a, b with
  | B754_nan, _ | _, B754_nan | B754_infinity _, _ | _, B754_zero _ => B754_nan
  | B754_zero _, _ | _, B754_infinity _ => a
  | B754_finite sa ma ea _, B754_finite _ mb eb _ =>
      let e := Z.min ea eb in
      let r := Z.modulo (Zpos ma * 2 ^ (ea - e)) (Zpos mb * 2 ^ (eb - e)) in
      binary_normalize 24 128 prec_gt_0_24 prec_lt_emax_24 mode_NE (if sa then - r else r) e sa
  end.

(* utils.h:29-32 *)
Definition fmodulus (a b : f32) : f32 := ffmod (fadd (ffmod a b) b) b.

(** _mm_cvttss_si32: truncation to a 32-bit integer; -2^31 for NaN, infinities and values that do not fit. *)
Definition cvtt (x : f32) : Z :=
  match x with
  | B754_zero _ => 0
  | B754_finite _ _ _ _ => let z := Btrunc x in if (- 2 ^ 31 <=? z) && (z <? 2 ^ 31) then z else - 2 ^ 31
  | _ => - 2 ^ 31
  end.

(* Histogram.h:107 *)
Definition OVERFLOW : Z := 4294967295.
(* Histogram.h:123-179  RegularAxis *)
Record faxis := FAxis { fx_n : Z; fx_min : f32; fx_max : f32 }.
(* Histogram.h:129-130 *)
Definition fwidth (a : faxis) : f32 := fdiv (fsub (fx_max a) (fx_min a)) (lit (fx_n a) 0).
Definition finverse (a : faxis) : f32 := fdiv fone (fwidth a).
(* Histogram.h:132-137 *)
Definition fedge (a : faxis) (i : Z) : f32 := fadd (fx_min a) (fmul (lit i 0) (fwidth a)).
(* Histogram.h:161 *)
Definition fval (a : faxis) (v : f32) : f32 := fmul (fsub v (fx_min a)) (finverse a).
(* Histogram.h:152-174  bin, with SSE2; the int is converted to size_t *)
Definition fbin (a : faxis) (v : f32) : Z :=
  if Bltb v (fx_min a) || Bleb (fx_max a) v then OVERFLOW
  else
    let b := cvtt (fval a v) mod 2 ^ 64 in
    if b =? fx_n a then b - 1 else b.

(* Histogram.h:327-351  bin: the bin along each axis, the sentinel as soon as one overflows, else the linear index *)
Fixpoint fbins (axes : list faxis) (vals : list f32) : option (list Z) :=
  match axes, vals with
  | a :: axes, v :: vals =>
      let b := fbin a v in
      if b =? OVERFLOW then None else match fbins axes vals with Some l => Some (b :: l) | None => None end
  | _, _ => Some []
  end.

(* Box.h:24  constexpr float TWO_PI = 2.0 * M_PI *)
Definition TWO_PI_F : f32 := lit 13176795 (-21).
(* PMFTXYT.cc:97-98, PMFTR12.cc:104-108, BondOrder.cc:142-143: an angle is brought into range and binned *)
Definition angle_bin (n : Z) (theta : f32) : Z := fbin (FAxis n (lit 0 0) TWO_PI_F) (fmodulus theta TWO_PI_F).

(** A box with its lengths, tilt factors, periodic flags and dimension. *)
Record fvec := FV { fvx : f32; fvy : f32; fvz : f32 }.
Record fbox := FBox { fL : fvec; fxy : f32; fxz : f32; fyz : f32; fpx : bool; fpy : bool; fpz : bool; f2d : bool }.
Definition fzero : f32 := B754_zero false.
(* Box.h:65-75, 100-115  constructor and setL: Lz is 0 in 2D; m_lo = -(m_L / 2) *)
Definition fmk_box (Lx Ly Lz xy xz yz : f32) (is2d : bool) : fbox :=
  FBox (FV Lx Ly (if is2d then fzero else Lz)) xy xz yz true true true is2d.
Definition flo (L : f32) : f32 := fopp (fdiv L (lit 2 0)).
(* Box.h:243-255  makeFractional *)
Definition ffractional (b : fbox) (v : fvec) : fvec :=
  let dx := fsub (fvx v) (flo (fvx (fL b))) in
  let dy := fsub (fvy v) (flo (fvy (fL b))) in
  let dz := fsub (fvz v) (flo (fvz (fL b))) in
  let dx := fsub dx (fadd (fmul (fsub (fxz b) (fmul (fyz b) (fxy b))) (fvz v)) (fmul (fxy b) (fvy v))) in
  let dy := fsub dy (fmul (fyz b) (fvz v)) in
  FV (fdiv dx (fvx (fL b))) (fdiv dy (fvy (fL b))) (if f2d b then fzero else fdiv dz (fvz (fL b))).
(* Box.h:212-222  makeAbsolute *)
Definition fabsolute (b : fbox) (f : fvec) : fvec :=
  let x := fadd (flo (fvx (fL b))) (fmul (fvx f) (fvx (fL b))) in
  let y := fadd (flo (fvy (fL b))) (fmul (fvy f) (fvy (fL b))) in
  let z := fadd (flo (fvz (fL b))) (fmul (fvz f) (fvz (fL b))) in
  FV (fadd x (fadd (fmul (fxy b) y) (fmul (fxz b) z))) (fadd y (fmul (fyz b) z)) (if f2d b then fzero else z).
(* Box.h:307-329  wrap *)
Definition fwrap (b : fbox) (v : fvec) : fvec :=
  if negb (fpx b) && negb (fpy b) && negb (fpz b) then v
  else
    let f := ffractional b v in
    fabsolute b (FV (if fpx b then fmodulus (fvx f) fone else fvx f) (if fpy b then fmodulus (fvy f) fone else fvy f)
                    (if fpz b then fmodulus (fvz f) fone else fvz f)).
