(** Model in single precision of freud/locality/LinkCell.cc: cells, cell list and ball query.
    The shell iterator, the numbering of cells and the linked lists are integer code and are those of LinkCellModel.
    Simplified: cell counts and cell numbers are unbounded integers (no overflow of the product of the cell counts); the automatic
    cell width (cbrtf of the volume per ten particles) is any given width; LINK_CELL_TERMINATOR is [None]; m_searched_cells is a list.
    The conversion of a float outside the range of unsigned int is undefined in C++: [conv] is what the compiled program does. *)
From Coq Require Import ZArith.
From Flocq Require Import Core BinarySingleNaN.
From Verif Require Export LinkCellModel FaabbModel.
Open Scope Z_scope.

(** What converting an integral float value to unsigned int gives.  The C++ standard: undefined outside the range. *)
Definition cpp_conv (z : Z) : option Z := if (0 <=? z) && (z <? 2 ^ 32) then Some z else None.
(** gcc and clang on x86-64: cvttss2si into a 64-bit register, the low half is kept. *)
Definition x86_conv (z : Z) : option Z := if (- 2 ^ 63 <=? z) && (z <? 2 ^ 63) then Some (z mod 2 ^ 32) else Some 0.

(** std::floor as an integer; [None] for infinities and NaN. *)
Definition ffloor (x : f32) : option Z :=
  match x with
  | B754_zero _ => Some 0
  | B754_finite s m e _ =>
      let n := if s then Z.neg m else Z.pos m in
      Some (if 0 <=? e then n * 2 ^ e else n / 2 ^ (- e))
  | _ => None
  end.
(** Truncation towards zero. *)
Definition ftruncate (x : f32) : option Z :=
  match x with
  | B754_zero _ => Some 0
  | B754_finite s m e _ =>
      let n := if 0 <=? e then Z.pos m * 2 ^ e else Z.pos m / 2 ^ (- e) in Some (if s then - n else n)
  | _ => None
  end.
Definition obind {A B} (o : option A) (f : A -> option B) : option B := match o with Some a => f a | None => None end.

Section Conversion.
Variable conv : Z -> option Z.
(* LinkCell.cc:278-314  computeDimensions *)
Definition fdim_axis (L cw : f32) : option Z := option_map atleast1 (obind (ftruncate (fdiv L cw)) conv).
Definition fdimensions (b : fbox) (cw : f32) : option (Z * Z * Z) :=
  let L := fplanes b in
  match fdim_axis (fvx L) cw, fdim_axis (fvy L) cw, (if f2d b then Some 1 else fdim_axis (fvz L) cw) with
  | Some x, Some y, Some z => Some (x, y, z)
  | _, _, _ => None
  end.
(* LinkCell.cc:356-367  getCellCoord *)
Definition fcell_axis (alpha : f32) (n : Z) : option Z :=
  option_map (fun c => Z.rem c n) (obind (ffloor (fmul alpha (lit n 0))) conv).
Definition fcell_coord (b : fbox) (dim : Z * Z * Z) (p : fvec) : option (Z * Z * Z) :=
  let '(dx, dy, dz) := dim in let a := ffractional b p in
  match fcell_axis (fvx a) dx, fcell_axis (fvy a) dy, fcell_axis (fvz a) dz with
  | Some x, Some y, Some z => Some (x, y, z)
  | _, _, _ => None
  end.
(* LinkCell.h:209-213  getCell *)
Definition fget_cell (b : fbox) (dim : Z * Z * Z) (p : fvec) : option Z := option_map (coord_to_index dim) (fcell_coord b dim p).
(* LinkCell.cc:316-336  computeCellList *)
Definition flink_one (b : fbox) (dim : Z * Z * Z) (points : list fvec) (l : option cell_list) (i : nat) : option cell_list :=
  match l with
  | None => None
  | Some l =>
      match fget_cell b dim (nth i points fv0) with
      | None => None
      | Some c =>
          let head := (length points + Z.to_nat c)%nat in
          match nth_error l head with
          | None => None
          | Some h => match wr l i h with None => None | Some l => wr l head (Some i) end
          end
      end
  end.
Definition fcell_list (b : fbox) (dim : Z * Z * Z) (points : list fvec) : option cell_list :=
  let n := length points in
  fold_left (flink_one b dim points) (rev (seq 0 n)) (Some (repeat None (n + Z.to_nat (num_cells dim)))).
Record flinkcell := FLC { fl_box : fbox; fl_points : list fvec; fl_width : f32; fl_dim : Z * Z * Z; fl_list : cell_list }.
(* NeighborQuery.h:93-113  checks of the constructor *)
Definition fnq_ok (b : fbox) (points : list fvec) : bool :=
  negb (Nat.eqb (length points) 0) && (negb (f2d b) || forallb (fun p => negb (Bltb (lit 8796093 (-43)) (Babs (fvz p)))) points).
(* LinkCell.cc:222-260  constructor, [cw] being the (given or automatic) cell width.  None: an exception or undefined behaviour. *)
Definition flc_make (b : fbox) (points : list fvec) (cw : f32) : option flinkcell :=
  if negb (fnq_ok b points) then None else
  match fdimensions b cw with
  | None => None
  | Some (dx, dy, dz) =>
      let p := fplanes b in let w2 := fmul cw (lit 2 0) in
      if Bltb (fvx p) w2 || Bltb (fvy p) w2 || (negb (f2d b) && Bltb (fvz p) w2) then None else
      let dim := (dx, dy, if f2d b then 1 else dz) in
      if num_cells dim <? 1 then None else option_map (FLC b points cw dim) (fcell_list b dim points)
  end.

(** The ball iterator as a transition system. *)
Inductive fevent (S : Type) := FOut (x : fbond) (s : S) | FMove (s : S) | FDone | FFault.
Arguments FOut {S}. Arguments FMove {S}. Arguments FDone {S}. Arguments FFault {S}.
Inductive fdrained {S} (step : S -> fevent S) : S -> list fbond -> Prop :=
| fdr_done s : step s = FDone -> fdrained step s []
| fdr_move s s' l : step s = FMove s' -> fdrained step s' l -> fdrained step s l
| fdr_out s x s' l : step s = FOut x s' -> fdrained step s' l -> fdrained step s (x :: l).
(* LinkCell.h:322-333 *)
Definition fextra_width (lc : flinkcell) (r_max : f32) : Z := if Beqb r_max (fl_width lc) then 0 else 1.
(* LinkCell.cc:496-573  LinkCellQueryBallIterator::next *)
Definition fl_step (lc : flinkcell) (pc : Z * Z * Z) (q : fvec) (qi : nat) (r_max r_min : f32) (excl : bool) (s : lb_state) : fevent lb_state :=
  match lb_cur s with
  | Some c =>
      match nth_error (fl_list lc) c with
      | None => FFault
      | Some None => FMove (LB None (lb_shell s) (lb_seen s))
      | Some (Some j) =>
          let s' := LB (Some j) (lb_shell s) (lb_seen s) in
          if excl && Nat.eqb qi j then FMove s'
          else
            let r_ij := fwrap (fl_box lc) (fvsub (nth j (fl_points lc) fv0) q) in
            let r_sq := fnorm2 r_ij in
            if Bltb r_sq (fmul r_max r_max) && Bleb (fmul r_min r_min) r_sq
            then FOut (FBond qi j (Bsqrt mode_NE r_sq) r_ij) s' else FMove s'
      end
  | None =>
      let sh := sh_next (lb_shell s) in
      if Bltb r_max (fmul (lit (sh_range sh - fextra_width lc r_max) 0) (fl_width lc)) then FDone
      else
        let idx := cell_index (fl_dim lc) (add3 pc (sh_pos sh)) in
        if existsb (Z.eqb idx) (lb_seen s) then FMove (LB None sh (lb_seen s))
        else FMove (LB (Some (length (fl_points lc) + Z.to_nat idx)%nat) sh (idx :: lb_seen s))
  end.
Definition fl_start (lc : flinkcell) (pc : Z * Z * Z) : lb_state :=
  let sh := sh_reset 0 (f2d (fl_box lc)) in
  LB (Some (length (fl_points lc) + Z.to_nat (coord_to_index (fl_dim lc) pc))%nat) sh
     [cell_index (fl_dim lc) (add3 pc (sh_pos sh))].
(* NeighborQuery.h:318-333, LinkCell.cc:479-494: ball query for one point; [None] for an exception. *)
Definition flc_ball (lc : flinkcell) (q : fvec) (qi : nat) (r_max r_min : f32) (excl : bool) (res : option (list fbond)) : Prop :=
  if fpoint_args_ok r_max r_min then
    exists pc l, fcell_coord (fl_box lc) (fl_dim lc) q = Some pc /\ res = Some l /\
      fdrained (fl_step lc pc q qi r_max r_min excl) (fl_start lc pc) l
  else res = None.
End Conversion.
Arguments FOut {S}. Arguments FMove {S}. Arguments FDone {S}. Arguments FFault {S}.
