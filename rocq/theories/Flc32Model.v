(** LinkCell (FcellModel) with the integer types of the code: numbers of cells, cell numbers and places in the cell list are unsigned int,
    cell coordinates and shells are int.  An access beyond the end of the cell list raises an exception (ManagedArray.h:103-125).
    Overflow of int is undefined behaviour; here, like an exception, it ends the query without a result.
    Simplified: a step of the shell iterator in a shell of 2^30 or more overflows (the code does at the end of the first row of such a shell);
    INT_MIN % -1 gives 0. *)
From Coq Require Import ZArith.
From Flocq Require Import Core BinarySingleNaN.
From Verif Require Export FcellModel NList32Model Fcq32Model.
Open Scope Z_scope.

(* LinkCell.h:28 *)
Definition TERMINATOR : Z := 2 ^ 32 - 1.
(* LinkCell.cc:348-354: getIndex in size_t, the result becomes unsigned int *)
Definition coord_to_index32 (dim c : Z * Z * Z) : Z := u32 (coord_to_index dim c).
(* LinkCell.cc:262-276  getCellIndex *)
Definition cell_index32 (dim c : Z * Z * Z) : Z :=
  let '(dx, dy, dz) := dim in let '(x, y, z) := c in
  coord_to_index32 dim (u32 (cmod x (to_int32 dx)), u32 (cmod y (to_int32 dy)), u32 (cmod z (to_int32 dz))).
(* LinkCell.cc:252 *)
Definition num_cells32 (dim : Z * Z * Z) : Z := let '(dx, dy, dz) := dim in u32 (u32 (dx * dy) * dz).
Definition rd32 (l : list Z) (i : Z) : option Z := nth_error l (Z.to_nat i).
(* LinkCell.cc:318-327  the array, zeroed by ManagedArray, and the loop setting the heads of the cells *)
Definition heads32 (n nc : Z) : option (list Z) :=
  fold_left (fun o cell => obind o (fun l => wr l (Z.to_nat (u32 (n + Z.of_nat cell))) TERMINATOR)) (seq 0 (Z.to_nat nc))
            (Some (repeat 0 (Z.to_nat (u32 (n + nc))))).

Section Conversion.
Variable conv : Z -> option Z.
(* LinkCell.cc:329-335 *)
Definition flink_one32 (b : fbox) (dim : Z * Z * Z) (points : list fvec) (o : option (list Z)) (i : nat) : option (list Z) :=
  obind o (fun l =>
  obind (option_map (coord_to_index32 dim) (fcell_coord conv b dim (nth i points fv0))) (fun c =>
  let head := u32 (Z.of_nat (length points) + c) in
  obind (rd32 l head) (fun h => obind (wr l i h) (fun l => wr l (Z.to_nat head) (Z.of_nat i))))).
Definition fcell_list32 (b : fbox) (dim : Z * Z * Z) (points : list fvec) : option (list Z) :=
  fold_left (flink_one32 b dim points) (rev (seq 0 (length points))) (heads32 (Z.of_nat (length points)) (num_cells32 dim)).
Record flinkcell32 := FLC32 { fm_box : fbox; fm_points : list fvec; fm_width : f32; fm_dim : Z * Z * Z; fm_list : list Z }.
(* LinkCell.cc:222-260; fewer than 2^32 points *)
Definition flc_make32 (b : fbox) (points : list fvec) (cw : f32) : option flinkcell32 :=
  if negb (fnq_ok b points) then None else
  match fdimensions conv b cw with
  | None => None
  | Some (dx, dy, dz) =>
      let p := fplanes b in let w2 := fmul cw (lit 2 0) in
      if Bltb (fvx p) w2 || Bltb (fvy p) w2 || (negb (f2d b) && Bltb (fvz p) w2) then None else
      let dim := (dx, dy, if f2d b then 1 else dz) in
      if num_cells32 dim <? 1 then None else option_map (FLC32 b points cw dim) (fcell_list32 b dim points)
  end.
(** The state of the iterator; [lm_cur] is m_cell_iter.m_cur_idx, None between two cells. *)
Record lm_state := LM { lm_cur : option Z; lm_shell : shell; lm_seen : list Z }.
Definition i32_3 (c : Z * Z * Z) : option (Z * Z * Z) :=
  let '(x, y, z) := c in obind (i32 x) (fun x => obind (i32 y) (fun y => obind (i32 z) (fun z => Some (x, y, z)))).
Definition to_int32_3 (c : Z * Z * Z) : Z * Z * Z := let '(x, y, z) := c in (to_int32 x, to_int32 y, to_int32 z).
Definition sh_next32 (s : shell) : option shell := if sh_range s <? 2 ^ 30 then Some (sh_next s) else None.
Definition fextra_width32 (lc : flinkcell32) (r_max : f32) : Z := if Beqb r_max (fm_width lc) then 0 else 1.
(* LinkCell.cc:496-573 *)
Definition fm_step (lc : flinkcell32) (pc : Z * Z * Z) (q : fvec) (qi : nat) (r_max r_min : f32) (excl : bool) (s : lm_state) : fevent lm_state :=
  match lm_cur s with
  | Some c =>
      match rd32 (fm_list lc) c with
      | None => FFault
      | Some j =>
          if j =? TERMINATOR then FMove (LM None (lm_shell s) (lm_seen s)) else
          let s' := LM (Some j) (lm_shell s) (lm_seen s) in
          if excl && Nat.eqb qi (Z.to_nat j) then FMove s'
          else match nth_error (fm_points lc) (Z.to_nat j) with
               | None => FFault
               | Some p =>
                   let r_ij := fwrap (fm_box lc) (fvsub p q) in
                   let r_sq := fnorm2 r_ij in
                   if Bltb r_sq (fmul r_max r_max) && Bleb (fmul r_min r_min) r_sq
                   then FOut (FBond qi (Z.to_nat j) (Bsqrt mode_NE r_sq) r_ij) s' else FMove s'
               end
      end
  | None =>
      match sh_next32 (lm_shell s) with
      | None => FFault
      | Some sh =>
          if Bltb r_max (fmul (lit (sh_range sh - fextra_width32 lc r_max) 0) (fm_width lc)) then FDone
          else match i32_3 (add3 (to_int32_3 pc) (sh_pos sh)) with
               | None => FFault
               | Some c =>
                   let idx := cell_index32 (fm_dim lc) c in
                   if existsb (Z.eqb idx) (lm_seen s) then FMove (LM None sh (lm_seen s))
                   else FMove (LM (Some (u32 (Z.of_nat (length (fm_points lc)) + idx))) sh (idx :: lm_seen s))
               end
      end
  end.
(* LinkCell.h:262-271, LinkCell.cc:501-507 *)
Definition fm_start (lc : flinkcell32) (pc : Z * Z * Z) : lm_state :=
  let sh := sh_reset 0 (f2d (fm_box lc)) in
  LM (Some (u32 (Z.of_nat (length (fm_points lc)) + coord_to_index32 (fm_dim lc) pc))) sh
     [cell_index32 (fm_dim lc) (add3 (to_int32_3 pc) (sh_pos sh))].
(* NeighborQuery.h:318-333, LinkCell.cc:479-494.  None: an exception or undefined behaviour. *)
Definition flc_ball32 (lc : flinkcell32) (q : fvec) (qi : nat) (r_max r_min : f32) (excl : bool) (res : option (list fbond)) : Prop :=
  if fpoint_args_ok r_max r_min then
    match fcell_coord conv (fm_box lc) (fm_dim lc) q with
    | None => res = None
    | Some pc =>
        let step := fm_step lc pc q qi r_max r_min excl in
        (exists l, res = Some l /\ fdrained step (fm_start lc pc) l) \/ (res = None /\ ffaults step (fm_start lc pc))
    end
  else res = None.
End Conversion.
(** The bonds delivered by the first calls of next(), without asking for the end. *)
Inductive fdelivers {S} (step : S -> fevent S) : S -> list fbond -> Prop :=
| fdl_none s : fdelivers step s []
| fdl_move s s' l : step s = FMove s' -> fdelivers step s' l -> fdelivers step s l
| fdl_out s x s' l : step s = FOut x s' -> fdelivers step s' l -> fdelivers step s (x :: l).
