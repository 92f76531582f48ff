(** Model of freud/locality/LinkCell.h and LinkCell.cc: the shell iterator, the cell list and the queries.
    Simplifications: coordinates are exact reals; cell counts and cell numbers are unbounded integers (no 32-bit
    overflow); LINK_CELL_TERMINATOR is [None]; the conversion of a negative float to unsigned int, undefined in
    C++, makes the operation undefined ([None]); m_searched_cells is a list. getCellNeighbors/computeCellNeighbors
    (not used by any query) are modelled at the end. *)
From Verif Require Export NListModel.
Open Scope Z_scope.

(* LinkCell.h:141-150  members of IteratorCellShell *)
Record shell := Sh { sh_range : Z; sh_stage : Z; sh_x : Z; sh_y : Z; sh_z : Z; sh_2d : bool }.
Definition sh_pos (s : shell) : Z * Z * Z := (sh_x s, sh_y s, sh_z s).

(* LinkCell.cc:189-212  reset *)
Definition sh_reset (range : Z) (is2d : bool) : shell :=
  if range =? 0 then Sh range 5 (- range) range 0 is2d
  else Sh range 0 (- range) range (if is2d then 0 else - range + 1) is2d.

Definition b2z (w : bool) : Z := if w then 1 else 0.
(** The z part shared by stages 0-3 (LinkCell.cc:76-81, 95-100, 114-119, 133-138): new z and new [wrapped]. *)
Definition sh_next_z (s : shell) (wrapped : bool) : Z * bool :=
  if sh_2d s then (sh_z s, wrapped)
  else let z := sh_z s + b2z wrapped in
       let wrapped := sh_range s <=? z in
       (z + b2z wrapped * (1 - 2 * sh_range s), wrapped).
(* LinkCell.cc:58-187  operator++ *)
Definition sh_next (s : shell) : shell :=
  let N := sh_range s in
  match sh_stage s with
  | 0 => let x := sh_x s + 1 in
         let w := N <=? x in
         let x := x - 2 * b2z w * N in
         let '(z, w) := sh_next_z s w in
         if w then Sh N 1 N (sh_y s) z (sh_2d s) else Sh N 0 x (sh_y s) z (sh_2d s)
  | 1 => let y := sh_y s - 1 in
         let w := y <=? - N in
         let y := y + 2 * b2z w * N in
         let '(z, w) := sh_next_z s w in
         if w then Sh N 2 (sh_x s) (- N) z (sh_2d s) else Sh N 1 (sh_x s) y z (sh_2d s)
  | 2 => let x := sh_x s - 1 in
         let w := x <=? - N in
         let x := x + 2 * b2z w * N in
         let '(z, w) := sh_next_z s w in
         if w then Sh N 3 (- N) (sh_y s) z (sh_2d s) else Sh N 2 x (sh_y s) z (sh_2d s)
  | 3 => let y := sh_y s + 1 in
         let w := N <=? y in
         let y := y - 2 * b2z w * N in
         let '(z, w) := sh_next_z s w in
         if w then (if sh_2d s then sh_reset (N + 1) (sh_2d s) else Sh N 4 (- N) (- N) (- N) (sh_2d s))
         else Sh N 3 (sh_x s) y z (sh_2d s)
  | st => let x := sh_x s + 1 in
         let w := N <? x in
         let x := x - b2z w * (2 * N + 1) in
         let y := sh_y s + b2z w in
         let w := N <? y in
         let y := y - b2z w * (2 * N + 1) in
         if w then (if 5 <? st + 1 then sh_reset (N + 1) (sh_2d s) else Sh N (st + 1) x y N (sh_2d s))
         else Sh N st x y (sh_z s) (sh_2d s)
  end.
(* LinkCell.h:124-134  operator== *)
Definition sh_eqb (a b : shell) : bool :=
  (sh_range a =? sh_range b) && (sh_x a =? sh_x b) && (sh_y a =? sh_y b) && (sh_z a =? sh_z b) &&
  (sh_stage a =? sh_stage b) && Bool.eqb (sh_2d a) (sh_2d b).

(** std::cbrt *)
Definition cbrt (x : R) : R :=
  if Rltb 0 x then Rpower x (1 / 3) else if Rltb x 0 then (- Rpower (- x) (1 / 3))%R else 0%R.

(* NeighborQuery.h:93-113  checks of the NeighborQuery constructor *)
Definition nq_ok (b : box) (points : list vec3) : bool :=
  negb (Nat.eqb (length points) 0) &&
  (negb (b_2d b) || forallb (fun p => negb (Rltb (1 / 1000000) (Rabs (vz p)))) points).

(* LinkCell.cc:278-314  computeDimensions.  None: conversion of a negative quotient to unsigned. *)
Definition to_unsigned (x : R) : option Z := let t := Ztrunc x in if t <? 0 then None else Some t.
Definition atleast1 (n : Z) : Z := if n =? 0 then 1 else n.
Definition compute_dimensions (b : box) (cw : R) : option (Z * Z * Z) :=
  let L := plane_distance b in
  match to_unsigned (vx L / cw), to_unsigned (vy L / cw), (if b_2d b then Some 1 else to_unsigned (vz L / cw)) with
  | Some x, Some y, Some z => Some (atleast1 x, atleast1 y, atleast1 z)
  | _, _, _ => None
  end.

(* LinkCell.cc:348-354  coordToIndex ; 262-276  getCellIndex (C++ % has the sign of the dividend) *)
Definition coord_to_index (dim c : Z * Z * Z) : Z :=
  let '(dx, dy, dz) := dim in let '(x, y, z) := c in get_index_static [dz; dy; dx] [z; y; x].
Definition cmod (a n : Z) : Z := let r := Z.rem a n in r + (if r <? 0 then n else 0).
Definition cell_index (dim c : Z * Z * Z) : Z :=
  let '(dx, dy, dz) := dim in let '(x, y, z) := c in coord_to_index dim (cmod x dx, cmod y dy, cmod z dz).
(* LinkCell.cc:356-367  getCellCoord *)
Definition axis_cell (alpha : R) (n : Z) : option Z :=
  match to_unsigned (IZR (Zfloor (alpha * IZR n))) with Some c => Some (Z.rem c n) | None => None end.
Definition cell_coord (b : box) (dim : Z * Z * Z) (p : vec3) : option (Z * Z * Z) :=
  let '(dx, dy, dz) := dim in let a := make_fractional b p in
  match axis_cell (vx a) dx, axis_cell (vy a) dy, axis_cell (vz a) dz with
  | Some x, Some y, Some z => Some (x, y, z)
  | _, _, _ => None
  end.
(* LinkCell.h (getCell): coordToIndex of getCellCoord *)
Definition get_cell (b : box) (dim : Z * Z * Z) (p : vec3) : option Z :=
  option_map (coord_to_index dim) (cell_coord b dim p).
Definition num_cells (dim : Z * Z * Z) : Z := let '(dx, dy, dz) := dim in dx * dy * dz.

(* LinkCell.cc:316-336  computeCellList: one array holding the per-particle links followed by the cell heads.
   None: undefined (out of bounds access or undefined conversion). *)
Definition cell_list := list (option nat).
Definition link_one (b : box) (dim : Z * Z * Z) (points : list vec3) (l : option cell_list) (i : nat) : option cell_list :=
  match l with
  | None => None
  | Some l =>
      match get_cell b dim (nth i points v0) with
      | None => None
      | Some c =>
          let head := (length points + Z.to_nat c)%nat in
          match nth_error l head with
          | None => None
          | Some h => match wr l i h with None => None | Some l => wr l head (Some i) end
          end
      end
  end.
Definition compute_cell_list (b : box) (dim : Z * Z * Z) (points : list vec3) : option cell_list :=
  let n := length points in
  fold_left (link_one b dim points) (rev (seq 0 n)) (Some (repeat None (n + Z.to_nat (num_cells dim)))).

Record linkcell := LC { lc_box : box; lc_points : list vec3; lc_width : R; lc_dim : Z * Z * Z; lc_list : cell_list }.
(* LinkCell.cc:222-260  constructor.  None: an exception (or undefined behaviour for a negative cell width). *)
Definition default_width (b : box) (n : nat) : R := cbrt (volume b / INR (Nat.max (n / 10) 1)).
Definition lc_make (b : box) (points : list vec3) (cell_width : R) : option linkcell :=
  if negb (nq_ok b points) then None else
  let cw := if Reqb cell_width 0 then default_width b (length points) else cell_width in
  match compute_dimensions b cw with
  | None => None
  | Some (dx, dy, dz) =>
      let p := plane_distance b in
      if Rltb (vx p) (cw * 2) || Rltb (vy p) (cw * 2) || (negb (b_2d b) && Rltb (vz p) (cw * 2)) then None else
      let dim := (dx, dy, if b_2d b then 1 else dz) in
      if num_cells dim <? 1 then None else
      option_map (LC b points cw dim) (compute_cell_list b dim points)
  end.

(** Iterators as transition systems.  [Fault] is undefined behaviour. *)
Inductive event (S : Type) := Out (x : bond) (s : S) | Move (s : S) | Done | Fault.
Arguments Out {S}. Arguments Move {S}. Arguments Done {S}. Arguments Fault {S}.
(** while (!it.end()) { nb = it.next(); if (nb != ITERATOR_TERMINATOR) collect nb } (NeighborQuery.h:447-459):
    next() moves until a bond is out (and can be resumed from the members) or the search is done. *)
Inductive drained {S} (step : S -> event S) : S -> list bond -> Prop :=
| dr_done s : step s = Done -> drained step s []
| dr_move s s' l : step s = Move s' -> drained step s' l -> drained step s l
| dr_out s x s' l : step s = Out x s' -> drained step s' l -> drained step s (x :: l).

(** State of LinkCellQueryBallIterator (LinkCell.h:276-283): [lb_cur] is m_cell_iter.m_cur_idx (None at the end). *)
Record lb_state := LB { lb_cur : option nat; lb_shell : shell; lb_seen : list Z }.
Definition add3 (a c : Z * Z * Z) : Z * Z * Z :=
  let '(x, y, z) := a in let '(x', y', z') := c in (x + x', y + y', z + z').
Definition extra_width (lc : linkcell) (r_max : R) : Z := if Reqb r_max (lc_width lc) then 0 else 1.
(* LinkCell.cc:496-573  LinkCellQueryBallIterator::next *)
Definition lb_step (lc : linkcell) (pc : Z * Z * Z) (q : vec3) (qi : nat) (r_max r_min : R) (excl : bool) (s : lb_state) : event lb_state :=
  match lb_cur s with
  | Some c =>
      match nth_error (lc_list lc) c with
      | None => Fault
      | Some None => Move (LB None (lb_shell s) (lb_seen s))
      | Some (Some j) =>
          let s' := LB (Some j) (lb_shell s) (lb_seen s) in
          if excl && Nat.eqb qi j then Move s'
          else
            let r_ij := wrap (lc_box lc) (vsub (nth j (lc_points lc) v0) q) in
            let r_sq := dot r_ij r_ij in
            if Rltb r_sq (r_max * r_max) && Rleb (r_min * r_min) r_sq
            then Out (Bond qi j (sqrt r_sq) 1%R r_ij) s' else Move s'
      end
  | None =>
      let sh := sh_next (lb_shell s) in
      if Rltb r_max (IZR (sh_range sh - extra_width lc r_max) * lc_width lc) then Done
      else
        let idx := cell_index (lc_dim lc) (add3 pc (sh_pos sh)) in
        if existsb (Z.eqb idx) (lb_seen s) then Move (LB None sh (lb_seen s))
        else Move (LB (Some (length (lc_points lc) + Z.to_nat idx)%nat) sh (idx :: lb_seen s))
  end.
(** State after the first lines of the first next() (LinkCell.h:262-271, LinkCell.cc:501-507; later calls insert a
    cell that is already in m_searched_cells). *)
Definition lb_start (lc : linkcell) (pc : Z * Z * Z) : lb_state :=
  let sh := sh_reset 0 (b_2d (lc_box lc)) in
  LB (Some (length (lc_points lc) + Z.to_nat (coord_to_index (lc_dim lc) pc))%nat) sh
     [cell_index (lc_dim lc) (add3 pc (sh_pos sh))].
(* NeighborQuery.h:318-333 (checks), LinkCell.cc:479-494: ball query for one point.
   [lc_ball … res]: res is the list of bonds, or None for an exception. *)
Definition ball_args_ok (r_max r_min : R) : bool := Rltb 0 r_max && Rltb r_min r_max.
Definition lc_ball (lc : linkcell) (q : vec3) (qi : nat) (r_max r_min : R) (excl : bool) (res : option (list bond)) : Prop :=
  if ball_args_ok r_max r_min then
    exists pc l, cell_coord (lc_box lc) (lc_dim lc) q = Some pc /\ res = Some l /\
      drained (lb_step lc pc q qi r_max r_min excl) (lb_start lc pc) l
  else res = None.

(* LinkCell.cc:338-346  indexToCoord *)
Definition index_to_coord (dim : Z * Z * Z) (k : Z) : Z * Z * Z :=
  let '(dx, dy, dz) := dim in
  match get_multi_index [dx; dy; dz] k with [c0; c1; c2] => (c2, c1, c0) | _ => (0, 0, 0) end.
(* LinkCell.cc:382-476  computeCellNeighbors *)
Definition zspan (a b : Z) : list Z := map (fun i => a + Z.of_nat i) (seq 0 (Z.to_nat (b - a + 1))).
Definition compute_cell_neighbors (b : box) (dim : Z * Z * Z) (cell : Z) : list Z :=
  let '(dx, dy, dz) := dim in let '(i, j, k) := index_to_coord dim cell in
  let st n c := if n <? 3 then c else c - 1 in
  let en n c := if n <? 2 then c else c + 1 in
  let '(startk, endk) := if b_2d b then (k, k) else (st dz k, en dz k) in
  flat_map (fun nk => flat_map (fun nj => map (fun ni =>
    coord_to_index dim (Z.rem (dx + ni) dx, Z.rem (dy + nj) dy, Z.rem (dz + nk) dz))
    (zspan (st dx i) (en dx i))) (zspan (st dy j) (en dy j))) (zspan startk endk).
