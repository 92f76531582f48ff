(** Model in single precision of freud/locality/CellQuery.h, CellQuery.cc and CellIterator.h.
    Numbers are binary32 with round to nearest even (F32Model); the one comparison made in double precision is binary64.
    Integer code shared with the exact model (ghost sites, counting sort helpers, decoding of tags) is that of CellQueryModel.
    The conversion of a float to int is undefined in C++ outside the range of int: [cint] is what the compiled program does with an
    integral value, or with infinities and NaN ([None]).
    Simplified: cell numbers and the product of the cell counts are unbounded integers (32-bit overflow is not modelled). *)
From Coq Require Import ZArith.
From Flocq Require Import Core BinarySingleNaN.
From Verif Require Export CellQueryModel FnearModel FcellModel.
Open Scope Z_scope.

#[global] Instance prec_gt_0_53 : Prec_gt_0 53. Proof. reflexivity. Qed.
#[global] Instance prec_lt_emax_53 : Prec_lt_emax 53 1024. Proof. reflexivity. Qed.
Notation f64 := (binary_float 53 1024).
(** Promotion of a float to double: exact. *)
Definition to64 (x : f32) : f64 :=
  match x with
  | B754_zero s => B754_zero s
  | B754_infinity s => B754_infinity s
  | B754_nan => B754_nan
  | B754_finite s m e _ => binary_normalize 53 1024 prec_gt_0_53 prec_lt_emax_53 mode_NE (if s then Z.neg m else Z.pos m) e s
  end.
Definition one64 : f64 := binary_normalize 53 1024 prec_gt_0_53 prec_lt_emax_53 mode_NE 1 0 false.

(** cvttss2si into a 32-bit register on x86-64. *)
Definition x86_int (z : option Z) : Z :=
  match z with Some z => if (- 2 ^ 31 <=? z) && (z <? 2 ^ 31) then z else - 2 ^ 31 | None => - 2 ^ 31 end.

Record fgrid := FGrid { fg_inv : f32; fg_min : fvec; fg_nx : Z; fg_ny : Z; fg_nz : Z }.
(* CellQuery.h:62-75, 78-83  the bounds check and the number of a cell *)
Definition fin_grid (g : fgrid) (c : Z * Z * Z) : bool :=
  let '(cx, cy, cz) := c in
  negb ((cx <? 0) || (cy <? 0) || (cz <? 0) || (fg_nx g <=? cx) || (fg_ny g <=? cy) || (fg_nz g <=? cz)).
Definition fcell_number (g : fgrid) (c : Z * Z * Z) : nat :=
  let '(cx, cy, cz) := c in Z.to_nat ((cz * fg_ny g + cy) * fg_nx g + cx).

(* CellQuery.h:218-299  generateGhosts: f <= fr in single precision, f >= 1.0 - fr in double precision *)
Definition fghost_dir (f fr : f32) : Z := bz (Bleb f fr) - bz (Bleb (Bminus mode_NE one64 (to64 fr)) (to64 f)).
Definition fvopp (v : fvec) : fvec := FV (fopp (fvx v)) (fopp (fvy v)) (fopp (fvz v)).
Definition fsigned (i : Z) (v acc : fvec) : fvec := if i =? 0 then acc else fvadd acc (if i =? 1 then v else fvopp v).
Definition fnew_site (b : fbox) (s : Z * Z * Z) : fvec :=
  let '(i, j, k) := s in
  fsigned k (if f2d b then fv0 else flattice b 2) (fsigned j (flattice b 1) (fsigned i (flattice b 0) fv0)).
(* CellQuery.cc:90-99 *)
Definition fghost_triples (b : fbox) (r_cut : f32) (p : fvec) : list (Z * Z * Z) :=
  let f := ffractional b p in let d := fplanes b in
  ghost_sites (fghost_dir (fvx f) (fdiv r_cut (fvx d))) (fghost_dir (fvy f) (fdiv r_cut (fvy d)))
              (if f2d b then 0 else fghost_dir (fvz f) (fdiv r_cut (fvz d))).

(* CellQuery.h:21-25  TaggedPosition *)
Record ftagged := FTag { ft_p : fvec; ft_idx : Z }.
(* CellQuery.cc:102-124  a point contributes its ghosts, then itself *)
Definition fpoint_sites (b : fbox) (r_cut : f32) (points : list fvec) (i : nat) : list ftagged :=
  let p := nth i points fv0 in
  map (fun s => FTag (fvadd p (fnew_site b s)) (Z.lnot (Z.of_nat i))) (fghost_triples b r_cut p) ++ [FTag p (Z.of_nat i)].

(* CellQuery.cc:86-125  m_counts, m_counts_real *)
Definition fis_ghost (e : nat * ftagged) : bool := ft_idx (snd e) <? 0.
Definition fcounts_of (n : nat) (m : list (nat * ftagged)) : list nat := fold_left (fun l e => bump l (fst e)) m (repeat 0%nat n).
(* CellQuery.cc:140-177  placeParticlesInSortedOrder; None is an out of bounds access *)
Definition fplace_one (starts creal : list nat) (st : option (list ftagged * list nat * list nat)) (e : nat * ftagged) :
    option (list ftagged * list nat * list nat) :=
  match st with
  | None => None
  | Some (buf, ri, gi) =>
      let c := fst e in
      if fis_ghost e
      then match wr buf (nth c starts 0 + nth c creal 0 + nth c gi 0)%nat (snd e) with
           | Some buf => Some (buf, ri, bump gi c) | None => None end
      else match wr buf (nth c starts 0 + nth c ri 0)%nat (snd e) with
           | Some buf => Some (buf, bump ri c, gi) | None => None end
  end.
Definition fplace (n_cells : nat) (starts creal : list nat) (m : list (nat * ftagged)) : option (list ftagged) :=
  option_map (fun st => fst (fst st))
    (fold_left (fplace_one starts creal) m (Some (repeat (FTag fv0 0) (length m), repeat 0%nat n_cells, repeat 0%nat n_cells))).
Record fcellgrid := FCG { fcg_grid : fgrid; fcg_counts : list nat; fcg_starts : list nat; fcg_buf : list ftagged }.

(* CellIterator.h:161-188  test_particle *)
Definition ftest_particle (q : fvec) (qi : nat) (r_max r_min : f32) (excl : bool) (t : ftagged) : option fbond :=
  let j := real_id (ft_idx t) in
  if excl && Nat.eqb j qi then None else
  let delta := fvsub (ft_p t) q in let d2 := fnorm2 delta in
  if Bltb d2 (fmul r_max r_max) && Bleb (fmul r_min r_min) d2 then Some (FBond qi j (Bsqrt mode_NE d2) delta) else None.
(* CellIterator.h:98-159  find_next_pair; the state is that of the exact model *)
Definition fcb_step (cg : fcellgrid) (c : Z * Z * Z) (q : fvec) (qi : nat) (r_max r_min : f32) (excl : bool) (s : cb_state) : fevent cb_state :=
  let '(cx, cy, cz) := c in let g := fcg_grid cg in
  let z := cz + cb_dz s in let y := cy + cb_dy s in
  if 1 <? cb_dz s then FDone
  else if (z <? 0) || (fg_nz g <=? z) || (1 <? cb_dy s) then FMove (CB (cb_dz s + 1) (-1) (cb_block s))
  else if (y <? 0) || (fg_ny g <=? y) then FMove (CB (cb_dz s) (cb_dy s + 1) (cb_block s))
  else match cb_block s with
  | None =>
      let row := (z * fg_ny g + y) * fg_nx g + cx in
      let c0 := Z.to_nat (row + (if 0 <? cx then -1 else 0)) in
      let c1 := Z.to_nat (row + (if cx <? fg_nx g - 1 then 1 else 0)) in
      match nth_error (fcg_starts cg) c0, nth_error (fcg_starts cg) c1, nth_error (fcg_counts cg) c1 with
      | Some s0, Some s1, Some n1 => FMove (CB (cb_dz s) (cb_dy s) (Some (s0, (s1 + n1)%nat)))
      | _, _, _ => FFault
      end
  | Some (i, e) =>
      if Nat.ltb i e then
        match nth_error (fcg_buf cg) i with
        | None => FFault
        | Some t =>
            let s' := CB (cb_dz s) (cb_dy s) (Some (S i, e)) in
            match ftest_particle q qi r_max r_min excl t with Some x => FOut x s' | None => FMove s' end
        end
      else FMove (CB (cb_dz s) (cb_dy s + 1) None)
  end.

(* CellQuery.h:177-203 with NeighborQuery.h:195-228 for ball arguments: the radius checks *)
Definition fcq_args_ok (b : fbox) (r_max r_min : f32) : bool :=
  let p := fplanes b in let d := fmul r_max (lit 2 0) in
  negb (Bleb (fvx p) d || Bleb (fvy p) d || (negb (f2d b) && Bleb (fvz p) d)) && fpoint_args_ok r_max r_min.

Section Conversion.
Variable cint : option Z -> Z.
(* CellQuery.h:144-167  setupGrid *)
Definition fgrid_dim (w inv : f32) : Z := cint (ftruncate (fmul w inv)) + 3.
Definition fsetup_grid (b : fbox) (r_cut : f32) : fgrid :=
  let L := fL b in let inv := fdiv fone r_cut in
  let w_x := fadd (fadd (fvx L) (fmul (fvy L) (Babs (fxy b)))) (fmul (fvz L) (Babs (fxz b))) in
  let w_y := fadd (fvy L) (fmul (fvz L) (Babs (fyz b))) in
  let w_z := fvz L in
  let min_x := fadd (fmul (fvy L) (std_min fzero (fxy b))) (fmul (fvz L) (std_min fzero (fxz b))) in
  let min_y := fmul (fvz L) (std_min fzero (fyz b)) in
  FGrid inv (fvadd (FV (fsub min_x r_cut) (fsub min_y r_cut) (fopp r_cut)) (fabsolute b fv0))
        (fgrid_dim w_x inv) (fgrid_dim w_y inv) (fgrid_dim w_z inv).
(* CellQuery.h:54-59  cell_idx_xyz *)
Definition fcell_along (g : fgrid) (x lo : f32) : Z := cint (ffloor (fmul (fsub x lo) (fg_inv g))).
Definition fcell_xyz (g : fgrid) (p : fvec) : Z * Z * Z :=
  (fcell_along g (fvx p) (fvx (fg_min g)), fcell_along g (fvy p) (fvy (fg_min g)), fcell_along g (fvz p) (fvz (fg_min g))).
(* CellQuery.h:62-75  getCellIdxSafe; None is the return value false *)
Definition fcell_safe (g : fgrid) (p : fvec) : option nat :=
  let c := fcell_xyz g p in if fin_grid g c then Some (fcell_number g c) else None.
(* CellQuery.cc:86-125  particle_cell_mapping in order *)
Definition fentry (g : fgrid) (t : ftagged) : list (nat * ftagged) :=
  match fcell_safe g (ft_p t) with Some c => [(c, t)] | None => [] end.
Definition fmapping (b : fbox) (g : fgrid) (r_cut : f32) (points : list fvec) : list (nat * ftagged) :=
  flat_map (fun i => flat_map (fentry g) (fpoint_sites b r_cut points i)) (seq 0 (length points)).
(* CellQuery.cc:55-137  buildGrid; None is an exception *)
Definition fbuild_grid (b : fbox) (points : list fvec) (r_cut : f32) : option fcellgrid :=
  if Bleb r_cut fzero then None else
  let g := fsetup_grid b r_cut in
  if (fg_nx g =? 0) || (fg_ny g =? 0) || (fg_nz g =? 0) then None else
  let n := Z.to_nat (fg_nx g * fg_ny g * fg_nz g) in
  let m := fmapping b g r_cut points in
  let counts := fcounts_of n m in
  let creal := fcounts_of n (filter (fun e => negb (fis_ghost e)) m) in
  let starts := prefix_sum 0 counts in
  option_map (FCG g counts starts) (fplace n starts creal m).
(* CellQuery.cc:36-47 (querySingle), CellIterator.h:39-72 (constructor).  [fcg_buf = []] is m_linear_buffer.data() == nullptr. *)
Definition fcq_single (b : fbox) (cg : fcellgrid) (q : fvec) (qi : nat) (r_max r_min : f32) (excl : bool) (res : option (list fbond)) : Prop :=
  if fcq_args_ok b r_max r_min then
    match fcg_buf cg with
    | [] => res = None
    | _ => match fcell_safe (fcg_grid cg) q with
           | None => res = Some []
           | Some _ => exists l, res = Some l /\
               fdrained (fcb_step cg (fcell_xyz (fcg_grid cg) q) q qi r_max r_min excl) (CB (-1) (-1) None) l
           end
    end
  else res = None.
(* CellQuery.cc:17-34  query: m_built is never set, so the grid is rebuilt for every query, with r_cut = r_max. *)
Definition fcq_ball (b : fbox) (points : list fvec) (q : fvec) (qi : nat) (r_max r_min : f32) (excl : bool) (res : option (list fbond)) : Prop :=
  if fnq_ok b points && fcq_args_ok b r_max r_min then
    match fbuild_grid b points r_max with
    | None => res = None
    | Some cg => fcq_single b cg q qi r_max r_min excl res
    end
  else res = None.
End Conversion.
