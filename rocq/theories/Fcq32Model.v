(** CellQuery (FcqModel) with the integer types of the code: cell counts and cell numbers are unsigned int, the rows of the iterator are
    int.  Overflow of int and accesses outside a std::vector are undefined behaviour: then every outcome is possible.
    Simplified: the numbers of stored positions (counts, starts, places in the buffer) are unbounded, they are below 2^31 for fewer than
    2^28 points. *)
From Coq Require Import ZArith.
From Flocq Require Import Core BinarySingleNaN.
From Verif Require Export FcqModel.
From Verif Require Export NList32Model.
Open Scope Z_scope.

(** A result of int arithmetic; None: overflow. *)
Definition i32 (z : Z) : option Z := if (- 2 ^ 31 <=? z) && (z <? 2 ^ 31) then Some z else None.
(* CellQuery.h:62-75  idx = (cz * m_ny + cy) * m_nx + cx, in unsigned int *)
Definition fcell_number32 (g : fgrid) (c : Z * Z * Z) : Z :=
  let '(cx, cy, cz) := c in u32 (u32 (u32 (u32 (cz * fg_ny g) + cy) * fg_nx g) + cx).
(* CellQuery.cc:71 *)
Definition fn_cells32 (g : fgrid) : Z := u32 (u32 (fg_nx g * fg_ny g) * fg_nz g).
(* CellIterator.h:126-140  the cells at both ends of a row, in int *)
Definition frow32 (g : fgrid) (cx y z : Z) : option (Z * Z) :=
  obind (i32 (z * fg_ny g)) (fun a => obind (i32 (a + y)) (fun a => obind (i32 (a * fg_nx g)) (fun a => obind (i32 (a + cx)) (fun row =>
  obind (i32 (row + (if 0 <? cx then -1 else 0))) (fun c0 => obind (i32 (row + (if cx <? fg_nx g - 1 then 1 else 0))) (fun c1 => Some (c0, c1))))))).
(* CellIterator.h:98-159 *)
Definition fcb_step32 (cg : fcellgrid) (c : Z * Z * Z) (q : fvec) (qi : nat) (r_max r_min : f32) (excl : bool) (s : cb_state) : fevent cb_state :=
  let '(cx, cy, cz) := c in let g := fcg_grid cg in
  let z := cz + cb_dz s in let y := cy + cb_dy s in
  if 1 <? cb_dz s then FDone
  else if (z <? 0) || (fg_nz g <=? z) || (1 <? cb_dy s) then FMove (CB (cb_dz s + 1) (-1) (cb_block s))
  else if (y <? 0) || (fg_ny g <=? y) then FMove (CB (cb_dz s) (cb_dy s + 1) (cb_block s))
  else match cb_block s with
  | None =>
      match frow32 g cx y z with
      | Some (c0, c1) =>
          if (c0 <? 0) || (c1 <? 0) then FFault else
          match nth_error (fcg_starts cg) (Z.to_nat c0), nth_error (fcg_starts cg) (Z.to_nat c1), nth_error (fcg_counts cg) (Z.to_nat c1) with
          | Some s0, Some s1, Some n1 => FMove (CB (cb_dz s) (cb_dy s) (Some (s0, (s1 + n1)%nat)))
          | _, _, _ => FFault
          end
      | None => FFault
      end
  | Some (i, e) =>
      if Nat.ltb i e then
        match nth_error (fcg_buf cg) i with
        | None => FFault
        | Some t =>
            let s' := CB (cb_dz s) (cb_dy s) (Some (S i, e)) in
            match ftest_particle q qi r_max r_min excl t with Some x => FOut x s' | None => FMove s' end
        end
      else FMove (CB (cb_dz s) (cb_dy s + 1) None)
  end.
(** The iterator comes to an invalid access. *)
Inductive ffaults {S} (step : S -> fevent S) : S -> Prop :=
| ff_here s : step s = FFault -> ffaults step s
| ff_move s s' : step s = FMove s' -> ffaults step s' -> ffaults step s
| ff_out s x s' : step s = FOut x s' -> ffaults step s' -> ffaults step s.

Section Conversion.
Variable cint : option Z -> Z.
(* CellQuery.h:155-157  the conversion to int, + 3 in int, the assignment to unsigned int *)
Definition fgrid_dim32 (n : Z) : option Z := option_map u32 (i32 n).
Definition fsetup_grid32 (b : fbox) (r_cut : f32) : option fgrid :=
  let g := fsetup_grid cint b r_cut in
  match fgrid_dim32 (fg_nx g), fgrid_dim32 (fg_ny g), fgrid_dim32 (fg_nz g) with
  | Some nx, Some ny, Some nz => Some (FGrid (fg_inv g) (fg_min g) nx ny nz)
  | _, _, _ => None
  end.
(* CellQuery.cc:86-125  particle_cell_mapping *)
Definition fentry32 (g : fgrid) (t : ftagged) : list (Z * ftagged) :=
  let c := fcell_xyz cint g (ft_p t) in if fin_grid g c then [(fcell_number32 g c, t)] else [].
Definition fmapping32 (b : fbox) (g : fgrid) (r_cut : f32) (points : list fvec) : list (Z * ftagged) :=
  flat_map (fun i => flat_map (fentry32 g) (fpoint_sites b r_cut points i)) (seq 0 (length points)).
(* CellQuery.cc:55-137  buildGrid.  None: undefined behaviour (m_counts[idx]++ has no bounds check); Some None: an exception. *)
Definition fbuild_grid32 (b : fbox) (points : list fvec) (r_cut : f32) : option (option fcellgrid) :=
  if Bleb r_cut fzero then Some None else
  match fsetup_grid32 b r_cut with
  | None => None
  | Some g =>
      if (fg_nx g =? 0) || (fg_ny g =? 0) || (fg_nz g =? 0) then Some None else
      let m := fmapping32 b g r_cut points in
      if existsb (fun e => fn_cells32 g <=? fst e) m then None else
      let n := Z.to_nat (fn_cells32 g) in
      let m := map (fun e => (Z.to_nat (fst e), snd e)) m in
      let counts := fcounts_of n m in
      let creal := fcounts_of n (filter (fun e => negb (fis_ghost e)) m) in
      let starts := prefix_sum 0 counts in
      Some (option_map (FCG g counts starts) (fplace n starts creal m))
  end.
(* CellQuery.cc:17-47, CellIterator.h:39-72 *)
Definition fcq_single32 (b : fbox) (cg : fcellgrid) (q : fvec) (qi : nat) (r_max r_min : f32) (excl : bool) (res : option (list fbond)) : Prop :=
  if fcq_args_ok b r_max r_min then
    match fcg_buf cg with
    | [] => res = None
    | _ =>
        let c := fcell_xyz cint (fcg_grid cg) q in
        if fin_grid (fcg_grid cg) c
        then let step := fcb_step32 cg c q qi r_max r_min excl in
             ffaults step (CB (-1) (-1) None) \/ exists l, res = Some l /\ fdrained step (CB (-1) (-1) None) l
        else res = Some []
    end
  else res = None.
Definition fcq_ball32 (b : fbox) (points : list fvec) (q : fvec) (qi : nat) (r_max r_min : f32) (excl : bool) (res : option (list fbond)) : Prop :=
  if fnq_ok b points && fcq_args_ok b r_max r_min then
    match fbuild_grid32 b points r_max with
    | None => True
    | Some None => res = None
    | Some (Some cg) => fcq_single32 b cg q qi r_max r_min excl res
    end
  else res = None.
End Conversion.
