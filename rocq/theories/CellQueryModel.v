(** Model of freud/locality/CellQuery.h, CellQuery.cc and CellIterator.h over exact reals.
    Simplifications: no rounding; 32-bit overflow of cell numbers and of m_nx*m_ny*m_nz is not modelled. *)
From Verif Require Export LinkCellModel.
Open Scope Z_scope.

Record grid := Grid { g_inv : R; g_min : vec3; g_nx : Z; g_ny : Z; g_nz : Z }.

(* CellQuery.h:144-167  setupGrid.  m_nx etc. are unsigned: only the values >= 0 are meaningful here. *)
Definition setup_grid (b : box) (r_cut : R) : grid :=
  let L := b_L b in
  let inv := (1 / r_cut)%R in
  let w_x := (vx L + vy L * Rabs (b_xy b) + vz L * Rabs (b_xz b))%R in
  let w_y := (vy L + vz L * Rabs (b_yz b))%R in
  let w_z := vz L in
  let min_x := (vy L * Rmin 0 (b_xy b) + vz L * Rmin 0 (b_xz b))%R in
  let min_y := (vz L * Rmin 0 (b_yz b))%R in
  Grid inv (vadd (V3 (min_x - r_cut) (min_y - r_cut) (- r_cut)) (make_absolute b v0))
       (Ztrunc (w_x * inv) + 3) (Ztrunc (w_y * inv) + 3) (Ztrunc (w_z * inv) + 3).

(* CellQuery.h:54-59  cell_idx_xyz *)
Definition cell_xyz (g : grid) (p : vec3) : Z * Z * Z :=
  (Zfloor ((vx p - vx (g_min g)) * g_inv g), Zfloor ((vy p - vy (g_min g)) * g_inv g), Zfloor ((vz p - vz (g_min g)) * g_inv g)).
(* CellQuery.h:62-75  getCellIdxSafe; None is the return value false *)
Definition in_grid (g : grid) (c : Z * Z * Z) : bool :=
  let '(cx, cy, cz) := c in
  negb ((cx <? 0) || (cy <? 0) || (cz <? 0) || (g_nx g <=? cx) || (g_ny g <=? cy) || (g_nz g <=? cz)).
Definition cell_number (g : grid) (c : Z * Z * Z) : nat :=
  let '(cx, cy, cz) := c in Z.to_nat ((cz * g_ny g + cy) * g_nx g + cx).
Definition cell_safe (g : grid) (p : vec3) : option nat :=
  let c := cell_xyz g p in if in_grid g c then Some (cell_number g c) else None.

(* CellQuery.h:218-299  generateGhosts *)
Definition bz (b : bool) : Z := if b then 1 else 0.
Definition ghost_dir (f frc : R) : Z := bz (Rleb f frc) - bz (Rleb (1 - frc) f).
Definition nz (d : Z) : bool := negb (d =? 0).
Definition ghost_sites (dx dy dz : Z) : list (Z * Z * Z) :=
  (if nz dx then [(dx, 0, 0)] else []) ++ (if nz dy then [(0, dy, 0)] else []) ++ (if nz dz then [(0, 0, dz)] else []) ++
  (if nz dx && nz dy then [(dx, dy, 0)] else []) ++ (if nz dx && nz dz then [(dx, 0, dz)] else []) ++
  (if nz dy && nz dz then [(0, dy, dz)] else []) ++ (if nz dx && nz dy && nz dz then [(dx, dy, dz)] else []).
Definition signed (i : Z) (v : vec3) : vec3 := if i =? 0 then v0 else if i =? 1 then v else vneg v.
Definition new_site (b : box) (s : Z * Z * Z) : vec3 :=
  let '(i, j, k) := s in let L := b_L b in
  let Lz := if b_2d b then v0 else V3 (vz L * b_xz b) (vz L * b_yz b) (vz L) in
  vadd (vadd (vadd v0 (signed i (V3 (vx L) 0 0))) (signed j (V3 (vy L * b_xy b) (vy L) 0))) (signed k Lz).
Definition ghosts (b : box) (r_cut : R) (p : vec3) : list vec3 :=
  let f := make_fractional b p in let d := plane_distance b in
  map (new_site b) (ghost_sites (ghost_dir (vx f) (r_cut / vx d)) (ghost_dir (vy f) (r_cut / vy d))
                                (if b_2d b then 0 else ghost_dir (vz f) (r_cut / vz d))).

(* CellQuery.h:21-25  TaggedPosition *)
Record tagged := Tag { t_p : vec3; t_idx : Z }.
(* CellQuery.cc:86-125  the loop over points of buildGrid: entries of particle_cell_mapping in order *)
Definition entry (g : grid) (t : tagged) : list (nat * tagged) :=
  match cell_safe g (t_p t) with Some c => [(c, t)] | None => [] end.
Definition point_entries (b : box) (g : grid) (r_cut : R) (points : list vec3) (i : nat) : list (nat * tagged) :=
  let p := nth i points v0 in
  flat_map (fun d => entry g (Tag (vadd p d) (Z.lnot (Z.of_nat i)))) (ghosts b r_cut p) ++ entry g (Tag p (Z.of_nat i)).
Definition mapping (b : box) (g : grid) (r_cut : R) (points : list vec3) : list (nat * tagged) :=
  flat_map (point_entries b g r_cut points) (seq 0 (length points)).

(* CellQuery.cc:86-125  m_counts, m_counts_real *)
Definition bump (l : list nat) (i : nat) : list nat := upd l i (S (nth i l 0%nat)).
Definition is_ghost (e : nat * tagged) : bool := t_idx (snd e) <? 0.
Definition counts_of (n : nat) (m : list (nat * tagged)) : list nat := fold_left (fun l e => bump l (fst e)) m (repeat 0%nat n).
(* utils.h:92-101  prefixSum *)
Fixpoint prefix_sum (offset : nat) (l : list nat) : list nat :=
  match l with [] => [] | x :: l => offset :: prefix_sum (offset + x) l end.
(* CellQuery.cc:140-177  placeParticlesInSortedOrder; None is an out of bounds access *)
Definition place_one (starts creal : list nat) (st : option (list tagged * list nat * list nat)) (e : nat * tagged) :
    option (list tagged * list nat * list nat) :=
  match st with
  | None => None
  | Some (buf, ri, gi) =>
      let c := fst e in
      if is_ghost e
      then match wr buf (nth c starts 0 + nth c creal 0 + nth c gi 0)%nat (snd e) with
           | Some buf => Some (buf, ri, bump gi c) | None => None end
      else match wr buf (nth c starts 0 + nth c ri 0)%nat (snd e) with
           | Some buf => Some (buf, bump ri c, gi) | None => None end
  end.
Definition place (n_cells : nat) (starts creal : list nat) (m : list (nat * tagged)) : option (list tagged) :=
  option_map (fun st => fst (fst st))
    (fold_left (place_one starts creal) m (Some (repeat (Tag v0 0) (length m), repeat 0%nat n_cells, repeat 0%nat n_cells))).

Record cellgrid := CG { cg_grid : grid; cg_counts : list nat; cg_starts : list nat; cg_buf : list tagged }.
(* CellQuery.cc:55-137  buildGrid; None is an exception *)
Definition build_grid (b : box) (points : list vec3) (r_cut : R) : option cellgrid :=
  if Rleb r_cut 0 then None else
  let g := setup_grid b r_cut in
  if (g_nx g =? 0) || (g_ny g =? 0) || (g_nz g =? 0) then None else
  let n := Z.to_nat (g_nx g * g_ny g * g_nz g) in
  let m := mapping b g r_cut points in
  let counts := counts_of n m in
  let creal := counts_of n (filter (fun e => negb (is_ghost e)) m) in
  let starts := prefix_sum 0 counts in
  option_map (CG g counts starts) (place n starts creal m).

(** Ball iterator (CellIterator.h:36-201).  State: m_dz, m_dy and the current contiguous block (m_particle_idx,
    m_list_end), None for m_particle_idx = -1.  The code finds each bond one call ahead of next(); the sequence returned is the
    same. *)
Record cb_state := CB { cb_dz : Z; cb_dy : Z; cb_block : option (nat * nat) }.
(* CellIterator.h:165-167  the tag of particle i is i or ~i *)
Definition real_id (raw : Z) : nat := Z.to_nat (Z.lxor raw (Z.shiftr raw 31)).
(* CellIterator.h:161-188  test_particle *)
Definition test_particle (q : vec3) (qi : nat) (r_max r_min : R) (excl : bool) (t : tagged) : option bond :=
  let j := real_id (t_idx t) in
  if excl && Nat.eqb j qi then None else
  let delta := vsub (t_p t) q in let d2 := dot delta delta in
  if Rltb d2 (r_max * r_max) && Rleb (r_min * r_min) d2 then Some (Bond qi j (sqrt d2) 1%R delta) else None.
(* CellIterator.h:98-159  find_next_pair *)
Definition cb_step (cg : cellgrid) (c : Z * Z * Z) (q : vec3) (qi : nat) (r_max r_min : R) (excl : bool) (s : cb_state) : event cb_state :=
  let '(cx, cy, cz) := c in let g := cg_grid cg in
  let z := cz + cb_dz s in let y := cy + cb_dy s in
  if 1 <? cb_dz s then Done
  else if (z <? 0) || (g_nz g <=? z) || (1 <? cb_dy s) then Move (CB (cb_dz s + 1) (-1) (cb_block s))
  else if (y <? 0) || (g_ny g <=? y) then Move (CB (cb_dz s) (cb_dy s + 1) (cb_block s))
  else match cb_block s with
  | None =>
      let row := (z * g_ny g + y) * g_nx g + cx in
      let c0 := Z.to_nat (row + (if 0 <? cx then -1 else 0)) in
      let c1 := Z.to_nat (row + (if cx <? g_nx g - 1 then 1 else 0)) in
      match nth_error (cg_starts cg) c0, nth_error (cg_starts cg) c1, nth_error (cg_counts cg) c1 with
      | Some s0, Some s1, Some n1 => Move (CB (cb_dz s) (cb_dy s) (Some (s0, (s1 + n1)%nat)))
      | _, _, _ => Fault
      end
  | Some (i, e) =>
      if Nat.ltb i e then
        match nth_error (cg_buf cg) i with
        | None => Fault
        | Some t =>
            let s' := CB (cb_dz s) (cb_dy s) (Some (S i, e)) in
            match test_particle q qi r_max r_min excl t with Some x => Out x s' | None => Move s' end
        end
      else Move (CB (cb_dz s) (cb_dy s + 1) None)
  end.

(* CellQuery.h:177-203 with NeighborQuery.h:195-228 for ball arguments: the radius checks *)
Definition cq_args_ok (b : box) (r_max r_min : R) : bool :=
  let p := plane_distance b in
  negb (Rleb (vx p) (r_max * 2) || Rleb (vy p) (r_max * 2) || (negb (b_2d b) && Rleb (vz p) (r_max * 2))) && ball_args_ok r_max r_min.
(* CellQuery.cc:36-47 (querySingle) and CellIterator.h:39-72 (constructor): drain one query point on the grid that the object
   currently holds.  [cg_buf = []] is the test m_linear_buffer.data() == nullptr. *)
Definition cq_single (b : box) (cg : cellgrid) (q : vec3) (qi : nat) (r_max r_min : R) (excl : bool) (res : option (list bond)) : Prop :=
  if cq_args_ok b r_max r_min then
    match cg_buf cg with
    | [] => res = None
    | _ => match cell_safe (cg_grid cg) q with
           | None => res = Some []
           | Some _ => exists l, res = Some l /\
               drained (cb_step cg (cell_xyz (cg_grid cg) q) q qi r_max r_min excl) (CB (-1) (-1) None) l
           end
    end
  else res = None.
(* CellQuery.cc:17-34  query: m_built is never set, so every query rebuilds the grid for its own r_max.  There is no check of
   periodicity. *)
Definition cq_ball (b : box) (points : list vec3) (q : vec3) (qi : nat) (r_max r_min : R) (excl : bool) (res : option (list bond)) : Prop :=
  if nq_ok b points && cq_args_ok b r_max r_min then
    match build_grid b points r_max with
    | None => res = None
    | Some cg => cq_single b cg q qi r_max r_min excl res
    end
  else res = None.
