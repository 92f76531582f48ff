(** Model of freud/diffraction/StaticStructureFactor.h, StaticStructureFactorDirect.cc/.h, StaticStructureFactorDebye.cc and of the classes
    in freud/diffraction.py, over exact reals.
    Not modelled: the probability with which k vectors are pruned (the outcome of each comparison with a random number is arbitrary here),
    calls that raise, plots, a total number of points of zero (division by zero). *)
From Verif Require Export CorrModel.
From Coq Require Import Permutation.
Local Open Scope R_scope.

(* constants::TWO_PI *)
Definition TWO_PI : R := 2 * PI.

(** * Sampling of k vectors *)
Definition lat (b : box) (i : nat) : vec3 := match lattice_vector b i with Some v => v | None => v0 end.
(* StaticStructureFactorDirect.cc:170-195 box_to_matrix, box_to_matrix2D; 294-295, 357-358: rows of the inverse of the transpose (Eigen's
   inverse of small matrices: cofactors over the determinant).  The bool of the box selects the case. *)
Definition recip (b : box) : vec3 * vec3 * vec3 :=
  let a := lat b 0 in let c := lat b 1 in
  if b_2d b then
    let det := vx a * vy c - vy a * vx c in (V3 (vy c / det) (- vx c / det) 0, V3 (- vy a / det) (vx a / det) 0, v0)
  else
    let e := lat b 2 in
    let det := dot a (cross c e) in (vscale (/ det) (cross c e), vscale (/ det) (cross e a), vscale (/ det) (cross a c)).
(** static_cast<unsigned int> of a rounded float: the value if it is representable, otherwise (not a number, negative, too large) the
    C++ standard leaves the behaviour undefined; [cast] gives what an implementation does.  [None] is not-a-number. *)
Definition cast_ok (cast : option Z -> nat) : Prop := forall z, (0 <= z < 2 ^ 32)%Z -> cast (Some z) = Z.to_nat z.
(* StaticStructureFactorDirect.cc:242-252 *)
Definition quad (cast : option Z -> nat) (coef_a coef_b coef_c_min coef_c_max : R) (n : nat) : nat * nat :=
  let b_over_2a := coef_b / (2 * coef_a) in
  let root c := let d := b_over_2a * b_over_2a - c / coef_a in if Rltb d 0 then None else Some (- b_over_2a + sqrt d) in
  (cast (option_map Zfloor (root coef_c_min)), Nat.min (cast (option_map Zceil (root coef_c_max))) n).
(* StaticStructureFactorDirect.cc:254-272, 328-350, 397-420: the innermost loop, with the multiples of the last vector *)
Definition k_line (cast : option Z -> nat) (keep : nat -> bool) (add_all : bool) (k_max k_min : R) (base last : vec3) (n : nat) : list vec3 :=
  let coef_a := dot last last in
  let coef_b := -2 * dot base last in
  let coef_c_min := dot base base - k_min * k_min in
  let coef_c_max := dot base base - k_max * k_max in
  let '(lo, hi) := quad cast coef_a coef_b coef_c_min coef_c_max n in
  flat_map (fun k =>
    let k_vec := vadd base (vscale (INR k) last) in
    let q_distance_sq := dot k_vec k_vec / TWO_PI / TWO_PI in
    if Rleb q_distance_sq (k_max / TWO_PI * (k_max / TWO_PI)) && Rleb (k_min / TWO_PI * (k_min / TWO_PI)) q_distance_sq && (add_all || keep k)
    then [k_vec] else []) (seq lo (Nat.min hi n - lo)).
Definition ceil_u (cast : option Z -> nat) (x : R) : nat := cast (Some (Zceil x)).
(* StaticStructureFactorDirect.cc:199-203, 218-222: no pruning *)
Definition all_3d (n : nat) (q_max q_volume : R) : bool := Rltb (PI * (q_max * q_max * q_max) / (6 * q_volume)) (INR n) || (n =? 0)%nat.
Definition all_2d (n : nat) (q_max q_area : R) : bool := Rltb (PI * (q_max * q_max) / (4 * q_area)) (INR n) || (n =? 0)%nat.
(* StaticStructureFactorDirect.cc:274-428 without the order of the result; [keep kx ky kz] is the comparison with the random number *)
Definition k_grid (cast : option Z -> nat) (keep : nat -> nat -> nat -> bool) (b : box) (k_max k_min : R) (num : nat) : list vec3 :=
  let '(b1, b2, b3) := recip b in
  let q_max := k_max / TWO_PI in
  let bx := vscale TWO_PI b1 in let by_ := vscale TWO_PI b2 in let bz := vscale TWO_PI b3 in
  let dq_x := norm b1 in let dq_y := norm b2 in let dq_z := norm b3 in
  if b_2d b then
    let add_all := all_2d num q_max (dq_x * dq_y) in
    let n_kx := ceil_u cast (q_max / dq_x) in let n_ky := ceil_u cast (q_max / dq_y) in
    flat_map (fun kx => k_line cast (keep kx 0%nat) add_all k_max k_min (vscale (INR kx) bx) by_ n_ky) (seq 0 n_kx)
  else
    let add_all := all_3d num q_max (dq_x * dq_y * dq_z) in
    let n_kx := ceil_u cast (q_max / dq_x) in let n_ky := ceil_u cast (q_max / dq_y) in let n_kz := ceil_u cast (q_max / dq_z) in
    flat_map (fun kx => flat_map (fun ky =>
      k_line cast (keep kx ky) add_all k_max k_min (vadd (vscale (INR kx) bx) (vscale (INR ky) by_)) bz n_kz) (seq 0 n_ky)) (seq 0 n_kx).
(** The threads append to one concurrent vector, so the vectors come in any order. *)
Definition sampled (cast : option Z -> nat) (b : box) (k_max k_min : R) (num : nat) (ks : list vec3) : Prop :=
  exists keep, Permutation ks (k_grid cast keep b k_max k_min num).

(** * Direct *)
(* StaticStructureFactorDirect.cc:129-152 *)
Definition compute_F (points : list vec3) (n_total : nat) (k : vec3) : cplx :=
  let F := fold_left (fun F r => let alpha := dot k r in cadd F (cos alpha, sin alpha)) points c0 in
  cscale (1 / sqrt (INR n_total)) F.
(* StaticStructureFactorDirect.cc:154-167 *)
Definition compute_S (F Fq : cplx) : R := fst (cmul (cconj F) Fq).

Record sfd := Sfd {
  sd_axis : axis; sd_num : nat;
  sd_n : bhc U32 unit;       (* m_k_histogram, m_local_k_histograms; m_reduce *)
  sd_s : bhc R unit;         (* m_structure_factor, m_local_structure_factor (same flag) *)
  sd_out : list R;           (* contents of m_structure_factor after normalisation *)
  sd_k : list vec3;          (* m_k_points *)
  sd_box : option box;       (* previous_box, box_assigned *)
  sd_min : option R }.       (* m_min_valid_k; None is infinity *)
(* StaticStructureFactorDirect.cc:34-57, StaticStructureFactor.cc:16-25; bins is unsigned *)
Definition sfd_make (bins : Z) (k_max k_min : R) (num : nat) : option sfd :=
  if (bins =? 0)%Z then None else if Rleb k_max 0 then None else if Rltb k_min 0 then None else if Rleb k_max k_min then None
  else let a := Axis bins k_min k_max in
       Some (Sfd a num (bhc_make (u32 0) [a]) (bhc_make 0 [a]) (repeat 0 (Z.to_nat bins)) [] None None).
(** One call of compute: the system, query points and total number (both or neither), the k vectors sampled if the box is new, and the
    execution of the loop over k vectors. *)
Record sf_in := SfIn { si_box : box; si_pts : list vec3; si_q : option (list vec3 * nat); si_ks : list vec3; si_ev : list (nat * nat) }.
(* diffraction.py compute *)
Definition si_query (f : sf_in) : list vec3 := match si_q f with Some (q, _) => q | None => si_pts f end.
Definition si_total (f : sf_in) : nat := match si_q f with Some (_, n) => n | None => length (si_pts f) end.
(* StaticStructureFactorDirect.cc:76-80, Debye.cc:70-74 *)
Definition min_length (b : box) : R :=
  let L := b_L b in if b_2d b then Rmin (vx L) (vy L) else Rmin (vx L) (Rmin (vy L) (vz L)).
Definition omin (o : option R) (x : R) : option R := match o with None => Some x | Some y => Some (Rmin y x) end.
(* StaticStructureFactorDirect.h:57-65 *)
Definition sfd_reset (s : sfd) : sfd :=
  Sfd (sd_axis s) (sd_num s) (bhc_reset (u32 0) (sd_n s)) (bhc_reset 0 (sd_s s)) (repeat 0 (Z.to_nat (ax_n (sd_axis s)))) (sd_k s) None None.
(* StaticStructureFactorDirect.cc:69-75 *)
Definition sfd_kpoints (s : sfd) (f : sf_in) : list vec3 :=
  match sd_box s with Some p => if box_eqb (si_box f) p then sd_k s else si_ks f | None => si_ks f end.
Definition sf_value (f : sf_in) (k : vec3) : R :=
  compute_S (compute_F (si_pts f) (si_total f) k) (compute_F (si_query f) (si_total f) k).
(* StaticStructureFactorDirect.cc:101-111 *)
Definition sf_frame_n (ks : list vec3) (f : sf_in) : frame U32 unit :=
  Frame (length ks) (fun i => [([norm (nth i ks v0)], u32 1)]) (si_ev f) tt.
Definition sf_frame_s (ks : list vec3) (f : sf_in) : frame R unit :=
  Frame (length ks) (fun i => [([norm (nth i ks v0)], sf_value f (nth i ks v0))]) (si_ev f) tt.
(* StaticStructureFactorDirect.cc:59-113 *)
Definition sfd_accumulate (s : sfd) (f : sf_in) : sfd :=
  let ks := sfd_kpoints s f in
  Sfd (sd_axis s) (sd_num s) (bhc_accumulate (u32 0) u32_add (sd_n s) (sf_frame_n ks f)) (bhc_accumulate 0 Rplus (sd_s s) (sf_frame_s ks f))
      (sd_out s) ks (Some (si_box f)) (omin (sd_min s) (TWO_PI / min_length (si_box f))).
(* diffraction.py compute; previous_box is assigned only when it differs, so keeping the equal box is the same *)
Definition sfd_compute (s : sfd) (reset : bool) (f : sf_in) : sfd := sfd_accumulate (if reset then sfd_reset s else s) f.
(* StaticStructureFactorDirect.cc:112-127 with StaticStructureFactor.h:37-43, 68-78 *)
Definition sfd_read (s : sfd) (ev1 ev2 : list (nat * nat)) : option sfd :=
  if bhc_reduce (sd_n s) then
    match bhc_read (u32 0) u32_add (sd_n s) ev1, bhc_read 0 Rplus (sd_s s) ev2 with
    | Some n, Some c =>
        match omap (fun i => match ma_get (h_counts (bhc_hist n)) (Z.of_nat i), ma_get (h_counts (bhc_hist c)) (Z.of_nat i) with
                             | Some k, Some x => Some (if (u32_val k =? 0)%Z then x else x / IZR (u32_val k))
                             | _, _ => None
                             end) (seq 0 (Z.to_nat (ax_n (sd_axis s)))) with
        | Some out => Some (Sfd (sd_axis s) (sd_num s) n c out (sd_k s) (sd_box s) (sd_min s))
        | None => None
        end
    | _, _ => None
    end
  else Some s.
Inductive sf_op := SfCompute (reset : bool) (f : sf_in) | SfRead (ev1 ev2 : list (nat * nat)).
Definition sfd_step (s : sfd) (o : sf_op) : option sfd :=
  match o with SfCompute r f => Some (sfd_compute s r f) | SfRead e1 e2 => sfd_read s e1 e2 end.
Definition sfd_run (s : sfd) (h : list sf_op) : option sfd := ofold sfd_step h s.

(** * Debye *)
(* util/utils.h:39-46 *)
Definition sinc (x : R) : R := if Reqb x 0 then 1 else sin x / x.
(** The constructor raises, or accepts; with one bin it divides by zero and the axis is made of infinities and not-a-numbers. *)
Record sdb := Sdb { db_axis : axis; db_s : bhc R unit; db_out : list R; db_min : option R }.
Inductive deb_made := DebRaised | DebNotFinite | DebOk (s : sdb).
(* StaticStructureFactorDebye.cc:27-61; 2 * (bins - 1) is computed in unsigned arithmetic *)
Definition deb_make (bins : Z) (k_max k_min : R) : deb_made :=
  if (bins =? 0)%Z then DebRaised else if Rleb k_max 0 then DebRaised else if Rltb k_min 0 then DebRaised else if Rleb k_max k_min then DebRaised
  else
    let d := ((2 * (bins - 1)) mod 2 ^ 32)%Z in
    if (d =? 0)%Z then DebNotFinite
    else let a := Axis bins (k_min - (k_max - k_min) / IZR d) (k_max + (k_max - k_min) / IZR d) in
         DebOk (Sdb a (bhc_make 0 [a]) (repeat 0 (Z.to_nat bins)) None).
(* diffraction.py k_values *)
Definition deb_k_values (s : sdb) : list R := bin_centers (db_axis s).
Section Debye.
  Variable j0 : R -> R.   (* std::cyl_bessel_j(0, x) *)
  (* StaticStructureFactorDebye.cc:88-114 *)
  Definition deb_term (b : box) (k distance : R) : R := if b_2d b then j0 (Rmax 0 k * distance) else sinc (k * distance).
  Definition deb_value (f : sf_in) (k : R) : R :=
    let distances := concat (compute_all_distances (si_box f) (si_pts f) (si_query f)) in
    fold_left (fun S d => S + deb_term (si_box f) k d) distances 0 / INR (si_total f).
  (* StaticStructureFactorDebye.cc:84-119; [si_ev] executes the loop over k values *)
  Definition deb_locals (a : axis) (f : sf_in) (ls : locals (option (hist R))) : locals (option (hist R)) :=
    run_local (Some (hist_make 0 [a]))
      (fun i o => bind o (fun h => hist_increment Rplus h (Z.of_nat i) (deb_value f (nth i (bin_centers a) 0)))) (si_ev f) ls.
  Definition deb_accumulate (s : sdb) (f : sf_in) : sdb :=
    let p := db_s s in
    Sdb (db_axis s) (Bhc (bhc_axes p) (bhc_hist p) (deb_locals (db_axis s) f (bhc_locals p)) (S (bhc_frames p)) (Some tt) true)
        (db_out s) (omin (db_min s) (2 * TWO_PI / min_length (si_box f))).
  (* StaticStructureFactorDebye.h:40-47 *)
  Definition deb_reset (s : sdb) : sdb := Sdb (db_axis s) (bhc_reset 0 (db_s s)) (repeat 0 (Z.to_nat (ax_n (db_axis s)))) None.
  Definition deb_compute (s : sdb) (reset : bool) (f : sf_in) : sdb := deb_accumulate (if reset then deb_reset s else s) f.
  (* StaticStructureFactorDebye.cc:122-128; without a frame the code stores not-a-number *)
  Definition deb_read (s : sdb) (ev : list (nat * nat)) : option sdb :=
    if bhc_reduce (db_s s) then
      match bhc_read 0 Rplus (db_s s) ev with
      | Some c => match omap (fun i => option_map (fun x => x / INR (bhc_frames c)) (ma_get (h_counts (bhc_hist c)) (Z.of_nat i))) (seq 0 (Z.to_nat (ax_n (db_axis s)))) with
                  | Some out => Some (Sdb (db_axis s) c out (db_min s))
                  | None => None
                  end
      | None => None
      end
    else Some s.
  Definition deb_step (s : sdb) (o : sf_op) : option sdb :=
    match o with SfCompute r f => Some (deb_compute s r f) | SfRead e1 _ => deb_read s e1 end.
  Definition deb_run (s : sdb) (h : list sf_op) : option sdb := ofold deb_step h s.
End Debye.
