(** C84 with the integer types of the code. *)
From Coq Require Import Reals Lra ZArith Lia List.
From Flocq Require Import Core BinarySingleNaN.
From Verif Require Import F32Proofs F32Props NList32Props FaabbProofs FaabbProps FcellProofs FcellProps FnearProps FcqProofs FcqProofs2 FcqProps.
From Verif Require Import Fcq32Model FcqSpec.
Import ListNotations.
Open Scope Z_scope.

Lemma i32_ok z : - 2 ^ 31 <= z < 2 ^ 31 -> i32 z = Some z.
Proof. intros H. unfold i32. destruct (Z.leb_spec (- 2 ^ 31) z), (Z.ltb_spec z (2 ^ 31)); cbn [andb]; auto; lia. Qed.
Lemma in_grid g cx cy cz : fin_grid g (cx, cy, cz) = true <-> 0 <= cx < fg_nx g /\ 0 <= cy < fg_ny g /\ 0 <= cz < fg_nz g.
Proof. unfold fin_grid. rewrite Bool.negb_true_iff, !Bool.orb_false_iff, !Z.ltb_ge, !Z.leb_gt. lia. Qed.

Section Grid.
Variable g : fgrid.
Hypothesis HG : grid_ok g.
Hypothesis HB : fg_nx g * fg_ny g * fg_nz g <= 2 ^ 31.
Local Notation nx := (fg_nx g). Local Notation ny := (fg_ny g). Local Notation nz := (fg_nz g).
Lemma products : 0 < nx <= 2 ^ 31 /\ 0 < ny <= 2 ^ 31 /\ 0 < nz <= 2 ^ 31 /\ 0 < nx * ny <= 2 ^ 31.
Proof. destruct HG as (A & B & C). assert (0 < nx * ny) by nia. nia. Qed.
Lemma number_bounds cx cy cz : 0 <= cx < nx -> 0 <= cy < ny -> 0 <= cz < nz ->
  0 <= cz * ny <= cz * ny + cy /\ cz * ny + cy < ny * nz /\ ny * nz <= 2 ^ 31 /\ 0 <= (cz * ny + cy) * nx <= (cz * ny + cy) * nx + cx /\ (cz * ny + cy) * nx + cx < nx * ny * nz.
Proof.
  intros X Y Z. assert (P := products). assert (0 <= cz * ny) by nia. assert (cz * ny + cy < ny * nz) by nia. assert (0 <= (cz * ny + cy) * nx) by nia. split; [lia|]. split; [lia|]. split; [nia|]. split; [lia|]. nia.
Qed.
Lemma number32 cx cy cz : fin_grid g (cx, cy, cz) = true -> fcell_number32 g (cx, cy, cz) = Z.of_nat (fcell_number g (cx, cy, cz)) /\ fcell_number32 g (cx, cy, cz) < fn_cells32 g.
Proof.
  intros H. apply in_grid in H as (X & Y & Z). destruct (number_bounds cx cy cz X Y Z) as (A & B & C & D & E). assert (P := products). unfold fcell_number32, fcell_number, fn_cells32.
  rewrite (u32_small (cz * ny)) by lia. rewrite (u32_small (cz * ny + cy)) by lia. rewrite (u32_small ((cz * ny + cy) * nx)) by lia. rewrite (u32_small ((cz * ny + cy) * nx + cx)) by lia.
  rewrite (u32_small (nx * ny)) by lia. rewrite (u32_small (nx * ny * nz)) by lia. rewrite Z2Nat.id by lia. split; auto.
Qed.
Lemma cells32 : fn_cells32 g = nx * ny * nz.
Proof. assert (P := products). unfold fn_cells32. rewrite (u32_small (nx * ny)) by lia. apply u32_small. nia. Qed.
Lemma row32 cx y z : 0 <= cx < nx -> 0 <= y < ny -> 0 <= z < nz ->
  let row := (z * ny + y) * nx + cx in let c0 := row + (if 0 <? cx then -1 else 0) in let c1 := row + (if cx <? nx - 1 then 1 else 0) in
  frow32 g cx y z = Some (c0, c1) /\ 0 <= c0 /\ 0 <= c1.
Proof.
  intros X Y Z. destruct (number_bounds cx y z X Y Z) as (A & B & C & D & E). assert (P := products). cbv zeta. unfold frow32.
  assert (F : (z * ny + y) * nx + nx <= nx * ny * nz) by nia.
  rewrite (i32_ok (z * ny)) by lia. cbn [obind]. rewrite (i32_ok (z * ny + y)) by lia. cbn [obind]. rewrite (i32_ok ((z * ny + y) * nx)) by lia. cbn [obind]. rewrite (i32_ok ((z * ny + y) * nx + cx)) by lia. cbn [obind].
  destruct (Z.ltb_spec 0 cx), (Z.ltb_spec cx (nx - 1)); rewrite !i32_ok by lia; cbn [obind]; rewrite ?i32_ok by lia; cbn [obind]; (split; [reflexivity|lia]).
Qed.
End Grid.
(** The iterator makes the same steps. *)
Lemma step32 cg c q qi r_max r_min excl s : grid_ok (fcg_grid cg) -> fg_nx (fcg_grid cg) * fg_ny (fcg_grid cg) * fg_nz (fcg_grid cg) <= 2 ^ 31 -> fin_grid (fcg_grid cg) c = true ->
  fcb_step32 cg c q qi r_max r_min excl s = fcb_step cg c q qi r_max r_min excl s.
Proof.
  intros HG HB H. destruct c as [[cx cy] cz]. apply in_grid in H as (X & Y & Z). unfold fcb_step32, fcb_step. cbv zeta. destruct (1 <? cb_dz s); [reflexivity|].
  destruct (Z.ltb_spec (cz + cb_dz s) 0); [reflexivity|]. destruct (Z.leb_spec (fg_nz (fcg_grid cg)) (cz + cb_dz s)); [reflexivity|]. cbn [orb]. destruct (1 <? cb_dy s); [reflexivity|].
  destruct (Z.ltb_spec (cy + cb_dy s) 0); [reflexivity|]. destruct (Z.leb_spec (fg_ny (fcg_grid cg)) (cy + cb_dy s)); [reflexivity|]. cbn [orb]. destruct (cb_block s) as [[i e]|]; [reflexivity|].
  destruct (row32 (fcg_grid cg) HG HB cx (cy + cb_dy s) (cz + cb_dz s)) as (E & P0 & P1); [lia|lia|lia|]. rewrite E. rewrite (proj2 (Z.ltb_ge _ _) P0), (proj2 (Z.ltb_ge _ _) P1). reflexivity.
Qed.
Lemma drained_ext {S} (f h : S -> fevent S) : (forall s, f s = h s) -> forall s l, fdrained f s l -> fdrained h s l.
Proof. intros E s l H. induction H; [apply fdr_done|eapply fdr_move|eapply fdr_out]; rewrite <- ?E; eauto. Qed.
Lemma drained_sound {S} (f : S -> fevent S) s l : fdrained f s l -> ~ ffaults f s.
Proof. intros H. induction H; intros F; inversion F; subst; try congruence; apply IHfdrained; congruence. Qed.
(** Building the grid gives the same arrays. *)
Lemma build32 cint b points r : let g := fsetup_grid cint b r in grid_ok g -> fg_nx g * fg_ny g * fg_nz g <= 2 ^ 31 -> fg_nx g < 2 ^ 31 -> fg_ny g < 2 ^ 31 -> fg_nz g < 2 ^ 31 ->
  fbuild_grid32 cint b points r = Some (fbuild_grid cint b points r).
Proof.
  intros g HG HB BX BY BZ. unfold fbuild_grid32, fbuild_grid. destruct (Bleb r fzero); [reflexivity|]. unfold fsetup_grid32, fgrid_dim32. fold g. cbv zeta.
  assert (G := HG). destruct G as (GX & GY & GZ). rewrite !i32_ok by lia. cbn [option_map]. rewrite !u32_small by lia.
  replace (FGrid (fg_inv g) (fg_min g) (fg_nx g) (fg_ny g) (fg_nz g)) with g by (destruct g; reflexivity). rewrite !(proj2 (Z.eqb_neq _ _)) by lia. cbn [orb].
  assert (EM : map (fun e => (Z.to_nat (fst e), snd e)) (fmapping32 cint b g r points) = fmapping cint b g r points).
  { unfold fmapping32, fmapping. rewrite flat_map_concat_map, concat_map, map_map, <- flat_map_concat_map. apply flat_map_ext. intros i.
    rewrite flat_map_concat_map, concat_map, map_map, <- flat_map_concat_map. apply flat_map_ext. intros t. unfold fentry32, fentry, fcell_safe. cbv zeta. destruct (fcell_xyz cint g (ft_p t)) as [[cx cy] cz].
    destruct (fin_grid g (cx, cy, cz)) eqn:E; [|reflexivity]. cbn [map fst snd]. rewrite (proj1 (number32 g HG HB cx cy cz E)), Nat2Z.id. reflexivity. }
  replace (existsb _ _) with false.
  - rewrite EM, (cells32 g HG HB). reflexivity.
  - symmetry. apply Bool.not_true_is_false. intros H. apply existsb_exists in H as (e & He & L). apply Z.leb_le in L. unfold fmapping32 in He. apply in_flat_map in He as (i & _ & He). apply in_flat_map in He as (t & _ & He).
    unfold fentry32 in He. cbv zeta in He. destruct (fcell_xyz cint g (ft_p t)) as [[cx cy] cz]. destruct (fin_grid g (cx, cy, cz)) eqn:E; [|destruct He]. destruct He as [<-|[]]. cbn [fst] in L.
    destruct (number32 g HG HB cx cy cz E). lia.
Qed.
(** With at most 2^31 cells the unbounded integers of the model are those of the program, and nothing is undefined. *)
Theorem C84_machine cint b points q qi r_max r_min excl res : (Z.of_nat (length points) <= 2 ^ 31)%Z ->
  let g := fsetup_grid cint b r_max in grid_ok g -> fg_nx g * fg_ny g * fg_nz g <= 2 ^ 31 -> fg_nx g < 2 ^ 31 -> fg_ny g < 2 ^ 31 -> fg_nz g < 2 ^ 31 ->
  (fcq_ball32 cint b points q qi r_max r_min excl res <-> fcq_ball cint b points q qi r_max r_min excl res).
Proof.
  intros HN g HG HB BX BY BZ. unfold fcq_ball32, fcq_ball. rewrite (build32 cint b points r_max HG HB BX BY BZ). destruct (fnq_ok b points && fcq_args_ok b r_max r_min)%bool eqn:HA; [|tauto].
  apply andb_prop in HA as [_ HA].
  assert (Hr : Bleb r_max fzero = false).
  { assert (HA' := HA). unfold fcq_args_ok, fpoint_args_ok in HA'. cbv zeta in HA'. apply andb_prop in HA' as [_ HA']. apply andb_prop in HA' as [HA' _]. apply negb_true_iff in HA'. auto. }
  destruct (fcq_visit cint b points r_max q qi r_max r_min excl Hr HG HN) as (cg & EB & EG & _ & HV). rewrite EB. unfold fcq_single32, fcq_single. rewrite HA. destruct (fcg_buf cg) eqn:EF; [tauto|].
  unfold fcell_safe. cbv zeta. rewrite EG in *. fold g in HV |- *. destruct (fin_grid g (fcell_xyz cint g q)) eqn:Gq; [|tauto].
  destruct (HV eq_refl) as (l0 & D & _). assert (ST : forall s, fcb_step32 cg (fcell_xyz cint g q) q qi r_max r_min excl s = fcb_step cg (fcell_xyz cint g q) q qi r_max r_min excl s) by (intros s; apply step32; rewrite EG; auto).
  split.
  - intros [F|(l' & -> & D')]; [exfalso; refine (drained_sound _ _ _ _ F); eapply drained_ext; [|exact D]; intros s; symmetry; apply ST|]. exists l'. split; auto. eapply drained_ext; [apply ST|exact D'].
  - intros (l' & -> & D'). right. exists l'. split; auto. eapply drained_ext; [|exact D']. intros s. symmetry. apply ST.
Qed.
Print Assumptions C84_machine.
(** Beyond that it is not: in a box of length 1626, a radius of 1 makes 1629 * 1629 * 1629 cells, 27813893 modulo 2^32. Counting a single
    point at the origin writes far behind the end of the array: every outcome is possible. *)
Definition wide_box : fbox := fmk_box (lit 1626 0) (lit 1626 0) (lit 1626 0) fzero fzero fzero false.
Theorem C84_overflow_refuted : plain_box wide_box /\ in_box wide_box fv0 /\ fitting_radius wide_box fone /\ fcq_args_ok wide_box fone fzero = true /\
  forall q qi excl res, fcq_ball32 x86_int wide_box [fv0] q qi fone fzero excl res.
Proof.
  assert (V1 := is_lit_Z 1 ltac:(lia)). assert (VL := proj2 (is_lit_Z 1626 ltac:(lia))). change (lit 1 0) with fone in V1. destruct V1 as [F1 V1].
  assert (OL : ordinary_length (lit 1626 0)) by (split; [apply (is_lit_Z 1626); lia|]; rewrite VL; split; [apply Rle_trans with (bpow radix2 0); [apply bpow_le; lia|cbn; lra]|apply Rle_trans with (bpow radix2 11); [cbn; lra|apply bpow_le; lia]]). assert (O1 : ordinary_length fone) by (change fone with (lit 1 0); apply lit_length; lia).
  assert (Z0 : is fzero 0) by (split; reflexivity).
  split; [repeat split; try apply OL; reflexivity|].
  split; [assert (A : on_axis (lit 1626 0) fzero) by (split; [reflexivity|]; change (val fzero) with 0%R; rewrite VL, Rabs_R0; lra); split; [exact A|split; [exact A|exact A]]|].
  split; [split; [exact O1|]; rewrite V1; change (fvx (fL wide_box)) with (lit 1626 0); change (fvy (fL wide_box)) with (lit 1626 0); change (fvz (fL wide_box)) with (lit 1626 0); rewrite VL; split; [lra|split; [lra|intros _; lra]]|].
  split; [vm_compute; reflexivity|].
  intros q qi excl res. unfold fcq_ball32. destruct (_ && _)%bool eqn:E; [|vm_compute in E; discriminate].
  destruct (fbuild_grid32 x86_int wide_box [fv0] fone) as [o|] eqn:B; [|exact I]. exfalso. assert (X : (match fbuild_grid32 x86_int wide_box [fv0] fone with None => true | _ => false end) = true) by (vm_compute; reflexivity). rewrite B in X. discriminate.
Qed.
Print Assumptions C84_overflow_refuted.
(** 1290 radii per side are fine. *)
Example C84_machine_case : let g := fsetup_grid x86_int (fmk_box (lit 1287 0) (lit 1287 0) (lit 1287 0) fzero fzero fzero false) fone in
  grid_ok g /\ (fg_nx g = 1290 /\ fg_ny g = 1290 /\ fg_nz g = 1290) /\ fg_nx g * fg_ny g * fg_nz g <= 2 ^ 31.
Proof. vm_compute. repeat split; discriminate. Qed.
