(** C88: LinkCell with 32-bit integers. *)
From Coq Require Import ZArith Lia Psatz.
From Flocq Require Import Core BinarySingleNaN.
From Verif Require Import NListProofs MArrayProofs LinkCellProofs LinkCellProofs2 LinkCellProofs3 F32Proofs F32Proofs4 F32Props FaabbProofs FaabbProofs2 FaabbProps FcellProofs FcellProofs2 FcellProofs3 FcellProofs4 FcellProps Flc32Proofs Flc32Spec.
Open Scope Z_scope.

Lemma sound {S} (f : S -> fevent S) s l : fdrained f s l -> ~ ffaults f s.
Proof. intros H. induction H; intros F; inversion F; subst; try congruence; apply IHfdrained; congruence. Qed.
Lemma dimensions_2d conv b cw dx dy dz : fdimensions conv b cw = Some (dx, dy, dz) -> (if f2d b then 1 else dz) = dz.
Proof. unfold fdimensions. cbv zeta. destruct (f2d b); auto. destruct (fdim_axis conv _ cw); [|discriminate]. destruct (fdim_axis conv _ cw); [|discriminate]. congruence. Qed.
Lemma dimensions_pos conv b cw dim : unsigned_conv conv -> fdimensions conv b cw = Some dim -> dim_pos dim.
Proof.
  intros HU. unfold fdimensions. cbv zeta. assert (A : forall L z, fdim_axis conv L cw = Some z -> 0 < z).
  { intros L z. unfold fdim_axis. destruct (obind _ conv) as [y|] eqn:E; [|discriminate]. cbn [option_map]. intros H. injection H as <-. destruct (ftruncate _); [|discriminate]. cbn [obind] in E. apply HU in E. unfold atleast1. destruct (Z.eqb_spec y 0); lia. }
  destruct (fdim_axis conv _ cw) as [x|] eqn:Ex; [|discriminate]. destruct (fdim_axis conv (fvy _) cw) as [y|] eqn:Ey; [|discriminate].
  destruct (if f2d b then Some 1 else fdim_axis conv (fvz (fplanes b)) cw) as [z|] eqn:Ez; [|discriminate]. intros E. injection E as <-. apply A in Ex, Ey. split; auto. split; auto.
  destruct (f2d b); [injection Ez as <-; lia|apply A in Ez; auto].
Qed.
(** With fewer than 2^32 cells and points together, the constructor does what it does with unbounded integers, and so does every query of a point that has a cell. *)
Theorem C88_same conv b points cw dim : unsigned_conv conv -> fdimensions conv b cw = Some dim -> countable (length points) dim ->
  flc_make32 conv b points cw = option_map written (flc_make conv b points cw) /\
  forall lc q qi r_max r_min excl, flc_make conv b points cw = Some lc -> fcell_coord conv b dim q <> None -> short r_max cw ->
  forall l, flc_ball32 conv (written lc) q qi r_max r_min excl (Some l) <-> flc_ball conv lc q qi r_max r_min excl (Some l).
Proof.
  intros HU HF HC. assert (HD := dimensions_pos conv b cw dim HU HF). destruct dim as [[dx dy] dz]. assert (E1 := dimensions_2d conv b cw dx dy dz HF).
  destruct (list_same conv HU b points (dx, dy, dz) HD HC) as [LS _]. destruct (cells_sum points (dx, dy, dz) HD HC) as (C1 & C2 & C3).
  split.
  - unfold flc_make32, flc_make. destruct (negb (fnq_ok b points)); auto. rewrite HF. cbv zeta. rewrite E1. destruct (_ || _)%bool; auto. rewrite C3. destruct (num_cells (dx, dy, dz) <? 1); auto.
    rewrite LS. destruct (fcell_list conv b (dx, dy, dz) points); reflexivity.
  - intros lc q qi r_max r_min excl HM Hq HR l. unfold flc_make in HM. destruct (negb (fnq_ok b points)); [discriminate|]. rewrite HF in HM. cbv zeta in HM. rewrite E1 in HM.
    destruct (_ || _)%bool; [discriminate|]. destruct (num_cells (dx, dy, dz) <? 1); [discriminate|]. destruct (fcell_list conv b (dx, dy, dz) points) as [cl|] eqn:HL; [|discriminate]. cbn [option_map] in HM.
    assert (EL : lc = FLC b points cw (dx, dy, dz) cl) by congruence. subst lc. destruct (fcell_coord conv b (dx, dy, dz) q) as [pc|] eqn:Eq; [|congruence].
    apply (ball_same conv HU b points (dx, dy, dz) HD HC cw cl HL pc); auto. apply (coord_in conv HU b points (dx, dy, dz) HD HC q). auto.
Qed.
(** The cells of a box are counted by its volume. *)
Lemma cells_volume b cw dim : plain_box b -> fitting_width b cw -> dim_pos dim -> dims_ok b dim -> dim_fits b cw dim -> (IZR (num_cells dim) <= box_cells b cw)%R.
Proof.
  intros PB (Oc & _) HD DO DF. destruct dim as [[dx dy] dz]. destruct HD as (Dx & Dy & Dz), DO as (_ & D2), DF as (Fx & Fy & Fz).
  assert (Pc : (0 < val cw)%R) by (destruct Oc as [_ [Oc _]]; assert (P := bpow_gt_0 radix2 (-60)); lra).
  assert (Q : forall d L, (IZR d * val cw <= L * (1 + u) -> IZR d <= L * (1 + u) / val cw)%R) by (intros d L H; apply Rmult_le_reg_r with (val cw); auto; unfold Rdiv; rewrite Rmult_assoc, Rinv_l by lra; lra).
  apply Q in Fx, Fy. assert (Px : (0 < IZR dx)%R) by (apply IZR_lt; auto). assert (Py : (0 < IZR dy)%R) by (apply IZR_lt; auto). assert (Pz : (0 < IZR dz)%R) by (apply IZR_lt; auto).
  unfold box_cells, num_cells. rewrite !mult_IZR. apply Rmult_le_compat; [apply Rmult_le_pos; lra|lra|apply Rmult_le_compat; lra|]. destruct (f2d b); [rewrite D2 by auto; lra|]. apply Q, Fz. auto.
Qed.
(** In boxes without tilt whose volume, in cells, and number of points are below 2^32 together, everything said of LinkCell in C79 holds with the integers of the code. *)
Theorem C88_safe conv b points cw : defined_conv conv -> unsigned_conv conv -> plain_box b -> points <> [] -> Forall (in_box b) points -> fitting_width b cw ->
  (box_cells b cw + INR (length points) < 2 ^ 32)%R ->
  exists lc, flc_make conv b points cw = Some lc /\ flc_make32 conv b points cw = Some (written lc) /\
  forall q qi r_max r_min excl, in_box b q -> ordinary_radius r_max -> short r_max cw -> fpoint_args_ok r_max r_min = true ->
  exists l, flc_ball conv lc q qi r_max r_min excl (Some l) /\ forall res, flc_ball32 conv (written lc) q qi r_max r_min excl res <-> res = Some l.
Proof.
  intros HC HU PB HN HI HW HV. destruct (make_spec conv b points cw HC PB HN HI HW) as (lc & EM & EB & EP & EW & DO & DP & DF & EL). exists lc. split; auto.
  assert (V := cells_volume b cw (fl_dim lc) PB HW DP DO DF).
  assert (EF : fdimensions conv b cw = Some (fl_dim lc)).
  { assert (EM' := EM). unfold flc_make in EM'. destruct (negb (fnq_ok b points)); [discriminate|]. destruct (fdimensions conv b cw) as [[[dx dy] dz]|] eqn:EF; [|discriminate]. cbv zeta in EM'. rewrite (dimensions_2d conv b cw dx dy dz EF) in EM'.
    destruct (_ || _)%bool; [discriminate|]. destruct (_ <? 1); [discriminate|]. destruct (fcell_list conv b (dx, dy, dz) points) as [cl|]; [|discriminate]. cbn [option_map] in EM'. assert (EQ : lc = FLC b points cw (dx, dy, dz) cl) by congruence. rewrite EQ. reflexivity. }
  assert (CO : countable (length points) (fl_dim lc)).
  { destruct (fl_dim lc) as [[dx dy] dz]. destruct DO as ((Dx & Dy & Dz) & _). split; [lia|]. split; [lia|]. split; [lia|]. apply lt_IZR. rewrite plus_IZR, <- INR_IZR_INZ. change (IZR (2 ^ 32)) with 4294967296%R. replace (2 ^ 32)%R with 4294967296%R in HV by (simpl; ring). lra. }
  destruct (C88_same conv b points cw (fl_dim lc) HU EF CO) as [S1 S2]. split; [rewrite S1, EM; reflexivity|].
  intros q qi r_max r_min excl IQ Or HR HA.
  destruct (answer conv b points cw lc q qi r_max r_min excl HC PB HN HI HW EM IQ Or HA) as (pc & cells & l & Eq & _ & _ & _ & _ & _ & _ & _ & _ & HB & UN & _).
  exists l. split; auto. assert (H32 : flc_ball32 conv (written lc) q qi r_max r_min excl (Some l)) by (apply S2; auto; congruence).
  intros res. split; [|intros ->; auto]. intros H. destruct res as [l'|].
  - apply UN, (proj1 (S2 lc q qi r_max r_min excl EM ltac:(congruence) HR l') H).
  - exfalso. unfold flc_ball32 in H32, H. rewrite HA in H32, H. change (fm_box (written lc)) with (fl_box lc) in H32, H. change (fm_dim (written lc)) with (fl_dim lc) in H32, H. rewrite EB, Eq in H32, H. destruct H as [(? & ? & _)|[_ F]]; [discriminate|]. destruct H32 as [(? & _ & D)|[? _]]; [|discriminate]. exact (sound _ _ _ D F).
Qed.
(** A number of cells divisible by 2^32, or fewer than 2^32 cells that exceed it together with the points, are refused. *)
Theorem C88_refused conv b points cw dim : unsigned_conv conv -> fdimensions conv b cw = Some dim -> Z.of_nat (length points) < 2 ^ 32 ->
  num_cells dim mod 2 ^ 32 = 0 \/ num_cells dim < 2 ^ 32 <= num_cells dim + Z.of_nat (length points) ->
  flc_make32 conv b points cw = None.
Proof.
  intros HU HF HN H. assert (HD := dimensions_pos conv b cw dim HU HF). destruct dim as [[dx dy] dz]. assert (E1 := dimensions_2d conv b cw dx dy dz HF).
  unfold flc_make32. destruct (negb (fnq_ok b points)); auto. rewrite HF. cbv zeta. rewrite E1. destruct (_ || _)%bool; auto.
  assert (EN : num_cells32 (dx, dy, dz) = num_cells (dx, dy, dz) mod 2 ^ 32) by (unfold num_cells32, num_cells, u32; rewrite Z.mul_mod_idemp_l by lia; reflexivity).
  rewrite EN. destruct H as [->|[H1 H2]]; auto. destruct HD as (Dx & Dy & Dz). assert (P : 1 <= num_cells (dx, dy, dz)) by (unfold num_cells; assert (1 <= dx * dy) by nia; nia).
  rewrite Z.mod_small by lia. destruct (Z.ltb_spec (num_cells (dx, dy, dz)) 1); auto. unfold fcell_list32. rewrite EN, Z.mod_small by lia. set (nc := num_cells (dx, dy, dz)) in *. set (n := Z.of_nat (length points)) in *.
  assert (HH : heads32 n nc = None).
  { unfold heads32. replace (Z.to_nat nc) with (S (Z.to_nat (nc - 1))) by lia. cbn [seq fold_left]. cbn [obind].
    replace (wr (repeat 0 (Z.to_nat (u32 (n + nc)))) (Z.to_nat (u32 (n + Z.of_nat 0))) TERMINATOR) with (@None (list Z)).
    - generalize (seq 1 (Z.to_nat (nc - 1))). induction l; auto.
    - unfold wr. rewrite repeat_length. replace (u32 (n + nc)) with (n + nc - 2 ^ 32) by (unfold u32; rewrite <- (Z_mod_plus_full (n + nc) (-1) (2 ^ 32)); symmetry; apply Z.mod_small; lia).
      rewrite (u32_small (n + Z.of_nat 0)) by lia. destruct (Nat.ltb_spec (Z.to_nat (n + Z.of_nat 0)) (Z.to_nat (n + nc - 2 ^ 32))); auto. lia. }
  rewrite HH. replace (fold_left _ _ None) with (@None (list Z)); auto. generalize (rev (seq 0 (length points))). induction l; auto.
Qed.

(** * Too many cells *)
(** A plane of 69553 x 61751 cells of width 1: 2^32 + 7 cells. *)
Definition sheet : fbox := fmk_box (lit 69553 0) (lit 61751 0) fzero fzero fzero fzero true.
Definition late : fvec := FV (lit 34769 0) (lit 30875 0) fzero.
Definition early : fvec := FV (lit (-34773) 0) (lit (-30875) 0) fzero.
Lemma sheet_ok : plain_box sheet /\ all_periodic sheet /\ fitting_width sheet fone /\ ordinary_radius fone /\ half_box sheet fone /\ in_box sheet late /\ in_box sheet early /\ fdimensions cpp_conv sheet fone = Some (69553, 61751, 1).
Proof.
  assert (VX := is_lit_Z 69553 ltac:(lia)). assert (VY := is_lit_Z 61751 ltac:(lia)). assert (V1 := is_lit_Z 1 ltac:(lia)). change (lit 1 0) with fone in V1.
  assert (OL : forall m, (1 <= m < 16777216) -> ordinary_length (lit m 0)).
  { intros m Hm. destruct (is_lit_Z m ltac:(lia)) as [F V]. split; auto. rewrite V. assert (A := IZR_le 1 m ltac:(lia)). assert (B := IZR_le m 16777216 ltac:(lia)). split; [apply Rle_trans with (bpow radix2 0); [apply bpow_le; lia|cbn; lra]|apply Rle_trans with (bpow radix2 24); [cbn; lra|apply bpow_le; lia]]. }
  assert (O1 : ordinary_length fone) by (apply (OL 1); lia).
  split; [split; [apply OL; lia|split; [apply OL; lia|split; [|split; [|split]]; split; reflexivity]]|]. split; [repeat split; discriminate|].
  split; [split; auto; unfold fitting_axis; change (fvx (fL sheet)) with (lit 69553 0); change (fvy (fL sheet)) with (lit 61751 0); rewrite (proj2 VX), (proj2 VY), (proj2 V1); split; [lra|split; [lra|discriminate]]|].
  split; auto. split; [unfold half_box; change (fvx (fL sheet)) with (lit 69553 0); change (fvy (fL sheet)) with (lit 61751 0); rewrite (proj2 VX), (proj2 VY), (proj2 V1); split; [lra|split; [lra|discriminate]]|].
  assert (A : forall M m, is (lit M 0) (IZR M) -> Z.abs m < 16777216 -> 2 * Z.abs m <= M -> on_axis (lit M 0) (lit m 0)).
  { intros M m HM Hm H. destruct (is_lit_Z m ltac:(lia)) as [F V]. split; auto. rewrite V, (proj2 HM), <- abs_IZR. apply IZR_le in H. rewrite mult_IZR in H. lra. }
  assert (Z0 : finite fzero = true /\ (Rabs (val fzero) <= bpow radix2 (-20))%R) by (split; [reflexivity|]; change (val fzero) with 0%R; rewrite Rabs_R0; apply bpow_ge_0).
  split; [split; [apply A; [exact VX|lia|lia]|split; [apply A; [exact VY|lia|lia]|exact Z0]]|].
  split; [split; [apply A; [exact VX|lia|lia]|split; [apply A; [exact VY|lia|lia]|exact Z0]]|]. vm_compute. reflexivity.
Qed.
Lemma make32_fields conv b points cw lc : flc_make32 conv b points cw = Some lc -> fm_box lc = b /\ fm_points lc = points /\ fm_width lc = cw.
Proof.
  unfold flc_make32. destruct (negb (fnq_ok b points)); [discriminate|]. destruct (fdimensions conv b cw) as [[[dx dy] dz]|]; [|discriminate]. cbv zeta. destruct (_ || _)%bool; [discriminate|]. destruct (_ <? 1); [discriminate|].
  destruct (fcell_list32 _ _ _ _) as [l|]; [|discriminate]. cbn [option_map]. intros E. assert (EE : lc = FLC32 b points cw (dx, dy, if f2d b then 1 else dz) l) by congruence. rewrite EE. auto.
Qed.
(** A chain that comes back to its only member delivers it for ever. *)
Lemma stuck lc pc q qi r_max r_min s p : lm_cur s = Some 0 -> rd32 (fm_list lc) 0 = Some 0 -> nth_error (fm_points lc) 0 = Some p ->
  (let r := fnorm2 (fwrap (fm_box lc) (fvsub p q)) in Bltb r (fmul r_max r_max) && Bleb (fmul r_min r_min) r = true)%bool ->
  exists x, indices x = (qi, 0%nat) /\ fm_step lc pc q qi r_max r_min false s = FOut x s.
Proof.
  intros HC HL HP HB. cbv zeta in HB. eexists. split; [|unfold fm_step; rewrite HC, HL; cbn [andb]; change (0 =? TERMINATOR) with false; cbv iota zeta; change (Z.to_nat 0) with 0%nat; rewrite HP, HB; destruct s as [c sh seen]; cbn in HC; subst c; reflexivity]. reflexivity.
Qed.
Lemma stuck_for_ever {S} (f : S -> fevent S) x s : f s = FOut x s -> (forall k, fdelivers f s (repeat x k)) /\ (forall l, ~ fdrained f s l) /\ ~ ffaults f s.
Proof.
  intros E. split; [induction k; [apply fdl_none|apply fdl_out with s; auto]|]. split.
  - intros l H. induction H as [s E'|s s' l E' H IH|s y s' l E' H IH]; rewrite E in E'; try discriminate. apply IH. congruence.
  - intros H. induction H as [s E'|s s' E' H IH|s y s' E' H IH]; rewrite E in E'; try discriminate. apply IH. congruence.
Qed.
(** One point in the cell number 2^32 - 1: the index of its cell, counted behind the one point, is 0, the place of the point itself. The constructor
    accepts it, and a query next to it finds it again and again without end. *)
Theorem C88_endless_refuted : plain_box sheet /\ all_periodic sheet /\ fitting_width sheet fone /\ in_box sheet late /\ ordinary_radius fone /\ half_box sheet fone /\ fpoint_args_ok fone fzero = true /\
  exists lc pc x, flc_make32 cpp_conv sheet [late] fone = Some lc /\ fcell_coord cpp_conv sheet (fm_dim lc) late = Some pc /\ indices x = (0, 0)%nat /\
  (forall k, fdelivers (fm_step lc pc late 0 fone fzero false) (fm_start lc pc) (repeat x k)) /\ forall res, ~ flc_ball32 cpp_conv lc late 0 fone fzero false res.
Proof.
  destruct sheet_ok as (PB & AP & FW & O1 & HB & I1 & _). repeat (split; [solve [auto|reflexivity]|]).
  assert (M : option_map (fun lc => (fm_list lc, fm_dim lc)) (flc_make32 cpp_conv sheet [late] fone) = Some ([0; TERMINATOR; TERMINATOR; TERMINATOR; TERMINATOR; TERMINATOR; TERMINATOR; TERMINATOR], (69553, 61751, 1))) by (vm_compute; reflexivity).
  destruct (flc_make32 cpp_conv sheet [late] fone) as [lc|] eqn:EM; [|discriminate]. cbn [option_map] in M. assert (ML : fm_list lc = [0; TERMINATOR; TERMINATOR; TERMINATOR; TERMINATOR; TERMINATOR; TERMINATOR; TERMINATOR]) by congruence. assert (MD : fm_dim lc = (69553, 61751, 1)) by congruence.
  destruct (make32_fields _ _ _ _ _ EM) as (MB & MP & MW). assert (EC : fcell_coord cpp_conv sheet (69553, 61751, 1) late = Some (69545, 61750, 0)) by (vm_compute; reflexivity).
  destruct (stuck lc (69545, 61750, 0) late 0 fone fzero (fm_start lc (69545, 61750, 0)) late) as (x & Ex & ES).
  - unfold fm_start. cbn [lm_cur]. rewrite MP, MD. vm_compute. reflexivity.
  - rewrite ML. reflexivity.
  - rewrite MP. reflexivity.
  - rewrite MB. vm_compute. reflexivity.
  - exists lc, (69545, 61750, 0), x. rewrite MD. split; auto. split; auto. split; auto. destruct (stuck_for_ever _ _ _ ES) as (D1 & D2 & D3). split; auto.
    intros res. unfold flc_ball32. change (fpoint_args_ok fone fzero) with true. rewrite MB, MD, EC. intros [(l & _ & D)|[_ F]]; [apply (D2 l); auto|auto].
Qed.
(** One point in cell number 3: the constructor accepts it, and a query next to it raises, as the neighbouring cells have no place in the list. *)
Fixpoint fruns_out {S} (fuel : nat) (step : S -> fevent S) (s : S) : bool :=
  match fuel with O => false | Datatypes.S k => match step s with FDone => false | FMove s' | FOut _ s' => fruns_out k step s' | FFault => true end end.
Lemma fruns_out_ok {S} (step : S -> fevent S) k : forall s, fruns_out k step s = true -> ffaults step s.
Proof. induction k as [|k IH]; intros s H; [discriminate|]. cbn in H. destruct (step s) eqn:E; [eapply ff_out|eapply ff_move| |apply ff_here]; eauto. discriminate. Qed.
Theorem C88_raises_refuted : plain_box sheet /\ all_periodic sheet /\ fitting_width sheet fone /\ in_box sheet early /\ ordinary_radius fone /\ half_box sheet fone /\ fpoint_args_ok fone fzero = true /\
  exists lc, flc_make32 cpp_conv sheet [early] fone = Some lc /\ forall res, flc_ball32 cpp_conv lc early 0 fone fzero false res <-> res = None.
Proof.
  destruct sheet_ok as (PB & AP & FW & O1 & HB & _ & I1 & _). repeat (split; [solve [auto|reflexivity]|]).
  assert (M : match flc_make32 cpp_conv sheet [early] fone with None => false | Some lc => match fcell_coord cpp_conv (fm_box lc) (fm_dim lc) early with None => false | Some pc => fruns_out 100 (fm_step lc pc early 0 fone fzero false) (fm_start lc pc) end end = true) by (vm_compute; reflexivity).
  destruct (flc_make32 cpp_conv sheet [early] fone) as [lc|] eqn:EM; [|discriminate]. exists lc. split; auto. destruct (fcell_coord cpp_conv (fm_box lc) (fm_dim lc) early) as [pc|] eqn:EC; [|discriminate].
  apply fruns_out_ok in M. intros res. unfold flc_ball32. change (fpoint_args_ok fone fzero) with true. rewrite EC. split; [|intros ->; right; auto]. intros [(l & _ & D)|[-> _]]; auto. exfalso. exact (sound _ _ _ D M).
Qed.

(** * Cases *)
Lemma cpp_unsigned : unsigned_conv cpp_conv.
Proof. intros z c. unfold cpp_conv. destruct (Z.leb_spec 0 z), (Z.ltb_spec z (2 ^ 32)); cbn [andb]; intros E; try discriminate. injection E as <-. lia. Qed.
Lemma x86_unsigned : unsigned_conv x86_conv.
Proof. intros z c. unfold x86_conv. destruct (_ && _)%bool; intros E; injection E as <-; [apply Z.mod_pos_bound|]; lia. Qed.
(** Two points across a boundary, in cells of width 2: 125 cells. *)
Example C88_case :
  defined_conv cpp_conv /\ unsigned_conv cpp_conv /\ plain_box edge_box /\ Forall (in_box edge_box) two_points /\ fitting_width edge_box (lit 2 0) /\ (box_cells edge_box (lit 2 0) + INR (length two_points) < 2 ^ 32)%R /\
  ordinary_radius (lit 3 0) /\ short (lit 3 0) (lit 2 0) /\ fdimensions cpp_conv edge_box (lit 2 0) = Some (5, 5, 5) /\ countable 2 (5, 5, 5) /\
  exists lc l, flc_make32 cpp_conv edge_box two_points (lit 2 0) = Some lc /\ flc_ball32 cpp_conv lc (nth 1 two_points fv0) 1 (lit 3 0) fzero true (Some l) /\ map indices l = [(1, 0)]%nat.
Proof.
  destruct C79_case as (PB & AP & IB & FW & Or & _ & _ & (lc & l & EM & EB & EI) & _).
  assert (V10 := proj2 (is_lit_Z 10 ltac:(lia))). assert (V2 := proj2 (is_lit_Z 2 ltac:(lia))).
  assert (BC : (box_cells edge_box (lit 2 0) + INR (length two_points) < 2 ^ 32)%R).
  { unfold box_cells. change (f2d edge_box) with false. change (fvx (fL edge_box)) with (lit 10 0). change (fvy (fL edge_box)) with (lit 10 0). change (fvz (fL edge_box)) with (lit 10 0). rewrite V10, V2. unfold u. simpl. lra. }
  assert (SH : short (lit 3 0) (lit 2 0)) by (vm_compute; reflexivity).
  split; [exact cpp_defined|]. split; [exact cpp_unsigned|]. split; auto. split; auto. split; auto. split; auto. split; auto. split; auto. split; [vm_compute; reflexivity|]. split; [vm_compute; repeat split; reflexivity|].
  destruct (C88_safe cpp_conv edge_box two_points (lit 2 0) cpp_defined cpp_unsigned PB ltac:(discriminate) IB FW BC) as (lc' & E1 & E2 & H). assert (EL : lc' = lc) by congruence. subst lc'.
  assert (IQ : in_box edge_box (nth 1 two_points fv0)) by (apply (proj1 (Forall_forall _ _) IB), nth_In; simpl; lia).
  destruct (H (nth 1 two_points fv0) 1%nat (lit 3 0) fzero true IQ Or SH eq_refl) as (l' & B1 & B2). exists (written lc), l'. split; auto. split; [apply B2; auto|].
  destruct (answer cpp_conv edge_box two_points (lit 2 0) lc (nth 1 two_points fv0) 1 (lit 3 0) fzero true cpp_defined PB ltac:(discriminate) IB FW EM IQ Or eq_refl) as (pc & cells & l0 & _ & _ & _ & _ & _ & _ & _ & _ & _ & _ & UN & _).
  apply UN in B1. apply UN in EB. rewrite <- EI. congruence.
Qed.
(** A refused number of cells: 65536 x 65536 cells of width 1. *)
Example C88_refused_case : let b := fmk_box (lit 65536 0) (lit 65536 0) fzero fzero fzero fzero true in
  fdimensions cpp_conv b fone = Some (65536, 65536, 1) /\ num_cells (65536, 65536, 1) mod 2 ^ 32 = 0 /\ flc_make32 cpp_conv b [fv0] fone = None.
Proof. vm_compute. repeat split. Qed.

Print Assumptions C88_same.
Print Assumptions C88_safe.
Print Assumptions C88_refused.
Print Assumptions C88_endless_refuted.
Print Assumptions C88_raises_refuted.
