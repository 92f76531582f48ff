(** Proofs about cells in single precision: positions, cell counts, reach of the shells, displacements. *)
From Coq Require Import Psatz.
From Verif Require Import LinkCellModel NListProofs MArrayProofs LinkCellProofs LinkCellProofs2 LinkCellProofs3 F32Proofs F32Proofs4 F32Props Vec FaabbProofs FaabbProofs2 FcellSpec FcellProofs.
Open Scope R_scope.

(** * Integer parts *)
Lemma ffloor_val (x : f32) : finite x = true -> ffloor x = Some (Zfloor (val x)).
Proof.
  destruct x as [s|s| |s m e H]; intros F; try discriminate; cbn [ffloor B2R].
  - rewrite (Zfloor_IZR 0). auto.
  - f_equal. unfold F2R. cbn [Fnum Fexp]. replace (if s then Z.neg m else Z.pos m) with (cond_Zopp s (Z.pos m)) by (destruct s; auto).
    destruct (Z.leb_spec 0 e).
    + change 2%Z with (radix_val radix2). rewrite <- IZR_Zpower, <- mult_IZR by auto. rewrite Zfloor_IZR. auto.
    + rewrite <- Zfloor_div by (apply Z.pow_nonzero; lia). f_equal. unfold Rdiv. f_equal. change 2%Z with (radix_val radix2). rewrite IZR_Zpower by lia. rewrite <- bpow_opp. f_equal. lia.
Qed.
Lemma ftruncate_val (x : f32) : finite x = true -> 0 <= val x -> ftruncate x = Some (Zfloor (val x)).
Proof.
  intros F P. rewrite <- ffloor_val by auto. destruct x as [s|s| |s m e H]; try discriminate; auto. destruct s; [|reflexivity].
  exfalso. cbn [B2R] in P. assert (F2R (Float radix2 (cond_Zopp true (Z.pos m)) e) < 0) by (apply F2R_lt_0; cbn; lia). lra.
Qed.

(** * The position along one axis *)
Lemma axis_share (L x : f32) : ordinary_length L -> on_axis L x -> 0 <= (val x + val L / 2) / val L <= 1.
Proof.
  intros [_ [HL _]] [_ H]. assert (P := bpow_gt_0 radix2 (-60)). apply Rabs_le_inv in H. split.
  - apply Rmult_le_pos; [lra|]. apply Rlt_le, Rinv_0_lt_compat. lra.
  - apply Rmult_le_reg_r with (val L); [lra|]. unfold Rdiv. rewrite Rmult_assoc, Rinv_l by lra. lra.
Qed.
Lemma frac_axis (L x d : f32) : ordinary_length L -> on_axis L x -> is d (rnd (val x - - (val L / 2))) ->
  finite (fdiv d L) = true /\ 0 <= val (fdiv d L) /\ Rabs (val (fdiv d L) - (val x + val L / 2) / val L) <= 3 * u.
Proof.
  intros OL Ox [Fd Vd]. assert (S := axis_share L x OL Ox). destruct OL as [FL [HL HL']]. destruct Ox as [Fx Hx]. assert (P := bpow_gt_0 radix2 (-60)).
  assert (U : 0 < u < / 1000) by (unfold u; lra).
  assert (LL : fmt (- (val L / 2))).
  { destruct (is_flo L (conj FL (conj HL HL'))) as [_ V]. rewrite <- V. apply fmt_val. }
  destruct (rnd_minus (val x) (- (val L / 2)) (fmt_val x) LL) as (e1 & E1 & R1). rewrite R1 in Vd. replace (val x - - (val L / 2)) with (val x + val L / 2) in Vd by ring. apply Rabs_le_inv in E1.
  set (t := (val x + val L / 2) / val L) in *. assert (Q : val d / val L = t * (1 + e1)) by (rewrite Vd; unfold t; field; lra).
  assert (B : 0 <= t * (1 + e1) <= 1 + u) by (split; [apply Rmult_le_pos; lra|]; nra).
  assert (F127 : 2 <= bpow radix2 127) by (change 2 with (bpow radix2 1); apply bpow_le; lia).
  destruct (is_div d L Fd) as [F V]; [lra|unfold fits; rewrite Q, Rabs_pos_eq; lra|]. rewrite Q in V.
  split; auto. rewrite V. split; [apply rnd_nonneg; lra|].
  destruct (rnd_err (t * (1 + e1))) as (e2 & n & E2 & N & ->). apply Rabs_le_inv in E2. apply Rabs_le_inv in N.
  assert (T : bpow radix2 (-150) <= u / 1000).
  { replace u with (bpow radix2 (-24)) by reflexivity. apply Rle_trans with (bpow radix2 (-34)); [apply bpow_le; lia|]. change (-34)%Z with (-24 + -10)%Z. rewrite bpow_plus. apply Rmult_le_compat_l; [apply bpow_ge_0|]. change (bpow radix2 (-10)) with (/ 1024). lra. }
  assert (A1 : - u <= t * e1 <= u) by (split; nra). set (w := t * e1) in *. replace (t * (1 + e1)) with (t + w) in * by (unfold w; ring).
  assert (A2 : - (u * (1 + u)) <= (t + w) * e2 <= u * (1 + u)) by (split; nra). replace ((t + w) * (1 + e2) + n - t) with (w + (t + w) * e2 + n) by ring. set (w2 := (t + w) * e2) in *. clearbody w w2. apply Rabs_le. unfold u in *. lra.
Qed.
Lemma cell_axis conv (L x a : f32) n : defined_conv conv -> ordinary_length L -> on_axis L x -> (1 <= n <= 4194304)%Z ->
  finite a = true -> 0 <= val a -> Rabs (val a - (val x + val L / 2) / val L) <= 3 * u ->
  exists c, fcell_axis conv a n = Some c /\ (0 <= c < n)%Z /\ near_cell L x n c.
Proof.
  intros HC OL Ox Hn Fa Pa Ea. assert (S := axis_share L x OL Ox). unfold near_cell, cell_position. set (t := (val x + val L / 2) / val L) in *. assert (U : 0 < u < / 1000) by (unfold u; lra).
  destruct (is_lit_Z n ltac:(lia)) as [Fn Vn]. assert (Bn : 1 <= IZR n <= 4194304) by (split; apply IZR_le; lia). apply Rabs_le_inv in Ea.
  assert (B : 0 <= val a * IZR n <= 2 * IZR n) by (split; [apply Rmult_le_pos; lra|apply Rmult_le_compat_r; lra]).
  assert (F127 : 8388608 <= bpow radix2 127) by (change 8388608 with (bpow radix2 23); apply bpow_le; lia).
  destruct (is_mul a (lit n 0) Fa Fn) as [F V]; [rewrite Vn; unfold fits; rewrite Rabs_pos_eq; lra|]. rewrite Vn in V.
  set (y := val (fmul a (lit n 0))) in *. assert (Py : 0 <= y) by (rewrite V; apply rnd_nonneg; lra).
  assert (Ey : Rabs (y - IZR n * t) <= 5 * u * IZR n).
  { rewrite V. destruct (rnd_err (val a * IZR n)) as (e & m & E & N & ->). apply Rabs_le_inv in E. apply Rabs_le_inv in N.
    assert (T : bpow radix2 (-150) <= u / 1000).
    { replace u with (bpow radix2 (-24)) by reflexivity. apply Rle_trans with (bpow radix2 (-34)); [apply bpow_le; lia|]. change (-34)%Z with (-24 + -10)%Z. rewrite bpow_plus. apply Rmult_le_compat_l; [apply bpow_ge_0|]. change (bpow radix2 (-10)) with (/ 1024). lra. }
    replace (val a * IZR n * (1 + e) + m - IZR n * t) with (IZR n * (val a - t + val a * e) + m) by ring.
    assert (A : - (u * (1 + 3 * u)) <= val a * e <= u * (1 + 3 * u)) by (split; nra). set (w := val a * e) in *.
    assert (A2 : Rabs (val a - t + w) <= (4 + / 100) * u) by (apply Rabs_le; clearbody w; unfold u in *; lra). apply Rabs_le_inv in A2.
    assert (A3 : - (IZR n * ((4 + / 100) * u)) <= IZR n * (val a - t + w) <= IZR n * ((4 + / 100) * u)) by (split; [rewrite <- Ropp_mult_distr_r_reverse|]; apply Rmult_le_compat_l; lra).
    assert (A4 : u <= u * IZR n) by nra. apply Rabs_le. lra. }
  assert (Yb : y <= 8388608) by (apply Rabs_le_inv in Ey; assert (IZR n * t <= IZR n) by nra; unfold u in *; lra).
  assert (Zf : (0 <= Zfloor y < 2 ^ 32)%Z).
  { split; [apply Zfloor_lub; auto|]. apply lt_IZR. eapply Rle_lt_trans; [apply Zfloor_lb|]. eapply Rle_lt_trans; [exact Yb|]. apply (IZR_lt 8388608). reflexivity. }
  exists (Zfloor y mod n)%Z. unfold fcell_axis. rewrite ffloor_val by auto. fold y. cbn [obind]. rewrite HC by auto. cbn [option_map]. rewrite Z.rem_mod_nonneg by lia.
  split; auto. split; [apply Z.mod_pos_bound; lia|]. exists y. auto.
Qed.
Lemma length_half_coord L x : ordinary_length L -> on_axis L x -> ordinary_coord x.
Proof. intros [_ [H0 H]] [F B]. assert (P := bpow_gt_0 radix2 (-60)). split; auto. lra. Qed.
Lemma in_box_ordinary b p : plain_box b -> in_box b p -> ordinary_point p.
Proof.
  intros (Lx & Ly & Lz & _) (Px & Py & Pz). split; [exact (length_half_coord _ _ Lx Px)|]. split; [exact (length_half_coord _ _ Ly Py)|].
  destruct (f2d b); [|exact (length_half_coord _ _ Lz Pz)]. destruct Pz as [F B]. split; auto. eapply Rle_trans; [exact B|]. apply bpow_le. lia.
Qed.
Lemma cell_coords conv b p dim : defined_conv conv -> plain_box b -> in_box b p -> dims_ok b dim ->
  exists c, fcell_coord conv b dim p = Some c /\ in_dim dim c /\ near_cells b p dim c.
Proof.
  intros HC PB IB DO. assert (OP := in_box_ordinary b p PB IB). destruct dim as [[dx dy] dz]. destruct DO as [(Dx & Dy & Dz) D2]. destruct PB as (Lx & Ly & Lz & Txy & Txz & Tyz). destruct IB as (Ix & Iy & Iz). destruct OP as (Vx & Vy & Vz).
  assert (Fvy := proj1 Vy). assert (Fvz := proj1 Vz).
  assert (T : is (fadd (fmul (fsub (fxz b) (fmul (fyz b) (fxy b))) (fvz p)) (fmul (fxy b) (fvy p))) 0).
  { apply add_zeros; [|now apply F32Props.mul_zero]. apply F32Props.mul_zero; [|exact Fvz]. apply sub_zeros; [exact Txz|]. apply F32Props.mul_zero; [exact Tyz|apply Txy]. }
  destruct (delta_ok _ _ _ Lx Vx T) as [Ex _]. destruct (delta_ok _ _ _ Ly Vy (F32Props.mul_zero _ _ Tyz Fvz)) as [Ey _].
  destruct (frac_axis _ _ _ Lx Ix Ex) as (F1 & P1 & A1). destruct (frac_axis _ _ _ Ly Iy Ey) as (F2 & P2 & A2).
  destruct (cell_axis conv _ _ _ dx HC Lx Ix Dx F1 P1 A1) as (cx & E1 & R1 & N1). destruct (cell_axis conv _ _ _ dy HC Ly Iy Dy F2 P2 A2) as (cy & E2 & R2 & N2).
  unfold fcell_coord, ffractional. cbn [fvx fvy fvz]. rewrite E1, E2. unfold near_cells. destruct (f2d b) eqn:ED.
  - rewrite (D2 eq_refl). assert (E3 : fcell_axis conv fzero 1 = Some 0%Z).
    { unfold fcell_axis. replace (ffloor (fmul fzero (lit 1 0))) with (Some 0%Z) by (vm_compute; reflexivity). cbn [obind]. rewrite (HC 0%Z) by lia. reflexivity. }
    rewrite E3. exists (cx, cy, 0%Z). split; auto. split; [simpl; lia|]. auto.
  - destruct (delta_ok _ _ fzero Lz Vz (conj eq_refl eq_refl)) as [_ Ez]. destruct (frac_axis _ _ _ Lz Iz Ez) as (F3 & P3 & A3). destruct (cell_axis conv _ _ _ dz HC Lz Iz Dz F3 P3 A3) as (cz & E3 & R3 & N3).
    rewrite E3. exists (cx, cy, cz). split; auto. split; [simpl; lia|auto].
Qed.
