(** Proofs about the cell list and the ball query of LinkCell. *)
From Verif Require Import LinkCellModel NListProofs AABBProofs2 BoxProofs BoxProofs2 MArrayProofs LinkCellProofs LinkCellSpec.
Open Scope Z_scope.

(** ** Linked lists *)
Fixpoint chain (cl : cell_list) (k : nat) (l : list nat) : Prop :=
  match l with
  | [] => nth_error cl k = Some None
  | j :: l' => nth_error cl k = Some (Some j) /\ chain cl j l'
  end.
Lemma chain_upd cl p x : forall l k, k <> p -> ~ In p l -> chain cl k l -> chain (upd cl p x) k l.
Proof.
  induction l as [|j l IH]; intros k Hk Hp; simpl.
  - rewrite upd_other; auto.
  - rewrite upd_other by auto. intros [E C]. split; auto. apply IH; simpl in *; intuition.
Qed.
Definition pt_cell (b : box) (dim : Z * Z * Z) (points : list vec3) (c : Z) (j : nat) : bool :=
  match get_cell b dim (nth j points v0) with Some c' => c' =? c | None => false end.
Definition contents (b : box) (dim : Z * Z * Z) (points : list vec3) (c : Z) : list nat :=
  filter (pt_cell b dim points c) (seq 0 (length points)).

Lemma fold_link_none b dim points l : fold_left (link_one b dim points) l None = None.
Proof. induction l; simpl; auto. Qed.
Lemma cell_list_spec b dim points cl :
  (forall j c, (j < length points)%nat -> get_cell b dim (nth j points v0) = Some c -> 0 <= c < num_cells dim) ->
  compute_cell_list b dim points = Some cl ->
  (forall j, (j < length points)%nat -> exists c, get_cell b dim (nth j points v0) = Some c) /\
  (forall c, 0 <= c < num_cells dim -> chain cl (length points + Z.to_nat c) (contents b dim points c)).
Proof.
  intros Hr. unfold compute_cell_list, contents. set (n := length points) in *. set (nc := Z.to_nat (num_cells dim)).
  assert (G : forall m cl0 cl, (m <= n)%nat -> length cl0 = (n + nc)%nat ->
    (forall j, (m <= j < n)%nat -> exists c, get_cell b dim (nth j points v0) = Some c) ->
    (forall c, 0 <= c < num_cells dim -> chain cl0 (n + Z.to_nat c) (filter (pt_cell b dim points c) (seq m (n - m)))) ->
    fold_left (link_one b dim points) (rev (seq 0 m)) (Some cl0) = Some cl ->
    (forall j, (j < n)%nat -> exists c, get_cell b dim (nth j points v0) = Some c) /\
    (forall c, 0 <= c < num_cells dim -> chain cl (n + Z.to_nat c) (filter (pt_cell b dim points c) (seq 0 n)))).
  { induction m as [|m IH]; intros cl0 cl' Hm Hl Hd Hc Hf.
    - simpl in Hf. injection Hf as <-. rewrite Nat.sub_0_r in Hc. split; auto. intros; apply Hd; lia.
    - rewrite seq_S, rev_unit in Hf. cbn [fold_left] in Hf. unfold link_one in Hf at 2. fold n in Hf.
      simpl (0 + m)%nat in Hf.
      destruct (get_cell b dim (nth m points v0)) as [c|] eqn:Ec; [|rewrite fold_link_none in Hf; discriminate].
      assert (Rc : 0 <= c < num_cells dim) by (apply (Hr m); auto; lia).
      destruct (nth_error cl0 (n + Z.to_nat c)) as [h|] eqn:Eh; [|rewrite fold_link_none in Hf; discriminate].
      rewrite wr_some in Hf by lia. rewrite wr_some in Hf by (rewrite upd_length; unfold nc in *; lia).
      apply IH in Hf; auto; [lia|rewrite !upd_length; auto| |].
      + intros j Hj. destruct (Nat.eq_dec j m); [subst; eauto|apply Hd; lia].
      + intros c' Rc'. replace (n - m)%nat with (S (n - S m)) by lia. cbn [seq filter].
        assert (P : pt_cell b dim points c' m = (c =? c')) by (unfold pt_cell; rewrite Ec; auto). rewrite P.
        specialize (Hc c' Rc'). assert (NI : forall k, (k <= m \/ n <= k)%nat -> ~ In k (filter (pt_cell b dim points c') (seq (S m) (n - S m)))).
        { intros k Hk H. apply filter_In in H as [H _]. apply in_seq in H. lia. }
        destruct (Z.eqb_spec c c') as [->|N].
        * cbn [chain]. split; [apply upd_same; rewrite upd_length; unfold nc in *; lia|].
          destruct (filter (pt_cell b dim points c') (seq (S m) (n - S m))) as [|j l] eqn:El.
          -- cbn [chain] in *. rewrite Hc in Eh. injection Eh as <-. rewrite upd_other by lia. apply upd_same. lia.
          -- cbn [chain] in *. destruct Hc as [E C]. rewrite E in Eh. injection Eh as <-. split.
             ++ rewrite upd_other by lia. apply upd_same. lia.
             ++ assert (Hj : In j (filter (pt_cell b dim points c') (seq (S m) (n - S m)))) by (rewrite El; left; auto).
                apply filter_In in Hj as [Hj _]. apply in_seq in Hj.
                apply chain_upd; [lia| |apply chain_upd; [lia| |auto]].
                ** intros H. apply (NI (n + Z.to_nat c')%nat ltac:(lia)). right; auto.
                ** intros H. apply (NI m ltac:(lia)). right; auto.
        * apply chain_upd; [lia|apply NI; lia|]. apply chain_upd; [lia|apply NI; lia|auto]. }
  intros Hf. apply (G n (repeat None (n + nc))); auto.
  - apply repeat_length.
  - intros; lia.
  - intros c Hc. rewrite Nat.sub_diag. simpl. apply nth_error_repeat_some. unfold nc. lia.
Qed.

(** ** Cell coordinates *)
Definition dim_pos (dim : Z * Z * Z) : Prop := let '(dx, dy, dz) := dim in 0 < dx /\ 0 < dy /\ 0 < dz.
Definition in_dim (dim c : Z * Z * Z) : Prop :=
  let '(dx, dy, dz) := dim in let '(x, y, z) := c in 0 <= x < dx /\ 0 <= y < dy /\ 0 <= z < dz.
Lemma coord_index_eq dx dy dz x y z : coord_to_index (dx, dy, dz) (x, y, z) = (z * dy + y) * dx + x.
Proof. unfold coord_to_index, get_index_static. cbn -[Z.mul Z.add]. ring. Qed.
Lemma coord_index_range dim c : in_dim dim c -> 0 <= coord_to_index dim c < num_cells dim.
Proof.
  destruct dim as [[dx dy] dz], c as [[x y] z]. intros (Hx & Hy & Hz). rewrite coord_index_eq. unfold num_cells.
  assert (0 <= z * dy + y <= dz * dy - 1) by nia. nia.
Qed.
Lemma coord_index_inj dim c c' : in_dim dim c -> in_dim dim c' -> coord_to_index dim c = coord_to_index dim c' -> c = c'.
Proof.
  destruct dim as [[dx dy] dz], c as [[x y] z], c' as [[x' y'] z']. intros (Hx & Hy & Hz) (Hx' & Hy' & Hz'). rewrite !coord_index_eq. intros E.
  assert (E1 : z * dy + y = z' * dy + y' /\ x = x').
  { assert (H := Z.div_unique ((z * dy + y) * dx + x) dx (z * dy + y) x). assert (H' := Z.div_unique ((z * dy + y) * dx + x) dx (z' * dy + y') x').
    split; [rewrite H, <- H'; auto; lia|]. assert (z * dy + y = z' * dy + y') by (rewrite H, <- H'; auto; lia). lia. }
  destruct E1 as [E1 ->].
  assert (E2 : z = z' /\ y = y').
  { assert (H := Z.div_unique (z * dy + y) dy z y). assert (H' := Z.div_unique (z * dy + y) dy z' y').
    assert (z = z') by (rewrite H, <- H'; auto; lia). subst. lia. }
  destruct E2; congruence.
Qed.
Lemma cmod_mod a n : 0 < n -> cmod a n = a mod n.
Proof.
  intros Hn. unfold cmod. destruct (Z.ltb_spec (Z.rem a n) 0).
  - apply (Z.mod_unique a n (Z.quot a n - 1)).
    + left. assert (- n < Z.rem a n) by (pose proof (Z.rem_bound_abs a n); lia). lia.
    + rewrite (Z.quot_rem a n) at 1 by lia. ring.
  - rewrite Z.add_0_r. apply (Z.mod_unique a n (Z.quot a n)).
    + left. pose proof (Z.rem_bound_abs a n). lia.
    + apply Z.quot_rem. lia.
Qed.
Lemma axis_cell_spec a n c : 0 < n -> axis_cell a n = Some c -> c = Zfloor (a * IZR n) mod n /\ 0 <= c < n.
Proof.
  intros Hn. unfold axis_cell, to_unsigned. rewrite Ztrunc_IZR. destruct (Z.ltb_spec (Zfloor (a * IZR n)) 0); [discriminate|].
  intros E. injection E as <-. rewrite Z.rem_mod_nonneg by lia. split; auto. apply Z.mod_pos_bound. auto.
Qed.
Lemma axis_cell_defined a n : 0 < n -> (0 <= a)%R -> exists c, axis_cell a n = Some c.
Proof.
  intros Hn Ha. unfold axis_cell, to_unsigned. rewrite Ztrunc_IZR.
  assert (0 <= Zfloor (a * IZR n)).
  { apply Zfloor_lub. apply Rmult_le_pos; auto. apply IZR_le. lia. }
  rewrite (proj2 (Z.ltb_ge _ _)) by auto. eauto.
Qed.
Lemma cell_coord_spec b dim p c : dim_pos dim -> cell_coord b dim p = Some c ->
  let '(dx, dy, dz) := dim in let a := make_fractional b p in
  c = (Zfloor (vx a * IZR dx) mod dx, Zfloor (vy a * IZR dy) mod dy, Zfloor (vz a * IZR dz) mod dz) /\ in_dim dim c.
Proof.
  destruct dim as [[dx dy] dz]. intros (Hx & Hy & Hz). unfold cell_coord.
  destruct (axis_cell _ dx) eqn:Ex; [|discriminate]. destruct (axis_cell _ dy) eqn:Ey; [|discriminate]. destruct (axis_cell _ dz) eqn:Ez; [|discriminate].
  intros E. injection E as <-. apply axis_cell_spec in Ex, Ey, Ez; auto. destruct Ex as [-> ?], Ey as [-> ?], Ez as [-> ?]. split; auto. simpl. auto.
Qed.
(** Displaced coordinates along one axis: the cell offset is bounded by the displacement. *)
Lemma axis_offset n a df m : 0 < n -> exists dc,
  Zfloor ((a + df + IZR m) * IZR n) mod n = cmod (Zfloor (a * IZR n) mod n + dc) n /\
  (IZR (Z.abs dc) < Rabs df * IZR n + 1)%R.
Proof.
  intros Hn. exists (Zfloor ((a + df) * IZR n) - Zfloor (a * IZR n)). split.
  - rewrite cmod_mod by auto. rewrite Rmult_plus_distr_r, <- mult_IZR, Zfloor_plus_IZR, Z.mod_add by lia.
    rewrite Z.add_mod_idemp_l by lia. f_equal. ring.
  - rewrite abs_IZR, minus_IZR. pose proof (Zfloor_bounds ((a + df) * IZR n)). pose proof (Zfloor_bounds (a * IZR n)).
    assert (Hp : (0 < IZR n)%R) by (apply IZR_lt; auto).
    assert (E : ((a + df) * IZR n - a * IZR n = df * IZR n)%R) by ring.
    assert (B : (- (Rabs df * IZR n) <= df * IZR n <= Rabs df * IZR n)%R).
    { split; [rewrite <- Ropp_mult_distr_l_reverse|]; apply Rmult_le_compat_r; try lra.
      - pose proof (Rle_abs (- df)). rewrite Rabs_Ropp in *. lra.
      - apply Rle_abs. }
    apply Rabs_def1; lra.
Qed.

(** ** The constructor *)
Lemma to_unsigned_spec x n : to_unsigned x = Some n -> n = Ztrunc x /\ 0 <= n.
Proof. unfold to_unsigned. destruct (Z.ltb_spec (Ztrunc x) 0); [discriminate|]. intros E. injection E as <-. auto. Qed.
Lemma lc_make_spec b points cw0 lc : lc_make b points cw0 = Some lc ->
  lc_box lc = b /\ lc_points lc = points /\ points <> [] /\
  lc_width lc = (if Reqb cw0 0 then default_width b (length points) else cw0) /\ dim_pos (lc_dim lc) /\
  (let cw := lc_width lc in (0 < cw)%R -> let p := plane_distance b in let '(dx, dy, dz) := lc_dim lc in
     (IZR dx * cw <= vx p /\ IZR dy * cw <= vy p /\ (b_2d b = false -> IZR dz * cw <= vz p))%R /\ (b_2d b = true -> dz = 1) /\
     dx = Zfloor (vx p / cw) /\ dy = Zfloor (vy p / cw) /\ (b_2d b = false -> dz = Zfloor (vz p / cw))) /\
  compute_cell_list b (lc_dim lc) points = Some (lc_list lc) /\
  (2 * lc_width lc <= vx (plane_distance b) /\ 2 * lc_width lc <= vy (plane_distance b) /\ (b_2d b = false -> 2 * lc_width lc <= vz (plane_distance b)))%R.
Proof.
  unfold lc_make. destruct (nq_ok b points) eqn:EN; [|discriminate]. cbn [negb].
  set (cw := if Reqb cw0 0 then default_width b (length points) else cw0).
  unfold compute_dimensions. set (L := plane_distance b).
  destruct (to_unsigned (vx L / cw)) as [x|] eqn:Ex; [|discriminate]. destruct (to_unsigned (vy L / cw)) as [y|] eqn:Ey; [|discriminate].
  destruct (if b_2d b then Some 1 else to_unsigned (vz L / cw)) as [z|] eqn:Ez; [|discriminate].
  destruct (Rltb (vx L) (cw * 2) || Rltb (vy L) (cw * 2) || negb (b_2d b) && Rltb (vz L) (cw * 2)) eqn:EB; [discriminate|].
  destruct (num_cells _ <? 1) eqn:EC; [discriminate|].
  destruct (compute_cell_list _ _ _) eqn:EL; [|discriminate]. cbn [option_map]. intros E. injection E as <-. cbn [lc_box lc_points lc_width lc_dim lc_list].
  apply to_unsigned_spec in Ex, Ey. destruct Ex as [-> Px], Ey as [-> Py].
  assert (AP : forall n, 0 <= n -> 0 < atleast1 n) by (intros n Hn; unfold atleast1; destruct (Z.eqb_spec n 0); lia).
  apply orb_false_iff in EB as [EB BZ]. apply orb_false_iff in EB as [BX BY]. apply Rltb_false in BX, BY.
  assert (BZ' : b_2d b = false -> (cw * 2 <= vz L)%R) by (intros E2; rewrite E2 in BZ; simpl in BZ; apply Rltb_false in BZ; auto).
  split; auto. split; auto. split.
  { intros ->. unfold nq_ok in EN. simpl in EN. discriminate. }
  split; auto. split.
  { simpl. split; [auto|]. split; [auto|]. destruct (b_2d b) eqn:E2; [lia|]. apply to_unsigned_spec in Ez as [-> Pz]. auto. }
  split; [|split; [auto|]; fold cw L; clearbody cw L; split; [lra|split; [lra|intros E2; specialize (BZ' E2); lra]]].
  intros HC. assert (F : forall l, (cw * 2 <= l)%R -> (IZR (atleast1 (Ztrunc (l / cw))) * cw <= l)%R /\ atleast1 (Ztrunc (l / cw)) = Zfloor (l / cw)).
  { intros l Hl. assert (Q : (2 <= l / cw)%R) by (apply Rmult_le_reg_r with cw; auto; unfold Rdiv; rewrite Rmult_assoc, Rinv_l by lra; lra).
    rewrite Ztrunc_nonneg_eq by lra. pose proof (Zfloor_bounds (l / cw)) as B.
    assert (2 <= Zfloor (l / cw)) by (apply Zfloor_lub; auto).
    unfold atleast1. rewrite (proj2 (Z.eqb_neq _ _)) by lia. split; auto.
    apply Rle_trans with (l / cw * cw)%R; [apply Rmult_le_compat_r; lra|]. right. field. lra. }
  destruct (F _ BX), (F _ BY). split; [split; auto; split; auto|split; [|split; auto; split; auto]]; intros E2.
  - rewrite E2 in *. apply to_unsigned_spec in Ez as [-> _]. apply F. auto.
  - rewrite E2. auto.
  - rewrite E2 in *. apply to_unsigned_spec in Ez as [-> _]. apply F. auto.
Qed.
