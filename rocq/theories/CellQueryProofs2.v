(** The CellQuery ball iterator examines exactly the entries of the 27 cells around the query point. *)
From Verif Require Import MArrayProofs NListProofs AABBProofs2 LinkCellProofs LinkCellProofs3 CellQueryModel CellQueryProofs.
Open Scope nat_scope.

Lemma slice_eq {A} (buf g : list A) s : (forall i, i < length g -> nth_error buf (s + i) = nth_error g i) -> firstn (length g) (skipn s buf) = g.
Proof.
  revert s. induction g as [|x g IH]; intros s H; simpl; auto.
  assert (H0 := H 0 ltac:(simpl; lia)). rewrite Nat.add_0_r in H0. simpl in H0.
  assert (E : skipn s buf = x :: skipn (S s) buf).
  { clear IH H. revert buf H0. induction s; intros [|y buf] H0; simpl in *; try discriminate; [injection H0 as ->; auto|]. rewrite (IHs buf) by auto. auto. }
  rewrite E. f_equal. apply IH. intros i Hi. specialize (H (S i) ltac:(simpl; lia)). rewrite Nat.add_succ_r in H. auto.
Qed.
Lemma firstn_plus {A} a b (l : list A) : firstn (a + b) l = firstn a l ++ firstn b (skipn a l).
Proof. revert l. induction a; intros [|x l]; simpl; auto; [destruct b; auto|]. f_equal. auto. Qed.
Lemma skipn_plus {A} a b (l : list A) : skipn b (skipn a l) = skipn (a + b) l.
Proof. revert l. induction a; intros [|x l]; simpl; auto. destruct b; auto. Qed.

Definition emit (q : vec3) (qi : nat) (r_max r_min : R) (excl : bool) (t : tagged) : list bond :=
  match test_particle q qi r_max r_min excl t with Some x => [x] | None => [] end.

Section Drain.
  Variables (cg : cellgrid) (cx cy cz : Z) (q : vec3) (qi : nat) (r_max r_min : R) (excl : bool).
  Let g := cg_grid cg.
  Let buf := cg_buf cg.
  Variables (m : list (nat * tagged)) (st : nat -> nat).
  Let n := Z.to_nat (g_nx g * g_ny g * g_nz g).
  Hypothesis HS : forall c, c < n -> nth_error (cg_starts cg) c = Some (st c) /\ nth_error (cg_counts cg) c = Some (length (group m c)).
  Hypothesis HB : forall c i, c < n -> i < length (group m c) -> nth_error buf (st c + i) = nth_error (group m c) i.
  Hypothesis HN : forall c, c < n -> st (S c) = st c + length (group m c).
  Hypothesis HL : forall c, c < n -> st c + length (group m c) <= length buf.
  Hypothesis HC : in_grid g (cx, cy, cz) = true.
  Let stp := cb_step cg (cx, cy, cz) q qi r_max r_min excl.
  Let em := emit q qi r_max r_min excl.

  Lemma in_grid_spec c : in_grid g c = true <-> let '(x, y, z) := c in (0 <= x < g_nx g /\ 0 <= y < g_ny g /\ 0 <= z < g_nz g)%Z.
  Proof.
    destruct c as [[x y] z]. unfold in_grid. rewrite negb_true_iff, !orb_false_iff, !Z.ltb_ge, !Z.leb_gt. lia.
  Qed.

  Lemma block_slice c0 w : c0 + w <= n -> st (c0 + w) = st c0 + length (flat_map (group m) (seq c0 w)) /\
    firstn (length (flat_map (group m) (seq c0 w))) (skipn (st c0) buf) = flat_map (group m) (seq c0 w).
  Proof.
    revert c0. induction w as [|w IH]; intros c0 H; simpl; [split; [rewrite !Nat.add_0_r; auto|reflexivity]|].
    destruct (IH (S c0) ltac:(lia)) as [E1 E2]. rewrite app_length, firstn_plus, skipn_plus, <- HN by lia.
    rewrite E2, (slice_eq buf (group m c0)); auto. 2:{ intros; apply HB; auto; lia. } split; auto.
    replace (c0 + S w) with (S c0 + w) by lia. rewrite E1, HN by lia. lia.
  Qed.

  Definition ybad dy := ((cy + dy <? 0) || (g_ny g <=? cy + dy))%Z%bool.
  Definition zbad dz := ((cz + dz <? 0) || (g_nz g <=? cz + dz))%Z%bool.

  Lemma drain_block dz dy l : (dz <= 1)%Z -> (dy <= 1)%Z -> zbad dz = false -> ybad dy = false ->
    drained stp (CB dz (dy + 1) None) l ->
    forall k i, i + k <= length buf -> drained stp (CB dz dy (Some (i, i + k))) (flat_map em (firstn k (skipn i buf)) ++ l).
  Proof.
    intros Hz Hy Bz By D. unfold zbad, ybad in *. induction k as [|k IH]; intros i Hi.
    - rewrite Nat.add_0_r. simpl. eapply dr_move; [|exact D]. unfold stp, cb_step. cbn [cb_dz cb_dy cb_block]. fold g.
      rewrite (proj2 (Z.ltb_ge _ _)) by lia. rewrite Bz. rewrite (proj2 (Z.ltb_ge 1 dy)) by lia. cbn [orb]. rewrite By, Nat.ltb_irrefl. reflexivity.
    - destruct (nth_error buf i) as [t|] eqn:Et; [|apply nth_error_None in Et; lia].
      assert (ES : skipn i buf = t :: skipn (S i) buf).
      { clear - Et. revert Et. generalize buf as bf. induction i; intros [|y bf] H0; simpl in *; try discriminate; [injection H0 as ->; auto|]. rewrite (IHi bf) by auto. auto. }
      rewrite ES. cbn [firstn flat_map]. specialize (IH (S i) ltac:(lia)). replace (S i + k) with (i + S k) in IH by lia.
      assert (E : stp (CB dz dy (Some (i, i + S k))) = match test_particle q qi r_max r_min excl t with Some x => Out x (CB dz dy (Some (S i, i + S k))) | None => Move (CB dz dy (Some (S i, i + S k))) end).
      { unfold stp, cb_step. cbn [cb_dz cb_dy cb_block]. fold g buf.
        rewrite (proj2 (Z.ltb_ge _ _)) by lia. rewrite Bz. rewrite (proj2 (Z.ltb_ge 1 dy)) by lia. cbn [orb].
        rewrite By, (proj2 (Nat.ltb_lt _ _)) by lia. rewrite Et. reflexivity. }
      unfold em at 1, emit. rewrite <- app_assoc. destruct (test_particle q qi r_max r_min excl t); cbn [app].
      + eapply dr_out; eauto. + eapply dr_move; eauto.
  Qed.

  (** Cells examined for given offsets. *)
  Definition row_cells (dz dy : Z) : list nat :=
    if zbad dz || ybad dy then [] else
    let row := (((cz + dz) * g_ny g + (cy + dy)) * g_nx g + cx)%Z in
    let lo := (if 0 <? cx then -1 else 0)%Z in let hi := (if cx <? g_nx g - 1 then 1 else 0)%Z in
    seq (Z.to_nat (row + lo)%Z) (Z.to_nat (hi - lo + 1)%Z).
  Definition near_cells : list nat := flat_map (fun dz => flat_map (row_cells dz) [-1; 0; 1]%Z) [-1; 0; 1]%Z.

  Lemma row_bounds dz dy : zbad dz = false -> ybad dy = false ->
    let row := (((cz + dz) * g_ny g + (cy + dy)) * g_nx g)%Z in (0 <= row /\ row + g_nx g <= g_nx g * g_ny g * g_nz g)%Z.
  Proof.
    unfold zbad, ybad. rewrite !orb_false_iff, !Z.ltb_ge, !Z.leb_gt. intros [? ?] [? ?]. apply in_grid_spec in HC. simpl.
    assert (0 <= (cz + dz) * g_ny g)%Z by nia. assert ((cz + dz) * g_ny g + (cy + dy) + 1 <= g_ny g * g_nz g)%Z by nia. nia.
  Qed.

  Lemma drain_row dz dy l : (dz <= 1)%Z -> (dy <= 1)%Z -> zbad dz = false ->
    drained stp (CB dz (dy + 1) None) l -> drained stp (CB dz dy None) (flat_map em (flat_map (group m) (row_cells dz dy)) ++ l).
  Proof.
    intros Hz Hy Bz D. unfold row_cells. rewrite Bz. destruct (ybad dy) eqn:By.
    - simpl. eapply dr_move; [|exact D]. unfold stp, cb_step. cbn [cb_dz cb_dy cb_block]. fold g.
      rewrite (proj2 (Z.ltb_ge _ _)) by lia. fold (zbad dz). rewrite Bz. rewrite (proj2 (Z.ltb_ge 1 dy)) by lia. cbn [orb]. fold (ybad dy). rewrite By. reflexivity.
    - cbn [orb]. destruct (row_bounds dz dy Bz By) as [R0 R1]. set (row := (((cz + dz) * g_ny g + (cy + dy)) * g_nx g)%Z) in *.
      set (lo := (if 0 <? cx then -1 else 0)%Z). set (hi := (if cx <? g_nx g - 1 then 1 else 0)%Z). cbv zeta.
      assert (B1 : (0 <= cx + lo <= cx + hi)%Z /\ (cx + hi < g_nx g)%Z).
      { apply in_grid_spec in HC. unfold lo, hi. destruct (Z.ltb_spec 0 cx), (Z.ltb_spec cx (g_nx g - 1)); lia. }
      set (c0 := Z.to_nat (row + cx + lo)%Z). set (w := Z.to_nat (hi - lo + 1)).
      assert (Hc1 : Z.to_nat (row + cx + hi)%Z = c0 + w - 1) by (unfold c0, w; lia).
      assert (Hw : 1 <= w) by (unfold w; lia). assert (Hn : c0 + w <= n) by (unfold c0, w, n; lia).
      destruct (block_slice c0 w Hn) as [E1 E2].
      assert (E3 : st (c0 + w) = st (c0 + w - 1) + length (group m (c0 + w - 1))) by (rewrite <- HN by lia; f_equal; lia).
      assert (HLe := HL (c0 + w - 1) ltac:(lia)).
      pose proof (drain_block dz dy l Hz Hy Bz By D (length (flat_map (group m) (seq c0 w))) (st c0) ltac:(lia)) as D'.
      rewrite E2 in D'. eapply dr_move; [|exact D']. unfold stp, cb_step. cbn [cb_dz cb_dy cb_block]. fold g.
      rewrite (proj2 (Z.ltb_ge _ _)) by lia. fold (zbad dz). rewrite Bz. rewrite (proj2 (Z.ltb_ge 1 dy)) by lia. cbn [orb]. fold (ybad dy). rewrite By.
      fold row lo hi. cbv zeta. rewrite Hc1. fold c0. destruct (HS c0 ltac:(lia)) as [-> _]. destruct (HS (c0 + w - 1) ltac:(lia)) as [-> ->].
      rewrite <- E3, E1. reflexivity.
  Qed.

  Lemma drain_plane dz l : (dz <= 1)%Z -> drained stp (CB (dz + 1) (-1) None) l ->
    drained stp (CB dz (-1) None) (flat_map em (flat_map (group m) (flat_map (row_cells dz) [-1; 0; 1]%Z)) ++ l).
  Proof.
    intros Hz D. destruct (zbad dz) eqn:Bz.
    - assert (E : flat_map (row_cells dz) [-1; 0; 1]%Z = []) by (unfold row_cells; rewrite Bz; reflexivity). rewrite E. simpl.
      eapply dr_move; [|exact D]. unfold stp, cb_step. cbn [cb_dz cb_dy cb_block]. fold g.
      rewrite (proj2 (Z.ltb_ge _ _)) by lia. fold (zbad dz). rewrite Bz. reflexivity.
    - cbn [flat_map]. rewrite app_nil_r, !flat_map_app, <- !app_assoc.
      apply drain_row; try lia; auto. apply drain_row; try lia; auto. apply drain_row; try lia; auto.
      eapply dr_move; [|exact D]. unfold stp, cb_step. cbn [cb_dz cb_dy cb_block]. fold g.
      rewrite (proj2 (Z.ltb_ge _ _)) by lia. fold (zbad dz). rewrite Bz. reflexivity.
  Qed.

  Lemma drain_all : drained stp (CB (-1) (-1) None) (flat_map em (flat_map (group m) near_cells)).
  Proof.
    pose proof drain_plane as P. unfold near_cells. set (f := fun dz => flat_map (row_cells dz) [-1; 0; 1]%Z) in *.
    change (flat_map f [-1; 0; 1]%Z) with (f (-1)%Z ++ f 0%Z ++ f 1%Z ++ []). rewrite app_nil_r, !flat_map_app.
    apply P; [lia|]. apply P; [lia|]. rewrite <- (app_nil_r (flat_map em _)). apply P; [lia|]. apply dr_done. reflexivity.
  Qed.

  Lemma cell_number_inj c c' : in_grid g c = true -> in_grid g c' = true -> cell_number g c = cell_number g c' -> c = c'.
  Proof.
    intros H H'. apply in_grid_spec in H, H'. destruct c as [[x y] z], c' as [[x' y'] z']. unfold cell_number. intros E.
    assert (E1 : ((z * g_ny g + y) * g_nx g + x = (z' * g_ny g + y') * g_nx g + x')%Z) by (assert (0 <= z * g_ny g)%Z by nia; assert (0 <= z' * g_ny g)%Z by nia; apply Z2Nat.inj; auto; nia).
    rewrite !(Z.mul_comm _ (g_nx g)) in E1. apply Z.div_mod_unique in E1 as [E1 E2]; [|lia|lia].
    rewrite !(Z.mul_comm _ (g_ny g)) in E1. apply Z.div_mod_unique in E1 as [E1 E3]; [|lia|lia]. congruence.
  Qed.
  Lemma cell_number_range c : in_grid g c = true -> cell_number g c < n.
  Proof.
    intros H. apply in_grid_spec in H. destruct c as [[x y] z]. unfold cell_number, n.
    assert (z * g_ny g + y + 1 <= g_ny g * g_nz g)%Z by nia. assert (0 <= z * g_ny g + y)%Z by nia. assert (0 <= g_ny g * g_nz g)%Z by nia. apply Z2Nat.inj_lt; nia.
  Qed.
  Lemma row_cells_in dz dy c : In c (row_cells dz dy) <-> exists dx, (-1 <= dx <= 1)%Z /\ in_grid g (cx + dx, cy + dy, cz + dz)%Z = true /\
    c = cell_number g (cx + dx, cy + dy, cz + dz)%Z.
  Proof.
    assert (H0 := HC). apply in_grid_spec in H0. unfold row_cells. split.
    - destruct (zbad dz || ybad dy) eqn:B; [intros []|]. apply orb_false_iff in B as [Bz By]. destruct (row_bounds dz dy Bz By) as [R0 R1]. cbv zeta.
      rewrite in_seq. intros Hc. set (row := (((cz + dz) * g_ny g + (cy + dy)) * g_nx g)%Z) in *.
      assert (B1 : ((0 <= cx + (if 0 <? cx then -1 else 0)) /\ (cx + (if cx <? g_nx g - 1 then 1 else 0) < g_nx g) /\ (if cx <? g_nx g - 1 then 1 else 0) >= 0)%Z).
      { destruct (Z.ltb_spec 0 cx), (Z.ltb_spec cx (g_nx g - 1)); lia. }
      exists (Z.of_nat c - row - cx)%Z. split.
      { destruct (0 <? cx)%Z, (cx <? g_nx g - 1)%Z; lia. } split.
      { apply in_grid_spec. unfold zbad, ybad in *. rewrite !orb_false_iff, !Z.ltb_ge, !Z.leb_gt in Bz, By. destruct (0 <? cx)%Z, (cx <? g_nx g - 1)%Z; lia. }
      unfold cell_number. fold row. lia.
    - intros (dx & Hd & HG & ->). apply in_grid_spec in HG.
      assert (Bz : zbad dz = false) by (unfold zbad; rewrite !orb_false_iff, !Z.ltb_ge, !Z.leb_gt; lia).
      assert (By : ybad dy = false) by (unfold ybad; rewrite !orb_false_iff, !Z.ltb_ge, !Z.leb_gt; lia).
      destruct (row_bounds dz dy Bz By) as [R0 R1]. rewrite Bz, By. cbn [orb]. cbv zeta. apply in_seq. unfold cell_number.
      set (row := (((cz + dz) * g_ny g + (cy + dy)) * g_nx g)%Z) in *. destruct (Z.ltb_spec 0 cx), (Z.ltb_spec cx (g_nx g - 1)); lia.
  Qed.
  Lemma near_in c : In c near_cells <-> exists dx dy dz, (-1 <= dx <= 1 /\ -1 <= dy <= 1 /\ -1 <= dz <= 1)%Z /\
    in_grid g (cx + dx, cy + dy, cz + dz)%Z = true /\ c = cell_number g (cx + dx, cy + dy, cz + dz)%Z.
  Proof.
    unfold near_cells. rewrite in_flat_map. split.
    - intros (dz & Hz & H). apply in_flat_map in H as (dy & Hy & H). apply row_cells_in in H as (dx & Hx & H).
      exists dx, dy, dz. split; [|auto]. simpl in Hz, Hy. lia.
    - intros (dx & dy & dz & Hd & H). exists dz. split; [simpl; lia|]. apply in_flat_map. exists dy. split; [simpl; lia|].
      apply row_cells_in. exists dx. tauto.
  Qed.
  Lemma near_nodup : NoDup near_cells.
  Proof.
    unfold near_cells. assert (N3 : NoDup [-1; 0; 1]%Z) by (repeat constructor; simpl; lia).
    apply NoDup_flat_map; auto.
    - intros dz _. apply NoDup_flat_map; auto.
      + intros dy _. unfold row_cells. destruct (zbad dz || ybad dy); [constructor|apply seq_NoDup].
      + intros dy dy' c _ _ H1 H2. apply row_cells_in in H1 as (? & _ & G1 & E1). apply row_cells_in in H2 as (? & _ & G2 & E2).
        rewrite E1 in E2. apply cell_number_inj in E2; auto. apply tri_eq in E2. lia.
    - intros dz dz' c _ _ H1 H2. apply in_flat_map in H1 as (? & _ & H1). apply in_flat_map in H2 as (? & _ & H2).
      apply row_cells_in in H1 as (? & _ & G1 & E1). apply row_cells_in in H2 as (? & _ & G2 & E2).
      rewrite E1 in E2. apply cell_number_inj in E2; auto. apply tri_eq in E2. lia.
  Qed.
End Drain.
