(** The counting sort and the ball iterator of CellQuery in single precision: integer code, as in CellQueryProofs and CellQueryProofs2. *)
From Verif Require Import FcqModel MArrayProofs NListProofs AABBProofs2 LinkCellProofs CellQueryProofs CellQueryProofs2.
Open Scope nat_scope.

Definition fin_c (c : nat) (e : nat * ftagged) : bool := fst e =? c.
Definition freal_in (c : nat) (e : nat * ftagged) : bool := fin_c c e && negb (fis_ghost e).
Definition fghost_in (c : nat) (e : nat * ftagged) : bool := fin_c c e && fis_ghost e.
Definition fnr (m : list (nat * ftagged)) (c : nat) : nat := length (filter (freal_in c) m).
Definition fng (m : list (nat * ftagged)) (c : nat) : nat := length (filter (fghost_in c) m).
(** Group of a cell in the buffer. *)
Definition fgroup (m : list (nat * ftagged)) (c : nat) : list ftagged := map snd (filter (freal_in c) m ++ filter (fghost_in c) m).


Lemma fcounts_length n m : length (fcounts_of n m) = n.
Proof.
  unfold fcounts_of. rewrite <- (repeat_length 0 n) at 2. generalize (repeat 0 n). induction m as [|e m IH]; intros l; simpl; auto.
  rewrite IH, bump_length. auto.
Qed.
Lemma fcounts_nth n m c : (forall e, In e m -> fst e < n) -> nth c (fcounts_of n m) 0 = length (filter (fin_c c) m).
Proof.
  intros H. unfold fcounts_of. assert (G : forall l, length l = n -> nth c (fold_left (fun l e => bump l (fst e)) m l) 0 = nth c l 0 + length (filter (fin_c c) m)).
  { induction m as [|e m IH]; intros l Hl; simpl; [lia|]. rewrite IH; [|intros; apply H; right; auto|rewrite bump_length; auto].
    rewrite nth_bump by (rewrite Hl; apply H; left; auto). unfold fin_c at 2. destruct (fst e =? c); simpl; lia. }
  rewrite G by apply repeat_length. rewrite nth_repeat. auto.
Qed.
Lemma freal_filter c m : filter (fin_c c) (filter (fun e => negb (fis_ghost e)) m) = filter (freal_in c) m.
Proof. induction m as [|e m IH]; simpl; auto. unfold freal_in at 1. destruct (fis_ghost e); simpl; rewrite ?andb_false_r, ?andb_true_r; auto. destruct (fin_c c e); rewrite IH; auto. Qed.
Lemma fin_split c m : length (filter (fin_c c) m) = fnr m c + fng m c.
Proof. unfold fnr, fng, freal_in, fghost_in. induction m as [|e m IH]; simpl; auto. destruct (fin_c c e), (fis_ghost e); simpl; lia. Qed.


Lemma fcounts_sum n m : (forall e, In e m -> fst e < n) -> list_sum (fcounts_of n m) = length m.
Proof.
  intros H. unfold fcounts_of. assert (G : forall l, length l = n -> list_sum (fold_left (fun l e => bump l (fst e)) m l) = list_sum l + length m).
  { assert (B : forall l i, i < length l -> list_sum (bump l i) = S (list_sum l)).
    { clear. induction l as [|x l IH]; intros [|i] Hi; simpl in *; try lia. unfold bump in *. simpl. rewrite IH by lia. lia. }
    induction m as [|e m IH]; intros l Hl; simpl; [lia|]. rewrite IH; [|intros; apply H; right; auto|rewrite bump_length; auto].
    rewrite B by (rewrite Hl; apply H; left; auto). lia. }
  rewrite G by apply repeat_length. replace (list_sum (repeat 0 n)) with 0; auto. clear. induction n; simpl; auto.
Qed.

Section Place.
  Variables (n : nat) (m : list (nat * ftagged)).
  Hypothesis Hm : forall e, In e m -> fst e < n.
  Let counts := fcounts_of n m.
  Let creal := fcounts_of n (filter (fun e => negb (fis_ghost e)) m).
  Let starts := prefix_sum 0 counts.
  Let st c := list_sum (firstn c counts).

  Lemma starts_nth c : c < n -> nth c starts 0 = st c.
  Proof. intros H. unfold starts. rewrite prefix_nth by (unfold counts; rewrite fcounts_length; auto). auto. Qed.
  Lemma creal_nth c : nth c creal 0 = fnr m c.
  Proof. unfold creal. rewrite fcounts_nth. { rewrite freal_filter. auto. } intros e He. apply filter_In in He. apply Hm, He. Qed.
  Lemma st_S c : c < n -> st (S c) = st c + (fnr m c + fng m c).
  Proof. intros H. unfold st. rewrite list_sum_firstn_S by (unfold counts; rewrite fcounts_length; auto). f_equal. unfold counts. rewrite fcounts_nth by auto. apply fin_split. Qed.
  Lemma st_lt c d : c < d -> c < n -> st c + (fnr m c + fng m c) <= st d.
  Proof. intros H H1. rewrite <- st_S by auto. apply list_sum_firstn_le. lia. Qed.
  Lemma st_le c : c < n -> st c + (fnr m c + fng m c) <= length m.
  Proof. intros H. rewrite <- st_S by auto. unfold st. rewrite <- (fcounts_sum n m Hm). apply list_sum_firstn_all. Qed.

  Definition fplaced (done : list (nat * ftagged)) (buf : list ftagged) : Prop :=
    length buf = length m /\
    (forall c i e, c < n -> nth_error (filter (freal_in c) done) i = Some e -> nth_error buf (st c + i) = Some (snd e)) /\
    (forall c i e, c < n -> nth_error (filter (fghost_in c) done) i = Some e -> nth_error buf (st c + fnr m c + i) = Some (snd e)).

  Lemma filter_app_one {A} (f : A -> bool) l x : filter f (l ++ [x]) = filter f l ++ (if f x then [x] else []).
  Proof. rewrite filter_app. simpl. auto. Qed.
  Lemma sep_cells c c' i i' : c < n -> c' < n -> c <> c' -> i < fnr m c + fng m c -> i' < fnr m c' + fng m c' -> st c + i <> st c' + i'.
  Proof. intros H H' N Hi Hi'. destruct (Nat.lt_ge_cases c c') as [L|L]. - pose proof (st_lt c c' L H). lia. - pose proof (st_lt c' c ltac:(lia) H'). lia. Qed.

  Lemma fplace_ok : forall todo done buf ri gi, m = done ++ todo -> fplaced done buf -> length ri = n -> length gi = n ->
    (forall c, nth c ri 0 = fnr done c) -> (forall c, nth c gi 0 = fng done c) ->
    exists buf' ri' gi', fold_left (fplace_one starts creal) todo (Some (buf, ri, gi)) = Some (buf', ri', gi') /\ fplaced m buf'.
  Proof.
    induction todo as [|e todo IH]; intros done buf ri gi Em HP Hri Hgi Rri Rgi; simpl.
    - rewrite app_nil_r in Em. subst done. eauto.
    - assert (He : fst e < n) by (apply Hm; rewrite Em, in_app_iff; right; left; auto). set (c := fst e) in *.
      assert (NR : forall c, fnr m c = fnr done c + fnr (e :: todo) c) by (intros; unfold fnr; rewrite Em, filter_app, app_length; auto).
      assert (NG : forall c, fng m c = fng done c + fng (e :: todo) c) by (intros; unfold fng; rewrite Em, filter_app, app_length; auto).
      assert (LT : forall (f : nat * ftagged -> bool) i x, nth_error (filter f done) i = Some x -> i < length (filter f done)) by (intros; apply nth_error_Some; congruence).
      destruct HP as (HL & HR & HG).
      destruct (fis_ghost e) eqn:EG.
      + rewrite starts_nth, creal_nth, Rgi by auto.
        assert (LG : fng done c < fng m c). { rewrite NG. unfold fng at 3. simpl. unfold fghost_in at 1, fin_c. fold c. rewrite Nat.eqb_refl, EG. simpl. lia. }
        pose proof (st_le c He). rewrite wr_some by lia.
        apply (IH (done ++ [e])); auto; [rewrite <- app_assoc; auto| |rewrite bump_length; auto| |].
        * split; [rewrite upd_length; auto|]. split.
          -- intros c' i x Hc' E. rewrite filter_app_one in E. unfold freal_in at 2 in E. rewrite EG, andb_false_r, app_nil_r in E.
             pose proof (LT _ _ _ E) as Li. fold (fnr done c') in Li. rewrite upd_other; [auto|].
             destruct (Nat.eq_dec c c') as [<-|N]; [pose proof (NR c); lia|].
             rewrite <- Nat.add_assoc. apply sep_cells; auto; [lia|]. specialize (NR c'). lia.
          -- intros c' i x Hc' E. rewrite filter_app_one in E. unfold fghost_in at 2 in E. rewrite EG, andb_true_r in E. unfold fin_c in E. fold c in E.
             destruct (Nat.eqb_spec c c') as [<-|N].
             ++ destruct (Nat.lt_ge_cases i (fng done c)) as [Li|Li].
                ** rewrite nth_error_app1 in E by auto. rewrite upd_other by lia. auto.
                ** rewrite nth_error_app2 in E by auto. fold (fng done c) in E. destruct (i - fng done c) as [|[|]] eqn:EI; simpl in E; try discriminate.
                   injection E as <-. replace i with (fng done c) by lia. apply upd_same. lia.
             ++ rewrite app_nil_r in E. pose proof (LT _ _ _ E) as Li. fold (fng done c') in Li. rewrite upd_other; [auto|].
                rewrite <- !Nat.add_assoc. apply sep_cells; auto; [lia|]. specialize (NG c'). lia.
        * intros c'. rewrite Rri. unfold fnr. rewrite filter_app_one. unfold freal_in at 3. rewrite EG, andb_false_r, app_nil_r. auto.
        * intros c'. rewrite nth_bump by lia. rewrite Rgi. unfold fng. rewrite filter_app_one, app_length. unfold fghost_in at 3, fin_c. fold c. rewrite EG, andb_true_r. destruct (c =? c'); auto.
      + rewrite starts_nth, Rri by auto.
        assert (LG : fnr done c < fnr m c). { rewrite NR. unfold fnr at 3. simpl. unfold freal_in at 1, fin_c. fold c. rewrite Nat.eqb_refl, EG. simpl. lia. }
        pose proof (st_le c He). rewrite wr_some by lia.
        apply (IH (done ++ [e])); auto; [rewrite <- app_assoc; auto| |rewrite bump_length; auto| |].
        * split; [rewrite upd_length; auto|]. split.
          -- intros c' i x Hc' E. rewrite filter_app_one in E. unfold freal_in at 2 in E. rewrite EG in E. cbn [negb] in E. rewrite andb_true_r in E. unfold fin_c in E. fold c in E.
             destruct (Nat.eqb_spec c c') as [<-|N].
             ++ destruct (Nat.lt_ge_cases i (fnr done c)) as [Li|Li].
                ** rewrite nth_error_app1 in E by auto. rewrite upd_other by lia. auto.
                ** rewrite nth_error_app2 in E by auto. fold (fnr done c) in E. destruct (i - fnr done c) as [|[|]] eqn:EI; simpl in E; try discriminate.
                   injection E as <-. replace i with (fnr done c) by lia. apply upd_same. lia.
             ++ rewrite app_nil_r in E. pose proof (LT _ _ _ E) as Li. fold (fnr done c') in Li. rewrite upd_other; [auto|].
                apply sep_cells; auto; [lia|]. specialize (NR c'). lia.
          -- intros c' i x Hc' E. rewrite filter_app_one in E. unfold fghost_in at 2 in E. rewrite EG, andb_false_r, app_nil_r in E.
             pose proof (LT _ _ _ E) as Li. fold (fng done c') in Li. rewrite upd_other; [auto|].
             destruct (Nat.eq_dec c c') as [<-|N]; [lia|].
             rewrite <- Nat.add_assoc. apply sep_cells; auto; [lia|]. specialize (NG c'). lia.
        * intros c'. rewrite nth_bump by lia. rewrite Rri. unfold fnr. rewrite filter_app_one, app_length. unfold freal_in at 3, fin_c. fold c. rewrite EG. cbn [negb]. rewrite andb_true_r. destruct (c =? c'); auto.
        * intros c'. rewrite Rgi. unfold fng. rewrite filter_app_one. unfold fghost_in at 3. rewrite EG, andb_false_r, app_nil_r. auto.
  Qed.

  Lemma fplace_spec : exists buf, fplace n starts creal m = Some buf /\ length buf = length m /\
    (forall c, c < n -> nth_error starts c = Some (st c) /\ nth_error counts c = Some (length (fgroup m c))) /\
    (forall c i, c < n -> i < length (fgroup m c) -> nth_error buf (st c + i) = nth_error (fgroup m c) i) /\
    (forall c, c < n -> st (S c) = st c + length (fgroup m c)).
  Proof.
    assert (LG : forall c, length (fgroup m c) = fnr m c + fng m c) by (intros; unfold fgroup; rewrite map_length, app_length; auto).
    destruct (fplace_ok m [] (repeat (FTag fv0 0) (length m)) (repeat 0 n) (repeat 0 n)) as (buf & ri & gi & E & HL & HR & HG); auto.
    - split; [apply repeat_length|]. split; intros c [|i] e H1 H2; discriminate.
    - apply repeat_length. - apply repeat_length. - intros. rewrite nth_repeat. auto. - intros. rewrite nth_repeat. auto.
    - exists buf. unfold fplace. rewrite E. split; auto. split; auto. split; [|split].
      + intros c Hc. split.
        * rewrite (nth_error_nth' _ 0), starts_nth; auto. unfold starts. rewrite prefix_length. unfold counts. rewrite fcounts_length. auto.
        * rewrite (nth_error_nth' _ 0) by (unfold counts; rewrite fcounts_length; auto). unfold counts. rewrite fcounts_nth, fin_split, LG by auto. auto.
      + intros c i Hc Hi. rewrite LG in Hi. unfold fgroup. rewrite nth_error_map. destruct (Nat.lt_ge_cases i (fnr m c)) as [Li|Li].
        * rewrite nth_error_app1 by auto. destruct (nth_error (filter (freal_in c) m) i) as [e|] eqn:EE.
          -- simpl. apply HR; auto. -- apply nth_error_None in EE. unfold fnr in Li. lia.
        * rewrite nth_error_app2 by auto. fold (fnr m c). destruct (nth_error (filter (fghost_in c) m) (i - fnr m c)) as [e|] eqn:EE.
          -- simpl. replace (st c + i) with (st c + fnr m c + (i - fnr m c)) by lia. apply HG; auto. -- apply nth_error_None in EE. fold (fng m c) in EE. lia.
      + intros c Hc. rewrite st_S, LG by auto. auto.
  Qed.
End Place.


Definition femit (q : fvec) (qi : nat) (r_max r_min : f32) (excl : bool) (t : ftagged) : list fbond :=
  match ftest_particle q qi r_max r_min excl t with Some x => [x] | None => [] end.

Section Drain.
  Variables (cg : fcellgrid) (cx cy cz : Z) (q : fvec) (qi : nat) (r_max r_min : f32) (excl : bool).
  Let g := fcg_grid cg.
  Let buf := fcg_buf cg.
  Variables (m : list (nat * ftagged)) (st : nat -> nat).
  Let n := Z.to_nat (fg_nx g * fg_ny g * fg_nz g).
  Hypothesis HS : forall c, c < n -> nth_error (fcg_starts cg) c = Some (st c) /\ nth_error (fcg_counts cg) c = Some (length (fgroup m c)).
  Hypothesis HB : forall c i, c < n -> i < length (fgroup m c) -> nth_error buf (st c + i) = nth_error (fgroup m c) i.
  Hypothesis HN : forall c, c < n -> st (S c) = st c + length (fgroup m c).
  Hypothesis HL : forall c, c < n -> st c + length (fgroup m c) <= length buf.
  Hypothesis HC : fin_grid g (cx, cy, cz) = true.
  Let stp := fcb_step cg (cx, cy, cz) q qi r_max r_min excl.
  Let em := femit q qi r_max r_min excl.

  Lemma fin_grid_spec c : fin_grid g c = true <-> let '(x, y, z) := c in (0 <= x < fg_nx g /\ 0 <= y < fg_ny g /\ 0 <= z < fg_nz g)%Z.
  Proof.
    destruct c as [[x y] z]. unfold fin_grid. rewrite negb_true_iff, !orb_false_iff, !Z.ltb_ge, !Z.leb_gt. lia.
  Qed.

  Lemma block_slice c0 w : c0 + w <= n -> st (c0 + w) = st c0 + length (flat_map (fgroup m) (seq c0 w)) /\
    firstn (length (flat_map (fgroup m) (seq c0 w))) (skipn (st c0) buf) = flat_map (fgroup m) (seq c0 w).
  Proof.
    revert c0. induction w as [|w IH]; intros c0 H; simpl; [split; [rewrite !Nat.add_0_r; auto|reflexivity]|].
    destruct (IH (S c0) ltac:(lia)) as [E1 E2]. rewrite app_length, firstn_plus, skipn_plus, <- HN by lia.
    rewrite E2, (slice_eq buf (fgroup m c0)); auto. 2:{ intros; apply HB; auto; lia. } split; auto.
    replace (c0 + S w) with (S c0 + w) by lia. rewrite E1, HN by lia. lia.
  Qed.

  Definition ybad dy := ((cy + dy <? 0) || (fg_ny g <=? cy + dy))%Z%bool.
  Definition zbad dz := ((cz + dz <? 0) || (fg_nz g <=? cz + dz))%Z%bool.

  Lemma drain_block dz dy l : (dz <= 1)%Z -> (dy <= 1)%Z -> zbad dz = false -> ybad dy = false ->
    fdrained stp (CB dz (dy + 1) None) l ->
    forall k i, i + k <= length buf -> fdrained stp (CB dz dy (Some (i, i + k))) (flat_map em (firstn k (skipn i buf)) ++ l).
  Proof.
    intros Hz Hy Bz By D. unfold zbad, ybad in *. induction k as [|k IH]; intros i Hi.
    - rewrite Nat.add_0_r. simpl. eapply fdr_move; [|exact D]. unfold stp, fcb_step. cbn [cb_dz cb_dy cb_block]. fold g.
      rewrite (proj2 (Z.ltb_ge _ _)) by lia. rewrite Bz. rewrite (proj2 (Z.ltb_ge 1 dy)) by lia. cbn [orb]. rewrite By, Nat.ltb_irrefl. reflexivity.
    - destruct (nth_error buf i) as [t|] eqn:Et; [|apply nth_error_None in Et; lia].
      assert (ES : skipn i buf = t :: skipn (S i) buf).
      { clear - Et. revert Et. generalize buf as bf. induction i; intros [|y bf] H0; simpl in *; try discriminate; [injection H0 as ->; auto|]. rewrite (IHi bf) by auto. auto. }
      rewrite ES. cbn [firstn flat_map]. specialize (IH (S i) ltac:(lia)). replace (S i + k) with (i + S k) in IH by lia.
      assert (E : stp (CB dz dy (Some (i, i + S k))) = match ftest_particle q qi r_max r_min excl t with Some x => FOut x (CB dz dy (Some (S i, i + S k))) | None => FMove (CB dz dy (Some (S i, i + S k))) end).
      { unfold stp, fcb_step. cbn [cb_dz cb_dy cb_block]. fold g buf.
        rewrite (proj2 (Z.ltb_ge _ _)) by lia. rewrite Bz. rewrite (proj2 (Z.ltb_ge 1 dy)) by lia. cbn [orb].
        rewrite By, (proj2 (Nat.ltb_lt _ _)) by lia. rewrite Et. reflexivity. }
      unfold em at 1, femit. rewrite <- app_assoc. destruct (ftest_particle q qi r_max r_min excl t); cbn [app].
      + eapply fdr_out; eauto. + eapply fdr_move; eauto.
  Qed.

  (** Cells examined for given offsets. *)
  Definition row_cells (dz dy : Z) : list nat :=
    if zbad dz || ybad dy then [] else
    let row := (((cz + dz) * fg_ny g + (cy + dy)) * fg_nx g + cx)%Z in
    let lo := (if 0 <? cx then -1 else 0)%Z in let hi := (if cx <? fg_nx g - 1 then 1 else 0)%Z in
    seq (Z.to_nat (row + lo)%Z) (Z.to_nat (hi - lo + 1)%Z).
  Definition visited : list nat := flat_map (fun dz => flat_map (row_cells dz) [-1; 0; 1]%Z) [-1; 0; 1]%Z.

  Lemma row_bounds dz dy : zbad dz = false -> ybad dy = false ->
    let row := (((cz + dz) * fg_ny g + (cy + dy)) * fg_nx g)%Z in (0 <= row /\ row + fg_nx g <= fg_nx g * fg_ny g * fg_nz g)%Z.
  Proof.
    unfold zbad, ybad. rewrite !orb_false_iff, !Z.ltb_ge, !Z.leb_gt. intros [? ?] [? ?]. apply fin_grid_spec in HC. simpl.
    assert (0 <= (cz + dz) * fg_ny g)%Z by nia. assert ((cz + dz) * fg_ny g + (cy + dy) + 1 <= fg_ny g * fg_nz g)%Z by nia. nia.
  Qed.

  Lemma drain_row dz dy l : (dz <= 1)%Z -> (dy <= 1)%Z -> zbad dz = false ->
    fdrained stp (CB dz (dy + 1) None) l -> fdrained stp (CB dz dy None) (flat_map em (flat_map (fgroup m) (row_cells dz dy)) ++ l).
  Proof.
    intros Hz Hy Bz D. unfold row_cells. rewrite Bz. destruct (ybad dy) eqn:By.
    - simpl. eapply fdr_move; [|exact D]. unfold stp, fcb_step. cbn [cb_dz cb_dy cb_block]. fold g.
      rewrite (proj2 (Z.ltb_ge _ _)) by lia. fold (zbad dz). rewrite Bz. rewrite (proj2 (Z.ltb_ge 1 dy)) by lia. cbn [orb]. fold (ybad dy). rewrite By. reflexivity.
    - cbn [orb]. destruct (row_bounds dz dy Bz By) as [R0 R1]. set (row := (((cz + dz) * fg_ny g + (cy + dy)) * fg_nx g)%Z) in *.
      set (lo := (if 0 <? cx then -1 else 0)%Z). set (hi := (if cx <? fg_nx g - 1 then 1 else 0)%Z). cbv zeta.
      assert (B1 : (0 <= cx + lo <= cx + hi)%Z /\ (cx + hi < fg_nx g)%Z).
      { apply fin_grid_spec in HC. unfold lo, hi. destruct (Z.ltb_spec 0 cx), (Z.ltb_spec cx (fg_nx g - 1)); lia. }
      set (c0 := Z.to_nat (row + cx + lo)%Z). set (w := Z.to_nat (hi - lo + 1)).
      assert (Hc1 : Z.to_nat (row + cx + hi)%Z = c0 + w - 1) by (unfold c0, w; lia).
      assert (Hw : 1 <= w) by (unfold w; lia). assert (Hn : c0 + w <= n) by (unfold c0, w, n; lia).
      destruct (block_slice c0 w Hn) as [E1 E2].
      assert (E3 : st (c0 + w) = st (c0 + w - 1) + length (fgroup m (c0 + w - 1))) by (rewrite <- HN by lia; f_equal; lia).
      assert (HLe := HL (c0 + w - 1) ltac:(lia)).
      pose proof (drain_block dz dy l Hz Hy Bz By D (length (flat_map (fgroup m) (seq c0 w))) (st c0) ltac:(lia)) as D'.
      rewrite E2 in D'. eapply fdr_move; [|exact D']. unfold stp, fcb_step. cbn [cb_dz cb_dy cb_block]. fold g.
      rewrite (proj2 (Z.ltb_ge _ _)) by lia. fold (zbad dz). rewrite Bz. rewrite (proj2 (Z.ltb_ge 1 dy)) by lia. cbn [orb]. fold (ybad dy). rewrite By.
      fold row lo hi. cbv zeta. rewrite Hc1. fold c0. destruct (HS c0 ltac:(lia)) as [-> _]. destruct (HS (c0 + w - 1) ltac:(lia)) as [-> ->].
      rewrite <- E3, E1. reflexivity.
  Qed.

  Lemma drain_plane dz l : (dz <= 1)%Z -> fdrained stp (CB (dz + 1) (-1) None) l ->
    fdrained stp (CB dz (-1) None) (flat_map em (flat_map (fgroup m) (flat_map (row_cells dz) [-1; 0; 1]%Z)) ++ l).
  Proof.
    intros Hz D. destruct (zbad dz) eqn:Bz.
    - assert (E : flat_map (row_cells dz) [-1; 0; 1]%Z = []) by (unfold row_cells; rewrite Bz; reflexivity). rewrite E. simpl.
      eapply fdr_move; [|exact D]. unfold stp, fcb_step. cbn [cb_dz cb_dy cb_block]. fold g.
      rewrite (proj2 (Z.ltb_ge _ _)) by lia. fold (zbad dz). rewrite Bz. reflexivity.
    - cbn [flat_map]. rewrite app_nil_r, !flat_map_app, <- !app_assoc.
      apply drain_row; try lia; auto. apply drain_row; try lia; auto. apply drain_row; try lia; auto.
      eapply fdr_move; [|exact D]. unfold stp, fcb_step. cbn [cb_dz cb_dy cb_block]. fold g.
      rewrite (proj2 (Z.ltb_ge _ _)) by lia. fold (zbad dz). rewrite Bz. reflexivity.
  Qed.

  Lemma drain_all : fdrained stp (CB (-1) (-1) None) (flat_map em (flat_map (fgroup m) visited)).
  Proof.
    pose proof drain_plane as P. unfold visited. set (f := fun dz => flat_map (row_cells dz) [-1; 0; 1]%Z) in *.
    change (flat_map f [-1; 0; 1]%Z) with (f (-1)%Z ++ f 0%Z ++ f 1%Z ++ []). rewrite app_nil_r, !flat_map_app.
    apply P; [lia|]. apply P; [lia|]. rewrite <- (app_nil_r (flat_map em _)). apply P; [lia|]. apply fdr_done. reflexivity.
  Qed.

  Lemma fcell_number_inj c c' : fin_grid g c = true -> fin_grid g c' = true -> fcell_number g c = fcell_number g c' -> c = c'.
  Proof.
    intros H H'. apply fin_grid_spec in H, H'. destruct c as [[x y] z], c' as [[x' y'] z']. unfold fcell_number. intros E.
    assert (E1 : ((z * fg_ny g + y) * fg_nx g + x = (z' * fg_ny g + y') * fg_nx g + x')%Z) by (assert (0 <= z * fg_ny g)%Z by nia; assert (0 <= z' * fg_ny g)%Z by nia; apply Z2Nat.inj; auto; nia).
    rewrite !(Z.mul_comm _ (fg_nx g)) in E1. apply Z.div_mod_unique in E1 as [E1 E2]; [|lia|lia].
    rewrite !(Z.mul_comm _ (fg_ny g)) in E1. apply Z.div_mod_unique in E1 as [E1 E3]; [|lia|lia]. congruence.
  Qed.
  Lemma fcell_number_range c : fin_grid g c = true -> fcell_number g c < n.
  Proof.
    intros H. apply fin_grid_spec in H. destruct c as [[x y] z]. unfold fcell_number, n.
    assert (z * fg_ny g + y + 1 <= fg_ny g * fg_nz g)%Z by nia. assert (0 <= z * fg_ny g + y)%Z by nia. assert (0 <= fg_ny g * fg_nz g)%Z by nia. apply Z2Nat.inj_lt; nia.
  Qed.
  Lemma row_cells_in dz dy c : In c (row_cells dz dy) <-> exists dx, (-1 <= dx <= 1)%Z /\ fin_grid g (cx + dx, cy + dy, cz + dz)%Z = true /\
    c = fcell_number g (cx + dx, cy + dy, cz + dz)%Z.
  Proof.
    assert (H0 := HC). apply fin_grid_spec in H0. unfold row_cells. split.
    - destruct (zbad dz || ybad dy) eqn:B; [intros []|]. apply orb_false_iff in B as [Bz By]. destruct (row_bounds dz dy Bz By) as [R0 R1]. cbv zeta.
      rewrite in_seq. intros Hc. set (row := (((cz + dz) * fg_ny g + (cy + dy)) * fg_nx g)%Z) in *.
      assert (B1 : ((0 <= cx + (if 0 <? cx then -1 else 0)) /\ (cx + (if cx <? fg_nx g - 1 then 1 else 0) < fg_nx g) /\ (if cx <? fg_nx g - 1 then 1 else 0) >= 0)%Z).
      { destruct (Z.ltb_spec 0 cx), (Z.ltb_spec cx (fg_nx g - 1)); lia. }
      exists (Z.of_nat c - row - cx)%Z. split.
      { destruct (0 <? cx)%Z, (cx <? fg_nx g - 1)%Z; lia. } split.
      { apply fin_grid_spec. unfold zbad, ybad in *. rewrite !orb_false_iff, !Z.ltb_ge, !Z.leb_gt in Bz, By. destruct (0 <? cx)%Z, (cx <? fg_nx g - 1)%Z; lia. }
      unfold fcell_number. fold row. lia.
    - intros (dx & Hd & HG & ->). apply fin_grid_spec in HG.
      assert (Bz : zbad dz = false) by (unfold zbad; rewrite !orb_false_iff, !Z.ltb_ge, !Z.leb_gt; lia).
      assert (By : ybad dy = false) by (unfold ybad; rewrite !orb_false_iff, !Z.ltb_ge, !Z.leb_gt; lia).
      destruct (row_bounds dz dy Bz By) as [R0 R1]. rewrite Bz, By. cbn [orb]. cbv zeta. apply in_seq. unfold fcell_number.
      set (row := (((cz + dz) * fg_ny g + (cy + dy)) * fg_nx g)%Z) in *. destruct (Z.ltb_spec 0 cx), (Z.ltb_spec cx (fg_nx g - 1)); lia.
  Qed.
  Lemma visited_in c : In c visited <-> exists dx dy dz, (-1 <= dx <= 1 /\ -1 <= dy <= 1 /\ -1 <= dz <= 1)%Z /\
    fin_grid g (cx + dx, cy + dy, cz + dz)%Z = true /\ c = fcell_number g (cx + dx, cy + dy, cz + dz)%Z.
  Proof.
    unfold visited. rewrite in_flat_map. split.
    - intros (dz & Hz & H). apply in_flat_map in H as (dy & Hy & H). apply row_cells_in in H as (dx & Hx & H).
      exists dx, dy, dz. split; [|auto]. simpl in Hz, Hy. lia.
    - intros (dx & dy & dz & Hd & H). exists dz. split; [simpl; lia|]. apply in_flat_map. exists dy. split; [simpl; lia|].
      apply row_cells_in. exists dx. tauto.
  Qed.
  Lemma visited_nodup : NoDup visited.
  Proof.
    unfold visited. assert (N3 : NoDup [-1; 0; 1]%Z) by (repeat constructor; simpl; lia).
    apply NoDup_flat_map; auto.
    - intros dz _. apply NoDup_flat_map; auto.
      + intros dy _. unfold row_cells. destruct (zbad dz || ybad dy); [constructor|apply seq_NoDup].
      + intros dy dy' c _ _ H1 H2. apply row_cells_in in H1 as (? & _ & G1 & E1). apply row_cells_in in H2 as (? & _ & G2 & E2).
        rewrite E1 in E2. apply fcell_number_inj in E2; auto. apply tri_eq in E2. lia.
    - intros dz dz' c _ _ H1 H2. apply in_flat_map in H1 as (? & _ & H1). apply in_flat_map in H2 as (? & _ & H2).
      apply row_cells_in in H1 as (? & _ & G1 & E1). apply row_cells_in in H2 as (? & _ & G2 & E2).
      rewrite E1 in E2. apply fcell_number_inj in E2; auto. apply tri_eq in E2. lia.
  Qed.
End Drain.

(** The blocks visited are, up to order, the entries of the mapping whose cell is visited. *)
From Coq Require Import Permutation.
Lemma perm_partition {A} (f : A -> bool) (g : A -> bool) l : Permutation (filter (fun x => f x && negb (g x)) l ++ filter (fun x => f x && g x) l) (filter f l).
Proof.
  induction l as [|x l IH]; simpl; auto. destruct (f x), (g x); simpl; auto. apply Permutation_sym, Permutation_cons_app, Permutation_sym. auto.
Qed.
Lemma fgroup_perm m c : Permutation (fgroup m c) (map snd (filter (fin_c c) m)).
Proof. unfold fgroup. apply Permutation_map. apply (perm_partition (fin_c c) fis_ghost). Qed.
Lemma groups_perm m cs : NoDup cs -> Permutation (flat_map (fgroup m) cs) (map snd (filter (fun e => existsb (Nat.eqb (fst e)) cs) m)).
Proof.
  induction cs as [|c cs IH]; intros ND; simpl.
  - replace (filter _ m) with (@nil (nat * ftagged)); auto. induction m; simpl; auto.
  - inversion ND as [|? ? N1 N2]; subst. rewrite (fgroup_perm m c), (IH N2). rewrite <- map_app. apply Permutation_map.
    clear IH ND. induction m as [|e m IH]; simpl; auto. unfold fin_c at 1. destruct (Nat.eqb_spec (fst e) c) as [E|NE]; simpl.
    + replace (existsb (Nat.eqb (fst e)) cs) with false; [simpl; constructor; auto|]. symmetry. apply not_true_iff_false. intros H. apply existsb_exists in H as (y & Hy & Ey). apply Nat.eqb_eq in Ey. congruence.
    + destruct (existsb (Nat.eqb (fst e)) cs); auto. apply Permutation_sym, Permutation_cons_app, Permutation_sym. auto.
Qed.
Lemma perm_flat_map {A B} (f : A -> list B) l l' : Permutation l l' -> Permutation (flat_map f l) (flat_map f l').
Proof. intros H. induction H; simpl; auto. - apply Permutation_app_head; auto. - rewrite !app_assoc. apply Permutation_app_tail, Permutation_app_comm. - etransitivity; eauto. Qed.
Lemma flat_map_filter {A B} (p : A -> bool) (f : A -> list B) l : flat_map f (filter p l) = flat_map (fun x => if p x then f x else []) l.
Proof. induction l as [|x l IH]; simpl; auto. destruct (p x); simpl; rewrite IH; auto. Qed.
Lemma flat_map_map {A B C} (h : A -> B) (f : B -> list C) l : flat_map f (map h l) = flat_map (fun x => f (h x)) l.
Proof. induction l as [|x l IH]; simpl; auto. rewrite IH; auto. Qed.
Lemma flat_map_flat_map {A B C} (h : A -> list B) (f : B -> list C) l : flat_map f (flat_map h l) = flat_map (fun x => flat_map f (h x)) l.
Proof. induction l as [|x l IH]; simpl; auto. rewrite flat_map_app, IH; auto. Qed.
Lemma flat_map_ext_in {A B} (f g : A -> list B) l : (forall x, In x l -> f x = g x) -> flat_map f l = flat_map g l.
Proof. induction l as [|x l IH]; intros H; simpl; auto. rewrite IH, H; auto; [left; auto|intros; apply H; right; auto]. Qed.
