(** C34 for LinkCell, and counterexamples to the unrestricted claim. *)
From Coq Require Import Sorting.Sorted.
From Verif Require Import MArrayProofs NListProofs AABBProofs2 FilterProps AABBProps BoxProofs BoxProofs2 BoxProps LinkCellProofs LinkCellProofs2 LinkCellProofs3 LinkCellProps QueryProofs QueryProps KnnModel KnnProofs KnnProofs2 KnnProps KnnSpec LinkCellSpec.
Open Scope R_scope.

Lemma max_range_pos lc : positive (lc_box lc) -> 0 < lc_width lc -> (0 < lk_max_range lc)%Z.
Proof.
  intros Hb Hw. unfold lk_max_range. assert (0 <= Zceil (min_plane (lc_box lc) / (2 * lc_width lc)))%Z; [|lia].
  assert (-1 < Zceil (min_plane (lc_box lc) / (2 * lc_width lc)))%Z; [|lia]. apply lt_IZR. pose proof (Zceil_ub (min_plane (lc_box lc) / (2 * lc_width lc))).
  assert (0 < min_plane (lc_box lc) / (2 * lc_width lc)) by (apply Rdiv_lt_0_compat; [apply min_plane_pos; auto|lra]). lra.
Qed.
Lemma lk_bonds_in lc q qi r_max r_min excl js x : 0 <= r_min -> xleb r_max 0 = false ->
  In x (lk_bonds lc q qi r_max r_min excl js) <-> exists j, In j js /\ ~ (excl = true /\ qi = j) /\
    let d := wrap (lc_box lc) (vsub (nth j (lc_points lc) v0) q) in r_min <= norm d /\ (forall r, r_max = Fin r -> norm d < r) /\ x = Bond qi j (norm d) 1 d.
Proof.
  intros H0 Hm. unfold lk_bonds. rewrite in_flat_map. cbv zeta.
  assert (XS : forall d, xsq_ltb (dot d d) r_max = true <-> forall r, r_max = Fin r -> norm d < r).
  { intros d. destruct r_max as [r|]; simpl in *.
    - apply Rleb_false in Hm. rewrite Rltb_true. split; [intros H r' E; injection E as <-; apply norm_sq_lt; auto|intros H; apply norm_sq_lt; auto].
    - split; [discriminate|auto]. }
  split.
  - intros (j & Hj & H). exists j. split; auto. destruct (excl && Nat.eqb qi j) eqn:E; [destruct H|]. destruct (xsq_ltb _ _ && Rleb _ _) eqn:R; [|destruct H]. destruct H as [<-|[]].
    apply andb_true_iff in R as [R1 R2]. pose proof (proj1 (XS _) R1) as R1'. apply Rleb_true in R2. apply norm_sq_le in R2; auto. split; [intros [-> ->]; rewrite Nat.eqb_refl in E; discriminate|]. split; auto.
  - intros (j & Hj & NE & R2 & R1 & ->). exists j. split; auto. destruct (excl && Nat.eqb qi j) eqn:E; [apply andb_true_iff in E as [E1 E2]; apply Nat.eqb_eq in E2; exfalso; auto|].
    rewrite (proj2 (XS _) R1). rewrite (proj2 (Rleb_true _ _)); [left; reflexivity|]. apply norm_sq_le; auto.
Qed.

(** The bond LinkCell may return for point [j]: the wrapped displacement, if its length is admissible. *)
Definition wrapped_candidate (b : box) (points : list vec3) (q : vec3) (qi : nat) (excl : bool) (r_min : R) (r_max : xreal) (j : nat) (v : vec3) : Prop :=
  (j < length points)%nat /\ ~ (excl = true /\ qi = j) /\ v = wrap b (vsub (nth j points v0) q) /\ r_min <= norm v /\ forall r, r_max = Fin r -> norm v < r.
(** Every cell is within the searched shells of every other. *)
Definition covers (lc : linkcell) : Prop := let '(dx, dy, dz) := lc_dim lc in let m := (2 * (lk_max_range lc - 1) + 1)%Z in (dx <= m /\ dy <= m /\ dz <= m)%Z.

Lemma reach_short b points cw lc q pc j N : positive b -> fully_periodic b -> lc_make b points cw = Some lc -> 0 < lc_width lc -> (forall p, In p points -> in_space b p) -> in_space b q ->
  cell_coord b (lc_dim lc) q = Some pc -> (j < length points)%nat -> norm (wrap b (vsub (nth j points v0) q)) < IZR (N - 1) * lc_width lc ->
  exists p, (cheb p < N)%Z /\ offset_ok (b_2d b) p /\ get_cell b (lc_dim lc) (nth j points v0) = Some (cell_index (lc_dim lc) (add3 pc p)).
Proof.
  intros Hb FP HM Hw HS Hq HP Hj HN. set (w := lc_width lc) in *. set (r := (norm (wrap b (vsub (nth j points v0) q)) + IZR (N - 1) * w) / 2).
  pose proof (norm_nonneg (wrap b (vsub (nth j points v0) q))). assert (Hr : 0 < r) by (unfold r; lra).
  destruct (lc_find b points cw lc q pc j r Hb FP HM Hw Hr HS Hq HP Hj) as (p & c & Ho & Hch & Hcell & Hidx); [unfold r; lra|].
  exists p. split; [|split; auto; rewrite Hcell, Hidx; auto].
  assert (N1 : (1 < N)%Z). { apply lt_IZR. rewrite minus_IZR in HN. simpl in HN |- *. nra. }
  destruct (Z_lt_le_dec (cheb p) 1) as [L|L]; [lia|]. specialize (Hch L). unfold extra_width in Hch. fold w in Hch.
  destruct (Reqb_spec r w) as [E|E].
  - assert (cheb p <= 1)%Z. { apply le_IZR. rewrite Z.sub_0_r, E in Hch. nra. }
    assert (2 < N)%Z; [|lia]. apply lt_IZR. rewrite minus_IZR in HN. assert (w < (IZR N - 1) * w) by (rewrite <- E at 1; unfold r; rewrite minus_IZR; lra). simpl. nra.
  - apply lt_IZR. assert (r < IZR (N - 1) * w) by (unfold r; lra). rewrite minus_IZR in *. assert ((IZR (cheb p) - 1) * w < (IZR N - 1) * w) by lra. nra.
Qed.
Lemma mod_offset a c n m : (0 < n)%Z -> (n <= 2 * m + 1)%Z -> (0 <= c < n)%Z -> exists p, (Z.abs p <= m)%Z /\ cmod (a + p) n = c.
Proof.
  intros Hn Hm Hc. set (e := ((c - a) mod n)%Z). assert (He : (0 <= e < n)%Z) by (apply Z.mod_pos_bound; auto).
  assert (E : ((a + e) mod n = c)%Z) by (unfold e; rewrite Zplus_mod_idemp_r; replace (a + (c - a))%Z with c by lia; apply Z.mod_small; auto).
  destruct (Z_le_gt_dec e m) as [L|L].
  - exists e. split; [lia|]. rewrite cmod_mod; auto.
  - exists (e - n)%Z. split; [lia|]. rewrite cmod_mod by auto. rewrite <- E. replace (a + (e - n))%Z with (a + e + (-1) * n)%Z by lia. apply Z_mod_plus_full.
Qed.

(** LinkCell returns at most [k] different points, at their wrapped displacements, in order; a candidate left out is no closer than those
    returned if there are [k] of them; otherwise it lies at least half the smallest plane distance away, and there is none
    if the shells searched cover all cells. *)
Theorem C34_linkcell (b : box) (points : list vec3) (cw : R) (lc : linkcell) (q : vec3) (qi k : nat) (r_max : xreal) (r_min : R) (excl : bool) (l : list bond) :
  positive b -> fully_periodic b -> lc_make b points cw = Some lc -> 0 < lc_width lc -> (forall p, In p points -> in_space b p) -> in_space b q -> 0 <= r_min ->
  lk_nearest lc q qi k r_max r_min excl (Some l) ->
  NoDup (map bp l) /\ (forall i j, (i < j < length l)%nat -> bd (nth i l bond0) <= bd (nth j l bond0)) /\ (length l <= k)%nat /\
  (forall x, In x l -> wrapped_candidate b points q qi excl r_min r_max (bp x) (bv x) /\ x = Bond qi (bp x) (norm (bv x)) 1 (bv x)) /\
  forall j v, wrapped_candidate b points q qi excl r_min r_max j v -> ~ In j (map bp l) ->
    (length l = k /\ forall x, In x l -> bd x <= norm v) \/ (min_plane b / 2 <= norm v /\ ~ covers lc).
Proof.
  intros Hb FP HM Hw HS Hq H0. unfold lk_nearest. destruct (near_args_ok r_max r_min) eqn:NA; [|discriminate].
  unfold near_args_ok in NA. apply andb_true_iff in NA as [NA _]. apply negb_true_iff in NA.
  intros (Hk & pc & s & HP & SR & El). apply some_inj in El. assert (HM' := HM). apply lc_make_spec in HM' as (Eb & Ep & Hne & _ & HD & _ & HL & _). rewrite Eb in HP.
  assert (Hin : in_dim (lc_dim lc) pc) by (pose proof (cell_coord_spec _ _ _ _ HD HP) as X; destruct (lc_dim lc) as [[? ?] ?]; apply X).
  assert (RG : forall j c, get_cell b (lc_dim lc) (nth j points v0) = Some c -> (0 <= c < num_cells (lc_dim lc))%Z).
  { intros j c E. unfold get_cell in E. destruct (cell_coord b (lc_dim lc) (nth j points v0)) as [c'|] eqn:Ec; [|discriminate].
    injection E as <-. apply cell_coord_spec in Ec; auto. apply coord_index_range. destruct (lc_dim lc) as [[? ?] ?]. apply Ec. }
  apply cell_list_spec in HL as [HL1 HL]; [|eauto].
  assert (MP : (0 < lk_max_range lc)%Z) by (apply max_range_pos; auto; rewrite Eb; auto).
  assert (DONE : lk_done lc pc q qi k r_max r_min excl (contents b (lc_dim lc) points) s).
  { assert (HC : forall p, chain (lc_list lc) (length (lc_points lc) + Z.to_nat (cell_index (lc_dim lc) (add3 pc p))) (contents b (lc_dim lc) points (cell_index (lc_dim lc) (add3 pc p)))).
    { intros p. rewrite Ep. apply HL. apply cell_index_range; auto. }
    cbv zeta in SR. eapply (search_done lc pc q qi k r_max r_min excl (contents b (lc_dim lc) points) HC); [auto|exact SR|].
    assert (E0 : coord_to_index (lc_dim lc) pc = cell_index (lc_dim lc) (add3 pc (0, 0, 0)%Z)) by (rewrite add3_0, cell_index_in; auto). rewrite E0. apply inv_start. auto. }
  destruct DONE as (cells & N & ND & P & SS & HNM & HC1 & HC2 & HE). rewrite Eb in HC1, HC2.
  assert (BIN : forall x, In x s <-> exists j c, In c cells /\ get_cell b (lc_dim lc) (nth j points v0) = Some c /\ wrapped_candidate b points q qi excl r_min r_max j (bv x) /\ x = Bond qi j (norm (bv x)) 1 (bv x)).
  { intros x. split.
    - intros Hx. apply (Permutation_in _ (Permutation_sym P)) in Hx. apply in_flat_map in Hx as (c & Hc & Hx). apply lk_bonds_in in Hx as (j & Hj & NE & R1 & R2 & Ex); auto. rewrite Eb, Ep in *.
      apply filter_In in Hj as [Hj Hcj]. unfold pt_cell in Hcj. destruct (get_cell b (lc_dim lc) (nth j points v0)) as [c'|] eqn:Ec; [|discriminate]. apply Z.eqb_eq in Hcj. subst c'.
      exists j, c. apply in_seq in Hj. split; auto. split; auto. rewrite Ex. cbn [bv]. split; [|auto]. split; [lia|auto].
    - intros (j & c & Hc & Ec & (Hj & NE & Ev & R1 & R2) & Ex). apply (Permutation_in _ P). apply in_flat_map. exists c. split; auto. apply lk_bonds_in; auto. rewrite Eb, Ep. exists j.
      split; [apply filter_In; split; [apply in_seq; lia|]; unfold pt_cell; rewrite Ec; apply Z.eqb_refl|]. cbv zeta. rewrite <- Ev. auto. }
  assert (NDs : NoDup (map bp s)).
  { eapply Permutation_NoDup; [apply Permutation_map; exact P|]. rewrite flat_map_concat_map, concat_map, map_map, <- flat_map_concat_map.
    apply NoDup_flat_map; auto.
    - intros c _. assert (SUB : forall js, NoDup js -> NoDup (map bp (lk_bonds lc q qi r_max r_min excl js))).
      { clear - H0 NA. induction js as [|j js IH]; intros N; [constructor|]. inversion_clear N. unfold lk_bonds. cbn [flat_map]. fold (lk_bonds lc q qi r_max r_min excl js).
        assert (NI : ~ In j (map bp (lk_bonds lc q qi r_max r_min excl js))).
        { intros I. apply in_map_iff in I as (x & Ex & I). apply lk_bonds_in in I as (j' & Hj' & _ & _ & _ & Ex'); auto. rewrite Ex' in Ex. simpl in Ex. subst. contradiction. }
        destruct (excl && Nat.eqb qi j); [apply IH; auto|]. cbv zeta. destruct (xsq_ltb _ _ && Rleb _ _); cbn [app map]; [constructor; auto; apply IH; auto|apply IH; auto]. }
      apply SUB. apply List.NoDup_filter, seq_NoDup.
    - intros c c' j _ _ H H'. apply in_map_iff in H as (x & Ex & H), H' as (x' & Ex' & H'). apply lk_bonds_in in H as (y & Hy & _ & _ & _ & E), H' as (y' & Hy' & _ & _ & _ & E'); auto.
      rewrite E in Ex. rewrite E' in Ex'. simpl in Ex, Ex'. subst y y'. apply filter_In in Hy as [_ Hy], Hy' as [_ Hy']. unfold pt_cell in Hy, Hy'. destruct (get_cell _ _ _); [|discriminate].
      apply Z.eqb_eq in Hy, Hy'. congruence. }
  destruct (firstn_sorted k s SS) as [S1 S2].
  assert (IN : forall x, In x (firstn k s) -> In x s) by (intros x Hx; rewrite <- (firstn_skipn k s); apply in_or_app; auto).
  assert (EL : l = firstn k s).
  { rewrite El. unfold deliver. apply within_all. intros x Hx. apply IN, BIN in Hx as (j & c & _ & _ & (_ & _ & _ & _ & R2) & Ex). destruct r_max as [rm|]; simpl; auto.
    apply Rltb_false. rewrite Ex. simpl. left. apply R2. auto. }
  clear El. subst l. split; [rewrite <- firstn_map; apply NoDup_firstn; auto|]. split; [apply sorted_nth; auto|]. split; [apply firstn_le_length|]. split.
  { intros x Hx. apply IN, BIN in Hx as (j & c & _ & _ & W & Ex). assert (Ej : bp x = j) by (rewrite Ex; reflexivity). rewrite Ej. auto. }
  intros j v HJ NI. destruct (HJ) as (Hj & NE & Ev & R1 & R2). destruct (HL1 j Hj) as [c Hc].
  destruct (in_dec Z.eq_dec c cells) as [IC|IC].
  - left. set (y := Bond qi j (norm v) 1 v). assert (Hy : In y s) by (apply BIN; exists j, c; auto).
    rewrite <- (firstn_skipn k s) in Hy. apply in_app_iff in Hy as [Hy|Hy]; [exfalso; apply NI; change j with (bp y); apply in_map; auto|]. split.
    + rewrite firstn_length. assert (k < length s)%nat; [|lia]. destruct (le_lt_dec (length s) k) as [G|G]; auto. rewrite skipn_all2 in Hy by auto. destruct Hy.
    + intros x Hx. apply (S2 x y Hx Hy).
  - assert (FAR : IZR (N - 1) * lc_width lc <= norm v).
    { destruct (Rlt_le_dec (norm v) (IZR (N - 1) * lc_width lc)) as [L|L]; auto. exfalso. rewrite Ev in L.
      destruct (reach_short b points cw lc q pc j N Hb FP HM Hw HS Hq HP Hj L) as (p & Hp & Ho & E). rewrite Hc in E. injection E as ->. apply IC, HC2; auto. }
    destruct HE as [HE|[HE1 HE2]].
    + right. split.
      * apply Rle_trans with (2 := FAR). rewrite HE. unfold lk_max_range. rewrite Eb. replace (Zceil (min_plane b / (2 * lc_width lc)) + 1 - 1)%Z with (Zceil (min_plane b / (2 * lc_width lc))) by lia.
        pose proof (Zceil_ub (min_plane b / (2 * lc_width lc))) as U. apply Rmult_le_compat_r with (r := lc_width lc) in U; [|lra].
        replace (min_plane b / (2 * lc_width lc) * lc_width lc) with (min_plane b / 2) in U by (field; lra). auto.
      * intros CV. unfold covers in CV. subst N. specialize (RG j c Hc). unfold get_cell in Hc. destruct (cell_coord b (lc_dim lc) (nth j points v0)) as [cc|] eqn:Ecc; [|discriminate]. simpl in Hc. injection Hc as <-.
        pose proof (cell_coord_spec _ _ _ _ HD Ecc) as X. destruct (lc_dim lc) as [[dx dy] dz] eqn:ED. destruct X as [_ X]. destruct cc as [[cx cy] cz], pc as [[px py] pz].
        assert (D1 : b_2d b = true -> dz = 1%Z).
        { intros E2. apply lc_make_spec in HM as (_ & _ & _ & _ & _ & G & _). specialize (G Hw). rewrite ED in G. apply G. auto. }
        destruct X as (X1 & X2 & X3). destruct CV as (CV1 & CV2 & CV3). destruct HD as (D1' & D2' & D3').
        destruct (mod_offset px cx dx _ D1' CV1 X1) as (ox & Ox & Mx). destruct (mod_offset py cy dy _ D2' CV2 X2) as (oy & Oy & My).
        assert (Z3 : exists oz, (Z.abs oz <= lk_max_range lc - 1)%Z /\ cmod (pz + oz) dz = cz /\ (b_2d b = true -> oz = 0%Z)).
        { destruct (b_2d b) eqn:E2.
          - specialize (D1 eq_refl). subst dz. exists 0%Z. split; [lia|]. split; [rewrite cmod_mod, Z.mod_1_r; lia|auto].
          - destruct (mod_offset pz cz dz _ D3' CV3 X3) as (oz & Oz & Mz). exists oz. split; auto. split; auto. discriminate. }
        destruct Z3 as (oz & Oz & Mz & O2). apply IC. specialize (HC2 (ox, oy, oz)). unfold add3, cell_index in HC2. rewrite Mx, My, Mz in HC2. apply HC2; [unfold cheb; lia|exact O2].
    + left. split; [rewrite firstn_length; lia|]. intros x Hx. apply (In_nth _ _ bond0) in Hx as (i & Hi & <-). rewrite firstn_length in Hi.
      assert (NF : nth i (firstn k s) bond0 = nth i s bond0) by (rewrite <- (firstn_skipn k s) at 2; rewrite app_nth1; auto; rewrite firstn_length; auto). rewrite NF.
      assert (bd (nth i s bond0) <= bd (nth (k - 1) s bond0)); [|lra].
      destruct (Nat.eq_dec i (k - 1)) as [-> |]; [lra|]. apply sorted_nth; auto. lia.
Qed.
Print Assumptions C34_linkcell.
