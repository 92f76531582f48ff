(** C34: true nearest neighbours from LinkCell, agreement, whole queries; C22 for nearest-neighbour queries. *)
From Coq Require Import Sorting.Sorted.
From Verif Require Import MArrayProofs NListProofs AABBProofs2 FilterProps AABBProps BoxProofs BoxProofs2 BoxProps LinkCellProofs LinkCellProofs2 LinkCellProofs3 LinkCellProps QueryProofs QueryProps KnnModel KnnProofs KnnProofs2 KnnProps KnnProps2 NListSpec KnnSpec LinkCellSpec QueryArgSpec.
Open Scope R_scope.

(** Below half the smallest plane distance the wrapped displacement is the nearest image. *)
Lemma wrapped_nearest b points q j : positive b -> in_space b (nth j points v0) -> in_space b q ->
  2 * norm (wrap b (vsub (nth j points v0) q)) < min_plane b -> nearest_image b points q all_images j (wrap b (vsub (nth j points v0) q)).
Proof.
  intros Hb Hp Hq HN. destruct (C02_wrap_lattice_shift b (vsub (nth j points v0) q) (proj1 Hb)) as (i1 & i2 & i3 & A & E).
  { intros E2. simpl. rewrite (Hp E2), (Hq E2). ring. }
  assert (SE : wrap b (vsub (nth j points v0) q) = sep b points q j (- i1) (- i2) (- i3)).
  { rewrite E. unfold sep. rewrite !flat_id by auto. unfold shift, comb. rewrite !opp_IZR. vec_ring. }
  assert (A' : allowed b (- i1) (- i2) (- i3)) by (destruct A as (A1 & A2 & A3 & A4); repeat split; intros H; [rewrite A1|rewrite A2|rewrite A3|rewrite A4]; auto).
  split; [exists (- i1)%Z, (- i2)%Z, (- i3)%Z; split; [auto|split; [exact I|auto]]|].
  intros k1 k2 k3 KA _. destruct (Rlt_le_dec (norm (sep b points q j k1 k2 k3)) (min_plane b / 2)) as [L|L]; [|lra].
  rewrite SE in *. pose proof (one_near_image b points q j (min_plane b / 2) _ _ _ k1 k2 k3 Hb ltac:(lra) A' KA ltac:(lra) L) as T. injection T as <- <- <-. lra.
Qed.
Lemma nearest_wrapped b points q j v : positive b -> in_space b (nth j points v0) -> in_space b q -> nearest_image b points q all_images j v ->
  2 * norm v < min_plane b -> v = wrap b (vsub (nth j points v0) q).
Proof.
  intros Hb Hp Hq [(i1 & i2 & i3 & A & _ & E) _] HN. assert (SP : in_space b (vsub (nth j points v0) q)) by (intros E2; simpl; rewrite (Hp E2), (Hq E2); ring).
  destruct (min_image b (vsub (nth j points v0) q) v Hb SP) as [W _]; [| |symmetry; exact W].
  - rewrite E. apply sep_direction; auto.
  - destruct (min_plane_spec b) as (MX & MY & MZ & _). unfold shorter_than_half_heights. repeat split; intros; try lra. specialize (MZ H). lra.
Qed.
Theorem C34_linkcell_true_nearest (b : box) (points : list vec3) (cw : R) (lc : linkcell) (q : vec3) (qi k : nat) (r_max : xreal) (r_min : R) (excl : bool) (l : list bond) :
  positive b -> fully_periodic b -> lc_make b points cw = Some lc -> 0 < lc_width lc -> (forall p, In p points -> in_space b p) -> in_space b q -> 0 <= r_min ->
  lk_nearest lc q qi k r_max r_min excl (Some l) -> length l = k -> (0 < k)%nat -> (forall x, In x l -> 2 * bd x < min_plane b) ->
  k_nearest b points q qi excl r_min all_images k l.
Proof.
  intros Hb FP HM Hw HS Hq H0 HL EK Hk HD. destruct (C34_linkcell b points cw lc q qi k r_max r_min excl l Hb FP HM Hw HS Hq H0 HL) as (ND & SO & _ & MEM & OUT).
  assert (DX : forall x, In x l -> bd x = norm (bv x)) by (intros x Hx; destruct (MEM x Hx) as [_ ->]; reflexivity).
  split; [auto|]. split.
  - split; [auto|split; [auto|]]. intros x Hx. destruct (MEM x Hx) as [(Hj & NE & Ev & R1 & R2) Ex]. split; auto. split; auto. split; auto. split; auto.
    rewrite Ev. apply wrapped_nearest; auto; [apply HS, nth_In; auto|]. rewrite <- Ev, <- DX by auto. auto.
  - intros j v (Hj & NE & NI & R1) NJ x Hx. destruct (Rlt_le_dec (norm v) (bd x)) as [L|L]; [|lra].
    assert (E : v = wrap b (vsub (nth j points v0) q)) by (apply nearest_wrapped; auto; [apply HS, nth_In; auto|]; specialize (HD x Hx); lra).
    destruct (OUT j v) as [[_ G]|[G _]]; auto.
    + split; auto. split; auto. split; auto. split; auto. intros r Er. destruct (MEM x Hx) as [(_ & _ & _ & _ & R2) _]. specialize (R2 r Er). rewrite <- DX in R2 by auto. lra.
    + specialize (HD x Hx). lra.
Qed.
Print Assumptions C34_linkcell_true_nearest.
Theorem C34_linkcell_defined (b : box) (points : list vec3) (cw : R) (lc : linkcell) (q : vec3) (qi k : nat) (r_max : xreal) (r_min : R) (excl : bool) :
  positive b -> fully_periodic b -> lc_make b points cw = Some lc -> 0 < lc_width lc -> in_cell b q -> (0 < k)%nat -> (forall r, r_max = Fin r -> 0 < r /\ r_min < r) ->
  (exists l, lk_nearest lc q qi k r_max r_min excl (Some l)) /\ ~ lk_nearest lc q qi k r_max r_min excl None.
Proof.
  intros Hb FP HM Hw Hq Hk HR. unfold lk_nearest, near_args_ok.
  assert (E0 : xleb r_max 0 = false) by (destruct r_max as [r|]; simpl; auto; apply Rleb_false; apply HR; auto).
  assert (E1 : xleb r_max r_min = false) by (destruct r_max as [r|]; simpl; auto; apply Rleb_false; apply HR; auto).
  rewrite E0, E1. cbn [negb andb]. split; [|intros (_ & pc & s & _ & _ & E); discriminate].
  assert (HM' := HM). apply lc_make_spec in HM' as (Eb & Ep & Hne & _ & HD & _ & HL & _).
  assert (PC : exists pc, cell_coord b (lc_dim lc) q = Some pc).
  { destruct Hq as (s & t & u & E & Hs & Ht & Hu). destruct FP as (Fx & Fy & Fz). specialize (Hs Fx). specialize (Ht Fy).
    assert (F : make_fractional b q = V3 s t (if b_2d b then 0 else u)) by (rewrite E; apply make_fractional_cell; apply Hb).
    unfold cell_coord. destruct (lc_dim lc) as [[dx dy] dz]. destruct HD as (Dx & Dy & Dz). rewrite F. cbn [vx vy vz].
    destruct (axis_cell_defined s dx Dx) as [? ->]; [lra|]. destruct (axis_cell_defined t dy Dy) as [? ->]; [lra|].
    destruct (axis_cell_defined (if b_2d b then 0 else u)%R dz Dz) as [? ->]; [|eauto].
    destruct (b_2d b); [lra|]. specialize (Hu eq_refl Fz). lra. }
  destruct PC as [pc HP]. assert (Hin : in_dim (lc_dim lc) pc) by (pose proof (cell_coord_spec _ _ _ _ HD HP) as X; destruct (lc_dim lc) as [[? ?] ?]; apply X).
  assert (RG : forall j c, get_cell b (lc_dim lc) (nth j points v0) = Some c -> (0 <= c < num_cells (lc_dim lc))%Z).
  { intros j c E. unfold get_cell in E. destruct (cell_coord b (lc_dim lc) (nth j points v0)) as [c'|] eqn:Ec; [|discriminate].
    injection E as <-. apply cell_coord_spec in Ec; auto. apply coord_index_range. destruct (lc_dim lc) as [[? ?] ?]. apply Ec. }
  apply cell_list_spec in HL as [HL1 HL]; [|eauto].
  destruct (search_exists lc pc q qi k r_max r_min excl (contents b (lc_dim lc) points)) as [s HS].
  { intros p. rewrite Ep. apply HL. apply cell_index_range; auto. } { apply max_range_pos; auto. rewrite Eb; auto. }
  eexists. split; auto. exists pc, s. rewrite Eb in *. split; auto. cbv zeta. split; [|reflexivity].
  assert (EI : coord_to_index (lc_dim lc) pc = cell_index (lc_dim lc) (add3 pc (0, 0, 0)%Z)) by (rewrite add3_0, cell_index_in; auto). rewrite EI. exact HS.
Qed.
Print Assumptions C34_linkcell_defined.

(** The specification determines the distances: two answers meeting it have the same list of distances. *)
Theorem C34_agree (b : box) (points : list vec3) (q : vec3) (qi k : nat) (excl : bool) (r_min : R) (l l' : list bond) :
  k_nearest b points q qi excl r_min all_images k l -> k_nearest b points q qi excl r_min all_images k l' -> map bd l = map bd l'.
Proof.
  assert (NU : forall j v v', nearest_image b points q all_images j v -> nearest_image b points q all_images j v' -> norm v = norm v').
  { intros j v v' [(a1 & a2 & a3 & A & _ & E) M] [(b1 & b2 & b3 & B & _ & E') M']. apply Rle_antisym; [rewrite E'; apply M|rewrite E; apply M']; auto; exact I. }
  assert (LE : forall l l', k_nearest b points q qi excl r_min all_images k l -> k_nearest b points q qi excl r_min all_images k l' ->
     forall i, (i < k)%nat -> bd (nth i l bond0) <= bd (nth i l' bond0)).
  { clear l l'. intros l l' (L & (ND & SO & MEM) & OUT) (L' & (ND' & SO' & MEM') & OUT') i Hi.
    destruct (Rlt_le_dec (bd (nth i l' bond0)) (bd (nth i l bond0))) as [C|C]; [|auto]. exfalso.
    assert (SUB : incl (map bp (firstn (S i) l')) (map bp (firstn i l))).
    { intros j Hj. apply in_map_iff in Hj as (y & Ey & Hy). apply (In_nth _ _ bond0) in Hy as (n & Hn & En). rewrite firstn_length in Hn.
      assert (NF : nth n (firstn (S i) l') bond0 = nth n l' bond0) by (rewrite <- (firstn_skipn (S i) l') at 2; rewrite app_nth1; auto; rewrite firstn_length; auto). rewrite NF in En.
      assert (Iy : In y l') by (rewrite <- En; apply nth_In; lia). destruct (MEM' y Iy) as [HC Ey'].
      assert (Dy : bd y < bd (nth i l bond0)).
      { apply Rle_lt_trans with (2 := C). rewrite <- En. destruct (Nat.eq_dec n i) as [-> |]; [lra|apply SO'; lia]. }
      assert (Dv : bd y = norm (bv y)) by (rewrite Ey'; reflexivity). assert (Il : In (nth i l bond0) l) by (apply nth_In; lia).
      destruct (in_dec Nat.eq_dec (bp y) (map bp l)) as [IL|NL]; [|specialize (OUT _ _ HC NL _ Il); lra].
      apply in_map_iff in IL as (x & Ex & Ix). destruct (MEM x Ix) as [HCx Ex']. assert (Dx : bd x = bd y).
      { rewrite Ex', Dv. simpl. rewrite Ex in HCx. apply (NU (bp y)); [apply HCx|apply HC]. }
      apply (In_nth _ _ bond0) in Ix as (m & Hm & Em). apply in_map_iff. exists x. split; [congruence|].
      assert (m < i)%nat. { destruct (le_lt_dec i m) as [G|G]; auto. exfalso. destruct (Nat.eq_dec m i) as [-> |]; [rewrite Em in Dy; lra|]. specialize (SO i m ltac:(lia)). rewrite Em in SO. lra. }
      assert (NG : nth m (firstn i l) bond0 = nth m l bond0) by (rewrite <- (firstn_skipn i l) at 2; rewrite app_nth1; auto; rewrite firstn_length; lia). rewrite <- Em, <- NG. apply nth_In. rewrite firstn_length. lia. }
    apply NoDup_incl_length in SUB; [|rewrite <- firstn_map; apply NoDup_firstn; auto]. rewrite !map_length, !firstn_length in SUB. lia. }
  intros H H'. apply (nth_ext _ _ 0 0); [rewrite !map_length; destruct H as [-> _]; destruct H' as [-> _]; auto|]. intros i Hi. rewrite map_length in Hi.
  change 0 with (bd bond0). rewrite !map_nth. assert (Hk : (i < k)%nat) by (destruct H as [<- _]; auto). apply Rle_antisym; apply LE; auto.
Qed.
Print Assumptions C34_agree.

(** ** Whole queries *)
Lemma drain_nth run qs : forall i ls, drain_all run i qs (Some ls) -> length ls = length qs /\ forall j, (j < length qs)%nat -> run (nth j qs v0) (i + j)%nat (Some (nth j ls [])).
Proof.
  induction qs as [|q qs IH]; intros i ls H; inversion H; subst.
  - split; auto. intros j Hj. simpl in Hj. lia.
  - match goal with X : option_map _ ?r = _, Y : drain_all _ (S i) qs ?r |- _ => destruct r as [ls1|]; [|discriminate]; simpl in X; injection X as <-; destruct (IH _ _ Y) as [L D] end. split; [simpl; lia|]. intros [|j] Hj; cbn [nth]; [rewrite Nat.add_0_r; auto|].
    replace (i + S j)%nat with (S i + j)%nat by lia. apply D. simpl in Hj. lia.
Qed.
Lemma drain_exists (run : vec3 -> nat -> option (list bond) -> Prop) qs : (forall q i, In q qs -> (exists l, run q i (Some l)) /\ ~ run q i None) -> forall i, (exists ls, drain_all run i qs (Some ls)) /\ ~ drain_all run i qs None.
Proof.
  induction qs as [|q qs IH]; intros H i.
  - split; [exists []; constructor|inversion 1].
  - destruct (IH (fun q i h => H q i (or_intror h)) (S i)) as [[ls L] N]. destruct (H q i (or_introl eq_refl)) as [[l Hl] Nl]. split.
    + exists (l :: ls). change (Some (l :: ls)) with (option_map (cons l) (Some ls)). constructor; auto.
    + inversion 1; subst; [contradiction|]. destruct r; [discriminate|]. contradiction.
Qed.
(** A default nearest-neighbour query through AABBQuery or a (box, points) pair: it answers, with the guarantees of [C34_aabb]. *)
Theorem C34_query (be : backend) (b : box) (points qs : list vec3) (p : pyargs) (k : Z) :
  be = BAABB \/ be = BRaw -> positive b -> fully_periodic b -> nq_ok b points = true -> qs <> [] ->
  no_sentinel p -> well_formed p -> asks_nearest p k -> (0 < k)%Z -> pa_rguess p = None -> (forall s, pa_scale p = Some s -> 1 < s) ->
  (forall r, pa_rmax p = Some r -> 0 < r /\ or_else (pa_rmin p) 0 < r) ->
  let r_max := match pa_rmax p with Some r => Fin r | None => Inf end in
  let r_min := or_else (pa_rmin p) 0 in let excl := or_else (pa_excl p) false in
  (exists ls, py_query be b points qs p (Some ls)) /\ ~ py_query be b points qs p None /\
  forall ls, py_query be b points qs p (Some ls) -> length ls = length qs /\
    forall i, (i < length qs)%nat -> let l := nth i ls [] in
      sorted_neighbors b points (nth i qs v0) i excl r_min near_images l /\ (length l <= Z.to_nat k)%nat /\
      forall j v, candidate b points (nth i qs v0) i excl r_min near_images j v -> ~ In j (map bp l) ->
        (length l = Z.to_nat k /\ forall x, In x l -> bd x <= norm v) \/ ((length l < Z.to_nat k)%nat /\ xmin (max_plane b) r_max <= norm v * or_else (pa_scale p) (11 / 10)).
Proof.
  intros HB Hb FP NQ HQ S W A Hk Hg Hs HR r_max r_min excl.
  assert (Hne : points <> []) by (intros ->; discriminate). assert (Hn : (0 < length points)%nat) by (destruct points; [congruence|simpl; lia]).
  assert (ACC : accept (validate_aabb b (length points)) p <> None) by (apply C26_accepted_aabb; auto; split; auto; right; exists k; auto).
  destruct (accept (validate_aabb b (length points)) p) as [a|] eqn:EA; [clear ACC|congruence].
  pose proof (C26_nearest_values b (length points) p a k Hb Hn S A EA) as (V1 & V2 & V3 & V4 & V5 & V6 & V7 & g & V8 & V9). rewrite Hg in V9. destruct V9 as (dr & m & DR & SM & Eg).
  fold r_max in V3. fold r_min in V4. fold excl in V5.
  assert (Em : m = min_plane b).
  { destruct (min_plane_spec b) as (P1 & P2 & P3 & P4). destruct SM as (Q1 & Q2 & Q3 & Q4). apply Rle_antisym.
    - destruct P4 as [-> |[-> |[E ->]]]; auto.
    - destruct Q4 as [-> |[-> |[E ->]]]; auto. }
  assert (G0 : 0 < g).
  { rewrite Eg. apply Rmin_glb_lt; [|pose proof (min_plane_pos b Hb); lra]. destruct DR as [D0 D1]. destruct D0 as [D0|D0]; auto. exfalso. rewrite <- D0 in D1.
    assert (0 < IZR k * volume b / INR (length points)); [|lra]. apply Rdiv_lt_0_compat; [apply Rmult_lt_0_compat; [apply (IZR_lt 0); auto|apply volume_pos; auto]|apply lt_0_INR; auto]. }
  assert (RM0 : xleb r_max 0 = false) by (unfold r_max; destruct (pa_rmax p) as [r|] eqn:E; simpl; auto; apply Rleb_false; apply HR; auto).
  assert (RG0 : 0 < qa_rguess a) by (rewrite V8, V3; destruct r_max as [r|]; simpl in *; auto; apply Rleb_false in RM0; apply Rmin_glb_lt; auto).
  assert (RG1 : 2 * qa_rguess a <= min_plane b).
  { rewrite V8. pose proof (xmin_le g (qa_rmax a)). assert (g <= min_plane b / 2); [rewrite Eg, Em; apply Rmin_r|lra]. }
  assert (SG : forall c, validate_single be b (length points) c = Some a -> forall q i res, single be b points c q i res <->
     aabb_nearest b points q i (Z.to_nat k) (qa_rguess a) r_max r_min (or_else (pa_scale p) (11 / 10)) excl res).
  { intros c Ec q i res. unfold single. rewrite Ec, V1, V2, V3, V4, V5, V6. destruct HB as [-> | ->]; tauto. }
  assert (PQ : forall res, py_query be b points qs p res <-> drain_all (fun q i r => aabb_nearest b points q i (Z.to_nat k) (qa_rguess a) r_max r_min (or_else (pa_scale p) (11 / 10)) excl r) 0 qs res).
  { assert (DE : forall c, validate_single be b (length points) c = Some a -> forall res, drain_all (single be b points c) 0 qs res <->
        drain_all (fun q i r => aabb_nearest b points q i (Z.to_nat k) (qa_rguess a) r_max r_min (or_else (pa_scale p) (11 / 10)) excl r) 0 qs res).
    { intros c Ec. specialize (SG c Ec). generalize 0%nat. clear - SG. induction qs as [|q qs IH]; intros n res; split; intros H; inversion H; subst; try constructor; try (apply SG; auto); try (apply IH; auto). }
    intros res. destruct (encode_some p W) as (m0 & EN & _). assert (QK : forall c, encode p = Some c -> qa_k c = k) by (intros c E; rewrite EN in E; injection E as <-; simpl; destruct A as [-> _]; reflexivity).
    unfold py_query, accept in *. destruct (encode p) as [c|]; [|discriminate]. specialize (QK c eq_refl). clear EN. unfold nq_query.
    assert (CP : b_px b && b_py b && b_pz b = true) by (destruct FP as (-> & -> & ->); reflexivity). rewrite CP, andb_false_r.
    assert (CO : constructed be b points) by (split; auto; destruct HB as [-> | ->]; exact I).
    assert (VV : exists c', validate_query be b (length points) c = Some c' /\ validate_single be b (length points) c' = Some a).
    { destruct HB as [-> | ->]; cbn [validate_query validate_single].
      - exists a. split; auto. assert (L : (0 <= qa_k c)%Z) by (rewrite QK; lia).
        destruct (C26_idempotent b (length points) c a Hb Hn L) as (_ & I2 & _). apply I2. auto.
      - unfold validate_aabb in EA. destruct (validate_base c) as [c1|] eqn:B; [|discriminate]. exists c1. split; auto. unfold validate_aabb. rewrite (base_again c c1 B). auto. }
    destruct VV as (c' & E1 & E2). rewrite E1, DE by auto. tauto. }
  assert (NE := C34_defined). split; [|split].
  - destruct (drain_exists (fun q i r => aabb_nearest b points q i (Z.to_nat k) (qa_rguess a) r_max r_min (or_else (pa_scale p) (11 / 10)) excl r) qs) with (i := 0%nat) as [[ls L] _]; [|exists ls; apply PQ; auto].
    intros q i _. apply C34_defined; auto; [rewrite <- V6; auto|]. unfold r_max, r_min. intros r Er. destruct (pa_rmax p) as [r'|] eqn:E; [|discriminate]. injection Er as <-. apply HR; auto.
  - rewrite PQ. apply drain_exists. intros q i _. apply C34_defined; auto; [rewrite <- V6; auto|]. unfold r_max, r_min. intros r Er. destruct (pa_rmax p) as [r'|] eqn:E; [|discriminate]. injection Er as <-. apply HR; auto.
  - intros ls H. apply PQ, drain_nth in H as [L D]. split; auto. intros i Hi l. specialize (D i Hi). simpl in D.
    destruct (C34_aabb b points (nth i qs v0) i (Z.to_nat k) (qa_rguess a) r_max r_min (or_else (pa_scale p) (11 / 10)) excl l Hb ltac:(lia) RG0 RG1 ltac:(lra) D) as (X1 & X2 & _ & X4). auto.
Qed.
Print Assumptions C34_query.
