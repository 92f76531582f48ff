(** C22 for nearest-neighbour queries; counterexamples to the unrestricted C34. *)
From Coq Require Import Sorting.Sorted.
From Verif Require Import MArrayProofs NListProofs AABBProofs2 FilterProps AABBProps BoxProofs BoxProofs2 BoxProps LinkCellProofs LinkCellProofs2 LinkCellProofs3 LinkCellProps QueryProofs QueryProps KnnModel KnnProofs KnnProofs2 KnnProps KnnProps2 KnnProps3 NListSpec KnnSpec LinkCellSpec QueryArgSpec.
Open Scope R_scope.

Lemma search_members b points q qi k r_max r_min scale excl ext r res : nonsingular b -> knn_search b points q qi k r_max r_min scale excl ext r res ->
  forall s x, res = Some s -> In x s -> exists rho, in_range b points q qi rho 0 excl near_images x.
Proof.
  intros Hb.
  assert (COL : forall ext r found cur m below, aabb_ball b points q qi (xmin r r_max) 0 excl false (Some found) -> knn_collect ext qi r_min excl found = (cur, (m, below)) ->
     forall x, In x (cur ++ filter (fun x => Rleb r_min (bd x)) (map snd m)) -> exists rho, in_range b points q qi rho 0 excl near_images x).
  { intros ext0 r0 found cur m below HB HC x Hx. apply C29_ball_near_images in HB as [_ HI]; [|auto|lra]. exists (xmin r0 r_max). apply HI.
    unfold knn_collect in HC. set (f := filter _ found) in HC. assert (IF : forall y, In y f -> In y found) by (intros y Hy; apply filter_In in Hy; tauto). destruct ext0.
    - destruct (fold_left (keep_min r_min) f ([], [])) as [m' b'] eqn:F. injection HC as <- <- <-. pose proof (fold_min_inv r_min f) as INV. rewrite F in INV. destruct INV as (D & _ & HM & _).
      simpl in Hx. apply filter_In in Hx as [Hx _]. apply in_map_iff in Hx as ([k' y] & Ey & Hy). simpl in Ey. subst y. apply find_in in Hy; auto. apply IF. apply (HM k' x Hy).
    - injection HC as <- <- <-. simpl in Hx. rewrite app_nil_r in Hx. apply filter_In in Hx as [Hx _]. auto. }
  induction 1 as [ext r HB|ext r found cur m below s0 HB HC HL HS|ext r found cur m below s0 HB HC HL HT HS|ext r found cur m below res HB HC HL HT HR IH]; intros s x Es Hx.
  - discriminate.
  - injection Es as <-. destruct HS as [P _]. apply (Permutation_in _ (Permutation_sym P)) in Hx. eapply COL; eauto. apply in_or_app. auto.
  - injection Es as <-. destruct HS as [P _]. apply (Permutation_in _ (Permutation_sym P)) in Hx. eapply COL; eauto.
  - eapply IH; eauto.
Qed.
Lemma within_in r_max l x : In x (take_within r_max l) -> In x l.
Proof. induction l as [|y l IH]; simpl; auto. destruct (xltb r_max (bd y)); [intros []|]. intros [-> |H]; auto. Qed.
Lemma deliver_in k r_max s x : In x (deliver k r_max s) -> In x s.
Proof. intros H. apply within_in in H. rewrite <- (firstn_skipn k s). apply in_or_app. auto. Qed.
Lemma lk_members lc pc q qi k r_max r_min excl cell sh seen cur res : lk_search lc pc q qi k r_max r_min excl cell sh seen cur res ->
  forall x, In x res -> In x cur \/ exists js, In x (lk_bonds lc q qi r_max r_min excl js).
Proof.
  induction 1 as [cell sh seen cur js sh' seen' s HL HA HS|cell sh seen cur js sh' seen' c s HL HA HS HK HD|cell sh seen cur js sh' seen' c s res HL HA HS HN HR IH]; intros x Hx;
    destruct HS as [P _].
  - apply (Permutation_in _ (Permutation_sym P)), in_app_iff in Hx as [Hx|Hx]; eauto.
  - apply (Permutation_in _ (Permutation_sym P)), in_app_iff in Hx as [Hx|Hx]; eauto.
  - destruct (IH x Hx) as [Hs|Hs]; auto. apply (Permutation_in _ (Permutation_sym P)), in_app_iff in Hs as [Hs|Hs]; eauto.
Qed.
(** The vector of every bond of a nearest-neighbour query points from the query point to an image of the point. *)
Theorem C22_nearest_query (be : backend) (b : box) (points qs : list vec3) (p : pyargs) (k : Z) (ls : list (list bond)) (i : nat) (x : bond) :
  positive b -> (forall y, In y points -> in_space b y) -> (forall y, In y qs -> in_space b y) -> no_sentinel p -> asks_nearest p k ->
  py_query be b points qs p (Some ls) -> (i < length qs)%nat -> In x (nth i ls []) ->
  direction_ok b points qs x /\ bd x = norm (bv x) /\ bq x = i.
Proof.
  intros Hb HP HQ S A PQ Hi Hx.
  assert (SP : forall j, in_space b (nth j points v0)).
  { intros j. destruct (nth_in_or_default j points v0) as [H|H]; [auto|]. rewrite H. intros _. reflexivity. }
  assert (SQ : in_space b (nth i qs v0)) by (apply HQ, nth_In; auto).
  assert (HB : accept validate_base p <> None).
  { unfold accept, py_query in *. destruct (encode p) as [c|]; [|discriminate]. destruct PQ as (_ & _ & PQ). destruct (checks_periodic be && _); [discriminate|].
    intros E. destruct be; cbn [validate_query] in PQ; unfold validate_aabb, validate_cell in PQ; rewrite ?E in PQ; discriminate. }
  destruct (base_accepts p S HB) as [W _]. pose proof (base_nearest p k S W A) as B. unfold accept in B. unfold py_query in PQ. destruct (encode p) as [c|]; [|discriminate].
  destruct PQ as (CO & _ & PQ). destruct (checks_periodic be && _); [discriminate|].
  set (c1 := fill p MNearest k (match pa_rmax p with Some r => Fin r | None => Inf end)) in *.
  assert (M1 : qa_mode c1 = MNearest) by reflexivity.
  assert (MV : forall a, validate_near b (length points) c1 = Some a -> qa_mode a = MNearest).
  { intros a. unfold validate_near. rewrite M1. destruct (if Reqb (qa_scale c1) (-1) then _ else _); [|discriminate]. intros E. apply some_inj in E. rewrite <- E. reflexivity. }
  assert (VA : forall a, validate_query be b (length points) c = Some a -> be <> BCell /\ validate_base a = Some a /\ qa_mode a = MNearest).
  { intros a. destruct be; cbn [validate_query]; unfold validate_aabb, validate_cell; rewrite B.
    - rewrite M1. intros E. pose proof (MV a E) as Ma. split; [discriminate|]. split; [|auto]. pose proof (base_again c c1 B) as BA.
      unfold validate_near in E. destruct (if Reqb (qa_scale c1) (-1) then _ else _) as [sc|]; [|discriminate]. apply some_inj in E. rewrite <- E. revert BA. unfold validate_base, infer_mode. rewrite M1. cbn. rewrite ?M1.
      destruct (k =? default_k)%Z; [discriminate|]. destruct (match pa_rmax p with Some r => _ | None => _ end) as [r|]; cbn; [|reflexivity].
      destruct (Reqb r (-1)); [|reflexivity]. intros E'. apply some_inj in E'. apply (f_equal qa_rmax) in E'. discriminate.
    - intros E. apply some_inj in E. subst a. split; [discriminate|]. split; [eapply base_again; eauto|auto].
    - rewrite M1. discriminate.
    - intros E. apply some_inj in E. subst a. split; [discriminate|]. split; [eapply base_again; eauto|auto]. }
  destruct (validate_query be b (length points) c) as [a|]; [|discriminate]. destruct (VA a eq_refl) as (NC & BA & MA). clear VA.
  apply drain_nth in PQ as [L D]. specialize (D i Hi). simpl in D. set (q := nth i qs v0) in *. set (l := nth i ls []) in *.
  assert (GOAL : bq x = i -> image_of b (bv x) (vsub (nth (bp x) points v0) q) -> bd x = norm (bv x) -> direction_ok b points qs x /\ bd x = norm (bv x) /\ bq x = i).
  { intros E1 E2 E3. split; [|auto]. unfold direction_ok. rewrite E1. exact E2. }
  assert (AB : forall k' g r_max r_min scale excl, aabb_nearest b points q i k' g r_max r_min scale excl (Some l) -> direction_ok b points qs x /\ bd x = norm (bv x) /\ bq x = i).
  { intros k' g r_max r_min scale excl H. unfold aabb_nearest in H. destruct (near_args_ok r_max r_min); [|discriminate]. destruct (image_vectors b 0 true); [|discriminate].
    destruct H as ([s|] & HS & E); [|discriminate]. simpl in E. apply some_inj in E. rewrite E in Hx. apply deliver_in in Hx.
    destruct (search_members b points q i k' r_max r_min scale excl false g (Some s) (proj1 Hb) HS s x eq_refl Hx) as (rho & j & i1 & i2 & i3 & Hj & HA & _ & _ & _ & Ex).
    apply GOAL; rewrite Ex; cbn [bq bv bp bd]; auto. apply sep_direction; auto. }
  assert (VS : exists a', validate_single be b (length points) a = Some a' /\ qa_mode a' = MNearest).
  { unfold single in D. destruct (validate_single be b (length points) a) as [a'|] eqn:E; [|discriminate]. exists a'. split; auto.
    assert (MM : validate_near b (length points) a = Some a' -> qa_mode a' = MNearest).
    { unfold validate_near. rewrite MA. destruct (if Reqb (qa_scale a) (-1) then _ else _); [|discriminate]. intros E'. apply some_inj in E'. rewrite <- E'. reflexivity. }
    destruct be; cbn [validate_single] in E; unfold validate_aabb in E; rewrite ?BA, ?MA in E; auto; try congruence. }
  destruct VS as (a' & E1 & E2). unfold single in D. rewrite E1, E2 in D. destruct be; [eapply AB; eauto| |congruence|eapply AB; eauto].
  destruct (lc_make b points cell_width) as [lc|] eqn:HM; [|destruct D]. apply lc_make_spec in HM as (Eb & Ep & _).
  unfold lk_nearest in D. destruct (near_args_ok _ _); [|discriminate]. destruct D as (_ & pc & s & _ & HS & E). apply some_inj in E. rewrite E in Hx. apply deliver_in in Hx.
  destruct (lk_members _ _ _ _ _ _ _ _ _ _ _ _ _ HS x Hx) as [[]|[js Hj]]. unfold lk_bonds in Hj. apply in_flat_map in Hj as (j & _ & Hj).
  destruct (_ && Nat.eqb i j); [destruct Hj|]. cbv zeta in Hj. destruct (xsq_ltb _ _ && Rleb _ _); [|destruct Hj]. destruct Hj as [<-|[]]. rewrite Eb, Ep in *.
  apply GOAL; cbn [bq bv bp bd]; auto. apply C02_wrap_lattice_shift; [apply Hb|]. intros E2d. simpl. rewrite (SP j E2d), (SQ E2d). ring.
Qed.
Print Assumptions C22_nearest_query.

(** ** Counterexamples *)
Lemma abs_vx_norm v : Rabs (vx v) <= norm v.
Proof. unfold norm, dot. rewrite <- sqrt_Rsqr_abs. apply sqrt_le_1_alt. unfold Rsqr. pose proof (Rle_0_sqr (vy v)). pose proof (Rle_0_sqr (vz v)). unfold Rsqr in *. lra. Qed.
Lemma cube_sep points q j i1 i2 i3 : vx (sep ex_cube points q j i1 i2 i3) = vx (nth j points v0) - vx q - 10 * IZR i1.
Proof. unfold sep, flat, shift, comb, a1, a2, a3, ex_cube. simpl. ring. Qed.
(** A point closer than r_max is not found although fewer than [k] neighbours are returned: the search stops when the next
    radius would exceed r_max, without having searched up to r_max. *)
Theorem C34_stops_before_r_max_refuted : exists b points q k r_guess r_max scale j v,
  positive b /\ fully_periodic b /\ in_cell b q /\ (forall p, In p points -> in_cell b p) /\ (0 < k)%nat /\ 0 < r_guess /\ 2 * r_guess <= min_plane b /\ 1 < scale /\ 2 * r_max < min_plane b /\
  candidate b points q 0 false 0 all_images j v /\ norm v < r_max /\
  aabb_nearest b points q 0 k r_guess (Fin r_max) 0 scale false (Some []) /\
  forall res, aabb_nearest b points q 0 k r_guess (Fin r_max) 0 scale false res -> res = Some [].
Proof.
  set (pts := [V3 (39/20) 0 0]). assert (MP : min_plane ex_cube = 10) by (unfold min_plane; rewrite ex_cube_planes; simpl; unfold Rmin; repeat destruct (Rle_dec _ _); lra).
  exists ex_cube, pts, v0, 1%nat, (19/10), 2, (11/10), 0%nat, (V3 (39/20) 0 0). rewrite MP.
  split; [apply ex_cube_positive|]. split; [apply ex_cube_fp|]. split; [apply v0_in_cube|]. split; [intros p [<-|[]]; apply ex_corner; lra|]. split; [lia|]. split; [lra|]. split; [lra|]. split; [lra|]. split; [lra|].
  assert (N1 : norm (V3 (39/20) 0 0) = 39/20) by (unfold norm, dot; simpl; replace (_ + _) with (Rsqr (39/20)) by (unfold Rsqr; ring); apply sqrt_Rsqr; lra).
  assert (BIG : forall i1 i2 i3, 39/20 <= norm (sep ex_cube pts v0 0 i1 i2 i3)).
  { intros i1 i2 i3. eapply Rle_trans; [|apply abs_vx_norm]. rewrite cube_sep. cbn [nth pts vx v0]. unfold Rabs. destruct (Rcase_abs _) as [L|L].
    - assert (1 <= i1)%Z by (apply Z.lt_le_pred || idtac; destruct (Z_le_gt_dec 1 i1); auto; assert (i1 <= 0)%Z by lia; apply IZR_le in H; simpl in *; lra). apply IZR_le in H. lra.
    - assert (i1 <= 0)%Z by (destruct (Z_le_gt_dec i1 0); auto; assert (1 <= i1)%Z by lia; apply IZR_le in H; simpl in *; lra). apply IZR_le in H. simpl in *. lra. }
  split.
  { split; [simpl; lia|]. split; [intros [? _]; discriminate|]. rewrite N1. split; [|lra]. split.
    - exists 0%Z, 0%Z, 0%Z. split; [repeat split; auto|]. split; [exact I|]. unfold sep, flat, shift, comb, a1, a2, a3, ex_cube. apply vec_eq; simpl; ring.
    - intros i1 i2 i3 _ _. rewrite N1. apply BIG. }
  split; [lra|].
  assert (ALL : forall res, aabb_nearest ex_cube pts v0 0 1 (19/10) (Fin 2) 0 (11/10) false res -> res = Some []).
  { intros res H. destruct (C34_defined ex_cube pts v0 0 1 (19/10) (Fin 2) 0 (11/10) false) as [_ ND]; [apply ex_cube_positive|discriminate|lra|lra|intros r E; injection E as <-; lra|].
    destruct res as [l|]; [|contradiction]. f_equal. unfold aabb_nearest in H. destruct (near_args_ok _ _); [|discriminate]. destruct (image_vectors _ _ _); [|discriminate].
    destruct H as ([s|] & HS & E); [|discriminate]. simpl in E. apply some_inj in E. rewrite E. clear E.
    assert (BALL : forall found, aabb_ball ex_cube pts v0 0 (xmin (19/10) (Fin 2)) 0 false false (Some found) -> found = []).
    { intros found HB. apply C29_ball_near_images in HB as [_ HI]; [|apply ex_cube_positive|lra]. destruct found as [|y f]; auto. exfalso.
      destruct (proj1 (HI y) (or_introl eq_refl)) as (j & i1 & i2 & i3 & Hj & _ & _ & _ & HR & _). assert (j = 0)%nat by (simpl in Hj; lia). subst j. specialize (BIG i1 i2 i3).
      simpl in HR. pose proof (Rmin_l (19/10) 2). lra. }
    assert (SN : s = []).
    { inversion HS; subst; match goal with X : aabb_ball _ _ _ _ _ _ _ _ (Some ?f) |- _ => apply BALL in X; subst f end.
      - match goal with X : knn_collect _ _ _ _ _ = _ |- _ => unfold knn_collect in X; simpl in X; injection X as <- <- <- end. match goal with X : (_ <= _)%nat |- _ => simpl in X; lia end.
      - match goal with X : knn_collect _ _ _ _ _ = _ |- _ => unfold knn_collect in X; simpl in X; injection X as <- <- <- end.
        match goal with X : sort_result _ _ _ |- _ => destruct X as [P _] end. simpl in P. apply Permutation_nil in P. auto.
      - exfalso. match goal with X : _ || _ || _ = false |- _ => apply orb_false_iff in X as [X _]; apply orb_false_iff in X as [X _]; simpl in X; apply Rleb_false in X; lra end. }
    subst s. reflexivity. }
  split; [|exact ALL].
  destruct (C34_defined ex_cube pts v0 0 1 (19/10) (Fin 2) 0 (11/10) false) as [[l HL] _]; [apply ex_cube_positive|discriminate|lra|lra|intros r E; injection E as <-; lra|].
  pose proof (ALL _ HL) as E. rewrite E in HL. exact HL.
Qed.
Print Assumptions C34_stops_before_r_max_refuted.

(** With r_guess above half the smallest plane distance one point is returned twice. *)
Theorem C34_large_guess_refuted : exists b points q k r_guess scale,
  positive b /\ fully_periodic b /\ in_cell b q /\ (forall p, In p points -> in_cell b p) /\ (0 < k)%nat /\ 0 < r_guess < min_plane b /\ 1 < scale /\
  (exists l, aabb_nearest b points q 0 k r_guess Inf 0 scale false (Some l)) /\
  forall l, aabb_nearest b points q 0 k r_guess Inf 0 scale false (Some l) -> exists x y, l = [x; y] /\ bp x = bp y.
Proof.
  set (pts := [v0]). assert (MP : min_plane ex_cube = 10) by (unfold min_plane; rewrite ex_cube_planes; simpl; unfold Rmin; repeat destruct (Rle_dec _ _); lra).
  set (q := V3 5 0 0). exists ex_cube, pts, q, 2%nat, 6, (11/10). rewrite MP.
  split; [apply ex_cube_positive|]. split; [apply ex_cube_fp|]. split; [apply ex_corner; lra|]. split; [intros p [<-|[]]; apply v0_in_cube|]. split; [lia|]. split; [lra|]. split; [lra|].
  split; [apply C34_defined; [apply ex_cube_positive|discriminate|lra|lra|discriminate]|].
  intros l H. unfold aabb_nearest in H. destruct (near_args_ok _ _); [|discriminate]. destruct (image_vectors _ _ _); [|discriminate].
  destruct H as ([s|] & HS & E); [|discriminate]. simpl in E. apply some_inj in E.
  set (d1 := sep ex_cube pts q 0 0 0 0). set (d2 := sep ex_cube pts q 0 (-1) 0 0).
  assert (E1 : d1 = V3 (-5) 0 0) by (unfold d1, sep, flat, shift, comb, a1, a2, a3, ex_cube, q, pts; apply vec_eq; simpl; ring).
  assert (E2 : d2 = V3 5 0 0) by (unfold d2, sep, flat, shift, comb, a1, a2, a3, ex_cube, q, pts; apply vec_eq; simpl; ring).
  assert (N1 : norm d1 = 5) by (rewrite E1; unfold norm, dot; simpl; replace (_ + _) with (Rsqr 5) by (unfold Rsqr; ring); apply sqrt_Rsqr; lra).
  assert (N2 : norm d2 = 5) by (rewrite E2; unfold norm, dot; simpl; replace (_ + _) with (Rsqr 5) by (unfold Rsqr; ring); apply sqrt_Rsqr; lra).
  set (x1 := Bond 0 0 (norm d1) 1 d1). set (x2 := Bond 0 0 (norm d2) 1 d2).
  assert (X12 : x1 <> x2) by (intros X; assert (vx d1 = vx d2) by (apply (f_equal bv) in X; simpl in X; rewrite X; auto); rewrite E1, E2 in H; simpl in H; lra).
  assert (BALL : forall found, aabb_ball ex_cube pts q 0 (xmin 6 Inf) 0 false false (Some found) -> In x1 found /\ In x2 found).
  { intros found HB. apply C29_ball_near_images in HB as [_ HI]; [|apply ex_cube_positive|lra]. simpl in HI. split; apply HI.
    - exists 0%nat, 0%Z, 0%Z, 0%Z. split; [simpl; lia|]. split; [repeat split; auto|]. split; [repeat split; lia|]. split; [intros [? _]; discriminate|]. fold d1. rewrite N1. split; [lra|]. unfold x1. rewrite N1. reflexivity.
    - exists 0%nat, (-1)%Z, 0%Z, 0%Z. split; [simpl; lia|]. split; [repeat split; intros; try discriminate; auto|]. split; [repeat split; lia|]. split; [intros [? _]; discriminate|]. fold d2. rewrite N2. split; [lra|]. unfold x2. rewrite N2. reflexivity. }
  assert (INC : forall found, In x1 found /\ In x2 found -> (2 <= length (filter (fun x => Rleb 0 (bd x)) (filter (fun x => negb false || negb (Nat.eqb 0 (bp x))) found)))%nat).
  { intros found [I1 I2]. set (f := filter _ (filter _ found)). assert (IN : incl [x1; x2] f).
    { intros y [<-|[<-|[]]]; apply filter_In; (split; [apply filter_In; split; auto|apply Rleb_true; apply norm_nonneg]). }
    apply NoDup_incl_length in IN; [simpl in IN; auto|]. repeat constructor; simpl; intuition. }
  assert (LEN : (2 <= length s)%nat).
  { inversion HS; subst; match goal with X : aabb_ball _ _ _ _ _ _ _ _ (Some ?f) |- _ => apply BALL, INC in X end;
      match goal with X : knn_collect _ _ _ _ _ = _ |- _ => unfold knn_collect in X; injection X as <- <- <- end; [|exfalso|exfalso]; try (simpl in *; lia).
    match goal with X : sort_result _ _ _ |- _ => destruct X as [P _] end. rewrite <- (Permutation_length P). auto. }
  assert (MEM : forall x, In x s -> bp x = 0%nat).
  { intros x Hx. destruct (search_members _ _ _ _ _ _ _ _ _ _ _ _ (proj1 ex_cube_positive) HS s x eq_refl Hx) as (rho & j & i1 & i2 & i3 & Hj & _ & _ & _ & _ & ->). simpl in *. lia. }
  destruct s as [|x [|y s]]; try (simpl in LEN; lia). exists x, y. split; [rewrite E; reflexivity|]. rewrite !MEM; simpl; auto.
Qed.
Print Assumptions C34_large_guess_refuted.
