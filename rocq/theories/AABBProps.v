(** C27-C29: image vectors, AABB tree, AABB ball query. *)
From Verif Require Import AABBModel AABBSpec AABBProofs AABBProofs2 BoxProofs BoxProofs2 BoxProps FilterProps QuerySpec.
Open Scope nat_scope.

(** ** C27 *)
(** The list of translations: zero first, each combination in {-1,0,1} of periodic lattice vectors exactly once. *)
Theorem C27_image_list (b : box) (r : R) (check : bool) (l : list vec3) :
  image_vectors b r check = Some l ->
  exists ts : list (Z * Z * Z), NoDup ts /\ hd_error ts = Some (0, 0, 0)%Z /\
    (forall i j k, In (i, j, k) ts <-> allowed b i j k /\ near_images i j k) /\
    length ts = Nat.pow 3 (n_periodic b) /\
    l = map (fun t => let '(i, j, k) := t in shift b i j k) ts.
Proof.
  rewrite image_vectors_eq. destruct (check && image_check b r); [discriminate|]. intros E. apply some_inj in E. subst l.
  exists (image_triples b). split; [apply image_triples_nodup|split; [apply image_triples_hd|split; [apply image_triples_in|split; [apply image_triples_length|reflexivity]]]].
Qed.
Print Assumptions C27_image_list.

(** The vectors themselves are distinct. *)
Theorem C27_image_vectors_distinct (b : box) (r : R) (check : bool) (l : list vec3) :
  positive b -> image_vectors b r check = Some l -> NoDup l /\ hd_error l = Some v0.
Proof.
  intros [Hb _]. rewrite image_vectors_eq. destruct (check && image_check b r); [discriminate|]. intros E. apply some_inj in E. subst l. split.
  - apply NoDup_map_in; [|apply image_triples_nodup].
    intros [[i j] k] [[i' j'] k'] H H' E. apply image_triples_in in H as [H _]. apply image_triples_in in H' as [H' _].
    eapply shift_inj; eauto.
  - pose proof (image_triples_hd b) as H. destruct (image_triples b) as [|x l]; [discriminate|]. simpl in H. injection H as ->.
    simpl. rewrite shift_000. reflexivity.
Qed.
Print Assumptions C27_image_vectors_distinct.

(** The exception is raised exactly when the radius reaches half a periodic plane distance. *)
Theorem C27_radius_check (b : box) (r : R) :
  (image_vectors b r true <> None <-> radius_ok b r) /\ image_vectors b r false <> None.
Proof.
  rewrite !image_vectors_eq. simpl andb. split; [|discriminate]. rewrite <- image_check_spec.
  destruct (image_check b r); split; intros; congruence.
Qed.
Print Assumptions C27_radius_check.

(** No other lattice image of a wrapped point is in range of a wrapped query point. *)
Theorem C27_images_complete (b : box) (r : R) (p q : vec3) (i j k : Z) :
  positive b -> image_vectors b r true <> None -> in_cell b p -> in_cell b q -> allowed b i j k ->
  (norm (vsub p (vadd q (shift b i j k))) < r)%R -> near_images i j k.
Proof. intros Hb HR. apply C27_radius_check in HR. apply near_of_range; auto. Qed.
Print Assumptions C27_images_complete.

(** Points returned by Box.wrap are in the cell. *)
Theorem C27_wrapped_in_cell (b : box) (v : vec3) : nonsingular b -> in_space b v -> in_cell b (wrap b v).
Proof.
  intros Hb Hs. pose proof (wrap_in_cell b v Hb Hs) as (Hx & Hy & Hz).
  assert (Hw : in_space b (wrap b v)).
  { destruct (wrap_image b v Hb Hs) as (i & j & k & A & E). rewrite E. intros E2.
    pose proof (Hs E2) as Z0. destruct Hb as (_ & _ & _ & HL & _). specialize (HL E2).
    unfold shift, comb, a1, a2, a3, vadd, vscale. simpl. rewrite Z0, HL. ring. }
  destruct (cell_coords b (wrap b v) Hb Hw) as (s & t & u & E & F & _). cbv zeta in Hx, Hy, Hz. rewrite F in Hx, Hy, Hz. simpl in Hx, Hy, Hz.
  exists s, t, u. split; auto. repeat split; intros; try (destruct (Hx ltac:(auto)); lra); try (destruct (Hy ltac:(auto)); lra); destruct (Hz ltac:(auto)); lra.
Qed.
Print Assumptions C27_wrapped_in_cell.

Lemma ex_cube_planes : plane_distance ex_cube = V3 10 10 10.
Proof.
  unfold plane_distance, ex_cube. simpl. apply vec_eq; simpl;
  [replace (_ + _ + _)%R with 1%R by ring|replace (_ + _)%R with 1%R by ring|]; rewrite ?sqrt_1; field.
Qed.
Example C27_ex : image_vectors ex_cube 4 true <> None /\ image_vectors ex_cube 5 true = None /\ n_periodic ex_cube = 3.
Proof.
  split; [apply C27_radius_check; unfold radius_ok; rewrite ex_cube_planes; simpl; repeat split; intros; lra|].
  split; [|reflexivity]. destruct (image_vectors ex_cube 5 true) eqn:E; auto. exfalso.
  assert (H : image_vectors ex_cube 5 true <> None) by congruence. apply C27_radius_check in H as (H & _).
  rewrite ex_cube_planes in H. specialize (H eq_refl). simpl in H. lra.
Qed.

(** ** C28 *)
(** Every particle is in exactly one leaf; skip pointers stay in the array and every node jumped over is enclosed. *)
Theorem C28_tree (b : box) (points : list vec3) : points <> [] ->
  exists nodes, aabb_query_tree b points = Some nodes /\ nodes <> [] /\
    Permutation (flat_map n_tags nodes) (seq 0 (length points)) /\
    (forall k, k < length nodes ->
       let n := nth k nodes node0 in
       k + n_skip n < length nodes /\
       (forall m, k <= m <= k + n_skip n -> inside (n_box (nth m nodes node0)) (n_box n)) /\
       (is_leaf n = false -> n_tags n = []) /\
       (is_leaf n = true -> 0 < length (n_tags n) <= 16 /\
          forall j, In j (n_tags n) -> vle (ab_lo (n_box n)) (flat b (nth j points v0)) /\ vle (flat b (nth j points v0)) (ab_hi (n_box n)))).
Proof.
  intros HN. destruct (point_tree_spec b points HN) as (t & E & W & HP & HT).
  exists (layout true t 0 None). split; auto. split.
  { intros F. pose proof (layout_length true t 0 None) as L. rewrite F in L. pose proof (tsize_pos t). simpl in L. lia. }
  split; [rewrite layout_tags; auto|]. intros k Hk n. rewrite layout_length in Hk.
  assert (Hn : In n (layout true t 0 None)) by (apply nth_In; rewrite layout_length; auto).
  destruct (layout_skip t W 0 None k Hk) as [B1 B2]. fold n in B1, B2. rewrite layout_length.
  split; auto. split; auto. split.
  - intros HL. apply (layout_inner true t 0 None n Hn HL).
  - intros HL. destruct (layout_leaf true t W 0 None n Hn HL) as (A & B & e & C & D & F). rewrite B. split; [exact A|].
    intros j Hj. rewrite D in Hj. unfold tags in Hj. apply in_map_iff in Hj as (x & <- & Hx).
    destruct (F x Hx) as [Hx' [IL IH]]. destruct (HP x Hx') as [EL EH]. rewrite EL in IL. rewrite EH in IH. auto.
Qed.
Print Assumptions C28_tree.

Lemma map_snd_combine {A B} (l : list A) : forall l' : list B, length l = length l' -> map snd (combine l l') = l'.
Proof. induction l; destruct l'; simpl; intros H; try discriminate; auto. f_equal. auto. Qed.
(** General tree over any boxes: the stackless traversal returns the particles of exactly those leaves whose box
    overlaps the query box; a particle is in the result at most once; and every particle whose own box overlaps is there. *)
Theorem C28_traversal (boxes : list aabb) : boxes <> [] ->
  exists nodes, build_tree boxes = Some nodes /\ Permutation (flat_map n_parts nodes) (seq 0 (length boxes)) /\
    forall a, exists res, tree_query (length nodes) nodes a 0 = Some res /\
      res = flat_map n_parts (filter (fun n => overlap_box (n_box n) a) nodes) /\
      NoDup res /\ (forall i, In i res -> i < length boxes) /\
      (forall i, i < length boxes -> overlap_box (nth i boxes aabb0) a = true -> In i res).
Proof.
  intros HN. destruct (build_tree_spec boxes HN) as (t & E & W & P).
  exists (layout true t 0 None). split; auto.
  assert (PS : Permutation (map snd (elements t)) (seq 0 (length boxes))).
  { rewrite (Permutation_map snd P). rewrite map_snd_combine by (rewrite seq_length; auto). reflexivity. }
  split; [rewrite layout_parts; auto|].
  intros a. exists (box_hits a t). rewrite layout_length. split; [apply tree_query_spec|]. split; [apply box_hits_filter; auto|].
  destruct (box_hits_sub a t) as [rest HR]. rewrite PS in HR. split; [|split].
  - assert (ND : NoDup (box_hits a t ++ rest)) by (eapply Permutation_NoDup; [symmetry; exact HR|apply seq_NoDup]).
    clear -ND. induction (box_hits a t); simpl in *; [constructor|]. inversion ND; subst. constructor; auto. intros H. apply H1. apply in_or_app; auto.
  - intros i Hi. assert (H : In i (seq 0 (length boxes))) by (apply (Permutation_in _ HR); apply in_or_app; auto). apply in_seq in H. lia.
  - intros i Hi HO. apply (box_hits_complete a t W (nth i boxes aabb0, i)); auto.
    apply (Permutation_in _ (Permutation_sym P)).
    assert (NC : nth i (combine boxes (seq 0 (length boxes))) (aabb0, 0) = (nth i boxes aabb0, i)).
    { rewrite combine_nth by (rewrite seq_length; auto). rewrite seq_nth by auto. reflexivity. }
    rewrite <- NC. apply nth_In. rewrite combine_length, seq_length. lia.
Qed.
Print Assumptions C28_traversal.

(** Coincident points are allowed: 40 copies of one point still give a tree with every particle in one leaf. *)
Example C28_ex : exists nodes, aabb_query_tree ex_cube (repeat (V3 1 2 3) 40) = Some nodes /\
  Permutation (flat_map n_tags nodes) (seq 0 40).
Proof.
  destruct (C28_tree ex_cube (repeat (V3 1 2 3) 40)) as (nodes & E & _ & P & _); [discriminate|]. exists nodes. split; auto.
Qed.

(** ** C29 *)
(** For any points whatsoever: exactly the pairs (point, {-1,0,1} image) in range, each once. *)
Theorem C29_ball_near_images (b : box) (points : list vec3) (q : vec3) (qi : nat) (r_max r_min : R) (excl check : bool) (l : list bond) :
  nonsingular b -> (0 <= r_min)%R -> aabb_ball b points q qi r_max r_min excl check (Some l) ->
  NoDup l /\ forall x, In x l <-> in_range b points q qi r_max r_min excl near_images x.
Proof.
  intros Hb H0 HQ. destruct points as [|p ps].
  { exfalso. unfold aabb_ball in HQ. destruct (point_args_ok _ _); [|discriminate]. destruct (image_vectors _ _ _); discriminate. }
  destruct (aabb_ball_eq b (p :: ps) q qi r_max r_min excl check) as (ids & HP & HA); [discriminate|]. apply HA in HQ.
  destruct (point_args_ok r_max r_min) eqn:EP; [|discriminate]. destruct (check && image_check b r_max); [discriminate|]. simpl in HQ.
  apply some_inj in HQ. subst l. unfold point_args_ok in EP. apply andb_true_iff in EP as [E1 E2]. apply Rltb_true in E1.
  split; [apply ball_result_nodup; auto|]. intros x. apply ball_result_in; auto.
Qed.
Print Assumptions C29_ball_near_images.

(** For wrapped points this is the brute-force definition over the whole lattice. *)
Theorem C29_ball_brute_force (b : box) (points : list vec3) (q : vec3) (qi : nat) (r_max r_min : R) (excl : bool) (l : list bond) :
  positive b -> (0 <= r_min)%R -> (forall p, In p points -> in_cell b (flat b p)) -> in_cell b (flat b q) ->
  aabb_ball b points q qi r_max r_min excl true (Some l) ->
  NoDup l /\ forall x, In x l <-> in_range b points q qi r_max r_min excl all_images x.
Proof.
  intros Hb H0 HC Hq HQ. destruct (C29_ball_near_images b points q qi r_max r_min excl true l (proj1 Hb) H0 HQ) as [ND HI].
  split; auto. intros x. rewrite HI. unfold in_range. split.
  - intros (j & i1 & i2 & i3 & Hj & HA & _ & HX). exists j, i1, i2, i3. unfold all_images. tauto.
  - intros (j & i1 & i2 & i3 & Hj & HA & _ & HX). exists j, i1, i2, i3. split; auto. split; auto. split; [|auto].
    assert (HR : image_vectors b r_max true <> None).
    { unfold aabb_ball in HQ. destruct (point_args_ok r_max r_min); [|discriminate]. destruct (image_vectors b r_max true); discriminate. }
    destruct HX as (_ & HD & _).
    apply (C27_images_complete b r_max (flat b (nth j points v0)) (flat b q) i1 i2 i3); auto.
    + apply HC. apply nth_In. auto.
    + apply HD.
Qed.
Print Assumptions C29_ball_brute_force.

(** The query terminates with exactly one outcome; it raises exactly for inadmissible radii. *)
Theorem C29_ball_defined (b : box) (points : list vec3) (q : vec3) (qi : nat) (r_max r_min : R) (excl : bool) :
  points <> [] -> exists res, aabb_ball b points q qi r_max r_min excl true res /\
    (forall res', aabb_ball b points q qi r_max r_min excl true res' -> res' = res) /\
    (res = None <-> ~ (0 < r_max /\ r_min < r_max /\ radius_ok b r_max)%R).
Proof.
  intros HN. destruct (aabb_ball_eq b points q qi r_max r_min excl true HN) as (ids & _ & HA).
  eexists. split; [apply HA; reflexivity|]. split; [intros res' H; apply HA; auto|]. simpl andb.
  unfold point_args_ok. rewrite <- image_check_spec.
  destruct (Rltb 0 r_max) eqn:E1; [apply Rltb_true in E1|apply Rltb_false in E1; simpl; split; auto; intros _ (? & _); lra].
  destruct (Rltb r_min r_max) eqn:E2; [apply Rltb_true in E2|apply Rltb_false in E2; simpl; split; auto; intros _ (_ & ? & _); lra].
  destruct (image_check b r_max); simpl; split; intros H; try discriminate; auto.
  - intros (_ & _ & F). discriminate.
  - exfalso. apply H. auto.
Qed.
Print Assumptions C29_ball_defined.

(** Refuted: a query point outside the box by more than one cell loses neighbours. *)
Theorem C29_unwrapped_refuted : exists b points q qi r_max l x,
  positive b /\ aabb_ball b points q qi r_max 0 false true (Some l) /\
  in_range b points q qi r_max 0 false all_images x /\ ~ In x l.
Proof.
  exists ex_cube, [v0], (V3 (41/2) 0 0), 0, 1%R.
  destruct (C29_ball_defined ex_cube [v0] (V3 (41/2) 0 0) 0 1 0 false) as (res & HR & _ & HN); [discriminate|].
  destruct res as [l|].
  2:{ exfalso. apply (proj1 HN eq_refl). unfold radius_ok. rewrite ex_cube_planes. simpl. repeat split; intros; lra. }
  set (v := V3 (-(1/2)) 0 0).
  assert (NV : norm v = (1/2)%R).
  { unfold norm, v, dot. simpl. replace (_ + _)%R with (Rsqr (1/2)) by (unfold Rsqr; field). apply sqrt_Rsqr. lra. }
  exists l, (Bond 0 0 (norm v) 1%R v). split; [apply ex_cube_positive|]. split; auto.
  assert (SV : forall i j k, sep ex_cube [v0] (V3 (41/2) 0 0) 0 i j k = V3 (- (41/2) - 10 * IZR i) (- 10 * IZR j) (- 10 * IZR k)).
  { intros. unfold sep, flat, shift, comb, a1, a2, a3, ex_cube. simpl. apply vec_eq; simpl; ring. }
  split.
  - exists 0, (-2)%Z, 0%Z, 0%Z. replace (sep _ _ _ _ _ _ _) with v by (rewrite SV; unfold v; apply vec_eq; simpl; field).
    split; [simpl; lia|]. split; [repeat split; discriminate|]. split; [exact I|]. split; [intros [? _]; discriminate|]. rewrite NV. split; [lra|reflexivity].
  - intros HI. apply (C29_ball_near_images ex_cube [v0] (V3 (41/2) 0 0) 0 1 0 false true l) in HI; [|apply ex_cube_positive|lra|auto].
    destruct HI as (j & i1 & i2 & i3 & Hj & _ & HNI & _ & _ & E). simpl in Hj. replace j with 0 in E by lia. rewrite SV in E.
    assert (E1 : (- (1/2) = - (41/2) - 10 * IZR i1)%R) by (unfold v in E; congruence).
    destruct HNI as ((L & _) & _). apply IZR_le in L. lra.
Qed.
Print Assumptions C29_unwrapped_refuted.

(** Refuted for negative r_min: the comparison uses r_min squared, so r_min = -2 hides neighbours nearer than 2. *)
Theorem C29_negative_r_min_refuted : exists b points q qi r_max r_min l x,
  positive b /\ (forall p, In p points -> in_cell b (flat b p)) /\ in_cell b (flat b q) /\
  aabb_ball b points q qi r_max r_min false true (Some l) /\
  in_range b points q qi r_max r_min false all_images x /\ ~ In x l.
Proof.
  exists ex_cube, [v0], (V3 1 0 0), 0, 3%R, (-2)%R.
  destruct (aabb_ball_eq ex_cube [v0] (V3 1 0 0) 0 3 (-2) false true) as (ids & HP & HA); [discriminate|].
  assert (EC : image_check ex_cube 3 = false).
  { apply image_check_spec. unfold radius_ok. rewrite ex_cube_planes. simpl. repeat split; intros; lra. }
  assert (EP : point_args_ok 3 (-2) = true).
  { unfold point_args_ok. rewrite (proj2 (Rltb_true _ _)) by lra. rewrite (proj2 (Rltb_true _ _)) by lra. reflexivity. }
  rewrite EP, EC in HA. cbn [andb negb] in HA.
  set (v := V3 (-1) 0 0). assert (NV : norm v = 1%R).
  { unfold norm, v, dot. simpl. replace (_ + _)%R with (Rsqr 1) by (unfold Rsqr; field). apply sqrt_Rsqr. lra. }
  exists (ball_result ex_cube [v0] (V3 1 0 0) 0 3 (-2) false ids), (Bond 0 0 (norm v) 1%R v).
  assert (SV : sep ex_cube [v0] (V3 1 0 0) 0 0 0 0 = v).
  { unfold sep, flat, shift, comb, a1, a2, a3, ex_cube, v. simpl. apply vec_eq; simpl; ring. }
  split; [apply ex_cube_positive|]. split; [|split; [|split; [apply HA; reflexivity|split]]].
  - intros p [<-|[]]. exists (1/2)%R, (1/2)%R, (1/2)%R. split; [|repeat split; intros; lra].
    unfold flat, cell_point, comb, ex_cube, a1, a2, a3. simpl. apply vec_eq; simpl; field.
  - exists (3/5)%R, (1/2)%R, (1/2)%R. split; [|repeat split; intros; lra].
    unfold flat, cell_point, comb, ex_cube, a1, a2, a3. simpl. apply vec_eq; simpl; field.
  - exists 0, 0%Z, 0%Z, 0%Z. rewrite SV. split; [simpl; lia|]. split; [repeat split; discriminate|]. split; [exact I|]. split; [intros [? _]; discriminate|].
    rewrite NV. split; [lra|reflexivity].
  - unfold ball_result. rewrite in_flat_map. intros (t & _ & H). apply in_flat_map in H as (j & _ & H).
    unfold emit in H. cbn [andb] in H. cbv zeta in H. set (w := vsub _ _) in H.
    destruct (Rltb (dot w w) (3 * 3) && Rleb (-2 * -2) (dot w w)) eqn:EE; [|destruct H].
    destruct H as [H|[]]. apply andb_true_iff in EE as [_ EE]. apply Rleb_true in EE.
    assert (w = v) by congruence. rewrite H0 in EE. unfold v, dot in EE. simpl in EE. lra.
Qed.
Print Assumptions C29_negative_r_min_refuted.

(** Non-vacuity: a triclinic-free periodic cube with two wrapped points on opposite faces; they are neighbours. *)
Example C29_ex : exists l, aabb_ball ex_cube [V3 (9/2) 0 0; V3 (-(9/2)) 0 0] (V3 (9/2) 0 0) 0 2 0 true true (Some l) /\
  In (Bond 0 1 1%R 1%R (V3 1 0 0)) l.
Proof.
  destruct (C29_ball_defined ex_cube [V3 (9/2) 0 0; V3 (-(9/2)) 0 0] (V3 (9/2) 0 0) 0 2 0 true) as (res & HR & _ & HN); [discriminate|].
  destruct res as [l|].
  2:{ exfalso. apply (proj1 HN eq_refl). unfold radius_ok. rewrite ex_cube_planes. simpl. repeat split; intros; lra. }
  exists l. split; auto. apply (C29_ball_near_images ex_cube _ _ _ _ _ _ _ l) in HR as [_ HI]; [|apply ex_cube_positive|lra]. apply HI.
  assert (SV : sep ex_cube [V3 (9/2) 0 0; V3 (-(9/2)) 0 0] (V3 (9/2) 0 0) 1 (-1) 0 0 = V3 1 0 0).
  { unfold sep, flat, shift, comb, a1, a2, a3, ex_cube. simpl. apply vec_eq; simpl; field. }
  assert (NV : norm (V3 1 0 0) = 1%R).
  { unfold norm, dot. simpl. replace (_ + _)%R with (Rsqr 1) by (unfold Rsqr; field). apply sqrt_Rsqr. lra. }
  exists 1, (-1)%Z, 0%Z, 0%Z. rewrite SV, NV. split; [simpl; lia|]. split; [repeat split; discriminate|]. split; [unfold near_images; lia|].
  split; [intros [_ ?]; discriminate|]. split; [lra|reflexivity].
Qed.
