(** C36: periodic buffers. *)
From Verif Require Import AABBProofs2 BoxProofs BoxProofs2 PBufferProofs PBufferSpec.
Open Scope R_scope.

(** Only negative buffers are rejected. *)
Theorem C36_raises (b : box) (points : list vec3) (buff : vec3) (u incl : bool) :
  pb_compute b points buff u incl = None <-> vx buff < 0 \/ vy buff < 0 \/ vz buff < 0.
Proof.
  unfold pb_compute. destruct (Rltb_spec (vx buff) 0) as [X|X]; [simpl; tauto|]. destruct (Rltb_spec (vy buff) 0) as [Y|Y]; [simpl; tauto|]. destruct (Rltb_spec (vz buff) 0) as [Z|Z]; [simpl; tauto|].
  simpl. split; [discriminate|]. intros [?|[?|?]]; lra.
Qed.
Print Assumptions C36_raises.
Theorem C36_argument (a : buffer_arg) :
  (buffer_vec a = None <-> exists l, a = BufList l /\ length l <> 3%nat) /\ (forall x, buffer_vec (BufScalar x) = Some (V3 x x x)) /\
  (forall x y z, buffer_vec (BufList [x; y; z]) = Some (V3 x y z)).
Proof.
  split; [|split; reflexivity]. split.
  - destruct a as [x|l]; [discriminate|]. intros H. exists l. split; auto. destruct l as [|x [|y [|z [|w l]]]]; simpl in *; try discriminate; lia.
  - intros (l & -> & H). destruct l as [|x [|y [|z [|w l]]]]; simpl in *; auto. lia.
Qed.
Print Assumptions C36_argument.

Lemma pb_some b points buff u incl b' l : pb_compute b points buff u incl = Some (b', l) ->
  0 <= vx buff /\ 0 <= vy buff /\ 0 <= vz buff /\ b' = pb_box b buff u /\
  l = flat_map (fun id => flat_map (pb_one b b' u incl (nth id points v0) id) (pb_loop u (pb_images b buff u))) (seq 0 (length points)).
Proof.
  unfold pb_compute. destruct (Rltb_spec (vx buff) 0) as [X|X]; [discriminate|]. destruct (Rltb_spec (vy buff) 0) as [Y|Y]; [discriminate|]. destruct (Rltb_spec (vz buff) 0) as [Z|Z]; [discriminate|].
  simpl. intros E. apply some_inj in E. assert (E1 := f_equal fst E). assert (E2 := f_equal snd E). cbn [fst snd] in E1, E2. subst b' l. repeat split; auto; lra.
Qed.
(** The buffer box: same tilts, periodic in all directions, and lengths L + 2 buffer, or (1 + number of images) L. *)
Theorem C36_buffer_box (b : box) (points : list vec3) (buff : vec3) (incl : bool) (b' : box) (l : list (vec3 * nat)) :
  (pb_compute b points buff false incl = Some (b', l) ->
     box_shape b' (vx (b_L b) + 2 * vx buff) (vy (b_L b) + 2 * vy buff) (vz (b_L b) + 2 * vz buff) (b_xy b) (b_xz b) (b_yz b) (b_2d b)) /\
  forall nx ny nz : Z, buff = V3 (IZR nx) (IZR ny) (IZR nz) -> pb_compute b points buff true incl = Some (b', l) ->
     box_shape b' (IZR (nx + 1) * vx (b_L b)) (IZR (ny + 1) * vy (b_L b)) (IZR (nz + 1) * vz (b_L b)) (b_xy b) (b_xz b) (b_yz b) (b_2d b).
Proof.
  split.
  - intros H. apply pb_some in H as (_ & _ & _ & -> & _). unfold pb_box, box_shape, fully_periodic. destruct (b_2d b) eqn:E; cbn; repeat split; auto; discriminate.
  - intros nx ny nz -> H. apply pb_some in H as (_ & _ & _ & -> & _). unfold pb_box, box_shape, fully_periodic. cbn [vx vy vz]. rewrite !Zceil_IZR, !(Z.add_comm _ 1).
    destruct (b_2d b) eqn:E; cbn; repeat split; auto; discriminate.
Qed.
Print Assumptions C36_buffer_box.

Lemma one_id b b' u incl p id x y : In y (pb_one b b' u incl p id x) -> snd y = id.
Proof.
  unfold pb_one. destruct x as [[i j] k]. destruct (negb incl && _); [intros []|]. cbv zeta. destruct u; [intros [<-|[]]; auto|]. destruct (_ && _); [intros [<-|[]]; auto|intros []].
Qed.
Lemma mem_by_id b points buff u incl b' l v id : pb_compute b points buff u incl = Some (b', l) ->
  In (v, id) l <-> (id < length points)%nat /\ exists x, In x (pb_loop u (pb_images b buff u)) /\ In (v, id) (pb_one b b' u incl (nth id points v0) id x).
Proof.
  intros H. apply pb_some in H as (_ & _ & _ & _ & ->). rewrite in_flat_map. split.
  - intros (id' & Hi & Hx). apply in_flat_map in Hx as (x & Hx & Ho). assert (E := one_id _ _ _ _ _ _ _ _ Ho). simpl in E. subst id'. apply in_seq in Hi. split; [lia|]. eauto.
  - intros (Hi & x & Hx & Ho). exists id. split; [apply in_seq; lia|]. apply in_flat_map. eauto.
Qed.
(** Buffer given as a distance: the buffer consists of exactly the lattice images of the points that lie in the cell enlarged
    by the buffer along each lattice direction, the point itself only if asked for; each (image, point) pair occurs once. *)
Theorem C36_distance (b : box) (points : list vec3) (buff : vec3) (incl : bool) (b' : box) (l : list (vec3 * nat)) :
  positive b -> (forall p, In p points -> home b p) -> pb_compute b points buff false incl = Some (b', l) ->
  NoDup l /\
  forall v id, In (v, id) l <-> (id < length points)%nat /\ lattice_image b v (nth id points v0) /\
    in_scaled b (1 + 2 * (vx buff / vx (b_L b))) (1 + 2 * (vy buff / vy (b_L b))) (1 + 2 * (vz buff / vz (b_L b))) v /\
    (incl = false -> v <> nth id points v0).
Proof.
  intros Hb HH HC. assert (HC' := HC). apply pb_some in HC' as (B1 & B2 & B3 & Eb' & El). assert (Hn : nonsingular b) by apply Hb.
  destruct (pb_box_scaled b buff false Hb B1 B2 B3) as (x & y & z & HS & X1 & Y1 & Z1 & EX & EY & EZ). rewrite <- Eb' in HS.
  assert (ONE : forall p s t u i j k id v, p = comb b s t u -> In (v, id) (pb_one b b' false incl p id (i, j, k)) <->
     v = vadd p (shift b i j k) /\ (incl = false -> ~ (i = 0 /\ j = 0 /\ k = 0)%Z) /\ (- x / 2 <= s + IZR i < x / 2 /\ - y / 2 <= t + IZR j < y / 2 /\ (b_2d b = false -> - z / 2 <= u + IZR k < z / 2))).
  { intros p s t u i j k id v Ep. unfold pb_one. assert (SK : negb incl && (Z.eqb i 0 && Z.eqb j 0 && Z.eqb k 0) = true <-> incl = false /\ (i = 0 /\ j = 0 /\ k = 0)%Z).
    { rewrite !andb_true_iff, negb_true_iff, !Z.eqb_eq. tauto. }
    destruct (negb incl && _) eqn:EK.
    - split; [intros []|]. intros (_ & HI & _). destruct (proj1 SK eq_refl). exfalso. apply HI; auto.
    - assert (NI : incl = false -> ~ (i = 0 /\ j = 0 /\ k = 0)%Z) by (intros E1 E2; assert (false = true) by (apply SK; auto); discriminate).
      cbv zeta. rewrite pb_image_shift by auto. rewrite Ep, comb_add. rewrite (scaled_frac _ _ _ _ _ _ _ _ HS) by lra. cbn [vx vy vz].
      rewrite <- (window (s + IZR i) x), <- (window (t + IZR j) y) by lra.
      assert (WZ : b_2d b || (Rleb 0 (if b_2d b then 0 else (u + IZR k) / z + 1/2) && Rltb (if b_2d b then 0 else (u + IZR k) / z + 1/2) 1) = true <-> (b_2d b = false -> - z / 2 <= u + IZR k < z / 2)).
      { destruct (b_2d b); simpl; [split; auto; discriminate|]. rewrite andb_true_iff, Rleb_true, Rltb_true, <- (window (u + IZR k) z) by lra. tauto. }
      destruct (_ && _ && _ && _) eqn:EF; cbn [In].
      + apply andb_true_iff in EF as [EF E3]. apply andb_true_iff in EF as [E1 E2]. apply andb_true_iff in E1 as [E1 E1'], E2 as [E2 E2']. apply Rleb_true in E1, E2. apply Rltb_true in E1', E2'.
        split; [intros [E|[]]; injection E as <-; tauto|]. intros (-> & _). auto.
      + split; [intros []|]. intros (_ & _ & W1 & W2 & W3). apply WZ in W3. exfalso. rewrite W3, (proj2 (Rleb_true _ _) (proj1 W1)), (proj2 (Rltb_true _ _) (proj2 W1)), (proj2 (Rleb_true _ _) (proj1 W2)), (proj2 (Rltb_true _ _) (proj2 W2)) in EF. discriminate. }
  assert (PT : forall id, (id < length points)%nat -> exists s t u, nth id points v0 = comb b s t u /\ -1/2 <= s < 1/2 /\ -1/2 <= t < 1/2 /\ (b_2d b = false -> -1/2 <= u < 1/2)).
  { intros id Hid. destruct (HH _ (nth_In points v0 Hid)) as (s & t & u & E & A1 & A2 & A3). exists s, t, u. repeat split; try tauto; try lra; intros; apply A3; auto. }
  assert (LP : forall i j k, In (i, j, k) (pb_loop false (pb_images b buff false)) <-> (- Zceil (vx buff / vx (b_L b)) <= i <= Zceil (vx buff / vx (b_L b)) /\ - Zceil (vy buff / vy (b_L b)) <= j <= Zceil (vy buff / vy (b_L b)) /\
     (if b_2d b then k = 0 else - Zceil (vz buff / vz (b_L b)) <= k <= Zceil (vz buff / vz (b_L b))))%Z).
  { intros i j k. unfold pb_images. rewrite loop_in. unfold start. destruct (b_2d b); intuition lia. }
  split.
  - rewrite El. apply NoDup_flat_map; [apply seq_NoDup| |].
    + intros id Hid. apply in_seq in Hid. destruct (PT id) as (s & t & u & Ep & _); [lia|]. apply NoDup_flat_map; [apply loop_NoDup| |].
      * intros [[i j] k] _. unfold pb_one. destruct (negb incl && _); [constructor|]. cbv zeta. destruct (_ && _); repeat constructor; auto.
      * intros [[i j] k] [[i' j'] k'] [v id'] H1 H2 O1 O2. assert (id' = id) by (apply one_id in O1; auto). subst id'. pose proof (proj1 (ONE _ _ _ _ _ _ _ _ _ Ep) O1) as (-> & _). pose proof (proj1 (ONE _ _ _ _ _ _ _ _ _ Ep) O2) as (E & _).
        apply LP in H1 as (_ & _ & H1), H2 as (_ & _ & H2). rewrite Ep, !comb_add in E. apply comb_inj in E as (E1 & E2 & E3); auto.
        f_equal; [f_equal; apply eq_IZR; lra|]. destruct (b_2d b); [congruence|]. apply eq_IZR. specialize (E3 eq_refl). lra.
    + intros id id' x0 _ _ H H'. apply in_flat_map in H as (? & _ & H), H' as (? & _ & H'). apply one_id in H, H'. congruence.
  - intros v id. rewrite (mem_by_id _ _ _ _ _ _ _ v id HC). split.
    + intros (Hid & [[i j] k] & HL & HO). destruct (PT id Hid) as (s & t & u & Ep & _). pose proof (proj1 (ONE _ _ _ _ _ _ _ _ _ Ep) HO) as (Ev & NI & W1 & W2 & W3). split; auto. split; [exists i, j, k; auto|]. split.
      * exists (s + IZR i), (t + IZR j), (u + IZR k). rewrite Ev, Ep, comb_add. split; auto. rewrite <- EX, <- EY. split; [exact W1|split; [exact W2|]]; intros E2; rewrite <- EZ by auto; apply W3; auto.
      * intros E1 E2. apply (NI E1). rewrite Ev in E2. apply vadd_0 in E2; auto. apply LP in HL as (_ & _ & HL). destruct (b_2d b); auto; discriminate.
    + intros (Hid & (i & j & k & Ev) & (s' & t' & u' & Ev' & W1 & W2 & W3) & NV). split; auto. destruct (PT id Hid) as (s & t & u & Ep & A1 & A2 & A3).
      assert (Ek : exists k', v = vadd (nth id points v0) (shift b i j k') /\ (b_2d b = true -> k' = 0%Z)).
      { destruct (b_2d b) eqn:E; [exists 0%Z; rewrite (shift_2d b i j 0 k) by auto; auto|exists k; split; auto; discriminate]. }
      destruct Ek as (k' & Ev1 & K2). rewrite Ev1, Ep, comb_add in Ev'. apply comb_inj in Ev' as (E1 & E2 & E3); auto. exists (i, j, k').
      assert (CE : forall i s s' q, s + IZR i = s' -> - (1 + 2 * q) / 2 <= s' < (1 + 2 * q) / 2 -> -1/2 <= s < 1/2 -> (- Zceil q <= i <= Zceil q)%Z).
      { clear. intros i s s' q E W A. pose proof (Zceil_ub q). split.
        - assert (- (Zceil q) - 1 < i)%Z; [|lia]. apply lt_IZR. rewrite minus_IZR, opp_IZR. lra.
        - assert (i < Zceil q + 1)%Z; [|lia]. apply lt_IZR. rewrite plus_IZR. lra. }
      split.
      * apply LP. split; [apply (CE i s s' _ E1 W1 A1)|]. split; [apply (CE j t t' _ E2 W2 A2)|]. destruct (b_2d b); [auto|]. apply (CE k' u u' _ (E3 eq_refl) (W3 eq_refl) (A3 eq_refl)).
      * apply (ONE _ _ _ _ _ _ _ _ _ Ep). split; auto. split.
        -- intros EI (-> & -> & ->). apply (NV EI). rewrite Ev1. unfold shift, comb. apply vec_eq; simpl; ring.
        -- rewrite EX, EY, E1, E2. split; [lra|]. split; [lra|]. intros E. rewrite EZ, E3 by auto. auto.
Qed.
Print Assumptions C36_distance.

(** One axis of the images mode. *)
Lemma axis_bij (n : Z) s : (0 <= n)%Z -> let m := IZR (n + 1) in let f i := (i - (n + 1) * Zfloor ((s + IZR i) / m + 1/2))%Z in
  (forall i, s + IZR (f i) = m * ((s + IZR i) / m + 1/2 - IZR (Zfloor ((s + IZR i) / m + 1/2)) - 1/2)) /\
  (forall i i', (0 <= i <= n)%Z -> (0 <= i' <= n)%Z -> f i = f i' -> i = i') /\
  (forall i', - m / 2 <= s + IZR i' < m / 2 -> exists i, (0 <= i <= n)%Z /\ f i = i').
Proof.
  intros Hn m f. assert (Hm : 0 < m) by (apply IZR_lt; lia). split; [|split].
  - intros i. unfold f. rewrite minus_IZR, mult_IZR. fold m. field. lra.
  - intros i i' H H' E. unfold f in E. set (a := Zfloor _) in E. set (c := Zfloor _) in E. assert (i - i' = (n + 1) * (a - c))%Z by lia.
    assert (a - c = 0)%Z by nia. nia.
  - intros i' W. exists (i' mod (n + 1))%Z. pose proof (Z.mod_pos_bound i' (n + 1)). split; [lia|]. unfold f.
    assert (D : i' = ((n + 1) * (i' / (n + 1)) + i' mod (n + 1))%Z) by (apply Z.div_mod; lia). set (d := (i' / (n + 1))%Z) in *. set (r := (i' mod (n + 1))%Z) in *.
    replace (Zfloor ((s + IZR r) / m + 1/2)) with (- d)%Z; [lia|]. symmetry. apply Zfloor_imp.
    replace (s + IZR r) with ((s + IZR i') - m * IZR d) by (rewrite D, plus_IZR, mult_IZR; fold m; ring). rewrite plus_IZR, opp_IZR.
    assert (W' := proj2 (window (s + IZR i') m Hm) W). replace ((s + IZR i' - m * IZR d) / m) with ((s + IZR i') / m - IZR d) by (field; lra). simpl. lra.
Qed.
(** Buffer given as a number of images: exactly the lattice images that lie in the buffer box, which is (1 + n) cells long in each
    direction; the image congruent to the point itself only if asked for; each once; hence (1+nx)(1+ny)(1+nz) points per particle. *)
Theorem C36_images (b : box) (points : list vec3) (nx ny nz : Z) (incl : bool) (b' : box) (l : list (vec3 * nat)) :
  positive b -> (forall p, In p points -> in_space b p) -> pb_compute b points (V3 (IZR nx) (IZR ny) (IZR nz)) true incl = Some (b', l) ->
  NoDup l /\
  (forall v id, In (v, id) l <-> (id < length points)%nat /\ lattice_image b v (nth id points v0) /\
    in_scaled b (IZR (nx + 1)) (IZR (ny + 1)) (IZR (nz + 1)) v /\ (incl = false -> ~ lattice_image b' v (nth id points v0))) /\
  Z.of_nat (length l) = (Z.of_nat (length points) * ((nx + 1) * (ny + 1) * (if b_2d b then 1 else nz + 1) - (if incl then 0 else 1)))%Z.
Proof.
  intros Hb HH HC. assert (HC' := HC). apply pb_some in HC' as (B1 & B2 & B3 & Eb' & El). assert (Hn : nonsingular b) by apply Hb. cbn [vx vy vz] in B1, B2, B3.
  apply le_IZR in B1, B2, B3.
  destruct (pb_box_scaled b (V3 (IZR nx) (IZR ny) (IZR nz)) true Hb) as (x & y & z & HS & X1 & Y1 & Z1 & EX & EY & EZ); try (cbn [vx vy vz]; apply IZR_le; auto). rewrite <- Eb' in HS.
  cbn [vx vy vz] in EX, EY, EZ. rewrite Zceil_IZR, Z.add_comm in EX, EY, EZ. assert (Hn' : nonsingular b') by apply HS.
  set (n3 := if b_2d b then 0%Z else nz).
  assert (EZ3 : b_2d b = false -> z = IZR (n3 + 1)) by (intros E; unfold n3; rewrite E; auto). assert (N3 : (0 <= n3)%Z) by (unfold n3; destruct (b_2d b); lia).
  set (g n s i := (i - (n + 1) * Zfloor ((s + IZR i) / IZR (n + 1) + 1/2))%Z).
  assert (WR : forall s t u i j k, exists k', wrap b' (vadd (comb b s t u) (shift b i j k)) = comb b (s + IZR (g nx s i)) (t + IZR (g ny t j)) (u + IZR k') /\ (b_2d b = false -> k' = g n3 u k) /\
     in_scaled b x y z (wrap b' (vadd (comb b s t u) (shift b i j k)))).
  { intros s t u i j k. rewrite comb_add. replace (comb b (s + IZR i) (t + IZR j) (u + IZR k)) with (cell_point b' ((s + IZR i) / x + 1/2) ((t + IZR j) / y + 1/2) ((u + IZR k) / z + 1/2)).
    2:{ unfold cell_point. rewrite (scaled_comb _ _ _ _ _ _ _ _ HS). f_equal; field; lra. }
    rewrite wrap_cell by auto. assert (FP : fully_periodic b') by apply HS. destruct FP as (Fx & Fy & Fz). rewrite Fx, Fy, Fz. unfold cell_point. rewrite (scaled_comb _ _ _ _ _ _ _ _ HS).
    destruct (axis_bij nx s B1) as (AX & _). destruct (axis_bij ny t B2) as (AY & _). destruct (axis_bij n3 u N3) as (AZ & _). cbv zeta in AX, AY, AZ. fold (g nx s) in AX. fold (g ny t) in AY. fold (g n3 u) in AZ.
    assert (IN : forall c q, 1 <= c -> - c / 2 <= c * (wrapped true q - 1/2) < c / 2) by (intros c q Hc; pose proof (wrapped_range true q eq_refl) as W; split; nra).
    exists (g n3 u k). split; [|split; [auto|]].
    - unfold g. rewrite (AX i), (AY j). rewrite EX, EY. unfold wrapped. destruct (b_2d b) eqn:E2.
      + destruct Hn as (_ & _ & _ & H2 & _). unfold comb, a3. rewrite (H2 E2). apply vec_eq; simpl; ring.
      + rewrite (AZ k), (EZ3 eq_refl). reflexivity.
    - do 3 eexists. split; [reflexivity|]. split; [apply IN; auto|]. split; [apply IN; auto|]. intros _. apply IN; auto. }
  assert (PT : forall id, (id < length points)%nat -> exists s t u, nth id points v0 = comb b s t u).
  { intros id Hid. destruct (comb_coords b (nth id points v0) Hn (HH _ (nth_In points v0 Hid))) as (s & t & u & E & _). eauto. }
  assert (LP : forall i j k, In (i, j, k) (pb_loop true (pb_images b (V3 (IZR nx) (IZR ny) (IZR nz)) true)) <-> (0 <= i <= nx /\ 0 <= j <= ny /\ 0 <= k <= n3)%Z).
  { intros i j k. unfold pb_images. cbn [vx vy vz]. rewrite !Zceil_IZR. rewrite loop_in. unfold start, n3. reflexivity. }
  assert (ONE : forall p i j k id v, In (v, id) (pb_one b b' true incl p id (i, j, k)) <-> v = wrap b' (vadd p (shift b i j k)) /\ (incl = false -> ~ (i = 0 /\ j = 0 /\ k = 0)%Z)).
  { intros p i j k id v. unfold pb_one. assert (SK : negb incl && (Z.eqb i 0 && Z.eqb j 0 && Z.eqb k 0) = true <-> incl = false /\ (i = 0 /\ j = 0 /\ k = 0)%Z).
    { rewrite !andb_true_iff, negb_true_iff, !Z.eqb_eq. tauto. }
    destruct (negb incl && _) eqn:EK.
    - split; [intros []|]. intros (_ & HI). destruct (proj1 SK eq_refl). exfalso. apply HI; auto.
    - cbv zeta. rewrite pb_image_shift by auto. cbn [In]. split.
      + intros [E|[]]. injection E as <-. split; auto. intros E1 E2. assert (false = true) by (apply SK; auto). discriminate.
      + intros (-> & _). auto. }
  assert (EQ : forall p s t u i j k i' j' k', p = comb b s t u -> (0 <= i <= nx /\ 0 <= j <= ny /\ 0 <= k <= n3)%Z -> (0 <= i' <= nx /\ 0 <= j' <= ny /\ 0 <= k' <= n3)%Z ->
     wrap b' (vadd p (shift b i j k)) = wrap b' (vadd p (shift b i' j' k')) -> (i, j, k) = (i', j', k')).
  { intros p s t u i j k i' j' k' -> H H' E. destruct (WR s t u i j k) as (c & E1 & C1 & _). destruct (WR s t u i' j' k') as (c' & E1' & C1' & _). rewrite E1, E1' in E. apply comb_inj in E as (Ea & Eb & Ec); auto.
    destruct (axis_bij nx s B1) as (_ & IX & _). destruct (axis_bij ny t B2) as (_ & IY & _). destruct (axis_bij n3 u N3) as (_ & IZ & _).
    assert (i = i') by (apply IX; try tauto; apply eq_IZR; fold (g nx s i) (g nx s i'); lra). assert (j = j') by (apply IY; try tauto; apply eq_IZR; fold (g ny t j) (g ny t j'); lra).
    assert (k = k'). { destruct (b_2d b) eqn:E2; [unfold n3 in *; lia|]. specialize (Ec eq_refl). rewrite (C1 eq_refl), (C1' eq_refl) in Ec. apply IZ; try tauto. apply eq_IZR. fold (g n3 u k) (g n3 u k'). lra. }
    subst. reflexivity. }
  assert (SELF : forall p i j k, in_space b p -> (0 <= i <= nx /\ 0 <= j <= ny /\ 0 <= k <= n3)%Z -> lattice_image b' (wrap b' (vadd p (shift b i j k))) p <-> (i = 0 /\ j = 0 /\ k = 0)%Z).
  { intros p i j k Hp HR. destruct (comb_coords b p Hn Hp) as (s & t & u & Ep & _). assert (S2 : b_2d b' = b_2d b) by apply HS. assert (FP : fully_periodic b') by apply HS. destruct FP as (Fx & Fy & Fz).
    assert (Hp' : in_space b' p) by (unfold in_space; rewrite S2; auto).
    assert (Z0 : p = vadd p (shift b 0 0 0)) by (unfold shift, comb; apply vec_eq; simpl; ring).
    assert (Hq : in_space b' (vadd p (shift b i j k))).
    { intros E2. rewrite S2 in E2. cbn [vadd vz]. rewrite (Hp E2). unfold shift, comb, a1, a2, a3. cbn. destruct Hn as (_ & _ & _ & H2 & _). rewrite (H2 E2). ring. }
    split.
    - intros (i' & j' & k' & E). assert (IM : image_of b' (wrap b' (vadd p (shift b i j k))) p).
      { exists i', j', (if b_2d b' then 0%Z else k'). split; [repeat split; try congruence; intros E'; rewrite E'; auto|]. rewrite E. f_equal. destruct (b_2d b') eqn:E'; auto. apply shift_2d; auto. }
      apply wrap_congruent in IM; auto. rewrite wrap_idem in IM by auto. rewrite Z0 in IM at 2. apply (EQ p s t u) in IM; auto; [|lia]. injection IM as -> -> ->. auto.
    - intros (-> & -> & ->). rewrite <- Z0. destruct (wrap_image b' p Hn' Hp') as (i' & j' & k' & _ & E). exists i', j', k'. auto. }
  split; [|split].
  - rewrite El. apply NoDup_flat_map; [apply seq_NoDup| |].
    + intros id Hid. apply in_seq in Hid. destruct (PT id) as (s & t & u & Ep); [lia|]. apply NoDup_flat_map; [apply loop_NoDup| |].
      * intros [[i j] k] _. unfold pb_one. destruct (negb incl && _); repeat constructor; auto.
      * intros [[i j] k] [[i' j'] k'] [v id'] H1 H2 O1 O2. assert (id' = id) by (apply one_id in O1; auto). subst id'. apply ONE in O1 as (-> & _), O2 as (E & _). apply LP in H1, H2. eapply EQ; eauto.
    + intros id id' x0 _ _ H H'. apply in_flat_map in H as (? & _ & H), H' as (? & _ & H'). apply one_id in H, H'. congruence.
  - intros v id. rewrite (mem_by_id _ _ _ _ _ _ _ v id HC). split.
    + intros (Hid & [[i j] k] & HL & HO). apply LP in HL. apply ONE in HO as (Ev & NI). destruct (PT id Hid) as (s & t & u & Ep). split; auto. destruct (WR s t u i j k) as (k' & E1 & E2 & E3). rewrite <- Ep in E1, E3. rewrite <- Ev in *. split; [|split].
      * exists (g nx s i), (g ny t j), k'. rewrite E1, Ep, comb_add. reflexivity.
      * destruct E3 as (s' & t' & u' & F1 & F2 & F3 & F4). exists s', t', u'. rewrite <- EX, <- EY. split; [exact F1|split; [exact F2|split; [exact F3|]]]; intros E'; rewrite <- EZ by auto; apply F4; auto.
      * intros EI. rewrite Ev. rewrite SELF; auto. apply HH, nth_In; auto.
    + intros (Hid & (i & j & k & Ev) & (s' & t' & u' & Ev' & W1 & W2 & W3) & NV). split; auto. destruct (PT id Hid) as (s & t & u & Ep).
      rewrite Ev, Ep, comb_add in Ev'. apply comb_inj in Ev' as (E1 & E2 & E3); auto.
      destruct (axis_bij nx s B1) as (_ & _ & SX). destruct (axis_bij ny t B2) as (_ & _ & SY). destruct (axis_bij n3 u N3) as (_ & _ & SZ).
      destruct (SX i) as (i0 & I1 & I2); [lra|]. destruct (SY j) as (j0 & J1 & J2); [lra|].
      assert (K : exists k0, (0 <= k0 <= n3)%Z /\ (b_2d b = false -> g n3 u k0 = k)).
      { destruct (b_2d b) eqn:E'; [exists 0%Z; split; [lia|discriminate]|]. destruct (SZ k) as (k0 & K1 & K2); [|exists k0; split; auto]. specialize (W3 eq_refl). specialize (E3 eq_refl). rewrite E3. unfold n3. auto. }
      destruct K as (k0 & K1 & K2). fold (g nx s i0) in I2. fold (g ny t j0) in J2.
      assert (EV : v = wrap b' (vadd (nth id points v0) (shift b i0 j0 k0))).
      { destruct (WR s t u i0 j0 k0) as (k' & F1 & F2 & _). rewrite Ep, F1, Ev, Ep, comb_add, I2, J2. destruct (b_2d b) eqn:E'.
        - destruct Hn as (_ & _ & _ & H2 & _). unfold comb, a3. rewrite (H2 E'). apply vec_eq; simpl; ring.
        - rewrite (F2 eq_refl), (K2 eq_refl). reflexivity. }
      exists (i0, j0, k0). split; [apply LP; auto|]. apply ONE. split; auto. intros EI Z. apply (NV EI). rewrite EV. apply SELF; auto. apply HH, nth_In; auto.
  - rewrite El. clear El. assert (LEN : forall id, (id < length points)%nat -> Z.of_nat (length (flat_map (pb_one b b' true incl (nth id points v0) id) (pb_loop true (pb_images b (V3 (IZR nx) (IZR ny) (IZR nz)) true)))) = ((nx + 1) * (ny + 1) * (if b_2d b then 1 else nz + 1) - (if incl then 0 else 1))%Z).
    { intros id _. set (L := pb_loop _ _).
      assert (LL : Z.of_nat (length L) = ((nx + 1) * (ny + 1) * (n3 + 1))%Z).
      { unfold L, pb_images. cbn [vx vy vz]. rewrite !Zceil_IZR. fold n3. unfold pb_loop.
        assert (CL : forall (A B : Type) (f : A -> list B) c l, (forall a, length (f a) = c) -> length (flat_map f l) = (length l * c)%nat).
        { intros A B f c l0 Hc. induction l0 as [|a l0 IH]; simpl; auto. rewrite app_length, IH, Hc. auto. }
        rewrite (CL _ _ _ (Z.to_nat (ny + 1) * Z.to_nat (n3 + 1))%nat).
        - rewrite zrange_length. rewrite !Nat2Z.inj_mul, !Z2Nat.id by lia. ring.
        - intros i. rewrite (CL _ _ _ (Z.to_nat (n3 + 1))).
          + rewrite zrange_length. do 2 f_equal; lia.
          + intros j. rewrite map_length, zrange_length. f_equal. lia. }
      assert (E1 : (if b_2d b then 1 else nz + 1)%Z = (n3 + 1)%Z) by (unfold n3; destruct (b_2d b); auto). rewrite E1, <- LL. clear E1 LL.
      destruct incl.
      - rewrite Z.sub_0_r. f_equal. unfold pb_one. cbn [negb andb]. induction L as [|[[i j] k] L IH]; simpl; auto.
      - assert (ND : NoDup L) by apply loop_NoDup. assert (IN : In (0, 0, 0)%Z L) by (apply LP; lia). clearbody L. clear - ND IN.
        assert (A : forall L, ~ In (0, 0, 0)%Z L -> length (flat_map (pb_one b b' true false (nth id points v0) id) L) = length L).
        { clear. induction L as [|[[i j] k] L IH]; simpl; auto. intros NI. rewrite app_length, IH by tauto.
          destruct (Z.eqb_spec i 0); destruct (Z.eqb_spec j 0); destruct (Z.eqb_spec k 0); simpl; auto. subst. exfalso. auto. }
        induction L as [|[[i j] k] L IH]; [destruct IN|]. inversion_clear ND. cbn [flat_map]. rewrite app_length. destruct IN as [E|IN].
        + injection E as -> -> ->. rewrite A by auto. cbn [pb_one negb andb Z.eqb length]. cbn [length]. lia.
        + replace (length (pb_one b b' true false (nth id points v0) id (i, j, k))) with 1%nat; [specialize (IH H0 IN); cbn [length]; lia|].
          unfold pb_one. destruct (Z.eqb_spec i 0); destruct (Z.eqb_spec j 0); destruct (Z.eqb_spec k 0); simpl; auto. subst. contradiction. }
    set (c := ((nx + 1) * (ny + 1) * (if b_2d b then 1 else nz + 1) - (if incl then 0 else 1))%Z) in *. clearbody c.
    assert (G : forall ids, (forall id, In id ids -> (id < length points)%nat) -> Z.of_nat (length (flat_map (fun id => flat_map (pb_one b b' true incl (nth id points v0) id) (pb_loop true (pb_images b (V3 (IZR nx) (IZR ny) (IZR nz)) true))) ids)) = (Z.of_nat (length ids) * c)%Z).
    { induction ids as [|id ids IH]; intros HI; [reflexivity|]. cbn [flat_map]. rewrite app_length, Nat2Z.inj_add, LEN, IH by (intros; apply HI; simpl; auto). cbn [length]. lia. }
    rewrite G by (intros id Hid; apply in_seq in Hid; lia). rewrite seq_length. reflexivity.
Qed.
Print Assumptions C36_images.

(** For points of the primary cell the image left out is the point itself. *)
Theorem C36_images_home (b : box) (points : list vec3) (nx ny nz : Z) (incl : bool) (b' : box) (l : list (vec3 * nat)) :
  positive b -> pb_compute b points (V3 (IZR nx) (IZR ny) (IZR nz)) true incl = Some (b', l) ->
  forall p v, home b p -> in_scaled b (IZR (nx + 1)) (IZR (ny + 1)) (IZR (nz + 1)) v -> (lattice_image b' v p <-> v = p).
Proof.
  intros Hb HC p v (s & t & u & Ep & S1 & S2 & S3) (s' & t' & u' & Ev & W1 & W2 & W3). apply pb_some in HC as (B1 & B2 & B3 & Eb' & _). assert (Hn : nonsingular b) by apply Hb.
  destruct (pb_box_scaled b (V3 (IZR nx) (IZR ny) (IZR nz)) true Hb B1 B2 B3) as (x & y & z & HS & X1 & Y1 & Z1 & EX & EY & EZ). rewrite <- Eb' in HS. cbn [vx vy vz] in EX, EY, EZ. rewrite Zceil_IZR, Z.add_comm in EX, EY, EZ.
  rewrite <- EX in W1. rewrite <- EY in W2. split.
  - intros (i & j & k & E). unfold shift in E. rewrite (scaled_comb _ _ _ _ _ _ _ _ HS), Ev, Ep in E.
    replace (vadd (comb b s t u) (comb b (x * IZR i) (y * IZR j) (z * IZR k))) with (comb b (s + x * IZR i) (t + y * IZR j) (u + z * IZR k)) in E by (unfold comb; apply vec_eq; simpl; ring).
    apply comb_inj in E as (E1 & E2 & E3); auto.
    assert (K : forall c a a' n, 1 <= c -> a' = a + c * IZR n -> - c / 2 <= a' < c / 2 -> - 1 / 2 <= a < 1 / 2 -> n = 0%Z).
    { clear. intros c a a' n Hc E H H'. assert (- c < c * IZR n < c) by lra. assert (-1 < n)%Z by (apply lt_IZR; nra). assert (n < 1)%Z by (apply lt_IZR; nra). lia. }
    assert (i = 0%Z) by (apply (K x s s'); auto). assert (j = 0%Z) by (apply (K y t t'); auto). subst i j. rewrite Ev, Ep. destruct (b_2d b) eqn:E'.
    + destruct Hn as (_ & _ & _ & H2 & _). unfold comb, a1, a2, a3. rewrite (H2 E'). rewrite E1, E2. apply vec_eq; simpl; ring.
    + assert (k = 0%Z) by (apply (K z u u'); auto; rewrite EZ by auto; auto). subst k. rewrite E1, E2, E3 by auto. f_equal; simpl; ring.
  - intros ->. exists 0%Z, 0%Z, 0%Z. unfold shift, comb. apply vec_eq; simpl; ring.
Qed.
Print Assumptions C36_images_home.

Lemma comp_norm v : Rabs (vx v) <= norm v /\ Rabs (vy v) <= norm v /\ Rabs (vz v) <= norm v.
Proof.
  unfold norm, dot. pose proof (Rle_0_sqr (vx v)). pose proof (Rle_0_sqr (vy v)). pose proof (Rle_0_sqr (vz v)). unfold Rsqr in *.
  repeat split; rewrite <- sqrt_Rsqr_abs; apply sqrt_le_1_alt; unfold Rsqr; lra.
Qed.
(** In a box without tilt a buffer distance [r] collects every image closer than [r] to some point of the cell. *)
Theorem C36_orthorhombic (b : box) (points : list vec3) (r : R) (incl : bool) (b' : box) (l : list (vec3 * nat)) (id : nat) (v c : vec3) :
  positive b -> (forall p, In p points -> home b p) -> b_xy b = 0 -> b_xz b = 0 -> b_yz b = 0 -> pb_compute b points (V3 r r r) false incl = Some (b', l) ->
  (id < length points)%nat -> lattice_image b v (nth id points v0) -> v <> nth id points v0 -> home b c -> norm (vsub v c) < r -> In (v, id) l.
Proof.
  intros Hb HH T1 T2 T3 HC Hid HI NV (s & t & u & Ec & C1 & C2 & C3) HN. assert (Hn : nonsingular b) by apply Hb. apply (C36_distance b points (V3 r r r) incl b' l Hb HH HC). split; auto. split; auto. split; [|auto].
  assert (SP : in_space b v).
  { destruct HI as (i & j & k & E). destruct (HH _ (nth_In points v0 Hid)) as (s1 & t1 & u1 & E1 & _). intros E2. rewrite E, E1, comb_add. destruct Hn as (_ & _ & _ & H2 & _). unfold comb, a1, a2, a3. cbn. rewrite (H2 E2). ring. }
  destruct (comb_coords b v Hn SP) as (s' & t' & u' & Ev & U0). exists s', t', u'. split; auto. cbn [vx vy vz].
  destruct (comp_norm (vsub v c)) as (N1 & N2 & N3). apply (fun H => Rle_lt_trans _ _ _ H HN) in N1, N2, N3. clear HN.
  rewrite Ev, Ec in N1, N2, N3. unfold comb, a1, a2, a3 in N1, N2, N3. cbn in N1, N2, N3. rewrite T1, T2, T3 in *. destruct Hb as (_ & Px & Py & Pz).
  assert (K : forall L a a0, 0 < L -> - 1 / 2 <= a0 < 1 / 2 -> Rabs (a * L - a0 * L) < r -> - (1 + 2 * (r / L)) / 2 <= a < (1 + 2 * (r / L)) / 2).
  { clear. intros L a a0 HL H HR. apply Rabs_def2 in HR as [R1 R2]. assert (E : r = r / L * L) by (field; lra). set (q := r / L) in *. clearbody q. subst r.
    assert (a - a0 < q) by (apply Rmult_lt_reg_r with L; auto; lra). assert (- q < a - a0) by (apply Rmult_lt_reg_r with L; auto; lra). lra. }
  split; [|split].
  - apply (K _ _ s); auto. eapply Rle_lt_trans; [|exact N1]. right. f_equal. ring.
  - apply (K _ _ t); auto. eapply Rle_lt_trans; [|exact N2]. right. f_equal. ring.
  - intros E2. apply (K _ _ u); auto. eapply Rle_lt_trans; [|exact N3]. right. f_equal. ring.
Qed.
Print Assumptions C36_orthorhombic.

Definition cube10 : box := mk_box 10 10 10 0 0 0 false.
Lemma cube10_positive : positive cube10. Proof. apply mk_box_positive; intros; lra. Qed.
Lemma cube10_comb s t u : comb cube10 s t u = V3 (10 * s) (10 * t) (10 * u).
Proof. unfold comb, a1, a2, a3, cube10. apply vec_eq; simpl; ring. Qed.
Lemma pb_defined b points buff u incl : 0 <= vx buff -> 0 <= vy buff -> 0 <= vz buff -> exists r, pb_compute b points buff u incl = Some r.
Proof.
  intros H1 H2 H3. destruct (pb_compute b points buff u incl) as [r|] eqn:E; [eauto|]. apply C36_raises in E. lra.
Qed.
(** The point at 4.5 of a cube of side 10 has its image at -5.5 in a buffer of 1. *)
Example C36_ex : exists b' l, pb_compute cube10 [V3 (9/2) 0 0] (V3 1 1 1) false false = Some (b', l) /\ home cube10 (V3 (9/2) 0 0) /\ In (V3 (-11/2) 0 0, 0%nat) l.
Proof.
  destruct (pb_defined cube10 [V3 (9/2) 0 0] (V3 1 1 1) false false) as [[b' l] E]; try (simpl; lra). exists b', l. split; auto.
  assert (H : home cube10 (V3 (9/2) 0 0)). { exists (9/20), 0, 0. rewrite cube10_comb. split; [apply vec_eq; simpl; field|]. repeat split; try lra; intros; lra. }
  split; auto. apply (C36_distance _ _ _ _ _ _ cube10_positive) with (v := V3 (-11/2) 0 0) (id := 0%nat) in E; [|intros p [<-|[]]; auto].
  apply E. split; [simpl; lia|]. split; [exists (-1)%Z, 0%Z, 0%Z; unfold shift; rewrite cube10_comb; apply vec_eq; simpl; lra|]. split.
  - exists (-11/20), 0, 0. rewrite cube10_comb. split; [apply vec_eq; simpl; field|]. simpl. repeat split; try lra; intros; lra.
  - intros _ X. apply (f_equal vx) in X. simpl in X. lra.
Qed.
Example C36_images_ex : exists b' l, pb_compute cube10 [V3 (9/2) 0 0] (V3 1 0 2) true true = Some (b', l) /\ length l = 6%nat.
Proof.
  destruct (pb_defined cube10 [V3 (9/2) 0 0] (V3 1 0 2) true true) as [[b' l] E]; try (simpl; lra). exists b', l. split; auto.
  destruct (C36_images cube10 [V3 (9/2) 0 0] 1 0 2 true b' l cube10_positive) as (_ & _ & L); auto; [intros p _ X; discriminate|]. simpl in L. lia.
Qed.
(** Refuted: in a tilted box the buffer does not hold all images closer than the buffer distance to the cell. *)
Theorem C36_tilted_distance_refuted : exists b points r b' l id v c, positive b /\ (forall p, In p points -> home b p) /\
  pb_compute b points (V3 r r r) false false = Some (b', l) /\ (id < length points)%nat /\ lattice_image b v (nth id points v0) /\ v <> nth id points v0 /\
  home b c /\ norm (vsub v c) < r /\ ~ In (v, id) l.
Proof.
  set (b := mk_box 10 10 10 1 0 0 false). assert (Hb : positive b) by (apply mk_box_positive; intros; lra).
  assert (CB : forall s t u, comb b s t u = V3 (10 * s + 10 * t) (10 * t) (10 * u)) by (intros; unfold comb, a1, a2, a3, b; apply vec_eq; simpl; ring).
  assert (HP : home b (V3 (-39/10) 0 0)). { exists (-39/100), 0, 0. rewrite CB. split; [apply vec_eq; simpl; field|]. repeat split; try lra; intros; lra. }
  destruct (pb_defined b [V3 (-39/10) 0 0] (V3 1 1 1) false false) as [[b' l] E]; try (simpl; lra).
  exists b, [V3 (-39/10) 0 0], 1, b', l, 0%nat, (V3 (61/10) 0 0), (V3 (61/10 - 56/100) (56/100) 0). split; auto. split; [intros p [<-|[]]; auto|]. split; auto. split; [simpl; lia|].
  split; [exists 1%Z, 0%Z, 0%Z; unfold shift; rewrite CB; apply vec_eq; simpl; lra|]. split; [intros X; apply (f_equal vx) in X; simpl in X; lra|]. split.
  - exists (498/1000), (56/1000), 0. rewrite CB. split; [apply vec_eq; simpl; field|]. repeat split; try lra; intros; lra.
  - split.
    + unfold norm, dot. simpl. eapply Rlt_le_trans; [apply (sqrt_lt_1_alt _ 1); lra|rewrite sqrt_1; lra].
    + intros HI. apply (C36_distance _ _ _ _ _ _ Hb) with (v := V3 (61/10) 0 0) (id := 0%nat) in E; [|intros p [<-|[]]; auto]. apply E in HI as (_ & _ & (s & t & u & Ev & W & _) & _).
      rewrite CB in Ev. assert (E1 := f_equal vx Ev). assert (E2 := f_equal vy Ev). simpl in E1, E2, W. lra.
Qed.
Print Assumptions C36_tilted_distance_refuted.
(** Refuted: images are also made across directions that are not periodic. *)
Theorem C36_aperiodic_refuted : exists b points buff b' l id v, positive b /\ (forall p, In p points -> home b p) /\
  pb_compute b points buff false false = Some (b', l) /\ In (v, id) l /\ ~ image_of b v (nth id points v0).
Proof.
  set (b := set_periodic cube10 false true true). assert (Hb : positive b) by (apply set_periodic_positive, cube10_positive).
  assert (CB : forall s t u, comb b s t u = V3 (10 * s) (10 * t) (10 * u)) by (intros; rewrite <- cube10_comb; reflexivity).
  assert (HP : home b (V3 (9/2) 0 0)). { exists (9/20), 0, 0. rewrite CB. split; [apply vec_eq; simpl; field|]. repeat split; try lra; intros; lra. }
  destruct (pb_defined b [V3 (9/2) 0 0] (V3 1 1 1) false false) as [[b' l] E]; try (simpl; lra).
  exists b, [V3 (9/2) 0 0], (V3 1 1 1), b', l, 0%nat, (V3 (-11/2) 0 0). split; auto. split; [intros p [<-|[]]; auto|]. split; auto. split.
  - apply (C36_distance _ _ _ _ _ _ Hb) with (v := V3 (-11/2) 0 0) (id := 0%nat) in E; [|intros p [<-|[]]; auto].
    apply E. split; [simpl; lia|]. split; [exists (-1)%Z, 0%Z, 0%Z; unfold shift; rewrite CB; apply vec_eq; simpl; lra|]. split.
    + exists (-11/20), 0, 0. rewrite CB. split; [apply vec_eq; simpl; field|]. simpl. repeat split; try lra; intros; lra.
    + intros _ X. apply (f_equal vx) in X. simpl in X. lra.
  - intros (i & j & k & (A & _) & EV). specialize (A eq_refl). subst i. unfold shift in EV. rewrite CB in EV. apply (f_equal vx) in EV. simpl in EV. lra.
Qed.
Print Assumptions C36_aperiodic_refuted.
(** Refuted: points outside the primary cell lose images (the points are not wrapped first). *)
Theorem C36_outside_point_refuted : exists b p buff b' l v, positive b /\ pb_compute b [p] buff false false = Some (b', l) /\ lattice_image b v p /\ v <> p /\
  in_scaled b (1 + 2 * (vx buff / vx (b_L b))) (1 + 2 * (vy buff / vy (b_L b))) (1 + 2 * (vz buff / vz (b_L b))) v /\ ~ In (v, 0%nat) l.
Proof.
  destruct (pb_defined cube10 [V3 (29/2) 0 0] (V3 1 1 1) false false) as [[b' l] E]; try (simpl; lra).
  exists cube10, (V3 (29/2) 0 0), (V3 1 1 1), b', l, (V3 (-11/2) 0 0). split; [apply cube10_positive|]. split; auto.
  split; [exists (-2)%Z, 0%Z, 0%Z; unfold shift; rewrite cube10_comb; apply vec_eq; simpl; lra|]. split; [intros X; apply (f_equal vx) in X; simpl in X; lra|]. split.
  - exists (-11/20), 0, 0. rewrite cube10_comb. split; [apply vec_eq; simpl; field|]. simpl. repeat split; try lra; intros; lra.
  - intros HI. apply (mem_by_id _ _ _ _ _ _ _ _ _ E) in HI as (_ & [[i j] k] & HL & HO). unfold pb_images in HL. cbn [vx vy vz b_2d cube10 mk_box set_L b_L] in HL. apply loop_in in HL as (HL & _). unfold start in HL.
    assert (C : Zceil (1 / 10) = 1%Z) by (apply Zceil_imp; simpl; lra). rewrite C in HL. unfold pb_one in HO. destruct (negb false && _); [destruct HO|]. cbv zeta in HO. rewrite pb_image_shift in HO by apply cube10_positive.
    destruct (_ && _ && _ && _); [|destruct HO]. destruct HO as [HO|[]]. apply (f_equal (fun x => vx (fst x))) in HO. unfold shift in HO. rewrite cube10_comb in HO. simpl in HO.
    assert (-1 <= i)%Z by lia. apply IZR_le in H. lra.
Qed.
Print Assumptions C36_outside_point_refuted.
