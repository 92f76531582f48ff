(** C82: k-nearest-neighbour queries of AABBQuery in single precision. *)
From Coq Require Import Psatz Sorting.Sorted.
From Verif Require Import NListProofs MArrayProofs F32Proofs Vec AABBProofs2 FaabbProofs FaabbProofs2 FaabbProps FcellProofs3 FnearProofs FnearProofs2 FnearSpec.
Open Scope R_scope.
Local Notation up := FaabbProofs.up.

Section General.
Variables (b : fbox) (points : list fvec) (q : fvec) (qi k : nat) (r_guess r_max r_min scale : f32) (excl : bool).
Hypothesis HN : points <> [].
Hypothesis HF : Forall fin3 points.
Hypothesis Hg : visible r_guess.
Hypothesis Hs : grows scale.
Hypothesis Hm : r_max <> B754_nan.
Hypothesis Hk : (0 < k)%nat.
Lemma nearest_outcome l : fnearest b points q qi k r_guess r_max r_min scale excl (Some l) ->
  Bleb r_max fzero = false /\ exists s, outcome b points q qi k r_max r_min scale excl false r_guess s /\ l = fdeliver k r_max s.
Proof.
  unfold fnearest. destruct (fpoint_args_ok r_max r_min) eqn:A; [|discriminate]. destruct (fimages b fzero true); [|discriminate]. intros (s & H & E).
  split; [unfold fpoint_args_ok in A; destruct (Bleb r_max fzero); [discriminate|auto]|]. destruct s as [s|]; [|discriminate]. exists s. split; [|cbn in E; congruence].
  eapply search_outcome; eauto.
Qed.
End General.

(** At most [k] bonds in order of distance, each the computed separation of an eligible pair within the bounds. *)
Theorem C82_bonds b points q qi k r_guess r_max r_min scale excl l : points <> [] -> Forall fin3 points -> visible r_guess -> grows scale -> r_max <> B754_nan -> (0 < k)%nat ->
  fnearest b points q qi k r_guess r_max r_min scale excl (Some l) ->
  (length l <= k)%nat /\ ascending l /\
  forall x, In x l -> fb_q x = qi /\ finite (fb_d x) = true /\ at_least (fb_d x) r_min /\ Bltb r_max (fb_d x) = false /\
    exists im, eligible b points qi excl im (fb_p x) /\ fb_d x = cdist b points q im (fb_p x) /\ fb_r x = csep b points q im (fb_p x).
Proof.
  intros HN HF Hg Hs Hm Hk H. destruct (nearest_outcome _ _ _ _ _ _ _ _ _ _ HN HF Hg Hs Hm Hk l H) as (M & s & O & E).
  destruct (delivered b points q qi k r_max r_min scale excl Hm Hk r_guess s l O E) as (L & SO & WI & r & S & l' & V & _ & [HH _] & P & _).
  split; auto. split; [apply sorted_nth; auto|]. intros x Hx. assert (Hx' : In x S) by (eapply Permutation_in; [symmetry; exact P|]; apply in_or_app; auto).
  destruct (HH x Hx') as [FB AL]. destruct (found_finite _ _ _ _ _ _ _ FB) as [F _]. assert (W := WI x Hx). destruct FB as (im & j & EL & _ & Ex).
  split; [rewrite Ex; reflexivity|]. split; auto. split; auto. split; auto. exists im. rewrite Ex. cbn [fb_p fb_d fb_r]. auto.
Qed.
(** If [k] are returned, no point left out is computed to be closer. *)
Theorem C82_closest b points q qi k r_guess r_max r_min scale excl l : points <> [] -> Forall fin3 points -> visible r_guess -> grows scale -> r_max <> B754_nan -> (0 < k)%nat ->
  fnearest b points q qi k r_guess r_max r_min scale excl (Some l) ->
  forall im j, eligible b points qi excl im j -> nearest_cell b points q im j -> at_least (cdist b points q im j) r_min ->
  (exists y, In y l /\ fb_p y = j /\ val (fb_d y) = val (cdist b points q im j)) \/ (forall x, In x l -> val (fb_d x) <= val (cdist b points q im j)).
Proof.
  intros HN HF Hg Hs Hm Hk H im j EL NC AL. destruct (nearest_outcome _ _ _ _ _ _ _ _ _ _ HN HF Hg Hs Hm Hk l H) as (M & s & O & E).
  destruct (delivered b points q qi k r_max r_min scale excl Hm Hk r_guess s l O E) as (_ & _ & _ & r & S & l' & _ & _ & _ & _ & _ & C). destruct (C im j EL NC AL) as [C'|[C' _]]; auto.
Qed.
(** If fewer are returned, every point left out is about as far as r_max or the largest plane distance, divided by the scale. *)
Theorem C82_short b points q qi k r_guess r_max r_min scale excl l : points <> [] -> Forall fin3 points -> ordinary_length r_guess -> grows scale -> finite scale = true ->
  ordinary_limit r_max -> ordinary_length (fmax_plane b) -> (0 < k)%nat ->
  fnearest b points q qi k r_guess r_max r_min scale excl (Some l) -> (length l < k)%nat ->
  forall im j, eligible b points qi excl im j -> nearest_cell b points q im j -> at_least (cdist b points q im j) r_min ->
  let reach := val (cdist b points q im j) * val scale * (1 + 8 * u) in
  (exists y, In y l /\ fb_p y = j /\ val (fb_d y) = val (cdist b points q im j)) \/ reaches reach r_max \/ reaches reach (fmax_plane b).
Proof.
  intros HN HF Og Hs Fs Om Op Hk H HL im j EL NC AL reach.
  assert (L60 : bpow radix2 (-126) <= bpow radix2 (-60)) by (apply bpow_le; lia). assert (P126 := bpow_gt_0 radix2 (-126)).
  assert (Hg : visible r_guess) by (right; destruct Og as [F L]; split; auto; lra).
  assert (Hm : r_max <> B754_nan) by (intros E; destruct Om as [Om|[Om _]]; rewrite E in Om; discriminate).
  destruct (nearest_outcome _ _ _ _ _ _ _ _ _ _ HN HF Hg Hs Hm Hk l H) as (M & s & O & E).
  destruct (delivered b points q qi k r_max r_min scale excl Hm Hk r_guess s l O E) as (_ & _ & _ & r & S & l' & V & GE & _ & _ & _ & C).
  destruct (C im j EL NC AL) as [C'|[_ C']]; [left; auto|right]. specialize (C' HL). destruct NC as [FD _].
  assert (VS := grows_val scale Hs Fs). assert (P23 := bpow_gt_0 radix2 (-23)). assert (D0 := dist_nonneg b points q im j). set (d := val (cdist b points q im j)) in *.
  assert (U : 0 < u < / 1000) by (unfold u; lra).
  assert (R3 : d * val scale * (1 + 3 * u) * (1 + u) <= reach).
  { unfold reach. replace (d * val scale * (1 + 3 * u) * (1 + u)) with (d * val scale * ((1 + 3 * u) * (1 + u))) by ring. apply Rmult_le_compat_l; [apply Rmult_le_pos; lra|nra]. }
  assert (DS : d <= d * val scale) by (assert (d * 1 <= d * val scale) by (apply Rmult_le_compat_l; lra); lra).
  assert (R1 : d * (1 + 3 * u) <= d * val scale * (1 + 3 * u) * (1 + u)).
  { eapply Rle_trans; [apply Rmult_le_compat_r; [lra|exact DS]|]. rewrite <- (Rmult_1_r (d * val scale * (1 + 3 * u))) at 1. apply Rmult_le_compat_l; [|lra]. apply Rmult_le_pos; [apply Rmult_le_pos; lra|lra]. }
  assert (D3 : d <= d * (1 + 3 * u)) by (assert (0 <= d * (3 * u)) by (apply Rmult_le_pos; lra); lra).
  destruct C' as [(z & Fz & Bz & Lz)|[ST MI]].
  - left. destruct Om as [->|[Fm _]]; [destruct (fb_d z) as [[]|[]| |[] ? ? ?]; discriminate|]. split; auto. apply ltb_val in Bz; auto. lra.
  - assert (NR : number (std_min r r_max)) by (apply min_number; [apply visible_number; auto|exact Hm]).
    assert (FR : finite (std_min r r_max) = true).
    { assert (MI' := MI). rewrite dist_finite in FD. destruct (missed b points q _ im j NR FD MI') as [FM _]. destruct (std_min r r_max) as [|[]| |]; auto; discriminate. }
    unfold std_min in MI, FR, NR. destruct (Bltb r_max r) eqn:B.
    + left. split; auto. destruct Om as [Om|Om]; [rewrite Om in FR; discriminate|]. assert (K := missed_distance b points q k Hk r_max im j FR (proj1 (proj2 Om)) FD MI). fold d in K. lra.
    + destruct (GE FR) as [FG LG]. assert (Lr : bpow radix2 (-60) <= val r) by (destruct Og as [_ [Og _]]; lra).
      assert (K := missed_distance b points q k Hk r im j FR Lr FD MI). fold d in K.
      assert (RS : val r * val scale * (1 + u) <= reach).
      { eapply Rle_trans; [|exact R3]. apply Rmult_le_compat_r; [lra|]. replace (d * val scale * (1 + 3 * u)) with (d * (1 + 3 * u) * val scale) by ring. apply Rmult_le_compat_r; lra. }
      assert (RP : 0 <= val r * val scale) by (apply Rmult_le_pos; lra).
      assert (MR := fun X => mul_reach k scale Hs Hk r X FR ltac:(lra) Fs).
      assert (BIG : bpow radix2 60 <= val r * val scale -> reaches reach (fmax_plane b)).
      { intros Lb. destruct Op as [Fp [_ Lp]]. split; auto. assert (val r * val scale <= val r * val scale * (1 + u)) by (assert (0 <= val r * val scale * u) by (apply Rmult_le_pos; lra); lra). lra. }
      destruct ST as [ST|ST]; destruct (MR _ ST) as [[FX LX]|[LX|LX]]; auto.
      * left. split; auto. lra.
      * rewrite LX in M. discriminate.
      * right. split; auto. lra.
      * exfalso. destruct Op as [Op _]. rewrite LX in Op. discriminate.
Qed.
(** A query with a visible guess and a growing radius ends, without an exception, for every box and every point set. *)
Theorem C82_ends b points q qi k r_guess r_max r_min scale excl : points <> [] -> Forall fin3 points -> visible r_guess -> grows scale -> r_max <> B754_nan -> (0 < k)%nat ->
  fpoint_args_ok r_max r_min = true -> fimage_check b fzero = false ->
  (exists l, fnearest b points q qi k r_guess r_max r_min scale excl (Some l)) /\ ~ fnearest b points q qi k r_guess r_max r_min scale excl None.
Proof.
  intros HN HF Hg Hs Hm Hk A C. unfold fnearest. rewrite A. unfold fimages. rewrite C. cbn [andb].
  assert (M : Bleb r_max fzero = false) by (unfold fpoint_args_ok in A; destruct (Bleb r_max fzero); [discriminate|auto]). split.
  - destruct (search_total b points q qi k r_max r_min scale excl HN HF Hs Hm Hk r_guess false M Hg) as (s & H). exists (fdeliver k r_max s), (Some s). split; [exact H|reflexivity].
  - intros (s & H & E). assert (X := search_no_raise b points q qi k r_max r_min scale excl HN HF Hs r_guess false s M Hg H). destruct s; [discriminate|auto].
Qed.

(** * Boxes without tilt *)
Definition triples_of (b : fbox) : list (Z * Z * Z) := (0, 0, 0)%Z :: filter (FaabbProofs2.allowed b) ftriples.
Definition image_at (b : fbox) (t : Z * Z * Z) : fvec := let '(i, j, k) := t in if (Z.eqb i 0 && Z.eqb j 0 && Z.eqb k 0)%bool then fv0 else imv b t.
Definition cell_of (b : fbox) (t : Z * Z * Z) : Prop := let '(i, j, k) := t in neighbour_cell b i j k.
Definition offset (b : fbox) (t : Z * Z * Z) : vec3 := let '(i, j, k) := t in V3 (IZR i * val (fvx (fL b))) (IZR j * val (fvy (fL b))) (IZR k * val (fvz (fL b))).
Lemma cells_map b : cells b = map (image_at b) (triples_of b).
Proof.
  unfold cells. destruct (fimages b fzero false) as [l|] eqn:E; [|discriminate]. apply images_eq in E. rewrite E. unfold triples_of. cbn [map]. change (image_at b (0, 0, 0)%Z) with fv0. f_equal.
  apply map_ext_in. intros [[i j] k] H. apply filter_In in H as [_ H]. apply allowed_cell in H as [N _]. unfold image_at. destruct (Z.eqb_spec i 0), (Z.eqb_spec j 0), (Z.eqb_spec k 0); cbn [andb]; auto. subst. congruence.
Qed.
Lemma triples_nd b : NoDup (triples_of b).
Proof.
  unfold triples_of. constructor.
  - intros H. apply filter_In in H as [_ H]. apply allowed_cell in H as [N _]. congruence.
  - apply List.NoDup_filter. unfold ftriples. simpl. repeat (constructor; [simpl; intuition discriminate|]). constructor.
Qed.
Lemma triples_cell b t : In t (triples_of b) <-> cell_of b t.
Proof.
  destruct t as [[i j] k]. unfold triples_of, cell_of, neighbour_cell. split.
  - intros [E|H].
    + assert (i = 0%Z) by congruence. assert (j = 0%Z) by congruence. assert (k = 0%Z) by congruence. subst. repeat split; try lia; congruence.
    + apply filter_In in H as [H A]. apply ftriples_abs in H as (Hi & Hj & Hk). cbn [fst snd] in *. apply allowed_cell in A as (_ & A). auto.
  - intros ((Hi & Hj & Hk) & A). destruct (Z.eq_dec i 0) as [Zi|Zi], (Z.eq_dec j 0) as [Zj|Zj], (Z.eq_dec k 0) as [Zk|Zk];
      try (right; apply filter_In; split; [apply ftriples_in; auto|apply allowed_cell; split; [congruence|exact A]]). left. subst. reflexivity.
Qed.
Lemma image_offset b t : plain_box b -> cell_of b t -> ordinary_point (image_at b t) /\ rv (image_at b t) = offset b t.
Proof.
  intros PB. destruct t as [[i j] k]. intros ((Hi & Hj & Hk) & Ax & Ay & Az). assert (H2 : k <> 0%Z -> f2d b = false) by (intros N; apply Az; auto). unfold image_at, offset.
  destruct (Z.eqb_spec i 0), (Z.eqb_spec j 0), (Z.eqb_spec k 0); cbn [andb];
    try (split; [apply imv_ordinary; auto|destruct (imv_val b i j k PB Hi Hj Hk H2) as ([_ Ix] & [_ Iy] & [_ Iz]); unfold rv; rewrite Ix, Iy, Iz; reflexivity]).
  subst. split; [assert (P := bpow_gt_0 radix2 60); repeat split; try reflexivity; cbn; rewrite Rabs_R0; lra|]. unfold rv, fv0. cbn [fvx fvy fvz]. vec_ext; cbn; ring.
Qed.
Lemma moved_offset b q i j k : moved b q i j k = (rv (fflat b q) + offset b (i, j, k))%V. Proof. reflexivity. Qed.
(** The computed distance through a cell is accurate. *)
Lemma cell_distance b points q t p : plain_box b -> Forall ordinary_point points -> ordinary_point q -> (p < length points)%nat -> cell_of b t ->
  let D := norm (rv (fflat b (nth p points fv0)) - (rv (fflat b q) + offset b t))%V in let S := norm (rv (fflat b q) + offset b t)%V in
  finite (cdist b points q (image_at b t) p) = true /\ Rabs (val (cdist b points q (image_at b t) p) - D) <= slack D S.
Proof.
  intros PB HO Oq Hp Hc. destruct (image_offset b t PB Hc) as [Oi Vi].
  assert (Op : ordinary_point (fflat b (nth p points fv0))) by (apply flat_ordinary; apply (proj1 (Forall_forall _ _) HO); apply nth_In; auto). assert (Ofq := flat_ordinary b q Oq).
  assert (K := pair_distance _ _ _ Op Ofq Oi). rewrite Vi in K. split; [|exact K]. rewrite dist_finite. apply (pair_finite _ _ _ Op Ofq Oi).
Qed.
Lemma side_spec b : plain_box b -> 0 < side b /\ side b <= val (fvx (fL b)) /\ side b <= val (fvy (fL b)) /\ (f2d b = false -> side b <= val (fvz (fL b))).
Proof.
  intros ((Fx & Lx & _) & (Fy & Ly & _) & PZ & _). assert (P := bpow_gt_0 radix2 (-60)). unfold side. destruct (f2d b).
  - split; [apply Rmin_glb_lt; lra|]. split; [apply Rmin_l|]. split; [apply Rmin_r|discriminate].
  - destruct PZ as (Fz & Lz & _). split; [apply Rmin_glb_lt; [apply Rmin_glb_lt|]; lra|]. split; [eapply Rle_trans; [apply Rmin_l|apply Rmin_l]|]. split; [eapply Rle_trans; [apply Rmin_l|apply Rmin_r]|]. intros _. apply Rmin_r.
Qed.
Lemma comp_le (v : vec3) : Rabs (vx v) <= norm v /\ Rabs (vy v) <= norm v /\ Rabs (vz v) <= norm v.
Proof.
  unfold norm, dot. assert (A := Rle_0_sqr (vx v)). assert (B := Rle_0_sqr (vy v)). assert (C := Rle_0_sqr (vz v)). unfold Rsqr in *.
  assert (G : forall a s, 0 <= s - a * a -> Rabs a <= sqrt s). { intros a s H. rewrite <- (sqrt_Rsqr_abs a). apply sqrt_le_1; unfold Rsqr; [apply Rle_0_sqr| |]; assert (X := Rle_0_sqr a); unfold Rsqr in X; lra. }
  repeat split; apply G; lra.
Qed.
Lemma offset_gap b t t' : plain_box b -> cell_of b t -> cell_of b t' -> t <> t' -> side b <= norm (offset b t - offset b t')%V.
Proof.
  intros PB C C' NE. destruct (side_spec b PB) as (S0 & SX & SY & SZ). destruct t as [[i j] k], t' as [[i' j'] k']. destruct C as (_ & _ & _ & Ck), C' as (_ & _ & _ & Ck').
  destruct (comp_le (offset b (i, j, k) - offset b (i', j', k'))%V) as (CX & CY & CZ). unfold offset in CX, CY, CZ. cbn [vsub vx vy vz] in CX, CY, CZ. fold (offset b (i, j, k)) in *.
  change (norm (V3 (IZR i * val (fvx (fL b))) (IZR j * val (fvy (fL b))) (IZR k * val (fvz (fL b))) - V3 (IZR i' * val (fvx (fL b))) (IZR j' * val (fvy (fL b))) (IZR k' * val (fvz (fL b))))%V) with (norm (offset b (i, j, k) - offset b (i', j', k'))%V) in *.
  assert (G : forall (m n : Z) L N, m <> n -> 0 < L -> Rabs (IZR m * L - IZR n * L) <= N -> L <= N).
  { intros m n L N Hmn HL H. replace (IZR m * L - IZR n * L) with (IZR (m - n) * L) in H by (rewrite minus_IZR; ring). rewrite Rabs_mult, (Rabs_pos_eq L) in H by lra. rewrite <- abs_IZR in H.
    assert (1 <= IZR (Z.abs (m - n))) by (apply (IZR_le 1); lia). assert (1 * L <= IZR (Z.abs (m - n)) * L) by (apply Rmult_le_compat_r; lra). lra. }
  destruct (Z.eq_dec i i') as [Ei|Ei]; [|eapply Rle_trans; [exact SX|]; apply (G i i'); auto; lra].
  destruct (Z.eq_dec j j') as [Ej|Ej]; [|eapply Rle_trans; [exact SY|]; apply (G j j'); auto; lra].
  assert (Ek : k <> k') by congruence. assert (D2 : f2d b = false) by (destruct (Z.eq_dec k 0) as [Z0|Z0]; [apply Ck'; congruence|apply Ck; auto]).
  specialize (SZ D2). eapply Rle_trans; [exact SZ|]. apply (G k k'); auto. lra.
Qed.
Lemma shift_bound b q t : plain_box b -> cell_of b t -> norm (rv (fflat b q) + offset b t)%V <= norm (rv (fflat b q)) + norm (rv (fL b)).
Proof.
  intros PB C. eapply Rle_trans; [apply norm_triangle|]. apply Rplus_le_compat_l. destruct t as [[i j] k]. destruct C as ((Hi & Hj & Hk) & _). unfold norm, dot, offset, rv. cbn [vx vy vz].
  assert (G : forall (m : Z) L, (Z.abs m <= 1)%Z -> IZR m * L * (IZR m * L) <= L * L).
  { intros m L Hm. assert (m = -1 \/ m = 0 \/ m = 1)%Z as [->|[->| ->]] by lia; assert (X := Rle_0_sqr L); unfold Rsqr in X; lra. }
  assert (GX := G i (val (fvx (fL b))) Hi). assert (GY := G j (val (fvy (fL b))) Hj). assert (GZ := G k (val (fvz (fL b))) Hk).
  assert (QX := Rle_0_sqr (IZR i * val (fvx (fL b)))). assert (QY := Rle_0_sqr (IZR j * val (fvy (fL b)))). assert (QZ := Rle_0_sqr (IZR k * val (fvz (fL b)))). unfold Rsqr in *.
  apply sqrt_le_1; lra.
Qed.
(** Two different cells do not both bring a point closer than half the shortest side. *)
Lemma one_close b points q t t' p : plain_box b -> Forall ordinary_point points -> ordinary_point q -> (p < length points)%nat -> cell_of b t -> cell_of b t' ->
  val (cdist b points q (image_at b t) p) < side b / 2 - half_margin b q -> val (cdist b points q (image_at b t') p) < side b / 2 - half_margin b q -> t = t'.
Proof.
  intros PB HO Oq Hp Ct Ct' L L'. assert (DEC : {t = t'} + {t <> t'}) by (repeat decide equality). destruct DEC as [E|NE]; auto. exfalso.
  destruct (cell_distance b points q t p PB HO Oq Hp Ct) as [_ K]. destruct (cell_distance b points q t' p PB HO Oq Hp Ct') as [_ K']. cbv zeta in K, K'.
  assert (G := offset_gap b t t' PB Ct Ct' NE). assert (B := shift_bound b q t PB Ct). assert (B' := shift_bound b q t' PB Ct').
  set (T := (rv (fflat b (nth p points fv0)) - (rv (fflat b q) + offset b t))%V) in *. set (T' := (rv (fflat b (nth p points fv0)) - (rv (fflat b q) + offset b t'))%V) in *.
  assert (TR : norm (offset b t - offset b t')%V <= norm T + norm T').
  { replace (offset b t - offset b t')%V with (T' + (- T))%V by (unfold T, T'; vec_ext; ring). eapply Rle_trans; [apply norm_triangle|]. rewrite norm_vneg. lra. }
  destruct (side_spec b PB) as (S0 & _). apply Rabs_le_inv in K. apply Rabs_le_inv in K'. unfold half_margin in *. unfold slack in *.
  assert (N := norm_nonneg T). assert (N' := norm_nonneg T'). assert (P69 : bpow radix2 (-69) = 2 * bpow radix2 (-70)) by (change (-69)%Z with (1 + -70)%Z; rewrite bpow_plus; reflexivity). assert (P70 := bpow_gt_0 radix2 (-70)).
  assert (NQ := norm_nonneg (rv (fflat b q))). assert (NL := norm_nonneg (rv (fL b))).
  set (nt := norm T) in *. set (nt' := norm T') in *. set (d := val (cdist b points q (image_at b t) p)) in *. set (d' := val (cdist b points q (image_at b t') p)) in *.
  set (ns := norm (rv (fflat b q) + offset b t)%V) in *. set (ns' := norm (rv (fflat b q) + offset b t')%V) in *. set (m := norm (rv (fflat b q))) in *. set (m' := norm (rv (fL b))) in *.
  set (e := bpow radix2 (-70)) in *. set (e9 := bpow radix2 (-69)) in *. set (s := side b) in *. set (o := norm (offset b t - offset b t')%V) in *. clearbody nt nt' d d' ns ns' m m' e e9 s o. unfold u in *. lra.
Qed.
Lemma filter_flat {A B} (f : B -> bool) (g : A -> list B) l : filter f (flat_map g l) = flat_map (fun x => filter f (g x)) l.
Proof. induction l as [|a l IH]; simpl; auto. rewrite filter_app, IH. reflexivity. Qed.
Lemma flat_map_map {A B C} (g : B -> list C) (f : A -> B) l : flat_map g (map f l) = flat_map (fun x => g (f x)) l.
Proof. induction l as [|a l IH]; simpl; auto. rewrite IH. reflexivity. Qed.
Lemma perm_filter {A} (f : A -> bool) (l l' : list A) : Permutation l l' -> Permutation (filter f l) (filter f l').
Proof. induction 1; simpl; auto; repeat destruct (f _); auto; try apply perm_swap. etransitivity; eauto. Qed.
Definition closer (B : R) (x : fbond) : bool := if Rlt_dec (val (fb_d x)) B then true else false.
Lemma closer_lt B x : closer B x = true <-> val (fb_d x) < B. Proof. unfold closer. destruct (Rlt_dec _ _); split; auto; discriminate. Qed.
Lemma brute_once b points q qi r excl : plain_box b -> Forall ordinary_point points -> ordinary_point q ->
  NoDup (map fb_p (filter (closer (side b / 2 - half_margin b q)) (brute_force b points q qi r fzero excl (cells b)))).
Proof.
  intros PB HO Oq. unfold brute_force. rewrite cells_map, flat_map_map, filter_flat, map_flat_map. set (B := side b / 2 - half_margin b q).
  assert (IN : forall t p, In p (map fb_p (filter (closer B) (flat_map (pair_bond b points q qi r fzero excl (image_at b t)) (seq 0 (length points))))) -> (p < length points)%nat /\ val (cdist b points q (image_at b t) p) < B).
  { intros t p H. apply in_map_iff in H as (x & <- & H). apply filter_In in H as [H C]. apply closer_lt in C. apply in_flat_map in H as (j & Hj & H). apply in_seq in Hj. unfold pair_bond in H.
    destruct (excl && (qi =? j)%nat); [destruct H|]. destruct (_ && _); [|destruct H]. destruct H as [<-|[]]. cbn [fb_p fb_d] in *. split; [lia|exact C]. }
  apply NoDup_flat_map; [apply triples_nd| |].
  - intros t _. rewrite filter_flat, map_flat_map. apply NoDup_flat_map; [apply seq_NoDup| |].
    + intros j _. unfold pair_bond. destruct (excl && (qi =? j)%nat); [constructor|]. destruct (_ && _); [|constructor]. cbn [filter]. destruct (closer B _); cbn [map]; [constructor; [intros []|constructor]|constructor].
    + assert (J : forall j x, In x (map fb_p (filter (closer B) (pair_bond b points q qi r fzero excl (image_at b t) j))) -> x = j).
      { intros j x H. apply in_map_iff in H as (y & <- & H). apply filter_In in H as [H _]. unfold pair_bond in H. destruct (excl && (qi =? j)%nat); [destruct H|]. destruct (_ && _); [|destruct H]. destruct H as [<-|[]]. reflexivity. }
      intros j j' x _ _ H H'. rewrite <- (J _ _ H). apply (J _ _ H').
  - intros t t' p Ht Ht' H H'. destruct (IN _ _ H) as [Hp L]. destruct (IN _ _ H') as [_ L']. apply triples_cell in Ht. apply triples_cell in Ht'. eapply one_close; eauto.
Qed.
Lemma filter_length_two (f : fbond -> bool) (l : list fbond) i j : (i < j < length l)%nat -> f (nth i l fbond0) = true -> f (nth j l fbond0) = true -> fb_p (nth i l fbond0) = fb_p (nth j l fbond0) -> ~ NoDup (map fb_p (filter f l)).
Proof.
  revert i j. induction l as [|a l IH]; intros i j Hij Fi Fj E ND; [simpl in Hij; lia|]. destruct j as [|j]; [lia|]. destruct i as [|i].
  - cbn [nth] in Fi, Fj, E. cbn [filter] in ND. rewrite Fi in ND. cbn [map] in ND. inversion_clear ND as [|? ? N _]. apply N. rewrite E. apply in_map. apply filter_In. split; auto. apply nth_In. simpl in Hij. lia.
  - cbn [nth] in Fi, Fj, E. apply (IH i j); auto; [simpl in Hij; lia|]. cbn [filter] in ND. destruct (f a); auto. cbn [map] in ND. inversion_clear ND. auto.
Qed.
(** A point that is returned twice is at half the shortest side, up to rounding: below that, bonds go to different points. *)
Theorem C82_once b points q qi k r_guess r_max r_min scale excl l : points <> [] -> plain_box b -> Forall ordinary_point points -> ordinary_point q -> visible r_guess -> grows scale -> r_max <> B754_nan -> (0 < k)%nat ->
  fnearest b points q qi k r_guess r_max r_min scale excl (Some l) ->
  forall i j, (i < j < length l)%nat -> fb_p (nth i l fbond0) = fb_p (nth j l fbond0) -> side b / 2 - half_margin b q <= val (fb_d (nth j l fbond0)).
Proof.
  intros HN PB HO Oq Hg Hs Hm Hk H i j Hij EP. assert (HF := points_fin _ HO).
  destruct (nearest_outcome _ _ _ _ _ _ _ _ _ _ HN HF Hg Hs Hm Hk l H) as (M & s & O & E).
  destruct (delivered b points q qi k r_max r_min scale excl Hm Hk r_guess s l O E) as (_ & SO & _ & r & S & l' & V & _ & _ & P & OR & _).
  apply Rnot_lt_le. intros L. assert (Li := sorted_nth l SO i j Hij). set (B := side b / 2 - half_margin b q) in *.
  assert (ND : NoDup (map fb_p (filter (closer B) (l ++ l')))).
  { destruct OR as [[ND _]|[_ (found & HB & ES)]].
    - eapply Permutation_NoDup in ND; [|apply Permutation_map, P]. clear - ND. induction (l ++ l') as [|a m IH]; simpl; [constructor|]. inversion_clear ND as [|? ? N ND']. destruct (closer B a); auto. cbn [map]. constructor; auto.
      intros H. apply N. apply in_map_iff in H as (y & <- & H). apply filter_In in H as [H _]. apply in_map. auto.
    - destruct (C78_ball _ _ _ _ _ _ _ _ _ HN HF HB) as [[X _]|(images & f' & _ & EI & X & PF)]; [discriminate|]. assert (f' = found) by congruence. subst f'. apply cells_images in EI. subst images.
      assert (BO := brute_once b points q qi (std_min r r_max) excl PB HO Oq). fold B in BO. apply (Permutation_NoDup (Permutation_map _ (Permutation_sym (perm_filter (closer B) _ _ PF)))) in BO.
      apply (Permutation_NoDup (Permutation_map _ (perm_filter (closer B) _ _ P))). subst S. clear - BO. induction found as [|a m IH]; simpl; [constructor|]. simpl in BO.
      assert (BO' : NoDup (map fb_p (filter (closer B) m))) by (destruct (closer B a); auto; simpl in BO; inversion_clear BO; auto). specialize (IH BO').
      destruct (Bleb r_min (fb_d a)); auto. simpl. destruct (closer B a); auto. simpl in *. inversion_clear BO as [|? ? N _]. constructor; auto. intros H. apply N. apply in_map_iff in H as (y & Ey & H). apply filter_In in H as [H C]. apply filter_In in H as [H _]. rewrite <- Ey. apply in_map. apply filter_In. auto. }
  rewrite filter_app, map_app in ND. apply (filter_length_two (closer B) l i j Hij); auto; [apply closer_lt; lra|apply closer_lt; lra|].
  clear - ND. induction (map fb_p (filter (closer B) l)) as [|a m IH]; [constructor|]. simpl in ND. inversion_clear ND as [|? ? N ND']. constructor; auto. intros X. apply N. apply in_or_app. auto.
Qed.
Lemma argmin {A} (f : A -> R) (l : list A) : l <> [] -> exists a, In a l /\ forall x, In x l -> f a <= f x.
Proof.
  induction l as [|a l IH]; intros H; [congruence|]. destruct l as [|c l]; [exists a; split; [left; auto|]; intros x [<-|[]]; lra|].
  destruct IH as (m & Hm & L); [discriminate|]. destruct (Rle_dec (f a) (f m)) as [X|X].
  - exists a. split; [left; auto|]. intros x [<-|Hx]; [lra|]. specialize (L x Hx). lra.
  - exists m. split; [right; auto|]. intros x [<-|Hx]; [lra|auto].
Qed.
Lemma max_plane_val b : plain_box b -> ordinary_length (fmax_plane b).
Proof.
  intros PB. assert (PV := planes_val b PB). destruct PV as ([F1 V1] & [F2 V2] & [F3 V3']). destruct PB as ((Fx & Lx) & (Fy & Ly) & PZ & _). unfold fmax_plane.
  assert (G : forall x y, ordinary_length x -> ordinary_length y -> ordinary_length (std_max x y)) by (intros x y Ox Oy; unfold std_max; destruct (Bltb x y); auto).
  assert (O1 : ordinary_length (fvx (fplanes b))) by (split; auto; rewrite V1; auto). assert (O2 : ordinary_length (fvy (fplanes b))) by (split; auto; rewrite V2; auto).
  destruct (f2d b); [apply G; auto|]. apply G; [apply G; auto|]. destruct PZ as [_ PZ]. split; [exact F3|]. rewrite V3'. exact PZ.
Qed.
(** Against exact arithmetic: distances are accurate, and a point left out is not closer than the bonds returned if there are [k],
    nor closer than the limits of the search if there are fewer. *)
Theorem C82_accurate b points q qi k r_guess r_max r_min scale excl l : points <> [] -> plain_box b -> Forall ordinary_point points -> ordinary_point q ->
  ordinary_length r_guess -> grows scale -> finite scale = true -> ordinary_limit r_max -> (0 < k)%nat ->
  fnearest b points q qi k r_guess r_max r_min scale excl (Some l) ->
  (forall x, In x l -> exists i1 i2 i3, neighbour_cell b i1 i2 i3 /\
     let D := exact_distance b (nth (fb_p x) points fv0) q i1 i2 i3 in Rabs (val (fb_d x) - D) <= slack D (norm (moved b q i1 i2 i3))) /\
  (forall p, (p < length points)%nat -> ~ (excl = true /\ qi = p) -> clear_of_min b points q r_min p -> forall i1 i2 i3, neighbour_cell b i1 i2 i3 ->
     let D := exact_distance b (nth p points fv0) q i1 i2 i3 in let D' := D + slack D (norm (moved b q i1 i2 i3)) in
     (exists y, In y l /\ fb_p y = p /\ val (fb_d y) <= D') \/ (length l = k /\ forall x, In x l -> val (fb_d x) <= D') \/
     ((length l < k)%nat /\ (reaches (D' * val scale * (1 + 8 * u)) r_max \/ reaches (D' * val scale * (1 + 8 * u)) (fmax_plane b)))).
Proof.
  intros HN PB HO Oq Og Hs Fs Om Hk H. assert (HF := points_fin _ HO). assert (Op := max_plane_val b PB).
  assert (L60 : bpow radix2 (-126) <= bpow radix2 (-60)) by (apply bpow_le; lia). assert (P126 := bpow_gt_0 radix2 (-126)).
  assert (Hg : visible r_guess) by (right; destruct Og as [F L]; split; auto; lra).
  assert (Hm : r_max <> B754_nan) by (intros E; destruct Om as [Om|[Om _]]; rewrite E in Om; discriminate).
  destruct (C82_bonds b points q qi k r_guess r_max r_min scale excl l HN HF Hg Hs Hm Hk H) as (LEN & _ & BO). split.
  - intros x Hx. destruct (BO x Hx) as (_ & _ & _ & _ & im & (Hi & Hp & _) & Ed & _). rewrite cells_map in Hi. apply in_map_iff in Hi as (t & <- & Ht). apply triples_cell in Ht.
    destruct (cell_distance b points q t (fb_p x) PB HO Oq Hp Ht) as [_ K]. destruct t as [[i1 i2] i3]. exists i1, i2, i3. split; [exact Ht|]. rewrite Ed. exact K.
  - intros p Hp EX CM i1 i2 i3 Hc D D'.
    assert (ALL : forall t, cell_of b t -> finite (cdist b points q (image_at b t) p) = true) by (intros t Ct; apply (cell_distance b points q t p PB HO Oq Hp Ct)).
    destruct (argmin (fun t => val (cdist b points q (image_at b t) p)) (triples_of b)) as (t & Ht & MIN); [unfold triples_of; discriminate|]. apply triples_cell in Ht.
    assert (EL : eligible b points qi excl (image_at b t) p) by (split; [rewrite cells_map; apply in_map; apply triples_cell; auto|auto]).
    assert (NC : nearest_cell b points q (image_at b t) p).
    { split; [apply ALL; auto|]. intros im' Hi' _. rewrite cells_map in Hi'. apply in_map_iff in Hi' as (t' & <- & Ht'). apply MIN; auto. }
    assert (AL : at_least (cdist b points q (image_at b t) p) r_min).
    { destruct CM as [FM CM]. apply leb_val; auto. destruct CM as [CM|CM]; [eapply Rle_trans; [exact CM|apply dist_nonneg]|].
      destruct (cell_distance b points q t p PB HO Oq Hp Ht) as [_ K]. destruct t as [[a1 a2] a3]. specialize (CM a1 a2 a3 Ht). cbv zeta in CM, K. unfold exact_distance in CM. rewrite moved_offset in CM. apply Rabs_le_inv in K. lra. }
    assert (DD : val (cdist b points q (image_at b t) p) <= D').
    { specialize (MIN (i1, i2, i3) ltac:(apply triples_cell; exact Hc)). cbv beta in MIN. destruct (cell_distance b points q (i1, i2, i3) p PB HO Oq Hp Hc) as [_ K]. cbv zeta in K. unfold D', D, exact_distance. rewrite moved_offset. apply Rabs_le_inv in K. lra. }
    destruct (Nat.eq_dec (length l) k) as [EK|NK].
    + destruct (C82_closest b points q qi k r_guess r_max r_min scale excl l HN HF Hg Hs Hm Hk H _ p EL NC AL) as [(y & Hy & Py & Vy)|C]; [left; exists y; split; auto; split; auto; lra|].
      right. left. split; auto. intros x Hx. specialize (C x Hx). lra.
    + assert (LK : (length l < k)%nat) by lia.
      destruct (C82_short b points q qi k r_guess r_max r_min scale excl l HN HF Og Hs Fs Om Op Hk H LK _ p EL NC AL) as [(y & Hy & Py & Vy)|C]; [left; exists y; split; auto; split; auto; lra|].
      right. right. split; auto. assert (VS := grows_val scale Hs Fs). assert (P23 := bpow_gt_0 radix2 (-23)). assert (U := u_pos).
      assert (R : val (cdist b points q (image_at b t) p) * val scale * (1 + 8 * u) <= D' * val scale * (1 + 8 * u)) by (apply Rmult_le_compat_r; [lra|apply Rmult_le_compat_r; lra]).
      unfold reaches in *. destruct C as [[F C]|[F C]]; [left|right]; split; auto; lra.
Qed.
(** * Arguments of a query *)
Definition guess_given (cbrt : f32 -> f32) (b : fbox) (n : nat) (a : fargs) : Prop :=
  (fq_guess a = fdefault /\ visible (fdensity_guess cbrt b n (fq_k a))) \/ visible (fq_guess a).
Definition limits_given (a : fargs) : Prop :=
  (fq_rmax a = fdefault /\ finite (fq_rmin a) = true) \/ (visible (fq_rmax a) /\ Bltb (fq_rmin a) (fq_rmax a) = true).
Lemma visible_min x y : visible x -> visible y -> visible (std_min x y). Proof. intros X Y. unfold std_min. destruct (Bltb y x); auto. Qed.
Lemma visible_given x : visible x -> Beqb x fdefault = false.
Proof.
  intros [->|[F L]]; [reflexivity|]. destruct (Beqb x fdefault) eqn:E; auto. rewrite Beqb_correct in E; auto. destruct (is_lit_Z (-1) ltac:(lia)) as [_ V]. unfold fdefault in E. rewrite V in E. apply Req_bool_true_iff in E || (revert E; case Req_bool_spec; [|discriminate]; intros E _). assert (P := bpow_gt_0 radix2 (-126)). lra.
Qed.
Lemma grows_given x : grows x -> Beqb x fdefault = false /\ Bleb x fone = false.
Proof.
  intros G. destruct (finite x) eqn:F; [|rewrite (grows_inf x G F); split; reflexivity]. assert (V := grows_val x G F). assert (P := bpow_gt_0 radix2 (-23)).
  assert (V1 : finite fone = true /\ val fone = 1) by apply (is_lit_Z 1 ltac:(lia)). destruct V1 as [F1 V1]. destruct (is_lit_Z (-1) ltac:(lia)) as [FD VD]. split.
  - destruct (Beqb x fdefault) eqn:E; auto. unfold fdefault in E. rewrite Beqb_correct, VD in E; auto. revert E. case Req_bool_spec; [|discriminate]. intros E _. lra.
  - destruct (Bleb x fone) eqn:E; auto. apply leb_val in E; auto. lra.
Qed.
Lemma half_plane b : plain_box b -> visible (fdiv (fmin_plane b) ftwo).
Proof.
  intros PB. assert (O : ordinary_length (fmin_plane b)).
  { destruct (planes_val b PB) as ([F1 V1] & [F2 V2] & [F3 V3']). destruct PB as ((Fx & Lx) & (Fy & Ly) & PZ & _). unfold fmin_plane.
    assert (G : forall x y, ordinary_length x -> ordinary_length y -> ordinary_length (std_min x y)) by (intros x y Ox Oy; unfold std_min; destruct (Bltb y x); auto).
    assert (O1 : ordinary_length (fvx (fplanes b))) by (split; auto; rewrite V1; auto). assert (O2 : ordinary_length (fvy (fplanes b))) by (split; auto; rewrite V2; auto).
    destruct (f2d b); [apply G; auto|]. apply G; [apply G; auto|]. destruct PZ as [_ PZ]. split; [exact F3|]. rewrite V3'. exact PZ. }
  destruct O as [F [L H]]. destruct (is_lit_Z 2 ltac:(lia)) as [F2 V2]. fold ftwo in F2, V2. right. assert (P60 := bpow_gt_0 radix2 (-60)). assert (P61 : bpow radix2 (-60) = 2 * bpow radix2 (-61)) by (change (-60)%Z with (1 + -61)%Z; rewrite bpow_plus; reflexivity).
  assert (B : bpow radix2 60 <= bpow radix2 127) by (apply bpow_le; lia). assert (B' : bpow radix2 (-126) <= bpow radix2 (-61)) by (apply bpow_le; lia).
  destruct (is_div (fmin_plane b) ftwo) as [FD VD]; auto; [rewrite V2; lra| |].
  - rewrite V2. unfold fits. rewrite Rabs_pos_eq by lra. lra.
  - split; auto. rewrite VD, V2. apply Rle_trans with (bpow radix2 (-61)); [exact B'|]. apply rnd_ge_fmt; [|lra]. apply fmt_bpow; lia.
Qed.
Lemma image_check_zero b : plain_box b -> fimage_check b fzero = false.
Proof.
  intros PB. destruct (planes_val b PB) as ([F1 V1] & [F2 V2] & [F3 V3']). destruct PB as ((Fx & Lx) & (Fy & Ly) & PZ & _). assert (P60 := bpow_gt_0 radix2 (-60)).
  assert (G : forall x, finite x = true -> 0 < val x -> Bleb x (fmul fzero (lit 2 0)) = false).
  { intros x F L. destruct (Bleb x (fmul fzero (lit 2 0))) eqn:E; auto. apply leb_val in E; auto. replace (fmul fzero (lit 2 0)) with fzero in E by (apply B2SF_inj; vm_compute; reflexivity). cbn in E. lra. }
  unfold fimage_check. rewrite (G (fvx (fplanes b))), (G (fvy (fplanes b))); auto; [|rewrite V2; lra|rewrite V1; lra]. rewrite !Bool.andb_false_r. cbn [orb]. destruct (f2d b); [reflexivity|]. cbn [negb andb]. rewrite G; auto; [apply Bool.andb_false_r|]. rewrite V3'. destruct PZ. lra.
Qed.
(** A query in a periodic box without tilt is the iterator with arguments of the kind the other theorems ask for, and it ends. *)
Theorem C82_query cbrt b points q qi a : points <> [] -> Forall fin3 points -> plain_box b -> fpx b = true -> fpy b = true -> fpz b = true -> (0 < fq_k a)%nat ->
  guess_given cbrt b (length points) a -> limits_given a -> fq_scale a = fdefault \/ grows (fq_scale a) ->
  (exists g m s, visible g /\ visible m /\ grows s /\ (s = fq_scale a \/ s = lit 9227469 (-23)) /\ (m = fq_rmax a \/ m = B754_infinity false) /\
     forall res, fquery_nearest cbrt b points q qi a res <-> fnearest b points q qi (fq_k a) g m (fq_rmin a) s (fq_excl a) res) /\
  (exists l, fquery_nearest cbrt b points q qi a (Some l)) /\ ~ fquery_nearest cbrt b points q qi a None.
Proof.
  intros HN HF PB X Y Z Hk Hg Hl Hs.
  assert (S : exists s, grows s /\ (s = fq_scale a \/ s = lit 9227469 (-23)) /\ forall go : f32 -> option fargs, (if Beqb (fq_scale a) fdefault then go (lit 9227469 (-23)) else if Bleb (fq_scale a) fone then None else go (fq_scale a)) = go s).
  { destruct Hs as [E|G].
    - exists (lit 9227469 (-23)). split; [vm_compute; reflexivity|]. split; auto. intros go. rewrite E. replace (Beqb fdefault fdefault) with true by (vm_compute; reflexivity). reflexivity.
    - exists (fq_scale a). split; auto. split; auto. intros go. destruct (grows_given _ G) as [-> ->]. reflexivity. }
  assert (M : exists m, visible m /\ (m = fq_rmax a \/ m = B754_infinity false) /\ fpoint_args_ok m (fq_rmin a) = true /\ (if Beqb (fq_rmax a) fdefault then B754_infinity false else fq_rmax a) = m).
  { destruct Hl as [[E F]|[V L]].
    - exists (B754_infinity false). split; [left; auto|]. split; auto. split; [|rewrite E; replace (Beqb fdefault fdefault) with true by (vm_compute; reflexivity); reflexivity]. unfold fpoint_args_ok. destruct (fq_rmin a); try discriminate; reflexivity.
    - exists (fq_rmax a). split; auto. split; auto. split; [|rewrite visible_given; auto]. unfold fpoint_args_ok. rewrite (visible_pos _ V). cbn [negb andb]. destruct V as [V|[F _]].
      + rewrite V in *. destruct (fq_rmin a) as [|[]| |]; try reflexivity; discriminate.
      + destruct (finite (fq_rmin a)) eqn:FM; [|destruct (fq_rmin a) as [|[]| |]; try discriminate; destruct (fq_rmax a); try discriminate; reflexivity]. apply ltb_val in L; auto. destruct (Bleb (fq_rmax a) (fq_rmin a)) eqn:B; auto. apply leb_val in B; auto. lra. }
  destruct S as (s & GS & ES & S). destruct M as (m & VM & EM & AM & M).
  assert (G : exists g, visible g /\ (if Beqb (fq_guess a) fdefault then std_min (fdensity_guess cbrt b (length points) (fq_k a)) (fdiv (fmin_plane b) ftwo) else fq_guess a) = g).
  { destruct Hg as [[E V]|V]; [|exists (fq_guess a); split; auto; rewrite visible_given; auto]. eexists. rewrite E. replace (Beqb fdefault fdefault) with true by (vm_compute; reflexivity). split; [|reflexivity]. apply visible_min; auto. apply half_plane; auto. }
  destruct G as (g & VG & G).
  assert (EQ : forall res, fquery_nearest cbrt b points q qi a res <-> fnearest b points q qi (fq_k a) (std_min g m) m (fq_rmin a) s (fq_excl a) res).
  { intros res. unfold fquery_nearest, fvalidate. rewrite X, Y, Z. cbn [andb negb]. rewrite M, G. rewrite (S (fun scale => Some (FArgs (fq_k a) m (fq_rmin a) (std_min g m) scale (fq_excl a)))). cbn [fq_k fq_rmax fq_rmin fq_guess fq_scale fq_excl]. reflexivity. }
  assert (VGM := visible_min g m VG VM). split; [exists (std_min g m), m, s; repeat (split; [assumption|]); exact EQ|].
  destruct (C82_ends b points q qi (fq_k a) (std_min g m) m (fq_rmin a) s (fq_excl a) HN HF VGM GS) as ((l & H) & N); auto; [intros E; apply visible_number in VM; subst m; contradiction|apply image_check_zero; auto|].
  split; [exists l; apply EQ; exact H|]. intros E. apply N, EQ, E.
Qed.

(** * Points returned twice *)
(** One ball query that finds enough. *)
Lemma first_ball b points q qi k r scale excl ix : points <> [] -> Forall fin3 points -> visible r -> fimage_check b fzero = false ->
  map indices (brute_force b points q qi (std_min r (B754_infinity false)) fzero excl (fv0 :: map (imv b) (filter (FaabbProofs2.allowed b) ftriples))) = ix -> k = length ix ->
  exists l, fnearest b points q qi k r (B754_infinity false) fzero scale excl (Some l) /\ Permutation (map indices l) ix /\ Permutation l (brute_force b points q qi (std_min r (B754_infinity false)) fzero excl (fv0 :: map (imv b) (filter (FaabbProofs2.allowed b) ftriples))).
Proof.
  intros HN HF Hr HC HB Hk. assert (Hm : Bleb (B754_infinity false) fzero = false) by reflexivity.
  assert (AO : fpoint_args_ok (std_min r (B754_infinity false)) fzero = true).
  { assert (V : visible (std_min r (B754_infinity false))) by (apply visible_min; auto; left; auto). unfold fpoint_args_ok. rewrite (visible_pos _ V). reflexivity. }
  assert (BF : exists found, faabb_ball b points q qi (std_min r (B754_infinity false)) fzero excl false (Some found) /\ Permutation found (brute_force b points q qi (std_min r (B754_infinity false)) fzero excl (fv0 :: map (imv b) (filter (FaabbProofs2.allowed b) ftriples)))).
  { destruct (C78_defined b points q qi (std_min r (B754_infinity false)) fzero excl false HN HF) as (res & H & _).
    destruct (C78_ball _ _ _ _ _ _ _ _ _ HN HF H) as [[_ [E|[E1 E2]]]|(images & l & _ & EI & -> & P)]; [congruence|discriminate|]. exists l. split; auto. apply images_eq in EI. rewrite <- EI. exact P. }
  destruct BF as (found & HF' & PB). assert (P : Permutation (map indices found) ix) by (rewrite <- HB; apply Permutation_map; exact PB).
  assert (FF : forall x, In x found -> finite (fb_d x) = true /\ 0 <= val (fb_d x)) by (intros x Hx; apply (ball_found b points q qi excl HN HF _ _ HF') in Hx; eapply found_finite; eauto).
  assert (EC' : filter (fun x => negb excl || negb (qi =? fb_p x)%nat)%bool found = found).
  { apply filter_all. intros x Hx. apply (ball_found b points q qi excl HN HF _ _ HF') in Hx. destruct Hx as (im & j & (_ & _ & N) & _ & ->); cbn [fb_p]. destruct excl; auto. cbn [negb orb]. destruct (Nat.eqb_spec qi j) as [E|E]; [exfalso; apply N; auto|reflexivity]. }
  assert (EC : fcollect false qi fzero excl found = (found, ([], []))).
  { unfold fcollect. rewrite EC'. f_equal. apply filter_all. intros x Hx. destruct (FF x Hx). apply leb_val; auto. }
  destruct (fsort_exists found) as (s & Hs); [apply Forall_forall; intros x Hx; apply FF; exact Hx|]. exists (fdeliver k (B754_infinity false) s).
  assert (PL : Permutation found s) by apply Hs. assert (LS : length s = k) by (rewrite Hk, <- (Permutation_length P), map_length; symmetry; apply Permutation_length; auto).
  assert (ED : fdeliver k (B754_infinity false) s = s).
  { unfold fdeliver. rewrite firstn_all2 by lia. assert (A : forall x, In x s -> finite (fb_d x) = true) by (intros x Hx; apply FF; eapply Permutation_in; [apply Permutation_sym; exact PL|auto]). clear - A. induction s as [|a s IH]; auto. simpl. replace (Bltb (B754_infinity false) (fb_d a)) with false; [f_equal; apply IH; intros; apply A; right; auto|]. specialize (A a (or_introl eq_refl)). destruct (fb_d a); try discriminate; reflexivity. }
  rewrite ED. split; [|split].
  - unfold fnearest. replace (fpoint_args_ok (B754_infinity false) fzero) with true by reflexivity. unfold fimages. rewrite HC. cbn [andb]. exists (Some s). split; [|cbn [option_map]; rewrite ED; reflexivity].
    apply fs_enough with found found [] []; auto. rewrite (Permutation_length PL). lia.
  - rewrite <- P. apply Permutation_map, Permutation_sym, PL.
  - etransitivity; [apply Permutation_sym; exact PL|exact PB].
Qed.

Lemma lit_exact m e : (Z.abs m < 2 ^ 24)%Z -> (-149 <= e <= 100)%Z -> is (lit m e) (IZR m * bpow radix2 e).
Proof.
  intros Hm He. assert (A : Rabs (IZR m * bpow radix2 e) <= bpow radix2 127).
  { rewrite Rabs_mult, (Rabs_pos_eq (bpow radix2 e)) by apply bpow_ge_0. rewrite <- abs_IZR. apply Rle_trans with (bpow radix2 24 * bpow radix2 e).
    - apply Rmult_le_compat_r; [apply bpow_ge_0|]. change (bpow radix2 24) with (IZR (2 ^ 24)). apply IZR_le. lia.
    - rewrite <- bpow_plus. apply bpow_le. lia. }
  destruct (is_lit m e A) as [F V]. split; auto. rewrite V. apply rnd_fmt. apply (generic_format_FLT radix2 (-149) 24). apply (FLT_spec _ _ _ _ (Float radix2 m e)); [reflexivity|exact Hm|cbn; lia].
Qed.
(** A cubic box of side [10 + 2^-20]; the point is, within rounding, in the middle between the query point and its image. *)
Definition mid_box : fbox := let L := lit 10485761 (-20) in fmk_box L L L fzero fzero fzero false.
Definition mid_points : list fvec := [FV (lit 16777215 (-22)) fzero fzero].
Definition mid_query : fvec := FV (lit (-2097153) (-21)) fzero fzero.
Definition mid_half : f32 := lit 10485761 (-21).
Lemma above (c : f32) : Bltb (lit 7 0) c = true -> Bltb mid_half c = true.
Proof.
  intros H. destruct (finite c) eqn:F.
  - apply ltb_val in H; auto. apply ltb_val; auto. assert (V7 := proj2 (is_lit_Z 7 ltac:(lia))). rewrite V7 in H. assert (X : Bltb mid_half (lit 7 0) = true) by (vm_compute; reflexivity). apply ltb_val in X; auto. rewrite V7 in X. lra.
  - destruct c as [|[]| |]; try discriminate; vm_compute; reflexivity.
Qed.
(** A default query for two neighbours returns the same point twice, both at a distance below half the box. *)
Theorem C82_twice_refuted cbrt : Bltb (lit 7 0) (fdensity_guess cbrt mid_box 1 2) = true ->
  exists l, fquery_nearest cbrt mid_box mid_points mid_query 0 (FArgs 2 fdefault fzero fdefault fdefault false) (Some l) /\ map fb_p l = [0%nat; 0%nat] /\ forall x, In x l -> val (fb_d x) < side mid_box / 2.
Proof.
  intros H. assert (HF : Forall fin3 mid_points) by (apply Forall_cons; [repeat split|apply Forall_nil]).
  assert (Hg : visible mid_half).
  { right. split; [reflexivity|]. assert (X : Bleb (lit 1 0) mid_half = true) by (vm_compute; reflexivity). apply leb_val in X; auto. rewrite (proj2 (is_lit_Z 1 ltac:(lia))) in X. eapply Rle_trans; [|exact X]. change 1 with (bpow radix2 0). apply bpow_le. lia. }
  destruct (first_ball mid_box mid_points mid_query 0 2 mid_half (lit 9227469 (-23)) false [(0, 0); (0, 0)]%nat) as (l & HL & P & PB); auto; try (vm_compute; reflexivity); [discriminate|].
  exists l. assert (E : fquery_nearest cbrt mid_box mid_points mid_query 0 (FArgs 2 fdefault fzero fdefault fdefault false) (Some l)).
  { unfold fquery_nearest. replace (negb (fpx mid_box && fpy mid_box && fpz mid_box)) with false by reflexivity. unfold fvalidate. cbn [fq_k fq_rmax fq_rmin fq_guess fq_scale fq_excl]. replace (Beqb fdefault fdefault) with true by (vm_compute; reflexivity).
    cbn [fq_k fq_rmax fq_rmin fq_guess fq_scale fq_excl]. change (length mid_points) with 1%nat. replace (fdiv (fmin_plane mid_box) ftwo) with mid_half by (apply B2SF_inj; vm_compute; reflexivity).
    unfold std_min at 2. rewrite (above _ H). replace (std_min mid_half (B754_infinity false)) with mid_half by (apply B2SF_inj; vm_compute; reflexivity). exact HL. }
  split; [exact E|]. assert (IX : map indices l = [(0, 0); (0, 0)]%nat).
  { assert (A : forall y, In y (map indices l) -> y = (0, 0)%nat) by (intros y Hy; apply (Permutation_in _ P) in Hy; destruct Hy as [<-|[<-|[]]]; auto). assert (LL := Permutation_length P). destruct (map indices l) as [|x1 [|x2 [|x3 m]]]; try discriminate LL.
    rewrite (A x1 (or_introl eq_refl)), (A x2 (or_intror (or_introl eq_refl))). reflexivity. }
  split; [transitivity (map snd (map indices l)); [rewrite map_map; reflexivity|rewrite IX; reflexivity]|].
  intros x Hx. set (B := brute_force mid_box mid_points mid_query 0 (std_min mid_half (B754_infinity false)) fzero false (fv0 :: map (imv mid_box) (filter (FaabbProofs2.allowed mid_box) ftriples))) in *.
  assert (C : forallb (fun x => Bltb (fb_d x) mid_half && is_finite (fb_d x)) B = true) by (vm_compute; reflexivity). apply (Permutation_in _ PB) in Hx. apply (proj1 (forallb_forall _ _) C) in Hx. apply andb_prop in Hx as [Hx F].
  apply ltb_val in Hx; auto. destruct (lit_exact 10485761 (-21)) as [_ VH]; [lia|lia|]. destruct (lit_exact 10485761 (-20)) as [_ VL]; [lia|lia|]. fold mid_half in VH. rewrite VH in Hx.
  unfold side. change (f2d mid_box) with false. cbn [mid_box fmk_box fL fvx fvy fvz]. rewrite VL. set (v := 10485761 * bpow radix2 (-20)). rewrite !(Rmin_left v v) by lra. unfold v. change (-20)%Z with (1 + -21)%Z. rewrite bpow_plus. change (bpow radix2 1) with 2. lra.
Qed.

(** * Queries that never end *)
Lemma never b points q qi k r_max r_min scale excl (I : f32 -> Prop) : points <> [] -> Forall fin3 points -> (0 < k)%nat ->
  (forall r, I r -> fpoint_args_ok (std_min r r_max) fzero = true /\ length (brute_force b points q qi (std_min r r_max) fzero excl (fv0 :: map (imv b) (filter (FaabbProofs2.allowed b) ftriples))) = 0%nat /\
     (Bleb r_max (fmul r scale) || Bleb (fmax_plane b) (fmul r scale))%bool = false /\ I (fmul r scale)) ->
  forall ext r res, fsearch b points q qi k r_max r_min scale excl ext r res -> I r -> False.
Proof.
  intros HN HF Hk HI ext r res H. 
  assert (E : forall r found, I r -> faabb_ball b points q qi (std_min r r_max) fzero excl false (Some found) -> found = []).
  { intros r' found Hr HB. destruct (HI r' Hr) as (_ & L & _). destruct (C78_ball _ _ _ _ _ _ _ _ _ HN HF HB) as [[X _]|(images & f' & _ & EI & X & P)]; [discriminate|]. assert (f' = found) by congruence. subst f'. apply images_eq in EI. rewrite <- EI in L. apply Permutation_length in P. rewrite L in P. destruct found; [auto|discriminate]. }
  assert (C : forall ext, fcollect ext qi r_min excl [] = ([], ([], []))) by (intros []; reflexivity).
  induction H as [ext r HB|ext r found cur m below s HB HC HL HS|ext r found cur m below s HB HC HL HT HS|ext r found cur m below res HB HC HL HT HR IH]; intros Hr.
  - destruct (HI r Hr) as (A & _). destruct (C78_ball _ _ _ _ _ _ _ _ _ HN HF HB) as [[_ [X|[X _]]]|(images & f' & _ & _ & X & _)]; congruence.
  - apply E in HB; auto. subst found. rewrite C in HC. assert (cur = []) by congruence. subst cur. simpl in HL. lia.
  - apply E in HB; auto. subst found. rewrite C in HC. assert (m = []) by congruence. subst m. destruct (HI r Hr) as (_ & _ & T & _). rewrite T in HT. cbn [orb length] in HT. apply Nat.leb_le in HT. lia.
  - apply IH. apply (HI r Hr).
Qed.
Definition lone : list fvec := [FV (lit 2 0) fzero fzero].
(** A guess so small that the growth is lost in rounding: the query does not end. *)
Theorem C82_stuck_refuted cbrt : let a := FArgs 1 fdefault fzero (lit 1 (-149)) fdefault false in
  Bltb fzero (fq_guess a) = true /\ forall res, ~ fquery_nearest cbrt edge_box lone fv0 0 a res.
Proof.
  intros a. split; [vm_compute; reflexivity|]. intros res H. unfold fquery_nearest in H. replace (negb (fpx edge_box && fpy edge_box && fpz edge_box)) with false in H by reflexivity. unfold fvalidate in H. cbn [a fq_k fq_rmax fq_rmin fq_guess fq_scale fq_excl] in H.
  replace (Beqb fdefault fdefault) with true in H by (vm_compute; reflexivity). replace (Beqb (lit 1 (-149)) fdefault) with false in H by (vm_compute; reflexivity). cbn [fq_k fq_rmax fq_rmin fq_guess fq_scale fq_excl] in H.
  replace (std_min (lit 1 (-149)) (B754_infinity false)) with (lit 1 (-149) : f32) in H by (apply B2SF_inj; vm_compute; reflexivity).
  unfold fnearest in H. replace (fpoint_args_ok (B754_infinity false) fzero) with true in H by reflexivity. unfold fimages in H. replace (true && fimage_check edge_box fzero)%bool with false in H by (vm_compute; reflexivity). destruct H as (s & H & _).
  refine (never edge_box lone fv0 0 1 (B754_infinity false) fzero (lit 9227469 (-23)) false (fun r => r = lit 1 (-149)) _ _ _ _ _ _ _ H eq_refl); [discriminate|apply Forall_cons; [repeat split|apply Forall_nil]|lia|].
  intros r ->. split; [vm_compute; reflexivity|]. split; [vm_compute; reflexivity|]. split; [vm_compute; reflexivity|]. apply B2SF_inj. vm_compute. reflexivity.
Qed.
(** A scale that is not a number passes the test that it be greater than one, and the query does not end. *)
Theorem C82_nan_scale_refuted cbrt : let a := FArgs 1 fdefault fzero (lit 1 0) B754_nan false in
  fvalidate cbrt edge_box 1 a <> None /\ forall res, ~ fquery_nearest cbrt edge_box lone fv0 0 a res.
Proof.
  intros a. split; [unfold fvalidate; cbn [a fq_scale]; discriminate|]. intros res H. unfold fquery_nearest in H. replace (negb (fpx edge_box && fpy edge_box && fpz edge_box)) with false in H by reflexivity. unfold fvalidate in H. cbn [a fq_k fq_rmax fq_rmin fq_guess fq_scale fq_excl] in H.
  replace (Beqb fdefault fdefault) with true in H by (vm_compute; reflexivity). replace (Beqb (lit 1 0) fdefault) with false in H by (vm_compute; reflexivity). replace (Beqb (B754_nan : f32) fdefault) with false in H by (vm_compute; reflexivity). replace (Bleb (B754_nan : f32) fone) with false in H by (vm_compute; reflexivity). cbn [fq_k fq_rmax fq_rmin fq_guess fq_scale fq_excl] in H.
  replace (std_min (lit 1 0) (B754_infinity false)) with (lit 1 0 : f32) in H by (apply B2SF_inj; vm_compute; reflexivity).
  unfold fnearest in H. replace (fpoint_args_ok (B754_infinity false) fzero) with true in H by reflexivity. unfold fimages in H. replace (true && fimage_check edge_box fzero)%bool with false in H by (vm_compute; reflexivity). destruct H as (s & H & _).
  refine (never edge_box lone fv0 0 1 (B754_infinity false) fzero B754_nan false (fun r => r = lit 1 0 \/ r = B754_nan) _ _ _ _ _ _ _ H (or_introl eq_refl)); [discriminate|apply Forall_cons; [repeat split|apply Forall_nil]|lia|].
  intros r [->| ->]; (split; [vm_compute; reflexivity|]); (split; [vm_compute; reflexivity|]); (split; [vm_compute; reflexivity|]); right; apply B2SF_inj; vm_compute; reflexivity.
Qed.

(** Hypotheses of [C82_accurate] (and so of the others): two neighbours, one of them across a boundary. *)
Definition trio : list fvec := [FV (lit 4 0) fzero fzero; FV (lit (-4) 0) fzero fzero; FV (lit 4 0) (lit 3 0) fzero].
Example C82_case : trio <> [] /\ plain_box edge_box /\ Forall ordinary_point trio /\ ordinary_point (nth 0 trio fv0) /\ ordinary_length (lit 4 0) /\ grows (lit 9227469 (-23)) /\ ordinary_limit (B754_infinity false) /\
  (forall p, clear_of_min edge_box trio (nth 0 trio fv0) fzero p) /\
  exists l, fnearest edge_box trio (nth 0 trio fv0) 0 2 (lit 4 0) (B754_infinity false) fzero (lit 9227469 (-23)) true (Some l) /\ Permutation (map indices l) [(0, 2); (0, 1)]%nat.
Proof.
  assert (OT : Forall ordinary_point trio).
  { apply Forall_cons; [split; [apply lit_coord; lia|split; apply zero_coord]|]. apply Forall_cons; [split; [apply lit_coord; lia|split; apply zero_coord]|]. apply Forall_cons; [split; [apply lit_coord; lia|split; [apply lit_coord; lia|apply zero_coord]]|apply Forall_nil]. }
  split; [discriminate|]. split; [split; [apply lit_length; lia|split; [apply lit_length; lia|split; [apply lit_length; lia|repeat split; reflexivity]]]|]. split; [exact OT|]. split; [split; [apply lit_coord; lia|split; apply zero_coord]|].
  assert (O4 : ordinary_length (lit 4 0)) by (apply lit_length; lia). split; [exact O4|]. split; [vm_compute; reflexivity|]. split; [left; reflexivity|]. split; [intros p; split; [reflexivity|left; cbn; lra]|].
  assert (V : visible (lit 4 0)). { right. destruct O4 as [F [L _]]. split; [exact F|]. eapply Rle_trans; [|exact L]. apply bpow_le. lia. }
  destruct (first_ball edge_box trio (nth 0 trio fv0) 0 2 (lit 4 0) (lit 9227469 (-23)) true [(0, 2); (0, 1)]%nat) as (l & H & P & _); [discriminate|apply points_fin; exact OT|exact V|vm_compute; reflexivity|vm_compute; reflexivity|reflexivity|].
  exists l. split; [exact H|exact P].
Qed.
(** Hypotheses of [C82_query] and [C82_twice_refuted]. *)
Example C82_query_case : guess_given (fun _ => lit 8 0) edge_box 3 (FArgs 2 fdefault fzero fdefault fdefault true) /\ limits_given (FArgs 2 fdefault fzero fdefault fdefault true) /\ Bltb (lit 7 0) (fdensity_guess (fun _ => lit 8 0) mid_box 1 2) = true.
Proof.
  split; [left; split; [reflexivity|]|split; [left; split; reflexivity|vm_compute; reflexivity]]. right. destruct (lit_length 8 ltac:(lia)) as [F [L _]]. split; [exact F|]. eapply Rle_trans; [|exact L]. apply bpow_le. lia.
Qed.

Print Assumptions C82_bonds.
Print Assumptions C82_closest.
Print Assumptions C82_short.
Print Assumptions C82_ends.
Print Assumptions C82_once.
Print Assumptions C82_accurate.
Print Assumptions C82_query.
Print Assumptions C82_twice_refuted.
Print Assumptions C82_stuck_refuted.
Print Assumptions C82_nan_scale_refuted.
