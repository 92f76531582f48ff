(** C86: the ready-made unit cells are the crystals they are named after. *)
From Verif Require Import BoxProofs BoxProofs2 BoxProps MatchEnvProofs AABBProofs2 AABBProps UnitCellProps PresetProofs PresetProofs2.
From Coq Require Import Reals ZArith List Lra Lia Bool Permutation.
From Verif Require Import RBase AABBModel QuerySpec PresetSpec.
Import ListNotations.
Open Scope R_scope.

(** The infinite crystal of each named cell is the structure of that name. *)
Theorem C86_structure x : exists b basis, preset x = Some (b, basis) /\ positive b /\ fully_periodic b /\ forall p, crystal b basis p <-> structure x p.
Proof.
  exists (preset_box x), (preset_basis x). split; [apply preset_value|]. split; [apply preset_positive|]. split; [destruct x; repeat split|]. apply preset_points.
Qed.
(** The points of a system generated from any cell, with their periodic images, are that crystal, magnified and moved as a whole. *)
Theorem C86_system b basis r scale n bx pts : positive b -> requests b r n -> uc_generate b basis r scale None = Some (bx, pts) ->
  exists D, forall p, periodic_point bx pts p <-> exists c, crystal b basis c /\ p = vscale scale (vadd c D).
Proof. intros Hb Rq E. exact (crystal_points b basis r scale n bx pts Hb Rq E). Qed.
(** In every system generated from a named cell each particle has the nearest neighbours of the structure. *)
Theorem C86_coordination x b basis r scale n bx pts : preset x = Some (b, basis) -> requests b r n -> uc_generate b basis r scale None = Some (bx, pts) ->
  coordination bx pts (neighbours_of x) (scale * sqrt (nearest_square x)) (scale * sqrt (second_square x)).
Proof.
  intros E Rq G. rewrite preset_value in E. assert (EB : preset_box x = b) by congruence. assert (ES : preset_basis x = basis) by congruence. subst b basis. exact (coordinated _ _ r scale n bx pts (preset_positive x) Rq G _ _ _ (preset_shell x)).
Qed.
(** The number of points per volume (area in two dimensions). *)
Theorem C86_density x b basis r scale n bx pts : preset x = Some (b, basis) -> requests b r n -> uc_generate b basis r scale None = Some (bx, pts) ->
  INR (length pts) = density_of x * (volume bx / (if b_2d b then scale ^ 2 else scale ^ 3)).
Proof.
  intros E Rq G. rewrite preset_value in E. assert (EB : preset_box x = b) by congruence. assert (ES : preset_basis x = basis) by congruence. subst b basis.
  assert (HN : forall i, in_space (preset_box x) (moved None i)) by (intros i X; reflexivity). assert (Hb := preset_positive x). destruct (C64_count _ _ _ _ _ Hb HN n bx pts Rq G) as [C1 C2]. assert (SC := C64_box _ _ _ _ _ Hb HN n bx pts Rq G).
  destruct (generate_some _ _ _ _ _ Hb HN n bx pts Rq G) as (S & _). rewrite C1, mult_INR. rewrite (INR_IZR_INZ (length (cells n))). destruct n as [[nx ny] nz]. rewrite C2, !mult_IZR.
  assert (S3 := s3_pos). assert (S2 := s3_sq). destruct SC as (L1 & L2 & L3 & _ & _ & _ & D & _). unfold volume. rewrite D, L1, L2.
  destruct x; cbn [preset_box preset_basis density_of length] in *; cbn [INR]; try rewrite (L3 eq_refl); cbn; try (field; lra).
  - assert (S8 := s83_pos). assert (E2 : sqrt 2 * (sqrt 3 / 2 * sqrt (8 / 3)) = 2).
    { replace (sqrt 2 * (sqrt 3 / 2 * sqrt (8 / 3))) with (sqrt 2 * sqrt 3 * sqrt (8 / 3) / 2) by field. rewrite <- !sqrt_mult by lra. replace (2 * 3 * (8 / 3)) with (4 * 4) by field. rewrite sqrt_square by lra. field. }
    transitivity (sqrt 2 * (sqrt 3 / 2 * sqrt (8 / 3)) * (IZR nx * IZR ny * IZR nz)); [rewrite E2; ring|field; lra].
  - destruct Rq as (_ & Q & _). rewrite (Q eq_refl). field. lra.
  - destruct Rq as (_ & Q & _). rewrite (Q eq_refl). field. lra.
  - destruct Rq as (_ & Q & _). rewrite (Q eq_refl). field. lra.
Qed.
Lemma cancel p a a' c : vsub (vadd p a) c = vsub (vadd p a') c -> a = a'.
Proof. intros E. assert (X := f_equal vx E). assert (Y := f_equal vy E). assert (W := f_equal vz E). cbn [vsub vadd vx vy vz] in X, Y, W. apply vec_eq; lra. Qed.
(** A ball query between the first two shells returns for every particle exactly its nearest neighbours. *)
Theorem C86_query x b basis r scale n bx pts m r_max l : preset x = Some (b, basis) -> requests b r n -> uc_generate b basis r scale None = Some (bx, pts) -> (m < length pts)%nat ->
  scale * sqrt (nearest_square x) < r_max <= scale * sqrt (second_square x) -> radius_ok bx r_max ->
  aabb_ball bx pts (nth m pts v0) m r_max 0 true true (Some l) ->
  length l = neighbours_of x /\ forall y, In y l -> bq y = m /\ (bp y < length pts)%nat /\ bp y <> m /\ bd y = scale * sqrt (nearest_square x).
Proof.
  intros E Rq G Hm [R1 R2] RO AQ. destruct (C86_coordination x b basis r scale n bx pts E Rq G m Hm) as (lc & ND & LE & IN & EQ).
  rewrite preset_value in E. assert (EB : preset_box x = b) by congruence. assert (ES : preset_basis x = basis) by congruence. subst b basis.
  assert (HN : forall i, in_space (preset_box x) (moved None i)) by (intros i X; reflexivity). assert (Hb := preset_positive x).
  destruct (C64_points _ _ _ _ _ Hb HN n bx pts Rq G) as [IC _]. destruct (generate_some _ _ _ _ _ Hb HN n bx pts Rq G) as (S & EBX & _). assert (PB : positive bx) by (rewrite EBX; apply mul_positive; [exact Hb|apply (requests_pos _ _ _ Rq)|exact S]).
  assert (SC := C64_box _ _ _ _ _ Hb HN n bx pts Rq G). assert (FP : fully_periodic bx) by (destruct n as [[nx ny] nz]; apply SC). destruct FP as (F1 & F2 & F3).
  assert (FL : forall p, In p pts -> flat bx p = p).
  { intros p Hp. destruct (IC p Hp) as (s & t & u & -> & _). unfold flat. destruct (b_2d bx) eqn:D; [|reflexivity]. destruct (proj1 PB) as (_ & _ & _ & Z0 & _). unfold cell_point, comb, a1, a2, a3. rewrite (Z0 D). apply vec_eq; cbn [vadd vscale vx vy vz]; ring. }
  assert (CL : forall p, In p pts -> QuerySpec.in_cell bx (flat bx p)).
  { intros p Hp. rewrite (FL p Hp). destruct (IC p Hp) as (s & t & u & -> & H1 & H2 & H3). exists s, t, u. split; [reflexivity|]. repeat split; intros; try lra; specialize (H3 ltac:(assumption)); lra. }
  assert (Im := nth_In pts v0 Hm). destruct (C29_ball_brute_force bx pts (nth m pts v0) m r_max 0 true l PB (Rle_refl 0) CL (CL _ Im) AQ) as [NL IL].
  assert (D0 : 0 <= scale * sqrt (nearest_square x)) by (apply Rmult_le_pos; [lra|apply sqrt_pos]).
  (* a periodic image of the particle itself is too far away *)
  assert (SELF : forall i j k, In (m, (i, j, k)) lc -> False).
  { intros i j k H. assert (EN := EQ _ H). apply IN in H. destruct H as (_ & AL & NE & _). unfold seen_from in EN. replace (vsub (vadd (nth m pts v0) (shift bx i j k)) (nth m pts v0)) with (shift bx i j k) in EN by (apply vec_eq; cbn [vsub vadd vx vy vz]; ring).
    destruct (C07_plane_distance_bound bx (IZR i) (IZR j) (IZR k) PB) as (B1 & B2 & B3). fold (shift bx i j k) in B1, B2, B3. rewrite EN in B1, B2, B3. destruct RO as (O1 & O2 & O3). specialize (O1 F1). specialize (O2 F2).
    assert (ABS : forall t : Z, t <> 0%Z -> 1 <= Rabs (IZR t)) by (intros t Ht; rewrite <- abs_IZR; apply IZR_le; lia).
    destruct (Z.eq_dec i 0) as [->|NI]; [|assert (A := ABS i NI); nra]. destruct (Z.eq_dec j 0) as [->|NJ]; [|assert (A := ABS j NJ); nra]. destruct (Z.eq_dec k 0) as [->|NK]; [apply NE; reflexivity|].
    destruct (b_2d bx) eqn:D; [destruct AL as (_ & _ & _ & AL); apply NK, AL; exact D|]. specialize (B3 eq_refl). specialize (O3 eq_refl F3). assert (A := ABS k NK). nra. }
  set (f := fun y : nat * (Z * Z * Z) => Bond m (fst y) (norm (seen_from bx pts m y)) 1 (seen_from bx pts m y)).
  assert (SEP : forall j i1 i2 i3, (j < length pts)%nat -> sep bx pts (nth m pts v0) j i1 i2 i3 = seen_from bx pts m (j, (- i1, - i2, - i3)%Z)).
  { intros j i1 i2 i3 Hj. unfold sep, seen_from. rewrite (FL _ Im), (FL _ (nth_In pts v0 Hj)). unfold shift. rewrite !opp_IZR. unfold comb. apply vec_eq; cbn [vsub vadd vscale vx vy vz]; ring. }
  assert (AOP : forall i j k, allowed bx i j k -> allowed bx (- i) (- j) (- k)) by (intros i j k (A1 & A2 & A3 & A4); unfold allowed; repeat split; intros H; [rewrite (A1 H)|rewrite (A2 H)|rewrite (A3 H)|rewrite (A4 H)]; reflexivity).
  assert (SAME : forall y, In y l <-> In y (map f lc)).
  { intros y. rewrite IL, in_map_iff. split.
    - intros (j & i1 & i2 & i3 & Hj & AL & _ & NX & [_ DX] & ->). rewrite SEP in * by exact Hj. exists (j, (- i1, - i2, - i3)%Z). split; [reflexivity|]. apply IN. split; [exact Hj|]. split; [apply AOP; exact AL|]. split; [intros Y; apply NX; split; [reflexivity|congruence]|]. lra.
    - intros ([j [[i1 i2] i3]] & <- & Hy). assert (EN := EQ _ Hy). assert (NM : j <> m) by (intros ->; exact (SELF _ _ _ Hy)). apply IN in Hy. destruct Hy as (Hj & AL & _ & _). exists j, (- i1)%Z, (- i2)%Z, (- i3)%Z.
      split; [exact Hj|]. split; [apply AOP; exact AL|]. split; [exact I|]. split; [intros [_ Y]; apply NM; symmetry; exact Y|]. rewrite SEP, !Z.opp_involutive by exact Hj. split; [rewrite EN; lra|reflexivity]. }
  assert (NF : NoDup (map f lc)).
  { apply inj_NoDup; [|exact ND]. intros [j [[i1 i2] i3]] [j' [[i1' i2'] i3']] H H' EF. assert (EJ : j = j') by (apply (f_equal bp) in EF; exact EF). assert (EV : seen_from bx pts m (j, (i1, i2, i3)) = seen_from bx pts m (j', (i1', i2', i3'))) by (apply (f_equal bv) in EF; exact EF). subst j'.
    apply IN in H, H'. destruct H as (_ & A & _). destruct H' as (_ & A' & _). unfold seen_from in EV. apply cancel in EV. rename EV into ESH. apply (AABBProofs2.shift_inj bx) in ESH; try assumption; [|apply PB]. rewrite ESH. reflexivity. }
  split.
  - rewrite <- LE, <- (map_length f lc). apply Permutation_length, NoDup_Permutation; assumption.
  - intros y Hy. apply SAME, in_map_iff in Hy as ([j [[i1 i2] i3]] & <- & Hy). unfold f. cbn [bq bp bd fst]. split; [reflexivity|]. assert (EN := EQ _ Hy). split; [apply IN in Hy; apply Hy|]. split; [intros ->; exact (SELF _ _ _ Hy)|exact EN].
Qed.
(** Cells with parameters: the lattice vectors are what was asked for, or ValueError is raised. *)
Theorem C86_rectangular aspect centered : (uc_rectangular aspect centered = None <-> aspect = 0) /\
  forall b basis, uc_rectangular aspect centered = Some (b, basis) -> b_2d b = true /\ fully_periodic b /\ a1 b = V3 1 0 0 /\ a2 b = V3 0 aspect 0 /\
    forall p, crystal b basis p <-> exists i j : Z, p = V3 (IZR i) (aspect * IZR j) 0 \/ (centered = true /\ p = V3 (IZR i + 1 / 2) (aspect * (IZR j + 1 / 2)) 0).
Proof.
  unfold uc_rectangular. destruct (Req_dec aspect 0) as [->|N]; [rewrite list2_none; split; [split; auto|discriminate]|]. rewrite list2 by lra. split; [split; [discriminate|contradiction]|]. intros b basis E. assert (EB : rect aspect = b) by (unfold rect; congruence). assert (ES : (V3 0 0 0 :: if centered then [V3 (1 / 2) (1 / 2) 0] else []) = basis) by congruence. subst b basis. clear E.
  split; [reflexivity|]. split; [repeat split|]. split; [reflexivity|]. split; [unfold a2, rect, mk_box; apply vec_eq; cbn; ring|]. intros p. split.
  - intros (f & i & j & k & [<-|I] & _ & ->); rewrite rect_comb; exists i, j.
    + left. apply vec_eq; cbn [vx vy vz]; ring.
    + right. destruct centered; [|destruct I]. destruct I as [<-|[]]. split; [reflexivity|]. apply vec_eq; cbn [vx vy vz]; ring.
  - intros (i & j & [->|[-> ->]]).
    + exists (V3 0 0 0), i, j, 0%Z. split; [left; reflexivity|]. split; [reflexivity|]. rewrite rect_comb. apply vec_eq; cbn [vx vy vz]; ring.
    + exists (V3 (1 / 2) (1 / 2) 0), i, j, 0%Z. split; [right; left; reflexivity|]. split; [reflexivity|]. rewrite rect_comb. apply vec_eq; cbn [vx vy vz]; ring.
Qed.
Theorem C86_oblique aspect theta : (uc_oblique aspect theta = None <-> theta <= 0 \/ 180 <= theta \/ aspect = 0) /\
  forall b basis, uc_oblique aspect theta = Some (b, basis) -> b_2d b = true /\ fully_periodic b /\ basis = [v0] /\ a1 b = V3 1 0 0 /\ norm (a2 b) = Rabs aspect /\
    dot (a1 b) (a2 b) = aspect * cos (theta * PI / 180) /\ 0 < vy (a2 b).
Proof.
  assert (P := PI_RGT_0). unfold uc_oblique. fold (deg2rad theta). assert (DR : 0 < theta < 180 <-> 0 < deg2rad theta < PI).
  { unfold deg2rad. split; intros [A B]; split; nra. }
  destruct (Rle_lt_dec theta 0) as [T|T]; [rewrite angles_none by (left; unfold deg2rad; nra); split; [tauto|discriminate]|]. destruct (Rle_lt_dec 180 theta) as [T'|T']; [rewrite angles_none by (right; unfold deg2rad; nra); split; [tauto|discriminate]|].
  assert (G : 0 < deg2rad theta < PI) by (apply DR; lra). set (g := deg2rad theta) in *. assert (SG : 0 < sin g) by (apply sin_gt_0; apply G). destruct (Req_dec aspect 0) as [->|N].
  - assert (E : from_lengths_and_angles 1 0 0 (PI / 2) (PI / 2) g None = None).
    { unfold from_lengths_and_angles. destruct (_ || _); [reflexivity|]. destruct (Rltb _ 0); [reflexivity|]. unfold from_matrix, dot, cross. cbn [vx vy vz]. unfold py_box.
      replace (sqrt (0 * cos g * (0 * cos g) + 0 * sin g * (0 * sin g) + 0 * 0 - _)) with 0.
      2:{ replace (1 * 1 + 0 * 0 + 0 * 0) with 1 by ring. rewrite sqrt_1. match goal with |- _ = sqrt ?x => replace x with 0 by field end. rewrite sqrt_0. reflexivity. }
      destruct (Reqb_spec 0 0) as [_|X]; [|contradiction]. cbn [Nat.eqb]. rewrite !orb_true_r. reflexivity. }
    rewrite E. split; [tauto|discriminate].
  - assert (NP : 0 < Rabs aspect) by (apply Rabs_pos_lt; exact N). rewrite angles_spec by assumption. replace (0 * (aspect / Rabs aspect)) with 0 by (field; lra). assert (LY : 0 < Rabs aspect * sin g) by (apply Rmult_lt_0_compat; assumption).
    set (Ly := Rabs aspect * sin g) in *. unfold py_box. destruct (Reqb_spec 0 0) as [_|X]; [|contradiction]. destruct (Reqb_spec 1 0); [lra|]. destruct (Reqb_spec Ly 0); [lra|]. cbn [orb]. rewrite again by (lra || discriminate).
    split; [split; [discriminate|intros [|[|]]; lra || contradiction]|]. intros b basis E. assert (EB : mk_box 1 Ly 0 (aspect * cos g / Ly) 0 0 true = b) by congruence. assert (ES : [V3 0 0 0] = basis) by congruence. subst b basis. clear E.
    split; [reflexivity|]. split; [repeat split|]. split; [reflexivity|]. split; [reflexivity|]. change (a1 (mk_box 1 Ly 0 (aspect * cos g / Ly) 0 0 true)) with (V3 1 0 0). change (a2 (mk_box 1 Ly 0 (aspect * cos g / Ly) 0 0 true)) with (V3 (aspect * cos g / Ly * Ly) Ly 0).
    replace (aspect * cos g / Ly * Ly) with (aspect * cos g) by (field; lra). split; [|split; [unfold dot; cbn [vx vy vz]; fold g; unfold g, deg2rad; ring|exact LY]].
    unfold norm, dot. cbn [vx vy vz]. rewrite <- sqrt_Rsqr_abs. f_equal. unfold Ly, Rsqr. assert (Q := sin2_cos2 g). unfold Rsqr in Q. assert (RA : Rabs aspect * Rabs aspect = aspect * aspect) by (rewrite <- Rabs_mult; apply Rabs_right; nra).
    transitivity (aspect * aspect * (cos g * cos g) + (Rabs aspect * Rabs aspect) * (sin g * sin g)); [ring|]. rewrite RA. transitivity (aspect * aspect * (sin g * sin g + cos g * cos g)); [ring|rewrite Q; ring].
Qed.
(** Random systems: any numbers of [0, 1) give points of the half-open box, which wrapping leaves alone; in two dimensions in the plane. *)
Theorem C86_random L sample is2D : (random_system L sample is2D = None <-> L = 0) /\
  forall b pts, random_system L sample is2D = Some (b, pts) -> 0 < L -> (forall f, In f sample -> 0 <= vx f < 1 /\ 0 <= vy f < 1 /\ 0 <= vz f < 1) ->
    box_shape b L L L 0 0 0 is2D /\ length pts = length sample /\
    (forall p, In p pts -> UnitCellSpec.in_cell b p /\ wrap b p = p /\ (is2D = true -> vz p = 0)) /\
    forall i, (i < length sample)%nat -> vx (nth i pts v0) = L * (vx (nth i sample v0) - 1 / 2) /\ vy (nth i pts v0) = L * (vy (nth i sample v0) - 1 / 2) /\ (is2D = false -> vz (nth i pts v0) = L * (vz (nth i sample v0) - 1 / 2)).
Proof.
  unfold random_system, py_box. split.
  - destruct is2D; destruct (Reqb_spec L 0) as [->|N]; cbn [orb]; split; intros H; try reflexivity; try discriminate; contradiction.
  - intros b pts E HL HF. set (rows := if is2D then map (fun f => V3 (vx f) (vy f) 0) sample else sample) in *.
    assert (EB : b = mk_box L L (if is2D then 0 else L) 0 0 0 is2D /\ pts = map (make_absolute b) rows).
    { destruct is2D; destruct (Reqb_spec L 0); try lra; cbn [orb] in E; split; congruence. }
    clear E. destruct EB as [EB EP]. assert (PB : positive b) by (rewrite EB; apply mk_box_positive; try lra; destruct is2D; [discriminate|lra]). assert (D : b_2d b = is2D) by (rewrite EB; reflexivity).
    assert (RR : forall f, In f rows -> 0 <= vx f < 1 /\ 0 <= vy f < 1 /\ (is2D = false -> 0 <= vz f < 1)).
    { intros f Hf. unfold rows in Hf. destruct is2D; [|destruct (HF f Hf) as (? & ? & ?); auto]. apply in_map_iff in Hf as (f0 & <- & Hf). destruct (HF f0 Hf) as (? & ? & ?). cbn [vx vy vz]. repeat split; try tauto; discriminate. }
    assert (LR : length rows = length sample) by (unfold rows; destruct is2D; [apply map_length|reflexivity]).
    split; [rewrite EB; unfold box_shape; destruct is2D; repeat split; discriminate|]. split; [rewrite EP, map_length; exact LR|]. split.
    + intros p Hp. rewrite EP in Hp. apply in_map_iff in Hp as (f & <- & Hf). destruct (RR f Hf) as (H1 & H2 & H3). rewrite (make_absolute_cell b f (proj1 PB)). split; [exists (vx f), (vy f), (vz f); rewrite D; auto|]. split.
      * rewrite wrap_cell by apply PB. assert (WI : forall per x, 0 <= x < 1 -> wrapped per x = x) by (intros per x Hx; unfold wrapped; destruct per; [|reflexivity]; rewrite (Raux.Zfloor_imp 0) by (simpl; lra); simpl; ring). rewrite !WI by assumption. destruct is2D; [apply cell_point_2d; [apply PB|exact D]|rewrite WI by auto; reflexivity].
      * intros E2. destruct (proj1 PB) as (_ & _ & _ & Z0 & _). unfold cell_point, comb, a1, a2, a3. rewrite Z0 by congruence. cbn. ring.
    + intros i Hi. rewrite EP, (nth_map_lt _ _ _ v0) by lia. rewrite (make_absolute_cell b _ (proj1 PB)), EB. unfold rows. destruct is2D.
      * rewrite (nth_map_lt _ _ _ v0) by lia. unfold cell_point, comb, a1, a2, a3, mk_box. cbn. repeat split; try ring; discriminate.
      * unfold cell_point, comb, a1, a2, a3, mk_box. cbn. repeat split; intros; ring.
Qed.
(** A case: three times the fcc cell in each direction, doubled; a query at distance 1.9 finds the twelve neighbours at sqrt 2. *)
Example C86_case : exists b basis bx pts l, preset FCC = Some (b, basis) /\ requests b (RepScalar 3) (3, 3, 3)%Z /\ uc_generate b basis (RepScalar 3) 2 None = Some (bx, pts) /\ length pts = 108%nat /\
  radius_ok bx (19 / 10) /\ 2 * sqrt (nearest_square FCC) < 19 / 10 <= 2 * sqrt (second_square FCC) /\ aabb_ball bx pts (nth 0 pts v0) 0 (19 / 10) 0 true true (Some l) /\ length l = 12%nat.
Proof.
  exists (preset_box FCC), (preset_basis FCC). assert (HN : forall i, in_space (preset_box FCC) (moved None i)) by (intros i X; reflexivity). assert (Hb := preset_positive FCC).
  assert (Rq : requests (preset_box FCC) (RepScalar 3) (3, 3, 3)%Z) by (unfold requests; repeat split; try lia; try discriminate).
  destruct (generate_spec _ (preset_basis FCC) (RepScalar 3) 2 None Hb HN _ Rq ltac:(lra)) as (pts & G & L & _). set (bx := mul_box (preset_box FCC) (3, 3, 3)%Z 2) in *.
  assert (LP : length pts = 108%nat) by (rewrite L; vm_compute; reflexivity). assert (NB : pts <> []) by (intros ->; discriminate).
  assert (S1 : sqrt (1 / 2) < 19 / 20).
  { apply Rsqr_incrst_0; [|apply sqrt_pos|lra]. rewrite Rsqr_sqrt by lra. unfold Rsqr. lra. }
  assert (S2 : sqrt 1 = 1) by apply sqrt_1. assert (BR : 2 * sqrt (nearest_square FCC) < 19 / 10 <= 2 * sqrt (second_square FCC)) by (cbn [nearest_square second_square]; lra).
  assert (RO : radius_ok bx (19 / 10)).
  { unfold radius_ok. unfold bx, mul_box, plane_distance, mk_box, preset_box, cube1. cbn. repeat match goal with |- context [sqrt ?x] => replace x with 1 by ring; rewrite sqrt_1 end. repeat split; intros; lra. }
  destruct (C29_ball_defined bx pts (nth 0 pts v0) 0 (19 / 10) 0 true NB) as (res & AQ & _ & HNone). destruct res as [l|]; [|exfalso; apply (proj1 HNone eq_refl); split; [lra|split; [lra|exact RO]]].
  exists bx, pts, l. split; [apply preset_value|]. split; [exact Rq|]. split; [exact G|]. split; [exact LP|]. split; [exact RO|]. split; [exact BR|]. split; [exact AQ|].
  apply (C86_query FCC _ _ (RepScalar 3) 2 (3, 3, 3)%Z bx pts 0 (19 / 10) l (preset_value FCC) Rq G); try assumption. rewrite LP. lia.
Qed.
Example C86_random_case : exists b pts, random_system 2 [V3 0 (1 / 2) (3 / 4)] true = Some (b, pts) /\ nth 0 pts v0 = V3 (-1) 0 0.
Proof.
  unfold random_system, py_box. destruct (Reqb_spec 2 0); [lra|]. cbn [orb]. eexists _, _. split; [reflexivity|]. cbn [map nth]. rewrite make_absolute_cell by (apply mk_box_positive; try lra; discriminate). unfold cell_point, comb, a1, a2, a3, mk_box. apply vec_eq; cbn; field.
Qed.
Example C86_oblique_case : exists b basis, uc_oblique 2 60 = Some (b, basis).
Proof.
  destruct (uc_oblique 2 60) as [[b basis]|] eqn:E; [eauto|]. apply C86_oblique in E. lra.
Qed.
Print Assumptions C86_structure.
Print Assumptions C86_system.
Print Assumptions C86_coordination.
Print Assumptions C86_density.
Print Assumptions C86_query.
Print Assumptions C86_rectangular.
Print Assumptions C86_oblique.
Print Assumptions C86_random.
