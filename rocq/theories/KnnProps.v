(** C34: k-nearest-neighbour queries. *)
From Coq Require Import Sorting.Sorted.
From Verif Require Import MArrayProofs NListProofs AABBProofs2 FilterProps AABBProps BoxProofs BoxProofs2 BoxProps LinkCellProps QueryProofs QueryProps KnnModel KnnProofs KnnSpec.
Open Scope R_scope.

Lemma near_of_short b points q j i1 i2 i3 : positive b -> in_cell b (nth j points v0) -> in_cell b q -> allowed b i1 i2 i3 ->
  norm (sep b points q j i1 i2 i3) < min_plane b -> near_images i1 i2 i3.
Proof.
  intros Hb HP HQ (Ax & Ay & Az & A2) HN. unfold sep in HN. rewrite !flat_id in HN by (apply in_cell_space; auto). destruct (min_plane_spec b) as (MX & MY & MZ & _).
  destruct HP as (s & t & u & EP & Sx & Sy & Sz). destruct HQ as (s' & t' & u' & EQ & Sx' & Sy' & Sz'). rewrite EP, EQ in HN.
  assert (E : vsub (cell_point b s t u) (vadd (cell_point b s' t' u') (shift b i1 i2 i3)) = comb b (s - s' - IZR i1) (t - t' - IZR i2) (u - u' - IZR i3)).
  { unfold cell_point, shift, comb. vec_ring. }
  rewrite E in HN. destruct (plane_bound b (s - s' - IZR i1) (t - t' - IZR i2) (u - u' - IZR i3) Hb) as (Bx & By & Bz).
  destruct (plane_pos b Hb) as (Px & Py & Pz).
  set (N := norm _) in *.
  assert (G : forall (per : bool) x x' n P, (0 < P)%R -> (Rabs (x - x' - IZR n) * P <= N)%R -> (N < P)%R ->
     (per = true -> 0 <= x <= 1)%R -> (per = true -> 0 <= x' <= 1)%R -> (per = false -> n = 0%Z) -> (-1 <= n <= 1)%Z).
  { intros per x x' n P HP HB HR Hx Hx' Hn. destruct per; [|rewrite Hn by auto; lia].
    specialize (Hx eq_refl). specialize (Hx' eq_refl).
    destruct (Z_le_gt_dec (-1) n) as [L1|L1], (Z_le_gt_dec n 1) as [L2|L2]; try lia; exfalso.
    - assert (2 <= IZR n)%R by (apply (IZR_le 2); lia). rewrite Rabs_left in HB by lra. nra.
    - assert (IZR n <= -2)%R by (apply (IZR_le _ (-2)); lia). rewrite Rabs_right in HB by lra. nra. }
  split; [|split].
  - apply (G (b_px b) s s' i1 _ Px Bx); auto. lra.
  - apply (G (b_py b) t t' i2 _ Py By); auto. lra.
  - destruct (b_2d b) eqn:E2; [rewrite A2 by auto; lia|]. apply (G (b_pz b) u u' i3 _ (Pz eq_refl) (Bz eq_refl)); auto. specialize (MZ eq_refl). lra.
Qed.

(** ** The search loop *)
Lemma xmin_le a x : xmin a x <= a. Proof. destruct x; simpl; [apply Rmin_l|lra]. Qed.
Lemma search_hand b points q qi k r_max r_min scale excl ext r res : positive b -> (0 < k)%nat -> 1 < scale -> xleb r_max 0 = false ->
  knn_search b points q qi k r_max r_min scale excl ext r res -> 0 < r -> (ext = false -> 2 * xmin r r_max <= min_plane b) -> forall s, res = Some s ->
  exists rho S, hand b points q qi excl r_min rho S /\ rho = xmin rho r_max /\ sort_result less_dist S s /\ ((k <= length s)%nat \/ xmin (max_plane b) r_max <= rho * scale).
Proof.
  intros Hb Hk Hs Hm.
  assert (COL : forall ext r found cur m below, aabb_ball b points q qi (xmin r r_max) 0 excl false (Some found) -> knn_collect ext qi r_min excl found = (cur, (m, below)) ->
     (ext = false -> 2 * xmin r r_max <= min_plane b) -> 
     hand b points q qi excl r_min (xmin r r_max) (cur ++ filter (fun x => Rleb r_min (bd x)) (map snd m)) /\
     (length (cur ++ filter (fun x => Rleb r_min (bd x)) (map snd m)) = length cur + (length m - length below))%nat /\ (ext = true -> cur = []) /\ (ext = false -> m = [])).
  { clear - Hb. intros ext r found cur m below HB HC HE. apply C29_ball_near_images in HB as [ND HI]; [|apply Hb|lra]. eapply collect_hand; eauto. }
  assert (IDEM : forall r, xmin r r_max = xmin (xmin r r_max) r_max) by (intros r0; destruct r_max as [rm|]; simpl; auto; unfold Rmin; repeat destruct (Rle_dec _ _); lra).
  induction 1 as [ext r HB|ext r found cur m below s0 HB HC HL HS|ext r found cur m below s0 HB HC HL HT HS|ext r found cur m below res HB HC HL HT HR IH]; intros Hr HE s Es.
  - discriminate.
  - injection Es as <-. destruct (COL _ _ _ _ _ _ HB HC HE) as (HH & LL & X1 & X2). destruct ext; [rewrite (X1 eq_refl) in HL; simpl in HL; lia|].
    rewrite (X2 eq_refl) in HH. simpl in HH. rewrite app_nil_r in HH. exists (xmin r r_max), cur. split; [auto|split; [auto|split; [auto|]]]. left. destruct HS as [P _]. rewrite <- (Permutation_length P). auto.
  - injection Es as <-. destruct (COL _ _ _ _ _ _ HB HC HE) as (HH & LL & X1 & X2). eexists _, _. split; [exact HH|split; [auto|split; [exact HS|]]]. destruct HS as [P _]. rewrite <- (Permutation_length P), LL.
    apply orb_true_iff in HT as [HT|HT]; [right|left; apply Nat.leb_le in HT; lia]. apply orb_true_iff in HT.
    destruct r_max as [rm|]; simpl in *.
    + apply Rleb_false in Hm. pose proof (Rmin_l (max_plane b) rm). pose proof (Rmin_r (max_plane b) rm). unfold Rmin at 2. destruct (Rle_dec r rm).
      * destruct HT as [HT|HT]; apply Rleb_true in HT; lra.
      * assert (rm <= rm * scale) by nra. lra.
    + destruct HT as [HT|HT]; [discriminate|]. apply Rleb_true in HT. lra.
  - apply IH; auto; [nra|]. intros E. apply orb_false_iff in E as [_ E]. apply Rltb_false in E. pose proof (xmin_le (r * scale) r_max). lra.
Qed.
Lemma within_all r_max l : (forall x, In x l -> xltb r_max (bd x) = false) -> take_within r_max l = l.
Proof. induction l as [|x l IH]; simpl; intros H; auto. rewrite (H x) by auto. f_equal. apply IH. auto. Qed.

(** AABBQuery returns at most [k] different points at their nearest images in order of distance; a candidate it left out is no closer
    than those returned if there are [k] of them, and otherwise lies beyond the smaller of r_max and the largest plane distance
    divided by [scale].  (Images are those of the 27 neighbouring cells, see [C34_true_nearest].) *)
Theorem C34_aabb (b : box) (points : list vec3) (q : vec3) (qi k : nat) (r_guess : R) (r_max : xreal) (r_min scale : R) (excl : bool) (l : list bond) :
  positive b -> (0 < k)%nat -> 0 < r_guess -> 2 * r_guess <= min_plane b -> 1 < scale ->
  aabb_nearest b points q qi k r_guess r_max r_min scale excl (Some l) ->
  sorted_neighbors b points q qi excl r_min near_images l /\ (length l <= k)%nat /\ (forall x, In x l -> xmin (bd x) r_max = bd x /\ r_max <> Fin (bd x)) /\
  forall j v, candidate b points q qi excl r_min near_images j v -> ~ In j (map bp l) ->
    (length l = k /\ forall x, In x l -> bd x <= norm v) \/ ((length l < k)%nat /\ xmin (max_plane b) r_max <= norm v * scale).
Proof.
  intros Hb Hk Hg HG Hs. unfold aabb_nearest, near_args_ok. destruct (xleb r_max 0) eqn:E0; [discriminate|]. destruct (xleb r_max r_min); [discriminate|]. cbn [negb andb].
  destruct (image_vectors b 0 true); [|discriminate]. intros (so & HS & Es). destruct so as [s|]; [|discriminate]. simpl in Es. apply some_inj in Es.
  destruct (search_hand b points q qi k r_max r_min scale excl false r_guess (Some s) Hb Hk Hs E0 HS Hg) with (s := s) as (rho & T & (ND & HM & HC) & HX & SR & LEN); auto.
  { intros _. pose proof (xmin_le r_guess r_max). lra. }
  apply sort_dist_iff in SR as [P SS]. destruct (firstn_sorted k s SS) as [S1 S2].
  assert (MEM : forall x, In x s -> candidate b points q qi excl r_min near_images (bp x) (bv x) /\ norm (bv x) < rho /\ x = Bond qi (bp x) (norm (bv x)) 1 (bv x)).
  { intros x Hx. apply HM. apply (Permutation_in _ (Permutation_sym P)). auto. }
  assert (DX : forall x, In x s -> bd x = norm (bv x) /\ bd x < rho).
  { intros x Hx. destruct (MEM x Hx) as (_ & L & E). rewrite E. simpl. auto. }
  assert (IN : forall x, In x (firstn k s) -> In x s) by (intros x Hx; rewrite <- (firstn_skipn k s); apply in_or_app; auto).
  assert (EL : l = firstn k s).
  { rewrite Es. unfold deliver. apply within_all. intros x Hx. destruct (DX x (IN x Hx)) as [_ L]. destruct r_max as [rm|]; simpl; auto. simpl in HX.
    apply Rltb_false. pose proof (Rmin_r rho rm). lra. }
  clear Es. subst l. assert (NDs : NoDup (map bp s)) by (eapply Permutation_NoDup; [apply Permutation_map; exact P|auto]).
  split; [|split; [apply firstn_le_length|split]].
  - split; [rewrite <- firstn_map; apply NoDup_firstn; auto|]. split; [apply sorted_nth; auto|]. intros x Hx. destruct (MEM x (IN x Hx)) as (A & _ & B). auto.
  - intros x Hx. destruct (DX x (IN x Hx)) as [_ L]. destruct r_max as [rm|]; simpl in *; [|split; [auto|discriminate]]. assert (rho <= rm) by (rewrite HX; apply Rmin_r).
    split; [apply Rmin_left; lra|]. intros E. injection E as E. lra.
  - intros j v HJ NI. destruct (Rlt_le_dec (norm v) rho) as [L|L].
    + left. specialize (HC j v HJ L). assert (Js : In j (map bp s)) by (eapply Permutation_in; [apply Permutation_map; exact P|auto]).
      apply in_map_iff in Js as (y & Ey & Hy). rewrite <- (firstn_skipn k s) in Hy. apply in_app_iff in Hy as [Hy|Hy]; [exfalso; apply NI; rewrite <- Ey; apply in_map; auto|].
      split.
      * rewrite firstn_length. assert (k < length s)%nat; [|lia]. destruct (le_lt_dec (length s) k) as [G|G]; auto. rewrite skipn_all2 in Hy by auto. destruct Hy.
      * intros x Hx. specialize (S2 x y Hx Hy). assert (Ys : In y s) by (rewrite <- (firstn_skipn k s); apply in_or_app; auto). destruct (MEM y Ys) as ((_ & _ & [(y1 & y2 & y3 & YA & YN & YE) _] & _) & _ & EY).
        destruct HJ as (_ & _ & [(i1 & i2 & i3 & VA & VN & VE) VM] & _). destruct (DX y Ys) as [Dy _].
        destruct (MEM y Ys) as ((_ & _ & [_ YM] & _) & _ & _). rewrite Ey in YM. specialize (YM i1 i2 i3 VA VN). rewrite <- VE in YM. lra.
    + destruct (le_lt_dec k (length s)) as [G|G].
      * left. split; [rewrite firstn_length; lia|]. intros x Hx. destruct (DX x (IN x Hx)). lra.
      * right. split; [rewrite firstn_length; lia|]. destruct LEN as [LEN|LEN]; [lia|]. apply Rle_trans with (1 := LEN). apply Rmult_le_compat_r; lra.
Qed.
Print Assumptions C34_aabb.

(** For points and query points in the cell the distances returned below the smallest plane distance are true minimum-image
    distances, and [k] of them are the [k] nearest points of the periodic system. *)
Theorem C34_true_nearest (b : box) (points : list vec3) (q : vec3) (qi k : nat) (r_guess : R) (r_max : xreal) (r_min scale : R) (excl : bool) (l : list bond) :
  positive b -> (0 < k)%nat -> 0 < r_guess -> 2 * r_guess <= min_plane b -> 1 < scale ->
  (forall p, In p points -> in_cell b p) -> in_cell b q ->
  aabb_nearest b points q qi k r_guess r_max r_min scale excl (Some l) -> length l = k -> (forall x, In x l -> bd x < min_plane b) ->
  k_nearest b points q qi excl r_min all_images k l.
Proof.
  intros Hb Hk Hg HG Hs HP HQ HA HL HD. destruct (C34_aabb b points q qi k r_guess r_max r_min scale excl l Hb Hk Hg HG Hs HA) as ((ND & SO & HM) & _ & _ & HC).
  split; [auto|]. split.
  - split; [auto|split; [auto|]]. intros x Hx. destruct (HM x Hx) as [(Hj & NE & [(i1 & i2 & i3 & VA & VN & VE) VM] & Lr) Ex]. split; auto. split; auto. split; auto. split; auto.
    split; [exists i1, i2, i3; split; [auto|split; [exact I|auto]]|]. intros k1 k2 k3 KA _. destruct (Rlt_le_dec (norm (sep b points q (bp x) k1 k2 k3)) (min_plane b)) as [L|L].
    + apply VM; auto. eapply near_of_short; eauto. apply HP, nth_In; auto.
    + specialize (HD x Hx). rewrite Ex in HD. simpl in HD. lra.
  - intros j v (Hj & NE & [(i1 & i2 & i3 & VA & _ & VE) VM] & Lr) NI x Hx. destruct (Rlt_le_dec (norm v) (min_plane b)) as [L|L]; [|specialize (HD x Hx); lra].
    destruct (HC j v) as [[_ G]|[G _]]; auto; [|lia]. split; auto. split; auto. split; auto. split.
    + exists i1, i2, i3. split; auto. split; auto. apply (near_of_short b points q j); auto; [apply HP, nth_In; auto|]. rewrite <- VE. auto.
    + intros k1 k2 k3 KA _. apply VM; auto. exact I.
Qed.
Print Assumptions C34_true_nearest.

(** The search always ends, with a list. *)
Lemma search_no_raise b points q qi k r_max r_min scale excl ext r res : points <> [] -> xleb r_max 0 = false -> 0 < scale ->
  knn_search b points q qi k r_max r_min scale excl ext r res -> 0 < r -> res <> None.
Proof.
  intros HN Hm Hs. induction 1 as [ext r HB| | |ext r found cur m below res HB HC HL HT HR IH]; intros Hr; try discriminate.
  - destruct (aabb_ball_eq b points q qi (xmin r r_max) 0 excl false HN) as (ids & _ & E). apply E in HB. cbn [andb negb] in HB.
    assert (0 < xmin r r_max) by (destruct r_max as [rm|]; simpl in *; [apply Rleb_false in Hm; apply Rmin_glb_lt; auto|auto]).
    unfold point_args_ok in HB. rewrite (proj2 (Rltb_true 0 _)) in HB by auto. discriminate.
  - apply IH. nra.
Qed.
Lemma pow_unbounded scale M r : 1 < scale -> 0 < r -> exists n, M <= r * scale ^ n.
Proof.
  intros Hs Hr. destruct (Pow_x_infinity scale) with (b := M / r) as [n Hn]; [rewrite Rabs_right; lra|]. exists n. specialize (Hn n (le_n n)).
  rewrite Rabs_right in Hn by (apply Rle_ge, pow_le; lra). apply Rge_le in Hn. apply Rmult_le_compat_l with (r := r) in Hn; [|lra]. replace (r * (M / r)) with M in Hn by (field; lra). auto.
Qed.
Lemma search_total b points q qi k r_max r_min scale excl : points <> [] -> xleb r_max 0 = false -> 1 < scale ->
  forall r ext, 0 < r -> exists s, knn_search b points q qi k r_max r_min scale excl ext r (Some s).
Proof.
  intros HN Hm Hs r ext Hr. destruct (pow_unbounded scale (max_plane b) r Hs Hr) as [n Hn]. revert r ext Hr Hn.
  induction n as [|n IH]; intros r ext Hr Hn.
  all: destruct (aabb_ball_eq b points q qi (xmin r r_max) 0 excl false HN) as (ids & _ & E);
    assert (XP : 0 < xmin r r_max) by (destruct r_max as [rm|]; simpl in *; [apply Rleb_false in Hm; apply Rmin_glb_lt; auto|auto]);
    unfold point_args_ok in E; rewrite (proj2 (Rltb_true 0 _) XP) in E; cbn [andb negb] in E; pose proof (proj2 (E _) eq_refl) as HB;
    set (found := ball_result _ _ _ _ _ _ _ _) in HB; destruct (knn_collect ext qi r_min excl found) as [cur [m below]] eqn:HC;
    destruct (le_lt_dec k (length cur)) as [G|G]; [destruct (sort_dist_exists cur) as [s HS]; exists s; eapply ks_enough; eauto|].
  - destruct (sort_dist_exists (cur ++ filter (fun x => Rleb r_min (bd x)) (map snd m))) as [s HS]. exists s. eapply ks_stop; eauto.
    rewrite (proj2 (Rleb_true (max_plane b) (r * scale))); [rewrite orb_true_r; auto|]. simpl in Hn. nra.
  - destruct (xleb r_max (r * scale) || Rleb (max_plane b) (r * scale) || Nat.leb k (length m - length below)) eqn:T.
    + destruct (sort_dist_exists (cur ++ filter (fun x => Rleb r_min (bd x)) (map snd m))) as [s HS]. exists s. eapply ks_stop; eauto.
    + destruct (IH (r * scale) (ext || Rltb (min_plane b / 2) (r * scale))) as [s HS]; [nra|simpl in Hn; lra|]. exists s. eapply ks_again; eauto.
Qed.
Theorem C34_defined (b : box) (points : list vec3) (q : vec3) (qi k : nat) (r_guess : R) (r_max : xreal) (r_min scale : R) (excl : bool) :
  positive b -> points <> [] -> 0 < r_guess -> 1 < scale -> (forall r, r_max = Fin r -> 0 < r /\ r_min < r) ->
  (exists l, aabb_nearest b points q qi k r_guess r_max r_min scale excl (Some l)) /\ ~ aabb_nearest b points q qi k r_guess r_max r_min scale excl None.
Proof.
  intros Hb HN Hg Hs HR. unfold aabb_nearest, near_args_ok.
  assert (E0 : xleb r_max 0 = false) by (destruct r_max as [r|]; simpl; auto; apply Rleb_false; apply HR; auto).
  assert (E1 : xleb r_max r_min = false) by (destruct r_max as [r|]; simpl; auto; apply Rleb_false; apply HR; auto).
  rewrite E0, E1. cbn [negb andb]. destruct (plane_pos b Hb) as (Px & Py & Pz).
  assert (IC : image_check b 0 = false) by (apply image_check_spec; split; [intros; lra|split; [intros; lra|intros E _; specialize (Pz E); lra]]).
  rewrite image_vectors_eq, IC. cbn [andb]. split.
  - destruct (search_total b points q qi k r_max r_min scale excl HN E0 Hs r_guess false Hg) as [s HS]. eexists. exists (Some s). split; eauto. reflexivity.
  - intros ([s|] & HS & E); [discriminate|]. revert HS. intros HS. apply (search_no_raise b points q qi k r_max r_min scale excl _ _ _ HN E0 ltac:(lra) HS Hg). auto.
Qed.
Print Assumptions C34_defined.
