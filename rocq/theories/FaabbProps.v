(** C78: ball queries of AABBQuery in single precision. *)
From Coq Require Import Psatz.
From Verif Require Import NListProofs MArrayProofs F32Proofs Vec FaabbSpec FaabbProofs FaabbProofs2.
Open Scope nat_scope.

(** The tree loses no bond and adds none: the answer is that of the double loop over images and points with the same rounded test. *)
Theorem C78_ball b points q qi r_max r_min excl check res : points <> [] -> Forall fin3 points ->
  faabb_ball b points q qi r_max r_min excl check res ->
  (res = None /\ (fpoint_args_ok r_max r_min = false \/ (check = true /\ fimage_check b r_max = true))) \/
  (exists images l, fpoint_args_ok r_max r_min = true /\ fimages b r_max check = Some images /\ res = Some l /\ Permutation l (brute_force b points q qi r_max r_min excl images)).
Proof.
  intros HN HF H. unfold faabb_ball in H. destruct (fpoint_args_ok r_max r_min) eqn:A; [|left; auto].
  destruct (fimages b r_max check) as [images|] eqn:EI.
  - destruct (brute_spec b points q qi r_max r_min excl images HN HF) as (nodes & l & ET & ED & EP). rewrite ET in H. destruct H as (l' & -> & HD).
    rewrite (drain_det _ _ _ _ HD ED). right. exists images, l. auto.
  - left. split; auto. right. unfold fimages in EI. destruct check; [|discriminate]. destruct (fimage_check b r_max); [auto|discriminate].
Qed.
(** Every query has exactly one outcome. *)
Theorem C78_defined b points q qi r_max r_min excl check : points <> [] -> Forall fin3 points ->
  exists res, faabb_ball b points q qi r_max r_min excl check res /\ forall res', faabb_ball b points q qi r_max r_min excl check res' -> res' = res.
Proof.
  intros HN HF. unfold faabb_ball. destruct (fpoint_args_ok r_max r_min); [|exists None; auto].
  destruct (fimages b r_max check) as [images|]; [|exists None; auto].
  destruct (brute_spec b points q qi r_max r_min excl images HN HF) as (nodes & l & -> & ED & _). exists (Some l). split; [eauto|].
  intros res' (l' & -> & HD). f_equal. eapply drain_det; eauto.
Qed.

(** * What the bonds are *)
Lemma ball_in b points q qi r_max r_min excl check l : points <> [] -> Forall fin3 points -> faabb_ball b points q qi r_max r_min excl check (Some l) ->
  exists images, fimages b r_max check = Some images /\
  forall x, In x l <-> exists im j, In im images /\ j < length points /\ In x (pair_bond b points q qi r_max r_min excl im j).
Proof.
  intros HN HF H. destruct (C78_ball _ _ _ _ _ _ _ _ _ HN HF H) as [[E _]|(images & l' & _ & EI & E & P)]; [discriminate|]. injection E as <-.
  exists images. split; auto. intros x. assert (Q : In x l <-> In x (brute_force b points q qi r_max r_min excl images)) by (split; apply Permutation_in; auto; symmetry; auto).
  rewrite Q. unfold brute_force. rewrite in_flat_map. split.
  - intros (im & Hi & Hx). apply in_flat_map in Hx as (j & Hj & Hx). apply in_seq in Hj. exists im, j. split; [|split]; auto. lia.
  - intros (im & j & Hi & Hj & Hx). exists im. split; auto. apply in_flat_map. exists j. split; auto. apply in_seq. lia.
Qed.
Lemma flat_ordinary b p : ordinary_point p -> ordinary_point (fflat b p).
Proof. intros (A & B & C). unfold fflat. destruct (f2d b); repeat split; try apply A; try apply B; try apply C. cbn [fzero B2R fvz]. rewrite Rabs_R0. apply bpow_ge_0. Qed.
Lemma ordinary_fin p : ordinary_point p -> fin3 p.
Proof. intros (A & B & C). repeat split; [apply A|apply B|apply C]. Qed.
Lemma points_fin points : Forall ordinary_point points -> Forall fin3 points.
Proof. intros H. eapply Forall_impl; [|exact H]. apply ordinary_fin. Qed.
Lemma pair_vector p q v : ordinary_point p -> ordinary_point q -> ordinary_point v ->
  (norm (rv (fvsub p (fvadd q v)) - (rv p - (rv q + rv v)))%V <= slack (norm (rv p - (rv q + rv v))%V) (norm (rv q + rv v)%V))%R.
Proof.
  intros (A1 & A2 & A3) (B1 & B2 & B3) (C1 & C2 & C3).
  destruct (separation _ _ _ A1 B1 C1) as (F1 & G1 & H1). destruct (separation _ _ _ A2 B2 C2) as (F2 & G2 & H2). destruct (separation _ _ _ A3 B3 C3) as (F3 & G3 & H3).
  assert (U := u_pos). eapply Rle_trans; [apply (norm_bound _ (rv p - (rv q + rv v))%V (rv q + rv v)%V u (2 * u)); try lra; assumption|].
  assert (N1 := norm_nonneg (rv p - (rv q + rv v))%V). assert (N2 := norm_nonneg (rv q + rv v)%V). assert (P := bpow_gt_0 radix2 (-70)). unfold slack, u in *. lra.
Qed.
Definition min_radius (r : f32) : Prop := is r 0 \/ ordinary_radius r.
(** Pairs clearly within range are found, with accurate distances and vectors. *)
Theorem C78_inside b points q qi r_max r_min excl check l : points <> [] -> plain_box b -> Forall ordinary_point points -> ordinary_point q ->
  ordinary_radius r_max -> min_radius r_min -> faabb_ball b points q qi r_max r_min excl check (Some l) ->
  forall p i j k, p < length points -> (excl = true -> p <> qi) -> neighbour_cell b i j k ->
  let D := exact_distance b (nth p points fv0) q i j k in
  let S := norm (moved b q i j k) in
  (D + slack D S <= val r_max)%R -> (is r_min 0 \/ val r_min <= D - slack D S)%R ->
  exists x, In x l /\ fb_q x = qi /\ fb_p x = p /\ (Rabs (val (fb_d x) - D) <= slack D S)%R /\
    (norm (rv (fb_r x) - (rv (fflat b (nth p points fv0)) - moved b q i j k))%V <= slack D S)%R.
Proof.
  intros HN PB HO Oq Or Om H p i j k Hp Hx Hc D S Hin Hmin.
  destruct (ball_in _ _ _ _ _ _ _ _ _ HN (points_fin _ HO) H) as (images & EI & IN).
  destruct (images_cells b r_max check images PB EI) as [_ IC]. destruct (IC i j k Hc) as (im & Him & Oim & Vim).
  assert (Op : ordinary_point (fflat b (nth p points fv0))) by (apply flat_ordinary; apply (proj1 (Forall_forall _ _) HO); apply nth_In; auto).
  assert (Ofq := flat_ordinary b q Oq).
  assert (ES : moved b q i j k = (rv (fflat b q) + rv im)%V) by (unfold moved; rewrite Vim; reflexivity).
  unfold exact_distance in D. unfold S, D in *. clear S D. rewrite ES in *.
  set (r := fvsub (fflat b (nth p points fv0)) (fvadd (fflat b q) im)) in *.
  destruct (pair_finite _ _ _ Op Ofq Oim) as (_ & Fr & Pr). fold r in Fr, Pr.
  exists (FBond qi p (Bsqrt mode_NE (fnorm2 r)) r). cbn [fb_q fb_p fb_d fb_r]. split; [|split; auto; split; auto; split; [apply pair_distance; auto|apply pair_vector; auto]].
  apply IN. exists im, p. split; auto. split; auto. unfold pair_bond. fold r.
  replace (excl && (qi =? p)) with false by (destruct excl; auto; symmetry; apply Nat.eqb_neq; intros ->; apply Hx; auto).
  assert (B1 := pair_below _ _ _ Op Ofq Oim r_max Or Hin). fold r in B1. destruct (radius_val r_max Or) as (Fm & _).
  rewrite Bltb_correct, (Rlt_bool_true _ _ B1) by auto. cbn [andb].
  assert (B2 : Bleb (fmul r_min r_min) (fnorm2 r) = true); [|rewrite B2; left; reflexivity].
  destruct Om as [Z0|Om].
  - destruct (mul_zero r_min r_min (proj1 Z0) Z0) as [F0 V0]. rewrite Bleb_correct by auto. apply Rle_bool_true. rewrite V0. auto.
  - destruct (radius_val r_min Om) as (Fm' & P' & _). rewrite Bleb_correct by auto. apply Rle_bool_true. apply pair_above; auto. destruct Hmin as [[_ Z0]|Hmin]; [rewrite Z0 in P'; lra|auto].
Qed.
(** Nothing clearly out of range is found, and every bond is accurate. *)
Theorem C78_outside b points q qi r_max r_min excl check l : points <> [] -> plain_box b -> Forall ordinary_point points -> ordinary_point q ->
  ordinary_radius r_max -> min_radius r_min -> faabb_ball b points q qi r_max r_min excl check (Some l) ->
  forall x, In x l -> fb_q x = qi /\ fb_p x < length points /\ (excl = true -> fb_p x <> qi) /\
  exists i j k, neighbour_cell b i j k /\
  let D := exact_distance b (nth (fb_p x) points fv0) q i j k in
  let S := norm (moved b q i j k) in
  (D - slack D S < val r_max)%R /\ (val r_min < D + slack D S)%R /\ (Rabs (val (fb_d x) - D) <= slack D S)%R /\
  (norm (rv (fb_r x) - (rv (fflat b (nth (fb_p x) points fv0)) - moved b q i j k))%V <= slack D S)%R.
Proof.
  intros HN PB HO Oq Or Om H x Hx.
  destruct (ball_in _ _ _ _ _ _ _ _ _ HN (points_fin _ HO) H) as (images & EI & IN). apply (IN x) in Hx. destruct Hx as (im & p & Him & Hp & Hx).
  destruct (images_cells b r_max check images PB EI) as [IC _]. destruct (IC im Him) as (i & j & k & Hc & Oim & Vim).
  assert (Op : ordinary_point (fflat b (nth p points fv0))) by (apply flat_ordinary; apply (proj1 (Forall_forall _ _) HO); apply nth_In; auto).
  assert (Ofq := flat_ordinary b q Oq).
  unfold pair_bond in Hx. set (r := fvsub (fflat b (nth p points fv0)) (fvadd (fflat b q) im)) in *.
  destruct (excl && (qi =? p)) eqn:EX; [destruct Hx|]. destruct (Bltb (fnorm2 r) (fmul r_max r_max)) eqn:E1; [|destruct Hx]. destruct (Bleb (fmul r_min r_min) (fnorm2 r)) eqn:E2; [|destruct Hx].
  destruct Hx as [<-|[]]. cbn [fb_q fb_p fb_d fb_r]. split; auto. split; auto. split; [intros ->; intros ->; cbn [andb] in EX; rewrite Nat.eqb_refl in EX; discriminate|].
  exists i, j, k. split; auto. assert (ES : moved b q i j k = (rv (fflat b q) + rv im)%V) by (unfold moved; rewrite Vim; reflexivity). unfold exact_distance. cbv zeta. rewrite ES.
  destruct (pair_finite _ _ _ Op Ofq Oim) as (_ & Fr & Pr). fold r in Fr, Pr.
  destruct (radius_val r_max Or) as (Fm & _). rewrite Bltb_correct in E1 by auto.
  split; [|split; [|split; [apply pair_distance; auto|apply pair_vector; auto]]].
  - apply Rnot_le_lt. intros L. assert (A := pair_above _ _ _ Op Ofq Oim r_max Or L). fold r in A. rewrite Rlt_bool_false in E1 by auto. discriminate.
  - destruct Om as [[_ Z0]|Om].
    + rewrite Z0. assert (N1 := norm_nonneg (rv (fflat b (nth p points fv0)) - (rv (fflat b q) + rv im))%V). assert (N2 := norm_nonneg (rv (fflat b q) + rv im)%V). assert (P := bpow_gt_0 radix2 (-70)). unfold slack, u. lra.
    + destruct (radius_val r_min Om) as (Fm' & _). rewrite Bleb_correct in E2 by auto. apply Rnot_le_lt. intros L. assert (A := pair_below _ _ _ Op Ofq Oim r_min Om L). fold r in A. rewrite Rle_bool_false in E2 by auto. discriminate.
Qed.

(** * Order of the points *)
Definition shape (x : fbond) : f32 * fvec := (fb_d x, fb_r x).
Definition point_shapes (b : fbox) (q : fvec) (r_max r_min : f32) (im p : fvec) : list (f32 * fvec) :=
  let r_ij := fvsub (fflat b p) (fvadd (fflat b q) im) in
  if Bltb (fnorm2 r_ij) (fmul r_max r_max) && Bleb (fmul r_min r_min) (fnorm2 r_ij) then [(Bsqrt mode_NE (fnorm2 r_ij), r_ij)] else [].
Lemma flat_map_nth {A B} (f : A -> list B) (d : A) l : flat_map (fun j => f (nth j l d)) (seq 0 (length l)) = flat_map f l.
Proof. induction l as [|a l IH]; simpl; auto. f_equal. rewrite <- seq_shift, flat_map_concat_map, map_map, <- flat_map_concat_map. exact IH. Qed.
Lemma map_flat_map {A B C} (g : B -> C) (f : A -> list B) l : map g (flat_map f l) = flat_map (fun x => map g (f x)) l.
Proof. induction l; simpl; auto. rewrite map_app, IHl. auto. Qed.
Lemma brute_shapes b points q qi r_max r_min images : map shape (brute_force b points q qi r_max r_min false images) = flat_map (fun im => flat_map (point_shapes b q r_max r_min im) points) images.
Proof.
  unfold brute_force. rewrite map_flat_map. apply flat_map_ext. intros im. rewrite map_flat_map, <- (flat_map_nth _ fv0 points). apply flat_map_ext. intros j.
  unfold pair_bond, point_shapes. cbn [andb]. destruct (_ && _); reflexivity.
Qed.
Theorem C78_order b points points' q qi qi' r_max r_min check l l' : points <> [] -> Forall fin3 points -> Permutation points points' ->
  faabb_ball b points q qi r_max r_min false check (Some l) -> faabb_ball b points' q qi' r_max r_min false check (Some l') ->
  Permutation (map shape l) (map shape l').
Proof.
  intros HN HF HP H H'. assert (HN' : points' <> []) by (intros ->; apply Permutation_sym, Permutation_nil in HP; auto).
  assert (HF' : Forall fin3 points') by (apply Forall_forall; intros x Hx; apply (proj1 (Forall_forall _ _) HF); eapply Permutation_in; [symmetry; exact HP|auto]).
  destruct (C78_ball _ _ _ _ _ _ _ _ _ HN HF H) as [[E _]|(im & l1 & _ & EI & E & P)]; [discriminate|]. injection E as <-.
  destruct (C78_ball _ _ _ _ _ _ _ _ _ HN' HF' H') as [[E _]|(im' & l1' & _ & EI' & E & P')]; [discriminate|]. injection E as <-.
  rewrite EI in EI'. injection EI' as <-. rewrite P, P', !brute_shapes. clear -HP. induction im as [|v im IH]; simpl; auto. apply Permutation_app; auto. apply flat_map_perm_in. auto.
Qed.

(** * Symmetry *)
(** Without periodic boundaries: the bond from [i] to [j] is found exactly if the bond from [j] to [i] is, at the same distance and with the opposite vector. *)
Theorem C78_symmetric b points i j r_max r_min excl check li lj : Forall fin3 points -> open_box b -> i < length points -> j < length points ->
  faabb_ball b points (nth i points fv0) i r_max r_min excl check (Some li) -> faabb_ball b points (nth j points fv0) j r_max r_min excl check (Some lj) ->
  forall x, In x li -> fb_p x = j -> exists y, In y lj /\ fb_q y = j /\ fb_p y = i /\ val (fb_d y) = val (fb_d x) /\ rv (fb_r y) = (- rv (fb_r x))%V.
Proof.
  intros HF OB Hi Hj H H' x Hx Hp. assert (HN : points <> []) by (intros ->; simpl in Hi; lia).
  destruct (ball_in _ _ _ _ _ _ _ _ _ HN HF H) as (images & EI & IN). destruct (ball_in _ _ _ _ _ _ _ _ _ HN HF H') as (images' & EI' & IN').
  assert (E := images_open _ _ _ _ OB EI). subst images. assert (E := images_open _ _ _ _ OB EI'). subst images'.
  apply (IN x) in Hx. destruct Hx as (im & p & [<-|[]] & Hp' & Hx). unfold pair_bond in Hx. set (r := fvsub (fflat b (nth p points fv0)) (fvadd (fflat b (nth i points fv0)) fv0)) in *.
  destruct (excl && (i =? p)) eqn:EX; [destruct Hx|]. destruct (Bltb (fnorm2 r) (fmul r_max r_max)) eqn:E1; [|destruct Hx]. destruct (Bleb (fmul r_min r_min) (fnorm2 r)) eqn:E2; [|destruct Hx].
  destruct Hx as [<-|[]]. cbn [fb_q fb_p fb_d fb_r] in *. subst p.
  assert (F : finite (fnorm2 r) = true) by (eapply up_lt; [|exact E1]; apply up_add; [apply up_add|]; apply up_sq).
  destruct (norm2_flip _ _ F) as (F' & V & W). fold r in V, W. set (r' := fvsub (fflat b (nth i points fv0)) (fvadd (fflat b (nth j points fv0)) fv0)) in *.
  exists (FBond j i (Bsqrt mode_NE (fnorm2 r')) r'). cbn [fb_q fb_p fb_d fb_r]. split; [|split; auto; split; auto; split; auto].
  - apply IN'. exists fv0, i. split; [left; auto|]. split; auto. unfold pair_bond. fold r'. rewrite Nat.eqb_sym, EX.
    rewrite (lt_same _ _ _ F' F V), E1, (le_same _ _ _ F' F V), E2. left. reflexivity.
  - destruct (Bsqrt_correct 24 128 _ _ mode_NE (fnorm2 r)) as [V1 _]. destruct (Bsqrt_correct 24 128 _ _ mode_NE (fnorm2 r')) as [V2 _]. rewrite V1, V2, V. reflexivity.
Qed.
(** Through a periodic boundary this fails at the edge of the range. *)
Definition edge_box : fbox := fmk_box (lit 10 0) (lit 10 0) (lit 10 0) fzero fzero fzero false.
Definition edge_points : list fvec := [FV (lit (-15287013) (-22)) fzero fzero; FV (lit 10325783 (-21)) fzero fzero].
Definition edge_r : f32 := lit 3002231 (-21).
Lemma edge_fin : Forall fin3 edge_points.
Proof. apply Forall_cons; [repeat split; vm_compute; reflexivity|]. apply Forall_cons; [repeat split; vm_compute; reflexivity|apply Forall_nil]. Qed.
Definition indices (x : fbond) : nat * nat := (fb_q x, fb_p x).
Lemma ball_indices b points q qi r_max r_min excl check ix : points <> [] -> Forall fin3 points -> fpoint_args_ok r_max r_min = true -> check && fimage_check b r_max = false ->
  map indices (brute_force b points q qi r_max r_min excl (fv0 :: map (imv b) (filter (allowed b) ftriples))) = ix ->
  exists l, faabb_ball b points q qi r_max r_min excl check (Some l) /\ Permutation (map indices l) ix.
Proof.
  intros HN HF HA HC HB. destruct (C78_defined b points q qi r_max r_min excl check HN HF) as (res & H & _).
  destruct (C78_ball _ _ _ _ _ _ _ _ _ HN HF H) as [[_ [E|[E1 E2]]]|(images & l & _ & EI & -> & P)]; [congruence|rewrite E1, E2 in HC; discriminate|].
  exists l. split; auto. rewrite P. apply images_eq in EI. rewrite EI, HB. auto.
Qed.
Theorem C78_symmetric_refuted : exists l0 l1,
  faabb_ball edge_box edge_points (nth 0 edge_points fv0) 0 edge_r fzero true true (Some l0) /\
  faabb_ball edge_box edge_points (nth 1 edge_points fv0) 1 edge_r fzero true true (Some l1) /\
  l0 = [] /\ map indices l1 = [(1, 0)].
Proof.
  destruct (ball_indices edge_box edge_points (nth 0 edge_points fv0) 0 edge_r fzero true true []) as (l0 & H0 & P0); [discriminate|apply edge_fin|vm_compute; reflexivity|vm_compute; reflexivity|vm_compute; reflexivity|].
  destruct (ball_indices edge_box edge_points (nth 1 edge_points fv0) 1 edge_r fzero true true [(1, 0)]) as (l1 & H1 & P1); [discriminate|apply edge_fin|vm_compute; reflexivity|vm_compute; reflexivity|vm_compute; reflexivity|].
  exists l0, l1. split; auto. split; auto. split.
  - apply Permutation_sym, Permutation_nil in P0. destruct l0; [auto|discriminate].
  - apply Permutation_length_1_inv. symmetry. auto.
Qed.
(** One coordinate that is not a number hides other points: the query at the first point does not find it. *)
Definition nan_points : list fvec := [FV (lit 1 0) fzero fzero; FV B754_nan fzero fzero; FV (lit (-3) 0) fzero fzero].
Definition finds_nothing (fuel : nat) b points q qi r_max r_min excl : bool :=
  match ftree b points with
  | Some nodes => match fball_drain fuel (fball_step b points nodes (fv0 :: map (imv b) (filter (allowed b) ftriples)) q qi r_max r_min excl) (FBS 0 0 0) with Some [] => true | _ => false end
  | None => false
  end.
Lemma nothing fuel b points q qi r_max r_min excl check : fpoint_args_ok r_max r_min = true -> check && fimage_check b r_max = false ->
  finds_nothing fuel b points q qi r_max r_min excl = true -> faabb_ball b points q qi r_max r_min excl check (Some []).
Proof.
  intros HA HC H. unfold faabb_ball. rewrite HA. destruct (fimages b r_max check) as [images|] eqn:EI; [|unfold fimages in EI; rewrite HC in EI; discriminate].
  apply images_eq in EI. rewrite EI. unfold finds_nothing in H. destruct (ftree b points) as [nodes|]; [|discriminate].
  exists []. split; auto. exists fuel. destruct (fball_drain _ _ _) as [[|x l]|]; [auto|discriminate..].
Qed.
Theorem C78_nan_refuted :
  faabb_ball edge_box nan_points (FV (lit 1 0) fzero fzero) 7 fone fzero false true (Some []) /\
  map indices (brute_force edge_box nan_points (FV (lit 1 0) fzero fzero) 7 fone fzero false [fv0]) = [(7, 0)].
Proof. split; [|vm_compute; reflexivity]. apply (nothing 60); vm_compute; reflexivity. Qed.

(** * Cases *)
Example C78_ball_case : exists l, faabb_ball edge_box edge_points (nth 0 edge_points fv0) 0 (lit 2 0) fzero false true (Some l) /\ Permutation (map indices l) [(0, 0); (0, 1)].
Proof. apply ball_indices; [discriminate|apply edge_fin|vm_compute; reflexivity|vm_compute; reflexivity|vm_compute; reflexivity]. Qed.
(** Thirty points: the tree has more than one leaf. *)
Definition many : list fvec := map (fun i => FV (lit (Z.of_nat i - 15) (-2)) (lit (Z.of_nat i mod 5) (-1)) fzero) (seq 0 30).
Example C78_many_case : option_map (@length fnode) (ftree edge_box many) = Some 3 /\
  exists l, faabb_ball edge_box many (nth 20 many fv0) 20 (lit 5 (-2)) fzero true true (Some l) /\ Permutation (map indices l) [(20, 16); (20, 21); (20, 22)].
Proof.
  split; [vm_compute; reflexivity|].
  apply ball_indices; [discriminate| |vm_compute; reflexivity|vm_compute; reflexivity|vm_compute; reflexivity].
  apply Forall_forall. intros x Hx. apply in_map_iff in Hx as (i & <- & Hi). apply in_seq in Hi.
  do 30 (destruct i as [|i]; [repeat split; vm_compute; reflexivity|]). lia.
Qed.
(** Hypotheses of [C78_inside]: two points across a boundary. *)
Definition two_points : list fvec := [FV (lit 4 0) fzero fzero; FV (lit (-4) 0) fzero fzero].
Lemma lit_coord m : (Z.abs m <= 100)%Z -> ordinary_coord (lit m 0).
Proof. intros H. destruct (is_lit_Z m ltac:(lia)) as [F V]. split; auto. rewrite V, <- abs_IZR. change (bpow radix2 60) with (IZR (2 ^ 60)). apply IZR_le. lia. Qed.
Lemma zero_coord : ordinary_coord fzero. Proof. split; auto. cbn [fzero B2R]. rewrite Rabs_R0. apply bpow_ge_0. Qed.
Lemma lit_length m : (1 <= m <= 100)%Z -> ordinary_length (lit m 0).
Proof.
  intros H. destruct (is_lit_Z m ltac:(lia)) as [F V]. split; auto. rewrite V. split.
  - apply Rle_trans with 1%R; [change 1%R with (bpow radix2 0); apply bpow_le; lia|apply (IZR_le 1); lia].
  - change (bpow radix2 60) with (IZR (2 ^ 60)). apply IZR_le. lia.
Qed.
Example C78_inside_case :
  plain_box edge_box /\ Forall ordinary_point two_points /\ ordinary_radius (lit 3 0) /\ min_radius fzero /\ neighbour_cell edge_box 1 0 0 /\
  (exists l, faabb_ball edge_box two_points (nth 1 two_points fv0) 1 (lit 3 0) fzero true true (Some l) /\ map indices l = [(1, 0)]) /\
  (exact_distance edge_box (nth 0 two_points fv0) (nth 1 two_points fv0) 1 0 0 = 2 /\ norm (moved edge_box (nth 1 two_points fv0) 1 0 0) = 6 /\ 2 + slack 2 6 <= val (lit 3 0))%R.
Proof.
  assert (V4 := proj2 (is_lit_Z 4 ltac:(lia))). assert (V4' := proj2 (is_lit_Z (-4) ltac:(lia))). assert (V10 := proj2 (is_lit_Z 10 ltac:(lia))). assert (V3 := proj2 (is_lit_Z 3 ltac:(lia))).
  assert (O2 : Forall ordinary_point two_points) by (apply Forall_cons; [split; [apply lit_coord; lia|split; apply zero_coord]|apply Forall_cons; [split; [apply lit_coord; lia|split; apply zero_coord]|apply Forall_nil]]).
  split; [split; [apply lit_length; lia|split; [apply lit_length; lia|split; [apply lit_length; lia|repeat split; reflexivity]]]|].
  split; auto. split; [apply lit_length; lia|]. split; [left; apply is_zero|]. split; [repeat split; try lia; auto|]. split.
  - destruct (ball_indices edge_box two_points (nth 1 two_points fv0) 1 (lit 3 0) fzero true true [(1, 0)]) as (l & H & P); [discriminate|apply points_fin; auto|vm_compute; reflexivity|vm_compute; reflexivity|vm_compute; reflexivity|].
    exists l. split; auto. apply Permutation_length_1_inv. symmetry. auto.
  - unfold exact_distance, moved, norm, dot, rv, fflat, edge_box, fmk_box, two_points, vsub, vadd. cbn [f2d nth fL fvx fvy fvz vx vy vz]. rewrite V4, V4', V10, V3. change (val fzero) with 0%R.
    split; [|split].
    + replace (_ + _)%R with (2 * 2)%R by ring. apply sqrt_square. lra.
    + replace (_ + _)%R with (6 * 6)%R by ring. apply sqrt_square. lra.
    + unfold slack, u. assert (bpow radix2 (-70) <= bpow radix2 (-10))%R by (apply bpow_le; lia). change (bpow radix2 (-10)) with (/ 1024)%R in H. lra.
Qed.
(** Hypotheses of [C78_symmetric]. *)
Definition nan_free : list fvec := [FV (lit 1 0) fzero fzero; FV (lit 1 (-2)) (lit 5 0) fzero; FV (lit (-3) 0) fzero fzero].
Definition free_box : fbox := FBox (FV (lit 10 0) (lit 10 0) (lit 10 0)) fzero fzero fzero false false false false.
Example C78_symmetric_case : open_box free_box /\
  (exists l, faabb_ball free_box nan_free (nth 0 nan_free fv0) 0 (lit 6 0) fzero true true (Some l) /\ Permutation (map indices l) [(0, 1); (0, 2)]).
Proof.
  split; [repeat split|]. apply ball_indices; [discriminate| |vm_compute; reflexivity|vm_compute; reflexivity|vm_compute; reflexivity].
  apply Forall_cons; [repeat split|]. apply Forall_cons; [repeat split|]. apply Forall_cons; [repeat split|apply Forall_nil].
Qed.

Print Assumptions C78_ball.
Print Assumptions C78_defined.
Print Assumptions C78_inside.
Print Assumptions C78_outside.
Print Assumptions C78_order.
Print Assumptions C78_symmetric.
Print Assumptions C78_symmetric_refuted.
Print Assumptions C78_nan_refuted.
