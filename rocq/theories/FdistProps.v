(** C81: distances computed by Box in single precision. *)
From Coq Require Import Psatz Permutation.
From Verif Require Import F32Proofs F32Proofs4 F32Props Vec FaabbProofs FaabbProofs2 FaabbProps FcellProofs4 FcellProps FdistProofs FdistProofs2 FdistSpec.
Import ListNotations.
Open Scope R_scope.

(** * The arrays *)
Lemma cell_inj (m a j a' j' : nat) : (j < m)%nat -> (j' < m)%nat -> (a * m + j = a' * m + j')%nat -> a = a' /\ j = j'.
Proof.
  intros Hj Hj' E. assert (A : a = a'). { assert (H := f_equal (fun n => (n / m)%nat) E). cbn beta in H. rewrite !Nat.div_add_l, (Nat.div_small j), (Nat.div_small j') in H by lia. lia. }
  subst. lia.
Qed.
Lemma cells_nodup m : forall l, NoDup l -> NoDup (map (fun t : nat * nat => (fst t * m + snd t)%nat) (list_prod l (seq 0 m))).
Proof.
  induction l as [|a l IH]; intros ND; [constructor|]. inversion ND as [|x y N1 N2]; subst. cbn [list_prod]. rewrite map_app, map_map. cbn [fst snd]. apply AABBProofs2.NoDup_app_intro; [|apply IH; exact N2|].
  - apply FinFun.Injective_map_NoDup; [intros x y E; lia|apply seq_NoDup].
  - intros x H H'. apply in_map_iff in H as (j & <- & Hj). apply in_map_iff in H' as ([a' j'] & E & H'). cbn [fst snd] in E. apply in_prod_iff in H' as [Ha Hj']. apply in_seq in Hj, Hj'.
    destruct (cell_inj m a' j' a j) as [-> _]; [lia|lia|exact E|]. exact (N1 Ha).
Qed.
(** compute_all_distances: whatever the schedule and whatever the memory held before, entry i * n_points + j is the distance from query
    point i to point j. *)
Theorem C81_matrix b qs ps order empty : length empty = (length qs * length ps)%nat -> schedule2 (length qs) (length ps) order ->
  length (fall_distances b qs ps order empty) = length empty /\
  forall i j, (i < length qs)%nat -> (j < length ps)%nat -> nth (i * length ps + j) (fall_distances b qs ps order empty) fzero = fdistance b (nth i qs fv0) (nth j ps fv0).
Proof.
  intros HL HS. set (m := length ps) in *. set (ix := fun t : nat * nat => (fst t * m + snd t)%nat). set (value := fun t : nat * nat => fdistance b (nth (fst t) qs fv0) (nth (snd t) ps fv0)).
  assert (E : fall_distances b qs ps order empty = fold_left (fun o t => store o (ix t) (value t)) order empty).
  { unfold fall_distances. fold m. generalize empty. clear. induction order as [|[i j] ts IH]; intros o; [reflexivity|]. cbn [fold_left]. rewrite IH. reflexivity. }
  rewrite E. split; [apply stores_length|]. intros i j Hi Hj. unfold schedule2 in HS.
  assert (I : In (i, j) order) by (eapply Permutation_in; [apply Permutation_sym; exact HS|]; apply in_prod; apply in_seq; lia).
  assert (N : NoDup (map ix order)) by (eapply Permutation_NoDup; [apply Permutation_sym, Permutation_map; exact HS|]; apply cells_nodup, seq_NoDup).
  exact (stores_in ix value fzero (i, j) order empty N I ltac:(unfold ix; cbn [fst snd]; rewrite HL; nia)).
Qed.
(** compute_distances: one distance per row, or an exception if the numbers of rows differ. *)
Theorem C81_rows b qs ps order empty : length empty = length qs -> schedule1 (length qs) order ->
  (length qs <> length ps -> py_distances b qs ps order empty = None) /\
  (length qs = length ps -> exists ds, py_distances b qs ps order empty = Some ds /\ length ds = length qs /\
     forall i, (i < length qs)%nat -> nth i ds fzero = fdistance b (nth i qs fv0) (nth i ps fv0)).
Proof.
  intros HL HS. unfold py_distances. split; intros H.
  - apply Nat.eqb_neq in H. rewrite H. reflexivity.
  - rewrite H, Nat.eqb_refl. eexists. split; [reflexivity|]. rewrite <- H. set (value := fun i => fdistance b (nth i qs fv0) (nth i ps fv0)).
    assert (E : fdistances b qs ps order empty = fold_left (fun o t => store o ((fun i => i) t) (value t)) order empty) by reflexivity. rewrite E. split; [rewrite stores_length; exact HL|].
    intros i Hi. unfold schedule1 in HS. apply (stores_in (fun i => i) value fzero i order empty).
    + rewrite map_id. eapply Permutation_NoDup; [apply Permutation_sym; exact HS|apply seq_NoDup].
    + eapply Permutation_in; [apply Permutation_sym; exact HS|]. apply in_seq. lia.
    + rewrite HL. exact Hi.
Qed.

(** * Accuracy *)
(** Every distance is finite and within a stated error of the distance to the nearest periodic image; the points may lie anywhere. *)
Theorem C81_accurate b q p : plain_box b -> good_point b q -> good_point b p ->
  exists D, nearest_distance b q p D /\ finite (fdistance b q p) = true /\ Rabs (val (fdistance b q p) - D) <= distance_error b q p D.
Proof. apply near_distance. Qed.
(** The distance from a point to itself is exactly zero, also in tilted boxes and for points outside. *)
Theorem C81_self b p : sane_box b -> fin3 p -> is (fdistance b p p) 0.
Proof.
  intros SB (Fx & Fy & Fz). destruct (wrap_zero b (fvsub p p) SB) as (X & Y & Z); [apply self_sub; exact Fx|apply self_sub; exact Fy|apply self_sub; exact Fz|]. apply zero_norm; assumption.
Qed.
(** Exchanging the two points changes the distance by at most twice the error... *)
Theorem C81_symmetric b q p : plain_box b -> good_point b q -> good_point b p ->
  exists D, nearest_distance b q p D /\ nearest_distance b p q D /\ Rabs (val (fdistance b q p) - val (fdistance b p q)) <= 2 * distance_error b q p D.
Proof.
  intros PB GQ GP. destruct (near_distance b q p PB GQ GP) as (D & N & _ & E). destruct (near_distance b p q PB GP GQ) as (D' & N' & _ & E').
  assert (D' = D) by (eapply nearest_unique; [exact N'|apply nearest_flip; exact N]). subst D'. exists D. split; [exact N|]. split; [exact N'|].
  unfold distance_error in *. rewrite (spread_flip q p) in E'. set (e := 8 * u * D + _ + _) in *. apply Rabs_le_inv in E. apply Rabs_le_inv in E'. apply Rabs_le. lra.
Qed.
(** ...and in a box without periodic directions not at all. *)
Theorem C81_symmetric_open b q p : open_box b -> fin3 (fvsub p q) -> fdistance b p q = fdistance b q p.
Proof.
  intros (X & Y & Z) (Fx & Fy & Fz). unfold fdistance, fwrap. rewrite X, Y, Z. cbn [negb andb]. cbn [fvsub fvx fvy fvz] in Fx, Fy, Fz.
  destruct (sub_flip _ _ Fx) as [Gx Vx]. destruct (sub_flip _ _ Fy) as [Gy Vy]. destruct (sub_flip _ _ Fz) as [Gz Vz]. f_equal.
  apply norm2_abs; [repeat split; assumption|repeat split; assumption| | |]; cbn [fvsub fvx fvy fvz]; rewrite ?Vx, ?Vy, ?Vz; apply Rabs_Ropp.
Qed.
(** With periodic boundaries the bits differ even for two points well inside the box: in a cube of length 3 the distance from 0 to 1 is
    0.99999976 and from 1 to 0 it is 1.0000001. *)
Definition pt (m : Z) : fvec := FV (lit m 0) fzero fzero.
Theorem C81_symmetric_refuted :
  B2SF (fdistance (ex_box 3) (pt 0) (pt 1)) = SpecFloat.S754_finite false 16777212 (-24) /\
  B2SF (fdistance (ex_box 3) (pt 1) (pt 0)) = SpecFloat.S754_finite false 8388609 (-23).
Proof. split; vm_compute; reflexivity. Qed.
(** In two dimensions the z coordinates count only if no direction is periodic. *)
Definition flat_box (per : bool) : fbox := FBox (FV (lit 3 0) (lit 3 0) fzero) fzero fzero fzero per per per true.
Theorem C81_flat_refuted :
  B2SF (fdistance (flat_box true) fv0 (FV fzero fzero fone)) = SpecFloat.S754_zero false /\
  B2SF (fdistance (flat_box false) fv0 (FV fzero fzero fone)) = SpecFloat.S754_finite false 8388608 (-23).
Proof. split; vm_compute; reflexivity. Qed.

(** * Agreement with neighbour lists *)
(** The distance of every bond found through a cell list is, bit for bit, the distance from the query point to the point; any box, any
    arguments. *)
Lemma drained_distance lc pc q qi r_max r_min excl : forall s l, fdrained (fl_step lc pc q qi r_max r_min excl) s l -> forall x, In x l ->
  fb_d x = fdistance (fl_box lc) q (nth (fb_p x) (fl_points lc) fv0) /\ fb_r x = fwrap (fl_box lc) (fvsub (nth (fb_p x) (fl_points lc) fv0) q).
Proof.
  intros s l H. induction H as [s E|s s' l E H IH|s y s' l E H IH]; intros x Hx; [destruct Hx|apply IH; exact Hx|]. destruct Hx as [<-|Hx]; [|apply IH; exact Hx].
  unfold fl_step in E. destruct (lb_cur s) as [c|].
  - destruct (nth_error (fl_list lc) c) as [[j|]|]; try discriminate. destruct (excl && Nat.eqb qi j)%bool; [discriminate|]. cbv zeta in E. destruct (_ && _)%bool; [|discriminate].
    assert (Y : y = FBond qi j (Bsqrt mode_NE (fnorm2 (fwrap (fl_box lc) (fvsub (nth j (fl_points lc) fv0) q)))) (fwrap (fl_box lc) (fvsub (nth j (fl_points lc) fv0) q))) by congruence. subst y. cbn [fb_d fb_r fb_p]. split; reflexivity.
  - cbv zeta in E. destruct (Bltb _ _); [discriminate|]. destruct (existsb _ _); discriminate.
Qed.
Theorem C81_linkcell conv b points cw lc q qi r_max r_min excl l : flc_make conv b points cw = Some lc -> flc_ball conv lc q qi r_max r_min excl (Some l) ->
  forall x, In x l -> fb_d x = fdistance b q (nth (fb_p x) points fv0) /\ fb_r x = fwrap b (fvsub (nth (fb_p x) points fv0) q).
Proof.
  intros HM HB x Hx. assert (E : fl_box lc = b /\ fl_points lc = points).
  { unfold flc_make in HM. destruct (negb (fnq_ok b points)); [discriminate|]. destruct (fdimensions conv b cw) as [[[dx dy] dz]|]; [|discriminate]. cbv zeta in HM. destruct (_ || _)%bool; [discriminate|]. destruct (_ <? _)%Z; [discriminate|].
    destruct (fcell_list _ _ _ _) as [cl|]; [|discriminate]. cbn [option_map] in HM. assert (L : lc = FLC b points cw (dx, dy, if f2d b then 1%Z else dz) cl) by congruence. subst lc. split; reflexivity. }
  destruct E as [<- <-]. unfold flc_ball in HB. destruct (fpoint_args_ok r_max r_min); [|discriminate]. destruct HB as (pc & l' & _ & E & D). assert (l' = l) by congruence. subst l'.
  exact (drained_distance _ _ _ _ _ _ _ _ _ D x Hx).
Qed.
(** The distance of a bond found through the tree is within the errors of both computations, as long as r_max is at most half of every periodic length. *)
Lemma axis_reach (per : bool) (L x s : R) (k n : Z) : 0 < L -> Rabs (x - IZR k * L) <= L / 2 + s -> 0 <= s -> Rabs (x - IZR k * L) <= Rabs (x - IZR n * L) + 2 * s.
Proof.
  intros HL H S. destruct (Z.eq_dec n k) as [->|N]; [lra|]. apply Rabs_le_inv in H.
  assert (C : (n - k <= -1 \/ 1 <= n - k)%Z) by lia. destruct C as [C|C]; apply IZR_le in C; rewrite minus_IZR in C.
  - assert ((IZR n - IZR k) * L <= -1 * L) by (apply Rmult_le_compat_r; lra). unfold Rabs. destruct (Rcase_abs (x - IZR k * L)), (Rcase_abs (x - IZR n * L)); lra.
  - assert (1 * L <= (IZR n - IZR k) * L) by (apply Rmult_le_compat_r; lra). unfold Rabs. destruct (Rcase_abs (x - IZR k * L)), (Rcase_abs (x - IZR n * L)); lra.
Qed.
Lemma comp_norm v : Rabs (vx v) <= norm v /\ Rabs (vy v) <= norm v /\ Rabs (vz v) <= norm v.
Proof.
  assert (N := norm_nonneg v). assert (Q := norm_sq v). unfold dot in Q.
  assert (S : forall x, x * x <= norm v * norm v -> Rabs x <= norm v). { intros x H. apply Rsqr_incr_0_var; [|exact N]. rewrite <- Rsqr_abs. exact H. }
  split; [|split]; apply S; rewrite Q; nra.
Qed.
(** Norms of vectors whose components differ little. *)
Lemma norm_close a c s : 0 <= s -> Rabs (vx a) <= Rabs (vx c) + s -> Rabs (vy a) <= Rabs (vy c) + s -> Rabs (vz a) <= Rabs (vz c) + s -> norm a <= norm c + 3 * s.
Proof.
  intros HS X Y Z. set (e := V3 (Rabs (vx c)) (Rabs (vy c)) (Rabs (vz c))). set (f := V3 (Rabs (vx c) + s) (Rabs (vy c) + s) (Rabs (vz c) + s)).
  assert (P : forall x, Rabs (Rabs x + s) = Rabs x + s) by (intros x; apply Rabs_pos_eq; assert (Q := Rabs_pos x); lra).
  assert (A : norm a <= norm f) by (apply norm_comp; cbn [f vx vy vz]; rewrite P; assumption). assert (B : norm e <= norm c) by (apply norm_comp; cbn [e vx vy vz]; rewrite Rabs_Rabsolu; apply Rle_refl).
  assert (C := norm_diff f e). assert (D : norm (f - e)%V <= 3 * s). { eapply Rle_trans; [apply norm_sum|]. unfold f, e, vsub. cbn [vx vy vz]. replace (Rabs (vx c) + s - Rabs (vx c)) with s by ring. replace (Rabs (vy c) + s - Rabs (vy c)) with s by ring. replace (Rabs (vz c) + s - Rabs (vz c)) with s by ring. rewrite (Rabs_pos_eq s) by exact HS. lra. }
  apply Rabs_le_inv in C. lra.
Qed.
Theorem C81_aabb b points q qi r_max r_min excl check l : points <> [] -> plain_box b -> Forall (good_point b) points -> good_point b q ->
  ordinary_radius r_max -> min_radius r_min -> half_periodic b r_max -> faabb_ball b points q qi r_max r_min excl check (Some l) ->
  forall x, In x l -> let p := nth (fb_p x) points fv0 in
  Rabs (val (fb_d x) - val (fdistance b q p)) <= 128 * u * (box_size b + extent q + extent p) + bpow radix2 (-66).
Proof.
  intros HN PB GP GQ Or Om HF HB x Hx p.
  assert (GO : forall v, good_point b v -> ordinary_point v). { intros v ((A1 & A2) & (B1 & B2) & (C1 & C2) & _). assert (L := bpow_le radix2 59 60 ltac:(lia)). repeat split; try assumption; lra. }
  assert (HO : Forall ordinary_point points) by (eapply Forall_impl; [|exact GP]; exact GO).
  destruct (C78_outside b points q qi r_max r_min excl check l HN PB HO (GO q GQ) Or Om HB x Hx) as (_ & Hp & _ & i & j & k & NC & D1 & _ & D3 & _). fold p in D1, D3.
  assert (Gp : good_point b p) by (apply (proj1 (Forall_forall _ _) GP); apply nth_In; exact Hp).
  destruct (near_distance b q p PB GQ Gp) as (D0 & N0 & _ & E0).
  set (D := exact_distance b p q i j k) in *. set (S := norm (moved b q i j k)) in *. set (s := slack D S) in *.
  assert (PB' := PB). destruct PB as (Lx & Ly & Lz & _). assert (P60 := bpow_gt_0 radix2 (-60)). assert (L2 : f2d b = true -> is (fvz (fL b)) 0) by (intros E; rewrite E in Lz; exact Lz).
  assert (Lx0 : 0 < val (fvx (fL b))) by (destruct Lx as [_ [H _]]; lra). assert (Ly0 : 0 < val (fvy (fL b))) by (destruct Ly as [_ [H _]]; lra).
  assert (Lz0 : 0 <= val (fvz (fL b)) /\ (f2d b = false -> 0 < val (fvz (fL b)))). { destruct (f2d b); [destruct Lz as [_ ->]; split; [lra|discriminate]|destruct Lz as [_ [H _]]; split; [lra|intros _; lra]]. }
  assert (D00 : 0 <= D) by apply norm_nonneg. assert (S00 : 0 <= S) by apply norm_nonneg. assert (P70 := bpow_gt_0 radix2 (-70)). assert (U : 0 < u < / 1000) by (unfold u; lra).
  assert (s0 : 0 <= s). { unfold s, slack. assert (0 <= u * D) by (apply Rmult_le_pos; lra). assert (0 <= u * S) by (apply Rmult_le_pos; lra). lra. }
  destruct (axis_form b q p i j k L2) as (Ax & Ay & Az). set (d := (rv (fflat b p) - moved b q i j k)%V) in *. cbv zeta in Ax, Ay, Az.
  destruct (comp_norm d) as (Cx & Cy & Cz). change (norm d) with D in Cx, Cy, Cz.
  destruct NC as ((Bi & Bj & Bk) & Ni & Nj & Nk). destruct HF as (Hx2 & Hy2 & Hz2).
  (* the image of the bond is nearly the nearest one *)
  destruct N0 as [(i0 & j0 & k0 & (Ai & Aj & Ak) & EE) M0]. destruct (axis_form b q p i0 j0 k0 L2) as (Ax0 & Ay0 & Az0). cbv zeta in Ax0, Ay0, Az0.
  assert (UP : D <= D0 + 3 * (2 * s)).
  { rewrite EE. unfold exact_distance. unfold D at 1. unfold exact_distance. fold d. apply norm_close; [lra| | |].
    - rewrite Ax, Ax0. destruct (fpx b) eqn:X.
      + assert (H := axis_reach true (val (fvx (fL b))) (val (fvx p) - val (fvx q)) s i i0 Lx0). replace (val (fvx p) - (val (fvx q) + IZR i * val (fvx (fL b)))) with (val (fvx p) - val (fvx q) - IZR i * val (fvx (fL b))) in * by ring.
        replace (val (fvx p) - (val (fvx q) + IZR i0 * val (fvx (fL b)))) with (val (fvx p) - val (fvx q) - IZR i0 * val (fvx (fL b))) by ring. apply H; [|exact s0]. rewrite Ax in Cx. specialize (Hx2 eq_refl). lra.
      + rewrite (Ai eq_refl). destruct (Z.eq_dec i 0) as [->|N]; [lra|]. discriminate (Ni N).
    - rewrite Ay, Ay0. destruct (fpy b) eqn:X.
      + assert (H := axis_reach true (val (fvy (fL b))) (val (fvy p) - val (fvy q)) s j j0 Ly0). replace (val (fvy p) - (val (fvy q) + IZR j * val (fvy (fL b)))) with (val (fvy p) - val (fvy q) - IZR j * val (fvy (fL b))) in * by ring.
        replace (val (fvy p) - (val (fvy q) + IZR j0 * val (fvy (fL b)))) with (val (fvy p) - val (fvy q) - IZR j0 * val (fvy (fL b))) by ring. apply H; [|exact s0]. rewrite Ay in Cy. specialize (Hy2 eq_refl). lra.
      + rewrite (Aj eq_refl). destruct (Z.eq_dec j 0) as [->|N]; [lra|]. discriminate (Nj N).
    - rewrite Az, Az0. destruct (f2d b) eqn:F2; [lra|]. destruct (fpz b) eqn:X.
      + assert (H := axis_reach true (val (fvz (fL b))) (val (fvz p) - val (fvz q)) s k k0 (proj2 Lz0 eq_refl)). replace (val (fvz p) - (val (fvz q) + IZR k * val (fvz (fL b)))) with (val (fvz p) - val (fvz q) - IZR k * val (fvz (fL b))) in * by ring.
        replace (val (fvz p) - (val (fvz q) + IZR k0 * val (fvz (fL b)))) with (val (fvz p) - val (fvz q) - IZR k0 * val (fvz (fL b))) by ring. apply H; [|exact s0]. rewrite Az in Cz. specialize (Hz2 eq_refl eq_refl). lra.
      + rewrite (Ak (or_introl eq_refl)). destruct (Z.eq_dec k 0) as [->|N]; [lra|]. discriminate (proj1 (Nk N)). }
  assert (LO : D0 <= D). { apply M0. split; [|split]; intros H; [destruct (Z.eq_dec i 0) as [E|N]; [exact E|rewrite (Ni N) in H; discriminate]|destruct (Z.eq_dec j 0) as [E|N]; [exact E|rewrite (Nj N) in H; discriminate]|].
    destruct (Z.eq_dec k 0) as [E|N]; [exact E|]. destruct (Nk N) as [K1 K2]. rewrite K1, K2 in H. destruct H; discriminate. }
  (* everything is small against the size of the numbers *)
  set (X := box_size b + extent q + extent p). assert (EXP : forall v, 0 <= extent v) by (intros v; unfold extent; assert (A := Rabs_pos (val (fvx v))); assert (B := Rabs_pos (val (fvy v))); assert (C := Rabs_pos (val (fvz v))); lra).
  assert (SP := size_pos b PB'). assert (Eq := EXP q). assert (Ep := EXP p).
  assert (IB : forall n L, (Z.abs n <= 1)%Z -> 0 <= L -> Rabs (IZR n * L) <= L). { intros n L Hn HL. rewrite Rabs_mult, (Rabs_pos_eq L) by exact HL. rewrite <- abs_IZR. assert (IZR (Z.abs n) <= 1) by (apply (IZR_le _ 1); exact Hn). assert (IZR (Z.abs n) * L <= 1 * L) by (apply Rmult_le_compat_r; lra). lra. }
  assert (FE : forall v, norm (rv (fflat b v)) <= extent v).
  { intros v. eapply Rle_trans; [apply norm_sum|]. unfold rv, fflat, extent. cbn [vx vy vz]. destruct (f2d b); cbn [fvx fvy fvz]; [|lra]. assert (A := Rabs_pos (val (fvz v))). cbn [fzero B2R]. rewrite Rabs_R0. lra. }
  assert (SB : S <= box_size b + extent q).
  { unfold S, moved. eapply Rle_trans; [apply norm_triangle|]. assert (A := FE q). assert (B : norm (V3 (IZR i * val (fvx (fL b))) (IZR j * val (fvy (fL b))) (IZR k * val (fvz (fL b)))) <= box_size b).
    { eapply Rle_trans; [apply norm_sum|]. cbn [vx vy vz]. unfold box_size. assert (A1 := IB i _ Bi (Rlt_le _ _ Lx0)). assert (A2 := IB j _ Bj (Rlt_le _ _ Ly0)). assert (A3 := IB k _ Bk (proj1 Lz0)). lra. } lra. }
  assert (DX : D <= X). { unfold D, exact_distance, X. assert (A := norm_diff (rv (fflat b p)) (moved b q i j k)). assert (T : norm (rv (fflat b p) - moved b q i j k)%V <= norm (rv (fflat b p)) + norm (moved b q i j k)).
    { replace (rv (fflat b p) - moved b q i j k)%V with (rv (fflat b p) + - moved b q i j k)%V by (unfold vsub, vadd, vneg; cbn [vx vy vz]; f_equal; ring). eapply Rle_trans; [apply norm_triangle|]. apply Rplus_le_compat_l.
      right. unfold norm. f_equal. unfold dot, vneg. cbn [vx vy vz]. ring. }
    assert (B := FE p). fold S in T. lra. }
  assert (SPR : spread q p <= extent q + extent p).
  { unfold spread, extent. assert (T : forall a c, Rabs (a - c) <= Rabs c + Rabs a) by (intros a c; unfold Rminus; eapply Rle_trans; [apply Rabs_triang|]; rewrite Rabs_Ropp; lra).
    assert (A := T (val (fvx p)) (val (fvx q))). assert (B := T (val (fvy p)) (val (fvy q))). assert (C := T (val (fvz p)) (val (fvz q))). lra. }
  assert (B66 : bpow radix2 (-66) = 16 * bpow radix2 (-70)) by (change (-66)%Z with (4 + -70)%Z; rewrite bpow_plus; reflexivity). rewrite B66.
  assert (SS : s <= 12 * u * X + bpow radix2 (-70)). { unfold s, slack. assert (u * D <= u * X) by (apply Rmult_le_compat_l; lra). assert (u * S <= u * X) by (apply Rmult_le_compat_l; unfold X in *; lra). lra. }
  assert (ER : distance_error b q p D0 <= 24 * u * X + bpow radix2 (-70)). { unfold distance_error. assert (u * D0 <= u * X) by (apply Rmult_le_compat_l; lra). assert (u * (box_size b + spread q p) <= u * X) by (apply Rmult_le_compat_l; unfold X; lra). lra. }
  assert (X0 : 0 <= u * X) by (apply Rmult_le_pos; unfold X; lra). apply Rabs_le_inv in D3. apply Rabs_le_inv in E0. fold X. clearbody s D S X. apply Rabs_le. lra.
Qed.
(** The bits differ: 0 and 1 in a cube of length 3 are 1 apart according to AABBQuery, 0.99999976 according to the box and LinkCell. *)
Theorem C81_same_bits_refuted : exists l, faabb_ball (ex_box 3) [pt 1] (pt 0) 0 (lit 5 (-2)) fzero false true (Some l) /\
  map (fun x => B2SF (fb_d x)) l = [SpecFloat.S754_finite false 8388608 (-23)] /\ B2SF (fdistance (ex_box 3) (pt 0) (pt 1)) = SpecFloat.S754_finite false 16777212 (-24).
Proof.
  assert (HN : [pt 1] <> []) by discriminate. assert (HF : Forall fin3 [pt 1]) by (apply Forall_cons; [repeat split; vm_compute; reflexivity|apply Forall_nil]).
  destruct (C78_defined (ex_box 3) [pt 1] (pt 0) 0 (lit 5 (-2)) fzero false true HN HF) as (res & H & _).
  destruct (C78_ball _ _ _ _ _ _ _ _ _ HN HF H) as [[_ [E|[_ E]]]|(images & l & _ & EI & -> & P)]; [vm_compute in E; discriminate|vm_compute in E; discriminate|].
  exists l. split; [exact H|]. split; [|vm_compute; reflexivity]. apply images_eq in EI. subst images. apply (Permutation_map (fun x => B2SF (fb_d x))) in P.
  apply Permutation_length_1_inv. symmetry. etransitivity; [exact P|]. match goal with |- Permutation ?x _ => assert (E : x = [SpecFloat.S754_finite false 8388608 (-23)]) by (vm_compute; reflexivity) end. rewrite E. apply Permutation_refl.
Qed.

(** * Cases *)
Lemma pt_good b m : f2d b = false -> (Z.abs m <= 1000)%Z -> good_point b (pt m).
Proof.
  intros D H. destruct (is_lit_Z m) as [F V]; [lia|]. assert (L := bpow_le radix2 10 59 ltac:(lia)). change (bpow radix2 10) with 1024 in L.
  split; [split; [exact F|]|split; [|split]]; cbn [pt fvx fvy fvz]; [rewrite V, <- abs_IZR; apply IZR_le in H; lra| | |rewrite D; discriminate]; (split; [reflexivity|cbn; rewrite Rabs_R0; lra]).
Qed.
(** 0 and 1 in the cube of length 3; a point outside a tilted box; a matrix written column by column over old contents; a bond. *)
Example C81_case :
  plain_box (ex_box 3) /\ good_point (ex_box 3) (pt 0) /\ good_point (ex_box 3) (pt 1) /\ nearest_distance (ex_box 3) (pt 0) (pt 1) 1 /\ distance_error (ex_box 3) (pt 0) (pt 1) 1 < / 50000 /\
  sane_box (FBox (fL (ex_box 3)) (lit 1 (-1)) (lit 3 0) (lit (-2) 0) true true true false) /\ fin3 (pt 77) /\
  open_box (flat_box false) /\
  schedule2 2 2 [(0, 0); (1, 0); (0, 1); (1, 1)]%nat /\ schedule1 2 [1; 0]%nat /\
  map (fun x => B2SF x) (fall_distances (flat_box false) [pt 0; pt 3] [pt 2; pt 4] [(0, 0); (1, 0); (0, 1); (1, 1)]%nat (repeat fone 4)) = map (fun m => B2SF (lit m 0)) [2; 4; 1; 1]%Z /\
  ordinary_radius (lit 5 (-2)) /\ min_radius fzero /\ half_periodic (ex_box 3) (lit 5 (-2)).
Proof.
  assert (V1 := proj2 (is_lit_Z 1 ltac:(lia))). assert (V0 := proj2 (is_lit_Z 0 ltac:(lia))). assert (W3 := proj2 (is_lit_Z 3 ltac:(lia))). assert (PB := ex_box_plain 3 ltac:(lia)).
  split; [exact PB|]. split; [apply pt_good; [reflexivity|lia]|]. split; [apply pt_good; [reflexivity|lia]|].
  assert (L2 : f2d (ex_box 3) = true -> is (fvz (fL (ex_box 3))) 0) by discriminate.
  assert (AF := fun i j k => axis_form (ex_box 3) (pt 0) (pt 1) i j k L2). unfold ex_box, fmk_box, pt in AF. cbn [fL fvx fvy fvz f2d] in AF. rewrite V1, V0, W3 in AF. cbn [fzero B2R] in AF.
  split.
  - split.
    + exists 0%Z, 0%Z, 0%Z. split; [repeat split|]. unfold exact_distance, norm. destruct (AF 0 0 0)%Z as (A & B & C). unfold ex_box, fmk_box, pt. unfold dot. rewrite A, B, C. replace ((1 - (0 + 0 * 3)) * (1 - (0 + 0 * 3)) + (0 - (0 + 0 * 3)) * (0 - (0 + 0 * 3)) + (0 - (0 + 0 * 3)) * (0 - (0 + 0 * 3))) with 1 by ring. symmetry. apply sqrt_1.
    + intros i j k _. destruct (AF i j k) as (A & _). unfold exact_distance, ex_box, fmk_box, pt. eapply Rle_trans; [|apply (proj1 (comp_norm _))]. rewrite A.
      assert (C : (i <= 0 \/ 1 <= i)%Z) by lia. destruct C as [C|C]; apply IZR_le in C; unfold Rabs; destruct (Rcase_abs _); lra.
  - split.
    { unfold distance_error, box_size, spread, ex_box, fmk_box, pt. cbn [fL fvx fvy fvz]. rewrite V1, V0, W3. cbn [fzero B2R]. rewrite !Rminus_0_r, Rabs_R0, (Rabs_pos_eq 1) by lra.
      assert (P70 : bpow radix2 (-70) <= / 16777216) by (replace (/ 16777216) with (bpow radix2 (-24)) by reflexivity; apply bpow_le; lia). unfold u. lra. }
    assert (HC : forall m e, (Z.abs m <= 1000)%Z -> (-10 <= e <= 0)%Z -> half_coord (lit m e)).
    { intros m e Hm He. assert (B : Rabs (IZR m * bpow radix2 e) <= 1000). { rewrite Rabs_mult, (Rabs_pos_eq (bpow radix2 e)) by apply bpow_ge_0. rewrite <- abs_IZR. apply IZR_le in Hm. assert (Q := bpow_le radix2 e 0 ltac:(lia)). change (bpow radix2 0) with 1 in Q. assert (R := bpow_ge_0 radix2 e). assert (R2 := Rabs_pos (IZR m)). rewrite <- abs_IZR in R2. nra. }
      assert (L := bpow_le radix2 10 59 ltac:(lia)). change (bpow radix2 10) with 1024 in L. assert (L' := bpow_le radix2 10 127 ltac:(lia)). change (bpow radix2 10) with 1024 in L'.
      destruct (is_lit m e) as [F V]; [unfold fits; lra|]. split; [exact F|]. rewrite V. eapply Rle_trans; [apply (rnd_abs _ 10); [lia|change (bpow radix2 10) with 1024; lra]|]. change (bpow radix2 10) with 1024. exact L. }
    assert (OL := ex_length 3 ltac:(lia)).
    split; [split; [exact OL|split; [exact OL|split; [exact OL|split; [apply HC; lia|split; apply HC; lia]]]]|].
    split; [repeat split; vm_compute; reflexivity|]. split; [repeat split|].
    split; [unfold schedule2; cbn; apply perm_skip, perm_swap|]. split; [apply perm_swap|]. split; [vm_compute; reflexivity|].
    assert (V5 : is (lit 5 (-2)) (5 / 4)).
    { assert (E : 5 / 4 = IZR 5 * bpow radix2 (-2)) by (change (bpow radix2 (-2)) with (/ 4); lra). destruct (is_lit 5 (-2)) as [F V]; [rewrite <- E; unfold fits; rewrite Rabs_pos_eq by lra; assert (L := bpow_le radix2 10 127 ltac:(lia)); change (bpow radix2 10) with 1024 in L; lra|].
      split; [exact F|]. rewrite V, E. apply rnd_fmt. apply fmt_F2R; [cbn; lia|lia]. }
    destruct V5 as [F5 V5]. split; [split; [exact F5|rewrite V5; assert (A := bpow_le radix2 (-60) 0 ltac:(lia)); assert (B := bpow_le radix2 1 60 ltac:(lia)); change (bpow radix2 0) with 1 in A; change (bpow radix2 1) with 2 in B; lra]|].
    split; [left; split; reflexivity|]. unfold half_periodic, ex_box, fmk_box. cbn [fL fvx fvy fvz]. rewrite W3, V5. split; [intros; lra|split; intros; lra].
Qed.
Print Assumptions C81_matrix.
Print Assumptions C81_rows.
Print Assumptions C81_accurate.
Print Assumptions C81_self.
Print Assumptions C81_symmetric.
Print Assumptions C81_symmetric_open.
Print Assumptions C81_symmetric_refuted.
Print Assumptions C81_flat_refuted.
Print Assumptions C81_linkcell.
Print Assumptions C81_aabb.
Print Assumptions C81_same_bits_refuted.
