(** Proofs about cells in single precision: which shells are searched; displacements and distances. *)
From Coq Require Import Psatz.
From Verif Require Import LinkCellModel NListProofs MArrayProofs LinkCellProofs LinkCellProofs2 LinkCellProofs3 F32Proofs F32Proofs4 F32Props Vec FaabbProofs FaabbProofs2 FcellSpec FcellProofs FcellProofs2 FcellProofs3.
Open Scope R_scope.

Lemma One60 : bpow radix2 60 * bpow radix2 (-60) = 1. Proof. rewrite <- bpow_plus. reflexivity. Qed.
Section Reach.
Variables (lc : flinkcell) (r_max : f32).
Let cw := fl_width lc.
Hypothesis Oc : ordinary_length cw.
Hypothesis Or : ordinary_radius r_max.
Lemma cw_pos : 0 < val cw. Proof. destruct Oc as [_ [H _]]. assert (P := bpow_gt_0 radix2 (-60)). lra. Qed.
Lemma r_pos : 0 < val r_max. Proof. destruct Or as [_ [H _]]. assert (P := bpow_gt_0 radix2 (-60)). lra. Qed.
Lemma extra_cases : (fextra_width lc r_max = 0%Z /\ val r_max = val cw) \/ fextra_width lc r_max = 1%Z.
Proof.
  unfold fextra_width. fold cw. destruct (Beqb r_max cw) eqn:E; auto. left. split; auto. rewrite Beqb_correct in E by (try apply Or; try apply Oc). destruct (Req_bool_spec (val r_max) (val cw)); auto. discriminate.
Qed.
Lemma out_ge k : fits (IZR k) -> Rabs (IZR k) * (2 * val cw) <= bpow radix2 127 -> rnd (rnd (IZR k) * val cw) <= val r_max -> fout lc r_max (k + fextra_width lc r_max) = false.
Proof.
  intros H1 H2 H3. unfold fout. fold cw. replace (k + fextra_width lc r_max - fextra_width lc r_max)%Z with k by ring. destruct (scaled k cw Oc H1 H2) as (F & V & _).
  rewrite Bltb_correct by (auto; apply Or). apply Rlt_bool_false. rewrite V. auto.
Qed.
Lemma small_k k : (Z.abs k <= 1)%Z -> fits (IZR k) /\ Rabs (IZR k) * (2 * val cw) <= bpow radix2 127 /\ rnd (rnd (IZR k) * val cw) = IZR k * val cw.
Proof.
  intros Hk. assert (B : Rabs (IZR k) <= 1) by (rewrite <- abs_IZR; apply (IZR_le _ 1); auto). assert (P := cw_pos). assert (O1 : 1 <= bpow radix2 127) by (apply (bpow_le radix2 0 127); lia).
  split; [unfold fits; lra|]. split.
  - destruct Oc as [_ [_ H]]. assert (B127 : 2 * bpow radix2 60 <= bpow radix2 127) by (change 2 with (bpow radix2 1); rewrite <- bpow_plus; apply bpow_le; lia). assert (Rabs (IZR k) * (2 * val cw) <= 1 * (2 * val cw)) by (apply Rmult_le_compat_r; lra). lra.
  - rewrite (rnd_fmt (IZR k)) by (apply fmt_IZR; lia). apply rnd_fmt. assert (I : (k = -1 \/ k = 0 \/ k = 1)%Z) by lia. destruct I as [->|[->| ->]].
    + replace (-1 * val cw) with (- val cw) by ring. apply fmt_opp, fmt_val.
    + rewrite Rmult_0_l. apply fmt_0.
    + rewrite Rmult_1_l. apply fmt_val.
Qed.
Lemma out_0 : fout lc r_max 0 = false.
Proof.
  assert (P := cw_pos). assert (Q := r_pos). destruct extra_cases as [[E _]|E].
  - destruct (small_k 0 ltac:(lia)) as (A & B & C). assert (H := out_ge 0 A B). rewrite E in H. apply H. rewrite C. lra.
  - destruct (small_k (-1) ltac:(lia)) as (A & B & C). assert (H := out_ge (-1) A B). rewrite E in H. apply H. rewrite C. lra.
Qed.
(** Shells within reach. *)
Lemma in_reach (ch : Z) (X : R) : (1 <= ch)%Z -> (IZR ch - 1) * val cw < X -> X * (1 + u) <= val r_max -> fout lc r_max ch = false.
Proof.
  intros Hch HX HR. assert (P := cw_pos). assert (Q := r_pos). assert (U : 0 < u < / 1000) by (unfold u; lra).
  assert (X0 : 0 <= (IZR ch - 1) * val cw) by (apply Rmult_le_pos; [assert (1 <= IZR ch) by (apply IZR_le; auto)|]; lra).
  destruct extra_cases as [[E EV]|E].
  - assert (ch < 2)%Z. { apply lt_IZR. apply Rmult_lt_reg_r with (val cw); auto. nra. }
    assert (ch = 1%Z) by lia. subst ch. destruct (small_k 1 ltac:(lia)) as (A & B & C). assert (H1 := out_ge 1 A B). rewrite E in H1. apply H1. rewrite C. lra.
  - replace ch with (ch - 1 + fextra_width lc r_max)%Z by (rewrite E; ring). destruct Or as [_ [R0 R1]]. destruct Oc as [_ [C0 C1]].
    assert (P60 := bpow_gt_0 radix2 60). assert (Pm60 := bpow_gt_0 radix2 (-60)).
    assert (K0 : 0 <= IZR (ch - 1)) by (apply (IZR_le 0); lia). assert (K1 : IZR (ch - 1) * val cw < X) by (rewrite minus_IZR; auto).
    assert (XB : X <= bpow radix2 60) by nra.
    assert (KB : IZR (ch - 1) <= bpow radix2 120).
    { change 120%Z with (60 + 60)%Z. rewrite bpow_plus. apply Rmult_le_reg_r with (bpow radix2 (-60)); auto. rewrite Rmult_assoc, One60, Rmult_1_r. assert (IZR (ch - 1) * bpow radix2 (-60) <= IZR (ch - 1) * val cw) by (apply Rmult_le_compat_l; auto). lra. }
    assert (L120 : bpow radix2 120 <= bpow radix2 127) by (apply bpow_le; lia). assert (L61 : 2 * bpow radix2 60 <= bpow radix2 127) by (change 2 with (bpow radix2 1); rewrite <- bpow_plus; apply bpow_le; lia).
    assert (A : fits (IZR (ch - 1))) by (unfold fits; rewrite Rabs_pos_eq; lra). assert (B : Rabs (IZR (ch - 1)) * (2 * val cw) <= bpow radix2 127) by (rewrite Rabs_pos_eq by auto; lra).
    apply out_ge; auto. destruct (scaled (ch - 1) cw (conj (proj1 Oc) (conj C0 C1)) A B) as (_ & _ & e & Ee & ->). apply Rabs_le_inv in Ee.
    apply rnd_le_fmt; [apply fmt_val|]. eapply Rle_trans; [|exact HR]. replace (IZR (ch - 1) * (1 + e) * val cw) with (IZR (ch - 1) * val cw * (1 + e)) by ring. apply Rmult_le_compat; try lra. apply Rmult_le_pos; lra.
Qed.
(** The search ends. *)
Lemma out_some : exists K, (0 <= K)%Z /\ fout lc r_max K = true.
Proof.
  assert (P := cw_pos). assert (Q := r_pos). assert (U : 0 < u < / 1000) by (unfold u; lra). destruct Or as [Fr [R0 R1]]. destruct Oc as [Fc [C0 C1]].
  set (k := Zceil (2 * val r_max / val cw)). exists (k + fextra_width lc r_max)%Z. assert (H1 := Zceil_ub (2 * val r_max / val cw)). assert (H2 : IZR k < 2 * val r_max / val cw + 1) by (assert (H2 := Zceil_lb (2 * val r_max / val cw)); fold k in H2; lra). fold k in H1.
  assert (Q0 : 0 < 2 * val r_max / val cw) by (apply Rdiv_lt_0_compat; lra). assert (K0 : (0 < k)%Z) by (apply lt_IZR; lra).
  split; [destruct extra_cases as [[-> _]| ->]; lia|].
  assert (M1 : 2 * val r_max <= IZR k * val cw) by (replace (2 * val r_max) with (2 * val r_max / val cw * val cw) by (field; lra); apply Rmult_le_compat_r; lra).
  assert (M2 : IZR k * val cw <= 2 * val r_max + val cw) by (replace (2 * val r_max + val cw) with ((2 * val r_max / val cw + 1) * val cw) by (field; lra); apply Rmult_le_compat_r; lra).
  assert (P60 := bpow_gt_0 radix2 60). assert (Pm60 := bpow_gt_0 radix2 (-60)).
  assert (KB : IZR k <= 3 * bpow radix2 120).
  { change 120%Z with (60 + 60)%Z. rewrite bpow_plus. apply Rmult_le_reg_r with (bpow radix2 (-60)); auto. replace (3 * (bpow radix2 60 * bpow radix2 60) * bpow radix2 (-60)) with (3 * bpow radix2 60 * (bpow radix2 60 * bpow radix2 (-60))) by ring. rewrite One60, Rmult_1_r. assert (IZR k * bpow radix2 (-60) <= IZR k * val cw) by (apply Rmult_le_compat_l; lra). lra. }
  assert (L122 : 3 * bpow radix2 120 <= bpow radix2 127) by (change 127%Z with (7 + 120)%Z; rewrite bpow_plus; change (bpow radix2 7) with 128; assert (H := bpow_gt_0 radix2 120); lra).
  assert (L63 : 8 * bpow radix2 60 <= bpow radix2 127) by (change 8 with (bpow radix2 3); rewrite <- bpow_plus; apply bpow_le; lia).
  assert (A : fits (IZR k)) by (unfold fits; rewrite Rabs_pos_eq; lra). assert (B : Rabs (IZR k) * (2 * val cw) <= bpow radix2 127) by (rewrite Rabs_pos_eq by lra; lra).
  unfold fout. fold cw. replace (k + fextra_width lc r_max - fextra_width lc r_max)%Z with k by ring. destruct (scaled k cw (conj Fc (conj C0 C1)) A B) as (F & V & e & Ee & Re). apply Rabs_le_inv in Ee.
  rewrite Bltb_correct by auto. apply Rlt_bool_true. rewrite V, Re. replace (IZR k * (1 + e) * val cw) with (IZR k * val cw * (1 + e)) by ring.
  assert (W : 2 * val r_max * (1 - u) <= IZR k * val cw * (1 + e)) by (apply Rmult_le_compat; try lra).
  destruct (rnd_rel (IZR k * val cw * (1 + e))) as (e2 & E2 & ->).
  { rewrite Rabs_pos_eq by nra. apply Rle_trans with (bpow radix2 (-60)); [apply bpow_le; lia|]. nra. }
  apply Rabs_le_inv in E2. apply Rlt_le_trans with (2 * val r_max * (1 - u) * (1 - u)); [nra|]. apply Rmult_le_compat; try lra. apply Rmult_le_pos; lra.
Qed.
End Reach.

(** * Displacements *)
Lemma wrapped_axis (L p q w : f32) : ordinary_length L -> on_axis L p -> on_axis L q -> F32Spec.image_of true L (fsub p q) w ->
  exists k : Z, (Z.abs k <= 1)%Z /\ Rabs (val w - (val p - (val q + IZR k * val L))) <= 13 * u * val L.
Proof.
  intros [FL [L0 L1]] [Fp Bp] [Fq Bq] (Fw & Bw & k & _ & E). cbn iota in Bw. assert (P := bpow_gt_0 radix2 (-60)). apply Rabs_le_inv in Bp. apply Rabs_le_inv in Bq.
  assert (D : Rabs (val p - val q) <= val L) by (apply Rabs_le; lra).
  destruct (is_sub p q Fp Fq) as [F V]. { unfold fits. eapply Rle_trans; [exact D|]. eapply Rle_trans; [exact L1|]. apply bpow_le. lia. }
  assert (B : Rabs (val (fsub p q)) <= val L) by (rewrite V; apply abs_round_le_generic; try typeclasses eauto; [apply fmt_val|auto]).
  destruct (rnd_minus (val p) (val q) (fmt_val p) (fmt_val q)) as (e & Ee & R).
  assert (EE : Rabs (val (fsub p q) - (val p - val q)) <= u * val L).
  { rewrite V, R. replace ((val p - val q) * (1 + e) - (val p - val q)) with (e * (val p - val q)) by ring. rewrite Rabs_mult. apply Rmult_le_compat; auto using Rabs_pos. }
  assert (U : 0 < u < / 1000) by (unfold u; lra). assert (E' : Rabs (val w - (val (fsub p q) + IZR k * val L)) <= 12 * u * val L).
  { eapply Rle_trans; [exact E|]. replace (12 * u * val L) with (6 * u * (val L + val L)) by ring. apply Rmult_le_compat_l; lra. }
  assert (E2 : Rabs (val w - (val p - (val q + - IZR k * val L))) <= 13 * u * val L).
  { replace (val w - (val p - (val q + - IZR k * val L))) with ((val w - (val (fsub p q) + IZR k * val L)) + (val (fsub p q) - (val p - val q))) by ring.
    eapply Rle_trans; [apply Rabs_triang|]. lra. }
  exists (- k)%Z. rewrite opp_IZR. split; auto. apply Rabs_le_inv in E2. assert (UL : u * val L <= / 1000 * val L) by (apply Rmult_le_compat_r; lra).
  assert (K : Rabs (IZR k) < 2). { apply Rmult_lt_reg_r with (val L); [lra|]. rewrite <- (Rabs_pos_eq (val L)) at 1 by lra. rewrite <- Rabs_mult. apply Rabs_def1; lra. }
  rewrite <- abs_IZR in K. apply lt_IZR in K. lia.
Qed.
(** Within half a box length there is only one image. *)
Lemma wrapped_unique (L p q w : f32) (i : Z) : ordinary_length L -> on_axis L p -> on_axis L q -> F32Spec.image_of true L (fsub p q) w ->
  Rabs (val p - (val q + IZR i * val L)) <= val L / 2 - 32 * u * val L ->
  Rabs (val w - (val p - (val q + IZR i * val L))) <= 13 * u * val L.
Proof.
  intros OL Op Oq HI HT. destruct (wrapped_axis L p q w OL Op Oq HI) as (k & _ & E). destruct HI as (_ & Bw & _). cbn iota in Bw. destruct OL as [_ [L0 _]]. assert (P := bpow_gt_0 radix2 (-60)).
  destruct (Z.eq_dec k i) as [->|N]; auto. exfalso. apply Rabs_le_inv in E. apply Rabs_le_inv in HT. assert (U : 0 < u < / 1000) by (unfold u; lra).
  set (x := val p - val q) in *. assert (UL : 0 < u * val L) by (apply Rmult_lt_0_compat; lra).
  assert (C : (k - i <= -1 \/ 1 <= k - i)%Z) by lia. destruct C as [C|C]; apply IZR_le in C; rewrite minus_IZR in C.
  - assert ((IZR k - IZR i) * val L <= -1 * val L) by (apply Rmult_le_compat_r; lra). lra.
  - assert (1 * val L <= (IZR k - IZR i) * val L) by (apply Rmult_le_compat_r; lra). lra.
Qed.
Lemma norm_sum v : norm v <= Rabs (vx v) + Rabs (vy v) + Rabs (vz v).
Proof.
  unfold norm. assert (A := Rabs_pos (vx v)). assert (B := Rabs_pos (vy v)). assert (C := Rabs_pos (vz v)).
  rewrite <- (sqrt_square (Rabs (vx v) + Rabs (vy v) + Rabs (vz v))) by lra. apply sqrt_le_1_alt. unfold dot.
  assert (SQ : forall x, Rabs x * Rabs x = x * x) by (intros x; rewrite <- Rabs_mult; apply Rabs_pos_eq; nra). rewrite <- (SQ (vx v)), <- (SQ (vy v)), <- (SQ (vz v)). nra.
Qed.

Section Distance.
Variables (b : fbox) (r : fvec) (T : vec3).
Hypothesis PB : plain_box b.
Hypothesis Fr : fin3 r.
Hypothesis Bx : Rabs (val (fvx r)) <= bpow radix2 62.
Hypothesis By : Rabs (val (fvy r)) <= bpow radix2 62.
Hypothesis Bz : Rabs (val (fvz r)) <= bpow radix2 62.
Hypothesis E : norm (rv r - T)%V <= 13 * u * box_size b.
Let D := norm T.
Lemma size_pos : 0 < box_size b.
Proof.
  destruct PB as ((_ & Lx & _) & (_ & Ly & _) & Lz & _). unfold box_size. assert (P := bpow_gt_0 radix2 (-60)). destruct (f2d b); [destruct Lz as [_ ->]|destruct Lz as [_ [Lz _]]]; lra.
Qed.
Lemma disp_finite : finite (fnorm2 r) = true /\ 0 <= val (fnorm2 r).
Proof. destruct (norm2_val r Fr Bx By Bz) as (F & P & _). auto. Qed.
Lemma disp_root : D * (1 - 4 * u) - 14 * u * box_size b - cell_slack <= sqrt (val (fnorm2 r)) <= D * (1 + 3 * u) + 14 * u * box_size b + cell_slack.
Proof.
  destruct (norm2_val r Fr Bx By Bz) as (F & P & Q). rewrite <- norm_sq in Q. assert (K := root_val (fnorm2 r) (norm (rv r)) (norm_nonneg _) F P Q).
  assert (N := norm_diff (rv r) T). fold D in N. apply Rabs_le_inv in N. assert (ND := norm_nonneg T). fold D in ND. assert (NR := norm_nonneg (rv r)). assert (S := size_pos).
  set (n := norm (rv r - T)%V) in *. set (nr := norm (rv r)) in *. set (s := box_size b) in *. clearbody n nr s D. unfold u in *. lra.
Qed.
Lemma disp_distance : Rabs (val (Bsqrt mode_NE (fnorm2 r)) - D) <= cell_uncertainty b D.
Proof.
  assert (K := disp_root). destruct disp_finite as (F & P). destruct (distance_val _ F P) as (e & n & Ee & N & ->). apply Rabs_le_inv in Ee. apply Rabs_le_inv in N.
  assert (SP := sqrt_pos (val (fnorm2 r))). assert (CS : 0 < cell_slack) by apply bpow_gt_0. destruct tiny_slack as [TS T70]. assert (ND := norm_nonneg T). fold D in ND. assert (S := size_pos). unfold cell_uncertainty. rewrite <- T70.
  set (w := sqrt (val (fnorm2 r))) in *. assert (W : w * (1 - u) <= w * (1 + e) <= w * (1 + u)) by (split; apply Rmult_le_compat_l; lra). set (z := w * (1 + e)) in *. set (s := box_size b) in *. clearbody z w s D. apply Rabs_le. unfold u in *. lra.
Qed.
Lemma disp_below c : ordinary_radius c -> D + cell_uncertainty b D <= val c -> val (fnorm2 r) < val (fmul c c).
Proof.
  intros Oc H. assert (K := disp_root). destruct disp_finite as (F & P). destruct (radius_val c Oc) as (Fm & PC & M).
  assert (CS : 0 < cell_slack) by apply bpow_gt_0. destruct tiny_slack as [TS T70]. assert (ND := norm_nonneg T). fold D in ND. assert (S := size_pos). unfold cell_uncertainty in H. rewrite <- T70 in H.
  assert (SP := sqrt_pos (val (fnorm2 r))). assert (SS := sqrt_sqrt _ P). set (w := sqrt (val (fnorm2 r))) in *.
  assert (W : w < val c * (1 - u)) by (clearbody w D; unfold u in *; lra). eapply Rlt_le_trans; [|apply M]. rewrite <- SS. apply Rmult_le_0_lt_compat; auto.
Qed.
Lemma disp_above c : ordinary_radius c -> val c <= D - cell_uncertainty b D -> val (fmul c c) <= val (fnorm2 r).
Proof.
  intros Oc H. assert (K := disp_root). destruct disp_finite as (F & P). destruct (radius_val c Oc) as (Fm & PC & M).
  assert (CS : 0 < cell_slack) by apply bpow_gt_0. destruct tiny_slack as [TS T70]. assert (ND := norm_nonneg T). fold D in ND. assert (S := size_pos). unfold cell_uncertainty in H. rewrite <- T70 in H.
  assert (SP := sqrt_pos (val (fnorm2 r))). assert (SS := sqrt_sqrt _ P). set (w := sqrt (val (fnorm2 r))) in *.
  assert (W : val c * (1 + u) <= w) by (clearbody w D; unfold u in *; lra). eapply Rle_trans; [apply M|]. rewrite <- SS. assert (0 < val c * (1 + u)) by (apply Rmult_lt_0_compat; unfold u; lra). apply Rmult_le_compat; lra.
Qed.
End Distance.

(** * The wrapped displacement of a pair *)
Lemma displacement b p q : plain_box b -> all_periodic b -> in_box b p -> in_box b q ->
  let w := fwrap b (fvsub p q) in
  fin3 w /\ Rabs (val (fvx w)) <= bpow radix2 62 /\ Rabs (val (fvy w)) <= bpow radix2 62 /\ Rabs (val (fvz w)) <= bpow radix2 62 /\
  (exists i j k, neighbour_cell b i j k /\ norm (rv w - (rv (fflat b p) - moved b q i j k))%V <= 13 * u * box_size b) /\
  (forall i j k r, half_box b r -> exact_distance b p q i j k + cell_uncertainty b (exact_distance b p q i j k) <= val r ->
     norm (rv w - (rv (fflat b p) - moved b q i j k))%V <= 13 * u * box_size b).
Proof.
  intros PB (Ax & Ay & Az) IP IQ w. assert (OP := in_box_ordinary b p PB IP). assert (OQ := in_box_ordinary b q PB IQ). assert (PB' := PB). destruct PB as (Lx & Ly & Lz & _). destruct IP as (Px & Py & Pz), IQ as (Qx & Qy & Qz).
  assert (P60 := bpow_gt_0 radix2 (-60)).
  assert (OD : forall L a c, ordinary_length L -> on_axis L a -> on_axis L c -> ordinary_coord (fsub a c)).
  { intros L a c [FL [L0 L1]] [Fa Ba] [Fc Bc]. apply Rabs_le_inv in Ba. apply Rabs_le_inv in Bc. assert (D : Rabs (val a - val c) <= bpow radix2 60) by (apply Rabs_le; lra).
    destruct (is_sub a c Fa Fc) as [F V]. { unfold fits. eapply Rle_trans; [exact D|]. apply bpow_le. lia. } split; auto. rewrite V. apply rnd_abs; [lia|auto]. }
  assert (OV : ordinary_point (fvsub p q)).
  { split; [apply (OD _ _ _ Lx Px Qx)|]. split; [apply (OD _ _ _ Ly Py Qy)|]. destruct (f2d b); [|apply (OD _ _ _ Lz Pz Qz)]. cbn [fvsub fvz]. destruct Pz as [Fa Ba], Qz as [Fc Bc]. apply Rabs_le_inv in Ba. apply Rabs_le_inv in Bc.
    assert (D : Rabs (val (fvz p) - val (fvz q)) <= bpow radix2 (-19)) by (change (-19)%Z with (1 + -20)%Z; rewrite bpow_plus; change (bpow radix2 1) with 2; apply Rabs_le; lra).
    destruct (is_sub _ _ Fa Fc) as [F V]. { unfold fits. eapply Rle_trans; [exact D|]. apply bpow_le. lia. } split; auto. rewrite V. eapply Rle_trans; [apply (rnd_abs _ (-19)); [lia|auto]|]. apply bpow_le. lia. }
  destruct (C65_wrap b (fvsub p q) PB' OV) as (Wx & Wy & Wz & W2). fold w in Wx, Wy, Wz, W2. rewrite Ax in Wx. rewrite Ay in Wy. cbn [fvsub fvx fvy fvz] in Wx, Wy, Wz.
  assert (SM : forall L w, ordinary_length L -> forall v, F32Spec.image_of true L v w -> finite w = true /\ Rabs (val w) <= bpow radix2 62).
  { intros L w0 [_ [L0 L1]] v (F & B & _). split; auto. cbn iota in B. assert (bpow radix2 60 <= bpow radix2 62) by (apply bpow_le; lia). apply Rabs_le. lra. }
  destruct (SM _ _ Lx _ Wx) as [Fx Bx]. destruct (SM _ _ Ly _ Wy) as [Fy By].
  assert (Hz : finite (fvz w) = true /\ Rabs (val (fvz w)) <= bpow radix2 62 /\
    (exists k, ((Z.abs k <= 1)%Z /\ (f2d b = true -> k = 0%Z)) /\ Rabs (val (fvz w) - (val (fvz (fflat b p)) - (val (fvz (fflat b q)) + IZR k * val (fvz (fL b))))) <= 13 * u * val (fvz (fL b))) /\
    (forall k, (f2d b = false -> Rabs (val (fvz p) - (val (fvz q) + IZR k * val (fvz (fL b)))) <= val (fvz (fL b)) / 2 - 32 * u * val (fvz (fL b))) ->
       Rabs (val (fvz w) - (val (fvz (fflat b p)) - (val (fvz (fflat b q)) + IZR k * val (fvz (fL b))))) <= 13 * u * val (fvz (fL b)))).
  { unfold fflat. destruct (f2d b) eqn:ED; cbn [fvz].
    - destruct (W2 eq_refl (or_introl Ax)) as [F V]. destruct Lz as [_ V0]. rewrite V, V0. cbn [fzero B2R].
      assert (ZZ : forall k, 0 - (0 - (0 + IZR k * 0)) = 0) by (intros; ring). split; auto. split; [rewrite Rabs_R0; apply bpow_ge_0|]. split; [exists 0%Z; split; [split; [cbn; lia|auto]|]; rewrite ZZ, Rabs_R0; lra|]. intros k _. rewrite ZZ, Rabs_R0. lra.
    - specialize (Wz eq_refl). rewrite (Az eq_refl) in Wz. destruct (SM _ _ Lz _ Wz) as [F B]. split; auto. split; auto. split.
      + destruct (wrapped_axis _ _ _ _ Lz Pz Qz Wz) as (k & K1 & E). exists k. split; [split; [auto|discriminate]|auto].
      + intros k Hk. apply (wrapped_unique _ _ _ _ k Lz Pz Qz Wz). auto. }
  destruct Hz as (Fz & Bz & Ez & Uz). split; [repeat split; auto|]. split; auto. split; auto. split; auto.
  assert (XF : forall v, fvx (fflat b v) = fvx v /\ fvy (fflat b v) = fvy v) by (intros v; unfold fflat; destruct (f2d b); auto).
  assert (CB : forall i j k, Rabs (val (fvx w) - (val (fvx p) - (val (fvx q) + IZR i * val (fvx (fL b))))) <= 13 * u * val (fvx (fL b)) ->
    Rabs (val (fvy w) - (val (fvy p) - (val (fvy q) + IZR j * val (fvy (fL b))))) <= 13 * u * val (fvy (fL b)) ->
    Rabs (val (fvz w) - (val (fvz (fflat b p)) - (val (fvz (fflat b q)) + IZR k * val (fvz (fL b))))) <= 13 * u * val (fvz (fL b)) ->
    norm (rv w - (rv (fflat b p) - moved b q i j k))%V <= 13 * u * box_size b).
  { intros i j k H1 H2 H3. eapply Rle_trans; [apply norm_sum|]. unfold moved, rv. cbn [vsub vadd vx vy vz]. destruct (XF p) as [-> ->]. destruct (XF q) as [-> ->]. unfold box_size. lra. }
  split.
  - destruct (wrapped_axis _ _ _ _ Lx Px Qx Wx) as (i & I1 & Ei). destruct (wrapped_axis _ _ _ _ Ly Py Qy Wy) as (j & J1 & Ej). destruct Ez as (k & (K1 & K2) & Ek). exists i, j, k. split; [|auto]. repeat split; auto; destruct (f2d b); auto; exfalso; auto.
  - intros i j k r (Rx & Ry & Rz) HD. set (D := exact_distance b p q i j k) in *. unfold exact_distance in D.
    assert (S := size_pos b PB'). assert (D0 : 0 <= D) by apply norm_nonneg. assert (P70 := bpow_gt_0 radix2 (-70)).
    assert (LT : 0 < val (fvx (fL b)) /\ 0 < val (fvy (fL b)) /\ 0 <= val (fvz (fL b))).
    { destruct Lx as [_ [Lx _]], Ly as [_ [Ly _]]. split; [lra|]. split; [lra|]. destruct (f2d b); [destruct Lz as [_ ->]; lra|destruct Lz as [_ [Lz _]]; lra]. }
    assert (UL : forall x y z, 0 <= x -> 0 <= y -> 0 <= z -> u * x <= u * (x + y + z) /\ u * y <= u * (x + y + z) /\ u * z <= u * (x + y + z)) by (intros; unfold u; lra).
    destruct (UL (val (fvx (fL b))) (val (fvy (fL b))) (val (fvz (fL b)))) as (U1 & U2 & U3); try lra. fold (box_size b) in U1, U2, U3.
    assert (UD : 0 <= u * D) by (apply Rmult_le_pos; unfold u; lra). unfold cell_uncertainty in HD.
    assert (CX : forall v, Rabs (vx v) <= norm v /\ Rabs (vy v) <= norm v /\ Rabs (vz v) <= norm v).
    { intros v. unfold norm. assert (SQ : forall x s, x * x <= s -> Rabs x <= sqrt s) by (intros x s H; rewrite <- sqrt_Rsqr_abs; apply sqrt_le_1_alt; unfold Rsqr; auto). unfold dot. split; [|split]; apply SQ; nra. }
    destruct (CX (rv (fflat b p) - moved b q i j k)%V) as (X1 & X2 & X3). fold D in X1, X2, X3. unfold moved, rv in X1, X2, X3. cbn [vsub vadd vx vy vz] in X1, X2, X3. destruct (XF p) as [Pa Pb]. destruct (XF q) as [Qa Qb]. rewrite Pa, Qa in X1. rewrite Pb, Qb in X2.
    apply CB.
    + apply (wrapped_unique _ _ _ _ i Lx Px Qx Wx). lra.
    + apply (wrapped_unique _ _ _ _ j Ly Py Qy Wy). lra.
    + apply Uz. intros ED. specialize (Rz ED). unfold fflat in X3. rewrite ED in X3. lra.
Qed.
