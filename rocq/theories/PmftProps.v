(** C54: the pair correlation histograms behind the PMFT classes. *)
From Verif Require Import PmftSpec PmftProofs HistProofs HistProofs2 HistProps ParProofs MatchEnvProofs MArrayProofs BoxProofs BoxPyProofs SphProofs QuatProofs QuatSpec Vec.
From Coq Require Import Lra Lia.
Local Open Scope R_scope.

(** * Construction *)
Theorem C54_reject :
  (forall r n1 n2 n3, pmftr12_make r n1 n2 n3 = None <-> ((n1 < 1)%Z \/ (n2 < 1)%Z \/ (n3 < 1)%Z) \/ r < 0) /\
  (forall x y n1 n2, pmftxy_make x y n1 n2 = None <-> ((n1 < 1)%Z \/ (n2 < 1)%Z) \/ (x < 0 \/ y < 0)) /\
  (forall x y n1 n2 n3, pmftxyt_make x y n1 n2 n3 = None <-> ((n1 < 1)%Z \/ (n2 < 1)%Z \/ (n3 < 1)%Z) \/ (x < 0 \/ y < 0)) /\
  (forall x y z n1 n2 n3, pmftxyz_make x y z n1 n2 n3 = None <-> ((n1 < 1)%Z \/ (n2 < 1)%Z \/ (n3 < 1)%Z) \/ (x < 0 \/ y < 0 \/ z < 0)).
Proof.
  assert (B : forall x, Rltb x 0 = true <-> x < 0) by (intros x; destruct (Rltb_spec x 0); split; intros; auto; try discriminate; lra).
  split; [|split; [|split]]; intros; unfold pmftr12_make, pmftxy_make, pmftxyt_make, pmftxyz_make;
    repeat match goal with |- context [(?a <? 1)%Z] => destruct (Z.ltb_spec a 1) end;
    repeat match goal with |- context [Rltb ?a 0] => destruct (Rltb_spec a 0) end;
    split; intros X; try discriminate; try tauto; exfalso; repeat match goal with H : _ \/ _ |- _ => destruct H end; try lia; try lra.
Qed.
(** Although the messages ask for positive extents, an extent of zero is accepted. *)
Theorem C54_zero_extent_refuted : pmftxy_make 0 1 1 1 <> None /\ pmftr12_make 0 1 1 1 <> None /\ pmftxyt_make 1 0 1 1 1 <> None /\ pmftxyz_make 1 1 0 1 1 1 <> None.
Proof. repeat split; intros X; apply C54_reject in X; repeat match goal with H : _ \/ _ |- _ => destruct H end; try lia; try lra. Qed.

Lemma nth_blocks {A} (f : nat -> list A) (m : nat) d : (forall i, length (f i) = m) -> forall n s i j, (i < n)%nat -> (j < m)%nat ->
  nth (i * m + j) (flat_map f (seq s n)) d = nth j (f (s + i)%nat) d.
Proof.
  intros L n. induction n as [|n IH]; intros s i j Hi Hj; [lia|]. simpl. destruct i as [|i].
  - rewrite Nat.add_0_r. simpl. apply app_nth1. rewrite L. exact Hj.
  - rewrite app_nth2 by (rewrite L; simpl; lia). rewrite L. replace (S i * m + j - m)%nat with (i * m + j)%nat by (simpl; lia).
    rewrite IH by lia. f_equal. f_equal. lia.
Qed.
Lemma jacobians_nth r_max n1 n2 n3 i j k : (0 <= i < n1)%Z -> (0 <= j < n2)%Z -> (0 <= k < n3)%Z ->
  nth (Z.to_nat (row_major [n1; n2; n3] [i; j; k])) (pmftr12_jacobians r_max n1 n2 n3) 0 =
  1 / (nth (Z.to_nat i) (bin_centers (Axis n1 0 r_max)) 0 * (r_max / IZR n1 * (TWO_PI / IZR n2) * (1 / IZR n3))).
Proof.
  intros Hi Hj Hk. unfold pmftr12_jacobians. cbv zeta.
  replace (Z.to_nat (row_major [n1; n2; n3] [i; j; k])) with (Z.to_nat i * (Z.to_nat n2 * Z.to_nat n3) + (Z.to_nat j * Z.to_nat n3 + Z.to_nat k))%nat.
  2:{ apply Nat2Z.inj. rewrite Z2Nat.id by (apply row_major_range; repeat constructor; lia). rewrite !Nat2Z.inj_add, !Nat2Z.inj_mul, !Z2Nat.id by lia.
      unfold row_major, size_of; simpl. ring. }
  rewrite nth_blocks; [| |lia|nia].
  - rewrite nth_blocks; [| |lia|lia].
    + rewrite (nth_map_lt _ _ _ 0%nat) by (rewrite seq_length; lia). reflexivity.
    + intros. rewrite map_length, seq_length. reflexivity.
  - intros x. generalize (1 / (nth x (bin_centers (Axis n1 0 r_max)) 0 * (r_max / IZR n1 * (TWO_PI / IZR n2) * (1 / IZR n3)))). intros v.
    generalize 0%nat at 2. induction (Z.to_nat n2) as [|n IH]; intros s; simpl; auto. rewrite app_length, IH, map_length, seq_length. reflexivity.
Qed.

Lemma made_ok k p : made k p ->
  pm_kind p = k /\ valid_axes (pm_axes p) /\ length (pm_axes p) = match k with XY => 2%nat | _ => 3%nat end /\
  pm_state p = bhc_make (u32 0) (pm_axes p) /\ pm_equiv p = None /\ pm_called p = false /\
  forall idx, in_shape (map ax_n (pm_axes p)) idx ->
    0 < measure k (pm_axes p) idx /\ pm_jf p (Z.to_nat (row_major (map ax_n (pm_axes p)) idx)) * measure k (pm_axes p) idx = 1.
Proof.
  assert (PP := PI_RGT_0).
  assert (Sh : forall ns l, in_shape ns l -> forall n ns', ns = n :: ns' -> exists i l', l = i :: l' /\ (0 <= i < n)%Z /\ in_shape ns' l').
  { intros ns l H. destruct H; intros n ns' E; [discriminate|]. injection E as -> ->. eauto. }
  assert (VA : forall n lo hi, (1 <= n < OVERFLOW_BIN)%Z -> lo < hi -> valid_axis (Axis n lo hi)) by (intros; split; auto).
  intros H; destruct H as [r n1 n2 n3 p Hr Hm Hs|x y n1 n2 p Hx Hy Hm Hs|x y n1 n2 n3 p Hx Hy Hm Hs|x y z n1 n2 n3 p Hx Hy Hz Hm Hs].
  - unfold pmftr12_make in Hm. destruct (Z.ltb_spec n1 1); [discriminate|]. destruct (Z.ltb_spec n2 1); [discriminate|]. destruct (Z.ltb_spec n3 1); [discriminate|].
    destruct (Rltb_spec r 0); [discriminate|]. cbv zeta in Hm. injection Hm as <-.
    assert (I1 : 0 < IZR n1) by (apply (IZR_lt 0); lia). assert (I2 : 0 < IZR n2) by (apply (IZR_lt 0); lia). assert (I3 : 0 < IZR n3) by (apply (IZR_lt 0); lia).
    split; [reflexivity|]. split.
    { split; [repeat constructor; try (apply VA); unfold OVERFLOW_BIN, TWO_PI; try nia; lra|]. unfold size_of, OVERFLOW_BIN; simpl. lia. }
    do 4 (split; [reflexivity|]). cbn [pm_new pm_axes pm_jf map ax_n]. intros idx HS.
    destruct (Sh _ _ HS _ _ eq_refl) as (i & l1 & -> & Hi & HS1). destruct (Sh _ _ HS1 _ _ eq_refl) as (j & l2 & -> & Hj & HS2).
    destruct (Sh _ _ HS2 _ _ eq_refl) as (k & l3 & -> & Hk & HS3). inversion HS3; subst.
    rewrite jacobians_nth by lia. unfold measure. cbn [ax_n].
    assert (Ce : nth (Z.to_nat i) (bin_centers (Axis n1 0 r)) 0 = (interval_lo (Axis n1 0 r) i + interval_lo (Axis n1 0 r) (i + 1)) / 2).
    { unfold bin_centers. rewrite (nth_map_lt _ _ _ 0%nat) by (rewrite seq_length; simpl; lia). rewrite seq_nth by (simpl; lia). simpl plus.
      replace (Z.to_nat i + 1)%nat with (Z.to_nat (i + 1)) by lia. rewrite !bin_edges_nth by (simpl; lia). reflexivity. }
    rewrite Ce. unfold interval_lo, width. cbn [ax_min ax_max ax_n]. unfold TWO_PI.
    assert (Hi0 : 0 <= IZR i) by (apply (IZR_le 0); lia). rewrite plus_IZR.
    replace ((0 + (IZR i + 1) * ((r - 0) / IZR n1)) * (0 + (IZR i + 1) * ((r - 0) / IZR n1)) - (0 + IZR i * ((r - 0) / IZR n1)) * (0 + IZR i * ((r - 0) / IZR n1)))
      with ((2 * IZR i + 1) * (r / IZR n1 * (r / IZR n1))) by (field; lra).
    assert (0 < r / IZR n1) by (apply Rdiv_lt_0_compat; lra). assert (0 < 2 * PI / IZR n2) by (apply Rdiv_lt_0_compat; lra).
    assert (0 < 2 * PI / IZR n3) by (apply Rdiv_lt_0_compat; lra). split.
    + apply Rmult_lt_0_compat; [apply Rmult_lt_0_compat|]; rewrite ?Rminus_0_r; auto.
      * apply Rdiv_lt_0_compat; [|lra]. apply Rmult_lt_0_compat; [lra|]. apply Rmult_lt_0_compat; auto.
      * apply Rdiv_lt_0_compat; lra.
    + field. repeat split; try lra. nra.
  - unfold pmftxy_make in Hm. destruct (Z.ltb_spec n1 1); [discriminate|]. destruct (Z.ltb_spec n2 1); [discriminate|].
    destruct (Rltb_spec x 0); [discriminate|]. destruct (Rltb_spec y 0); [discriminate|]. cbv zeta in Hm. injection Hm as <-.
    assert (I1 : 0 < IZR n1) by (apply (IZR_lt 0); lia). assert (I2 : 0 < IZR n2) by (apply (IZR_lt 0); lia).
    split; [reflexivity|]. split.
    { split; [repeat constructor; try (apply VA); unfold OVERFLOW_BIN, TWO_PI; try nia; lra|]. unfold size_of, OVERFLOW_BIN; simpl. lia. }
    do 4 (split; [reflexivity|]). cbn [pm_new pm_axes pm_jf]. intros idx _. unfold measure, width. cbn [ax_min ax_max ax_n]. split.
    + apply Rmult_lt_0_compat; apply Rdiv_lt_0_compat; lra.
    + field. repeat split; lra.
  - unfold pmftxyt_make in Hm. destruct (Z.ltb_spec n1 1); [discriminate|]. destruct (Z.ltb_spec n2 1); [discriminate|]. destruct (Z.ltb_spec n3 1); [discriminate|].
    destruct (Rltb_spec x 0); [discriminate|]. destruct (Rltb_spec y 0); [discriminate|]. cbv zeta in Hm. injection Hm as <-.
    assert (I1 : 0 < IZR n1) by (apply (IZR_lt 0); lia). assert (I2 : 0 < IZR n2) by (apply (IZR_lt 0); lia). assert (I3 : 0 < IZR n3) by (apply (IZR_lt 0); lia).
    split; [reflexivity|]. split.
    { split; [repeat constructor; try (apply VA); unfold OVERFLOW_BIN, TWO_PI; try nia; lra|]. unfold size_of, OVERFLOW_BIN; simpl. lia. }
    do 4 (split; [reflexivity|]). cbn [pm_new pm_axes pm_jf]. intros idx _. unfold measure, width, TWO_PI. cbn [ax_min ax_max ax_n]. split.
    + apply Rmult_lt_0_compat; [apply Rmult_lt_0_compat; apply Rdiv_lt_0_compat; lra|]. apply Rdiv_lt_0_compat; [apply Rdiv_lt_0_compat; lra|lra].
    + field. repeat split; lra.
  - unfold pmftxyz_make in Hm. destruct (Z.ltb_spec n1 1); [discriminate|]. destruct (Z.ltb_spec n2 1); [discriminate|]. destruct (Z.ltb_spec n3 1); [discriminate|].
    destruct (Rltb_spec x 0); [discriminate|]. destruct (Rltb_spec y 0); [discriminate|]. destruct (Rltb_spec z 0); [discriminate|]. cbv zeta in Hm. injection Hm as <-.
    assert (I1 : 0 < IZR n1) by (apply (IZR_lt 0); lia). assert (I2 : 0 < IZR n2) by (apply (IZR_lt 0); lia). assert (I3 : 0 < IZR n3) by (apply (IZR_lt 0); lia).
    split; [reflexivity|]. split.
    { split; [repeat constructor; try (apply VA); unfold OVERFLOW_BIN, TWO_PI; try nia; lra|]. unfold size_of, OVERFLOW_BIN; simpl. lia. }
    do 4 (split; [reflexivity|]). cbn [pm_new pm_axes pm_jf]. intros idx _. unfold measure, width. cbn [ax_min ax_max ax_n]. split.
    + apply Rmult_lt_0_compat; [apply Rmult_lt_0_compat|]; apply Rdiv_lt_0_compat; lra.
    + field. repeat split; lra.
Qed.

(** * Values after any history *)
(** After any history of calls of compute (with and without reset, accepted or not) and reads, each bin holds the number of points of
    the counted frames in it, times volume over frames, numbers of points and query points, equivalent orientations and bin measure;
    box and numbers of points are those of the last frame. *)
Theorem C54_values k p0 h ev fs f : made k p0 -> Forall (pop_ok (pm_size (pm_axes p0))) h -> execution 0 (pm_size (pm_axes p0)) ev ->
  frames k h = fs ++ [f] -> data_pos k f ->
  exists p, pm_run p0 (h ++ [PRead ev]) = Some p /\ length (pm_pcf p) = pm_size (pm_axes p0) /\
    forall idx, in_shape (map ax_n (pm_axes p0)) idx -> (Z.of_nat (points_in k (pm_axes p0) idx (fs ++ [f])) < 2 ^ 32)%Z ->
      nth (Z.to_nat (row_major (map ax_n (pm_axes p0)) idx)) (pm_pcf p) 0 *
        (INR (length (fs ++ [f])) * INR (pd_np (pf_data f)) * INR (pd_nqp (pf_data f)) * INR (multiplicity k f) * measure k (pm_axes p0) idx) =
      pd_vol (pf_data f) * INR (points_in k (pm_axes p0) idx (fs ++ [f])).
Proof.
  intros Hm Hh He Hf (Dv & Dp & Dq & De). destruct (made_ok k p0 Hm) as (Mk & MV & Ml & Ms & Me & Mc & Mj).
  destruct (run_inv k p0 Mk MV Ml h Hh p0 [] (Inv_init k p0 Mk MV Ml Ms Me Mc)) as (p1 & E1 & I1). simpl in I1.
  destruct (step_read k p0 Mk MV Ml p1 h ev I1 He) as (p & E & I & Rf). exists p.
  split; [unfold pm_run in *; rewrite ofold_app, E1; simpl; rewrite E; reflexivity|].
  assert (Hf' : frames k (h ++ [PRead ev]) = fs ++ [f]) by (unfold frames in *; rewrite calls_snoc; exact Hf).
  assert (NE : frames k h <> []) by (rewrite Hf; intros X; apply app_eq_nil in X as [_ X]; discriminate).
  destruct (i_pcf _ _ _ _ I (Rf NE) fs f Hf') as [L V]. split; [exact L|]. intros idx HS Small. rewrite (V idx HS), Mk, Hf'.
  rewrite Z.mod_small by lia. destruct (Mj idx HS) as [Pm Ej]. set (m := measure k (pm_axes p0) idx) in *. set (j := pm_jf p0 _) in *.
  rewrite <- INR_IZR_INZ. assert (Nf : 0 < INR (length (fs ++ [f]))) by (rewrite app_length; apply lt_0_INR; simpl; lia).
  apply lt_0_INR in Dp, Dq, De. set (c := INR (points_in _ _ _ _)).
  transitivity (c * pd_vol (pf_data f) * (j * m)); [field; repeat split; lra|]. rewrite Ej. ring.
Qed.
(** A call is accepted exactly when its arrays have the right shapes, the box the right dimension and (XYZ) the number of equivalent
    orientations is the one set by the first well-shaped call since the last reset; it is never undefined behaviour. *)
Theorem C54_accept k p0 h p re f : made k p0 -> Forall (pop_ok (pm_size (pm_axes p0))) (h ++ [PCompute re f]) -> pm_run p0 h = Some p ->
  ((exists p', pm_compute p re f = PDone p') <-> In f (frames k (h ++ [PCompute re f])) /\ counted k (calls (h ++ [PCompute re f]) []) f = true) /\
  ((exists p', pm_compute p re f = PRaised p') <-> counted k (calls (h ++ [PCompute re f]) []) f = false) /\
  pm_compute p re f <> PUndefined.
Proof.
  intros Hm Hh E. destruct (made_ok k p0 Hm) as (Mk & MV & Ml & Ms & Me & Mc & Mj). apply Forall_app in Hh as [Hh Ho]. assert (Ho2 := Forall_inv Ho). destruct Ho2 as [He Hb].
  destruct (run_inv k p0 Mk MV Ml h Hh p0 [] (Inv_init k p0 Mk MV Ml Ms Me Mc)) as (p1 & E1 & I1). simpl in I1. rewrite E in E1. injection E1 as <-.
  destruct (step_compute k p0 Mk MV Ml p h re f I1 He Hb) as (p' & Ec & _). unfold accepts in Ec.
  assert (Ca : calls (h ++ [PCompute re f]) [] = (if re then [] else calls h []) ++ [f]) by (rewrite calls_snoc; destruct re; reflexivity).
  rewrite Ca. rewrite Ec. destruct (counted k _ f) eqn:C.
  - split; [split; [intros _; split; [|reflexivity]|intros _; eauto]|].
    + unfold frames. rewrite Ca. apply filter_In. split; [apply in_or_app; right; left; reflexivity|exact C].
    + split; [|discriminate]. split; [intros (x & X); discriminate|discriminate].
  - split; [split; [intros (x & X); discriminate|intros [_ X]; discriminate]|]. split; [|discriminate]. split; [reflexivity|eauto].
Qed.
(** For PMFTXYZ: within the calls since a reset all counted frames have the same number of equivalent orientations. *)
Theorem C54_equivalents h f g : In f (frames XYZ h) -> In g (frames XYZ h) -> length (pf_eq f) = length (pf_eq g) /\ pf_2d f = false.
Proof.
  unfold frames. intros F G. apply filter_In in F as [_ F], G as [_ G]. unfold counted in F, G.
  apply andb_prop in F as [F1 F2], G as [_ G2]. apply andb_prop in F1 as [_ F1]. destruct (fixed XYZ (calls h [])); [|discriminate].
  apply Nat.eqb_eq in F2, G2. split; [congruence|]. destruct (pf_2d f); [discriminate|reflexivity].
Qed.

(** * Coordinates *)
Lemma rotate_id v : rotate qid v = v.
Proof. apply vec_eq; unfold rotate, dot; simpl; unfold dot; simpl; ring. Qed.
Lemma modulus_trig a : let t := modulus_positive a TWO_PI in 0 <= t < 2 * PI /\ cos t = cos a /\ sin t = sin a.
Proof.
  cbv zeta. assert (P := PI_RGT_0). unfold TWO_PI. split; [apply modulus_positive_range; lra|]. rewrite modulus_positive_floor by lra.
  set (k := Zfloor _). replace (a - 2 * PI * IZR k) with (a + 2 * PI * IZR (- k)) by (rewrite opp_IZR; ring). split; [apply cos_period_Z|apply sin_period_Z].
Qed.
Lemma atan2_angle x y : angle_of x y (atan2 y x).
Proof.
  unfold angle_of. destruct (Req_dec x 0) as [X|X]; [destruct (Req_dec y 0) as [Y|Y]|].
  - subst. rewrite Rmult_0_l, Rplus_0_l, sqrt_0. lra.
  - destruct (atan2_polar y x) as (r & Hr & Ex & Ey); [right; auto|]. assert (sqrt (x * x + y * y) = r) as ->; [|split; assumption].
    replace (x * x + y * y) with (r * r); [apply sqrt_square; lra|]. set (t := atan2 y x) in *. rewrite Ex, Ey. pose proof (sin2_cos2 t) as Q. unfold Rsqr in Q.
    replace (r * cos t * (r * cos t) + r * sin t * (r * sin t)) with (r * r * (sin t * sin t + cos t * cos t)) by ring. rewrite Q. ring.
  - destruct (atan2_polar y x) as (r & Hr & Ex & Ey); [left; auto|]. assert (sqrt (x * x + y * y) = r) as ->; [|split; assumption].
    replace (x * x + y * y) with (r * r); [apply sqrt_square; lra|]. set (t := atan2 y x) in *. rewrite Ex, Ey. pose proof (sin2_cos2 t) as Q. unfold Rsqr in Q.
    replace (r * cos t * (r * cos t) + r * sin t * (r * sin t)) with (r * r * (sin t * sin t + cos t * cos t)) by ring. rewrite Q. ring.
Qed.
Lemma relative_ok o x y : relative o x y (modulus_positive (o - atan2 y x) TWO_PI).
Proof.
  destruct (modulus_trig (o - atan2 y x)) as (R & C & S). cbv zeta in *. split; [exact R|]. unfold angle_of.
  set (t := modulus_positive _ _) in *. rewrite cos_minus, sin_minus, C, S, <- cos_minus, <- sin_minus.
  replace (o - (o - atan2 y x)) with (atan2 y x) by ring. apply atan2_angle.
Qed.
Lemma frame2_ok q v : frame2 q (vx v) (vy v) (fst (rot2 (- q) v)) (snd (rot2 (- q) v)).
Proof.
  unfold frame2, rot2; simpl. rewrite cos_neg, sin_neg. pose proof (sin2_cos2 q) as Q. unfold Rsqr in Q. split.
  - transitivity ((sin q * sin q + cos q * cos q) * vx v); [rewrite Q; ring|ring].
  - transitivity ((sin q * sin q + cos q * cos q) * vy v); [rewrite Q; ring|ring].
Qed.
(** Each bond contributes the coordinates of the neighbour in the frame of its own query point, and the orientations of the bond's own
    two ends relative to the bond. *)
Theorem C54_coordinates k f b pts : pm_sample k f b = Some pts -> (k = XYZ -> unitq (nth (bq b) (pf_qq f) qid)) -> coordinates k f b pts.
Proof.
  unfold pm_sample, coordinates, query_orientation. fold (pm_query_orientations f).
  assert (Nt : forall A (l : list A) n x d, nth_error l n = Some x -> nth n l d = x) by (intros A l n x d H; apply nth_error_nth; exact H).
  intros H U. cbv zeta in *. destruct k.
  - destruct (nth_error (pf_o f) (bp b)) eqn:E1; [|discriminate]. destruct (nth_error (pm_query_orientations f) (bq b)) eqn:E2; [|discriminate].
    injection H as <-. rewrite (Nt _ _ _ _ 0 E1), (Nt _ _ _ _ 0 E2). do 2 eexists. split; [reflexivity|]. split; apply relative_ok.
  - destruct (nth_error (pm_query_orientations f) (bq b)) eqn:E2; [|discriminate]. injection H as <-. rewrite (Nt _ _ _ _ 0 E2).
    do 2 eexists. split; [reflexivity|]. apply frame2_ok.
  - destruct (nth_error (pf_o f) (bp b)) eqn:E1; [|discriminate]. destruct (nth_error (pm_query_orientations f) (bq b)) eqn:E2; [|discriminate].
    injection H as <-. rewrite (Nt _ _ _ _ 0 E1), (Nt _ _ _ _ 0 E2). do 3 eexists. split; [reflexivity|]. split; [apply frame2_ok|apply relative_ok].
  - destruct (nth_error (pf_qq f) (bq b)) as [q|] eqn:E2; [|discriminate]. injection H as <-. rewrite (Nt _ _ _ _ qid E2) in *.
    induction (pf_eq f) as [|e l IH]; simpl; constructor; auto. exists (rotate (qconj q) (bv b)). split; [|reflexivity].
    rewrite <- rotate_mul, unit_inv_r by (apply U; reflexivity). apply rotate_id.
Qed.
(** The angles are determined when the bond is not of length zero in the plane. *)
Lemma relative_unique o x y t t' : x <> 0 \/ y <> 0 -> relative o x y t -> relative o x y t' -> t = t'.
Proof.
  intros NZ (Rt & Ax & Ay) (Rt' & Ax' & Ay'). set (r := sqrt (x * x + y * y)) in *.
  assert (S : 0 < x * x + y * y) by (destruct NZ; nra). assert (Rp : 0 < r) by (apply sqrt_lt_R0; exact S).
  assert (C : cos (o - t) = cos (o - t')) by (apply (Rmult_eq_reg_l r); lra).
  assert (D : sin (o - t) = sin (o - t')) by (apply (Rmult_eq_reg_l r); lra).
  destruct (polar_unique 1 1 (o - t) (o - t')) as (n & En); try lra.
  assert (n = 0)%Z; [|subst n; simpl in En; lra].
  assert (-1 < IZR n < 1) as [B1 B2] by (pose proof PI_RGT_0; split; nra). apply lt_IZR in B1, B2. lia.
Qed.

(** * Rotating the whole system *)
Definition turn2 (a : R) (v : vec3) : vec3 := V3 (cos a * vx v - sin a * vy v) (sin a * vx v + cos a * vy v) (vz v).
Definition turn_bond (g : vec3 -> vec3) (b : bond) : bond := Bond (bq b) (bp b) (bd b) (bw b) (g (bv b)).
Lemma relative_turn a o x y t : relative o x y t -> relative (o + a) (cos a * x - sin a * y) (sin a * x + cos a * y) t.
Proof.
  intros (Rt & Ax & Ay). split; [exact Rt|]. unfold angle_of. pose proof (sin2_cos2 a) as Q. unfold Rsqr in Q.
  replace ((cos a * x - sin a * y) * (cos a * x - sin a * y) + (sin a * x + cos a * y) * (sin a * x + cos a * y)) with (x * x + y * y).
  2:{ transitivity ((sin a * sin a + cos a * cos a) * (x * x + y * y)); [rewrite Q; ring|ring]. }
  set (r := sqrt (x * x + y * y)) in *. replace (o + a - t) with (a + (o - t)) by ring. rewrite cos_plus, sin_plus.
  split; [rewrite Ax, Ay at 1; ring|rewrite Ax, Ay at 1; ring].
Qed.
Lemma nth_error_add a (l : list R) n : nth_error (map (fun x => x + a) l) n = option_map (fun x => x + a) (nth_error l n).
Proof. apply nth_error_map. Qed.
(** In two dimensions: turning all bonds and all orientations by the same angle changes nothing (R12 and XYT: for bonds of non-zero length). *)
Theorem C54_rotation_2d k f b a : k <> XYZ -> vx (bv b) <> 0 \/ vy (bv b) <> 0 ->
  pm_sample k (PF (pf_ok f) (pf_2d f) (pf_data f) (map (fun x => x + a) (pf_o f)) (option_map (map (fun x => x + a)) (pf_qo f)) (pf_qq f) (pf_eq f) (pf_n f) (pf_bonds f) (pf_ev f))
    (turn_bond (turn2 a) b) = pm_sample k f b.
Proof.
  intros NK NZ. assert (Qo : forall ok d2 dt qq e n bs ev, pm_query_orientations (PF ok d2 dt (map (fun x => x + a) (pf_o f)) (option_map (map (fun x => x + a)) (pf_qo f)) qq e n bs ev)
    = map (fun x => x + a) (pm_query_orientations f)) by (intros; unfold pm_query_orientations; simpl; destruct (pf_qo f); reflexivity).
  assert (NZ' : cos a * vx (bv b) - sin a * vy (bv b) <> 0 \/ sin a * vx (bv b) + cos a * vy (bv b) <> 0).
  { destruct (Req_dec (cos a * vx (bv b) - sin a * vy (bv b)) 0) as [X|X]; [|auto]. right. intros Y. pose proof (sin2_cos2 a) as Q. unfold Rsqr in Q.
    assert (vx (bv b) = 0) by (transitivity ((sin a * sin a + cos a * cos a) * vx (bv b)); [rewrite Q; ring|];
      replace ((sin a * sin a + cos a * cos a) * vx (bv b)) with (cos a * (cos a * vx (bv b) - sin a * vy (bv b)) + sin a * (sin a * vx (bv b) + cos a * vy (bv b))) by ring; rewrite X, Y; ring).
    assert (vy (bv b) = 0) by (transitivity ((sin a * sin a + cos a * cos a) * vy (bv b)); [rewrite Q; ring|];
      replace ((sin a * sin a + cos a * cos a) * vy (bv b)) with (cos a * (sin a * vx (bv b) + cos a * vy (bv b)) - sin a * (cos a * vx (bv b) - sin a * vy (bv b))) by ring; rewrite X, Y; ring).
    tauto. }
  assert (T1 : forall o, modulus_positive (o + a - atan2 (sin a * vx (bv b) + cos a * vy (bv b)) (cos a * vx (bv b) - sin a * vy (bv b))) TWO_PI = modulus_positive (o - atan2 (vy (bv b)) (vx (bv b))) TWO_PI).
  { intros o. eapply relative_unique; [exact NZ'|apply relative_ok|]. apply relative_turn, relative_ok. }
  assert (T2 : forall o, modulus_positive (o + a - atan2 (- (sin a * vx (bv b) + cos a * vy (bv b))) (- (cos a * vx (bv b) - sin a * vy (bv b)))) TWO_PI = modulus_positive (o - atan2 (- vy (bv b)) (- vx (bv b))) TWO_PI).
  { intros o. eapply relative_unique; [|apply relative_ok|].
    - destruct NZ'; [left|right]; lra.
    - pose proof (relative_turn a o (- vx (bv b)) (- vy (bv b)) _ (relative_ok o (- vx (bv b)) (- vy (bv b)))) as H.
      replace (- (cos a * vx (bv b) - sin a * vy (bv b))) with (cos a * - vx (bv b) - sin a * - vy (bv b)) by ring.
      replace (- (sin a * vx (bv b) + cos a * vy (bv b))) with (sin a * - vx (bv b) + cos a * - vy (bv b)) by ring. exact H. }
  assert (F : forall q, rot2 (- (q + a)) (turn2 a (bv b)) = rot2 (- q) (bv b)).
  { intros q. unfold rot2, turn2; simpl. rewrite !cos_neg, !sin_neg, cos_plus, sin_plus. pose proof (sin2_cos2 a) as Q. unfold Rsqr in Q. f_equal.
    - transitivity ((sin a * sin a + cos a * cos a) * (cos q * vx (bv b) + sin q * vy (bv b))); [ring|rewrite Q; ring].
    - transitivity ((sin a * sin a + cos a * cos a) * (- sin q * vx (bv b) + cos q * vy (bv b))); [ring|rewrite Q; ring]. }
  unfold pm_sample. cbn [pf_o bq bp bv bd turn_bond turn2 vx vy]. rewrite Qo, !nth_error_add. destruct k; [| | |congruence].
  - destruct (nth_error (pf_o f) (bp b)); [|reflexivity]. destruct (nth_error (pm_query_orientations f) (bq b)); [|reflexivity]. cbn [option_map]. cbv zeta. rewrite T1, T2. reflexivity.
  - destruct (nth_error (pm_query_orientations f) (bq b)); [|reflexivity]. cbn [option_map]. cbv zeta. fold (turn2 a (bv b)). rewrite F. reflexivity.
  - destruct (nth_error (pf_o f) (bp b)); [|reflexivity]. destruct (nth_error (pm_query_orientations f) (bq b)); [|reflexivity]. cbn [option_map]. cbv zeta. fold (turn2 a (bv b)). rewrite T2, F. reflexivity.
Qed.
(** In three dimensions: turning all bonds and all query orientations by the same rotation changes nothing. *)
Theorem C54_rotation_3d f b r : unitq r ->
  pm_sample XYZ (PF (pf_ok f) (pf_2d f) (pf_data f) (pf_o f) (pf_qo f) (map (qmul r) (pf_qq f)) (pf_eq f) (pf_n f) (pf_bonds f) (pf_ev f)) (turn_bond (rotate r) b)
  = pm_sample XYZ f b.
Proof.
  intros U. unfold pm_sample; cbn [pf_qq pf_eq bq bv turn_bond]. rewrite nth_error_map. destruct (nth_error (pf_qq f) (bq b)) as [q|]; [|reflexivity]. cbn [option_map].
  f_equal. apply map_ext. intros e. cbv zeta. replace (rotate (qconj (qmul r q)) (rotate r (bv b))) with (rotate (qconj q) (bv b)); [reflexivity|].
  rewrite qconj_mul, rotate_mul, <- (rotate_mul (qconj r) r), unit_inv_l by exact U.
  rewrite rotate_id. reflexivity.
Qed.
(** R12: the bond seen from the other side has the two angles exchanged (points that are their own query points). *)
Theorem C54_exchange f b : pf_qo f = None ->
  forall r t1 t2, pm_sample R12 f b = Some [[r; t1; t2]] ->
  pm_sample R12 f (Bond (bp b) (bq b) (bd b) (bw b) (- bv b)%V) = Some [[r; t2; t1]].
Proof.
  intros N r t1 t2. unfold pm_sample, pm_query_orientations. rewrite N. cbn [bq bp bd bv vneg vx vy].
  destruct (nth_error (pf_o f) (bp b)); [|discriminate]. destruct (nth_error (pf_o f) (bq b)); [|discriminate]. cbv zeta. intros H. injection H as <- <- <-.
  rewrite !Ropp_involutive. reflexivity.
Qed.

(** * What is reported *)
(** The reported PMFT is minus the logarithm, and +infinity exactly in the empty bins. *)
Theorem C54_pmft p i : (i < length (pm_pcf p))%nat ->
  nth i (pm_pmft p) PInf = (if Rle_lt_dec (nth i (pm_pcf p) 0) 0 then PInf else Fin (- ln (nth i (pm_pcf p) 0))).
Proof.
  intros H. unfold pm_pmft. rewrite (nth_map_lt _ _ _ 0) by exact H. unfold pm_value.
  destruct (Rltb_spec 0 (nth i (pm_pcf p) 0)), (Rle_lt_dec (nth i (pm_pcf p) 0) 0); auto; exfalso; lra.
Qed.

(** * Deviations *)
Definition ex_b : bond := Bond 0 0 (1/2) 1 (V3 (1/2) 0 0).
Definition ex_pin (two : bool) (eqs : nat) : pin := PF true two (PD 8 1 1) [0] (Some [0]) [qid] (repeat qid eqs) 1 (fun _ => [ex_b]) [(0%nat, 0%nat)].
Lemma ex_pin_ok two eqs re size : pop_ok size (PCompute re (ex_pin two eqs)).
Proof.
  split; [exact (sequential_execution 0 1 0)|]. split; [|discriminate]. intros i b _ [<-|[]]. simpl. lia.
Qed.
Lemma ex_xyz : exists p, pmftxyz_make 1 1 1 1 1 1 = Some p /\ made XYZ p.
Proof.
  destruct (pmftxyz_make 1 1 1 1 1 1) as [p|] eqn:E.
  - exists p. split; [reflexivity|]. eapply made_xyz; [| | |exact E|lia]; lra.
  - exfalso. apply C54_reject in E. repeat match goal with H : _ \/ _ |- _ => destruct H end; try lia; try lra.
Qed.
Example C54_ex : exists p0, made XYZ p0 /\
  let h := [PCompute true (ex_pin false 2); PRead [(0%nat, 0%nat)]; PCompute false (ex_pin false 1); PCompute false (ex_pin true 2); PCompute false (ex_pin false 2)] in
  Forall (pop_ok (pm_size (pm_axes p0))) h /\ frames XYZ h = [ex_pin false 2] ++ [ex_pin false 2] /\ data_pos XYZ (ex_pin false 2).
Proof.
  destruct ex_xyz as (p & E & M). exists p. split; [exact M|]. cbv zeta. split.
  - assert (S : pm_size (pm_axes p) = 1%nat).
    { unfold pmftxyz_make in E. destruct (Rltb 1 0); [discriminate|]. simpl in E. injection E as <-. reflexivity. }
    rewrite S. repeat (constructor; [first [apply ex_pin_ok|exact (sequential_execution 0 1 0)]|]). constructor.
  - split; [reflexivity|]. repeat split; simpl; try lia; lra.
Qed.
(** A call that is rejected because its box is two-dimensional still fixes the number of equivalent orientations (and, with reset, has
    already discarded the data): the next call, the only valid one, is rejected. *)
Theorem C54_failed_call_refuted : exists p0 p f p', made XYZ p0 /\ pm_compute p0 true (ex_pin true 2) = PRaised p /\ f = ex_pin false 1 /\
  pop_ok (pm_size (pm_axes p0)) (PCompute false f) /\ shaped XYZ f = true /\ pf_2d f = false /\ pm_compute p false f = PRaised p'.
Proof.
  destruct ex_xyz as (p0 & E & M). exists p0.
  assert (Hh : Forall (pop_ok (pm_size (pm_axes p0))) ([] ++ [PCompute true (ex_pin true 2)])) by (simpl; repeat (apply Forall_cons; [apply ex_pin_ok|]); apply Forall_nil).
  destruct (C54_accept XYZ p0 [] p0 true (ex_pin true 2) M Hh eq_refl) as (_ & R1 & _). destruct (proj2 R1 eq_refl) as (p & E1).
  assert (Hh2 : Forall (pop_ok (pm_size (pm_axes p0))) ([PCompute true (ex_pin true 2)] ++ [PCompute false (ex_pin false 1)])) by (simpl; repeat (apply Forall_cons; [apply ex_pin_ok|]); apply Forall_nil).
  destruct (C54_accept XYZ p0 [PCompute true (ex_pin true 2)] p false (ex_pin false 1) M Hh2) as (_ & R2 & _).
  { unfold pm_run; simpl. rewrite E1. reflexivity. }
  destruct (proj2 R2 eq_refl) as (p' & E2). exists p, (ex_pin false 1), p'. split; [exact M|]. split; [exact E1|]. split; [reflexivity|].
  split; [apply ex_pin_ok|]. split; [reflexivity|]. split; [reflexivity|exact E2].
Qed.
(** Omitting query_orientations with more query points than points passes every check and reads past the end of the orientations. *)
Theorem C54_bounds_refuted : exists p0 f, made R12 p0 /\ shaped R12 f = true /\ pf_2d f = true /\
  (forall i b, (i < pf_n f)%nat -> In b (pf_bonds f i) -> (bp b < pd_np (pf_data f))%nat /\ (bq b < pd_nqp (pf_data f))%nat) /\ pm_compute p0 true f = PUndefined.
Proof.
  destruct (pmftr12_make 1 1 1 1) as [p|] eqn:E.
  2:{ exfalso. apply C54_reject in E. repeat match goal with H : _ \/ _ |- _ => destruct H end; try lia; try lra. }
  exists p, (PF true true (PD 8 1 2) [0] None [] [] 1 (fun _ => [Bond 1 0 (1/2) 1 (V3 (1/2) 0 0)]) [(0%nat, 0%nat)]).
  split; [eapply made_r12; [|exact E|lia]; lra|]. split; [reflexivity|]. split; [reflexivity|]. split.
  - intros i b _ [<-|[]]. simpl. lia.
  - unfold pmftr12_make in E. destruct (Rltb 1 0); [discriminate|]. simpl in E. injection E as <-. reflexivity.
Qed.
(** shiftvec moves the query points of a query but has no effect on a NeighborList. *)
Theorem C54_shift_refuted query bonds shift qp : pm_shifted_bonds query (Some bonds) shift qp = bonds /\
  pm_shifted_bonds query None shift qp = query (map (fun q => vsub q shift) qp).
Proof. split; reflexivity. Qed.
Print Assumptions C54_values.
Print Assumptions C54_accept.
Print Assumptions C54_rotation_2d.
