(** The projection of the box, the image transformation, and the value of a pixel. *)
From Coq Require Import Psatz Permutation.
From Verif Require Import DiffSpec DiffProofs.
Local Open Scope R_scope.

(** * Rotation *)
Lemma rowan_rotate_add q u v : rowan_rotate q (vadd u v) = vadd (rowan_rotate q u) (rowan_rotate q v).
Proof. destruct q as [s [a b c]], u, v. unfold rowan_rotate, qmul, qconj, qvec, dot, cross. simpl. apply vec_eq; simpl; ring. Qed.
Lemma rowan_rotate_scale q k v : rowan_rotate q (vscale k v) = vscale k (rowan_rotate q v).
Proof. destruct q as [s [a b c]], v. unfold rowan_rotate, qmul, qconj, qvec, dot, cross. simpl. apply vec_eq; simpl; ring. Qed.
Lemma rowan_rotate_id v : rowan_rotate qid v = v.
Proof. destruct v. unfold rowan_rotate, qmul, qconj, qvec, dot, cross, qid. simpl. apply vec_eq; simpl; ring. Qed.
Lemma rowan_rotate_mat q v : rowan_rotate q v = rapply (rot_of_quat q) v.
Proof. destruct q as [s [a b c]], v. unfold rowan_rotate, qmul, qconj, qvec, rapply, rot_of_quat, dot, cross. simpl. apply vec_eq; simpl; ring. Qed.
Lemma rowan_rotate_dot q u v : unitq q -> dot (rowan_rotate q u) (rowan_rotate q v) = dot u v.
Proof.
  unfold unitq. intros H. destruct q as [s [a b c]], u as [x y z], v as [x' y' z']. simpl in H.
  transitivity ((s * s + a * a + b * b + c * c) * (s * s + a * a + b * b + c * c) * (x * x' + y * y' + z * z')).
  - unfold rowan_rotate, qmul, qconj, qvec, dot, cross. simpl. ring.
  - rewrite H. unfold dot. simpl. ring.
Qed.

(** * The projection *)
Lemma argmax3_max f i : (i < 3)%nat -> (argmax3 f < 3)%nat /\ f i <= f (argmax3 f).
Proof.
  intros H. unfold argmax3. destruct (Rltb_spec (f 0%nat) (f 1%nat)) as [h|h].
  - destruct (Rltb_spec (f 1%nat) (f 2%nat)) as [h'|h']; (split; [lia|]); assert (E : i = 0%nat \/ i = 1%nat \/ i = 2%nat) by lia; destruct E as [->|[->| ->]]; lra.
  - destruct (Rltb_spec (f 0%nat) (f 2%nat)) as [h'|h']; (split; [lia|]); assert (E : i = 0%nat \/ i = 1%nat \/ i = 2%nat) by lia; destruct E as [->|[->| ->]]; lra.
Qed.
Definition det2 (m : rotm2) : R := m00 m * m11 m - m01 m * m10 m.
Lemma shear_det B i : (i < 3)%nat -> projection B i <= Rabs (det2 (shear_of B)).
Proof.
  intros Hi. destruct (argmax3_max (projection B) i Hi) as [_ H]. eapply Rle_trans; [exact H|]. right.
  unfold projection at 1, det2, shear_of. cbv zeta. cbn [m00 m01 m10 m11]. rewrite <- Rabs_Ropp. f_equal. ring.
Qed.
Lemma shear_nonzero B : cross (r0 B) (r1 B) <> v0 -> det2 (shear_of B) <> 0.
Proof.
  intros H E. apply H. pose proof (shear_det B 0 ltac:(lia)) as H0. pose proof (shear_det B 1 ltac:(lia)) as H1. pose proof (shear_det B 2 ltac:(lia)) as H2.
  rewrite E, Rabs_R0 in H0, H1, H2. unfold projection in H0, H1, H2. simpl in H0, H1, H2.
  assert (Z : forall x, Rabs x <= 0 -> x = 0). { intros x Hx. destruct (Req_dec x 0); auto. pose proof (Rabs_pos_lt x H3). lra. }
  apply Z in H0, H1, H2. unfold ent in *. simpl in *. destruct B as [[a b c] [d e f] r]. simpl in *. unfold cross, v0. simpl. f_equal; lra.
Qed.
Lemma view_independent q b : unitq q -> vx (b_L b) <> 0 -> vy (b_L b) <> 0 -> cross (r0 (view_matrix q b)) (r1 (view_matrix q b)) <> v0.
Proof.
  intros Hq Hx Hy E. set (u := r0 (matrix_rows b)). set (v := r1 (matrix_rows b)).
  assert (L : forall x y, dot (cross x y) (cross x y) = dot x x * dot y y - dot x y * dot x y) by (intros [? ? ?] [? ? ?]; unfold dot, cross; simpl; ring).
  assert (Z : dot (cross u v) (cross u v) = 0).
  { rewrite L. rewrite <- (rowan_rotate_dot q u u), <- (rowan_rotate_dot q v v), <- (rowan_rotate_dot q u v) by auto. rewrite <- L.
    change (rowan_rotate q u) with (r0 (view_matrix q b)). change (rowan_rotate q v) with (r1 (view_matrix q b)). rewrite E. unfold dot, v0. simpl. ring. }
  unfold u, v, matrix_rows, to_matrix, dot, cross in Z. simpl in Z.
  assert (P : 0 < vx (b_L b) * vy (b_L b) * (vx (b_L b) * vy (b_L b))).
  { assert (vx (b_L b) * vy (b_L b) <> 0) by (apply Rmult_integral_contrapositive; auto). pose proof (Rlt_0_sqr _ H). unfold Rsqr in *. lra. }
  match type of Z with ?a * ?a + ?b * ?b + ?c * ?c = 0 => pose proof (Rle_0_sqr a); pose proof (Rle_0_sqr b) end. unfold Rsqr in *. nra.
Qed.
Lemma calc_proj_some q b : unitq q -> vx (b_L b) <> 0 -> vy (b_L b) <> 0 -> exists inv, calc_proj q b = Some inv /\ det2 inv <> 0.
Proof.
  intros Hq Hx Hy. pose proof (shear_nonzero _ (view_independent q b Hq Hx Hy)) as H. unfold calc_proj, inv2. fold (det2 (shear_of (view_matrix q b))).
  destruct (Reqb_spec (det2 (shear_of (view_matrix q b))) 0); [contradiction|]. eexists. split; [reflexivity|].
  set (m := shear_of (view_matrix q b)) in *. unfold det2 at 1. cbn [m00 m01 m10 m11].
  replace (m11 m / det2 m * (m00 m / det2 m) - - m01 m / det2 m * (- m10 m / det2 m)) with (/ det2 m); [apply Rinv_neq_0_compat; auto|].
  unfold det2 in *. field. auto.
Qed.

(** * Places and bins *)
Lemma mod1_range x : 0 <= mod1 x < 1.
Proof. unfold mod1. pose proof (Zfloor_lb x). pose proof (Zfloor_ub x). lra. Qed.
Lemma bin_lt n x : (0 < n)%nat -> 0 <= x < 1 -> (bin_of n x < n)%nat /\ INR (bin_of n x) <= x * INR n < INR (bin_of n x) + 1.
Proof.
  intros Hn Hx. assert (Hp : 0 < INR n) by (apply lt_0_INR; lia). assert (H0 : 0 <= x * INR n) by (apply Rmult_le_pos; lra).
  pose proof (Zfloor_lb (x * INR n)). pose proof (Zfloor_ub (x * INR n)). assert (Hz : (0 <= Zfloor (x * INR n))%Z) by (apply Zfloor_lub; simpl; lra).
  unfold bin_of. assert (E : INR (Z.to_nat (Zfloor (x * INR n))) = IZR (Zfloor (x * INR n))) by (rewrite INR_IZR_INZ, Z2Nat.id by auto; reflexivity).
  rewrite E. split; [|lra]. apply INR_lt. rewrite E. nra.
Qed.
Lemma place_bins n q inv pts x y : (0 < n)%nat -> In (x, y) (map (place q inv) pts) -> (bin_of n x < n)%nat /\ (bin_of n y < n)%nat.
Proof.
  intros Hn H. apply in_map_iff in H as [p [E _]]. unfold place in E. destruct (r2apply inv _ _) as [u v]. injection E as <- <-.
  split; apply bin_lt; auto; apply mod1_range.
Qed.

(** * The transformation *)
Lemma inv3_ok m t v : inv3 m = Some t -> rapply t (rapply m v) = v.
Proof.
  unfold inv3. destruct (Reqb_spec (rdet m) 0) as [|H]; [discriminate|]. intros E. injection E as <-.
  destruct m as [[a b c] [d e f] [g h i]], v as [x y z]. unfold rdet in *. simpl in *. unfold rapply, dot, cross. simpl. apply vec_eq; simpl; field; auto.
Qed.
Lemma half_roll n : (if Nat.eqb (n mod 2) 1 then INR n / 2 - / 2 else INR n / 2) = INR (n / 2).
Proof.
  pose proof (Nat.div_mod n 2 ltac:(lia)) as Hd. pose proof (Nat.mod_upper_bound n 2 ltac:(lia)) as Hm.
  assert (E : INR n = 2 * INR (n / 2) + INR (n mod 2)) by (rewrite Hd at 1; rewrite plus_INR, mult_INR; simpl; ring).
  destruct (Nat.eqb_spec (n mod 2) 1) as [H|H].
  - rewrite H in E. change (INR 1) with 1 in E. lra.
  - assert (H0 : (n mod 2 = 0)%nat) by lia. rewrite H0 in E. change (INR 0) with 0 in E. lra.
Qed.
Lemma forward_at n out b inv zoom t0 t1 : zoom <> 0 -> let s := max_entry b in
  rapply (forward n out b inv zoom) (V3 (INR (n / 2) + t0) (INR (n / 2) + t1) 1) =
  V3 (INR (out / 2) + zoom * s * (m10 inv * t0 + m00 inv * t1)) (INR (out / 2) + zoom * s * (m11 inv * t0 + m01 inv * t1)) 1.
Proof.
  intros Hz s. unfold forward. rewrite half_roll. fold s.
  assert (E : (if Nat.eqb (out mod 2) 1 then INR out / zoom / 2 - / 2 / zoom else INR out / zoom / 2) = INR (out / 2) / zoom).
  { rewrite <- (half_roll out). destruct (Nat.eqb (out mod 2) 1); field; auto. }
  rewrite E. unfold rmul, rtrans, rapply, dot. simpl. apply vec_eq; simpl; field; auto.
Qed.
Lemma forward_det n out b inv zoom : rdet (forward n out b inv zoom) = - (zoom * zoom * (max_entry b * max_entry b) * det2 inv).
Proof. unfold forward. cbv zeta. unfold rmul, rtrans, rapply, dot, rdet, det2. simpl. ring. Qed.
Lemma transform_some n out img b inv zoom : zoom <> 0 -> max_entry b <> 0 -> det2 inv <> 0 ->
  exists f, transform n out img b inv zoom = Some f /\
    forall i j t0 t1, INR i = INR (out / 2) + zoom * max_entry b * (m10 inv * t0 + m00 inv * t1) -> INR j = INR (out / 2) + zoom * max_entry b * (m11 inv * t0 + m01 inv * t1) ->
      f i j = bilinear n img (INR (n / 2) + t0) (INR (n / 2) + t1).
Proof.
  intros Hz Hs Hd. unfold transform.
  destruct (inv3 (forward n out b inv zoom)) as [t|] eqn:E.
  - eexists. split; [reflexivity|]. intros i j t0 t1 Hi Hj. cbv beta. rewrite Hi, Hj, <- (forward_at n out b inv zoom t0 t1) by auto. rewrite (inv3_ok _ _ _ E). reflexivity.
  - exfalso. unfold inv3 in E. rewrite forward_det in E. destruct (Reqb_spec (- (zoom * zoom * (max_entry b * max_entry b) * det2 inv)) 0) as [H|H]; [|discriminate].
    assert (zoom * zoom * (max_entry b * max_entry b) * det2 inv <> 0) by (repeat apply Rmult_integral_contrapositive_currified; auto). lra.
Qed.
Lemma solve_t out zoom s inv (i j : nat) : zoom <> 0 -> s <> 0 -> det2 inv <> 0 ->
  exists t0 t1, INR i = INR (out / 2) + zoom * s * (m10 inv * t0 + m00 inv * t1) /\ INR j = INR (out / 2) + zoom * s * (m11 inv * t0 + m01 inv * t1).
Proof.
  intros Hz Hs Hd. unfold det2 in Hd. set (u := INR i - INR (out / 2)). set (v := INR j - INR (out / 2)).
  set (d := m00 inv * m11 inv - m01 inv * m10 inv) in *.
  exists ((m00 inv * v - m01 inv * u) / (zoom * s * d)), ((m11 inv * u - m10 inv * v) / (zoom * s * d)).
  split; [replace (INR i) with (INR (out / 2) + u) by (unfold u; ring)|replace (INR j) with (INR (out / 2) + v) by (unfold v; ring)]; f_equal; unfold d in *; field; auto.
Qed.
Lemma max_entry_pos b : 0 < vx (b_L b) -> 0 < max_entry b.
Proof.
  intros H. unfold max_entry, matrix_rows, to_matrix. cbv zeta. simpl. eapply Rlt_le_trans; [exact H|].
  eapply Rle_trans; [|apply Rmax_l]. apply Rmax_l.
Qed.
Lemma total_scale c w : fold_right Rplus 0 (map (Rmult c) w) = c * fold_right Rplus 0 w.
Proof. induction w as [|x w IH]; simpl; [ring|]. rewrite IH. ring. Qed.

(** * The frame *)
Definition ws_of (a : dargs) : list R := match a_weights a with Some w => normalise w | None => repeat 1 (length (a_pts a)) end.
Lemma ws_scaled a : fine_args a -> scaled a (ws_of a) /\ fold_right Rplus 0 (ws_of a) = INR (length (a_pts a)) /\ length (ws_of a) = length (a_pts a).
Proof.
  intros [_ [_ [_ [_ [_ [_ Hw]]]]]]. set (N := length (a_pts a)) in *.
  assert (Hl : length (ws_of a) = N). { unfold ws_of. destruct (a_weights a) as [w|]; [unfold normalise; rewrite map_length; apply Hw|apply repeat_length]. }
  unfold scaled. fold N. split; [split; [auto|]|split; [|auto]]; unfold ws_of in Hl |- *; fold N; destruct (a_weights a) as [w|].
  - destruct Hw as [Hlw Ht]. split; [auto|]. exists (INR N / total w). split; [unfold total; field; auto|]. unfold normalise. apply map_ext. intros x. rewrite Hlw. unfold Rdiv. ring.
  - intros x Hin. apply repeat_spec in Hin; auto.
  - destruct Hw as [Hlw Ht]. replace (normalise w) with (map (Rmult (INR N / total w)) w).
    + rewrite total_scale. unfold total. field. auto.
    + unfold normalise. apply map_ext. intros x. rewrite Hlw. unfold Rdiv. ring.
  - clear. induction N as [|N IH]; [reflexivity|]. rewrite S_INR. simpl repeat. simpl fold_right. rewrite IH. ring.
Qed.
Definition freq_image (n : nat) (a : dargs) (inv : rotm2) : nat -> nat -> R :=
  intensity n (a_width a / a_zoom a) (histogram n (map (place (view_of a) inv) (a_pts a)) (ws_of a)).
Lemma frame_spec n out a : (0 < n)%nat -> fine_args a ->
  exists inv f, calc_proj (view_of a) (a_box a) = Some inv /\ det2 inv <> 0 /\ frame n out a = Some f /\
    (forall i j t0 t1, INR i = INR (out / 2) + a_zoom a * max_entry (a_box a) * (m10 inv * t0 + m00 inv * t1) ->
       INR j = INR (out / 2) + a_zoom a * max_entry (a_box a) * (m11 inv * t0 + m01 inv * t1) ->
       f i j = bilinear n (freq_image n a inv) (INR (n / 2) + t0) (INR (n / 2) + t1) / INR (length (a_pts a))).
Proof.
  intros Hn Hfa. pose proof (ws_scaled a Hfa) as [_ [_ Hl]]. destruct Hfa as [Hc [Hx [Hy [Hp [Hz [Hq Hw]]]]]]. destruct (calc_proj_some (view_of a) (a_box a) Hq ltac:(lra) ltac:(lra)) as [inv [Ei Hd]].
  assert (Hs : max_entry (a_box a) <> 0) by (pose proof (max_entry_pos (a_box a) Hx); lra).
  set (N := length (a_pts a)) in *. assert (HN : N <> 0%nat) by (unfold N; destruct (a_pts a); [contradiction|simpl; lia]).
  destruct (transform_some n out (freq_image n a inv) (a_box a) inv (a_zoom a) Hz Hs Hd) as [f [Ef Hf]].
  exists inv, (fun i j => f i j / INR N). split; auto. split; auto. split.
  - unfold frame. fold N. rewrite Hc, Ei. cbn [negb]. unfold freq_image in Ef. unfold ws_of in Ef, Hl. fold N in Ef, Hl. rewrite Hl, Nat.eqb_refl. destruct (Nat.eqb_spec N 0); [contradiction|]. destruct (Reqb_spec (a_zoom a) 0); [contradiction|]. cbn [negb orb].
    replace (match a_weights a with Some w => Reqb (total w) 0 | None => false end) with false; [rewrite Ef; reflexivity|].
    destruct (a_weights a) as [w|]; auto. destruct (Reqb_spec (total w) 0); [|reflexivity]. exfalso. apply (proj2 Hw). exact e.
  - intros. cbv beta. rewrite (Hf i j t0 t1); auto.
Qed.
(** Two calls with the same box, view, zoom and width add the same frame if their points scatter alike. *)
Lemma bilinear_ext n img img' x y : (forall a b, (a < n)%nat -> (b < n)%nat -> img a b = img' a b) -> bilinear n img x y = bilinear n img' x y.
Proof.
  intros H. assert (D : (0 <= x <= INR n - 1 /\ 0 <= y <= INR n - 1) \/ ~ (0 <= x <= INR n - 1 /\ 0 <= y <= INR n - 1)).
  { destruct (Rle_dec 0 x), (Rle_dec x (INR n - 1)), (Rle_dec 0 y), (Rle_dec y (INR n - 1)); try (right; lra). left; lra. }
  destruct D as [[Hx Hy]|D]; [|rewrite !bilinear_out by auto; reflexivity]. rewrite !bilinear_tent by auto. apply asum_ext. intros. apply asum_ext. intros. rewrite H by auto. reflexivity.
Qed.
Definition all_cells (n : nat) (a : dargs) (inv : rotm2) : list (R * (R * R)) := cells n (map (place (view_of a) inv) (a_pts a)) (ws_of a).
Lemma freq_image_at n a inv i j : (0 < n)%nat -> (i < n)%nat -> (j < n)%nat ->
  freq_image n a inv i j = damping n (a_width a / a_zoom a) (INR i - INR (n / 2)) (INR j - INR (n / 2)) *
    scatter (all_cells n a inv) (2 * PI * (INR i - INR (n / 2)) / INR n) (2 * PI * (INR j - INR (n / 2)) / INR n).
Proof. intros Hn Hi Hj. apply intensity_scatter; auto. intros x y. apply place_bins. auto. Qed.
Lemma frames_eq n out a a' : (0 < n)%nat -> fine_args a -> fine_args a' -> a_box a' = a_box a -> view_of a' = view_of a -> a_zoom a' = a_zoom a -> a_width a' = a_width a ->
  length (a_pts a') = length (a_pts a) ->
  (forall inv i j, calc_proj (view_of a) (a_box a) = Some inv -> (i < n)%nat -> (j < n)%nat ->
     scatter (all_cells n a' inv) (2 * PI * (INR i - INR (n / 2)) / INR n) (2 * PI * (INR j - INR (n / 2)) / INR n) =
     scatter (all_cells n a inv) (2 * PI * (INR i - INR (n / 2)) / INR n) (2 * PI * (INR j - INR (n / 2)) / INR n)) ->
  exists f f', frame n out a = Some f /\ frame n out a' = Some f' /\ forall i j, f' i j = f i j.
Proof.
  intros Hn Ha Ha' Eb Ev Ez Ew El H. destruct (frame_spec n out a Hn Ha) as [inv [f [Ei [Hd [Ef Hf]]]]]. destruct (frame_spec n out a' Hn Ha') as [inv' [f' [Ei' [_ [Ef' Hf']]]]].
  assert (E : inv' = inv) by (rewrite Ev, Eb in Ei'; congruence). subst inv'. exists f, f'. split; auto. split; auto. intros i j.
  destruct Ha as [_ [Hx [_ [_ [Hz _]]]]]. pose proof (max_entry_pos _ Hx).
  destruct (solve_t out (a_zoom a) (max_entry (a_box a)) inv i j Hz ltac:(lra) Hd) as [t0 [t1 [E0 E1]]].
  rewrite (Hf i j t0 t1), (Hf' i j t0 t1), El by (rewrite ?Ez, ?Eb; auto). f_equal. apply bilinear_ext. intros p r Hp Hr.
  rewrite !freq_image_at, Ez, Ew by auto. f_equal. apply H; auto.
Qed.
