(** The centre, bounds, invariances and the meaning of a pixel. *)
From Coq Require Import Psatz Permutation.
From Verif Require Import DiffSpec DiffProofs DiffProofs2.
Local Open Scope R_scope.

(** * Centre and bounds *)
Lemma cells_total n xys ws : length xys = length ws -> fold_right (fun (t : R * (R * R)) acc => fst t + acc) 0 (cells n xys ws) = fold_right Rplus 0 ws.
Proof. revert ws. induction xys as [|x xys IH]; intros [|w ws] H; try discriminate; simpl; auto. injection H as H. unfold cells in IH. rewrite IH by auto. reflexivity. Qed.
Lemma cells_weights n xys ws t : In t (cells n xys ws) -> In (fst t) ws.
Proof. unfold cells. intros H. apply in_map_iff in H as [[x w] [<- H]]. apply in_combine_r in H. exact H. Qed.
Lemma all_cells_total n a inv : fine_args a -> scatter (all_cells n a inv) 0 0 = INR (length (a_pts a)) * INR (length (a_pts a)).
Proof.
  intros H. destruct (ws_scaled a H) as [_ [Ht Hl]]. rewrite scatter_0. unfold all_cells. rewrite cells_total by (rewrite map_length; auto). rewrite Ht. reflexivity.
Qed.
Lemma npos a : fine_args a -> 0 < INR (length (a_pts a)).
Proof. intros [_ [_ [_ [H _]]]]. apply lt_0_INR. destruct (a_pts a); [contradiction|simpl; lia]. Qed.
Lemma centre_value n out a : (0 < n)%nat -> fine_args a -> exists f, frame n out a = Some f /\ f (out / 2)%nat (out / 2)%nat = INR (length (a_pts a)).
Proof.
  intros Hn Ha. destruct (frame_spec n out a Hn Ha) as [inv [f [_ [_ [Ef Hf]]]]]. exists f. split; auto.
  rewrite (Hf _ _ 0 0) by ring. rewrite !Rplus_0_r.
  assert (Hh : (n / 2 < n)%nat) by (apply Nat.div_lt; lia). rewrite bilinear_at by auto. rewrite freq_image_at by auto.
  rewrite !Rminus_diag_eq by reflexivity. rewrite damping_0. replace (2 * PI * 0 / INR n) with 0 by (unfold Rdiv; ring).
  rewrite all_cells_total by auto. pose proof (npos a Ha). field. lra.
Qed.
Lemma bounds n out a : (0 < n)%nat -> fine_args a -> (forall w, a_weights a = Some w -> forall x, In x w -> 0 <= x) ->
  exists f, frame n out a = Some f /\ forall i j, 0 <= f i j <= INR (length (a_pts a)).
Proof.
  intros Hn Ha Hw. destruct (frame_spec n out a Hn Ha) as [inv [f [_ [Hd [Ef Hf]]]]]. exists f. split; auto. intros i j.
  pose proof (npos a Ha) as HN. pose proof (ws_scaled a Ha) as [Hsc _]. pose proof Ha as [_ [Hx [_ [_ [Hz [_ Hwa]]]]]]. pose proof (max_entry_pos _ Hx).
  destruct (solve_t out (a_zoom a) (max_entry (a_box a)) inv i j Hz ltac:(lra) Hd) as [t0 [t1 [E0 E1]]].
  rewrite (Hf i j t0 t1) by auto. set (N := INR (length (a_pts a))) in *.
  assert (Hp : forall x, In x (ws_of a) -> 0 <= x).
  { destruct Hsc as [_ Hsc]. destruct (a_weights a) as [w|].
    - destruct Hsc as [Ht [c [Ec ->]]]. intros x Hin. apply in_map_iff in Hin as [y [<- Hy]]. specialize (Hw w eq_refl).
      assert (0 <= fold_right Rplus 0 w). { clear - Hw. induction w as [|z w IH]; simpl; [lra|]. pose proof (Hw z (or_introl eq_refl)). assert (0 <= fold_right Rplus 0 w) by (apply IH; intros; apply Hw; right; auto). lra. }
      fold N in Ec. assert (0 <= c). { destruct (Rle_dec 0 c); auto. exfalso. assert (c * fold_right Rplus 0 w <= 0); [|lra]. apply Rle_trans with (0 * fold_right Rplus 0 w); [|lra]. apply Rmult_le_compat_r; lra. }
      apply Rmult_le_pos; auto.
    - intros x Hin. rewrite (Hsc x Hin). lra. }
  assert (B : 0 <= bilinear n (freq_image n a inv) (INR (n / 2) + t0) (INR (n / 2) + t1) <= N * N).
  { apply bilinear_bounds; [pose proof (Rle_0_sqr N); unfold Rsqr in *; lra|]. intros p q Hp' Hq'. rewrite freq_image_at by auto.
    match goal with |- 0 <= damping ?n ?s ?x ?y * scatter ?l ?k ?k' <= _ => pose proof (damping_pos n s x y); pose proof (damping_le n s x y); pose proof (scatter_nonneg l k k'); destruct (scatter_le l k k') as [_ Hle] end.
    { intros t Hin. apply Hp. unfold all_cells in Hin. apply cells_weights in Hin. exact Hin. }
    rewrite all_cells_total in Hle by auto. fold N in Hle. split; [apply Rmult_le_pos; lra|].
    eapply Rle_trans; [apply Rmult_le_compat_r; [auto|eassumption]|]. lra. }
  split.
  - apply Rmult_le_pos; [lra|]. left. apply Rinv_0_lt_compat. auto.
  - apply (Rmult_le_reg_r N); auto. unfold Rdiv. rewrite Rmult_assoc, Rinv_l by lra. lra.
Qed.

(** * Order of the points *)
Lemma combine_map_l {A B C} (f : A -> B) (l : list A) (m : list C) : combine (map f l) m = map (fun t => (f (fst t), snd t)) (combine l m).
Proof. revert m. induction l as [|x l IH]; intros [|y m]; simpl; auto. rewrite IH. reflexivity. Qed.
Lemma combine_map_r {A B C} (f : B -> C) (l : list A) (m : list B) : combine l (map f m) = map (fun t => (fst t, f (snd t))) (combine l m).
Proof. revert m. induction l as [|x l IH]; intros [|y m]; simpl; auto. rewrite IH. reflexivity. Qed.
Lemma combine_repeat {A B} (l : list A) (y : B) : combine l (repeat y (length l)) = map (fun x => (x, y)) l.
Proof. induction l as [|x l IH]; simpl; auto. rewrite IH. reflexivity. Qed.
Lemma total_snd {A} (l : list A) (w : list R) : length l = length w -> fold_right Rplus 0 w = fold_right (fun t acc => snd t + acc) 0 (combine l w).
Proof. revert w. induction l as [|x l IH]; intros [|y w] H; try discriminate; simpl; auto. rewrite <- IH by (injection H; auto). reflexivity. Qed.
Lemma fold_perm {A} (f : A -> R) l l' : Permutation l l' -> fold_right (fun t acc => f t + acc) 0 l = fold_right (fun t acc => f t + acc) 0 l'.
Proof. induction 1; simpl; lra. Qed.
Lemma order n out a a' : (0 < n)%nat -> fine_args a -> fine_args a' -> a_box a' = a_box a -> view_of a' = view_of a -> a_zoom a' = a_zoom a -> a_width a' = a_width a -> reordered a a' ->
  exists f f', frame n out a = Some f /\ frame n out a' = Some f' /\ forall i j, f' i j = f i j.
Proof.
  intros Hn Ha Ha' Eb Ev Ez Ew Hr.
  pose proof Ha as [_ [_ [_ [_ [_ [_ Hw]]]]]]. pose proof Ha' as [_ [_ [_ [_ [_ [_ Hw']]]]]].
  assert (P : Permutation (combine (a_pts a) (ws_of a)) (combine (a_pts a') (ws_of a')) /\ length (a_pts a') = length (a_pts a)).
  { unfold reordered in Hr. unfold ws_of. destruct (a_weights a) as [w|], (a_weights a') as [w'|]; try contradiction.
    - destruct Hw as [Hl _]. destruct Hw' as [Hl' _].
      assert (El : length (a_pts a') = length (a_pts a)). { apply Permutation_length in Hr. rewrite !combine_length in Hr. lia. }
      assert (Et : total w' = total w). { unfold total. rewrite (total_snd (a_pts a) w), (total_snd (a_pts a') w') by auto. symmetry. apply fold_perm. auto. }
      split; auto. unfold normalise. rewrite !combine_map_r, Et. replace (length w') with (length w) by lia. apply Permutation_map. auto.
    - split; [|symmetry; apply Permutation_length; auto]. rewrite !combine_repeat. apply Permutation_map. auto. }
  destruct P as [P El]. apply frames_eq; auto. intros inv i j _ _ _. apply scatter_perm. unfold all_cells, cells. rewrite !combine_map_l, !map_map, Ev. apply Permutation_map. symmetry. auto.
Qed.

(** * Points that are placed alike *)
Lemma same_places n out a a' : (0 < n)%nat -> fine_args a -> fine_args a' -> a_box a' = a_box a -> view_of a' = view_of a -> a_zoom a' = a_zoom a -> a_width a' = a_width a -> a_weights a' = a_weights a ->
  (forall inv, calc_proj (view_of a) (a_box a) = Some inv -> map (place (view_of a) inv) (a_pts a') = map (place (view_of a) inv) (a_pts a)) -> length (a_pts a') = length (a_pts a) ->
  exists f f', frame n out a = Some f /\ frame n out a' = Some f' /\ forall i j, f' i j = f i j.
Proof.
  intros Hn Ha Ha' Eb Ev Ez Ew Eww H El. apply frames_eq; auto. intros inv i j Hi _ _. unfold all_cells. rewrite Ev, (H inv Hi).
  unfold ws_of. rewrite Eww, El. reflexivity.
Qed.
Lemma mod1_Z x z : mod1 (x + IZR z) = mod1 x.
Proof.
  unfold mod1. assert (E : Zfloor (x + IZR z) = (Zfloor x + z)%Z).
  { apply Zfloor_imp. rewrite !plus_IZR. pose proof (Zfloor_lb x). pose proof (Zfloor_ub x). lra. }
  rewrite E, plus_IZR. ring.
Qed.
Lemma place_shift q inv p d z0 z1 : r2apply inv (vx (rowan_rotate q d)) (vy (rowan_rotate q d)) = (IZR z0, IZR z1) -> place q inv (vadd p d) = place q inv p.
Proof.
  intros H. unfold place. rewrite rowan_rotate_add. generalize dependent (rowan_rotate q d). intros e. generalize (rowan_rotate q p). intros u H. unfold r2apply in *. injection H as H0 H1. cbn [vadd vx vy].
  f_equal.
  - rewrite <- (mod1_Z (m00 inv * vx u + m01 inv * vy u + / 2) z0), <- H0. f_equal. ring.
  - rewrite <- (mod1_Z (m10 inv * vx u + m11 inv * vy u + / 2) z1), <- H1. f_equal. ring.
Qed.
Lemma map_Forall2 {A B} (f : A -> B) (P : A -> A -> Prop) l l' : Forall2 P l l' -> (forall x y, P x y -> f y = f x) -> map f l' = map f l.
Proof. intros H Hf. induction H; simpl; auto. rewrite IHForall2, (Hf x y) by auto. reflexivity. Qed.

(** * The cube *)
Lemma cube_rows b L : cube_box b L -> matrix_rows b = RM (V3 L 0 0) (V3 0 L 0) (V3 0 0 L).
Proof. intros [_ [E [E1 [E2 [E3 _]]]]]. unfold matrix_rows, to_matrix. rewrite E, E1, E2, E3. simpl. f_equal; apply vec_eq; simpl; ring. Qed.
Lemma cube_max b L : cube_box b L -> max_entry b = L.
Proof.
  intros H. pose proof (proj1 H). unfold max_entry. rewrite (cube_rows b L H). simpl.
  unfold Rmax. repeat destruct (Rle_dec _ _); lra.
Qed.
Lemma ent_range v i : ent v i = vx v \/ ent v i = vy v \/ ent v i = vz v.
Proof. unfold ent. destruct (i mod 3) as [|[|k]]; auto. Qed.
Lemma ent_scale k v i : ent (vscale k v) i = k * ent v i.
Proof. unfold ent. destruct (i mod 3) as [|[|m]]; reflexivity. Qed.
Lemma axis_inv q b L inv : unitq q -> cube_box b L -> axis_view q -> calc_proj q b = Some inv ->
  exists a c d e : Z, m00 inv = IZR a / L /\ m01 inv = IZR c / L /\ m10 inv = IZR d / L /\ m11 inv = IZR e / L.
Proof.
  intros Hq Hb [a1 [a2 [a3 [b1 [b2 [b3 [c1 [c2 [c3 Er]]]]]]]]] Hi. pose proof (proj1 Hb) as HL.
  set (u := V3 (IZR a1) (IZR b1) (IZR c1)). set (v := V3 (IZR a2) (IZR b2) (IZR c2)).
  assert (E0 : r0 (view_matrix q b) = vscale L u).
  { unfold view_matrix. rewrite (cube_rows b L Hb). cbn [r0]. rewrite rowan_rotate_mat, Er. unfold rapply, dot, u. simpl. apply vec_eq; simpl; ring. }
  assert (E1 : r1 (view_matrix q b) = vscale L v).
  { unfold view_matrix. rewrite (cube_rows b L Hb). cbn [r0 r1]. rewrite rowan_rotate_mat, Er. unfold rapply, dot, v. simpl. apply vec_eq; simpl; ring. }
  assert (Du : dot u u = 1).
  { assert (H : dot (rowan_rotate q (V3 1 0 0)) (rowan_rotate q (V3 1 0 0)) = 1) by (rewrite rowan_rotate_dot by auto; unfold dot; simpl; ring).
    rewrite rowan_rotate_mat, Er in H. rewrite <- H. unfold rapply, dot, u. simpl. ring. }
  assert (Dv : dot v v = 1).
  { assert (H : dot (rowan_rotate q (V3 0 1 0)) (rowan_rotate q (V3 0 1 0)) = 1) by (rewrite rowan_rotate_dot by auto; unfold dot; simpl; ring).
    rewrite rowan_rotate_mat, Er in H. rewrite <- H. unfold rapply, dot, v. simpl. ring. }
  unfold calc_proj, inv2 in Hi. revert E0 E1 Hi. generalize (view_matrix q b). intros B E0 E1 Hi. fold (det2 (shear_of B)) in Hi.
  destruct (Reqb_spec (det2 (shear_of B)) 0) as [|Hd]; [discriminate|]. injection Hi as <-.
  unfold det2, shear_of in *. cbv zeta in *. set (k := argmax3 (projection B)) in *. cbn [m00 m01 m10 m11] in *.
  rewrite E0, E1, !ent_scale in Hd |- *.
  assert (I : forall w m, (w = u \/ w = v) -> exists z, ent w m = IZR z).
  { intros w m [->| ->]; unfold ent; (destruct (m mod 3)%nat as [|[|?]]; eexists; reflexivity). }
  destruct (I u (k + 1)%nat (or_introl eq_refl)) as [z1 Z1]. destruct (I u (k + 2)%nat (or_introl eq_refl)) as [z2 Z2]. destruct (I v (k + 1)%nat (or_intror eq_refl)) as [z3 Z3]. destruct (I v (k + 2)%nat (or_intror eq_refl)) as [z4 Z4].
  set (D := (z1 * z4 - z2 * z3)%Z). assert (ED : IZR D = ent u (k + 1) * ent v (k + 2) - ent u (k + 2) * ent v (k + 1)) by (unfold D; rewrite minus_IZR, !mult_IZR, Z1, Z2, Z3, Z4; ring).
  assert (HD0 : D <> 0%Z). { intros E. apply Hd. replace (L * ent u (k + 1) * (L * ent v (k + 2)) - L * ent u (k + 2) * (L * ent v (k + 1))) with (L * L * IZR D) by (rewrite ED; ring). rewrite E. ring. }
  assert (HDle : IZR D * IZR D <= 1).
  { assert (Hc : dot (cross u v) (cross u v) <= 1). { replace (dot (cross u v) (cross u v)) with (dot u u * dot v v - dot u v * dot u v) by (destruct u, v; unfold dot, cross; simpl; ring). rewrite Du, Dv. pose proof (Rle_0_sqr (dot u v)). unfold Rsqr in *. lra. }
    assert (Hk : (k < 3)%nat) by (apply (argmax3_max _ 0); lia). rewrite ED.
    assert (Hk' : k = 0%nat \/ k = 1%nat \/ k = 2%nat) by lia. clear - Hc Hk'. destruct u as [x y z], v as [x' y' z']. unfold dot, cross in Hc. simpl in Hc.
    pose proof (Rle_0_sqr (y * z' - z * y')). pose proof (Rle_0_sqr (z * x' - x * z')). pose proof (Rle_0_sqr (x * y' - y * x')). unfold Rsqr in *.
    destruct Hk' as [->|[->| ->]]; unfold ent; simpl; lra. }
  assert (HD1 : (D = 1 \/ D = -1)%Z).
  { rewrite <- mult_IZR in HDle. apply le_IZR in HDle. nia. }
  exists (D * z4)%Z, (- (D * z2))%Z, (- (D * z3))%Z, (D * z1)%Z.
  assert (EL : L * ent u (k + 1) * (L * ent v (k + 2)) - L * ent u (k + 2) * (L * ent v (k + 1)) = L * L * IZR D) by (rewrite ED; ring).
  rewrite EL, Z1, Z2, Z3, Z4, !opp_IZR, !mult_IZR. destruct HD1 as [-> | ->]; repeat split; field; lra.
Qed.
Lemma axis_shift q b L inv z0 z1 z2 : unitq q -> cube_box b L -> axis_view q -> calc_proj q b = Some inv ->
  let d := V3 (L * IZR z0) (L * IZR z1) (L * IZR z2) in exists y0 y1, r2apply inv (vx (rowan_rotate q d)) (vy (rowan_rotate q d)) = (IZR y0, IZR y1).
Proof.
  intros Hq Hb Hv Hi d. destruct (axis_inv q b L inv Hq Hb Hv Hi) as [a [c [e [f [E00 [E01 [E10 E11]]]]]]]. destruct Hv as [a1 [a2 [a3 [b1 [b2 [b3 [c1 [c2 [c3 Er]]]]]]]]].
  pose proof (proj1 Hb) as HL. rewrite rowan_rotate_mat, Er. unfold d, rapply, dot, r2apply. simpl. rewrite E00, E01, E10, E11.
  exists (a * (a1 * z0 + a2 * z1 + a3 * z2) + c * (b1 * z0 + b2 * z1 + b3 * z2))%Z, (e * (a1 * z0 + a2 * z1 + a3 * z2) + f * (b1 * z0 + b2 * z1 + b3 * z2))%Z.
  rewrite !plus_IZR, !mult_IZR, !plus_IZR, !mult_IZR. f_equal; field; lra.
Qed.
Lemma unit_id : unitq qid.
Proof. unfold unitq, qid. simpl. ring. Qed.
Lemma axis_id : axis_view qid.
Proof. exists 1%Z, 0%Z, 0%Z, 0%Z, 1%Z, 0%Z, 0%Z, 0%Z, 1%Z. unfold rot_of_quat, qid. simpl. f_equal; apply vec_eq; simpl; ring. Qed.
Lemma calc_default b L : cube_box b L -> calc_proj qid b = Some (RM2 (/ L) 0 0 (/ L)).
Proof.
  intros Hb. pose proof (proj1 Hb) as HL.
  assert (EB : view_matrix qid b = RM (V3 L 0 0) (V3 0 L 0) (V3 0 0 L)). { unfold view_matrix. rewrite (cube_rows b L Hb), !rowan_rotate_id. reflexivity. }
  unfold calc_proj. rewrite EB. assert (Ek : argmax3 (projection (RM (V3 L 0 0) (V3 0 L 0) (V3 0 0 L))) = 2%nat).
  { set (f := projection _). assert (F0 : f 0%nat = 0) by (unfold f, projection, ent; simpl; replace (0 * L - 0 * 0) with 0 by ring; apply Rabs_R0).
    assert (F1 : f 1%nat = 0) by (unfold f, projection, ent; simpl; replace (L * 0 - 0 * 0) with 0 by ring; apply Rabs_R0).
    assert (F2 : 0 < f 2%nat) by (unfold f, projection, ent; simpl; apply Rabs_pos_lt; nra).
    clearbody f. unfold argmax3. cbv zeta. rewrite F0, F1, (proj2 (Rltb_false 0 0)) by lra. rewrite F0, (proj2 (Rltb_true 0 _)) by auto. reflexivity. }
  unfold shear_of. rewrite Ek. unfold inv2, ent. simpl. destruct (Reqb_spec (L * L - 0 * 0) 0) as [E|_]; [nra|]. f_equal. f_equal; field; lra.
Qed.
Definition dinv (L : R) : rotm2 := RM2 (/ L) 0 0 (/ L).
Lemma place_default L p : place qid (dinv L) p = (mod1 (vx p / L + / 2), mod1 (vy p / L + / 2)).
Proof. unfold place. rewrite rowan_rotate_id. unfold r2apply, dinv. simpl. f_equal; f_equal; unfold Rdiv; ring. Qed.
Lemma bin_snapped n L x : (0 < n)%nat -> 0 < L -> snapped n L x (L * INR (bin_of n (mod1 (x / L + / 2))) / INR n - L / 2).
Proof.
  intros Hn HL. set (A := x / L + / 2). destruct (bin_lt n (mod1 A) Hn (mod1_range A)) as [B1 B2]. set (k := bin_of n (mod1 A)) in *.
  assert (Hp : 0 < INR n) by (apply lt_0_INR; lia).
  exists (Z.of_nat k), (- Zfloor A)%Z. split; [lia|]. rewrite <- INR_IZR_INZ. split; auto. rewrite opp_IZR. unfold mod1 in B2.
  assert (Ex : x + L * - IZR (Zfloor A) = L * (A - IZR (Zfloor A)) - L / 2) by (unfold A; field; lra). rewrite Ex.
  assert (E : L * (A - IZR (Zfloor A)) = L * ((A - IZR (Zfloor A)) * INR n) / INR n) by (field; lra). rewrite E.
  assert (HLn : 0 < L / INR n) by (apply Rdiv_lt_0_compat; lra).
  set (t := (A - IZR (Zfloor A)) * INR n) in *. replace (L * t / INR n) with (L / INR n * t) by (field; lra). replace (L * INR k / INR n) with (L / INR n * INR k) by (field; lra).
  split; [|].
  - apply Rplus_le_compat_r. apply Rmult_le_compat_l; lra.
  - assert (L / INR n * t < L / INR n * (INR k + 1)) by (apply Rmult_lt_compat_l; lra). lra.
Qed.
Lemma bin_turn n A z : (0 < n)%nat -> exists y, INR (bin_of n (mod1 (A + IZR z / INR n))) = INR (bin_of n (mod1 A)) + IZR z + INR n * IZR y.
Proof.
  intros Hn. assert (Hp : 0 < INR n) by (apply lt_0_INR; lia). set (A' := A + IZR z / INR n).
  destruct (bin_lt n (mod1 A) Hn (mod1_range A)) as [B1 B2]. destruct (bin_lt n (mod1 A') Hn (mod1_range A')) as [B1' B2'].
  exists (Zfloor A - Zfloor A')%Z. set (k := bin_of n (mod1 A)) in *. set (k' := bin_of n (mod1 A')) in *.
  assert (E : mod1 A' * INR n = mod1 A * INR n + IZR z + INR n * IZR (Zfloor A - Zfloor A')) by (unfold mod1, A'; rewrite minus_IZR; field; lra).
  rewrite !INR_IZR_INZ in *. rewrite <- mult_IZR, <- !plus_IZR. f_equal. rewrite E, <- mult_IZR in B2'.
  assert (H1 : IZR (Z.of_nat k') < IZR (Z.of_nat k + z + Z.of_nat n * (Zfloor A - Zfloor A') + 1)) by (rewrite !plus_IZR; lra).
  assert (H2 : IZR (Z.of_nat k + z + Z.of_nat n * (Zfloor A - Zfloor A')) < IZR (Z.of_nat k' + 1)) by (rewrite !plus_IZR; lra).
  apply lt_IZR in H1, H2. lia.
Qed.
Lemma Forall2_map {A B} (f g : A -> B) (P : B -> B -> Prop) l : (forall x, In x l -> P (f x) (g x)) -> Forall2 P (map f l) (map g l).
Proof. induction l as [|x l IH]; intros H; simpl; constructor; [apply H; left; auto|]. apply IH. intros. apply H. right. auto. Qed.
Lemma all_cells_map n a inv : all_cells n a inv = map (fun t => (snd t, (INR (bin_of n (fst (place (view_of a) inv (fst t)))), INR (bin_of n (snd (place (view_of a) inv (fst t))))))) (combine (a_pts a) (ws_of a)).
Proof. unfold all_cells, cells. rewrite combine_map_l, map_map. reflexivity. Qed.
Lemma shift_default n out a a' L z0 z1 w : (0 < n)%nat -> fine_args a -> fine_args a' -> cube_box (a_box a) L -> view_of a = qid -> a_box a' = a_box a -> view_of a' = view_of a -> a_zoom a' = a_zoom a -> a_width a' = a_width a -> a_weights a' = a_weights a ->
  a_pts a' = map (fun p => vadd p (V3 (L * IZR z0 / INR n) (L * IZR z1 / INR n) w)) (a_pts a) ->
  exists f f', frame n out a = Some f /\ frame n out a' = Some f' /\ forall i j, f' i j = f i j.
Proof.
  intros Hn Ha Ha' Hb Hv Eb Ev Ez Ew Eww Ep. pose proof (proj1 Hb) as HL. assert (Hp : 0 < INR n) by (apply lt_0_INR; lia).
  assert (El : length (a_pts a') = length (a_pts a)) by (rewrite Ep, map_length; auto).
  apply frames_eq; auto. intros inv i j Hi _ _. rewrite Hv, (calc_default _ L Hb) in Hi. injection Hi as <-. fold (dinv L).
  assert (Hm : forall i : nat, INR i - INR (n / 2) = IZR (Z.of_nat i - Z.of_nat (n / 2))) by (intros; rewrite minus_IZR, <- !INR_IZR_INZ; reflexivity). rewrite !Hm.
  set (m0 := (Z.of_nat i - Z.of_nat (n / 2))%Z). set (m1 := (Z.of_nat j - Z.of_nat (n / 2))%Z).
  assert (Ews : ws_of a' = ws_of a) by (unfold ws_of; rewrite Eww, El; auto).
  rewrite !all_cells_map, Ev, Hv, Ews, Ep, combine_map_l, map_map.
  apply (scatter_phase (2 * PI * (IZR m0 * IZR z0 + IZR m1 * IZR z1) / INR n)). apply Forall2_map. intros [p x] _. cbn [fst snd]. split; auto.
  rewrite !place_default. cbn [fst snd vadd vx vy].
  assert (E0 : (vx p + L * IZR z0 / INR n) / L + / 2 = vx p / L + / 2 + IZR z0 / INR n) by (field; lra). assert (E1 : (vy p + L * IZR z1 / INR n) / L + / 2 = vy p / L + / 2 + IZR z1 / INR n) by (field; lra).
  rewrite E0, E1. destruct (bin_turn n (vx p / L + / 2) z0 Hn) as [y0 ->]. destruct (bin_turn n (vy p / L + / 2) z1 Hn) as [y1 ->].
  exists (m0 * y0 + m1 * y1)%Z. rewrite plus_IZR, !mult_IZR. field. lra.
Qed.
(** * What a pixel shows *)
Lemma Forall2_map_r {A B} (f : A -> B) (P : A -> B -> Prop) l : (forall x, P x (f x)) -> Forall2 P l (map f l).
Proof. induction l; simpl; constructor; auto. Qed.
Lemma pixels n out a L : (0 < n)%nat -> fine_args a -> cube_box (a_box a) L -> view_of a = qid ->
  exists f gs ws, frame n out a = Some f /\ scaled a ws /\ Forall2 (fun p g => snapped n L (vx p) (fst g) /\ snapped n L (vy p) (snd g)) (a_pts a) gs /\
    forall i j, let t0 := (INR j - INR (out / 2)) / a_zoom a in let t1 := (INR i - INR (out / 2)) / a_zoom a in
      let seen t := - INR (n / 2) <= t <= INR n - 1 - INR (n / 2) in
      (seen t0 -> seen t1 ->
       f i j = over n (fun m0 => over n (fun m1 => tent (t0 - m0) * tent (t1 - m1) *
                 (damping n (a_width a / a_zoom a) m0 m1 * scatter (combine ws gs) (2 * PI * m0 / L) (2 * PI * m1 / L)))) / INR (length (a_pts a))) /\
      (~ (seen t0 /\ seen t1) -> f i j = 0).
Proof.
  intros Hn Ha Hb Hv. pose proof (proj1 Hb) as HL. assert (Hp : 0 < INR n) by (apply lt_0_INR; lia). destruct (frame_spec n out a Hn Ha) as [inv [f [Hi [_ [Ef Hf]]]]]. rewrite Hv, (calc_default _ L Hb) in Hi. injection Hi as <-. fold (dinv L) in Hf.
  pose proof (ws_scaled a Ha) as [Hsc _]. pose proof Ha as [_ [_ [_ [_ [Hz _]]]]].
  set (gs := map (fun p => (L * INR (bin_of n (mod1 (vx p / L + / 2))) / INR n - L / 2, L * INR (bin_of n (mod1 (vy p / L + / 2))) / INR n - L / 2)) (a_pts a)).
  exists f, gs, (ws_of a). split; auto. split; auto. split.
  { apply Forall2_map_r. intros p. split; apply bin_snapped; auto. }
  intros i j t0 t1 seen.
  assert (Et : f i j = bilinear n (freq_image n a (dinv L)) (INR (n / 2) + t0) (INR (n / 2) + t1) / INR (length (a_pts a))).
  { apply Hf; rewrite (cube_max _ L Hb); unfold t0, t1, dinv; simpl; field; lra. }
  rewrite Et. split.
  - intros S0 S1. unfold seen in *. rewrite bilinear_tent by lra. f_equal. unfold over. apply asum_ext. intros p Hp'. apply asum_ext. intros q Hq.
    replace (INR (n / 2) + t0 - INR p) with (t0 - (INR p - INR (n / 2))) by ring. replace (INR (n / 2) + t1 - INR q) with (t1 - (INR q - INR (n / 2))) by ring.
    f_equal. rewrite freq_image_at by auto. f_equal. set (m0 := INR p - INR (n / 2)). set (m1 := INR q - INR (n / 2)). symmetry.
    rewrite all_cells_map, Hv. assert (Eg : combine (ws_of a) gs = map (fun t => (snd t, (L * INR (bin_of n (mod1 (vx (fst t) / L + / 2))) / INR n - L / 2, L * INR (bin_of n (mod1 (vy (fst t) / L + / 2))) / INR n - L / 2))) (combine (a_pts a) (ws_of a))).
    { unfold gs. rewrite combine_map_r. generalize (ws_of a). generalize (a_pts a). induction l as [|x l IH]; intros [|y l']; simpl; auto. rewrite IH. reflexivity. }
    rewrite Eg. apply (scatter_phase (- PI * (m0 + m1))). apply Forall2_map. intros [u x] _. cbn [fst snd]. split; auto. exists 0%Z. rewrite place_default. cbn [fst snd]. field. lra.
  - intros Hs. rewrite bilinear_out; [unfold Rdiv; ring|]. intros [H1 H2]. apply Hs. unfold seen. lra.
Qed.
