(** The object over any program, views along other axes, and worked examples. *)
From Coq Require Import Psatz.
From Verif Require Import DiffSpec DiffProofs DiffProofs2 DiffProofs3.
Local Open Scope R_scope.

(** * The object *)
Lemma k_grid1_at n i : (i < n)%nat -> k_grid1 n i = (INR i - INR (n / 2)) / INR n.
Proof. intros H. unfold k_grid1. destruct (shifted_freq n i ltac:(lia) H) as [_ [-> _]]. reflexivity. Qed.
Definition fsum (l : list (nat -> nat -> R)) (i j : nat) : R := fold_right (fun f acc => f i j + acc) 0 l.
Lemma fsum_app l l' i j : fsum (l ++ l') i j = fsum l i j + fsum l' i j.
Proof. induction l as [|f l IH]; simpl; [ring|]. rewrite IH. ring. Qed.
Record good (n out : nat) (os : list dop) (d : dp) : Prop := {
  g_grid : d_grid d = n; g_out : d_out d = out;
  g_sum : forall i j, d_sum d i j = fsum (kept n out os) i j;
  g_frames : d_frames d = length (kept n out os);
  g_last : match last_done n out os with
           | None => d_called d = false /\ kept n out os = []
           | Some a => d_called d = true /\ d_n d = length (a_pts a) /\ d_scale d = 2 * PI * INR out / (max_entry (a_box a) * a_zoom a) /\ d_view d = view_of a /\
                       d_korig d = k_grid1 out /\ d_kvorig d = (fun i j => V3 (k_grid1 out i) (k_grid1 out j) 0) /\
                       (d_k_ok d = true -> d_k d = fun i => d_korig d i * d_scale d) /\
                       (d_kv_ok d = true -> d_kv d = fun i j => vscale (d_scale d) (rowan_rotate (d_view d) (d_kvorig d i j)))
           end }.
Lemma good_run n out j1 j2 os : good n (match out with Some o => o | None => n end) os (drun (new_dp n out j1 j2) os).
Proof.
  set (o := match out with Some o => o | None => n end). induction os as [|op os IH] using rev_ind.
  - constructor; simpl; auto.
  - unfold drun in *. rewrite fold_left_app. simpl. set (d := fold_left dstep os (new_dp n out j1 j2)) in *. clearbody d.
    destruct IH as [Gg Go Gs Gf Gl].
    assert (Ek : kept n o (os ++ [op]) = match op with Compute a => (if a_reset a then [] else kept n o os) ++ match frame n o a with Some f => [f] | None => [] end | _ => kept n o os end) by (unfold kept; rewrite fold_left_app; destruct op; reflexivity).
    assert (El : last_done n o (os ++ [op]) = match op with Compute a => match frame n o a with Some _ => Some a | None => last_done n o os end | _ => last_done n o os end) by (unfold last_done; rewrite fold_left_app; destruct op; reflexivity).
    destruct op as [a| |]; simpl.
    + unfold compute. rewrite Gg, Go. cbv zeta. destruct (frame n o a) as [f|] eqn:Ef; cbn [fst].
      * constructor; rewrite ?Ek, ?El, ?Ef; cbn; auto.
        -- intros i j. rewrite fsum_app. destruct (a_reset a); cbn [d_sum fsum fold_right]; [ring|]. rewrite Gs. simpl. ring.
        -- rewrite app_length. destruct (a_reset a); cbn [d_frames length]; [reflexivity|]. rewrite Gf. simpl. lia.
        -- assert (Hk : (if d_called d then d_korig (if a_reset a then DPat n o (fun _ _ => 0) 0 (d_called d) (d_n d) (d_korig d) (d_kvorig d) (d_scale d) (d_view d) (d_k d) (d_k_ok d) (d_kv d) (d_kv_ok d) else d) else k_grid1 o) = k_grid1 o /\
                       (if d_called d then d_kvorig (if a_reset a then DPat n o (fun _ _ => 0) 0 (d_called d) (d_n d) (d_korig d) (d_kvorig d) (d_scale d) (d_view d) (d_k d) (d_k_ok d) (d_kv d) (d_kv_ok d) else d) else (fun i j => V3 (k_grid1 o i) (k_grid1 o j) 0)) = (fun i j => V3 (k_grid1 o i) (k_grid1 o j) 0)).
           { destruct (last_done n o os) as [b|]; [destruct Gl as [-> [_ [_ [_ [E1 [E2 _]]]]]]; destruct (a_reset a); auto|destruct Gl as [-> _]; auto]. }
           repeat split; auto; try (exact (proj1 Hk)); try (exact (proj2 Hk)); discriminate.
      * constructor; rewrite ?Ek, ?El, ?Ef, ?app_nil_r; destruct (a_reset a); cbn; auto.
        destruct (last_done n o os) as [b|]; [exact Gl|]. destruct Gl; auto.
    + unfold k_values. destruct (last_done n o os) as [b|] eqn:Eb.
      * destruct Gl as [Hc [Hn [Hs [Hv [E1 [E2 [K1 K2]]]]]]]. rewrite Hc. cbn. constructor; rewrite ?Ek, ?El; cbn; auto. repeat split; auto.
        intros _. destruct (d_k_ok d); auto.
      * destruct Gl as [Hc Hk]. rewrite Hc. cbn. constructor; rewrite ?Ek, ?El, ?Eb; auto.
    + unfold k_vectors. destruct (last_done n o os) as [b|] eqn:Eb.
      * destruct Gl as [Hc [Hn [Hs [Hv [E1 [E2 [K1 K2]]]]]]]. rewrite Hc. cbn. constructor; rewrite ?Ek, ?El; cbn; auto. repeat split; auto.
        intros _. destruct (d_kv_ok d); auto.
      * destruct Gl as [Hc Hk]. rewrite Hc. cbn. constructor; rewrite ?Ek, ?El, ?Eb; auto.
Qed.
Lemma run_average n out j1 j2 os : let o := match out with Some o => o | None => n end in
  match diffraction (drun (new_dp n out j1 j2) os) with
  | NoAttribute => last_done n o os = None
  | NotANumber => last_done n o os <> None /\ kept n o os = []
  | Values f => kept n o os <> [] /\ forall i j, f i j = fold_right (fun g acc => g i j + acc) 0 (kept n o os) / INR (length (kept n o os))
  end.
Proof.
  intros o. destruct (good_run n out j1 j2 os) as [_ _ Gs Gf Gl]. fold o in Gs, Gf, Gl. unfold diffraction. destruct (last_done n o os) as [a|].
  - destruct Gl as [-> _]. cbn [negb]. rewrite Gf. destruct (Nat.eqb_spec (length (kept n o os)) 0) as [E|E].
    + split; [discriminate|]. destruct (kept n o os); auto; discriminate.
    + split; [intros H; rewrite H in E; apply E; reflexivity|]. intros i j. rewrite Gs. reflexivity.
  - destruct Gl as [-> _]. reflexivity.
Qed.
Lemma run_k n out j1 j2 os a : (0 < match out with Some o => o | None => n end)%nat -> let o := match out with Some o => o | None => n end in
  last_done n o os = Some a -> max_entry (a_box a) <> 0 -> a_zoom a <> 0 ->
  let d := drun (new_dp n out j1 j2) os in
  let k i := 2 * PI * (INR i - INR (o / 2)) / (max_entry (a_box a) * a_zoom a) in
  n_points d = Values (length (a_pts a)) /\
  (exists v, snd (k_values d) = Values v /\ forall i, (i < o)%nat -> v i = k i) /\
  (exists v, snd (k_vectors d) = Values v /\ forall i j, (i < o)%nat -> (j < o)%nat -> v i j = rowan_rotate (view_of a) (V3 (k i) (k j) 0)).
Proof.
  intros Ho o Hl Hm Hz d k. fold o in Ho. destruct (good_run n out j1 j2 os) as [_ _ _ _ Gl]. fold o d in Gl. rewrite Hl in Gl. destruct Gl as [Hc [Hn [Hs [Hv [E1 [E2 [K1 K2]]]]]]].
  assert (Hop : 0 < INR o) by (apply lt_0_INR; auto).
  assert (Kg : forall i, (i < o)%nat -> k_grid1 o i * d_scale d = k i) by (intros i Hi; rewrite k_grid1_at by auto; rewrite Hs; unfold k; field; repeat split; lra).
  unfold n_points, k_values, k_vectors. rewrite Hc. cbn [negb snd]. split; [congruence|]. split.
  - eexists. split; [reflexivity|]. intros i Hi. assert (E : (if d_k_ok d then d_k d else fun i0 => d_korig d i0 * d_scale d) i = d_korig d i * d_scale d) by (destruct (d_k_ok d); [rewrite K1 by auto|]; reflexivity).
    rewrite E, E1. apply Kg. auto.
  - eexists. split; [reflexivity|]. intros i j Hi Hj. assert (E : (if d_kv_ok d then d_kv d else fun i0 j0 => vscale (d_scale d) (rowan_rotate (d_view d) (d_kvorig d i0 j0))) i j = vscale (d_scale d) (rowan_rotate (d_view d) (d_kvorig d i j))) by (destruct (d_kv_ok d); [rewrite K2 by auto|]; reflexivity).
    rewrite E, E2, Hv, <- rowan_rotate_scale. f_equal. rewrite <- (Kg i Hi), <- (Kg j Hj). apply vec_eq; simpl; ring.
Qed.

(** * Accepting and refusing calls *)
Lemma cube_cubic b L : cube_box b L -> cubic b = true.
Proof.
  intros [HL [E [E1 [E2 [E3 E4]]]]]. unfold cubic, close5. rewrite E, E1, E2, E3, E4. simpl. rewrite !Rminus_diag_eq by auto. rewrite Rabs_R0.
  assert (H : forall x, Rleb 0 (/ 100000 + / 100000 * Rabs x) = true) by (intros x; apply Rleb_true; pose proof (Rabs_pos x); lra). rewrite !H. rewrite (proj2 (Rleb_true 0 (/ 100000 + / 100000 * 0))) by lra. reflexivity.
Qed.
Lemma close5_false a b : / 100000 + / 100000 * Rabs b < Rabs (a - b) -> close5 a b = false.
Proof. intros H. apply Rleb_false. auto. Qed.
Lemma frame_reject n out a : cubic (a_box a) = false \/ (exists w, a_weights a = Some w /\ length w <> length (a_pts a)) -> frame n out a = None.
Proof.
  intros [H|[w [Ew Hl]]]; unfold frame.
  - rewrite H. reflexivity.
  - destruct (negb (cubic (a_box a))); auto. destruct (calc_proj _ _); auto. rewrite Ew. unfold normalise. rewrite map_length. destruct (Nat.eqb_spec (length w) (length (a_pts a))); [contradiction|]. reflexivity.
Qed.

(** * Views along other axes *)
Definition yzx (q : quat) : Prop := forall v, rowan_rotate q v = V3 (vz v) (vx v) (vy v).
Definition zxy (q : quat) : Prop := forall v, rowan_rotate q v = V3 (vy v) (vz v) (vx v).
Lemma shear_id B (k : nat) L : argmax3 (projection B) = k -> ent (r0 B) (k + 1) = L -> ent (r0 B) (k + 2) = 0 -> ent (r1 B) (k + 1) = 0 -> ent (r1 B) (k + 2) = L -> 0 < L -> inv2 (shear_of B) = Some (dinv L).
Proof.
  intros Ek E1 E2 E3 E4 HL. unfold shear_of, inv2. rewrite Ek. cbn. rewrite E1, E2, E3, E4. destruct (Reqb_spec (L * L - 0 * 0) 0); [nra|]. unfold dinv. f_equal. f_equal; field; lra.
Qed.
Lemma calc_cyclic q b L : cube_box b L -> yzx q \/ zxy q -> calc_proj q b = Some (dinv L).
Proof.
  intros Hb Hq. pose proof (proj1 Hb) as HL. unfold calc_proj.
  destruct Hq as [Hq|Hq]; assert (EB : exists x, view_matrix q b = x) by (eexists; reflexivity); destruct EB as [B EB]; rewrite EB; unfold view_matrix in EB; rewrite (cube_rows b L Hb) in EB; cbn [r0 r1 r2] in EB; rewrite !Hq in EB; cbn in EB; subst B.
  - apply (shear_id _ 0 L); auto.
    set (f := projection _). assert (F0 : 0 < f 0%nat) by (unfold f, projection, ent; simpl; apply Rabs_pos_lt; nra).
    assert (F1 : f 1%nat = 0) by (unfold f, projection, ent; simpl; rewrite Rmult_0_l, Rmult_0_r, Rminus_0_r; apply Rabs_R0).
    assert (F2 : f 2%nat = 0) by (unfold f, projection, ent; simpl; match goal with |- Rabs ?x = 0 => replace x with 0 by ring end; apply Rabs_R0).
    clearbody f. unfold argmax3. cbv zeta. rewrite F1, F2, (proj2 (Rltb_false (f 0%nat) 0)) by lra. rewrite (proj2 (Rltb_false (f 0%nat) 0)) by lra. reflexivity.
  - apply (shear_id _ 1 L); auto.
    set (f := projection _). assert (F1 : 0 < f 1%nat) by (unfold f, projection, ent; simpl; apply Rabs_pos_lt; nra).
    assert (F0 : f 0%nat = 0) by (unfold f, projection, ent; simpl; match goal with |- Rabs ?x = 0 => replace x with 0 by ring end; apply Rabs_R0).
    assert (F2 : f 2%nat = 0) by (unfold f, projection, ent; simpl; match goal with |- Rabs ?x = 0 => replace x with 0 by ring end; apply Rabs_R0).
    clearbody f. unfold argmax3. cbv zeta. rewrite F0, F2, (proj2 (Rltb_true 0 (f 1%nat))) by lra. rewrite (proj2 (Rltb_false (f 1%nat) 0)) by lra. reflexivity.
Qed.
Lemma frame_place n out a a' L : calc_proj (view_of a) (a_box a) = Some (dinv L) -> calc_proj (view_of a') (a_box a') = Some (dinv L) ->
  a_box a' = a_box a -> a_zoom a' = a_zoom a -> a_width a' = a_width a -> a_weights a' = a_weights a ->
  map (place (view_of a') (dinv L)) (a_pts a') = map (place (view_of a) (dinv L)) (a_pts a) -> frame n out a' = frame n out a.
Proof.
  intros C C' Eb Ez Ew Eww Ep. assert (El : length (a_pts a') = length (a_pts a)) by (apply (f_equal (@length _)) in Ep; rewrite !map_length in Ep; auto).
  unfold frame. rewrite C, C', Eb, Ez, Ew, Eww, El, Ep. reflexivity.
Qed.
Lemma cyclic_frame n out a a' L : cube_box (a_box a) L -> yzx (view_of a) \/ zxy (view_of a) -> view_of a' = qid ->
  a_box a' = a_box a -> a_zoom a' = a_zoom a -> a_width a' = a_width a -> a_weights a' = a_weights a -> a_pts a' = map (rowan_rotate (view_of a)) (a_pts a) ->
  frame n out a' = frame n out a.
Proof.
  intros Hb Hq Hv Eb Ez Ew Eww Ep. apply (frame_place n out a a' L); auto.
  - apply calc_cyclic; auto.
  - rewrite Hv, Eb. apply calc_default. auto.
  - rewrite Ep, map_map. apply map_ext. intros p. rewrite Hv. unfold place. rewrite rowan_rotate_id. reflexivity.
Qed.

(** * Exact pixels *)
Lemma asum_0' n f : (forall k, (k < n)%nat -> f k = 0) -> asum n f = 0.
Proof. intros H. rewrite (asum_ext n f (fun _ => 0)) by auto. apply asum_0. Qed.
Lemma over_pick n f (k : nat) : (k < n)%nat -> (forall m, 1 <= Rabs (INR k - INR (n / 2) - m) -> f m = 0) -> over n f = f (INR k - INR (n / 2)).
Proof.
  intros Hk H. unfold over. rewrite (asum_pick n k); auto. intros i Hi Hne. apply H.
  replace (INR k - INR (n / 2) - (INR i - INR (n / 2))) with (INR k - INR i) by ring.
  assert (E : INR k - INR i = IZR (Z.of_nat k - Z.of_nat i)) by (rewrite minus_IZR, <- !INR_IZR_INZ; auto). rewrite E, <- abs_IZR. apply IZR_le. lia.
Qed.
Lemma aligned n a L : (0 < n)%nat -> fine_args a -> cube_box (a_box a) L -> view_of a = qid -> a_zoom a = 1 ->
  exists f gs ws, frame n n a = Some f /\ scaled a ws /\ Forall2 (fun p g => snapped n L (vx p) (fst g) /\ snapped n L (vy p) (snd g)) (a_pts a) gs /\
    forall i j, (i < n)%nat -> (j < n)%nat -> let m0 := INR j - INR (n / 2) in let m1 := INR i - INR (n / 2) in
      f i j = damping n (a_width a) m0 m1 * scatter (combine ws gs) (2 * PI * m0 / L) (2 * PI * m1 / L) / INR (length (a_pts a)).
Proof.
  intros Hn Ha Hb Hv Hz. destruct (pixels n n a L Hn Ha Hb Hv) as [f [gs [ws [Ef [Hs [Hg H]]]]]]. exists f, gs, ws. split; auto. split; auto. split; auto.
  intros i j Hi Hj m0 m1. specialize (H i j). cbv zeta in H. destruct H as [H _]. rewrite Hz in H. assert (R1 : forall x, x / 1 = x) by (intros; field). rewrite !R1 in H. fold m0 m1 in H.
  assert (Sn : forall k : nat, (k < n)%nat -> - INR (n / 2) <= INR k - INR (n / 2) <= INR n - 1 - INR (n / 2)).
  { intros k Hk. pose proof (pos_INR k). assert (INR k + 1 <= INR n) by (rewrite <- S_INR; apply le_INR; lia). lra. }
  rewrite H by (apply Sn; auto). f_equal.
  rewrite (over_pick n _ j) by (auto; intros m Hm; apply asum_0'; intros; fold m0 in Hm; rewrite (tent_far (m0 - m)) by auto; ring). fold m0.
  rewrite (over_pick n _ i) by (auto; intros m Hm; fold m1 in Hm; rewrite (tent_far (m1 - m)) by auto; ring). fold m1.
  rewrite !Rminus_diag_eq, tent_0 by auto. ring.
Qed.
Lemma snapped_corner n L x g (k : nat) : (k < n)%nat -> 0 < L -> x = L * INR k / INR n - L / 2 -> snapped n L x g -> g = x.
Proof.
  intros Hk HL Ex [j [z [Hj [Eg Hg]]]]. assert (Hp : 0 < INR n) by (apply lt_0_INR; lia).
  rewrite Ex. rewrite Eg in *. rewrite Ex in Hg. rewrite (INR_IZR_INZ k) in Hg.
  assert (HLn : 0 < L / INR n) by (apply Rdiv_lt_0_compat; lra).
  assert (E : L * IZR (Z.of_nat k) / INR n - L / 2 + L * IZR z = L / INR n * IZR (Z.of_nat k + Z.of_nat n * z) - L / 2) by (rewrite plus_IZR, mult_IZR, <- (INR_IZR_INZ n); field; lra).
  rewrite E in Hg. replace (L * IZR j / INR n) with (L / INR n * IZR j) in Hg by (field; lra).
  assert (H1 : IZR j <= IZR (Z.of_nat k + Z.of_nat n * z)) by (apply (Rmult_le_reg_l (L / INR n)); lra).
  assert (H2 : IZR (Z.of_nat k + Z.of_nat n * z) < IZR (j + 1)) by (apply (Rmult_lt_reg_l (L / INR n)); auto; rewrite (plus_IZR j); lra).
  apply le_IZR in H1. apply lt_IZR in H2. assert (z = 0)%Z by nia. subst z. assert (j = Z.of_nat k) by lia. subst j. rewrite <- INR_IZR_INZ. reflexivity.
Qed.
Lemma F2_length {A B} (P : A -> B -> Prop) l l' : Forall2 P l l' -> length l = length l'.
Proof. induction 1; simpl; auto. Qed.
(** * Units *)
Lemma scale_frame n out a a' L s : (0 < n)%nat -> 0 < s -> fine_args a -> fine_args a' -> cube_box (a_box a) L -> cube_box (a_box a') (s * L) -> view_of a = qid -> view_of a' = qid ->
  a_zoom a' = a_zoom a -> a_width a' = a_width a -> a_weights a' = a_weights a -> a_pts a' = map (vscale s) (a_pts a) ->
  exists f f', frame n out a = Some f /\ frame n out a' = Some f' /\ forall i j, f' i j = f i j.
Proof.
  intros Hn Hs Ha Ha' Hb Hb' Hv Hv' Ez Ew Eww Ep. pose proof (proj1 Hb) as HL.
  destruct (frame_spec n out a Hn Ha) as [inv [f [Hi [_ [Ef Hf]]]]]. destruct (frame_spec n out a' Hn Ha') as [inv' [f' [Hi' [_ [Ef' Hf']]]]].
  rewrite Hv, (calc_default _ L Hb) in Hi. injection Hi as <-. rewrite Hv', (calc_default _ (s * L) Hb') in Hi'. injection Hi' as <-. fold (dinv L) in Hf. fold (dinv (s * L)) in Hf'.
  exists f, f'. split; auto. split; auto. intros i j. pose proof Ha as [_ [_ [_ [_ [Hz _]]]]].
  set (t0 := (INR j - INR (out / 2)) / a_zoom a). set (t1 := (INR i - INR (out / 2)) / a_zoom a).
  rewrite (Hf i j t0 t1) by (rewrite (cube_max _ L Hb); unfold t0, t1, dinv; simpl; field; lra).
  assert (s * L <> 0) by nra.
  rewrite (Hf' i j t0 t1) by (rewrite (cube_max _ _ Hb'), Ez; unfold t0, t1, dinv; simpl; field; repeat split; lra).
  assert (El : length (a_pts a') = length (a_pts a)) by (rewrite Ep, map_length; auto). rewrite El. f_equal.
  unfold freq_image. assert (Ews : ws_of a' = ws_of a) by (unfold ws_of; rewrite Eww, El; auto). rewrite Ews, Ew, Ez, Ep, map_map, Hv, Hv'.
  assert (Em : map (fun x => place qid (dinv (s * L)) (vscale s x)) (a_pts a) = map (place qid (dinv L)) (a_pts a)).
  { apply map_ext. intros p. rewrite !place_default. cbn [vscale vx vy]. f_equal; f_equal; f_equal; field; lra. }
  rewrite Em. reflexivity.
Qed.
