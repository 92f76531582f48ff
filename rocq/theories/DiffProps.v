(** C76: what a DiffractionPattern shows. *)
From Coq Require Import Psatz.
From Verif Require Import DiffSpec DiffProofs DiffProofs2 DiffProofs3 DiffProofs4.
Local Open Scope R_scope.

(** compute accepts every call that the documentation allows, and a cube is cubic. *)
Theorem C76_accept n out a d : (0 < n)%nat -> fine_args a -> d_grid d = n -> d_out d = out ->
  snd (compute d a) = true /\ exists f, frame n out a = Some f.
Proof.
  intros Hn Ha Hg Ho. destruct (frame_spec n out a Hn Ha) as [_ [f [_ [_ [Ef _]]]]]. split; [|exists f; auto].
  unfold compute. rewrite Hg, Ho, Ef. destruct (a_reset a); reflexivity.
Qed.
Theorem C76_cube b L : cube_box b L -> cubic b = true /\ max_entry b = L.
Proof. intros H. split; [apply (cube_cubic b L H)|apply (cube_max b L H)]. Qed.
(** A two-dimensional box, sides or tilts that differ by more than the tolerances of np.allclose, or another number of weights than points: it raises. *)
Theorem C76_reject d a :
  (b_2d (a_box a) = true \/
   (exists s t, In s [vx (b_L (a_box a)); vy (b_L (a_box a)); vz (b_L (a_box a))] /\ In t [vx (b_L (a_box a)); vy (b_L (a_box a)); vz (b_L (a_box a))] /\
                / 100000 * (1 + Rabs t) < Rabs (s - t)) \/
   (exists t, In t [b_xy (a_box a); b_xz (a_box a); b_yz (a_box a)] /\ / 100000 * (1 + Rabs t) < Rabs t) \/
   (exists w, a_weights a = Some w /\ length w <> length (a_pts a))) ->
  snd (compute d a) = false.
Proof.
  intros H. assert (E : frame (d_grid d) (d_out d) a = None).
  { apply frame_reject. destruct H as [H|[[s [t [Hs [Ht H]]]]|[[t [Ht H]]|H]]]; auto; left; unfold cubic.
    - rewrite H. reflexivity.
    - assert (C : close5 s t = false) by (apply close5_false; lra).
      simpl in Hs, Ht. assert (Z : forall x, / 100000 * (1 + Rabs x) < Rabs (x - x) -> False) by (intros x; rewrite Rminus_diag_eq, Rabs_R0 by auto; pose proof (Rabs_pos x); lra).
      destruct Hs as [<-|[<-|[<-|[]]]], Ht as [<-|[<-|[<-|[]]]]; try (exfalso; eapply Z; eassumption); rewrite C, ?andb_false_r, ?andb_false_l, ?andb_false_r; reflexivity.
    - assert (C : close5 0 t = false) by (apply close5_false; replace (0 - t) with (- t) by ring; rewrite Rabs_Ropp; lra).
      simpl in Ht. destruct Ht as [<-|[<-|[<-|[]]]]; rewrite C, ?andb_false_r, ?andb_false_l, ?andb_false_r; reflexivity. }
  unfold compute. rewrite E. destruct (a_reset a); reflexivity.
Qed.

(** The central pixel is the number of points, whatever the view, zoom, peak width and weights. *)
Theorem C76_centre n out a : (0 < n)%nat -> fine_args a -> exists f, frame n out a = Some f /\ f (out / 2)%nat (out / 2)%nat = INR (length (a_pts a)).
Proof. apply centre_value. Qed.
(** With weights that are not negative, every pixel lies between zero and the central one. *)
Theorem C76_bounds n out a : (0 < n)%nat -> fine_args a -> (forall w, a_weights a = Some w -> forall x, In x w -> 0 <= x) ->
  exists f, frame n out a = Some f /\ forall i j, 0 <= f i j <= INR (length (a_pts a)).
Proof. apply bounds. Qed.
(** The order of the points does not matter, if their weights move with them. *)
Theorem C76_order n out a a' : (0 < n)%nat -> fine_args a -> fine_args a' -> a_box a' = a_box a -> view_of a' = view_of a -> a_zoom a' = a_zoom a -> a_width a' = a_width a ->
  reordered a a' -> same_frame n out a a'.
Proof. apply order. Qed.
(** Moving each point by any distance along the direction of view changes nothing. *)
Theorem C76_depth n out a a' u : (0 < n)%nat -> fine_args a -> fine_args a' -> same_but_points a a' ->
  vx (rowan_rotate (view_of a) u) = 0 -> vy (rowan_rotate (view_of a) u) = 0 ->
  Forall2 (fun p p' => exists c, p' = vadd p (vscale c u)) (a_pts a) (a_pts a') -> same_frame n out a a'.
Proof.
  intros Hn Ha Ha' [Eb [Ev [Ez [Ew Eww]]]] Ux Uy H. apply same_places; auto; [|symmetry; eapply F2_length; eauto].
  intros inv _. eapply map_Forall2; [exact H|]. intros p p' [c ->]. apply (place_shift _ _ _ _ 0 0). rewrite rowan_rotate_scale. cbn [vscale vx vy]. rewrite Ux, Uy. unfold r2apply. f_equal; ring.
Qed.
(** Seen along any axis of the cube, replacing points by their periodic images changes nothing. *)
Theorem C76_periodic n out a a' L : (0 < n)%nat -> fine_args a -> fine_args a' -> same_but_points a a' -> cube_box (a_box a) L -> axis_view (view_of a) ->
  Forall2 (fun p p' => exists z0 z1 z2, p' = vadd p (V3 (L * IZR z0) (L * IZR z1) (L * IZR z2))) (a_pts a) (a_pts a') -> same_frame n out a a'.
Proof.
  intros Hn Ha Ha' [Eb [Ev [Ez [Ew Eww]]]] Hb Hq H. apply same_places; auto; [|symmetry; eapply F2_length; eauto].
  intros inv Hi. eapply map_Forall2; [exact H|]. intros p p' [z0 [z1 [z2 ->]]].
  destruct (axis_shift (view_of a) (a_box a) L inv z0 z1 z2) as [y0 [y1 E]]; auto; [apply Ha|]. eapply place_shift. exact E.
Qed.
(** Moving all points together by whole pixels of the grid, and by anything in depth, changes nothing (default view). *)
Theorem C76_translation n out a a' L z0 z1 w : (0 < n)%nat -> fine_args a -> fine_args a' -> same_but_points a a' -> cube_box (a_box a) L -> view_of a = qid ->
  a_pts a' = map (fun p => vadd p (V3 (L * IZR z0 / INR n) (L * IZR z1 / INR n) w)) (a_pts a) -> same_frame n out a a'.
Proof. intros Hn Ha Ha' [Eb [Ev [Ez [Ew Eww]]]] Hb Hv Ep. eapply shift_default; eauto. Qed.
(** Looking along the x or the y axis shows what the default view shows of the points with their coordinates permuted. *)
Theorem C76_axes n out a a' L : cube_box (a_box a) L ->
  (forall v, rowan_rotate (view_of a) v = V3 (vz v) (vx v) (vy v)) \/ (forall v, rowan_rotate (view_of a) v = V3 (vy v) (vz v) (vx v)) ->
  view_of a' = qid -> a_box a' = a_box a -> a_zoom a' = a_zoom a -> a_width a' = a_width a -> a_weights a' = a_weights a ->
  a_pts a' = map (rowan_rotate (view_of a)) (a_pts a) -> frame n out a' = frame n out a.
Proof. apply cyclic_frame. Qed.
(** What a pixel shows: the intensity at k = (2 pi t0 / L, 2 pi t1 / L) of the points snapped to the grid, damped by the peak width,
    interpolated between the frequencies of the grid, over the number of points; zero beyond the grid.  Row i stands for ky, column j for kx. *)
Theorem C76_pixels n out a L : (0 < n)%nat -> fine_args a -> cube_box (a_box a) L -> view_of a = qid ->
  exists f gs ws, frame n out a = Some f /\ scaled a ws /\ Forall2 (fun p g => snapped n L (vx p) (fst g) /\ snapped n L (vy p) (snd g)) (a_pts a) gs /\
    forall i j, let t0 := (INR j - INR (out / 2)) / a_zoom a in let t1 := (INR i - INR (out / 2)) / a_zoom a in
      let seen t := - INR (n / 2) <= t <= INR n - 1 - INR (n / 2) in
      (seen t0 -> seen t1 ->
       f i j = over n (fun m0 => over n (fun m1 => tent (t0 - m0) * tent (t1 - m1) *
                 (damping n (a_width a / a_zoom a) m0 m1 * scatter (combine ws gs) (2 * PI * m0 / L) (2 * PI * m1 / L)))) / INR (length (a_pts a))) /\
      (~ (seen t0 /\ seen t1) -> f i j = 0).
Proof. apply pixels. Qed.
(** With zoom 1 and an output as large as the grid nothing is interpolated. *)
Theorem C76_aligned n a L : (0 < n)%nat -> fine_args a -> cube_box (a_box a) L -> view_of a = qid -> a_zoom a = 1 ->
  exists f gs ws, frame n n a = Some f /\ scaled a ws /\ Forall2 (fun p g => snapped n L (vx p) (fst g) /\ snapped n L (vy p) (snd g)) (a_pts a) gs /\
    forall i j, (i < n)%nat -> (j < n)%nat -> let m0 := INR j - INR (n / 2) in let m1 := INR i - INR (n / 2) in
      f i j = damping n (a_width a) m0 m1 * scatter (combine ws gs) (2 * PI * m0 / L) (2 * PI * m1 / L) / INR (length (a_pts a)).
Proof. apply aligned. Qed.
(** The units of length do not matter: with box and points scaled together, the same peak width gives the same pattern. *)
Theorem C76_scale n out a a' L s : (0 < n)%nat -> 0 < s -> fine_args a -> fine_args a' -> cube_box (a_box a) L -> cube_box (a_box a') (s * L) -> view_of a = qid -> view_of a' = qid ->
  a_zoom a' = a_zoom a -> a_width a' = a_width a -> a_weights a' = a_weights a -> a_pts a' = map (vscale s) (a_pts a) -> same_frame n out a a'.
Proof. apply scale_frame. Qed.

(** After any program, diffraction is the mean of the frames of the calls that returned since the last reset. *)
Theorem C76_average n out j1 j2 os : let o := match out with Some o => o | None => n end in
  match diffraction (drun (new_dp n out j1 j2) os) with
  | NoAttribute => last_done n o os = None
  | NotANumber => last_done n o os <> None /\ kept n o os = []
  | Values f => kept n o os <> [] /\ forall i j, f i j = fold_right (fun g acc => g i j + acc) 0 (kept n o os) / INR (length (kept n o os))
  end.
Proof. apply run_average. Qed.
(** After any program, N_points, k_values and k_vectors are those of the last call that returned. *)
Theorem C76_k n out j1 j2 os a : (0 < match out with Some o => o | None => n end)%nat -> let o := match out with Some o => o | None => n end in
  last_done n o os = Some a -> max_entry (a_box a) <> 0 -> a_zoom a <> 0 ->
  let d := drun (new_dp n out j1 j2) os in
  let k i := 2 * PI * (INR i - INR (o / 2)) / (max_entry (a_box a) * a_zoom a) in
  n_points d = Values (length (a_pts a)) /\
  (exists v, snd (k_values d) = Values v /\ forall i, (i < o)%nat -> v i = k i) /\
  (exists v, snd (k_vectors d) = Values v /\ forall i j, (i < o)%nat -> (j < o)%nat -> v i j = rowan_rotate (view_of a) (V3 (k i) (k j) 0)).
Proof. apply run_k. Qed.

(** * What fails *)
Definition unit_cube : box := mk_box 1 1 1 0 0 0 false.
Lemma unit_is_cube : cube_box unit_cube 1.
Proof. unfold cube_box, unit_cube. simpl. repeat split; lra. Qed.
Definition two : list vec3 := [V3 0 0 0; V3 (- / 2) 0 0].
Definition call (pts : list vec3) (view : option quat) (w : option (list R)) : dargs := DA unit_cube pts view 1 0 w true.
Lemma call_fine pts view w : pts <> [] -> unitq (match view with Some q => q | None => qid end) -> match w with None => True | Some w => length w = length pts /\ fold_right Rplus 0 w <> 0 end -> fine_args (call pts view w).
Proof.
  intros Hp Hq Hw. unfold fine_args, call. simpl. split; [apply (cube_cubic _ 1 unit_is_cube)|]. repeat split; try lra; auto.
Qed.
Lemma damping_w0 n m0 m1 : damping n 0 m0 m1 = 1.
Proof. unfold damping. replace (2 * PI * 0 / INR n) with 0 by (unfold Rdiv; ring). replace (- (0 * 0) * (m0 * m0 + m1 * m1)) with 0 by ring. apply exp_0. Qed.
(* two points on corners of the 2 x 2 grid: the pixels *)
Lemma two_pixels (y : bool) w : match w with None => True | Some w => length w = 2%nat /\ fold_right Rplus 0 w <> 0 end ->
  let pts := if y then [V3 0 0 0; V3 0 (- / 2) 0] else two in
  exists f ws, frame 2 2 (call pts None w) = Some f /\ scaled (call pts None w) ws /\
  forall i j, (i < 2)%nat -> (j < 2)%nat -> f i j = scatter (combine ws (if y then [(0, 0); (0, - / 2)] else [(0, 0); (- / 2, 0)])) (2 * PI * (INR j - 1)) (2 * PI * (INR i - 1)) / 2.
Proof.
  intros Hw pts. assert (Ha : fine_args (call pts None w)) by (apply call_fine; [unfold pts, two; destruct y; discriminate|apply unit_id|unfold pts, two; destruct y; exact Hw]).
  destruct (aligned 2 (call pts None w) 1 ltac:(lia) Ha unit_is_cube eq_refl eq_refl) as [f [gs [ws [Ef [Hs [Hg H]]]]]].
  exists f, ws. split; auto. split; auto.
  assert (S0 : forall g, snapped 2 1 0 g -> g = 0) by (intros g; apply (snapped_corner 2 1 0 g 1); [lia|lra|simpl; field]).
  assert (S1 : forall g, snapped 2 1 (- / 2) g -> g = - / 2) by (intros g; apply (snapped_corner 2 1 (- / 2) g 0); [lia|lra|simpl; field]).
  assert (Eg : gs = if y then [(0, 0); (0, - / 2)] else [(0, 0); (- / 2, 0)]).
  { unfold call, pts, two in Hg. simpl in Hg. destruct y; inversion Hg as [|? [a b] ? ? [A B] Hg1]; subst; inversion Hg1 as [|? [c d] ? ? [C D] Hg2]; subst; inversion Hg2; subst; simpl in *; rewrite (S0 _ A), (S0 _ B); [rewrite (S0 _ C), (S1 _ D)|rewrite (S1 _ C), (S0 _ D)]; reflexivity. }
  intros i j Hi Hj. specialize (H i j Hi Hj). cbv zeta in H. rewrite H, Eg. cbn [a_width call]. rewrite damping_w0. change (INR (2 / 2)) with 1.
  replace (INR (length (a_pts (call pts None w)))) with 2 by (unfold pts, two; destruct y; simpl; ring).
  replace (2 * PI * (INR j - 1) / 1) with (2 * PI * (INR j - 1)) by field. replace (2 * PI * (INR i - 1) / 1) with (2 * PI * (INR i - 1)) by field. field.
Qed.
Lemma ones ws : scaled (call two None None) ws \/ scaled (call [V3 0 0 0; V3 0 (- / 2) 0] None None) ws -> ws = [1; 1].
Proof. intros [[Hl H]|[Hl H]]; simpl in *; destruct ws as [|x [|y [|z l]]]; simpl in Hl; try discriminate; rewrite (H x), (H y) by (simpl; auto); reflexivity. Qed.
Ltac trig := repeat match goal with
  | |- context [cos ?x] => first [ replace x with 0 by (simpl; lra) | replace x with PI by (simpl; lra) | replace x with (- PI) by (simpl; lra) | replace x with (- (2 * PI)) by (simpl; lra) ]; rewrite ?cos_0, ?cos_PI, ?cos_neg, ?cos_PI, ?cos_2PI
  | |- context [sin ?x] => first [ replace x with 0 by (simpl; lra) | replace x with PI by (simpl; lra) | replace x with (- PI) by (simpl; lra) | replace x with (- (2 * PI)) by (simpl; lra) ]; rewrite ?sin_0, ?sin_PI, ?sin_neg, ?sin_PI, ?sin_2PI
  end.
Lemma call_k pts q : pts <> [] -> unitq q -> let d := fst (compute (new_dp 2 None (fun _ => 0) (fun _ _ => v0)) (call pts (Some q) None)) in
  exists v, snd (k_vectors d) = Values v /\ forall i j, (i < 2)%nat -> (j < 2)%nat -> v i j = rowan_rotate q (V3 (2 * PI * (INR i - 1)) (2 * PI * (INR j - 1)) 0).
Proof.
  intros Hp Hq d. assert (Ha : fine_args (call pts (Some q) None)) by (apply call_fine; auto). destruct (C76_accept 2 2 _ (new_dp 2 None (fun _ => 0) (fun _ _ => v0)) ltac:(lia) Ha eq_refl eq_refl) as [_ [f Ef]].
  destruct (run_k 2 None (fun _ => 0) (fun _ _ => v0) [Compute (call pts (Some q) None)] (call pts (Some q) None)) as [_ [_ [v [Ev Hv]]]]; auto.
  - unfold last_done. simpl. rewrite Ef. reflexivity.
  - cbn [call a_box]. rewrite (cube_max _ 1 unit_is_cube). lra.
  - simpl. lra.
  - exists v. split; [exact Ev|]. intros i j Hi Hj. rewrite Hv by auto. cbn [view_of call a_view a_box a_zoom]. rewrite (cube_max _ 1 unit_is_cube). change (INR (2 / 2)) with 1. f_equal. apply vec_eq; cbn [vx vy vz]; field.
Qed.
(** One would expect diffraction[i, j] to be the intensity at k_vectors[i, j]: the pattern is transposed.  (The points lie on the grid, the peak width is zero.) *)
Theorem C76_transposed_refuted : exists a f v, fine_args a /\
  let d := fst (compute (new_dp 2 None (fun _ => 0) (fun _ _ => v0)) a) in
  diffraction d = Values f /\ snd (k_vectors d) = Values v /\
  strength (a_pts a) (v 0%nat 1%nat) / INR (length (a_pts a)) = 0 /\ f 0%nat 1%nat = 2 /\
  strength (a_pts a) (v 1%nat 0%nat) / INR (length (a_pts a)) = 2 /\ f 1%nat 0%nat = 0.
Proof.
  exists (call two (Some qid) None). destruct (two_pixels false None I) as [f [ws [Ef [Hs Hf]]]]. cbv zeta in *. cbn iota in *. pose proof (ones ws (or_introl Hs)) as Ew. subst ws.
  assert (Ef' : frame 2 2 (call two (Some qid) None) = Some f) by exact Ef.
  destruct (call_k two qid ltac:(discriminate) unit_id) as [v [Ev Hv]]. exists (fun i j => (0 + f i j) / INR 1), v. split; [apply call_fine; [discriminate|apply unit_id|auto]|].
  split. { unfold compute. cbn [new_dp d_grid d_out]. rewrite Ef'. reflexivity. } split; [exact Ev|]. rewrite !Hv, !rowan_rotate_id by lia. rewrite !Hf by lia.
  unfold strength, scatter, two, dot. cbn [a_pts call fold_right combine fst snd vx vy vz length two]. simpl INR. repeat split; trig; field.
Qed.
(** Nor do the k_vectors of a rotated view fit, transposed or not: they are turned the wrong way. *)
Definition turn : quat := Q (/ 2) (V3 (/ 2) (/ 2) (/ 2)).
Lemma turn_yzx v : rowan_rotate turn v = V3 (vz v) (vx v) (vy v).
Proof. apply vec_eq; unfold rowan_rotate, turn, qmul, qvec, qconj, dot, cross; simpl; field. Qed.
Theorem C76_k_vectors_refuted : exists a f v, fine_args a /\
  let d := fst (compute (new_dp 2 None (fun _ => 0) (fun _ _ => v0)) a) in
  diffraction d = Values f /\ snd (k_vectors d) = Values v /\ f 0%nat 1%nat = 0 /\
  strength (a_pts a) (v 0%nat 1%nat) / INR (length (a_pts a)) = 2 /\ strength (a_pts a) (v 1%nat 0%nat) / INR (length (a_pts a)) = 2.
Proof.
  assert (Ut : unitq turn) by (unfold unitq, turn; simpl; field).
  exists (call two (Some turn) None). destruct (two_pixels true None I) as [f [ws [Ef [Hs Hf]]]]. cbv zeta in *. cbn iota in *. pose proof (ones ws (or_intror Hs)) as Ew. subst ws.
  assert (Ef' : frame 2 2 (call two (Some turn) None) = Some f).
  { rewrite <- Ef. symmetry. apply (cyclic_frame 2 2 _ _ 1); auto; [exact unit_is_cube|left; exact turn_yzx|]. cbn [call a_pts view_of a_view two map]. rewrite !turn_yzx. reflexivity. }
  destruct (call_k two turn ltac:(discriminate) Ut) as [v [Ev Hv]]. exists (fun i j => (0 + f i j) / INR 1), v. split; [apply call_fine; [discriminate|exact Ut|auto]|].
  split. { unfold compute. cbn [new_dp d_grid d_out]. rewrite Ef'. reflexivity. } split; [exact Ev|]. rewrite !Hv, !turn_yzx by lia. rewrite !Hf by lia.
  unfold strength, scatter, two, dot. cbn [a_pts call fold_right combine fst snd vx vy vz length two]. simpl INR. repeat split; trig; field.
Qed.
(** With a negative weight the central pixel need not be the brightest. *)
Theorem C76_weights_refuted : exists a f, fine_args a /\ frame 2 2 a = Some f /\ f 1%nat 1%nat = 2 /\ f 1%nat 0%nat = 18.
Proof.
  exists (call two None (Some [2; -1])). assert (Hw : length [2; -1] = 2%nat /\ fold_right Rplus 0 [2; -1] <> 0) by (simpl; split; [auto|lra]).
  destruct (two_pixels false (Some [2; -1]) Hw) as [f [ws [Ef [Hs Hf]]]]. cbv zeta in *. cbn iota in *. exists f.
  assert (Ew : ws = [4; -2]). { destruct Hs as [_ [_ [c [Hc ->]]]]. simpl in Hc. assert (c = 2) by lra. subst c. cbn [map]. replace (2 * 2) with 4 by ring. replace (2 * -1) with (-2) by ring. reflexivity. } subst ws.
  split; [apply call_fine; [discriminate|apply unit_id|exact Hw]|]. split; auto. rewrite !Hf by lia.
  unfold scatter. cbn [fold_right combine fst snd]. simpl INR. repeat split; trig; field.
Qed.
(** A call that raises can still erase: reset=True with a box that is not cubic leaves not-a-numbers. *)
Theorem C76_erased_refuted : exists a a' d, fine_args a /\ d = fst (compute (new_dp 2 None (fun _ => 0) (fun _ _ => v0)) a) /\ (exists f, diffraction d = Values f) /\
  snd (compute d a') = false /\ diffraction (fst (compute d a')) = NotANumber.
Proof.
  set (a := call two None None). assert (Ha : fine_args a) by (apply call_fine; [discriminate|apply unit_id|auto]).
  destruct (C76_accept 2 2 a (new_dp 2 None (fun _ => 0) (fun _ _ => v0)) ltac:(lia) Ha eq_refl eq_refl) as [_ [f Ef]].
  exists a, (DA (mk_box 1 1 1 0 0 0 true) two None 1 0 None true). eexists. split; auto. split; [reflexivity|].
  unfold compute at 1. cbn [new_dp d_grid d_out]. rewrite Ef. split; [eexists; reflexivity|].
  unfold compute. cbn [new_dp d_grid d_out]. rewrite Ef. split; reflexivity.
Qed.
(** The array that k_values returns is the one kept: assigning to it changes what k_values returns later. *)
Theorem C76_k_alias_refuted : exists a d w, fine_args a /\ d = fst (compute (new_dp 2 None (fun _ => 0) (fun _ _ => v0)) a) /\
  let '(d', v) := k_values d in (exists k, v = Values k /\ k 0%nat <> w 0%nat) /\ snd (k_values (assign_k d' w)) = Values w.
Proof.
  set (a := call two None None). assert (Ha : fine_args a) by (apply call_fine; [discriminate|apply unit_id|auto]).
  destruct (C76_accept 2 2 a (new_dp 2 None (fun _ => 0) (fun _ _ => v0)) ltac:(lia) Ha eq_refl eq_refl) as [_ [f Ef]].
  exists a. eexists. exists (fun _ => 7). split; auto. split; [reflexivity|]. unfold compute. cbn [new_dp d_grid d_out]. rewrite Ef. cbn.
  split; [|reflexivity]. eexists. split; [reflexivity|]. rewrite (cube_max _ 1 unit_is_cube). rewrite k_grid1_at by lia. change (INR (2 / 2)) with 1. simpl. pose proof PI_RGT_0. lra.
Qed.
(** The test for a cube has an absolute tolerance: a small box nine times as long as wide passes. *)
Theorem C76_cubic_refuted : exists b, vy (b_L b) = 9 * vx (b_L b) /\ 0 < vx (b_L b) /\ cubic b = true.
Proof.
  exists (mk_box (/ 1000000) (9 * / 1000000) (/ 1000000) 0 0 0 false). cbn. split; [reflexivity|]. split; [lra|].
  unfold cubic, close5. cbn. assert (H : forall x y, 0 < x <= 9 / 1000000 -> 0 < y <= 9 / 1000000 -> Rleb (Rabs (x - y)) (/ 100000 + / 100000 * Rabs y) = true).
  { intros x y Hx Hy. apply Rleb_true. pose proof (Rabs_pos y). assert (Rabs (x - y) <= / 100000) by (apply Rabs_le; lra). lra. }
  rewrite !H by lra. rewrite Rminus_diag_eq, Rabs_R0 by auto. rewrite (proj2 (Rleb_true 0 (/ 100000 + / 100000 * 0))) by lra. reflexivity.
Qed.
(** The peak width is documented as a length: the Gaussian of that width would damp the intensity at k by exp (- (width |k|)^2). *)
Theorem C76_width_refuted : exists a f, fine_args a /\ a_width a = 1 /\ a_zoom a = 1 /\ frame 2 2 a = Some f /\
  let k := V3 0 (2 * PI * (INR 0 - 1)) 0 in
  f 0%nat 1%nat <> exp (- (dot k k)) * strength (a_pts a) k / INR (length (a_pts a)) /\ f 0%nat 1%nat = exp (- (PI * PI)) * 2.
Proof.
  set (a := DA unit_cube two None 1 1 None true). assert (Ha : fine_args a) by exact (call_fine two None None ltac:(discriminate) unit_id I).
  destruct (aligned 2 a 1 ltac:(lia) Ha unit_is_cube eq_refl eq_refl) as [f [gs [ws [Ef [Hs [Hg H]]]]]]. exists a, f. split; auto. split; [reflexivity|]. split; [reflexivity|]. split; auto. intros k.
  pose proof (ones ws (or_introl Hs)) as Ew. subst ws. specialize (H 0%nat 1%nat ltac:(lia) ltac:(lia)). cbv zeta in H.
  assert (S0 : forall g, snapped 2 1 0 g -> g = 0) by (intros g; apply (snapped_corner 2 1 0 g 1); [lia|lra|simpl; field]).
  unfold a, two in Hg. simpl in Hg. inversion Hg as [|? [x y] ? ? [A B] Hg1]; subst; inversion Hg1 as [|? [c d] ? ? [C D] Hg2]; subst; inversion Hg2; subst; simpl in A, B, C, D.
  pose proof (S0 _ A) as EA. pose proof (S0 _ B) as EB. pose proof (S0 _ D) as ED. subst x y d. change (INR (2 / 2)) with 1 in H.
  assert (E : f 0%nat 1%nat = exp (- (PI * PI)) * 2).
  { rewrite H. unfold damping, scatter. cbn [a_width a combine fold_right fst snd a_pts two length]. simpl INR.
    replace (2 * PI * (1 - 1) / 1 * 0 + 2 * PI * (0 - 1) / 1 * 0) with 0 by field. replace (2 * PI * (1 - 1) / 1 * c + 2 * PI * (0 - 1) / 1 * 0) with 0 by field. rewrite cos_0, sin_0.
    replace (- (2 * PI * 1 / (1 + 1) * (2 * PI * 1 / (1 + 1))) * ((1 - 1) * (1 - 1) + (0 - 1) * (0 - 1))) with (- (PI * PI)) by field. field. }
  split; auto. rewrite E. unfold strength, k, dot. cbn [a_pts a two fold_right vx vy vz length]. simpl INR.
  replace (0 * 0 + 2 * PI * (0 - 1) * 0 + 0 * 0) with 0 by ring. replace (0 * - / 2 + 2 * PI * (0 - 1) * 0 + 0 * 0) with 0 by ring. rewrite cos_0, sin_0.
  intros Hc. assert (Hx : exp (- (PI * PI)) = exp (- (0 * 0 + 2 * PI * (0 - 1) * (2 * PI * (0 - 1)) + 0 * 0))) by lra. apply exp_inv in Hx. pose proof PI_RGT_0. nra.
Qed.
(** In a view that is not along an axis, replacing a point by a periodic image changes the pattern. *)
Definition tilted : quat := Q (4 / 5) (V3 0 0 (3 / 5)).
Lemma tilted_rot v : rowan_rotate tilted v = V3 (7 / 25 * vx v - 24 / 25 * vy v) (24 / 25 * vx v + 7 / 25 * vy v) (vz v).
Proof. apply vec_eq; unfold rowan_rotate, tilted, qmul, qvec, qconj, dot, cross; simpl; field. Qed.
Definition tinv : rotm2 := RM2 (7 / 25) (- 24 / 25) (24 / 25) (7 / 25).
Lemma calc_tilted : calc_proj tilted unit_cube = Some tinv.
Proof.
  unfold calc_proj, view_matrix. rewrite (cube_rows _ 1 unit_is_cube). cbn [r0 r1 r2]. rewrite !tilted_rot. cbn [vx vy vz].
  match goal with |- inv2 (shear_of ?B) = _ => set (f := projection B) end. assert (F0 : f 0%nat = 0) by (unfold f, projection, ent; simpl; match goal with |- Rabs ?x = 0 => replace x with 0 by ring end; apply Rabs_R0).
  assert (F1 : f 1%nat = 0) by (unfold f, projection, ent; simpl; match goal with |- Rabs ?x = 0 => replace x with 0 by ring end; apply Rabs_R0).
  assert (F2 : 0 < f 2%nat) by (unfold f, projection, ent; simpl; apply Rabs_pos_lt; lra).
  assert (Ek : argmax3 f = 2%nat) by (clearbody f; unfold argmax3; cbv zeta; rewrite F0, F1, (proj2 (Rltb_false 0 0)) by lra; rewrite F0, (proj2 (Rltb_true 0 _)) by auto; reflexivity).
  unfold shear_of. fold f. rewrite Ek. unfold inv2, ent. simpl. match goal with |- (if Reqb ?x 0 then _ else _) = _ => destruct (Reqb_spec x 0); [lra|] end. unfold tinv. f_equal. f_equal; field.
Qed.
Lemma bin2 x (k : nat) z : IZR z + INR k / 2 <= x < IZR z + INR k / 2 + / 2 -> (k < 2)%nat -> bin_of 2 (mod1 x) = k.
Proof.
  intros Hx Hk. assert (Kb : 0 <= INR k <= 1) by (destruct k as [|[|k]]; simpl; try lra; lia).
  unfold mod1. assert (E : Zfloor x = z) by (apply Zfloor_imp; rewrite plus_IZR; lra). rewrite E. unfold bin_of. assert (E2 : Zfloor ((x - IZR z) * INR 2) = Z.of_nat k) by (apply Zfloor_imp; rewrite plus_IZR, <- INR_IZR_INZ; simpl INR; lra). rewrite E2. apply Nat2Z.id.
Qed.
Lemma tilted_bins p (k l : nat) y z : (k < 2)%nat -> (l < 2)%nat ->
  let r := rowan_rotate tilted p in
  IZR y + INR k / 2 <= 7 / 25 * vx r - 24 / 25 * vy r + / 2 < IZR y + INR k / 2 + / 2 -> IZR z + INR l / 2 <= 24 / 25 * vx r + 7 / 25 * vy r + / 2 < IZR z + INR l / 2 + / 2 ->
  bin_of 2 (fst (place tilted tinv p)) = k /\ bin_of 2 (snd (place tilted tinv p)) = l.
Proof.
  intros Hk Hl r H1 H2. unfold place. fold r. clearbody r. unfold r2apply, tinv. cbn [m00 m01 m10 m11 fst snd]. split.
  - apply (bin2 _ _ y); auto. lra.
  - apply (bin2 _ _ z); auto.
Qed.
Theorem C76_view_refuted : exists a a' f f', fine_args a /\ fine_args a' /\ same_but_points a a' /\ cube_box (a_box a) 1 /\
  Forall2 (fun p p' => exists z0 z1 z2, p' = vadd p (V3 (IZR z0) (IZR z1) (IZR z2))) (a_pts a) (a_pts a') /\
  frame 2 2 a = Some f /\ frame 2 2 a' = Some f' /\ f 0%nat 1%nat = 2 /\ f' 0%nat 1%nat = 36 / 25.
Proof.
  assert (Ut : unitq tilted) by (unfold unitq, tilted; simpl; field).
  set (a := call [V3 0 0 0; V3 0 0 0] (Some tilted) None). set (a' := call [V3 0 0 0; V3 1 0 0] (Some tilted) None).
  assert (Ha : fine_args a) by (apply call_fine; [discriminate|exact Ut|auto]). assert (Ha' : fine_args a') by (apply call_fine; [discriminate|exact Ut|auto]).
  destruct (frame_spec 2 2 a ltac:(lia) Ha) as [inv [f [Hi [_ [Ef Hf]]]]]. destruct (frame_spec 2 2 a' ltac:(lia) Ha') as [inv' [f' [Hi' [_ [Ef' Hf']]]]].
  assert (Ei : inv = tinv) by (change (calc_proj tilted unit_cube = Some inv) in Hi; rewrite calc_tilted in Hi; congruence). assert (Ei' : inv' = tinv) by (change (calc_proj tilted unit_cube = Some inv') in Hi'; rewrite calc_tilted in Hi'; congruence). subst inv inv'.
  exists a, a', f, f'. split; auto. split; auto. split; [unfold same_but_points; auto|]. split; [exact unit_is_cube|]. split.
  { repeat constructor; [exists 0%Z, 0%Z, 0%Z|exists 1%Z, 0%Z, 0%Z]; apply vec_eq; simpl; ring. }
  split; auto. split; auto.
  assert (B0 : bin_of 2 (fst (place tilted tinv (V3 0 0 0))) = 1%nat /\ bin_of 2 (snd (place tilted tinv (V3 0 0 0))) = 1%nat) by (apply (tilted_bins _ _ _ 0 0); try lia; rewrite tilted_rot; simpl; lra).
  assert (B1 : bin_of 2 (fst (place tilted tinv (V3 1 0 0))) = 1%nat /\ bin_of 2 (snd (place tilted tinv (V3 1 0 0))) = 0%nat) by (apply (tilted_bins _ _ _ (-1) 1); try lia; rewrite tilted_rot; simpl; lra).
  destruct B0 as [B0 B0']. destruct B1 as [B1 B1'].
  assert (C : all_cells 2 a tinv = [(1, (1, 1)); (1, (1, 1))]) by (rewrite all_cells_map; unfold a; cbn [call view_of a_view ws_of a_weights a_pts length repeat combine map fst snd]; rewrite B0, B0'; reflexivity).
  assert (C' : all_cells 2 a' tinv = [(1, (1, 1)); (1, (1, 0))]) by (rewrite all_cells_map; unfold a'; cbn [call view_of a_view ws_of a_weights a_pts length repeat combine map fst snd]; rewrite B0, B0', B1, B1'; reflexivity).
  assert (T : forall c : dargs, c = a \/ c = a' -> forall g, (forall i j t0 t1, INR i = INR (2 / 2) + a_zoom c * max_entry (a_box c) * (m10 tinv * t0 + m00 tinv * t1) -> INR j = INR (2 / 2) + a_zoom c * max_entry (a_box c) * (m11 tinv * t0 + m01 tinv * t1) ->
      g i j = bilinear 2 (freq_image 2 c tinv) (INR (2 / 2) + t0) (INR (2 / 2) + t1) / INR (length (a_pts c))) -> g 0%nat 1%nat = bilinear 2 (freq_image 2 c tinv) (1 / 25) (18 / 25) / 2).
  { intros c Hc g Hg. rewrite (Hg 0%nat 1%nat (- 24 / 25) (- 7 / 25)).
    - change (INR (2 / 2)) with 1. replace (1 + - 24 / 25) with (1 / 25) by field. replace (1 + - 7 / 25) with (18 / 25) by field. f_equal. destruct Hc; subst c; simpl; ring.
    - assert (Em : max_entry (a_box c) = 1) by (destruct Hc; subst c; apply (cube_max _ 1 unit_is_cube)). assert (Ez : a_zoom c = 1) by (destruct Hc; subst c; reflexivity). rewrite Em, Ez. change (INR (2 / 2)) with 1. unfold tinv. simpl. field.
    - assert (Em : max_entry (a_box c) = 1) by (destruct Hc; subst c; apply (cube_max _ 1 unit_is_cube)). assert (Ez : a_zoom c = 1) by (destruct Hc; subst c; reflexivity). rewrite Em, Ez. change (INR (2 / 2)) with 1. unfold tinv. simpl. field. }
  rewrite (T a (or_introl eq_refl) f Hf), (T a' (or_intror eq_refl) f' Hf').
  assert (R2 : forall img, bilinear 2 img (1 / 25) (18 / 25) = 24 / 25 * (7 / 25) * img 0%nat 0%nat + 24 / 25 * (18 / 25) * img 0%nat 1%nat + 1 / 25 * (7 / 25) * img 1%nat 0%nat + 1 / 25 * (18 / 25) * img 1%nat 1%nat).
  { intros img. unfold bilinear. rewrite !(proj2 (Rleb_true _ _)) by (simpl; lra). cbn [andb].
    assert (E1 : Zfloor (1 / 25) = 0%Z) by (apply Zfloor_imp; simpl; lra). assert (E2 : Zfloor (18 / 25) = 0%Z) by (apply Zfloor_imp; simpl; lra). rewrite E1, E2. simpl. field. }
  rewrite !R2. assert (Wa : a_width a / a_zoom a = 0) by (simpl; field). assert (Wa' : a_width a' / a_zoom a' = 0) by (simpl; field).
  rewrite !freq_image_at by lia. rewrite Wa, Wa', !damping_w0, C, C'. change (INR (2 / 2)) with 1. unfold scatter. cbn [fold_right fst snd]. simpl INR. split; trig; field.
Qed.

(** * Non-vacuity *)
(* the hypotheses of the theorems above are met by the two points of the refutations *)
Example C76_call_fine : fine_args (call two None (Some [2; 3])) /\ fine_args (call two (Some turn) None) /\ axis_view turn.
Proof.
  split; [apply call_fine; [discriminate|apply unit_id|simpl; split; [auto|lra]]|]. split; [apply call_fine; [discriminate|unfold unitq, turn; simpl; field|auto]|].
  exists 0%Z, 0%Z, 1%Z, 1%Z, 0%Z, 0%Z, 0%Z, 1%Z, 0%Z. unfold rot_of_quat, turn. simpl. f_equal; apply vec_eq; simpl; field.
Qed.
Example C76_order_used : reordered (call two None (Some [2; 3])) (call (rev two) None (Some [3; 2])) /\ two <> rev two.
Proof. split; [simpl; apply perm_swap|]. unfold two. simpl. intros H. injection H as H. lra. Qed.
Example C76_depth_used : vx (rowan_rotate turn (V3 0 1 0)) = 0 /\ vy (rowan_rotate turn (V3 0 1 0)) = 0 /\ rowan_rotate turn (V3 0 1 0) = V3 0 0 1.
Proof. rewrite turn_yzx. simpl. auto. Qed.
(* two calls and a call that raises: the mean of the two frames remains *)
Example C76_average_used : exists f, frame 2 2 (call two None None) = Some f /\
  let bad := DA (mk_box 1 1 1 0 0 0 true) two None 1 0 None false in
  let again := DA unit_cube two None 1 0 None false in
  length (kept 2 2 [Compute (call two None None); ReadK; Compute bad; Compute again]) = 2%nat.
Proof.
  assert (Ha : fine_args (call two None None)) by (apply call_fine; [discriminate|apply unit_id|auto]).
  destruct (C76_accept 2 2 _ (new_dp 2 None (fun _ => 0) (fun _ _ => v0)) ltac:(lia) Ha eq_refl eq_refl) as [_ [f Ef]]. exists f. split; auto. cbv zeta.
  unfold kept. cbn [fold_left a_reset call]. assert (Eb : frame 2 2 (DA (mk_box 1 1 1 0 0 0 true) two None 1 0 None false) = None) by reflexivity. rewrite Eb.
  assert (Ea : frame 2 2 (DA unit_cube two None 1 0 None false) = frame 2 2 (call two None None)) by reflexivity. rewrite Ea. rewrite !Ef. reflexivity.
Qed.
(* a pattern that is not flat: the pixel at [0, 1] is 2, the one at [1, 0] is 0 *)
Example C76_pixels_used : exists f, frame 2 2 (call two None None) = Some f /\ f 0%nat 1%nat = 2 /\ f 1%nat 0%nat = 0.
Proof.
  destruct (two_pixels false None I) as [f [ws [Ef [Hs Hf]]]]. cbv zeta in *. cbn iota in *. pose proof (ones ws (or_introl Hs)) as Ew. subst ws. exists f. split; auto. rewrite !Hf by lia.
  unfold scatter. cbn [fold_right combine fst snd]. simpl INR. split; trig; field.
Qed.

Print Assumptions C76_accept.
Print Assumptions C76_cube.
Print Assumptions C76_reject.
Print Assumptions C76_centre.
Print Assumptions C76_bounds.
Print Assumptions C76_order.
Print Assumptions C76_depth.
Print Assumptions C76_periodic.
Print Assumptions C76_translation.
Print Assumptions C76_axes.
Print Assumptions C76_pixels.
Print Assumptions C76_aligned.
Print Assumptions C76_scale.
Print Assumptions C76_width_refuted.
Print Assumptions C76_average.
Print Assumptions C76_k.
Print Assumptions C76_transposed_refuted.
Print Assumptions C76_k_vectors_refuted.
Print Assumptions C76_weights_refuted.
Print Assumptions C76_erased_refuted.
Print Assumptions C76_k_alias_refuted.
Print Assumptions C76_cubic_refuted.
Print Assumptions C76_view_refuted.
