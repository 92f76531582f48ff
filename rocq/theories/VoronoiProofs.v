(** Proofs about Voronoi post-processing. *)
From Verif Require Import RBase Vec NListProofs NListProofs2 ParProofs.
From Coq Require Import Reals ZArith List Lra Lia Bool Arith Permutation.
From Verif Require Import VoronoiModel VoronoiSpec.
Import ListNotations.
Local Open Scope R_scope.

(** ** Flat arrays *)
Lemma vread_flat {A} (g : A -> vec3) : forall l i, vread (flat_map (fun a => xyz (g a)) l) i = option_map g (nth_error l i).
Proof.
  unfold vread. induction l as [|a l IH]; intros i.
  - destruct i; simpl; [reflexivity|]. destruct (3 * S i)%nat; reflexivity.
  - destruct i as [|i]; [simpl; destruct (g a); reflexivity|]. change (nth_error (a :: l) (S i)) with (nth_error l i). rewrite <- (IH i). cbn [flat_map].
    replace (3 * S i)%nat with (3 + 3 * i)%nat by lia. replace (3 + 3 * i + 1)%nat with (3 + (3 * i + 1))%nat by lia.
    replace (3 + 3 * i + 2)%nat with (3 + (3 * i + 2))%nat by lia. reflexivity.
Qed.
Lemma rel_flat is2d pos : forall vs, rel_vertices is2d pos (flat_map xyz vs) =
  Some (map (fun v => vsub (if is2d then V3 (vx v) (vy v) 0 else v) pos) (filter (fun v => negb (is2d && Rltb (vz v) 0)) vs)).
Proof.
  induction vs as [|v vs IH]; [reflexivity|]. cbn [flat_map xyz app rel_vertices filter map]. rewrite IH.
  destruct is2d; cbn [andb negb]; [destruct (Rltb (vz v) 0); cbn [negb map option_map]; reflexivity|]. cbn [map option_map]. destruct v; reflexivity.
Qed.
Lemma max_element_in f : forall l m, (forall x, In x (m :: l) -> f x <> None) -> exists v, max_element f m l = Some v /\ In v (m :: l).
Proof.
  induction l as [|x l IH]; intros m H; [exists m; simpl; auto|]. cbn [max_element].
  destruct (f m) as [a|] eqn:A; [|exfalso; apply (H m); simpl; auto]. destruct (f x) as [c|] eqn:C; [|exfalso; apply (H x); simpl; auto].
  destruct (IH (if cos_lt a c then x else m)) as (v & E & I).
  - intros y [<-|Y]; [destruct (cos_lt a c); apply H; simpl; auto|apply H; simpl; auto].
  - exists v. split; [exact E|]. destruct I as [<-|I]; [destruct (cos_lt a c); simpl; auto|simpl; auto].
Qed.

(** ** One face *)
Lemma vzero_dot n : dot n n = 0 <-> n = v0.
Proof.
  split; intros H; [|subst; unfold dot; simpl; ring]. destruct n as [x y z]. unfold dot in H; simpl in H.
  assert (X := Rle_0_sqr x). assert (Y := Rle_0_sqr y). assert (Z := Rle_0_sqr z). unfold Rsqr in *. apply vec_eq; simpl; apply Rsqr_0_uniq; unfold Rsqr; lra.
Qed.
Lemma d2_norm a b : norm (vsub a b) * norm (vsub a b) = d2 a b. Proof. apply norm_sq. Qed.
Lemma skipped_kept b points c f : (b_2d b = true -> vz (sc_pos c) = 0) -> face_ok b points c f -> face_skipped (b_2d b) (f_normal f) = negb (kept (b_2d b) c f).
Proof.
  intros Z [_ N _ F]. unfold face_skipped, kept. set (n := f_normal f) in *.
  assert (E0 : (Reqb (vx n) 0 && Reqb (vy n) 0 && Reqb (vz n) 0) = Reqb (dot n n) 0).
  { destruct (Reqb_spec (dot n n) 0) as [E|E].
    - apply vzero_dot in E. rewrite E. simpl. destruct (Reqb_spec 0 0); [reflexivity|lra].
    - destruct (Reqb_spec (vx n) 0) as [X|X], (Reqb_spec (vy n) 0) as [Y|Y], (Reqb_spec (vz n) 0) as [W|W]; try reflexivity. exfalso. apply E. unfold dot. rewrite X, Y, W. ring. }
  rewrite E0. rewrite negb_andb, !negb_involutive. destruct (Reqb_spec (dot n n) 0) as [E|E]; [rewrite orb_true_r; reflexivity|]. rewrite orb_false_r. cbn [orb].
  destruct N as [N|[P N]]; [exfalso; apply E; apply vzero_dot; exact N|]. destruct (b_2d b); [|reflexivity]. cbn [andb].
  assert (Q : 0 < norm (vsub (f_pos f) (sc_pos c))) by (assert (A := norm_nonneg (vsub (f_pos f) (sc_pos c))); assert (B := d2_norm (f_pos f) (sc_pos c)); destruct A as [A|A]; [exact A|rewrite <- A in B; lra]).
  specialize (Z eq_refl). set (m := norm _) in *. assert (Nx := f_equal vx N). assert (Ny := f_equal vy N). assert (Nz := f_equal vz N). simpl in Nx, Ny, Nz.
  destruct (Reqb_spec (vz (f_pos f)) (vz (sc_pos c))) as [W|W]; cbn [negb].
  - assert (vz n = 0) by (rewrite W in Nz; apply (Rmult_eq_reg_l m); lra). rewrite H, Rabs_R0. apply Rltb_false. lra.
  - destruct (F eq_refl) as [F1|[F1 F2]]; [lra|]. assert (D : m * m = d2 (f_pos f) (sc_pos c)) by apply d2_norm. unfold d2, dot in D; simpl in D. rewrite F1, F2 in D.
    assert (X : (vz n * vz n - 1) * (m * m) = 0). { replace ((vz n * vz n - 1) * (m * m)) with ((m * vz n) * (m * vz n) - m * m) by ring. rewrite Nz, D. ring. }
    apply Rmult_integral in X as [X|X]; [|apply Rmult_integral in X; lra]. apply Rltb_true.
    destruct (Rle_or_lt 0 (vz n)); [rewrite Rabs_right by lra|rewrite Rabs_left by lra]; nra.
Qed.
(** The bond vector computed from any vertex of the face. *)
Lemma face_vector c f x : f_normal f <> v0 -> 0 < d2 (f_pos f) (sc_pos c) -> vscale (norm (vsub (f_pos f) (sc_pos c))) (f_normal f) = vsub (f_pos f) (sc_pos c) ->
  d2 x (sc_pos c) = d2 x (f_pos f) -> vscale (2 * dot (vsub x (sc_pos c)) (f_normal f)) (f_normal f) = vsub (f_pos f) (sc_pos c).
Proof.
  intros _ P N E. assert (B := d2_norm (f_pos f) (sc_pos c)). assert (A := norm_nonneg (vsub (f_pos f) (sc_pos c))). set (m := norm _) in *.
  assert (Q : 0 < m) by (destruct A as [A|A]; [exact A|rewrite <- A in B; lra]). set (n := f_normal f) in *.
  assert (K : 2 * dot (vsub x (sc_pos c)) n = m).
  { apply (Rmult_eq_reg_l m); [|lra]. rewrite B. assert (Nx := f_equal vx N). assert (Ny := f_equal vy N). assert (Nz := f_equal vz N). simpl in Nx, Ny, Nz.
    replace (m * (2 * dot (vsub x (sc_pos c)) n)) with (2 * ((vx x - vx (sc_pos c)) * (m * vx n) + (vy x - vy (sc_pos c)) * (m * vy n) + (vz x - vz (sc_pos c)) * (m * vz n))) by (unfold dot; simpl; ring).
    rewrite Nx, Ny, Nz. unfold d2, dot in E |- *. simpl in E |- *. lra. }
  rewrite K. exact N.
Qed.
Definition fenc (f : face) : list nat := length (f_verts f) :: f_verts f.
Lemma nth_error_mid {A} (a : list A) x b : nth_error (a ++ x :: b) (length a) = Some x.
Proof. rewrite nth_error_app2 by lia. rewrite Nat.sub_diag. reflexivity. Qed.
Lemma skipn_len_app {A} (a b : list A) k : skipn (length a + k) (a ++ b) = skipn k b.
Proof. induction a as [|x a IH]; simpl; auto. Qed.
Lemma face_vertex_in b points c f pre post n : face_ok b points c f -> 
  exists v, face_vertex (flat_map xyz (sc_verts c)) (pre ++ fenc f ++ post) (sc_pos c) n (length pre) (length (f_verts f)) = Some v /\ In v (f_verts f).
Proof.
  intros [_ _ [L V] _]. unfold face_vertex. destruct (f_verts f) as [|v0' [|v1 vs]] eqn:E; simpl in L; try lia. cbn [length].
  unfold fenc. rewrite E. cbn [length].
  replace (nth_error (pre ++ (S (S (length vs)) :: v0' :: v1 :: vs) ++ post) (length pre + 1)) with (Some v0') by (rewrite nth_error_app2 by lia; replace (length pre + 1 - length pre)%nat with 1%nat by lia; reflexivity).
  destruct (Nat.ltb_spec (length (pre ++ (S (S (length vs)) :: v0' :: v1 :: vs) ++ post)) (length pre + S (S (length vs)))) as [Q|Q]; [rewrite !app_length in Q; simpl in Q; lia|].
  rewrite skipn_len_app. replace (S (S (length vs)) - 2)%nat with (length vs) by lia. cbn [app skipn].
  destruct (max_element_in (face_cosine (flat_map xyz (sc_verts c)) (sc_pos c) n) (firstn (length vs) (v1 :: vs ++ post)) v0') as (v & M & I).
  - assert (Sub : forall x, In x (v0' :: firstn (length vs) (v1 :: vs ++ post)) -> In x (v0' :: v1 :: vs)).
    { intros x [<-|X]; [left; reflexivity|]. right. assert (Y : firstn (length vs) (v1 :: vs ++ post) = firstn (length vs) (v1 :: vs)). { rewrite app_comm_cons, firstn_app. replace (length vs - length (v1 :: vs))%nat with 0%nat by (simpl; lia). apply app_nil_r. } rewrite Y in X. rewrite <- (firstn_skipn (length vs) (v1 :: vs)). apply in_or_app. left. exact X. }
    intros x X. apply Sub in X. destruct (V _ X) as (y & Y & _). unfold face_cosine. assert (R0 := vread_flat (fun v => v) (sc_verts c) x). cbn in R0. change (flat_map (fun a : vec3 => xyz a) (sc_verts c)) with (flat_map xyz (sc_verts c)) in R0. rewrite R0, Y. discriminate.
  - exists v. split; [exact M|]. destruct I as [<-|X]; [left; reflexivity|]. right. assert (Y : firstn (length vs) (v1 :: vs ++ post) = firstn (length vs) (v1 :: vs)). { rewrite app_comm_cons, firstn_app. replace (length vs - length (v1 :: vs))%nat with 0%nat by (simpl; lia). apply app_nil_r. } rewrite Y in X. rewrite <- (firstn_skipn (length vs) (v1 :: vs)). apply in_or_app. left. exact X.
Qed.
Lemma vread_verts c x : vread (flat_map xyz (sc_verts c)) x = nth_error (sc_verts c) x.
Proof. assert (R0 := vread_flat (fun v => v) (sc_verts c) x). cbn in R0. change (flat_map (fun a : vec3 => xyz a) (sc_verts c)) with (flat_map xyz (sc_verts c)) in R0. rewrite R0. destruct (nth_error _ _); reflexivity. Qed.

(** ** All faces of a cell *)
Lemma face_loop_spec b points c : (b_2d b = true -> vz (sc_pos c) = 0) -> (forall f, In f (sc_faces c) -> face_ok b points c f) ->
  forall fs pre, sc_faces c = pre ++ fs ->
  face_loop (b_2d b) (encode c) (map f_j fs) (length pre) (length (flat_map fenc pre)) = Some (map (face_bond c) (filter (kept (b_2d b) c) fs)).
Proof.
  intros Z F. induction fs as [|f fs IH]; intros pre E; [reflexivity|]. cbn [map face_loop encode vc_normals vc_fverts].
  rewrite (vread_flat f_normal), E, nth_error_mid. cbn [option_map]. change (flat_map (fun f => length (f_verts f) :: f_verts f)) with (flat_map fenc).
  rewrite flat_map_app. cbn [flat_map]. assert (Ok : face_ok b points c f) by (apply F; rewrite E; apply in_or_app; right; left; reflexivity).
  replace (nth_error (flat_map fenc pre ++ fenc f ++ flat_map fenc fs) (length (flat_map fenc pre))) with (Some (length (f_verts f))) by (symmetry; exact (nth_error_mid (flat_map fenc pre) (length (f_verts f)) (f_verts f ++ flat_map fenc fs))).
  assert (IH' := IH (pre ++ [f])). rewrite <- app_assoc in IH'. specialize (IH' E). rewrite app_length, flat_map_app, app_length in IH'. cbn [flat_map length] in IH'. rewrite app_nil_r in IH'.
  replace (length pre + 1)%nat with (S (length pre)) in IH' by lia. replace (length (fenc f)) with (length (f_verts f) + 1)%nat in IH' by (simpl; lia).
  rewrite IH'. rewrite (skipped_kept b points c f Z Ok). cbn [filter]. destruct (kept (b_2d b) c f) eqn:K; cbn [negb]; [|reflexivity].
  cbn [encode vc_areas vc_verts vc_pos vc_fverts vc_pid]. rewrite E.
  rewrite map_app. cbn [map]. replace (nth_error (map f_area pre ++ f_area f :: map f_area fs) (length pre)) with (Some (f_area f)) by (symmetry; rewrite <- (map_length f_area pre); apply nth_error_mid).
  destruct (face_vertex_in b points c f (flat_map fenc pre) (flat_map fenc fs) (f_normal f) Ok) as (v & Ev & Iv). rewrite Ev.
  destruct Ok as [_ N [_ V] _]. destruct (V _ Iv) as (x & X & D). rewrite vread_verts, X. cbn [option_map map]. do 2 f_equal.
  unfold kept in K. apply andb_true_iff in K as [K _]. apply negb_true_iff, Reqb_false in K.
  assert (N0 : f_normal f <> v0) by (intros H; apply K; apply vzero_dot; exact H). destruct N as [N|[P N]]; [contradiction|].
  unfold bond_of_vector, face_bond. rewrite (face_vector c f x N0 P N D). reflexivity.
Qed.
Lemma cell_pos_flat b points c : (b_2d b = true -> forall p, In p points -> vz p = 0) -> cell_ok b points c -> b_2d b = true -> vz (sc_pos c) = 0.
Proof.
  intros Z [(p & i & j & k & P & K & E) _ _] T. rewrite E. specialize (K T). subst k. unfold vshift. rewrite T. unfold shift, comb. simpl. rewrite (Z T p) by (eapply nth_error_In; eauto). ring.
Qed.
Lemma cell_faces b points c : (b_2d b = true -> forall p, In p points -> vz p = 0) -> cell_ok b points c ->
  face_loop (b_2d b) (encode c) (vc_neigh (encode c)) 0 0 = Some (cell_bonds (b_2d b) c).
Proof.
  intros Z Ok. assert (P := cell_pos_flat b points c Z Ok). destruct Ok as [_ F _]. exact (face_loop_spec b points c P F (sc_faces c) [] eq_refl).
Qed.
