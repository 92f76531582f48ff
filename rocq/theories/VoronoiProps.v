(** C70: Voronoi neighbour lists, polytopes and volumes. *)
From Verif Require Import RBase Vec MArrayProofs NListProofs NListProofs2 ParProofs BoxPyProofs.
From Coq Require Import Reals ZArith List Lra Lia Bool Arith Permutation.
From Verif Require Import VoronoiModel VoronoiProofs VoronoiProofs2 VoronoiSpec.
Import ListNotations.
Local Open Scope R_scope.

Definition bond_count (b : box) (cells : list scell) : nat := length (flat_map (cell_bonds (b_2d b)) cells).
Lemma resize_length {A} (d : A) n l : length (vec_resize d n l) = n.
Proof. unfold vec_resize. rewrite app_length, firstn_length, repeat_length. lia. Qed.
Lemma pids_nodup b points cells : voro_ok b points cells -> NoDup (map sc_pid cells).
Proof. intros [_ P _]. apply (Permutation_NoDup (Permutation_sym P)), seq_NoDup. Qed.
Lemma pid_cell b points cells i : voro_ok b points cells -> (i < length points)%nat -> exists c, In c cells /\ sc_pid c = i.
Proof. intros [_ P _] L. assert (I : In i (map sc_pid cells)) by (apply (Permutation_in _ (Permutation_sym P)), in_seq; lia). apply in_map_iff in I as (c & E & I). eauto. Qed.
Lemma buffer_length n n1 n2 nl : length (nl_bonds (nl_set_num_bonds n n1 n2 (nl_resize n nl))) = n.
Proof.
  unfold nl_set_num_bonds, nl_resize. cbn [nl_bonds].
  repeat match goal with |- context [(?x <=? ?y)%nat] => destruct (Nat.leb_spec x y) end; rewrite ?firstn_length, ?repeat_length in *; try lia.
Qed.

(** ** Every tessellation is processed without leaving an array, whatever the object did before and however the writes are scheduled *)
Theorem C70_total b points cells ev h v : voro_ok b points cells -> exists hv, vor_compute b points (map encode cells) ev (h, v) hv.
Proof.
  intros [Z P C]. unfold vor_compute.
  destruct (vor_loop_exists b points Z cells (vec_resize [] (length points) (vo_poly v)) (repeat 0 (length points)) []) as (p & vo & bs & L); [exact C|apply resize_length|apply repeat_length|].
  destruct (bond_sort bs) as (srt & S). eexists. exists p, vo, bs, srt. split; [exact L|]. split; [exact S|reflexivity].
Qed.
(** ** The neighbour list: one bond per face that is a neighbour relation, sorted *)
Theorem C70_bonds b points cells ev h v h' v' : voro_ok b points cells -> execution 0 (bond_count b cells) ev -> vor_compute b points (map encode cells) ev (h, v) (h', v') ->
  let nl := h' (vo_addr v') in
  vor_nlist v' = Some (vo_addr v) /\ Permutation (nl_bonds nl) (flat_map (cell_bonds (b_2d b)) cells) /\ nl_nq nl = length points /\ nl_np nl = length points /\
  valid_bonds (length points) (length points) (nl_bonds nl) /\ nl_updated nl = false /\
  (forall i j, (i < j < length (nl_bonds nl))%nat -> lex_le (nth i (nl_bonds nl) bond0) (nth j (nl_bonds nl) bond0)) /\
  (forall a, a <> vo_addr v -> h' a = h a).
Proof.
  intros Ok Ex (p & vo & bs & srt & L & S & E). injection E as -> ->. cbn [vo_addr vor_nlist vo_computed].
  assert (Nd := pids_nodup _ _ _ Ok). destruct Ok as [Z P C]. destruct (vor_loop_spec b points Z cells _ _ _ _ _ _ C Nd L) as (B & _). simpl in B. subst bs.
  assert (Len : length srt = bond_count b cells) by (unfold bond_count; symmetry; apply Permutation_length; apply S).
  assert (W : forall arr, length arr = length srt -> fold_left (fun a e => upd a (snd e) (nth (snd e) srt bond0)) ev arr = srt) by (intros; apply par_copy; [rewrite Len; exact Ex|assumption]).
  unfold hset. rewrite Nat.eqb_refl. cbn [nl_bonds nl_nq nl_np nl_updated]. rewrite W by (apply (buffer_length (length srt) (length points) (length points))).
  assert (Lx := sort_lex _ _ S). destruct S as [Pm _]. repeat split; auto.
  - symmetry. exact Pm.
  - intros i j H. specialize (Lx i j H). unfold lex_le in Lx. lia.
  - apply (Permutation_in _ (Permutation_sym Pm)) in H. apply in_flat_map in H as (c & I & H). unfold cell_bonds in H. apply in_map_iff in H as (f & <- & _). cbn [face_bond bq].
    destruct (C c I) as [(q & _ & _ & _ & Q & _) _ _]. apply nth_error_Some. rewrite Q. discriminate.
  - apply (Permutation_in _ (Permutation_sym Pm)) in H. apply in_flat_map in H as (c & I & H). unfold cell_bonds in H. apply in_map_iff in H as (f & <- & H). cbn [face_bond bp].
    apply filter_In in H as [H _]. destruct (C c I) as [_ F _]. destruct (F f H) as [(q & _ & _ & _ & Q & _) _ _ _]. apply nth_error_Some. rewrite Q. discriminate.
  - intros a Na. destruct (Nat.eqb_spec a (vo_addr v)); [contradiction|reflexivity].
Qed.
(** Bond vectors lead from the query point to an image of the point, distances are their lengths, and in 2D they lie in the plane. *)
Lemma vshift_sub b i j k i' j' k' : vsub (vshift b i j k) (vshift b i' j' k') = vshift b (i - i') (j - j') (k - k').
Proof. unfold vshift, shift, comb. destruct (b_2d b); rewrite ?minus_IZR; vec_ext; rewrite ?minus_IZR; ring. Qed.
Lemma vshift_add b i j k i' j' k' : vadd (vshift b i j k) (vshift b i' j' k') = vshift b (i + i') (j + j') (k + k').
Proof. unfold vshift, shift, comb. destruct (b_2d b); vec_ext; rewrite ?plus_IZR; ring. Qed.
Lemma cell_bond_vectors b points cells x : voro_ok b points cells -> In x (flat_map (cell_bonds (b_2d b)) cells) ->
  exists p q i j k, nth_error points (bq x) = Some p /\ nth_error points (bp x) = Some q /\ (b_2d b = true -> k = 0%Z) /\
    vadd p (bv x) = vadd q (shift b i j k) /\ bd x = norm (bv x) /\ 0 < bd x.
Proof.
  intros [Z P C] I. apply in_flat_map in I as (c & Ic & I). unfold cell_bonds in I. apply in_map_iff in I as (f & <- & I). apply filter_In in I as [If K].
  destruct (C c Ic) as [(p & i & j & k & Ep & Hk & Epos) F _]. destruct (F f If) as [(q & i' & j' & k' & Eq & Eimg) N _ _]. cbn [face_bond bq bp bv bd].
  assert (Q : 0 < norm (vsub (f_pos f) (sc_pos c))).
  { unfold kept in K. apply andb_true_iff in K as [K _]. apply negb_true_iff, Reqb_false in K. destruct N as [N|[N _]]; [exfalso; apply K, vzero_dot, N|].
    assert (A := norm_nonneg (vsub (f_pos f) (sc_pos c))). assert (B := d2_norm (f_pos f) (sc_pos c)). destruct A as [A|A]; [exact A|rewrite <- A in B; lra]. }
  exists p, q, (i' - i)%Z, (j' - j)%Z, (if b_2d b then 0 else k' - k)%Z. repeat split; auto; [intros ->; reflexivity|].
  assert (T : b_2d b = true -> k' = 0%Z).
  { intros T. unfold kept in K. rewrite T in K. apply andb_true_iff in K as [_ K]. cbn [andb] in K. rewrite negb_involutive in K. apply Reqb_true in K. rewrite Eimg, Epos in K. unfold vshift in K. rewrite T, (Hk T) in K. simpl in K.
    rewrite (Z T p), (Z T q) in K by (eapply nth_error_In; eauto). apply eq_IZR. lra. }
  rewrite Eimg, Epos. assert (S := vshift_sub b i' j' k' i j k). assert (R0 : vsub (vadd q (vshift b i' j' k')) (vadd p (vshift b i j k)) = vadd (vsub q p) (vshift b (i' - i) (j' - j) (k' - k))) by (rewrite <- S; vec_ring).
  rewrite R0. assert (V : vshift b (i' - i) (j' - j) (k' - k) = shift b (i' - i) (j' - j) (if b_2d b then 0 else k' - k)).
  { unfold vshift. destruct (b_2d b) eqn:T0; [|reflexivity]. rewrite (Hk eq_refl), (T eq_refl). vec_ring. }
  rewrite V. vec_ring.
Qed.
Theorem C70_vectors b points cells ev h v h' v' x : voro_ok b points cells -> execution 0 (bond_count b cells) ev -> vor_compute b points (map encode cells) ev (h, v) (h', v') ->
  In x (nl_bonds (h' (vo_addr v'))) ->
  exists p q i j k, nth_error points (bq x) = Some p /\ nth_error points (bp x) = Some q /\ (b_2d b = true -> k = 0%Z) /\
    vadd p (bv x) = vadd q (shift b i j k) /\ bd x = norm (bv x) /\ 0 < bd x.
Proof.
  intros Ok Ex Cp I. assert (B := C70_bonds _ _ _ _ _ _ _ _ Ok Ex Cp). cbv zeta in B. destruct B as (_ & P & _). apply (cell_bond_vectors b points cells); [exact Ok|]. exact (Permutation_in _ P I).
Qed.
(** ** Per query point: the bonds are the faces of its cell, the weights sum to their areas *)
Lemma of_point_cells b points cells : voro_ok b points cells -> forall c, In c cells -> of_point (sc_pid c) (flat_map (cell_bonds (b_2d b)) cells) = cell_bonds (b_2d b) c.
Proof.
  intros Ok. assert (N := pids_nodup _ _ _ Ok). clear Ok. induction cells as [|c0 cells IH]; intros c I; [destruct I|]. cbn [flat_map]. unfold of_point. rewrite filter_app. inversion N as [|? ? Hn N']; subst.
  assert (Own : forall c', filter (fun x => (bq x =? sc_pid c')%nat) (cell_bonds (b_2d b) c') = cell_bonds (b_2d b) c').
  { intros c'. unfold cell_bonds. induction (filter _ (sc_faces c')) as [|f l IHl]; [reflexivity|]. cbn [map filter face_bond bq]. rewrite Nat.eqb_refl, IHl. reflexivity. }
  assert (Other : forall c' k, sc_pid c' <> k -> filter (fun x => (bq x =? k)%nat) (cell_bonds (b_2d b) c') = []).
  { intros c' k H. unfold cell_bonds. induction (filter _ (sc_faces c')) as [|f l IHl]; [reflexivity|]. cbn [map filter face_bond bq]. destruct (Nat.eqb_spec (sc_pid c') k); [contradiction|exact IHl]. }
  destruct I as [<-|I].
  - rewrite Own. assert (H : filter (fun x => (bq x =? sc_pid c0)%nat) (flat_map (cell_bonds (b_2d b)) cells) = []); [|rewrite H; apply app_nil_r].
    assert (Nn : forall c', In c' cells -> sc_pid c' <> sc_pid c0) by (intros c' I E; apply Hn; rewrite <- E; apply in_map; exact I). clear -Nn Other.
    induction cells as [|c' cells IH]; [reflexivity|]. cbn [flat_map]. rewrite filter_app, (Other c') by (apply Nn; left; reflexivity). apply IH. intros; apply Nn; right; assumption.
  - rewrite (Other c0) by (intros E; apply Hn; rewrite E; apply in_map; exact I). apply IH; assumption.
Qed.
Lemma rsum_perm l l' : Permutation l l' -> rsum l = rsum l'.
Proof. induction 1; simpl; try lra. Qed.
Theorem C70_per_point b points cells ev h v h' v' : voro_ok b points cells -> execution 0 (bond_count b cells) ev -> vor_compute b points (map encode cells) ev (h, v) (h', v') ->
  forall c, In c cells -> let own := of_point (sc_pid c) (nl_bonds (h' (vo_addr v'))) in
  Permutation own (cell_bonds (b_2d b) c) /\ rsum (map bw own) = rsum (map f_area (filter (kept (b_2d b) c) (sc_faces c))) /\
  (b_2d b = false -> (forall f, In f (sc_faces c) -> f_normal f <> v0) -> length own = length (sc_faces c) /\ rsum (map bw own) = rsum (map f_area (sc_faces c))).
Proof.
  intros Ok Ex Cp c I. assert (B := C70_bonds _ _ _ _ _ _ _ _ Ok Ex Cp). cbv zeta in B. destruct B as (_ & Pm & _).
  assert (P : Permutation (of_point (sc_pid c) (nl_bonds (h' (vo_addr v')))) (cell_bonds (b_2d b) c)) by (rewrite <- (of_point_cells b points cells Ok c I); apply filter_perm; exact Pm).
  cbv zeta. split; [exact P|].
  assert (W : rsum (map bw (of_point (sc_pid c) (nl_bonds (h' (vo_addr v'))))) = rsum (map f_area (filter (kept (b_2d b) c) (sc_faces c)))).
  { rewrite (rsum_perm _ _ (Permutation_map bw P)). unfold cell_bonds. rewrite map_map. reflexivity. }
  split; [exact W|]. intros D N. assert (A : filter (kept (b_2d b) c) (sc_faces c) = sc_faces c).
  { clear -N D. induction (sc_faces c) as [|f l IH]; [reflexivity|]. cbn [filter]. unfold kept at 1. rewrite D. cbn [andb negb]. destruct (Reqb_spec (dot (f_normal f) (f_normal f)) 0) as [E|E].
    - exfalso. apply (N f); [left; reflexivity|]. apply vzero_dot. exact E.
    - cbn [negb andb]. f_equal. rewrite <- D. apply IH. intros; apply N; right; assumption. }
  rewrite W, (Permutation_length P). unfold cell_bonds. rewrite map_length, A. auto.
Qed.
(** ** Neighbourship is mutual: the reverse of every bond is listed, as often, with the same weight *)
Lemma filter_map_comm {A B} (g : A -> B) (f : B -> bool) l : filter f (map g l) = map g (filter (fun x => f (g x)) l).
Proof. induction l as [|x l IH]; [reflexivity|]. simpl. destruct (f (g x)); simpl; rewrite IH; reflexivity. Qed.
Theorem C70_symmetric b points cells ev h v h' v' : voro_ok b points cells -> reciprocal cells -> execution 0 (bond_count b cells) ev -> vor_compute b points (map encode cells) ev (h, v) (h', v') ->
  let bs := nl_bonds (h' (vo_addr v')) in Permutation (map flip bs) bs.
Proof.
  intros Ok Rc Ex Cp. assert (B := C70_bonds _ _ _ _ _ _ _ _ Ok Ex Cp). cbv zeta in B |- *. destruct B as (_ & Pm & _). rewrite Pm.
  set (keep := fun x : nat * nat * R * vec3 * bool => let '(_, _, _, d, z) := x in negb z && negb (b_2d b && negb (Reqb (vz d) 0))).
  set (mk := fun x : nat * nat * R * vec3 * bool => let '(i, j, a, d, _) := x in Bond i j (norm d) a d).
  assert (E : flat_map (cell_bonds (b_2d b)) cells = map mk (filter keep (all_faces cells))).
  { unfold all_faces. clear. induction cells as [|c cells IH]; [reflexivity|]. cbn [flat_map]. rewrite filter_app, map_app, <- IH. f_equal. unfold cell_bonds. rewrite filter_map_comm, map_map. unfold face_data, keep, mk.
    apply f_equal. apply filter_ext. intros f. unfold kept. f_equal. do 2 f_equal. simpl.
    destruct (Reqb_spec (vz (f_pos f)) (vz (sc_pos c))), (Reqb_spec (vz (f_pos f) - vz (sc_pos c)) 0); try reflexivity; exfalso; lra. }
  rewrite E. transitivity (map mk (filter keep (map seen_back (all_faces cells)))); [|apply Permutation_map, filter_perm; exact Rc].
  rewrite filter_map_comm, !map_map. assert (K : forall x, keep (seen_back x) = keep x).
  { intros [[[[i j] a] d] z]. simpl. do 4 f_equal. destruct (Reqb_spec (- vz d) 0), (Reqb_spec (vz d) 0); try reflexivity; exfalso; lra. }
  rewrite (filter_ext _ _ K). apply Permutation_refl'. apply map_ext. intros [[[[i j] a] d] z]. simpl. unfold flip. simpl. rewrite norm_vneg. reflexivity.
Qed.
(** ** Polytopes and volumes *)
Lemma d2_affine p q x y t : d2 x p <= d2 x q -> d2 y p <= d2 y q -> 0 <= t <= 1 -> d2 (vadd (vscale (1 - t) x) (vscale t y)) p <= d2 (vadd (vscale (1 - t) x) (vscale t y)) q.
Proof.
  intros A B T. assert (Q : forall u, d2 u p - d2 u q = dot p p - dot q q - 2 * (dot u p - dot u q)) by (intros; unfold d2, dot; simpl; ring).
  assert (U : forall w, dot (vadd (vscale (1 - t) x) (vscale t y)) w = (1 - t) * dot x w + t * dot y w) by (intros; unfold dot; simpl; ring).
  assert (X := Q x). assert (Y := Q y). assert (W := Q (vadd (vscale (1 - t) x) (vscale t y))). rewrite !U in W.
  assert (R1 : 0 <= (1 - t) * (d2 x q - d2 x p)) by (apply Rmult_le_pos; lra). assert (R2 : 0 <= t * (d2 y q - d2 y p)) by (apply Rmult_le_pos; lra). nra.
Qed.
Lemma atan2_gt_mPI y x : - PI < atan2 y x.
Proof.
  unfold atan2. pose proof PI_RGT_0. destruct (Rltb_spec 0 x); [destruct (atan_bound (y / x)); lra|]. destruct (Rltb_spec x 0).
  - destruct (Rleb_spec 0 y); [destruct (atan_bound (y / x)); lra|]. assert (H0 : 0 < y / x). { unfold Rdiv. assert (/ x < 0) by (apply Rinv_lt_0_compat; auto). nra. }
    apply atan_increasing in H0. rewrite atan_0 in H0. lra.
  - destruct (Rltb_spec 0 y); [lra|]. destruct (Rltb_spec y 0); lra.
Qed.
Lemma fop_map_atan p l : ForallOrdPairs (fun x y => angle_lt y x = false) l ->
  exists ths, Forall2 (polar_at p) (map (fun r => vadd r p) l) ths /\ ForallOrdPairs Rle ths /\ Forall (fun t => - PI < t <= PI) ths.
Proof.
  intros S. exists (map (fun r => atan2 (vy r) (vx r)) l). split; [|split].
  - clear S. induction l as [|r l IH]; simpl; constructor; [|exact IH]. unfold polar_at. simpl.
    destruct (Req_dec (vx r) 0) as [X|X], (Req_dec (vy r) 0) as [Y|Y]; [exists 0; rewrite X, Y; lra| | | ];
      (destruct (atan2_polar (vy r) (vx r)) as (m & M & Ex & Ey); [lra|]; exists m; rewrite <- Ex, <- Ey; lra).
  - induction S as [|x l H _ IH]; simpl; constructor; [|exact IH]. rewrite Forall_forall in *. intros t I. apply in_map_iff in I as (y & <- & I). specialize (H y I). unfold angle_lt in H. apply Rltb_false in H. exact H.
  - clear S. apply Forall_forall. intros t I. apply in_map_iff in I as (r & <- & _). split; [apply atan2_gt_mPI|apply atan2_le_PI].
Qed.
Theorem C70_polytopes b points cells ev h v h' v' : voro_ok b points cells -> vor_compute b points (map encode cells) ev (h, v) (h', v') ->
  length (vo_poly v') = length points /\ length (vo_vol v') = length points /\ vor_polytopes v' = Some (vo_poly v') /\ vor_volumes v' = Some (vo_vol v') /\
  forall c, In c cells -> exists p, nth_error points (sc_pid c) = Some p /\ nth (sc_pid c) (vo_vol v') 0 = sc_vol c /\
    let poly := nth (sc_pid c) (vo_poly v') [] in
    (* the vertices, moved from voro++'s image of the particle to the particle; in 2D those of the upper plane, projected *)
    Permutation poly (map (fun x => vadd (vsub (if b_2d b then V3 (vx x) (vy x) 0 else x) (sc_pos c)) p) (filter (fun x => negb (b_2d b && Rltb (vz x) 0)) (sc_verts c))) /\
    (* every point of the polytope is at least as close to its particle as to any image of any particle *)
    (forall x, hull poly x -> forall j q, is_image b points j q -> (b_2d b = true -> vz q = 0) -> d2 x p <= d2 x q) /\
    (* in 2D: in the plane, counterclockwise around the particle *)
    (b_2d b = true -> (forall x, In x poly -> vz x = 0) /\ exists ths, Forall2 (polar_at p) poly ths /\ ForallOrdPairs Rle ths /\ Forall (fun t => - PI < t <= PI) ths).
Proof.
  intros Ok (ps & vo & bs & srt & L & S & E). injection E as -> ->. cbn [vo_poly vo_vol vor_polytopes vor_volumes vo_computed].
  assert (Nd := pids_nodup _ _ _ Ok). destruct Ok as [Z P C]. destruct (vor_loop_frame _ _ _ _ _ _ _ _ _ L) as (L1 & L2 & _). rewrite resize_length in L1. rewrite repeat_length in L2.
  destruct (vor_loop_spec b points Z cells _ _ _ _ _ _ C Nd L) as (_ & Sp). repeat split; auto.
  intros c I. destruct (Sp c I) as (V & p & Ep & srt' & Hs & ->). exists p. split; [exact Ep|]. split; [exact V|]. cbv zeta.
  set (rel := map (fun x => vsub (if b_2d b then V3 (vx x) (vy x) 0 else x) (sc_pos c)) (filter (fun x => negb (b_2d b && Rltb (vz x) 0)) (sc_verts c))) in *.
  assert (Pr : Permutation srt' rel) by (destruct (b_2d b); [symmetry; apply Hs|rewrite Hs; reflexivity]).
  assert (Okc := C c I). assert (Zp := cell_pos_flat b points c Z Okc). destruct Okc as [(p0 & i & j & k & Ep0 & Hk & Epos) _ Hv]. rewrite Ep in Ep0. injection Ep0 as <-.
  assert (Zpp : b_2d b = true -> vz p = 0) by (intros T; apply (Z T); eapply nth_error_In; eauto).
  assert (In_rel : forall x, In x (map (fun r => vadd r p) srt') -> exists y, In y (sc_verts c) /\ x = vadd (vsub (if b_2d b then V3 (vx y) (vy y) 0 else y) (sc_pos c)) p).
  { intros x X. apply in_map_iff in X as (r & <- & X). apply (Permutation_in _ Pr) in X. apply in_map_iff in X as (y & <- & Y). apply filter_In in Y as [Y _]. eauto. }
  split; [|split].
  - rewrite Pr. unfold rel. rewrite map_map. reflexivity.
  - intros x Hx jj q (pq & i' & j' & k' & Eq & Eimg) Zq. induction Hx as [x X|x y t _ IHx _ IHy T]; [|apply d2_affine; assumption].
    destruct (In_rel x X) as (y & Y & ->). set (t := vshift b i j k).
    assert (H := Hv y Y jj (vadd q t)). assert (Im : is_image b points jj (vadd q t)). { exists pq, (i' + i)%Z, (j' + j)%Z, (k' + k)%Z. split; [exact Eq|]. rewrite Eimg. unfold t. rewrite <- vshift_add. vec_ring. }
    specialize (H Im). fold t in Epos. rewrite Epos in H |- *. destruct (b_2d b) eqn:T2.
    + assert (Tz : vz t = 0) by (specialize (Zp eq_refl); rewrite Epos in Zp; simpl in Zp; rewrite (Zpp eq_refl) in Zp; lra). unfold d2, dot in *. simpl in *. rewrite (Zpp eq_refl), (Zq eq_refl), Tz in *. lra.
    + unfold d2, dot in *. simpl in *. lra.
  - intros T. split.
    + intros x X. destruct (In_rel x X) as (y & _ & ->). rewrite T. simpl. rewrite (Zp T), (Zpp T). ring.
    + rewrite T in Hs. apply fop_map_atan. apply Hs.
Qed.

(** ** Recomputation and sharing *)
(** A cell loop can be replayed on other buffers, with the same values at the ids it visits. *)
Lemma vor_loop_replay is2d points : forall cells polys vols bonds polys' vols' bonds' polys2, length polys2 = length polys ->
  vor_loop is2d points (map encode cells) polys vols bonds polys' vols' bonds' ->
  exists polys2', vor_loop is2d points (map encode cells) polys2 vols bonds polys2' vols' bonds' /\ length polys2' = length polys' /\
    (forall k, In k (map sc_pid cells) \/ nth k polys [] = nth k polys2 [] -> nth k polys2' [] = nth k polys' []).
Proof.
  induction cells as [|c cells IH]; intros * Len; cbn [map vor_loop].
  - intros (-> & -> & ->). exists polys2. repeat split; auto. intros k [[]|H]; auto.
  - intros (rel & srt & sys & bs & p1 & v1 & R0 & S & E & W1 & W2 & F & L). apply wr_inv in W1 as [L1 ->].
    set (w := map (fun r => vadd r sys) srt) in *. change (vc_pid (encode c)) with (sc_pid c) in *.
    assert (X : length (upd polys2 (sc_pid c) w) = length (upd polys (sc_pid c) w)) by (rewrite !upd_length; exact Len).
    destruct (IH _ _ _ _ _ _ _ X L) as (q & Lq & Lenq & Hq).
    exists q. split; [|split; [exact Lenq|]].
    + exists rel, srt, sys, bs, (upd polys2 (sc_pid c) w), v1. repeat split; auto. apply wr_some. lia.
    + intros k [[<-|H]|H]; apply Hq; [right|left; exact H|right].
      * rewrite !nth_upd_same by lia. reflexivity.
      * rewrite !nth_upd_if by (rewrite ?Len; assumption). rewrite H. reflexivity.
Qed.
(** What compute delivers does not depend on what the object computed before. *)
Theorem C70_history b points cells ev h v h' v' h2 v2 : voro_ok b points cells -> execution 0 (bond_count b cells) ev -> vor_compute b points (map encode cells) ev (h, v) (h', v') ->
  exists h2' v2', vor_compute b points (map encode cells) ev (h2, v2) (h2', v2') /\ vo_poly v2' = vo_poly v' /\ vo_vol v2' = vo_vol v' /\ nl_bonds (h2' (vo_addr v2')) = nl_bonds (h' (vo_addr v')).
Proof.
  intros Ok Ex (p & vo & bs & srt & L & S & E). injection E as -> ->. cbn [vo_poly vo_vol vo_addr].
  assert (X : length (vec_resize [] (length points) (vo_poly v2)) = length (vec_resize [] (length points) (vo_poly v))) by (rewrite !resize_length; reflexivity).
  destruct (vor_loop_replay _ _ _ _ _ _ _ _ _ _ X L) as (q & Lq & Lenq & Hq).
  assert (Eq : q = p).
  { destruct (vor_loop_frame _ _ _ _ _ _ _ _ _ L) as (L1 & _). rewrite resize_length in L1. apply (list_ext []); [exact Lenq|]. intros k Hk. apply Hq. left. destruct Ok as [_ P _]. apply (Permutation_in _ (Permutation_sym P)), in_seq. lia. }
  subst q. assert (Nd := pids_nodup _ _ _ Ok). assert (Ok' := Ok). destruct Ok' as [Z P C]. destruct (vor_loop_spec b points Z cells _ _ _ _ _ _ C Nd L) as (B & _). simpl in B.
  assert (Len : length srt = bond_count b cells) by (unfold bond_count; rewrite <- B; symmetry; apply Permutation_length; apply S).
  assert (W : forall arr, length arr = length srt -> fold_left (fun a e => upd a (snd e) (nth (snd e) srt bond0)) ev arr = srt) by (intros; apply par_copy; [rewrite Len; exact Ex|assumption]).
  unfold vor_compute. do 2 eexists. split; [exists p, vo, bs, srt; split; [exact Lq|]; split; [exact S|reflexivity]|]. cbn [vo_poly vo_vol vo_addr]. repeat split; auto.
  unfold hset. rewrite !Nat.eqb_refl. cbn [nl_bonds]. rewrite !W; [reflexivity| |]; apply (buffer_length (length srt) (length points) (length points)).
Qed.
(** A list object taken from [nlist] is the Voronoi object's own list: the next compute rewrites it; an array taken from [volumes], a list at another
    address (a copy) stay as they were; and filtering the list object filters the Voronoi object's list. *)
Theorem C70_shared_list b points cells ev h v h' v' a : voro_ok b points cells -> execution 0 (bond_count b cells) ev -> vor_nlist v = Some a -> vor_compute b points (map encode cells) ev (h, v) (h', v') ->
  Permutation (nl_bonds (h' a)) (flat_map (cell_bonds (b_2d b)) cells) /\ (forall a', a' <> a -> h' a' = h a') /\
  (forall mask h2, heap_filter h' a mask = Some h2 -> vor_nlist v' = Some a /\ exists nl' k, nl_filter (h' a) mask = Some (nl', k) /\ h2 a = nl').
Proof.
  intros Ok Ex Hn Cp. assert (A : a = vo_addr v) by (unfold vor_nlist in Hn; destruct (vo_computed v); congruence). assert (B := C70_bonds _ _ _ _ _ _ _ _ Ok Ex Cp). cbv zeta in B.
  assert (V : vo_addr v' = vo_addr v) by (destruct Cp as (p & vo & bs & srt & _ & _ & E); injection E as _ ->; reflexivity). rewrite V in B. subst a.
  destruct B as (B1 & B2 & _ & _ & _ & _ & _ & B3). split; [exact B2|]. split; [exact B3|]. intros mask h2 H. split; [exact B1|].
  unfold heap_filter in H. destruct (nl_filter (h' (vo_addr v)) mask) as [[nl' k]|]; [|discriminate]. injection H as <-. exists nl', k. split; [reflexivity|]. unfold hset. rewrite Nat.eqb_refl. reflexivity.
Qed.
(** ** The periodic flags of the box play no role *)
Theorem C70_flags b px py pz : vor_compute (set_periodic b px py pz) = vor_compute b. Proof. reflexivity. Qed.

(** ** A concrete tessellation: one point in the unit cube (3D) or unit square (2D) *)
Definition ex_verts : list vec3 := [V3 (-1/2) (-1/2) (-1/2); V3 (1/2) (-1/2) (-1/2); V3 (-1/2) (1/2) (-1/2); V3 (1/2) (1/2) (-1/2);
                                    V3 (-1/2) (-1/2) (1/2); V3 (1/2) (-1/2) (1/2); V3 (-1/2) (1/2) (1/2); V3 (1/2) (1/2) (1/2)].
Definition ex_face (d : vec3) (vs : list nat) : face := Face 0 d 1 d vs.
Definition ex_cell : scell := SC 0 v0 ex_verts
  [ex_face (V3 1 0 0) [1; 3; 7; 5]%nat; ex_face (V3 (-1) 0 0) [0; 4; 6; 2]%nat; ex_face (V3 0 1 0) [3; 2; 6; 7]%nat;
   ex_face (V3 0 (-1) 0) [0; 1; 5; 4]%nat; ex_face (V3 0 0 1) [4; 5; 7; 6]%nat; ex_face (V3 0 0 (-1)) [0; 2; 3; 1]%nat] 1.
Definition ex_box (is2d : bool) : box := set_periodic (mk_box 1 1 1 0 0 0 is2d) false false false.
Lemma ex_shift is2d i j k : vshift (ex_box is2d) i j k = V3 (IZR i) (IZR j) (IZR k).
Proof. destruct is2d; unfold vshift, ex_box, shift, comb; simpl; vec_ext; lra. Qed.
Lemma int_sq n : IZR n * IZR n - IZR n >= 0 /\ IZR n * IZR n + IZR n >= 0.
Proof. split; apply Rle_ge; [rewrite <- mult_IZR, <- minus_IZR|rewrite <- mult_IZR, <- plus_IZR]; apply IZR_le; nia. Qed.
Lemma ex_ok is2d : voro_ok (ex_box is2d) [v0] [ex_cell].
Proof.
  split; [intros _ p [<-|[]]; reflexivity|apply Permutation_refl|]. intros c [<-|[]]. split.
  - exists v0, 0%Z, 0%Z, 0%Z. repeat split; auto. rewrite ex_shift. vec_ring.
  - assert (G : forall i j k vs, (i * i + j * j + k * k = 1)%Z -> (k = 0 \/ i = 0 /\ j = 0)%Z -> (2 <= length vs)%nat ->
        (forall v, In v vs -> exists x, nth_error ex_verts v = Some x /\ 2 * (vx x * IZR i + vy x * IZR j + vz x * IZR k) = 1) ->
        face_ok (ex_box is2d) [v0] ex_cell (ex_face (V3 (IZR i) (IZR j) (IZR k)) vs)).
    { intros i j k vs N T L V. assert (N' : IZR i * IZR i + IZR j * IZR j + IZR k * IZR k = 1) by (rewrite <- !mult_IZR, <- !plus_IZR, N; reflexivity). split; cbn [f_pos f_normal f_j f_verts ex_face sc_pos ex_cell].
      - exists v0, i, j, k. rewrite ex_shift. split; [reflexivity|vec_ring].
      - right. assert (D : dot (vsub (V3 (IZR i) (IZR j) (IZR k)) v0) (vsub (V3 (IZR i) (IZR j) (IZR k)) v0) = 1) by (unfold dot; simpl; lra).
        unfold d2, norm. rewrite D, sqrt_1. split; [lra|vec_ring].
      - split; [exact L|]. intros v I. destruct (V v I) as (x & E & H). exists x. split; [exact E|]. unfold d2, dot; simpl. lra.
      - intros _. simpl. destruct T as [->|[-> ->]]; [left|right]; auto. }
    intros f I. simpl in I. repeat (destruct I as [<-|I]; [apply G; [reflexivity|lia|simpl; lia|intros v Iv; simpl in Iv; repeat (destruct Iv as [<-|Iv]; [eexists; split; [reflexivity|simpl; lra]|]); destruct Iv]|]). destruct I.
  - intros x I j q (p & i1 & i2 & i3 & E & ->). destruct j as [|[|j]]; simpl in E; [|discriminate|discriminate]. injection E as <-. rewrite ex_shift.
    assert (A := int_sq i1). assert (B := int_sq i2). assert (C := int_sq i3). simpl in I.
    repeat (destruct I as [<-|I]; [unfold d2, dot; simpl; lra|]). destruct I.
Qed.
Lemma ex_count : bond_count (ex_box false) [ex_cell] = 6%nat /\ bond_count (ex_box true) [ex_cell] = 4%nat.
Proof.
  unfold bond_count, cell_bonds. simpl. unfold kept, dot. simpl.
  assert (N1 : forall x, x = 1 -> Reqb x 0 = false) by (intros; apply Reqb_false; lra).
  repeat rewrite N1 by lra. simpl. assert (Z0 : Reqb 0 0 = true) by (apply Reqb_true; reflexivity). assert (Z1 : Reqb 1 0 = false) by (apply Reqb_false; lra). assert (Z2 : Reqb (-1) 0 = false) by (apply Reqb_false; lra).
  rewrite Z0, Z1, Z2. simpl. auto.
Qed.
Definition seq_ev (n : nat) : list (nat * nat) := map (fun i => (0%nat, i)) (seq 0 n).
Lemma seq_ev_exec n : execution 0 n (seq_ev n).
Proof.
  unfold execution, chunking, seq_ev. exists (if (n <=? 0)%nat then [] else [(0, n)%nat]). rewrite map_map. simpl. rewrite map_id. destruct (Nat.leb_spec n 0).
  - split; [reflexivity|]. replace n with 0%nat by lia. constructor.
  - split; [constructor; lia|]. simpl. unfold range. rewrite app_nil_r, Nat.sub_0_r. apply Permutation_refl.
Qed.
Lemma ex_reciprocal : reciprocal [ex_cell].
Proof.
  unfold reciprocal, all_faces. cbn [flat_map ex_cell sc_faces map]. rewrite app_nil_r. cbn [map]. unfold face_data, ex_face, seen_back. change (sc_pid ex_cell) with 0%nat. change (sc_pos ex_cell) with v0. cbn [f_j f_pos f_normal f_area map]. cbv beta iota.
  assert (E : forall x y z x' y' z', x' = - x -> y' = - y -> z' = - z -> vneg (vsub (V3 x y z) v0) = vsub (V3 x' y' z') v0) by (intros; subst; vec_ext; lra).
  rewrite (E 1 0 0 (-1) 0 0), (E (-1) 0 0 1 0 0), (E 0 1 0 0 (-1) 0), (E 0 (-1) 0 0 1 0), (E 0 0 1 0 0 (-1)), (E 0 0 (-1) 0 0 1) by lra.
  assert (N : forall v, dot v v = 1 -> Reqb (dot v v) 0 = false) by (intros v ->; apply Reqb_false; lra).
  rewrite !N by (unfold dot; simpl; lra). etransitivity; [apply perm_swap|]. do 2 apply perm_skip. etransitivity; [apply perm_swap|]. do 2 apply perm_skip. apply perm_swap.
Qed.
Example C70_ex is2d h v : reciprocal [ex_cell] /\ voro_ok (ex_box is2d) [v0] [ex_cell] /\
  exists h' v', vor_compute (ex_box is2d) [v0] (map encode [ex_cell]) (seq_ev (if is2d then 4 else 6)) (h, v) (h', v') /\ length (nl_bonds (h' (vo_addr v'))) = (if is2d then 4 else 6)%nat.
Proof.
  split; [exact ex_reciprocal|]. assert (Ok := ex_ok is2d). split; [exact Ok|]. destruct (C70_total _ _ _ (seq_ev (if is2d then 4 else 6)) h v Ok) as ([h' v'] & Cp).
  exists h', v'. split; [exact Cp|]. assert (Cn : bond_count (ex_box is2d) [ex_cell] = (if is2d then 4 else 6)%nat) by (destruct ex_count; destruct is2d; assumption).
  assert (B := C70_bonds _ _ _ _ _ _ _ _ Ok ltac:(rewrite Cn; apply seq_ev_exec) Cp). cbv zeta in B. destruct B as (_ & P & _). rewrite (Permutation_length P). exact Cn.
Qed.
(** In a box that is not periodic at all, a particle is its own neighbour through the walls. *)
Theorem C70_nonperiodic_refuted : exists b points cells ev, b_px b = false /\ b_py b = false /\ b_pz b = false /\ voro_ok b points cells /\
  forall h v h' v', vor_compute b points (map encode cells) ev (h, v) (h', v') ->
  exists x p q, In x (nl_bonds (h' (vo_addr v'))) /\ nth_error points (bq x) = Some p /\ nth_error points (bp x) = Some q /\
    ~ exists i j k, allowed b i j k /\ vadd p (bv x) = vadd q (shift b i j k).
Proof.
  exists (ex_box false), [v0], [ex_cell], (seq_ev 6). do 3 (split; [reflexivity|]). split; [apply ex_ok|]. intros h v h' v' Cp.
  assert (B := C70_bonds _ _ _ _ _ _ _ _ (ex_ok false) ltac:(rewrite (proj1 ex_count); apply seq_ev_exec) Cp). cbv zeta in B. destruct B as (_ & P & _).
  exists (face_bond ex_cell (ex_face (V3 1 0 0) [1; 3; 7; 5]%nat)), v0, v0. split; [|repeat split].
  - apply (Permutation_in _ (Permutation_sym P)). apply in_flat_map. exists ex_cell. split; [left; reflexivity|]. apply in_map, filter_In. split; [left; reflexivity|]. unfold kept. simpl. apply andb_true_iff. split; [|reflexivity]. apply negb_true_iff, Reqb_false. unfold dot; simpl. lra.
  - intros (i & j & k & (A & _ & _ & _) & E). specialize (A eq_refl). subst i. apply (f_equal vx) in E. simpl in E. lra.
Qed.
(** A list object kept from an earlier computation does not keep that computation's bonds. *)
Theorem C70_snapshot_refuted : exists b1 b2 points cells ev1 ev2 h v, voro_ok b1 points cells /\ voro_ok b2 points cells /\
  exists h1 v1 h2 v2 a, vor_compute b1 points (map encode cells) ev1 (h, v) (h1, v1) /\ vor_nlist v1 = Some a /\ vor_compute b2 points (map encode cells) ev2 (h1, v1) (h2, v2) /\
  length (nl_bonds (h1 a)) = 6%nat /\ length (nl_bonds (h2 a)) = 4%nat.
Proof.
  exists (ex_box false), (ex_box true), [v0], [ex_cell], (seq_ev 6), (seq_ev 4), (fun _ => NL 0 0 [] false [] []), (vor_new 0). split; [apply ex_ok|]. split; [apply ex_ok|].
  destruct (C70_ex false (fun _ => NL 0 0 [] false [] []) (vor_new 0)) as (_ & Ok1 & h1 & v1 & Cp1 & L1). destruct (C70_ex true h1 v1) as (_ & Ok2 & h2 & v2 & Cp2 & L2).
  assert (B1 := C70_bonds _ _ _ _ _ _ _ _ Ok1 ltac:(rewrite (proj1 ex_count); apply seq_ev_exec) Cp1). assert (B2 := C70_bonds _ _ _ _ _ _ _ _ Ok2 ltac:(rewrite (proj2 ex_count); apply seq_ev_exec) Cp2). cbv zeta in B1, B2.
  exists h1, v1, h2, v2, (vo_addr v1). destruct B1 as (A1 & _). destruct B2 as (A2 & _).
  assert (V1 : vor_nlist v1 = Some (vo_addr v1)) by (unfold vor_nlist in *; destruct (vo_computed v1); [reflexivity|discriminate]).
  assert (V2 : vo_addr v2 = vo_addr v1) by (unfold vor_nlist in A2; destruct (vo_computed v2); congruence). rewrite V2 in L2. auto.
Qed.
Print Assumptions C70_bonds.
Print Assumptions C70_polytopes.
