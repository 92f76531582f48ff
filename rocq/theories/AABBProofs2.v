(** Proofs about image vectors and the complete AABB ball query. *)
From Verif Require Import AABBModel AABBSpec AABBProofs NListProofs BoxProofs BoxProofs2 QuerySpec.
Open Scope nat_scope.

(** ** The image list *)
Definition allowedb (b : box) (t : Z * Z * Z) : bool :=
  let '(i, j, k) := t in
  (Z.eqb i 0 || b_px b) && (Z.eqb j 0 || b_py b) && (Z.eqb k 0 || (negb (b_2d b) && b_pz b)).
Definition nonzero (t : Z * Z * Z) : bool := let '(i, j, k) := t in negb (Z.eqb i 0 && Z.eqb j 0 && Z.eqb k 0).
Definition image_triples (b : box) : list (Z * Z * Z) :=
  (0, 0, 0)%Z :: filter (fun t => allowedb b t && nonzero t) triples.
Definition tshift (b : box) (t : Z * Z * Z) : vec3 := let '(i, j, k) := t in shift b i j k.

Lemma allowedb_spec b i j k : allowedb b (i, j, k) = true <-> allowed b i j k.
Proof.
  unfold allowedb, allowed. rewrite !andb_true_iff, !orb_true_iff, !Z.eqb_eq.
  destruct (b_px b), (b_py b), (b_pz b), (b_2d b); simpl; intuition (try discriminate).
Qed.
Lemma image_step_eq b total acc t : image_step b total acc t =
  if (length acc <? total) && (allowedb b t && nonzero t) then acc ++ [tshift b t] else acc.
Proof.
  destruct t as [[i j] k]. unfold image_step, allowedb, nonzero, tshift. destruct (length acc <? total); cbn [negb andb]; auto.
  assert (EV : (b_2d b = true -> k = 0%Z) ->
    vadd (vadd (vscale (IZR i) (lattice_or_zero b 0)) (vscale (IZR j) (lattice_or_zero b 1))) (vscale (IZR k) (if b_2d b then v0 else lattice_or_zero b 2)) = shift b i j k).
  { intros H2. unfold lattice_or_zero, lattice_vector, shift, comb, a1, a2, a3. destruct (b_2d b); [rewrite H2 by auto|]; vec_ring. }
  destruct (Z.eqb_spec i 0), (Z.eqb_spec j 0), (Z.eqb_spec k 0), (b_px b), (b_py b), (b_2d b), (b_pz b); cbn [negb andb orb]; auto;
  rewrite EV; auto; discriminate.
Qed.
Lemma image_fold b total : forall ts acc, length acc + length (filter (fun t => allowedb b t && nonzero t) ts) <= total ->
  fold_left (image_step b total) ts acc = acc ++ map (tshift b) (filter (fun t => allowedb b t && nonzero t) ts).
Proof.
  induction ts as [|t ts IH]; intros acc H; simpl; [rewrite app_nil_r; auto|].
  simpl in H. rewrite image_step_eq. destruct (allowedb b t && nonzero t).
  - simpl in H. rewrite (proj2 (Nat.ltb_lt _ _)) by lia. simpl. rewrite IH.
    + rewrite <- app_assoc. reflexivity.
    + rewrite app_length. simpl. lia.
  - rewrite andb_false_r. apply IH. auto.
Qed.
Lemma image_triples_length b : length (image_triples b) = Nat.pow 3 (n_periodic b).
Proof. unfold image_triples, n_periodic, allowedb. destruct (b_px b), (b_py b), (b_2d b), (b_pz b); reflexivity. Qed.
Lemma shift_000 b : shift b 0 0 0 = v0.
Proof. unfold shift, comb. vec_ring. Qed.
Lemma image_vectors_eq b r check : image_vectors b r check =
  if check && image_check b r then None else Some (map (tshift b) (image_triples b)).
Proof.
  unfold image_vectors. destruct (check && image_check b r); auto. f_equal. rewrite image_fold.
  - unfold image_triples. cbn [map tshift app]. rewrite shift_000. reflexivity.
  - fold (image_triples b). change (n_images b) with (Nat.pow 3 (n_periodic b)). rewrite <- image_triples_length. unfold image_triples. cbn [length]. lia.
Qed.
Lemma triples_nodup : NoDup triples.
Proof.
  cbv [triples flat_map map app].
  repeat (apply NoDup_cons; [intros H; repeat (destruct H as [H|H]; [discriminate H|]); exact H|]). apply NoDup_nil.
Qed.
Lemma triples_in i j k : In (i, j, k) triples <-> near_images i j k.
Proof.
  unfold triples, near_images. rewrite in_flat_map. split.
  - intros (i' & Hi & H). apply in_flat_map in H as (j' & Hj & H). apply in_map_iff in H as (k' & E & Hk).
    injection E as -> -> ->. simpl in *. lia.
  - intros H. exists i. split; [simpl; lia|]. apply in_flat_map. exists j. split; [simpl; lia|].
    apply in_map_iff. exists k. split; auto. simpl. lia.
Qed.
Lemma image_triples_in b i j k : In (i, j, k) (image_triples b) <-> allowed b i j k /\ near_images i j k.
Proof.
  unfold image_triples. change (In (i, j, k) ((0, 0, 0)%Z :: filter (fun t => allowedb b t && nonzero t) triples)) with ((0, 0, 0)%Z = (i, j, k) \/ In (i, j, k) (filter (fun t => allowedb b t && nonzero t) triples)). rewrite filter_In, andb_true_iff, allowedb_spec, triples_in. split.
  - intros [E|H]; [injection E as <- <- <-|tauto]. split; [repeat split|unfold near_images; lia].
  - intros [HA HN]. destruct (nonzero (i, j, k)) eqn:E; [auto|]. left. unfold nonzero in E.
    apply negb_false_iff in E. rewrite !andb_true_iff, !Z.eqb_eq in E. destruct E as [[-> ->] ->]. reflexivity.
Qed.
Lemma image_triples_nodup b : NoDup (image_triples b).
Proof.
  constructor.
  - rewrite filter_In. intros [_ H]. rewrite andb_true_iff in H. destruct H as [_ H]. discriminate.
  - apply NoDup_filter. apply triples_nodup.
Qed.

Lemma comb_inj b s t u s' t' u' : nonsingular b -> (b_2d b = true -> u = u') -> comb b s t u = comb b s' t' u' -> s = s' /\ t = t' /\ u = u'.
Proof.
  intros (Hx & Hy & Hz & _) H2 E. unfold comb, a1, a2, a3 in E. injection E as Ex Ey Ez.
  assert (u = u').
  { destruct (b_2d b) eqn:E2; [auto|]. specialize (Hz eq_refl). apply Rmult_eq_reg_r with (vz (b_L b)); auto. lra. }
  subst u'. assert (t = t').
  { apply Rmult_eq_reg_r with (vy (b_L b)); auto. lra. }
  subst t'. assert (s = s').
  { apply Rmult_eq_reg_r with (vx (b_L b)); auto. lra. }
  auto.
Qed.
Lemma shift_inj b i j k i' j' k' : nonsingular b -> allowed b i j k -> allowed b i' j' k' ->
  shift b i j k = shift b i' j' k' -> (i, j, k) = (i', j', k').
Proof.
  intros H A A' E. apply comb_inj in E; auto.
  - destruct E as (E1 & E2 & E3). apply eq_IZR in E1, E2, E3. congruence.
  - intros E2. destruct A as (_ & _ & _ & A). destruct A' as (_ & _ & _ & A'). rewrite A, A'; auto.
Qed.

(** Radius check and completeness of the {-1,0,1} images. *)
Lemma image_check_spec b r : image_check b r = false <-> radius_ok b r.
Proof.
  unfold image_check, radius_ok. cbv zeta. rewrite !orb_false_iff.
  assert (G : forall p x, p && Rleb x (r * 2) = false <-> (p = true -> 2 * r < x)%R).
  { intros p x. destruct p; simpl.
    - rewrite Rleb_false. split; [intros H _; lra|intros H; specialize (H eq_refl); lra].
    - split; auto. discriminate. }
  rewrite <- andb_assoc.
  assert (G2 : forall q p x, negb q && (p && Rleb x (r * 2)) = false <-> (q = false -> p = true -> 2 * r < x)%R).
  { intros q p x. destruct q; simpl; [split; auto; discriminate|]. rewrite G. tauto. }
  rewrite !G, G2. tauto.
Qed.
Lemma near_of_range b r p q i j k : positive b -> radius_ok b r -> in_cell b p -> in_cell b q -> allowed b i j k ->
  (norm (vsub p (vadd q (shift b i j k))) < r)%R -> near_images i j k.
Proof.
  intros Hb (Rx & Ry & Rz) (s & t & u & -> & Sx & Sy & Sz) (s' & t' & u' & -> & Sx' & Sy' & Sz') (Ax & Ay & Az & A2) HN.
  assert (E : vsub (cell_point b s t u) (vadd (cell_point b s' t' u') (shift b i j k)) = comb b (s - s' - IZR i) (t - t' - IZR j) (u - u' - IZR k)).
  { unfold cell_point, shift, comb. vec_ring. }
  rewrite E in HN. destruct (plane_bound b (s - s' - IZR i) (t - t' - IZR j) (u - u' - IZR k) Hb) as (Bx & By & Bz).
  destruct (plane_pos b Hb) as (Px & Py & Pz).
  set (N := norm _) in *.
  assert (G : forall (per : bool) x x' n P, (0 < P)%R -> (Rabs (x - x' - IZR n) * P <= N)%R -> (per = true -> 2 * r < P)%R ->
     (per = true -> 0 <= x <= 1)%R -> (per = true -> 0 <= x' <= 1)%R -> (per = false -> n = 0%Z) -> (-1 <= n <= 1)%Z).
  { intros per x x' n P HP HB HR Hx Hx' Hn. destruct per; [|rewrite Hn by auto; lia].
    specialize (HR eq_refl). specialize (Hx eq_refl). specialize (Hx' eq_refl).
    destruct (Z_le_gt_dec (-1) n) as [L1|L1], (Z_le_gt_dec n 1) as [L2|L2]; try lia; exfalso.
    - assert (2 <= IZR n)%R by (apply (IZR_le 2); lia). rewrite Rabs_left in HB by lra. nra.
    - assert (IZR n <= -2)%R by (apply (IZR_le _ (-2)); lia). rewrite Rabs_right in HB by lra. nra. }
  repeat split; try (apply (G (b_px b) s s' i _ Px Bx Rx Sx Sx' Ax)); try (apply (G (b_py b) t t' j _ Py By Ry Sy Sy' Ay));
    destruct (b_2d b) eqn:E2; try (rewrite A2 by auto; lia);
    apply (G (b_pz b) u u' k _ (Pz eq_refl) (Bz eq_refl) (Rz eq_refl) (Sz eq_refl) (Sz' eq_refl) Az).
Qed.

(** ** The ball query *)
Lemma flat_flat b p : flat_z b p = flat b p. Proof. reflexivity. Qed.
Definition ball_result (b : box) (points : list vec3) (q : vec3) (qi : nat) (r_max r_min : R) (excl : bool) (ids : list nat) : list bond :=
  flat_map (fun t => flat_map (emit b points qi r_max r_min excl (vadd (flat_z b q) (tshift b t))) ids) (image_triples b).
Lemma aabb_ball_eq b points q qi r_max r_min excl check : points <> [] ->
  exists ids, Permutation ids (seq 0 (length points)) /\
  forall res, aabb_ball b points q qi r_max r_min excl check res <->
    res = (if point_args_ok r_max r_min && negb (check && image_check b r_max)
           then Some (ball_result b points q qi r_max r_min excl ids) else None).
Proof.
  intros HN. destruct (point_tree_spec b points HN) as (t & ET & W & HP & HT).
  exists (tags (elements t)). split; auto. intros res. unfold aabb_ball. destruct (point_args_ok r_max r_min); cbn [andb]; [|tauto].
  rewrite image_vectors_eq. destruct (check && image_check b r_max); cbn [negb]; [tauto|]. rewrite ET.
  pose proof (ball_drains_hits b points (map (tshift b) (image_triples b)) q qi r_max r_min excl t) as D. cbv zeta in D.
  assert (EL : flat_map (fun im => hits b points qi r_max r_min excl (vadd (flat_z b q) im) t) (map (tshift b) (image_triples b)) =
               ball_result b points q qi r_max r_min excl (tags (elements t))).
  { clear D. unfold ball_result. induction (image_triples b) as [|y l IH]; [reflexivity|]. cbn [map flat_map]. rewrite IH. f_equal.
    apply hits_all; auto. }
  rewrite EL in D. split.
  - intros (l & -> & D'). f_equal. eapply drain_det; eauto.
  - intros ->. eexists. split; [reflexivity|exact D].
Qed.
Lemma norm_sq_lt v r : (0 < r)%R -> (dot v v < r * r <-> norm v < r)%R.
Proof.
  intros H. unfold norm. assert (0 <= dot v v)%R by (unfold dot; nra). pose proof (sqrt_pos (dot v v)). pose proof (sqrt_sqrt _ H0). split; intros; nra.
Qed.
Lemma norm_sq_le v r : (0 <= r)%R -> (r * r <= dot v v <-> r <= norm v)%R.
Proof.
  intros H. unfold norm. assert (0 <= dot v v)%R by (unfold dot; nra). pose proof (sqrt_pos (dot v v)). pose proof (sqrt_sqrt _ H0). split; intros; nra.
Qed.
Lemma emit_in b points q qi r_max r_min excl i1 i2 i3 j x : (0 < r_max)%R -> (0 <= r_min)%R ->
  In x (emit b points qi r_max r_min excl (vadd (flat_z b q) (tshift b (i1, i2, i3))) j) <->
  ~ (excl = true /\ qi = j) /\ (r_min <= norm (sep b points q j i1 i2 i3) < r_max)%R /\
  x = Bond qi j (norm (sep b points q j i1 i2 i3)) 1%R (sep b points q j i1 i2 i3).
Proof.
  intros H0 H1. unfold emit. cbv zeta. change (flat_z b) with (flat b). cbn [tshift]. fold (sep b points q j i1 i2 i3). set (v := sep b points q j i1 i2 i3).
  destruct excl, (Nat.eqb_spec qi j); cbn [andb]; subst;
  try (split; [intros []|intros (H & _); exfalso; apply H; auto]).
  all: destruct (Rltb (dot v v) (r_max * r_max)) eqn:E1; cbn [andb];
    [apply Rltb_true in E1; apply (proj1 (norm_sq_lt v r_max H0)) in E1|apply Rltb_false in E1; apply (proj1 (norm_sq_le v r_max (Rlt_le _ _ H0))) in E1; split; [intros []|intros (_ & ? & _); lra]];
    destruct (Rleb (r_min * r_min) (dot v v)) eqn:E2;
    [apply Rleb_true in E2; apply (proj1 (norm_sq_le v r_min H1)) in E2|apply Rleb_false in E2; split; [intros []|intros (_ & (L & _) & _); apply (proj2 (norm_sq_le v r_min H1)) in L; lra]];
    (split; [intros [<-|[]]; split; [intros []; auto; discriminate|split; [lra|reflexivity]]|intros (_ & _ & ->); left; reflexivity]).
Qed.
Lemma ball_result_in b points q qi r_max r_min excl ids x : Permutation ids (seq 0 (length points)) -> (0 < r_max)%R -> (0 <= r_min)%R ->
  In x (ball_result b points q qi r_max r_min excl ids) <-> in_range b points q qi r_max r_min excl near_images x.
Proof.
  intros HP H0 H1. unfold ball_result, in_range. rewrite in_flat_map. split.
  - intros ([[i1 i2] i3] & Ht & Hx). apply image_triples_in in Ht as [HA HN]. apply in_flat_map in Hx as (j & Hj & Hx).
    apply emit_in in Hx; auto. exists j, i1, i2, i3. split; [|tauto].
    apply (Permutation_in _ HP), in_seq in Hj. lia.
  - intros (j & i1 & i2 & i3 & Hj & HA & HI & HX). exists (i1, i2, i3). split; [apply image_triples_in; auto|].
    apply in_flat_map. exists j. split; [apply (Permutation_in _ (Permutation_sym HP)), in_seq; lia|]. apply emit_in; auto.
Qed.
Lemma NoDup_app_intro {A} (l l' : list A) : NoDup l -> NoDup l' -> (forall x, In x l -> In x l' -> False) -> NoDup (l ++ l').
Proof.
  induction l as [|a l IH]; intros H H' HD; simpl; auto. inversion H; subst. constructor.
  - intros Ha. apply in_app_or in Ha as [Ha|Ha]; auto. apply (HD a); auto. left; auto.
  - apply IH; auto. intros x Hx. apply HD. right; auto.
Qed.
Lemma NoDup_flat_map {A B} (f : A -> list B) l : NoDup l -> (forall a, In a l -> NoDup (f a)) ->
  (forall a a' x, In a l -> In a' l -> In x (f a) -> In x (f a') -> a = a') -> NoDup (flat_map f l).
Proof.
  induction l as [|a l IH]; intros HN HF HD; simpl; [constructor|]. inversion HN; subst.
  apply NoDup_app_intro.
  - apply HF; left; auto.
  - apply IH; auto.
    + intros; apply HF; right; auto.
    + intros; eapply HD; eauto; right; auto.
  - intros x Hx Hx'. apply in_flat_map in Hx' as (a' & Ha' & Hx'). assert (a = a') by (eapply HD; eauto; [left|right]; auto). subst. auto.
Qed.
Lemma ball_result_nodup b points q qi r_max r_min excl ids : nonsingular b -> Permutation ids (seq 0 (length points)) ->
  (0 < r_max)%R -> (0 <= r_min)%R -> NoDup (ball_result b points q qi r_max r_min excl ids).
Proof.
  intros Hb HP H0 H1. apply NoDup_flat_map.
  - apply image_triples_nodup.
  - intros [[i1 i2] i3] _. apply NoDup_flat_map.
    + eapply Permutation_NoDup; [symmetry; exact HP|apply seq_NoDup].
    + intros j _. unfold emit. destruct (excl && _); [constructor|]. cbv zeta. destruct (_ && _); repeat constructor; auto.
    + intros j j' x _ _ Hx Hx'. apply emit_in in Hx as (_ & _ & ->); auto. apply emit_in in Hx' as (_ & _ & E); auto. congruence.
  - intros [[i1 i2] i3] [[j1 j2] j3] x Hi Hj Hx Hx'. apply image_triples_in in Hi as [HA _]. apply image_triples_in in Hj as [HA' _].
    apply in_flat_map in Hx as (m & _ & Hx). apply in_flat_map in Hx' as (m' & _ & Hx').
    apply emit_in in Hx as (_ & _ & ->); auto. apply emit_in in Hx' as (_ & _ & E); auto.
    assert (EM : m = m') by congruence. subst m'. assert (EV : sep b points q m i1 i2 i3 = sep b points q m j1 j2 j3) by congruence.
    apply shift_inj with b; auto. clear E. unfold sep in EV.
    destruct (shift b i1 i2 i3), (shift b j1 j2 j3), (flat b q), (flat b (nth m points v0)). unfold vsub, vadd in EV. simpl in EV.
    injection EV as E1 E2 E3. f_equal; lra.
Qed.
Lemma NoDup_map_in {A B} (f : A -> B) l : (forall x y, In x l -> In y l -> f x = f y -> x = y) -> NoDup l -> NoDup (map f l).
Proof.
  induction l as [|a l IH]; intros HI H; simpl; [constructor|]. inversion H; subst. constructor.
  - intros Ha. apply in_map_iff in Ha as (y & E & Hy). apply HI in E; [subst; auto|right; auto|left; auto].
  - apply IH; auto. intros; apply HI; auto; right; auto.
Qed.
Lemma image_triples_hd b : hd_error (image_triples b) = Some (0, 0, 0)%Z.
Proof. reflexivity. Qed.
Lemma some_inj {A} (x y : A) : Some x = Some y -> x = y.
Proof. congruence. Qed.
#[global] Opaque image_triples.
