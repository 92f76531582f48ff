(** C66: static structure factors, Direct. *)
From Verif Require Import BoxProofs HistProofs HistProofs2 HistProps ParProofs MatchEnvProofs CorrProps SfProofs SfProofs2.
From Coq Require Import Lra Lia Permutation.
From Verif Require Import BoxSpec SfSpec.
Local Open Scope R_scope.

(** * Constructor *)
Theorem C66_direct_constructor bins k_max k_min num : sfd_make bins k_max k_min num <> None <-> bins <> 0%Z /\ 0 <= k_min < k_max.
Proof.
  unfold sfd_make. destruct (Z.eqb_spec bins 0) as [B|B]; [tauto|]. destruct (Rleb_spec k_max 0) as [K|K]; [split; [tauto|intros; lra]|].
  destruct (Rltb_spec k_min 0) as [M|M]; [split; [tauto|intros; lra]|]. destruct (Rleb_spec k_max k_min) as [N|N]; split; try tauto; intros; try lra; [split; [exact B|lra]|discriminate].
Qed.
Example C66_direct_constructor_ex : sfd_make 10 5 0 0 <> None.
Proof. apply C66_direct_constructor. split; [lia|lra]. Qed.

(** * Values over every call history *)
Lemma since_total bins : forall h prev acc, sfd_ok bins prev h -> Forall (fun f => (0 < si_total f)%nat) acc -> Forall (fun f => (0 < si_total f)%nat) (sf_since h acc).
Proof.
  induction h as [|[[|] f|a b] h IH]; intros prev acc H F; cbn [sf_since sfd_ok] in *; auto.
  - destruct H as (_ & T & H). apply (IH _ _ H). constructor; auto.
  - destruct H as (_ & T & H). apply (IH _ _ H). apply Forall_app. split; auto.
  - destruct H as (_ & _ & H). apply (IH _ _ H F).
Qed.
Lemma with_fst : forall fs prev, map fst (with_kpoints prev fs) = fs.
Proof. induction fs as [|f fs IH]; intros prev; [reflexivity|]. simpl. rewrite IH. reflexivity. Qed.
Lemma make_state bins k_max k_min num s0 : (0 <= bins)%Z -> sfd_make bins k_max k_min num = Some s0 -> (0 < bins)%Z /\ 0 <= k_min < k_max /\
  s0 = Sfd (Axis bins k_min k_max) num (bhc_make (u32 0) [Axis bins k_min k_max]) (bhc_make 0 [Axis bins k_min k_max]) (repeat 0 (Z.to_nat bins)) [] None None.
Proof.
  intros Hb H. assert (G : sfd_make bins k_max k_min num <> None) by congruence. apply C66_direct_constructor in G as [G1 G2]. split; [lia|]. split; [exact G2|].
  revert H. unfold sfd_make. destruct (Z.eqb_spec bins 0); [discriminate|]. destruct (Rleb k_max 0); [discriminate|]. destruct (Rltb k_min 0); [discriminate|]. destruct (Rleb k_max k_min); [discriminate|]. congruence.
Qed.

(** Reading the structure factor after any sequence of compute calls (with and without reset, any boxes, any query points) and reads, for
    every schedule: bin i holds the mean of S(k) over all (frame, sampled wave vector) pairs since the last reset whose |k| lies in the bin,
    and 0 if there is none. *)
Theorem C66_direct bins k_max k_min num s0 h e1 e2 :
  (0 <= bins < OVERFLOW_BIN)%Z -> sfd_make bins k_max k_min num = Some s0 -> sfd_ok bins None (h ++ [SfRead e1 e2]) ->
  (forall i, (Z.of_nat (length (hits bins k_max k_min i (used h))) < 2 ^ 32)%Z) ->
  exists s, sfd_run s0 (h ++ [SfRead e1 e2]) = Some s /\ length (sd_out s) = Z.to_nat bins /\
    forall i, (i < Z.to_nat bins)%nat ->
      (hits bins k_max k_min i (used h) = [] -> nth i (sd_out s) 0 = 0) /\
      (hits bins k_max k_min i (used h) <> [] -> nth i (sd_out s) 0 = mean_over S_at (hits bins k_max k_min i (used h))).
Proof.
  intros Hb Hm Hh Hn. destruct (make_state _ _ _ _ _ (proj1 Hb) Hm) as (Hb0 & Hk & E0). set (a := Axis bins k_min k_max) in *.
  assert (Va : valid_axes [a]).
  { split; [constructor; [|constructor]; split; simpl; [lia|apply Hk]|]. unfold size_of; simpl. destruct bins; lia. }
  assert (Hh0 := sfd_ok_app _ _ _ _ Hh).
  assert (He : execution 0 (Z.to_nat bins) e1 /\ execution 0 (Z.to_nat bins) e2).
  { clear -Hh. revert Hh. generalize (@None (box * list vec3)). induction h as [|[r f|x y] h IH]; intros p H; cbn [app sfd_ok] in H; [tauto|apply (IH _ (proj2 (proj2 H)))|apply (IH _ (proj2 (proj2 H)))]. }
  destruct He as [H1 H2].
  assert (I0 : Inv bins a s0 []). { rewrite E0. constructor; cbn [sd_axis sd_n sd_s sd_out map run_history ofold]; auto. discriminate. }
  assert (P0 : sprev s0 = None) by (rewrite E0; reflexivity).
  destruct (run_inv bins a Va eq_refl h s0 [] I0 (Forall_nil _)) as (s1 & R1 & I1); [rewrite P0; exact Hh0|]. rewrite P0 in I1. cbn [app] in I1.
  assert (Hr := resolve_ok bins h None Hh0).
  destruct (read_inv bins a Va eq_refl _ e1 e2 s1 [] I1 Hr H1 H2) as (s & Rs & I & Fl & _).
  exists s. split; [unfold sfd_run in *; rewrite ofold_app, R1; cbn [ofold sfd_step]; rewrite Rs; reflexivity|].
  destruct I as [_ In Ic _ Io]. specialize (Io Fl). destruct (rops_ok bins a eq_refl _ Hr) as [On Oc].
  rewrite map_app in In, Ic. cbn [map rop_n rop_s] in In, Ic.
  destruct (C17_history (u32 0) u32_add [a] _ e1 u32_laws Va On) as (n & Rn & Cn & _); [rewrite (sf_size bins a eq_refl); exact H1|].
  destruct (C17_history 0 Rplus [a] _ e2 R_laws Va Oc) as (c & Rc & Cc & _); [rewrite (sf_size bins a eq_refl); exact H2|].
  assert (n = sd_n s) by congruence. assert (c = sd_s s) by congruence. subst n c. clear Rn Rc.
  pose proof (frames_rn (resolve None h) []) as Fn. pose proof (frames_rs (resolve None h) []) as Fs. cbn [map] in Fn, Fs.
  assert (U : since_r (resolve None h) [] = used h) by (exact (since_resolve h [])). rewrite U in Fn, Fs.
  split; [destruct (omap_nth _ _ _ 0 0%nat 0 Io) as [L _]; rewrite L, seq_length; reflexivity|]. intros i Hi.
  destruct (omap_nth _ _ _ i 0%nat 0 Io) as [_ N]. rewrite seq_length, seq_nth in N by lia. cbn [Nat.add] in N. specialize (N Hi).
  destruct (sf_cells bins a eq_refl i Hi) as [IS RM]. specialize (Cn _ IS). specialize (Cc _ IS). rewrite RM in Cn, Cc. rewrite Cn, Cc, Fn, Fs in N.
  unfold sf_frame_n, sf_frame_s in N. unfold a in N.
  rewrite (weights_sf bins k_max k_min (fun _ _ => u32 1)) in N by exact Hi. rewrite (weights_sf bins k_max k_min sf_value) in N by exact Hi.
  rewrite u32_sum_mod, units_count, sum_of_R, Z.mod_small in N by (split; [lia|apply Hn]). rewrite lsum_map in N. injection N as N.
  set (l := hits bins k_max k_min i (used h)) in *.
  assert (TOT : forall fk, List.In fk l -> sf_value (fst fk) (snd fk) = S_at fk).
  { intros [f k] H. apply filter_In in H as [H _]. apply in_flat_map in H as ([g ks] & Hg & H). apply in_map_iff in H as (k' & E & _). injection E as <- <-. cbn [fst snd].
    apply value_spec. assert (Hf : List.In g (sf_since h [])) by (rewrite <- (with_fst (sf_since h []) None); apply (in_map fst _ _ Hg)).
    apply (proj1 (Forall_forall _ _) (since_total bins h None [] Hh0 (Forall_nil _)) g Hf). }
  rewrite (lsum_ext _ S_at) in N by exact TOT. rewrite <- N. split.
  - intros ->. reflexivity.
  - intros NE. destruct (Z.eqb_spec (Z.of_nat (length l)) 0) as [Z0|Z0]; [destruct l; [congruence|simpl in Z0; lia]|]. unfold mean_over. rewrite <- INR_IZR_INZ. reflexivity.
Qed.
Print Assumptions C66_direct.
Definition ex_frame : sf_in := SfIn (mk_box 1 1 1 0 0 0 false) [v0] None [v0] [(0%nat, 0%nat)].
Example C66_direct_ex : exists s0, sfd_make 1 5 0 0 = Some s0 /\ sfd_ok 1 None ([SfCompute true ex_frame] ++ [SfRead [(0%nat, 0%nat)] [(0%nat, 0%nat)]]) /\ hits 1 5 0 0 (used [SfCompute true ex_frame]) = [(ex_frame, v0)] /\
  S_at (ex_frame, v0) = 1.
Proof.
  assert (G : sfd_make 1 5 0 0 <> None) by (apply C66_direct_constructor; split; [lia|lra]). destruct (sfd_make 1 5 0 0) as [s0|]; [|congruence]. exists s0. split; [reflexivity|].
  assert (E : execution 0 1 [(0%nat, 0%nat)]) by (split; [apply Permutation_refl|intros i j H; simpl in H; lia] || apply (sequential_execution 0 1)).
  split; [cbn; repeat split; auto|]. split.
  - cbn. unfold in_bin, sf_edge. cbn. assert (Z : norm v0 = 0) by (unfold norm, dot; simpl; replace (0 * 0 + 0 * 0 + 0 * 0) with 0 by ring; apply sqrt_0). rewrite Z, (proj2 (Rleb_true _ _)), (proj2 (Rltb_true _ _)); [reflexivity|lra|lra].
  - unfold S_at, S_re, pair_phase, dot; simpl. replace (0 * (0 - 0) + 0 * (0 - 0) + 0 * (0 - 0)) with 0 by ring. rewrite cos_0. field.
Qed.

(** * k_points and min_valid_k *)
Lemma since_snoc h o : forall acc, sf_since (h ++ [o]) acc = match o with SfCompute true f => [f] | SfCompute false f => sf_since h acc ++ [f] | SfRead _ _ => sf_since h acc end.
Proof. induction h as [|[[|] g|e1 e2] h IH]; intros acc; simpl; auto. Qed.
Lemma read_keeps s e1 e2 s' : sfd_read s e1 e2 = Some s' -> sprev s' = sprev s /\ sd_min s' = sd_min s.
Proof.
  unfold sfd_read. destruct (bhc_reduce _); [|intros H; injection H as <-; auto]. destruct (bhc_read _ _ (sd_n s) _); [|discriminate]. destruct (bhc_read _ _ (sd_s s) _); [|discriminate]. destruct (omap _ _); [|discriminate]. intros H; injection H as <-. auto.
Qed.
Lemma run_keeps s0 : sprev s0 = None -> sd_min s0 = None -> forall h s, sfd_run s0 h = Some s ->
  sprev s = end_prev (sf_since h []) /\ sd_min s = fold_left (fun o f => omin o (TWO_PI / min_length (si_box f))) (sf_since h []) None.
Proof.
  intros P0 M0. induction h as [|o h IH] using rev_ind; intros s R; [injection R as <-; auto|].
  unfold sfd_run in R. rewrite ofold_app in R. fold (sfd_run s0 h) in R. destruct (sfd_run s0 h) as [s1|] eqn:R1; [|discriminate]. destruct (IH s1 eq_refl) as [A B]. rewrite since_snoc.
  cbn [ofold] in R. destruct o as [r f|e1 e2]; cbn [sfd_step] in R.
  - injection R as <-. unfold sfd_compute, sfd_accumulate, sprev at 1. cbn [sd_box sd_k sd_min]. rewrite pick_state. fold (sprev (if r then sfd_reset s1 else s1)). destruct r.
    + split; reflexivity.
    + rewrite end_snoc, A, B, fold_left_app. auto.
  - destruct (sfd_read s1 e1 e2) as [s2|] eqn:E; [|discriminate]. injection R as <-. apply read_keeps in E as [-> ->]. auto.
Qed.
Lemma omin_fold (g : sf_in -> R) fs : forall x, exists y, fold_left (fun o f => omin o (g f)) fs (Some x) = Some y /\ is_min y (x :: map g fs).
Proof.
  induction fs as [|f fs IH]; intros x; [exists x; split; [reflexivity|]; split; [left; reflexivity|intros y [<-|[]]; lra]|]. cbn [fold_left omin map].
  destruct (IH (Rmin x (g f))) as (y & E & [I M]). exists y. split; [exact E|]. split.
  - destruct I as [<-|I]; [unfold Rmin; destruct (Rle_dec _ _); simpl; auto|simpl; auto].
  - intros z Hz. assert (L := M _ (or_introl eq_refl)). destruct Hz as [<-|[<-|Hz]]; [|  |apply M; right; exact Hz]; eapply Rle_trans; [exact L|apply Rmin_l|exact L|apply Rmin_r].
Qed.
Lemma min_length_eq b : min_length b = box_length b.
Proof. unfold min_length, box_length. destruct (b_2d b); [reflexivity|]. apply Rmin_assoc. Qed.
(** min_valid_k is the smallest over the frames since the last reset of 2 pi / L, with L the smallest box length; k_points are the wave
    vectors used for the last frame. *)
Theorem C66_direct_min_valid_k bins k_max k_min num s0 h s :
  (0 <= bins)%Z -> sfd_make bins k_max k_min num = Some s0 -> sfd_run s0 h = Some s ->
  (sf_since h [] = [] -> sd_min s = None) /\
  (sf_since h [] <> [] -> exists x, sd_min s = Some x /\ is_min x (map (fun f => 2 * PI / box_length (si_box f)) (sf_since h []))) /\
  (forall l f ks, used h = l ++ [(f, ks)] -> sd_k s = ks).
Proof.
  intros Hb Hm R. destruct (make_state _ _ _ _ _ Hb Hm) as (_ & _ & E0). destruct (run_keeps s0) with (h := h) (s := s) as [A B]; auto; try (rewrite E0; reflexivity). split; [intros E; rewrite B, E; reflexivity|]. split.
  - intros NE. rewrite B. destruct (sf_since h []) as [|f fs]; [congruence|]. cbn [fold_left omin]. destruct (omin_fold (fun f => TWO_PI / min_length (si_box f)) fs (TWO_PI / min_length (si_box f))) as (y & E & M). exists y. split; [exact E|].
    cbn [map]. rewrite <- min_length_eq. rewrite (map_ext _ (fun f => TWO_PI / min_length (si_box f))) by (intros; rewrite min_length_eq; reflexivity). exact M.
  - intros l f ks E. unfold end_prev in A. unfold used in E. rewrite E, rev_unit in A. unfold sprev in A. destruct (sd_box s); [|discriminate]. congruence.
Qed.
Print Assumptions C66_direct_min_valid_k.
Example C66_direct_min_valid_k_ex : is_min (2 * PI / 1) (map (fun f => 2 * PI / box_length (si_box f)) (sf_since [SfCompute false ex_frame; SfCompute true ex_frame] [])).
Proof. cbn. unfold box_length; simpl. rewrite (Rmin_left 1 1) by lra. rewrite (Rmin_left 1 1) by lra. split; [left; reflexivity|intros y [<-|[]]; lra]. Qed.

(** * Which wave vectors are sampled *)
(** Whatever the casts do with values out of range and whichever vectors are pruned: every vector sampled is a reciprocal lattice vector (with
    non-negative coefficients), has length between k_min and k_max, and none occurs twice. *)
Theorem C66_kpoints cast b k_max k_min num ks : nonsingular b -> 0 <= k_min < k_max -> sampled cast b k_max k_min num ks ->
  NoDup ks /\ forall k, In k ks -> in_octant b k /\ reciprocal b k /\ k_min <= norm k <= k_max.
Proof.
  intros N K (keep & P). split; [apply (Permutation_NoDup (Permutation_sym P)); apply grid_nodup; exact N|]. intros k I. apply (Permutation_in _ P) in I. destruct (grid_in _ _ _ _ _ _ _ N I) as (O & L & U).
  split; [exact O|]. split; [apply octant_reciprocal; exact O|]. split; [apply norm_ge; [lra|exact L]|apply norm_le; [lra|exact U]].
Qed.
(** In an orthorhombic box without pruning nothing is missed: exactly the reciprocal vectors of the octant with k_min <= |k| < k_max. This
    needs casts of not-a-number to give zero and numbers of vectors that fit into 32 bits. *)
Theorem C66_kpoints_orthorhombic cast b k_max k_min ks : cast_ok cast -> nan_to_zero cast -> BoxSpec.positive b -> untilted b -> 0 <= k_min < k_max ->
  (forall L, In L [vx (b_L b); vy (b_L b); if b_2d b then 0 else vz (b_L b)] -> k_max * L <= 2 * PI * (2 ^ 32 - 1)) ->
  sampled cast b k_max k_min 0 ks -> NoDup ks /\ forall k, In k ks <-> in_octant b k /\ k_min <= norm k < k_max.
Proof.
  intros CO NZ B U K F S. assert (N : nonsingular b) by apply B. split; [apply (C66_kpoints cast b k_max k_min 0 ks N K S)|]. destruct S as (keep & P). intros k.
  rewrite <- (grid_complete cast keep b k_max k_min k CO NZ B U ltac:(lra)). { split; apply Permutation_in; [exact P|apply Permutation_sym; exact P]. }
  unfold fits, TWO_PI. split; [apply F; simpl; auto|]. split; [apply F; simpl; auto|]. intros D. apply F. rewrite D. simpl; auto.
Qed.
Print Assumptions C66_kpoints_orthorhombic.
Definition unit_cube : box := mk_box 1 1 1 0 0 0 false.
Definition zero_cast (o : option Z) : nat := match o with Some z => Z.to_nat z | None => 0%nat end.
Lemma zero_cast_ok : cast_ok zero_cast /\ nan_to_zero zero_cast. Proof. split; [intros z _; reflexivity|reflexivity]. Qed.
Lemma unit_cube_ok : BoxSpec.positive unit_cube /\ untilted unit_cube.
Proof. split; [apply mk_box_positive; intros; lra|unfold untilted; simpl; auto]. Qed.
Example C66_kpoints_ex : 3 * PI * 1 <= 2 * PI * (2 ^ 32 - 1) /\ sampled zero_cast unit_cube (3 * PI) 0 0 (k_grid zero_cast (fun _ _ _ => true) unit_cube (3 * PI) 0 0) /\
  In (V3 (2 * PI) 0 0) (k_grid zero_cast (fun _ _ _ => true) unit_cube (3 * PI) 0 0).
Proof.
  assert (P := PI_RGT_0). destruct zero_cast_ok as [A B]. destruct unit_cube_ok as [C D].
  assert (F : 3 * PI * 1 <= 2 * PI * (2 ^ 32 - 1)) by (simpl; nra). split; [exact F|].
  assert (S : sampled zero_cast unit_cube (3 * PI) 0 0 (k_grid zero_cast (fun _ _ _ => true) unit_cube (3 * PI) 0 0)) by (eexists; apply Permutation_refl). split; [exact S|].
  destruct (C66_kpoints_orthorhombic zero_cast unit_cube (3 * PI) 0 _ A B C D (conj (Rle_refl 0) (ltac:(lra) : 0 < 3 * PI)) (ltac:(intros L [<-|[<-|[<-|[]]]]; simpl vx; simpl vy; simpl; simpl in F; lra)) S) as [_ G].
  apply G. split; [split; [exists 1%nat, 0%nat; unfold dot; simpl; split; ring|simpl; exists 0%nat; unfold dot; simpl; ring]|].
  unfold norm, dot; cbn [vx vy vz]. replace (2 * PI * (2 * PI) + 0 * 0 + 0 * 0) with ((2 * PI) * (2 * PI)) by ring. rewrite sqrt_square; lra.
Qed.

(** Without pruning every reciprocal vector (of the octant) in range should be used; in a tilted box some are missed, because the limits of the
    innermost loop are computed with the wrong sign of the linear coefficient: (0, 2 pi, 0) in the unit box with yz = 1. *)
Theorem C66_tilted_kpoints_missing_refuted : exists b k_max k_min k, BoxSpec.positive b /\ 0 <= k_min < k_max /\ in_octant b k /\ k_min < norm k < k_max /\
  forall cast ks, cast_ok cast -> nan_to_zero cast -> sampled cast b k_max k_min 0 ks -> ~ In k ks.
Proof.
  assert (P := PI_RGT_0). set (b := mk_box 1 1 1 0 0 1 false). assert (B : BoxSpec.positive b) by (apply mk_box_positive; intros; lra). assert (N : nonsingular b) by apply B.
  assert (NK : norm (V3 0 (2 * PI) 0) = 2 * PI). { unfold norm, dot; cbn [vx vy vz]. replace (0 * 0 + 2 * PI * (2 * PI) + 0 * 0) with ((2 * PI) * (2 * PI)) by ring. apply sqrt_square; lra. }
  exists b, (4 * PI), 0, (V3 0 (2 * PI) 0). split; [exact B|]. split; [lra|]. split; [|split; [rewrite NK; lra|]].
  - split; [exists 0%nat, 1%nat; unfold dot; simpl; split; ring|simpl; exists 1%nat; unfold dot; simpl; ring].
  - intros cast ks CO NZ (keep & Pm) I. apply (Permutation_in _ Pm) in I. rewrite grid_eq in I. cbn [b_2d b] in I. change (b_2d b) with false in I. cbv iota in I.
    apply in_flat_map in I as (m & _ & I). apply in_flat_map in I as (n & _ & I). apply in_line in I as (j & Hj & E & _).
    assert (RX : rx b = V3 TWO_PI 0 0). { unfold rx, recip. change (b_2d b) with false. cbv iota. rewrite lat0, lat1, lat2 by reflexivity. unfold a1, a2, a3, cross, dot; cbn [fst snd]; apply vec_eq; simpl; field. }
    assert (RY : ry b = V3 0 TWO_PI (- TWO_PI)). { unfold ry, recip. change (b_2d b) with false. cbv iota. rewrite lat0, lat1, lat2 by reflexivity. unfold a1, a2, a3, cross, dot; cbn [fst snd]; apply vec_eq; simpl; field. }
    assert (RZ : rz b = V3 0 0 TWO_PI). { unfold rz, recip. change (b_2d b) with false. cbv iota. rewrite lat0, lat1, lat2 by reflexivity. unfold a1, a2, a3, cross, dot; cbn [fst snd]; apply vec_eq; simpl; field. }
    rewrite RX, RY, RZ in Hj, E. unfold vadd, vscale in E; cbn [vx vy vz] in E. injection E as E1 E2 E3. unfold TWO_PI in E1, E2, E3.
    assert (M : m = 0%nat) by (apply INR_eq; simpl; nra). assert (Nn : n = 1%nat) by (apply INR_eq; simpl; nra). subst m n. assert (J : j = 1%nat) by (apply INR_eq; simpl in E3 |- *; nra). subst j.
    clear E1 E2 E3. set (base := vadd _ _) in Hj. assert (EB : base = V3 0 TWO_PI (- TWO_PI)) by (unfold base; apply vec_eq; simpl; ring). rewrite EB in Hj. clear base EB.
    unfold quad, dot in Hj; cbn [vx vy vz fst snd] in Hj. assert (T := two_pi_pos). assert (T4 : 4 * PI = 2 * TWO_PI) by (unfold TWO_PI; ring). rewrite T4 in Hj.
    set (h := _ / (2 * _)) in Hj. assert (EH : h = 1) by (unfold h; field; lra). clearbody h. subst h.
    set (d := 1 * 1 - (_ - 2 * TWO_PI * _) / _) in Hj. assert (ED : d = 3) by (unfold d; field; lra). clearbody d. subst d.
    destruct (Rltb_spec 3 0) as [A|_]; [lra|]. cbn [option_map] in Hj.
    assert (C : Zceil (- (1) + sqrt 3) = 1%Z).
    { apply Zceil_imp. assert (S3 := sqrt_sqrt 3 ltac:(lra)). assert (S0 := sqrt_pos 3). simpl. split; nra. }
    rewrite C, (CO 1%Z ltac:(lia)) in Hj. change (Z.to_nat 1) with 1%nat in Hj. lia.
Qed.
Print Assumptions C66_tilted_kpoints_missing_refuted.

(** The lower limit of the innermost loop casts a not-a-number to an unsigned integer whenever the outer vectors alone exceed k_min, also with the
    default k_min = 0. C++ leaves the result undefined, and the set of vectors depends on it. *)
Theorem C66_undefined_cast_refuted : exists b k_max k cast1 cast2, BoxSpec.positive b /\ untilted b /\ 0 < k_max /\ cast_ok cast1 /\ cast_ok cast2 /\
  (forall ks, sampled cast1 b k_max 0 0 ks -> In k ks) /\ (forall ks, sampled cast2 b k_max 0 0 ks -> ~ In k ks).
Proof.
  assert (P := PI_RGT_0). destruct zero_cast_ok as [A B]. destruct unit_cube_ok as [C D].
  assert (F : 3 * PI * 1 <= 2 * PI * (2 ^ 32 - 1)) by (simpl; nra).
  exists unit_cube, (3 * PI), (V3 (2 * PI) 0 0), zero_cast, (fun o => match o with Some z => Z.to_nat z | None => 7%nat end). split; [exact C|]. split; [exact D|]. split; [lra|]. split; [exact A|]. split; [intros z _; reflexivity|]. split.
  - intros ks S. destruct (C66_kpoints_orthorhombic zero_cast unit_cube (3 * PI) 0 ks A B C D (conj (Rle_refl 0) (ltac:(lra) : 0 < 3 * PI)) (ltac:(intros L [<-|[<-|[<-|[]]]]; simpl vx; simpl vy; simpl; simpl in F; lra)) S) as [_ G].
    apply G. split; [split; [exists 1%nat, 0%nat; unfold dot; simpl; split; ring|simpl; exists 0%nat; unfold dot; simpl; ring]|].
    unfold norm, dot; cbn [vx vy vz]. replace (2 * PI * (2 * PI) + 0 * 0 + 0 * 0) with ((2 * PI) * (2 * PI)) by ring. rewrite sqrt_square; lra.
  - intros ks (keep & Pm) I. apply (Permutation_in _ Pm) in I. rewrite grid_eq in I. change (b_2d unit_cube) with false in I. cbv iota in I.
    apply in_flat_map in I as (m & _ & I). apply in_flat_map in I as (n & _ & I). apply in_line in I as (j & Hj & E & _).
    destruct (recip_untilted unit_cube (proj1 C) D) as (E1 & E2 & E3). specialize (E3 eq_refl). change (vx (b_L unit_cube)) with 1 in E1. change (vy (b_L unit_cube)) with 1 in E2. change (vz (b_L unit_cube)) with 1 in E3.
    assert (RX : rx unit_cube = V3 TWO_PI 0 0) by (unfold rx; rewrite E1; apply vec_eq; simpl; field).
    assert (RY : ry unit_cube = V3 0 TWO_PI 0) by (unfold ry; rewrite E2; apply vec_eq; simpl; field).
    assert (RZ : rz unit_cube = V3 0 0 TWO_PI) by (unfold rz; rewrite E3; apply vec_eq; simpl; field).
    rewrite RX, RY, RZ in Hj, E. unfold vadd, vscale in E; cbn [vx vy vz] in E. injection E as F1 F2 F3. unfold TWO_PI in F1, F2, F3.
    assert (M : m = 1%nat) by (apply INR_eq; simpl; nra). assert (Nn : n = 0%nat) by (apply INR_eq; simpl; nra). assert (J : j = 0%nat) by (apply INR_eq; simpl; nra). subst m n j. clear F1 F2 F3.
    set (base := vadd _ _) in Hj. assert (EB : base = V3 TWO_PI 0 0) by (unfold base; apply vec_eq; simpl; ring). rewrite EB in Hj. clear base EB.
    destruct Hj as [Hj _]. revert Hj. unfold quad, dot; cbn [vx vy vz fst snd]. assert (T := two_pi_pos).
    set (d := _ - _ / _). assert (ED : d = -1) by (unfold d; field; lra). rewrite ED. destruct (Rltb_spec (-1) 0) as [_|Q]; [|lra]. cbn [option_map]. lia.
Qed.
Print Assumptions C66_undefined_cast_refuted.

(** * S(k) *)
Lemma S_re_parts n P Q k : S_re n P Q k = (lsum (fun r => cos (dot k r)) P * lsum (fun r => cos (dot k r)) Q + lsum (fun r => sin (dot k r)) P * lsum (fun r => sin (dot k r)) Q) / INR n.
Proof. unfold S_re. rewrite re_sum. reflexivity. Qed.
Lemma S_im_parts n P Q k : S_im n P Q k = (lsum (fun r => cos (dot k r)) P * lsum (fun r => sin (dot k r)) Q - lsum (fun r => sin (dot k r)) P * lsum (fun r => cos (dot k r)) Q) / INR n.
Proof. unfold S_im. rewrite im_sum. reflexivity. Qed.
(** The total structure factor (query points are the points): real, between 0 and the number of points, and the number of points at k = 0. *)
Theorem C66_total P k : P <> [] -> S_im (length P) P P k = 0 /\ 0 <= S_re (length P) P P k <= INR (length P) /\ S_re (length P) P P v0 = INR (length P).
Proof.
  intros NE. assert (N : 0 < INR (length P)) by (apply lt_0_INR; destruct P; [congruence|simpl; lia]). rewrite S_im_parts, !S_re_parts. split; [field; lra|]. split; [split|].
  - apply Rmult_le_pos; [nra|left; apply Rinv_0_lt_compat; exact N].
  - rewrite <- S_re_parts. unfold S_re. apply (Rmult_le_reg_r (INR (length P))); [exact N|]. unfold Rdiv. rewrite Rmult_assoc, Rinv_l, Rmult_1_r by lra.
    apply Rle_trans with (lsum (fun _ : vec3 => lsum (fun _ : vec3 => 1) P) P).
    + apply lsum_le. intros p _. apply lsum_le. intros q _. apply COS_bound.
    + rewrite !lsum_const. right. ring.
  - assert (D : forall r, dot v0 r = 0) by (intros; unfold dot; simpl; ring).
    rewrite (lsum_ext (fun r => cos (dot v0 r)) (fun _ => 1)) by (intros; rewrite D; apply cos_0). rewrite (lsum_ext (fun r => sin (dot v0 r)) (fun _ => 0)) by (intros; rewrite D; apply sin_0). rewrite !lsum_const. field. lra.
Qed.
Print Assumptions C66_total.
(** Partial structure factors: symmetric, bounded by the total ones of the two species (Cauchy-Schwarz), and those over all ordered pairs of
    species add up to the total one, for every partition into any number of species. *)
Theorem C66_cross_factors n P Q k : (0 < n)%nat -> S_re n P Q k = S_re n Q P k /\ S_im n P Q k = - S_im n Q P k /\ S_re n P Q k * S_re n P Q k <= S_re n P P k * S_re n Q Q k.
Proof.
  intros Hn. assert (N : 0 < INR n) by (apply lt_0_INR; exact Hn). rewrite !S_re_parts, !S_im_parts. set (a := lsum _ P). set (b := lsum _ Q). set (c := lsum _ P). set (d := lsum _ Q). split; [field; lra|]. split; [field; lra|].
  assert (I : 0 < / INR n) by (apply Rinv_0_lt_compat; exact N). unfold Rdiv. set (i := / INR n) in *.
  replace ((a * b + c * d) * i * ((a * b + c * d) * i)) with ((a * b + c * d) * (a * b + c * d) * (i * i)) by ring. replace ((a * a + c * c) * i * ((b * b + d * d) * i)) with ((a * a + c * c) * (b * b + d * d) * (i * i)) by ring.
  apply Rmult_le_compat_r; [nra|]. assert (G := Rle_0_sqr (a * d - b * c)). unfold Rsqr in G. lra.
Qed.
Theorem C66_partials_sum n (species : list (list vec3)) k :
  S_re n (concat species) (concat species) k = lsum (fun A => lsum (fun B => S_re n A B k) species) species.
Proof.
  assert (L : forall (f : vec3 -> R) l, lsum f (concat l) = lsum (fun A => lsum f A) l) by (intros f; induction l as [|A l IH]; simpl; [reflexivity|]; rewrite lsum_app, IH; reflexivity).
  unfold S_re. rewrite L. unfold Rdiv. rewrite Rmult_comm, <- lsum_scale. apply lsum_ext. intros A _. rewrite <- lsum_scale. rewrite (lsum_ext _ (fun x => lsum (fun B => / INR n * lsum (fun q => fst (pair_phase k x q)) B) species)).
  - rewrite lsum_swap. apply lsum_ext. intros B _. rewrite lsum_scale. ring.
  - intros p _. rewrite L, <- lsum_scale. reflexivity.
Qed.
Print Assumptions C66_partials_sum.
(** The documented Faber-Ziman relation S - 1 = sum of (N_a N_b / N^2) (S_ab - 1) does not hold for what is computed. *)
Theorem C66_faber_ziman_refuted : exists A B k, let N := length (A ++ B) in let part X Y := INR (length X) * INR (length Y) / (INR N * INR N) * (S_re N X Y k - 1) in
  S_re N (A ++ B) (A ++ B) k - 1 <> part A A + part A B + part B A + part B B.
Proof.
  exists [v0], [v0], v0. cbv zeta. simpl. unfold S_re, pair_phase, dot; simpl. replace (0 * (0 - 0) + 0 * (0 - 0) + 0 * (0 - 0)) with 0 by ring. rewrite cos_0. lra.
Qed.

(** Moving every particle by its own lattice vector does not change S(k) at a reciprocal k (so positions may be given unwrapped); moving the
    whole system rigidly does not change it at any k. *)
Lemma trig_period x n : cos (x + 2 * PI * IZR n) = cos x /\ sin (x + 2 * PI * IZR n) = sin x.
Proof.
  assert (G : forall m, cos (x + 2 * PI * INR m) = cos x /\ sin (x + 2 * PI * INR m) = sin x) by (intros m; replace (2 * PI * INR m) with (2 * INR m * PI) by ring; split; [apply cos_period|apply sin_period]).
  assert (G' : forall y m, cos (y - 2 * PI * INR m) = cos y /\ sin (y - 2 * PI * INR m) = sin y).
  { intros y m. split; [rewrite <- (cos_period (y - 2 * PI * INR m) m)|rewrite <- (sin_period (y - 2 * PI * INR m) m)]; f_equal; ring. }
  destruct (Z_le_gt_dec 0 n) as [H|H].
  - rewrite <- (Z2Nat.id n H), <- INR_IZR_INZ. apply G.
  - assert (E : IZR n = - INR (Z.to_nat (- n))) by (rewrite INR_IZR_INZ, Z2Nat.id, opp_IZR by lia; ring). rewrite E. replace (x + 2 * PI * - INR (Z.to_nat (- n))) with (x - 2 * PI * INR (Z.to_nat (- n))) by ring. apply G'.
Qed.
Lemma dot_image b k p' p : reciprocal b k -> lattice_image b p' p -> exists n : Z, dot k p' = dot k p + 2 * PI * IZR n.
Proof.
  intros ((m & n & E1 & E2) & E3) (i & j & l & L & ->).
  assert (D : dot k (vadd p (BoxSpec.shift b i j l)) = dot k p + IZR i * dot k (a1 b) + IZR j * dot k (a2 b) + IZR l * dot k (a3 b)) by (unfold BoxSpec.shift, comb, dot; simpl; ring).
  rewrite D, E1, E2. destruct (b_2d b) eqn:T.
  - rewrite (L eq_refl). exists (i * m + j * n)%Z. rewrite plus_IZR, !mult_IZR. ring.
  - destruct E3 as [q E3]. rewrite E3. exists (i * m + j * n + l * q)%Z. rewrite !plus_IZR, !mult_IZR. ring.
Qed.
Theorem C66_lattice_images b n P Q P' Q' k : reciprocal b k -> Forall2 (lattice_image b) P' P -> Forall2 (lattice_image b) Q' Q -> S_re n P' Q' k = S_re n P Q k.
Proof.
  intros R. rewrite !S_re_parts. assert (G : forall l' l, Forall2 (lattice_image b) l' l -> lsum (fun r => cos (dot k r)) l' = lsum (fun r => cos (dot k r)) l /\ lsum (fun r => sin (dot k r)) l' = lsum (fun r => sin (dot k r)) l).
  { induction 1 as [|p' p l' l H _ [IH1 IH2]]; [auto|]. destruct (dot_image b k p' p R H) as [m E]. simpl. rewrite E, IH1, IH2. destruct (trig_period (dot k p) m) as [-> ->]. auto. }
  intros HP HQ. destruct (G _ _ HP) as [-> ->]. destruct (G _ _ HQ) as [-> ->]. reflexivity.
Qed.
Theorem C66_translation n P Q k t : S_re n (translate t P) (translate t Q) k = S_re n P Q k /\ S_im n (translate t P) (translate t Q) k = S_im n P Q k.
Proof.
  assert (G : forall p q, pair_phase k (vadd p t) (vadd q t) = pair_phase k p q) by (intros p q; unfold pair_phase; replace (vsub (vadd q t) (vadd p t)) with (vsub q p) by (apply vec_eq; simpl; ring); reflexivity).
  unfold S_re, S_im, translate. rewrite !lsum_map. split; f_equal; apply lsum_ext; intros p _; rewrite lsum_map; apply lsum_ext; intros q _; rewrite G; reflexivity.
Qed.
Print Assumptions C66_lattice_images.
(** S(k) does not depend on the order of the points. *)
Theorem C66_order n P P' Q Q' k : Permutation P P' -> Permutation Q Q' -> S_re n P Q k = S_re n P' Q' k.
Proof. intros H H'. rewrite !S_re_parts. rewrite !(lsum_perm _ P P' H), !(lsum_perm _ Q Q' H'). reflexivity. Qed.
Example C66_lattice_ex : reciprocal unit_cube (V3 (2 * PI) 0 0) /\ Forall2 (lattice_image unit_cube) [V3 3 0 0] [v0].
Proof.
  split; [split; [exists 1%Z, 0%Z; unfold dot; simpl; split; ring|simpl; exists 0%Z; unfold dot; simpl; ring]|]. constructor; [|constructor]. exists 3%Z, 0%Z, 0%Z. split; [congruence|]. apply vec_eq; unfold BoxSpec.shift, comb; simpl; ring.
Qed.

(** Documented: an average over all wave vectors of the same magnitude. Only one octant is used, and the other ones have other values: two points
    in the unit cube, |k| between 1.2 and 1.6 times 2 pi. *)
Definition kv (m n l : Z) : vec3 := V3 (2 * PI * IZR m) (2 * PI * IZR n) (2 * PI * IZR l).
Lemma kv_dot m n l : dot (kv m n l) (kv m n l) = 4 * (PI * PI) * IZR (m * m + n * n + l * l).
Proof. unfold kv, dot; cbn [vx vy vz]. rewrite !plus_IZR, !mult_IZR. ring. Qed.
Lemma reciprocal_cube k : reciprocal unit_cube k <-> exists m n l, k = kv m n l.
Proof.
  split.
  - intros ((m & n & E1 & E2) & E3). simpl in E3. destruct E3 as [l E3]. exists m, n, l. unfold dot in *; simpl in *. apply vec_eq; simpl; lra.
  - intros (m & n & l & ->). split; [exists m, n; unfold dot; simpl; split; ring|simpl; exists l; unfold dot; simpl; ring].
Qed.
Lemma octant_cube k : in_octant unit_cube k <-> exists m n l : nat, k = kv (Z.of_nat m) (Z.of_nat n) (Z.of_nat l).
Proof.
  split.
  - intros ((m & n & E1 & E2) & E3). simpl in E3. destruct E3 as [l E3]. exists m, n, l. unfold kv. rewrite <- !INR_IZR_INZ. unfold dot in *; simpl in *. apply vec_eq; simpl; lra.
  - intros (m & n & l & ->). unfold kv. rewrite <- !INR_IZR_INZ. split; [exists m, n; unfold dot; simpl; split; ring|simpl; exists l; unfold dot; simpl; ring].
Qed.
Lemma shell_two m n l : 2 * PI * (6 / 5) <= norm (kv m n l) < 2 * PI * (8 / 5) <-> (m * m + n * n + l * l = 2)%Z.
Proof.
  assert (P := PI_RGT_0). assert (Q : 0 < PI * PI) by nra. rewrite <- norm_ge, <- norm_lt by lra. rewrite kv_dot. set (z := (m * m + n * n + l * l)%Z). split.
  - intros [A B]. assert (A' : 1 < IZR z) by (apply (Rmult_lt_reg_l (4 * (PI * PI))); lra). assert (B' : IZR z < 3) by (apply (Rmult_lt_reg_l (4 * (PI * PI))); lra). apply lt_IZR in A'. apply lt_IZR in B'. lia.
  - intros ->. lra.
Qed.
Lemma kv_inj m n l m' n' l' : kv m n l = kv m' n' l' -> m = m' /\ n = n' /\ l = l'.
Proof. intros E. assert (P := PI_RGT_0). unfold kv in E. injection E as A B C. repeat split; apply eq_IZR; apply (Rmult_eq_reg_l (2 * PI)); lra. Qed.
Definition octant_shell : list vec3 := [kv 1 1 0; kv 1 0 1; kv 0 1 1].
Definition full_shell : list vec3 :=
  [kv 1 1 0; kv (-1) (-1) 0; kv 1 (-1) 0; kv (-1) 1 0; kv 1 0 1; kv (-1) 0 (-1); kv 1 0 (-1); kv (-1) 0 1; kv 0 1 1; kv 0 (-1) (-1); kv 0 1 (-1); kv 0 (-1) 1].
Lemma full_shell_ok : NoDup full_shell /\ forall k, In k full_shell <-> reciprocal unit_cube k /\ 2 * PI * (6 / 5) <= norm k < 2 * PI * (8 / 5).
Proof.
  split.
  - unfold full_shell. repeat constructor; simpl; intros H; repeat (destruct H as [H|H]); auto; apply kv_inj in H; lia.
  - intros k. rewrite reciprocal_cube. split.
    + intros H. assert (G : exists m n l, k = kv m n l /\ (m * m + n * n + l * l = 2)%Z) by (repeat (destruct H as [<-|H]; [do 3 eexists; split; [reflexivity|reflexivity]|]); destruct H).
      destruct G as (m & n & l & -> & E). split; [eauto|]. apply shell_two. exact E.
    + intros ((m & n & l & ->) & H). apply shell_two in H. assert (m = -1 \/ m = 0 \/ m = 1)%Z by nia. assert (n = -1 \/ n = 0 \/ n = 1)%Z by nia. assert (l = -1 \/ l = 0 \/ l = 1)%Z by nia.
      destruct H0 as [-> | [-> | -> ]], H1 as [-> | [-> | -> ]], H2 as [-> | [-> | -> ]]; simpl in H; try discriminate H; simpl; auto 15.
Qed.
Lemma octant_shell_ok : NoDup octant_shell /\ forall k, In k octant_shell <-> in_octant unit_cube k /\ 2 * PI * (6 / 5) <= norm k < 2 * PI * (8 / 5).
Proof.
  split.
  - unfold octant_shell. repeat constructor; simpl; intros H; repeat (destruct H as [H|H]); auto; apply kv_inj in H; lia.
  - intros k. rewrite octant_cube. split.
    + intros [<-|[<-|[<-|[]]]].
      * split; [exists 1%nat, 1%nat, 0%nat; reflexivity|apply shell_two; reflexivity].
      * split; [exists 1%nat, 0%nat, 1%nat; reflexivity|apply shell_two; reflexivity].
      * split; [exists 0%nat, 1%nat, 1%nat; reflexivity|apply shell_two; reflexivity].
    + intros ((m & n & l & ->) & H). apply shell_two in H. assert (Z.of_nat m = 0 \/ Z.of_nat m = 1)%Z by nia. assert (Z.of_nat n = 0 \/ Z.of_nat n = 1)%Z by nia. assert (Z.of_nat l = 0 \/ Z.of_nat l = 1)%Z by nia.
      destruct H0 as [E0|E0], H1 as [E1|E1], H2 as [E2|E2]; rewrite E0, E1, E2 in *; simpl in H; try discriminate H; simpl; auto.
Qed.
Lemma S_two k : S_re 2 [v0; V3 (1 / 4) (1 / 4) 0] [v0; V3 (1 / 4) (1 / 4) 0] k = 1 + cos (dot k (V3 (1 / 4) (1 / 4) 0)).
Proof.
  rewrite S_re_parts. simpl. assert (D : dot k v0 = 0) by (unfold dot; simpl; ring). rewrite D, cos_0, sin_0. set (x := dot k _). assert (T := sin2_cos2 x). unfold Rsqr in T. replace (sin x * sin x) with (1 - cos x * cos x) by lra.
  assert (E : (0 + (sin x + 0)) * (0 + (sin x + 0)) = 1 - cos x * cos x) by (rewrite <- T; ring). rewrite E. field.
Qed.
Theorem C66_all_directions_refuted : exists b P k_max k_min all,
  BoxSpec.positive b /\ untilted b /\ 0 <= k_min < k_max /\ NoDup all /\ (forall k, In k all <-> reciprocal b k /\ k_min <= norm k < k_max) /\
  forall cast ks, cast_ok cast -> nan_to_zero cast -> sampled cast b k_max k_min 0 ks ->
    mean_over (S_re (length P) P P) ks = 2 / 3 /\ mean_over (S_re (length P) P P) all = 1.
Proof.
  assert (P := PI_RGT_0). destruct unit_cube_ok as [C D]. exists unit_cube, [v0; V3 (1 / 4) (1 / 4) 0], (2 * PI * (8 / 5)), (2 * PI * (6 / 5)), full_shell.
  split; [exact C|]. split; [exact D|]. split; [lra|]. split; [apply full_shell_ok|]. split; [apply full_shell_ok|]. intros cast ks CO NZ S. cbn [length].
  assert (F : 2 * PI * (8 / 5) <= 2 * PI * (2 ^ 32 - 1)) by (apply Rmult_le_compat_l; [lra|simpl; lra]).
  destruct (C66_kpoints_orthorhombic cast unit_cube (2 * PI * (8 / 5)) (2 * PI * (6 / 5)) ks CO NZ C D ltac:(lra)) as [N I]; [|exact S|].
  { intros L [<-|[<-|[<-|[]]]]; [change (vx (b_L unit_cube)) with 1|change (vy (b_L unit_cube)) with 1|change (2 * PI * (8 / 5) * 1 <= 2 * PI * (2 ^ 32 - 1))]; lra. }
  assert (Pm : Permutation ks octant_shell). { apply NoDup_Permutation; [exact N|apply octant_shell_ok|]. intros k. rewrite I. symmetry. apply octant_shell_ok. }
  assert (V : forall m n l, S_re 2 [v0; V3 (1 / 4) (1 / 4) 0] [v0; V3 (1 / 4) (1 / 4) 0] (kv m n l) = 1 + cos (PI / 2 * (IZR m + IZR n))).
  { intros m n l. rewrite S_two. f_equal. f_equal. unfold kv, dot; simpl. field. }
  assert (c1 : cos (PI / 2 * 1) = 0) by (rewrite Rmult_1_r; apply cos_PI2). assert (cm1 : cos (PI / 2 * -1) = 0) by (replace (PI / 2 * -1) with (- (PI / 2)) by ring; rewrite cos_neg; apply cos_PI2).
  assert (c2 : cos (PI / 2 * 2) = -1) by (replace (PI / 2 * 2) with PI by field; apply cos_PI). assert (cm2 : cos (PI / 2 * -2) = -1) by (replace (PI / 2 * -2) with (- PI) by field; rewrite cos_neg; apply cos_PI).
  assert (c0 : cos (PI / 2 * 0) = 1) by (rewrite Rmult_0_r; apply cos_0).
  unfold mean_over. rewrite (Permutation_length Pm), (lsum_perm _ _ _ Pm). unfold octant_shell, full_shell. cbn [lsum length]. rewrite !V.
  replace (1 + 1) with 2 by ring. replace (-1 + -1) with (-2) by ring. replace (1 + -1) with 0 by ring. replace (-1 + 1) with 0 by ring. replace (1 + 0) with 1 by ring. replace (0 + 1) with 1 by ring. replace (-1 + 0) with (-1) by ring. replace (0 + -1) with (-1) by ring.
  rewrite c0, c1, cm1, c2, cm2. simpl. split; field.
Qed.
Print Assumptions C66_all_directions_refuted.
