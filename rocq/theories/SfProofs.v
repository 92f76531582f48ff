(** The Direct estimator over every call history. *)
From Verif Require Import HistProofs HistProofs2 HistProps ParProofs MatchEnvProofs CorrProps BoxSpec SfSpec.
From Coq Require Import Lra Lia Permutation.
Local Open Scope R_scope.

Lemma lsum_app {A} (f : A -> R) l l' : lsum f (l ++ l') = lsum f l + lsum f l'.
Proof. induction l; simpl; [ring|]. rewrite IHl. ring. Qed.
Lemma lsum_ext {A} (f g : A -> R) l : (forall x, In x l -> f x = g x) -> lsum f l = lsum g l.
Proof. induction l as [|x l IH]; simpl; intros H; auto. rewrite H, IH by auto. reflexivity. Qed.
Lemma lsum_map {A B} (f : B -> R) (g : A -> B) l : lsum f (map g l) = lsum (fun x => f (g x)) l.
Proof. induction l; simpl; auto. rewrite IHl. reflexivity. Qed.
Lemma lsum_scale {A} c (f : A -> R) l : lsum (fun x => c * f x) l = c * lsum f l.
Proof. induction l; simpl; [ring|]. rewrite IHl. ring. Qed.
Lemma lsum_plus {A} (f g : A -> R) l : lsum (fun x => f x + g x) l = lsum f l + lsum g l.
Proof. induction l; simpl; [ring|]. rewrite IHl. ring. Qed.
Lemma lsum_opp {A} (f : A -> R) l : lsum (fun x => - f x) l = - lsum f l.
Proof. induction l; simpl; [ring|]. rewrite IHl. ring. Qed.
Lemma lsum_swap {A B} (f : A -> B -> R) l l' : lsum (fun a => lsum (f a) l') l = lsum (fun b => lsum (fun a => f a b) l) l'.
Proof. induction l as [|x l IH]; simpl; [induction l'; simpl; lra|]. rewrite IH, lsum_plus. reflexivity. Qed.
Lemma lsum_perm {A} (f : A -> R) l l' : Permutation l l' -> lsum f l = lsum f l'.
Proof. induction 1; simpl; lra. Qed.
Lemma lsum_const {A} c (l : list A) : lsum (fun _ => c) l = INR (length l) * c.
Proof. induction l; simpl length; [simpl; ring|]. rewrite S_INR. simpl. rewrite IHl. ring. Qed.
Lemma lsum_le {A} (f g : A -> R) l : (forall x, In x l -> f x <= g x) -> lsum f l <= lsum g l.
Proof. induction l as [|x l IH]; simpl; intros H; [lra|]. assert (A1 := H x (or_introl eq_refl)). assert (A2 := IH (fun y Hy => H y (or_intror Hy))). lra. Qed.
Lemma fold_lsum {A} (f : A -> R) l : forall z, fold_left (fun a x => a + f x) l z = z + lsum f l.
Proof. induction l as [|x l IH]; intros z; simpl; [ring|]. rewrite IH. ring. Qed.
Lemma sum_of_R l : sum_of 0 Rplus l = lsum (fun x => x) l.
Proof. unfold sum_of. rewrite (fold_lsum (fun x => x)). ring. Qed.

(** * The amplitudes *)
Lemma F_sum k l : forall z, fold_left (fun F r => let alpha := dot k r in cadd F (cos alpha, sin alpha)) l z =
  (fst z + lsum (fun r => cos (dot k r)) l, snd z + lsum (fun r => sin (dot k r)) l).
Proof.
  induction l as [|r l IH]; intros z; simpl.
  - destruct z; simpl. f_equal; ring.
  - rewrite IH. unfold cadd; simpl. f_equal; ring.
Qed.
Lemma F_val pts n k : compute_F pts n k = (1 / sqrt (INR n) * lsum (fun r => cos (dot k r)) pts, 1 / sqrt (INR n) * lsum (fun r => sin (dot k r)) pts).
Proof. unfold compute_F. rewrite F_sum. unfold cscale, c0; cbn [fst snd]. f_equal; ring. Qed.
Lemma dot_vsub k q p : dot k (vsub q p) = dot k q - dot k p. Proof. unfold dot; simpl; ring. Qed.
Lemma re_sum P Q k : lsum (fun p => lsum (fun q => fst (pair_phase k p q)) Q) P =
  lsum (fun r => cos (dot k r)) P * lsum (fun r => cos (dot k r)) Q + lsum (fun r => sin (dot k r)) P * lsum (fun r => sin (dot k r)) Q.
Proof.
  rewrite (lsum_ext _ (fun p => lsum (fun r => cos (dot k r)) Q * cos (dot k p) + lsum (fun r => sin (dot k r)) Q * sin (dot k p))).
  - rewrite lsum_plus, !lsum_scale. ring.
  - intros p _. rewrite (Rmult_comm _ (cos _)), (Rmult_comm _ (sin _)), <- !lsum_scale, <- lsum_plus. apply lsum_ext. intros q _. unfold pair_phase. cbn [fst]. rewrite dot_vsub, cos_minus. ring.
Qed.
Lemma im_sum P Q k : lsum (fun p => lsum (fun q => snd (pair_phase k p q)) Q) P =
  lsum (fun r => cos (dot k r)) P * lsum (fun r => sin (dot k r)) Q - lsum (fun r => sin (dot k r)) P * lsum (fun r => cos (dot k r)) Q.
Proof.
  rewrite (lsum_ext _ (fun p => lsum (fun r => sin (dot k r)) Q * cos (dot k p) + lsum (fun r => cos (dot k r)) Q * - sin (dot k p))).
  - rewrite lsum_plus, !lsum_scale, lsum_opp. ring.
  - intros p _. rewrite (Rmult_comm _ (cos _)), (Rmult_comm _ (- sin _)), <- !lsum_scale, <- lsum_plus. apply lsum_ext. intros q _. unfold pair_phase. cbn [snd]. rewrite dot_vsub, sin_minus. ring.
Qed.
Lemma value_spec f k : (0 < si_total f)%nat -> sf_value f k = S_at (f, k).
Proof.
  intros H. unfold sf_value, S_at, S_re, compute_S. cbn [fst snd]. rewrite !F_val, re_sum. unfold cmul, cconj; cbn [fst snd].
  assert (N : 0 < INR (si_total f)) by (apply lt_0_INR; exact H). assert (S := sqrt_sqrt _ (Rlt_le _ _ N)). assert (P := sqrt_lt_R0 _ N).
  set (s := sqrt (INR (si_total f))) in *. rewrite <- S at 1. field. lra.
Qed.

(** * Histories *)
Definition pick (prev : option (box * list vec3)) (f : sf_in) : list vec3 :=
  match prev with Some (b, ks) => if box_eqb (si_box f) b then ks else si_ks f | None => si_ks f end.
Fixpoint resolve (prev : option (box * list vec3)) (h : list sf_op) : list (sf_op * list vec3) :=
  match h with
  | [] => []
  | SfCompute r f :: h => let ks := pick (if r then None else prev) f in (SfCompute r f, ks) :: resolve (Some (si_box f, ks)) h
  | SfRead a b :: h => (SfRead a b, []) :: resolve prev h
  end.
Fixpoint since_r (h : list (sf_op * list vec3)) (acc : list (sf_in * list vec3)) : list (sf_in * list vec3) :=
  match h with
  | [] => acc
  | (SfCompute true f, ks) :: h => since_r h [(f, ks)]
  | (SfCompute false f, ks) :: h => since_r h (acc ++ [(f, ks)])
  | (SfRead _ _, _) :: h => since_r h acc
  end.
Definition end_prev (fs : list sf_in) : option (box * list vec3) :=
  match rev (with_kpoints None fs) with (f, ks) :: _ => Some (si_box f, ks) | [] => None end.
Lemma with_snoc f : forall fs prev, with_kpoints prev (fs ++ [f]) = with_kpoints prev fs ++ [(f, pick (match rev (with_kpoints prev fs) with (g, ks) :: _ => Some (si_box g, ks) | [] => prev end) f)].
Proof.
  induction fs as [|g fs IH]; intros prev; [reflexivity|]. simpl. rewrite IH. simpl. f_equal. f_equal. f_equal. f_equal.
  destruct (rev (with_kpoints (Some (si_box g, _)) fs)) as [|[g' ks'] t]; reflexivity.
Qed.
Lemma end_snoc fs f : end_prev (fs ++ [f]) = Some (si_box f, pick (end_prev fs) f).
Proof. unfold end_prev. rewrite with_snoc, rev_unit. reflexivity. Qed.
Lemma since_resolve : forall h fs, since_r (resolve (end_prev fs) h) (with_kpoints None fs) = with_kpoints None (sf_since h fs).
Proof.
  induction h as [|[[|] f|a b] h IH]; intros fs; cbn [resolve since_r sf_since].
  - reflexivity.
  - rewrite <- (IH [f]). reflexivity.
  - rewrite <- IH, with_snoc, end_snoc. reflexivity.
  - apply IH.
Qed.
Definition rop_n (o : sf_op * list vec3) : hop U32 unit := match o with (SfCompute r f, ks) => Compute r (sf_frame_n ks f) | (SfRead e _, _) => Read e end.
Definition rop_s (o : sf_op * list vec3) : hop R unit := match o with (SfCompute r f, ks) => Compute r (sf_frame_s ks f) | (SfRead _ e, _) => Read e end.
Lemma frames_rn h : forall acc, frames_since (map rop_n h) (map (fun fk => sf_frame_n (snd fk) (fst fk)) acc) = map (fun fk => sf_frame_n (snd fk) (fst fk)) (since_r h acc).
Proof. induction h as [|[[[|] f|a b] ks] h IH]; intros acc; simpl; auto; [apply (IH [(f, ks)])|rewrite <- IH, map_app; reflexivity]. Qed.
Lemma frames_rs h : forall acc, frames_since (map rop_s h) (map (fun fk => sf_frame_s (snd fk) (fst fk)) acc) = map (fun fk => sf_frame_s (snd fk) (fst fk)) (since_r h acc).
Proof. induction h as [|[[[|] f|a b] ks] h IH]; intros acc; simpl; auto; [apply (IH [(f, ks)])|rewrite <- IH, map_app; reflexivity]. Qed.
Definition rok (bins : Z) (o : sf_op * list vec3) : Prop :=
  match o with (SfCompute r f, ks) => execution 0 (length ks) (si_ev f) | (SfRead e1 e2, _) => execution 0 (Z.to_nat bins) e1 /\ execution 0 (Z.to_nat bins) e2 end.
Lemma resolve_ok bins : forall h prev, sfd_ok bins prev h -> Forall (rok bins) (resolve prev h).
Proof.
  induction h as [|[r f|a b] h IH]; intros prev H; cbn [resolve]; constructor.
  - apply H.
  - apply IH. apply H.
  - cbn [sfd_ok] in H. cbn [rok]. tauto.
  - apply IH. apply H.
Qed.
Lemma pick_state s f : sfd_kpoints s f = pick (match sd_box s with Some b => Some (b, sd_k s) | None => None end) f.
Proof. unfold sfd_kpoints, pick. destruct (sd_box s); reflexivity. Qed.

Definition out_sf (bins : Z) (n : bhc U32 unit) (c : bhc R unit) : option (list R) :=
  omap (fun i => match ma_get (h_counts (bhc_hist n)) (Z.of_nat i), ma_get (h_counts (bhc_hist c)) (Z.of_nat i) with
                 | Some k, Some x => Some (if (u32_val k =? 0)%Z then x else x / IZR (u32_val k)) | _, _ => None end) (seq 0 (Z.to_nat bins)).
Section history.
  Variables (bins : Z) (a : axis).
  Hypothesis Ha : valid_axes [a].
  Hypothesis Hbins : ax_n a = bins.
  Lemma sf_size : size_of (map ax_n [a]) = bins.
  Proof. unfold size_of; simpl. rewrite Hbins. destruct bins; lia. Qed.
  Lemma rops_ok h : Forall (rok bins) h -> Forall (valid_hop [a]) (map rop_n h) /\ Forall (valid_hop [a]) (map rop_s h).
  Proof.
    intros H. split; apply Forall_map; (eapply Forall_impl; [|exact H]); intros [[r f|e1 e2] ks] Ho; unfold valid_hop, rop_n, rop_s; cbv beta iota;
      try (rewrite sf_size; apply Ho); (split; [apply Ho|]; intros i x [<-|[]]; reflexivity).
  Qed.
  Lemma sf_cells i : (i < Z.to_nat bins)%nat -> in_shape (map ax_n [a]) [Z.of_nat i] /\ row_major (map ax_n [a]) [Z.of_nat i] = Z.of_nat i.
  Proof. intros Hi. split; [constructor; [split; lia|constructor]|unfold row_major; simpl; lia]. Qed.
  Record Inv (s : sfd) (h : list (sf_op * list vec3)) : Prop := {
    inv_axis : sd_axis s = a;
    inv_n : run_history (u32 0) u32_add (bhc_make (u32 0) [a]) (map rop_n h) = Some (sd_n s);
    inv_s : run_history 0 Rplus (bhc_make 0 [a]) (map rop_s h) = Some (sd_s s);
    inv_flag : bhc_reduce (sd_n s) = bhc_reduce (sd_s s);
    inv_out : bhc_reduce (sd_n s) = false -> out_sf bins (sd_n s) (sd_s s) = Some (sd_out s) }.
  Lemma read_inv h e1 e2 s ks : Inv s h -> Forall (rok bins) h -> execution 0 (Z.to_nat bins) e1 -> execution 0 (Z.to_nat bins) e2 ->
    exists s', sfd_read s e1 e2 = Some s' /\ Inv s' (h ++ [(SfRead e1 e2, ks)]) /\ bhc_reduce (sd_n s') = false /\ sd_box s' = sd_box s /\ sd_k s' = sd_k s /\ sd_num s' = sd_num s /\ sd_min s' = sd_min s.
  Proof.
    intros [Ia In Ic If Io] Hh H1 H2. destruct (rops_ok h Hh) as [On Oc].
    destruct (C17_history (u32 0) u32_add [a] (map rop_n h) e1 u32_laws Ha On) as (n & Rn & Cn & _); [rewrite sf_size; exact H1|].
    destruct (C17_history 0 Rplus [a] (map rop_s h) e2 R_laws Ha Oc) as (c & Rc & Cc & _); [rewrite sf_size; exact H2|].
    pose proof Rn as Rn'. pose proof Rc as Rc'. rewrite run_snoc, In in Rn. rewrite run_snoc, Ic in Rc. cbn [bind run_hop] in Rn, Rc.
    assert (Out : out_sf bins n c <> None).
    { unfold out_sf. destruct (omap _ _) eqn:E; [discriminate|]. exfalso. revert E.
      set (g := fun i => match ma_get (h_counts (bhc_hist n)) (Z.of_nat i), ma_get (h_counts (bhc_hist c)) (Z.of_nat i) with
                 | Some k, Some x => if (u32_val k =? 0)%Z then x else x / IZR (u32_val k) | _, _ => 0 end).
      rewrite (omap_some _ g); [discriminate|]. intros i Hi. apply in_seq in Hi. destruct (sf_cells i ltac:(lia)) as [IS RM].
      specialize (Cn _ IS). specialize (Cc _ IS). rewrite RM in Cn, Cc. unfold g. rewrite Cn, Cc. reflexivity. }
    pose proof (read_flag _ _ _ _ _ Rn) as Fn. pose proof (read_flag _ _ _ _ _ Rc) as Fc.
    unfold sfd_read. destruct (bhc_reduce (sd_n s)) eqn:Er.
    - rewrite Rn, Rc, Ia, Hbins. fold (out_sf bins n c). destruct (out_sf bins n c) as [out|] eqn:Eo; [|congruence].
      eexists. split; [reflexivity|]. split; [|auto 7]. constructor; cbn [sd_axis sd_n sd_s sd_out]; auto.
      + rewrite map_app. exact Rn'.
      + rewrite map_app. exact Rc'.
      + congruence.
    - exists s. split; [reflexivity|].
      assert (n = sd_n s) by (unfold bhc_read in Rn; rewrite Er in Rn; congruence). assert (c = sd_s s) by (unfold bhc_read in Rc; rewrite <- If in Rc; congruence). subst n c.
      split; [|auto 7]. constructor; auto; try congruence; rewrite map_app; assumption.
  Qed.
  Definition sprev (s : sfd) : option (box * list vec3) := match sd_box s with Some b => Some (b, sd_k s) | None => None end.
  Lemma run_inv : forall h s dn, Inv s dn -> Forall (rok bins) dn -> sfd_ok bins (sprev s) h -> exists s', sfd_run s h = Some s' /\ Inv s' (dn ++ resolve (sprev s) h).
  Proof.
    induction h as [|o h IH]; intros s dn I D Hh.
    - exists s. split; [reflexivity|]. rewrite app_nil_r. exact I.
    - destruct o as [r f|e1 e2].
      + cbn [sfd_ok] in Hh. destruct Hh as (E & N & Hh). unfold sfd_run. cbn [ofold sfd_step].
        set (s1 := sfd_compute s r f) in *. assert (K : sfd_kpoints (if r then sfd_reset s else s) f = pick (if r then None else sprev s) f).
        { rewrite pick_state. unfold sprev. destruct r; reflexivity. }
        assert (S1 : sprev s1 = Some (si_box f, pick (if r then None else sprev s) f)).
        { unfold s1, sfd_compute, sfd_accumulate, sprev at 1. cbn [sd_box sd_k]. rewrite K. reflexivity. }
        destruct (IH s1 (dn ++ [(SfCompute r f, pick (if r then None else sprev s) f)])) as (s' & R & I').
        * destruct I as [Ia In Ic If Io]. unfold s1, sfd_compute, sfd_accumulate. rewrite K. constructor; cbn [sd_axis sd_n sd_s sd_out].
          -- destruct r; exact Ia.
          -- rewrite map_app; cbn [map rop_n]. rewrite run_snoc, In. cbn [bind run_hop]. unfold bhc_compute. destruct r; reflexivity.
          -- rewrite map_app; cbn [map rop_s]. rewrite run_snoc, Ic. cbn [bind run_hop]. unfold bhc_compute. destruct r; reflexivity.
          -- reflexivity.
          -- discriminate.
        * apply Forall_app. split; [exact D|]. constructor; [exact E|constructor].
        * rewrite S1. exact Hh.
        * exists s'. split; [exact R|]. rewrite S1 in I'. cbn [resolve]. rewrite <- app_assoc in I'. exact I'.
      + cbn [sfd_ok] in Hh. destruct Hh as (E1 & E2 & Hh). destruct (read_inv dn e1 e2 s [] I D E1 E2) as (s1 & R1 & I1 & _ & B1 & K1 & _).
        assert (S1 : sprev s1 = sprev s) by (unfold sprev; rewrite B1, K1; reflexivity).
        destruct (IH s1 (dn ++ [(SfRead e1 e2, [])]) I1) as (s' & R & I').
        * apply Forall_app. split; [exact D|]. constructor; [split; assumption|constructor].
        * rewrite S1. exact Hh.
        * exists s'. unfold sfd_run. cbn [ofold sfd_step]. rewrite R1. split; [exact R|]. cbn [resolve]. rewrite S1, <- app_assoc in I'. exact I'.
  Qed.
End history.

Lemma sfd_ok_app bins : forall h prev h', sfd_ok bins prev (h ++ h') -> sfd_ok bins prev h.
Proof. induction h as [|[r f|a b] h IH]; intros prev h' H; cbn [sfd_ok app] in *; auto; [destruct H as (A & B & C)|destruct H as (A & B & C)]; split; auto; split; auto; eapply IH; exact C. Qed.
Lemma weights_sf {T} bins k_max k_min (w : sf_in -> vec3 -> T) i u : (i < Z.to_nat bins)%nat ->
  weights_in [Axis bins k_min k_max] [Z.of_nat i]
    (flat_map frame_samples (map (fun fk => @Frame T unit (length (snd fk)) (fun j => [([norm (nth j (snd fk) v0)], w (fst fk) (nth j (snd fk) v0))]) (si_ev (fst fk)) tt) u)) =
  map (fun fk => w (fst fk) (snd fk)) (hits bins k_max k_min i u).
Proof.
  intros Hi. unfold weights_in, hits. induction u as [|[f ks] u IH]; [reflexivity|]. cbn [map flat_map fst snd]. rewrite !filter_app, !map_app, IH. f_equal.
  unfold frame_samples. cbn [fr_samples fr_n].
  assert (E : flat_map (fun j => [([norm (nth j ks v0)], w f (nth j ks v0))]) (range 0 (length ks)) = map (fun k => ([norm k], w f k)) ks).
  { unfold range. rewrite Nat.sub_0_r. clear. assert (G : forall d l, (forall j, (j < length l)%nat -> nth (d + j) ks v0 = nth j l v0) -> flat_map (fun j => [([norm (nth j ks v0)], w f (nth j ks v0))]) (seq d (length l)) = map (fun k => ([norm k], w f k)) l).
    { intros d l. revert d. induction l as [|k l IH]; intros d H; [reflexivity|]. cbn [length seq flat_map map]. rewrite IH.
      - assert (X := H 0%nat ltac:(simpl; lia)). rewrite Nat.add_0_r in X. cbn [nth] in X. rewrite X. reflexivity.
      - intros j Hj. assert (X := H (S j) ltac:(simpl; lia)). rewrite Nat.add_succ_r in X. exact X. }
    apply G. intros j _. reflexivity. }
  rewrite E. clear E IH. induction ks as [|k l IH]; [reflexivity|]. cbn [map filter fst snd].
  assert (X : in_cellb [Axis bins k_min k_max] [Z.of_nat i] [norm k] = in_bin bins k_max k_min i (f, k)).
  { assert (IL : forall j, interval_lo (Axis bins k_min k_max) (Z.of_nat j) = sf_edge bins k_max k_min j).
    { intros j. unfold interval_lo, sf_edge. simpl. rewrite INR_IZR_INZ. ring. }
    apply Bool.eq_iff_eq_true. rewrite in_cellb_iff by (constructor; [simpl; lia|constructor]). unfold in_bin. rewrite Bool.andb_true_iff, Rleb_true, Rltb_true. cbn [snd].
    rewrite <- !IL, Nat2Z.inj_succ, <- Z.add_1_r. split.
    - intros I. inversion I as [|? ? ? ? ? ? _ [I1 I2] _]; subst. split; assumption.
    - intros [I1 I2]. constructor; [simpl; lia|split; assumption|constructor]. }
  rewrite X. destruct (in_bin _ _ _ _ _); cbn [map fst snd]; rewrite IH; reflexivity.
Qed.
