(** C93: different analyses of the same bonds agree. *)
From Coq Require Import Reals ZArith List Permutation Lia Lra.
From Verif Require Import HistProofs HistProps MArrayProofs PmftProofs PmftProps RdfProps BoxProofs LocalDensProps CorrProps ExchProofs ExchProps ExchProps2 JoinProofs.
From Verif Require Import JoinSpec RdfShell RdfSpec.
From Verif Require Import HistSpec PmftSpec JoinSpec.
Import ListNotations.
Local Open Scope R_scope.

(** * PMFTR12 and RDF *)
Lemma r12_adds f x : shaped R12 f = true -> bonds_ok f -> In x (pin_bonds f) ->
  exists t1 t2, pm_sample R12 f x = Some [[bd x; t1; t2]] /\ 0 <= t1 < TWO_PI /\ 0 <= t2 < TWO_PI.
Proof.
  intros S B H. destruct (defined_ok' R12 f S B x H) as [l E]. assert (C := C54_coordinates R12 f x l E ltac:(discriminate)). destruct C as (t1 & t2 & -> & [R1 _] & [R2 _]). eauto.
Qed.
Lemma r12_points f : shaped R12 f = true -> bonds_ok f -> (forall l, In l (adds R12 f) -> exists x y z, l = [x; y; z] /\ 0 <= y < TWO_PI /\ 0 <= z < TWO_PI) /\
  forall P : R -> bool, cnt (fun l => P (nth 0 l 0)) (adds R12 f) = cnt (fun x => P (bd x)) (pin_bonds f).
Proof.
  intros S B. assert (A := r12_adds f). unfold adds. split.
  - intros l H. apply in_flat_map in H as (x & Hx & H). destruct (A x S B Hx) as (t1 & t2 & E & R1 & R2). rewrite E in H. destruct H as [<-|[]]. eauto 10.
  - intros P. assert (A' := fun x => A x S B). clear A. induction (pin_bonds f) as [|x l IH]; auto. cbn [flat_map]. rewrite cnt_app, IH by (intros y Hy; apply A'; right; auto).
    destruct (A' x (or_introl eq_refl)) as (t1 & t2 & E & _). rewrite E. unfold cnt. simpl. destruct (P (bd x)); reflexivity.
Qed.
Lemma rings_count lo hi fs ps : Forall2 same_rings fs ps -> dist_count lo hi fs = cnt (fun x => Rle_bool lo (bd x) && Rlt_bool (bd x) hi) (flat_map pin_bonds ps).
Proof.
  unfold dist_count. intros F. change (cnt (fun x => Rle_bool lo (bd x) && Rlt_bool (bd x) hi) (flat_map ri_all fs) = cnt (fun x => Rle_bool lo (bd x) && Rlt_bool (bd x) hi) (flat_map pin_bonds ps)).
  apply cnt_perm. induction F as [|fr f fs ps [D _] _ IH]; simpl; auto. apply Permutation_app; auto.
Qed.
Lemma r12_total a ps n1 n2 n3 r_max i : a = Axis n1 0 r_max -> (1 <= n1)%Z -> (1 <= n2)%Z -> (1 <= n3)%Z -> Forall (fun f => shaped R12 f = true /\ bonds_ok f) ps ->
  nsum (fun j => nsum (fun k => points_in R12 [a; Axis n2 0 TWO_PI; Axis n3 0 TWO_PI] [Z.of_nat i; Z.of_nat j; Z.of_nat k] ps) (Z.to_nat n3)) (Z.to_nat n2)
    = cnt (fun x => Rle_bool (edge n1 r_max 0 i) (bd x) && Rlt_bool (bd x) (edge n1 r_max 0 (S i))) (flat_map pin_bonds ps).
Proof.
  intros Ea N1 N2 N3 F. set (L := flat_map (adds R12) ps).
  transitivity (nsum (fun j => nsum (fun k => cnt (in_cellb [a; Axis n2 0 TWO_PI; Axis n3 0 TWO_PI] [Z.of_nat i; Z.of_nat j; Z.of_nat k]) L) (Z.to_nat n3)) (Z.to_nat n2)).
  { apply nsum_ext. intros j _. apply nsum_ext. intros k _. apply points_cnt. }
  assert (T := two_tile a (Axis n2 0 TWO_PI) (Axis n3 0 TWO_PI) (Z.of_nat i) L). cbn [ax_n ax_min ax_max] in T. rewrite T; [|lia|lia|].
  - unfold L. clear T L. induction F as [|f ps [Sh B] F IH]; auto. cbn [flat_map]. rewrite !cnt_app, IH. f_equal.
    destruct (r12_points f Sh B) as [_ E]. rewrite (E (binb a (Z.of_nat i))). unfold cnt. f_equal. apply filter_ext. intros x. unfold binb, interval_lo, edge. rewrite Ea. cbn [ax_n ax_min ax_max].
    replace (Z.of_nat i + 1)%Z with (Z.of_nat (S i)) by lia. rewrite !INR_IZR_INZ. 
    destruct (Rleb_spec (0 + IZR (Z.of_nat i) * ((r_max - 0) / IZR n1)) (bd x)), (Rle_bool_spec (0 + IZR (Z.of_nat i) * ((r_max - 0) / IZR n1)) (bd x)); try lra;
    destruct (Rltb_spec (bd x) (0 + IZR (Z.of_nat (S i)) * ((r_max - 0) / IZR n1))), (Rlt_bool_spec (bd x) (0 + IZR (Z.of_nat (S i)) * ((r_max - 0) / IZR n1))); try lra; reflexivity.
  - intros l H. apply in_flat_map in H as (f & Hf & H). rewrite Forall_forall in F. destruct (F f Hf) as [Sh B]. apply (proj1 (r12_points f Sh B) l H).
Qed.
(** The mean of PMFTR12 over its two angles is the RDF of the same bonds. *)
Theorem C93_pmftr12_rdf r_max n1 n2 n3 p0 g r0 h ev ev' fs fr ps p : pmftr12_make r_max n1 n2 n3 = Some p0 -> (n1 * n2 * n3 < 4294967295)%Z -> rdf_make n1 r_max 0 = Some r0 -> (n1 < 4294967295)%Z ->
  let size := Z.to_nat (n1 * n2 * n3) in
  Forall (pop_ok size) g -> execution 0 size ev -> Forall (rop_ok n1) h -> execution 0 (Z.to_nat n1) ev' -> read_mode h false Exact None = Exact ->
  rsince h [] = fs ++ [fr] -> frames R12 g = ps ++ [p] -> Forall2 same_rings (fs ++ [fr]) (ps ++ [p]) -> data_ok Exact (ri_data fr) -> (Z.of_nat (dist_count 0 r_max (fs ++ [fr])) < 2 ^ 32)%Z ->
  exists q r, pm_run p0 (g ++ [PRead ev]) = Some q /\ rdf_run r0 (h ++ [RRead ev']) = Some r /\
    forall i, (i < Z.to_nat n1)%nat ->
      total (fun j => total (fun k => nth ((i * Z.to_nat n2 + j) * Z.to_nat n3 + k) (pm_pcf q) 0) (Z.to_nat n3)) (Z.to_nat n2) = IZR n2 * IZR n3 * nth i (rdf_pcf r) 0.
Proof.
  intros M Sz Mr Sr size Hg He Hh He' Md Rs Fr SR Dk Small.
  assert (HM : rdf_make n1 r_max 0 <> None) by congruence.
  assert (R0 : 0 < r_max) by (destruct (Rle_lt_dec r_max 0); auto; exfalso; apply HM; unfold rdf_make; destruct (n1 =? 0)%Z; auto; destruct (Rle_bool_spec r_max 0); auto; lra).
  assert (Mm : made R12 p0) by (eapply made_r12; eauto).
  assert (A : pm_axes p0 = [Axis n1 0 r_max; Axis n2 0 TWO_PI; Axis n3 0 TWO_PI] /\ (1 <= n1 /\ 1 <= n2 /\ 1 <= n3)%Z).
  { unfold pmftr12_make in M. destruct (Z.ltb_spec n1 1); [discriminate|]. destruct (Z.ltb_spec n2 1); [discriminate|]. destruct (Z.ltb_spec n3 1); [discriminate|]. destruct (Rltb r_max 0); [discriminate|].
    apply (f_equal (option_map pm_axes)) in M. cbn [option_map pm_new pm_axes] in M. split; [congruence|lia]. }
  destruct A as (A & N1 & N2 & N3).
  assert (S1 : pm_size (pm_axes p0) = size).
  { rewrite A. unfold pm_size, size. cbn [map ax_n]. replace (prodz [n1; n2; n3]) with (n1 * n2 * n3)%Z; auto. cbn [prodz fold_right fold_left]. ring. }
  assert (SL := SR). apply Forall2_app_inv_l in SL as (l1 & l2 & _ & F2 & EL). inversion F2 as [|? p' ? l3 D F3]; subst. inversion F3; subst. apply app_inj_tail in EL as [-> <-]. clear F2 F3.
  destruct D as (_ & D2 & DV & DN & DQ). destruct Dk as (K1 & K2 & K3).
  assert (Dp : data_pos R12 p) by (unfold data_pos; rewrite <- DV, <- DN, <- DQ; cbn [multiplicity]; repeat split; auto; lia).
  destruct (C54_values R12 p0 g ev l1 p Mm) as (q & E & L & V); [try rewrite S1; auto..|].
  destruct (C49_values n1 r_max 0 r0 h ev' fs fr Mr ltac:(lia) Hh He' Rs) as (r & E' & Lp & _ & V'); [rewrite Md; repeat split; auto|auto|]. cbv zeta in V'. rewrite Md in V'.
  exists q, r. split; [exact E|]. split; [exact E'|]. intros i Hi. destruct (V' i Hi) as [W _]. clear V'.
  rewrite A in *. cbn [map ax_n] in V.
  assert (OK : Forall (fun f => shaped R12 f = true /\ bonds_ok f) (l1 ++ [p])) by (apply Forall_forall; intros f Hf; rewrite <- Fr in Hf; eapply frame_ok; eauto).
  assert (T := r12_total (Axis n1 0 r_max) (l1 ++ [p]) n1 n2 n3 r_max i eq_refl N1 N2 N3 OK).
  rewrite <- (rings_count _ _ _ _ SR) in T.
  set (PT := fun j k => points_in R12 [Axis n1 0 r_max; Axis n2 0 TWO_PI; Axis n3 0 TWO_PI] [Z.of_nat i; Z.of_nat j; Z.of_nat k] (l1 ++ [p])) in *.
  change (nsum (fun j => nsum (fun k => PT j k) (Z.to_nat n3)) (Z.to_nat n2) = dist_count (edge n1 r_max 0 i) (edge n1 r_max 0 (S i)) (fs ++ [fr])) in T.
  assert (EE : 0 <= edge n1 r_max 0 i /\ edge n1 r_max 0 (S i) <= r_max).
  { unfold edge. assert (P : 0 < IZR n1) by (apply IZR_lt; lia). assert (PI' := pos_INR i). assert (W0 : 0 < (r_max - 0) / IZR n1) by (apply Rdiv_lt_0_compat; lra). split; [assert (0 <= INR i * ((r_max - 0) / IZR n1)) by (apply Rmult_le_pos; lra); lra|].
    assert (LI : INR (S i) <= IZR n1) by (rewrite INR_IZR_INZ; apply IZR_le; lia). apply Rle_trans with (IZR n1 * ((r_max - 0) / IZR n1)); [assert (X := Rmult_le_compat_r _ _ _ (Rlt_le _ _ W0) LI); lra|right; field; lra]. }
  assert (CM : (dist_count (edge n1 r_max 0 i) (edge n1 r_max 0 (S i)) (fs ++ [fr]) <= dist_count 0 r_max (fs ++ [fr]))%nat).
  { unfold dist_count. generalize (flat_map ri_all (fs ++ [fr])). induction l as [|x l IH]; auto. cbn [filter].
    destruct (Rle_bool_spec (edge n1 r_max 0 i) (bd x)), (Rlt_bool_spec (bd x) (edge n1 r_max 0 (S i))), (Rle_bool_spec 0 (bd x)), (Rlt_bool_spec (bd x) r_max); cbn [andb length]; try lia; exfalso; lra. }
  assert (SM : forall j k, (j < Z.to_nat n2)%nat -> (k < Z.to_nat n3)%nat -> (PT j k <= dist_count 0 r_max (fs ++ [fr]))%nat).
  { intros j k Hj Hk. eapply Nat.le_trans; [|exact CM]. rewrite <- T. eapply Nat.le_trans; [apply (nsum_le (fun k => PT j k) (Z.to_nat n3) k Hk)|]. apply (nsum_le (fun j => nsum (fun k => PT j k) (Z.to_nat n3)) (Z.to_nat n2) j Hj). }
  set (sh := shell true (edge n1 r_max 0 i) (edge n1 r_max 0 (S i))) in *.
  assert (ED : edge n1 r_max 0 i < edge n1 r_max 0 (S i)). { unfold edge. rewrite S_INR. assert (0 < (r_max - 0) / IZR n1) by (apply Rdiv_lt_0_compat; [lra|apply IZR_lt; lia]). lra. }
  assert (SP : 0 < sh) by (apply shell_pos; lra).
  assert (P2 : 0 < IZR n2) by (apply IZR_lt; lia). assert (P3 : 0 < IZR n3) by (apply IZR_lt; lia). assert (PP := PI_RGT_0).
  assert (ME : forall j k, measure R12 [Axis n1 0 r_max; Axis n2 0 TWO_PI; Axis n3 0 TWO_PI] [Z.of_nat i; j; k] = sh / (IZR n2 * IZR n3)).
  { intros j k. unfold sh. rewrite shell_2d. unfold measure, width, interval_lo, edge, TWO_PI. cbn [ax_n ax_min ax_max]. replace (Z.of_nat i + 1)%Z with (Z.of_nat (S i)) by lia. rewrite !INR_IZR_INZ. field. repeat split; try lra. apply IZR_neq. lia. }
  set (nf := INR (length (l1 ++ [p]))) in *. assert (NFE : INR (length (fs ++ [fr])) = nf) by (unfold nf; f_equal; revert SR; generalize (fs ++ [fr]) (l1 ++ [p]); induction 1; simpl; congruence).
  assert (NF : 0 < nf) by (unfold nf; apply lt_0_INR; rewrite app_length; simpl; lia).
  unfold RdfSpec.density in W. rewrite NFE, D2 in W. fold sh in W. try rewrite DV in W. try rewrite DN in W. try rewrite DQ in W.
  set (np := INR (pd_np (pf_data p))) in *. set (nq := INR (pd_nqp (pf_data p))) in *. set (vol := pd_vol (pf_data p)) in *.
  assert (NP : 0 < np) by (apply lt_0_INR; lia). assert (NQ : 0 < nq) by (apply lt_0_INR; lia). assert (NV : 0 < vol) by (rewrite DV in *; auto).
  set (c := nf * np * nq * (sh / (IZR n2 * IZR n3)) / vol). assert (C0 : 0 < c).
  { unfold c. apply Rdiv_lt_0_compat; auto. apply Rmult_lt_0_compat; [repeat apply Rmult_lt_0_compat; auto|]. apply Rdiv_lt_0_compat; auto. apply Rmult_lt_0_compat; auto. }
  assert (VV : forall j k, (j < Z.to_nat n2)%nat -> (k < Z.to_nat n3)%nat -> nth ((i * Z.to_nat n2 + j) * Z.to_nat n3 + k) (pm_pcf q) 0 * c = INR (PT j k)).
  { intros j k Hj Hk. assert (IS : in_shape [n1; n2; n3] [Z.of_nat i; Z.of_nat j; Z.of_nat k]) by (repeat constructor; lia).
    assert (X := V [Z.of_nat i; Z.of_nat j; Z.of_nat k] IS). specialize (SM j k Hj Hk). change (points_in R12 _ [Z.of_nat i; Z.of_nat j; Z.of_nat k] _) with (PT j k) in X. specialize (X ltac:(lia)).
    rewrite ME in X. fold nf np nq vol in X. cbn [multiplicity INR] in X.
    replace (Z.to_nat (row_major [n1; n2; n3] [Z.of_nat i; Z.of_nat j; Z.of_nat k])) with ((i * Z.to_nat n2 + j) * Z.to_nat n3 + k)%nat in X.
    - unfold c. apply Rmult_eq_reg_r with vol; [|lra]. transitivity (vol * INR (PT j k)); [rewrite <- X; field; lra|ring].
    - apply Nat2Z.inj. rewrite Z2Nat.id; [cbn [row_major size_of]; rewrite !Nat2Z.inj_add, !Nat2Z.inj_mul, Nat2Z.inj_add, Nat2Z.inj_mul, !Z2Nat.id by lia; ring|]. cbn [row_major size_of]. nia. }
  apply Rmult_eq_reg_r with c; [|lra].
  transitivity (INR (dist_count (edge n1 r_max 0 i) (edge n1 r_max 0 (S i)) (fs ++ [fr]))).
  - rewrite <- T, <- total_INR, <- total_scale. apply total_ext. intros j Hj. rewrite <- total_INR, <- total_scale. apply total_ext. intros k Hk. apply VV; auto.
  - rewrite <- W. unfold c. field. lra.
Qed.
Print Assumptions C93_pmftr12_rdf.
