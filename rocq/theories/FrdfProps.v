(** C85: the RDF in single precision: counts. *)
From Coq Require Import Psatz.
From Flocq Require Import Core.
From Verif Require Import F32Proofs F32Props Vec FaabbProofs FaabbProofs2 FaabbProps FaabbProps2 ReproProofs ReproSpec ReproProps FrdfProofs FrdfSpec.
Open Scope R_scope.

(** The counts of bins with every pair clear of the edges: the exact numbers of pairs, mod 2^32, whatever the threads do. *)
Theorem C85_counts a fs counts : ordinary a -> ordinary_radius (fx_max a) -> Forall ordinary_frame fs -> Forall (clear a) fs ->
  frdf_counts a fs counts -> counts = map (fun c => (exact_counts a fs c mod 2 ^ 32)%Z) (seq 0 (Z.to_nat (fx_n a))).
Proof.
  intros O Or HF HC H. destruct (counts_outcome a fs counts H) as (bs & HB & ->). apply map_ext_in. intros c Hc. apply in_seq in Hc. f_equal.
  assert (Hc' : (Z.of_nat c < fx_n a)%Z) by (destruct O as (_ & _ & Hn & _); lia). clear H Hc. unfold exact_counts, addends.
  induction HB as [|f bonds fs bs [HB HS] HR IH]; auto. inversion HF; subst. inversion HC; subst. cbn [combine map flat_map fold_right]. rewrite zsum_app, IH by auto. f_equal.
  change (fst (f, bonds)) with f. change (snd (f, bonds)) with bonds. rewrite work_sum. apply frame_count; auto.
Qed.

(** The counts, and hence rdf and n_r, have the same bits in every run. *)
Lemma same_bonds a f g bonds bonds' : Forall fin3 (ff_points f) -> ff_points f <> [] -> same_frame f g -> fframe_bonds a f bonds -> fframe_bonds a g bonds' ->
  forall i, (i < length (ff_queries f))%nat -> bonds i = bonds' i.
Proof.
  intros HF HN (E1 & E2 & E3 & E4) H H' i Hi. specialize (H i Hi). rewrite E3 in Hi. specialize (H' i Hi). rewrite <- E1, <- E2, <- E3, <- E4 in H'.
  destruct (C78_defined (ff_box f) (ff_points f) (nth i (ff_queries f) fv0) i (fx_max a) fzero (ff_excl f) true HN HF) as (res & _ & U). apply U in H. apply U in H'. congruence.
Qed.
Theorem C85_bits a fs gs counts counts' : Forall (fun f => ff_points f <> [] /\ Forall fin3 (ff_points f)) fs -> Forall2 same_frame fs gs ->
  frdf_counts a fs counts -> frdf_counts a gs counts' ->
  counts = counts' /\ forall m, frdf_result m a fs counts = frdf_result m a gs counts'.
Proof.
  intros HF HS H H'. assert (E : counts = counts').
  { destruct (counts_outcome a fs counts H) as (bs & HB & ->). destruct (counts_outcome a gs counts' H') as (bs' & HB' & ->). apply map_ext. intros c. f_equal. unfold addends. clear H H'.
    revert gs bs' HS HB'. induction HB as [|f bonds fs bs [HB _] HR IH]; intros gs bs' HS HB'; inversion HS as [|? g ? gs' Hg HS']; subst; [reflexivity|].
    inversion HB' as [|? bonds' ? bs2 [HBg _] HR']; subst. inversion HF as [|? ? [HN Hf] HF']; subst. cbn [combine map flat_map]. rewrite !zsum_app. rewrite (IH HF' gs' bs2 HS' HR'). f_equal.
    change (fst (f, bonds)) with f. change (snd (f, bonds)) with bonds. change (fst (g, bonds')) with g. change (snd (g, bonds')) with bonds'. rewrite !work_sum. f_equal.
    assert (EL : length (ff_queries g) = length (ff_queries f)) by (f_equal; symmetry; apply Hg). rewrite EL. apply nsum_ext. intros i Hi. apply in_seq in Hi. rewrite (same_bonds a f g bonds bonds' Hf HN Hg HB HBg i) by lia. reflexivity. }
  split; auto. subst counts'. intros m. unfold frdf_result.
  assert (EL : length gs = length fs) by (clear -HS; induction HS; simpl; auto). rewrite EL.
  set (f0 := FFrame (FBox fv0 fzero fzero fzero false false false false) [] [] false []).
  assert (SF : same_frame (last fs f0) (last gs f0)).
  { clear -HS. induction HS as [|f g fs gs Hf HS IH]; [repeat split|]. destruct HS as [|f' g' fs gs Hf' HS]; [exact Hf|exact IH]. }
  destruct SF as (E1 & E2 & E3 & _). rewrite E1, E2, E3. reflexivity.
Qed.

(** Which accumulations succeed: those where twice the largest distance is below every periodic side of every box with query points. *)
Lemma bond_fin a b points q qi excl l : ordinary_radius (fx_max a) -> points <> [] -> plain_box b -> Forall ordinary_point points -> ordinary_point q ->
  faabb_ball b points q qi (fx_max a) fzero excl true (Some l) -> forall x, In x l -> finite (fb_d x) = true.
Proof.
  intros Or HN PB HO Oq H x Hx. destruct (ball_in _ _ _ _ _ _ _ _ _ HN (points_fin _ HO) H) as (images & EI & IN). apply (IN x) in Hx. destruct Hx as (im & p & Him & Hp & Hx).
  assert (Him' := Permutation_in _ (images_perm _ _ _ _ EI) Him). apply in_map_iff in Him' as ([[i j] k] & <- & Hc). destruct (imc_val b i j k PB Hc) as [Oim _].
  assert (Op : ordinary_point (fflat b (nth p points fv0))) by (apply flat_ordinary; apply (proj1 (Forall_forall _ _) HO); apply nth_In; auto).
  destruct (pair_finite _ _ _ Op (flat_ordinary b q Oq) Oim) as (_ & Fr & Pr). unfold pair_bond in Hx. destruct (excl && _); [destruct Hx|]. destruct (_ && _) in Hx; [|destruct Hx].
  destruct Hx as [<-|[]]. cbn [fb_d]. apply sqrt_fin0; auto.
Qed.
Lemma classic_fits a f : fits_box a f \/ ~ fits_box a f.
Proof.
  unfold fits_box. destruct (Rlt_le_dec (2 * val (fx_max a)) (val (fvx (fL (ff_box f))))), (Rlt_le_dec (2 * val (fx_max a)) (val (fvy (fL (ff_box f))))), (Rlt_le_dec (2 * val (fx_max a)) (val (fvz (fL (ff_box f)))));
  destruct (fpx (ff_box f)), (fpy (ff_box f)), (f2d (ff_box f)), (fpz (ff_box f));
  try (left; repeat split; intros; auto; discriminate); right; intros (X & Y & W); try (specialize (X eq_refl); lra); try (specialize (Y eq_refl); lra); try (specialize (W eq_refl eq_refl); lra).
Qed.
Lemma choose {A} (P : nat -> A -> Prop) (d : A) n : (forall i, (i < n)%nat -> exists x, P i x) -> exists f, forall i, (i < n)%nat -> P i (f i).
Proof.
  induction n as [|n IH]; intros H. { exists (fun _ => d). intros i Hi. lia. }
  destruct IH as [f Hf]. { intros i Hi. apply H. lia. } destruct (H n ltac:(lia)) as [x Hx]. exists (fun i => if Nat.eqb i n then x else f i).
  intros i Hi. destruct (Nat.eqb_spec i n) as [->|N]; auto. apply Hf. lia.
Qed.
Theorem C85_defined a fs : ordinary a -> ordinary_radius (fx_max a) -> Forall ordinary_frame fs ->
  ((exists counts, frdf_counts a fs counts) <-> Forall (fun f => ff_queries f = [] \/ fits_box a f) fs).
Proof.
  intros O Or HF.
  assert (R : forall f i, ordinary_frame f -> (i < length (ff_queries f))%nat ->
    (faabb_ball (ff_box f) (ff_points f) (nth i (ff_queries f) fv0) i (fx_max a) fzero (ff_excl f) true None <-> ~ fits_box a f)).
  { intros f i (HN & PB & HP & _) Hi. destruct Or as [Fr [L U]]. assert (P := bpow_gt_0 radix2 (-60)).
    rewrite (C78_refused _ _ _ _ _ fzero _ _ HN (points_fin _ HP) PB Fr ltac:(rewrite Rabs_pos_eq; lra) eq_refl). change (val fzero) with 0. unfold fits_box. split.
    - intros [K|[K|[_ [[K1 K2]|[[K1 K2]|(K1 & K2 & K3)]]]]] (X & Y & Z'); try lra; [specialize (X K1)|specialize (Y K1)|specialize (Z' K1 K2)]; lra.
    - intros N. right; right. split; auto. destruct (fpx (ff_box f)); [destruct (Rlt_le_dec (2 * val (fx_max a)) (val (fvx (fL (ff_box f))))); [|left; auto]|];
      (destruct (fpy (ff_box f)); [destruct (Rlt_le_dec (2 * val (fx_max a)) (val (fvy (fL (ff_box f))))); [|right; left; auto]|]);
      (destruct (f2d (ff_box f)); [|destruct (fpz (ff_box f)); [destruct (Rlt_le_dec (2 * val (fx_max a)) (val (fvz (fL (ff_box f))))); [|right; right; auto]|]]);
      exfalso; apply N; repeat split; intros; auto; try discriminate. }
  split.
  - intros (counts & bs & old & ls & HB & _). clear -HB HF R. induction HB as [|f bonds fs bs [HB _] HR IH]; constructor; inversion HF; subst; auto.
    destruct (ff_queries f) as [|q qs] eqn:E; [left; auto|right]. destruct (C78_defined (ff_box f) (ff_points f) (nth 0 (ff_queries f) fv0) 0 (fx_max a) fzero (ff_excl f) true) as (res & _ & U).
    { apply H1. } { apply points_fin, H1. }
    assert (L0 : (0 < length (ff_queries f))%nat) by (rewrite E; simpl; lia). assert (X := U _ (HB 0%nat L0)).
    destruct (classic_fits a f) as [Y|Y]; auto. apply (R f 0%nat H1 L0) in Y. apply U in Y. congruence.
  - intros HB. assert (EX : exists bs, Forall2 (fun f bonds => fframe_bonds a f bonds /\ fslots_ok a f bonds) fs bs).
    { clear -HB HF R O Or. induction HB as [|f fs Hf HB IH]; [exists []; constructor|]. inversion HF as [|? ? OF HF']; subst. destruct (IH HF') as [bs Hbs].
      destruct (choose (fun i l => faabb_ball (ff_box f) (ff_points f) (nth i (ff_queries f) fv0) i (fx_max a) fzero (ff_excl f) true (Some l)) [] (length (ff_queries f))) as [bonds Hb].
      { intros i Hi. destruct Hf as [E|Hf]; [rewrite E in Hi; simpl in Hi; lia|]. assert (OF' := OF). destruct OF' as (HN & PB & HP & HQ & _).
        destruct (C78_defined (ff_box f) (ff_points f) (nth i (ff_queries f) fv0) i (fx_max a) fzero (ff_excl f) true HN (points_fin _ HP)) as (res & H & _).
        destruct res as [l|]; [exists l; auto|]. apply (R f i OF Hi) in H. contradiction. }
      exists (bonds :: bs). constructor; auto. split; auto. intros i x Hi Hx. apply slot_ok; auto. destruct OF as (HN & PB & HP & HQ & _).
      eapply bond_fin; [exact Or|exact HN|exact PB|exact HP| |apply Hb; exact Hi|exact Hx]. apply (proj1 (Forall_forall _ _) HQ), nth_In; auto. }
    destruct EX as [bs Hbs]. eexists. exists bs, []. eexists. split; [exact Hbs|]. split; [eapply Forall_impl; [|exact HF]; intros f (_ & _ & _ & _ & E); exact E|]. split; [constructor|]. split; [apply Permutation_refl|reflexivity].
Qed.
