(** C92 in single precision: the bin counts of the RDF from both sides. *)
From Coq Require Import Reals ZArith List Permutation Lia Lra.
From Verif Require Import AABBProofs2 F32Proofs FaabbProofs FaabbProps FaabbProps2 FrdfProofs FrdfProps FrdfProps2.
From Verif Require Import FrdfSpec.
Import ListNotations.
Local Open Scope R_scope.

(** The call of RDF.compute with points and query points exchanged. *)
Definition swapped_frame (f g : fframe) : Prop := ff_box g = ff_box f /\ ff_points g = ff_queries f /\ ff_queries g = ff_points f /\ ff_excl g = ff_excl f.
Definition flip (t : nat * nat * (Z * Z * Z)) : nat * nat * (Z * Z * Z) := let '(q, p, (i, j, k)) := t in (p, q, (- i, - j, - k)%Z).
Lemma flip_twice t : flip (flip t) = t.
Proof. destruct t as [[q p] [[i j] k]]. simpl. rewrite !Z.opp_involutive. reflexivity. Qed.
Lemma steps_opp c i : In i (steps c) -> In (- i)%Z (steps c).
Proof. unfold steps. destruct c; simpl; intros H; repeat (destruct H as [<-|H]; [simpl; auto|]); destruct H. Qed.
Lemma cells_opp b i j k : In (i, j, k) (cells b) -> In (- i, - j, - k)%Z (cells b).
Proof. unfold cells. rewrite !in_prod_iff. intros [[A B] C]. auto using steps_opp. Qed.
Lemma distance_flip b p q i j k : exact_distance b q p (- i) (- j) (- k) = exact_distance b p q i j k.
Proof.
  unfold exact_distance, moved, norm, dot, rv, fflat, vsub, vadd. destruct (f2d b); cbn [vx vy vz]; rewrite !opp_IZR; f_equal; ring.
Qed.
Lemma pairs_nodup f : NoDup (pairs f).
Proof.
  unfold pairs. apply NoDup_filter. assert (S : forall c, NoDup (steps c)) by (intros [|]; unfold steps; repeat constructor; simpl; intuition lia).
  assert (P : forall (A B : Type) (l : list A) (l' : list B), NoDup l -> NoDup l' -> NoDup (list_prod l l')).
  { clear. intros A B l l' H H'. induction H as [|x l N _ IH]; simpl; [constructor|]. apply FinFun.Injective_map_NoDup with (f := fun y : B => (x, y)) in H'; [|intros ? ? E; congruence].
    apply NoDup_app_intro; auto. intros [u v] U V. apply in_map_iff in U as (y & E & _). apply in_prod_iff in V as [V _]. congruence. }
  unfold cells. repeat apply P; auto using seq_NoDup.
Qed.
Lemma pairs_flip f g t : swapped_frame f g -> In t (pairs f) -> In (flip t) (pairs g) /\ pair_distance g (flip t) = pair_distance f t.
Proof.
  intros (E1 & E2 & E3 & E4) H. destruct t as [[q p] [[i j] k]]. apply in_pairs in H as (H1 & H2 & H3 & H4). split.
  - cbn [flip]. apply in_pairs. rewrite E1, E2, E3, E4. repeat split; auto using cells_opp. intros X Y. apply H4; auto.
  - unfold pair_distance. cbn [flip]. rewrite E1, E2, E3. apply distance_flip.
Qed.
Lemma swapped_sym f g : swapped_frame f g -> swapped_frame g f.
Proof. intros (E1 & E2 & E3 & E4). repeat split; auto. Qed.
(** The exact numbers of pairs in the bins are the same from both sides. *)
Lemma count_flip a f g c : swapped_frame f g -> exact_count a g c = exact_count a f c.
Proof.
  intros X. unfold exact_count. f_equal.
  assert (P : Permutation (pairs g) (map flip (pairs f))).
  { apply NoDup_Permutation; [apply pairs_nodup|apply FinFun.Injective_map_NoDup; [intros x y E; rewrite <- (flip_twice x), E; apply flip_twice|apply pairs_nodup]|].
    intros t. split; intros H.
    - apply in_map_iff. exists (flip t). split; [apply flip_twice|]. apply (pairs_flip g f t (swapped_sym f g X) H).
    - apply in_map_iff in H as (s & <- & H). apply (pairs_flip f g s X H). }
  assert (L : forall h (l l' : list (nat * nat * (Z * Z * Z))), Permutation l l' -> length (filter h l) = length (filter h l')) by (clear; intros h l l' Q; induction Q as [|x l l' Q IH|x y l|l m n Q IH Q' IH']; simpl; auto; [destruct (h x); simpl; auto|destruct (h x), (h y); auto|congruence]).
  rewrite (L _ _ _ P). assert (D : forall t, In t (pairs f) -> pair_distance g (flip t) = pair_distance f t) by (intros t H; apply pairs_flip; auto). revert D. clear P X. generalize (pairs f).
  induction l as [|t l IH]; intros D; auto. cbn [map filter]. rewrite D by (left; auto). destruct (Z.eqb _ _); cbn [length]; rewrite IH; auto; intros s Hs; apply D; right; auto.
Qed.
(** Away from the edges of the bins the RDF in single precision counts the same from both sides, over any sequence of frames. *)
Theorem C92_single a fs gs : ordinary a -> ordinary_radius (fx_max a) -> Forall ordinary_frame fs -> Forall ordinary_frame gs -> Forall2 swapped_frame fs gs ->
  ((exists counts, frdf_counts a fs counts) <-> (exists counts, frdf_counts a gs counts)) /\
  (Forall (clear a) fs -> Forall (clear a) gs -> forall counts counts', frdf_counts a fs counts -> frdf_counts a gs counts' -> counts' = counts).
Proof.
  intros O Or HF HG X. split.
  - rewrite !C85_defined by auto. induction X as [|f g fs gs D X IH]; [tauto|]. inversion HF as [|? ? Of HF']; subst. inversion HG as [|? ? Og HG']; subst. specialize (IH HF' HG').
    assert (E : (ff_queries f = [] \/ fits_box a f) <-> (ff_queries g = [] \/ fits_box a g)).
    { destruct D as (E1 & E2 & E3 & E4), Of as (N & _), Og as (N' & _). unfold fits_box. rewrite E1, E3. rewrite E2 in N'. tauto. }
    split; intros H; inversion H; subst; constructor; tauto.
  - intros CF CG counts counts' H H'. rewrite (C85_counts a fs counts O Or HF CF H), (C85_counts a gs counts' O Or HG CG H'). apply map_ext. intros c. f_equal. unfold exact_counts. clear - X.
    induction X as [|f g fs gs D X IH]; auto. cbn [map fold_right]. rewrite IH, (count_flip a f g c D). reflexivity.
Qed.

(** Without the room at the edges it is false: rounding finds a pair from one side only. *)
Definition edge_one : faxis := FAxis 1 fzero edge_r.
Definition left_frame : fframe := FFrame edge_box [nth 0 edge_points fv0] [nth 1 edge_points fv0] false [(0, 0)]%nat.
Definition right_frame : fframe := FFrame edge_box [nth 1 edge_points fv0] [nth 0 edge_points fv0] false [(0, 0)]%nat.
Lemma left_brute : map (fun c => (Z.of_nat (brute_frame edge_one left_frame c) mod 2 ^ 32)%Z) (seq 0 (Z.to_nat (fx_n edge_one))) = [1]%Z.
Proof. vm_compute. reflexivity. Qed.
Lemma right_brute : map (fun c => (Z.of_nat (brute_frame edge_one right_frame c) mod 2 ^ 32)%Z) (seq 0 (Z.to_nat (fx_n edge_one))) = [0]%Z.
Proof. vm_compute. reflexivity. Qed.
Lemma one_thread : execution 0 1 [(0, 0)]%nat.
Proof. exists [(0, 1)]%nat. split; [constructor; lia|reflexivity]. Qed.
Lemma edge_values : ordinary_coord (lit (-15287013) (-22)) /\ ordinary_coord (lit 10325783 (-21)) /\ finite edge_r = true /\ val edge_r = 3002231 / 2097152.
Proof.
  assert (B := bpow_le radix2 3 60 ltac:(lia)). change (bpow radix2 3) with 8 in B.
  assert (E1 : val (lit (-15287013) (-22)) = -15287013 / 4194304).
  { rewrite <- SF2R_B2SF. replace (B2SF (lit (-15287013) (-22))) with (SpecFloat.S754_finite true 15287013 (-22)) by (vm_compute; reflexivity). unfold SF2R, F2R. cbn [cond_Zopp Fnum Fexp bpow]. change (Z.pow_pos radix2 22) with 4194304%Z. cbn. lra. }
  assert (E2 : val (lit 10325783 (-21)) = 10325783 / 2097152).
  { rewrite <- SF2R_B2SF. replace (B2SF (lit 10325783 (-21))) with (SpecFloat.S754_finite false 10325783 (-21)) by (vm_compute; reflexivity). unfold SF2R, F2R. cbn [cond_Zopp Fnum Fexp bpow]. change (Z.pow_pos radix2 21) with 2097152%Z. lra. }
  assert (E3 : val edge_r = 3002231 / 2097152).
  { unfold edge_r. rewrite <- SF2R_B2SF. replace (B2SF (lit 3002231 (-21))) with (SpecFloat.S754_finite false 12008924 (-23)) by (vm_compute; reflexivity). unfold SF2R, F2R. cbn [cond_Zopp Fnum Fexp bpow]. change (Z.pow_pos radix2 23) with 8388608%Z. lra. }
  split; [split; [vm_compute; reflexivity|rewrite E1, Rabs_left; lra]|]. split; [split; [vm_compute; reflexivity|rewrite E2, Rabs_pos_eq; lra]|]. split; [vm_compute; reflexivity|exact E3].
Qed.
Theorem C92_single_refuted : exists a f g, ordinary a /\ ordinary_radius (fx_max a) /\ ordinary_frame f /\ ordinary_frame g /\ swapped_frame f g /\ fits_box a f /\
  (exists counts, frdf_counts a [f] counts) /\ (exists counts, frdf_counts a [g] counts) /\
  (forall counts, frdf_counts a [f] counts -> counts = [1]%Z) /\ (forall counts, frdf_counts a [g] counts -> counts = [0]%Z).
Proof.
  exists edge_one, left_frame, right_frame. destruct edge_values as (C1 & C2 & F3 & V3').
  assert (O1 : ordinary_point (nth 0 edge_points fv0)) by (split; [exact C1|split; apply zero_coord]). assert (O2 : ordinary_point (nth 1 edge_points fv0)) by (split; [exact C2|split; apply zero_coord]).
  assert (Of : ordinary_frame left_frame) by (split; [discriminate|split; [apply C78_inside_case|split; [constructor; auto|split; [constructor; auto|exact one_thread]]]]).
  assert (Og : ordinary_frame right_frame) by (split; [discriminate|split; [apply C78_inside_case|split; [constructor; auto|split; [constructor; auto|exact one_thread]]]]).
  assert (Oa : ordinary edge_one).
  { unfold ordinary, edge_one. cbn [fx_min fx_max fx_n]. rewrite V3'. change (val fzero) with 0. split; [reflexivity|]. split; [exact F3|]. split; [lia|]. split.
    - assert (L := bpow_le radix2 (-125) (-4) ltac:(lia)). change (bpow radix2 (-4)) with (/ 16) in L. lra.
    - assert (L := bpow_le radix2 2 126 ltac:(lia)). change (bpow radix2 2) with 4 in L. lra. }
  assert (Or : ordinary_radius (fx_max edge_one)).
  { split; [exact F3|]. cbn [fx_max edge_one]. rewrite V3'. assert (L := bpow_le radix2 (-60) (-4) ltac:(lia)). change (bpow radix2 (-4)) with (/ 16) in L. assert (L' := bpow_le radix2 2 60 ltac:(lia)). change (bpow radix2 2) with 4 in L'. lra. }
  assert (FB : fits_box edge_one left_frame).
  { assert (V10 := proj2 (is_lit_Z 10 ltac:(lia))). unfold fits_box, left_frame, edge_box, fmk_box, edge_one. cbn [ff_box fL fvx fvy fvz fx_max f2d]. rewrite V10, V3'. repeat split; intros; lra. }
  assert (D : exists counts, frdf_counts edge_one [left_frame] counts) by (apply C85_defined; auto; constructor; auto).
  split; [exact Oa|]. split; [exact Or|]. split; [exact Of|]. split; [exact Og|]. split; [repeat split|]. split; [exact FB|]. split; [exact D|]. split; [apply (C92_single edge_one [left_frame] [right_frame]); auto; repeat constructor|]. split.
  - intros counts H. apply brute_counts in H; [|discriminate|apply points_fin, Of]. rewrite left_brute in H. exact H.
  - intros counts H. apply brute_counts in H; [|discriminate|apply points_fin, Og]. rewrite right_brute in H. exact H.
Qed.
(** The conditions of the theorem can be met: one point 1.5 away from one query point, counted in the second of three bins. *)
Definition near_frame : fframe := FFrame edge_box [fv0] [FV (lit 3 (-1)) fzero fzero] false [(0, 0)]%nat.
Definition far_frame : fframe := FFrame edge_box [FV (lit 3 (-1)) fzero fzero] [fv0] false [(0, 0)]%nat.
Lemma near_brute : map (fun c => (Z.of_nat (brute_frame case_axis near_frame c) mod 2 ^ 32)%Z) (seq 0 (Z.to_nat (fx_n case_axis))) = [0; 1; 0]%Z.
Proof. vm_compute. reflexivity. Qed.
Example C92_single_case : ordinary case_axis /\ ordinary_radius (fx_max case_axis) /\ Forall ordinary_frame [near_frame] /\ Forall ordinary_frame [far_frame] /\ Forall2 swapped_frame [near_frame] [far_frame] /\
  Forall (clear case_axis) [near_frame] /\ Forall (clear case_axis) [far_frame] /\ exists counts, frdf_counts case_axis [near_frame] counts /\ counts = [0; 1; 0]%Z.
Proof.
  destruct case_axis_ordinary as (O & Or & _). destruct case_val as [Fe Ve].
  assert (OP : Forall ordinary_point [fv0; FV (lit 3 (-1)) fzero fzero]). { apply apart_points; auto. rewrite Ve. split; [lra|]. apply Rle_trans with (bpow radix2 1); [cbn; lra|apply bpow_le; lia]. }
  inversion OP as [|? ? O0 OP']; subst. inversion OP' as [|? ? O1 _]; subst.
  assert (Of : ordinary_frame near_frame) by (split; [discriminate|split; [apply C78_inside_case|split; [constructor; auto|split; [constructor; auto|exact one_thread]]]]).
  assert (Og : ordinary_frame far_frame) by (split; [discriminate|split; [apply C78_inside_case|split; [constructor; auto|split; [constructor; auto|exact one_thread]]]]).
  split; [exact O|]. split; [exact Or|]. split; [constructor; auto|]. split; [constructor; auto|]. split; [constructor; [repeat split|constructor]|].
  assert (CC := case_clear).
  split; [constructor; [|constructor]|split; [constructor; [|constructor]|]].
  - intros [[q p] [[i j] k]] Ht m Hm. apply in_pairs in Ht as (H1 & H2 & H3 & _). cbn [near_frame ff_queries ff_points length] in H1, H2. replace q with 0%nat by lia. replace p with 0%nat by lia.
    apply (CC (1, 0, (i, j, k))%nat); auto. apply in_pairs. repeat split; auto; cbn; lia.
  - intros [[q p] [[i j] k]] Ht m Hm. apply in_pairs in Ht as (H1 & H2 & H3 & _). cbn [far_frame ff_queries ff_points length] in H1, H2. replace q with 0%nat by lia. replace p with 0%nat by lia.
    apply (CC (0, 1, (i, j, k))%nat); auto. apply in_pairs. repeat split; auto; cbn; lia.
  - assert (D : exists counts, frdf_counts case_axis [near_frame] counts).
    { apply C85_defined; auto. constructor; [|constructor]. right. assert (V10 := proj2 (is_lit_Z 10 ltac:(lia))). assert (V3' := proj2 (is_lit_Z 3 ltac:(lia))). unfold fits_box, near_frame, edge_box, fmk_box, case_axis. cbn [ff_box fL fvx fvy fvz fx_max f2d]. rewrite V3', V10. repeat split; intros; lra. }
    destruct D as [counts H]. exists counts. split; auto. apply brute_counts in H; [|discriminate|apply points_fin, Of]. rewrite near_brute in H. exact H.
Qed.
Print Assumptions C92_single.
Print Assumptions C92_single_refuted.
