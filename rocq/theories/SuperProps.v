(** C90: a block of copies of a system behaves as the system does. *)
From Coq Require Import Reals ZArith List Permutation Lia Lra Psatz.
From Verif Require Import FilterProps BoxProofs BoxProps AABBProofs2 AABBProps LinkCellProps QueryProps RdfProps ParProofs SymmProofs SymmProps LocalDensProps DsetProps ClusterProps HexProps SymmProps2 SuperProofs.
From Verif Require Import ClusterModel.
From Verif Require Import SuperSpec LocalDensSpec DsetSpec ClusterSpec HexSpec.
From Verif Require Import BoxSpec QueryArgSpec QuerySpec RdfShell.
Import ListNotations.
Local Open Scope R_scope.

(** The block meets the conditions of the queries if the system does. *)
Theorem C90_setting n b b' t f g k l p r points qs points' qs' :
  setting b points qs p r -> super_box n b b' -> positive b' -> replicated n b b' t f k points points' -> replicated n b b' t g l qs qs' ->
  (Z.of_nat (length points') <= 2 ^ 31)%Z -> (forall x, In x points' -> in_cell b' x) -> (forall x, In x qs' -> in_cell b' x) ->
  setting b' points' qs' p r.
Proof.
  intros [Hb FP Hne Hn HP Hqne HQ S W A R0 R1 RO] SB Hb' RP RQ L HP' HQ'.
  assert (NE : forall (u u' : list vec3), u <> [] -> length u' = (copies_number n * length u)%nat -> u' <> []).
  { intros u u' Hu E ->. destruct u; [auto|]. simpl in E. assert (copies_number n <> 0%nat); [|lia]. destruct n as [[nx ny] nz]. destruct SB as ((X & Y & Z) & _). unfold copies_number. nia. }
  constructor; auto.
  - destruct n as [[nx ny] nz]. apply SB.
  - apply (NE points); auto. eapply copies_count; eauto.
  - apply (NE qs); auto. eapply copies_count; eauto.
  - eapply radius_super; eauto. lra.
Qed.
(** Every backend, on either side, finds the same bonds for every copy of a query point. *)
Theorem C90_bonds (be be' : backend) n b b' t f g k l p r points qs points' qs' :
  setting b points qs p r -> super_box n b b' -> positive b' -> replicated n b b' t f k points points' -> replicated n b b' t g l qs qs' ->
  (or_else (pa_excl p) false = true -> points = qs /\ points' = qs' /\ f = g) ->
  (Z.of_nat (length points') <= 2 ^ 31)%Z -> (forall x, In x points' -> in_cell b' x) -> (forall x, In x qs' -> in_cell b' x) ->
  usable be b points -> usable be' b' points' ->
  exists ls ls', (forall res, py_query be b points qs p res <-> res = Some ls) /\ (forall res, py_query be' b' points' qs' p res <-> res = Some ls') /\
    length ls = length qs /\ length ls' = length qs' /\
    forall i, (i < length qs')%nat -> (g i < length qs)%nat /\ Permutation (map (home f g) (nth i ls' [])) (nth (g i) ls []).
Proof.
  intros St SB Hb' RP RQ EX L HP' HQ' U U'. assert (St' := C90_setting _ _ _ _ _ _ _ _ _ _ _ _ _ _ St SB Hb' RP RQ L HP' HQ').
  destruct (C32_ball be b points qs p r St U) as (ls & E & Ls & H). destruct (C32_ball be' _ points' qs' _ _ St' U') as (ls' & E' & Ls' & H').
  destruct St as [Hb FP Hne Hn HP Hqne HQ Se W A R0 R1 RO].
  exists ls, ls'. split; [exact E|]. split; [exact E'|]. split; [exact Ls|]. split; [exact Ls'|]. intros i Hi. assert (Hg : (g i < length qs)%nat) by (eapply copy_range; [exact RQ|exact Hi]). split; [exact Hg|].
  destruct (H (g i) Hg) as (N & I). destruct (H' i Hi) as (N' & I').
  apply NoDup_Permutation; [apply map_nodup; auto|exact N|].
  - intros x y Hx Hy Exy. apply I' in Hx, Hy. eapply (home_inj n b b' SB Hb FP Hb' t f g k _ points points' qs'); eauto.
  - intros x. rewrite I. rewrite (range_super n b b' SB Hb FP Hb' t f g k l _ points qs points' qs' RP RQ EX HP HQ HP' HQ' i r _ x Hi R0 RO). rewrite in_map_iff. split; intros (x' & K1 & K2); exists x'; split; auto; apply I'; auto.
Qed.
Print Assumptions C90_bonds.

(** * RDF *)
Inductive multiple_op (m : nat) : rop -> rop -> Prop :=
  | MOCompute reset fr fr' : multiple_frame m fr fr' -> multiple_op m (RCompute reset fr) (RCompute reset fr')
  | MORead ev ev' : multiple_op m (RRead ev) (RRead ev')
  | MOMode md : multiple_op m (RMode md) (RMode md).
Lemma rsince_multiple m h h' : Forall2 (multiple_op m) h h' -> forall acc acc', Forall2 (multiple_frame m) acc acc' -> Forall2 (multiple_frame m) (rsince h acc) (rsince h' acc').
Proof.
  induction 1 as [|o o' h h' O _ IH]; intros acc acc' F; simpl; auto. destruct O as [[|] fr fr' D| |]; apply IH; auto. apply Forall2_app; auto.
Qed.
Lemma mode_multiple m h h' : Forall2 (multiple_op m) h h' -> forall s md l, read_mode h' s md l = read_mode h s md l.
Proof. induction 1 as [|o o' h h' O _ IH]; intros; simpl; auto. destruct O; auto. Qed.
Lemma dist_count_cons lo hi fr fs : dist_count lo hi (fr :: fs) = (dist_count lo hi [fr] + dist_count lo hi fs)%nat.
Proof. unfold dist_count. simpl. rewrite app_nil_r, filter_app, app_length. reflexivity. Qed.
Lemma count_multiple m lo hi fs fs' : Forall2 (multiple_frame m) fs fs' -> dist_count lo hi fs' = (m * dist_count lo hi fs)%nat.
Proof. induction 1 as [|fr fr' fs fs' [D _] _ IH]; [unfold dist_count; simpl; lia|]. rewrite (dist_count_cons lo hi fr'), (dist_count_cons lo hi fr), D, IH. lia. Qed.
(** The RDF of the block is that of the system; with normalization_mode finite_size both approach it, at their own pace. *)
Theorem C90_rdf m bins r_max r_min r0 h h' ev ev' fs fr : (0 < m)%nat ->
  rdf_make bins r_max r_min = Some r0 -> (0 <= bins < 4294967295)%Z ->
  Forall (rop_ok bins) h -> Forall (rop_ok bins) h' -> execution 0 (Z.to_nat bins) ev -> execution 0 (Z.to_nat bins) ev' -> Forall2 (multiple_op m) h h' ->
  let md := read_mode h false Exact None in
  rsince h [] = fs ++ [fr] -> data_ok md (ri_data fr) -> (Z.of_nat (m * dist_count r_min r_max (fs ++ [fr])) < 2 ^ 32)%Z ->
  exists r r', rdf_run r0 (h ++ [RRead ev]) = Some r /\ rdf_run r0 (h' ++ [RRead ev']) = Some r' /\ rdf_nr r' = rdf_nr r /\
    (md = Exact -> rdf_pcf r' = rdf_pcf r) /\
    (md = FiniteSize -> length (rdf_pcf r') = length (rdf_pcf r) /\ forall i, (i < length (rdf_pcf r))%nat ->
       nth i (rdf_pcf r') 0 * (1 - / INR (m * rd_nqp (ri_data fr))) = nth i (rdf_pcf r) 0 * (1 - / INR (rd_nqp (ri_data fr)))).
Proof.
  intros M0 Mk Hb Hh Hh' He He' HS md Rs Hd Small. assert (F := rsince_multiple m h h' HS [] [] (Forall2_nil _)). rewrite Rs in F.
  apply Forall2_app_inv_l in F as (fs' & l2 & F1 & F2 & Rs'). inversion F2 as [|? fr' ? l3 D F3]; subst. inversion F3; subst. clear F2 F3.
  assert (FF : Forall2 (multiple_frame m) (fs ++ [fr]) (fs' ++ [fr'])) by (apply Forall2_app; auto).
  assert (CS := fun lo hi => count_multiple m lo hi _ _ FF). assert (M := mode_multiple m h h' HS false Exact None). fold md in M.
  destruct D as (_ & Z1 & Z2 & Z3 & Z4). set (d := ri_data fr) in *. set (d' := ri_data fr') in *.
  assert (MP : 0 < INR m) by (apply lt_0_INR; auto).
  assert (Hd' : data_ok md d'). { destruct Hd as (V & P & Q). unfold data_ok. rewrite Z2, Z3, Z4. split; [apply Rmult_lt_0_compat; auto|]. split; [nia|]. destruct md; nia. }
  destruct (C49_values bins r_max r_min r0 h ev fs fr Mk Hb Hh He Rs Hd) as (r & E & Lp & Ln & V).
  { assert (dist_count r_min r_max (fs ++ [fr]) <= m * dist_count r_min r_max (fs ++ [fr]))%nat by nia. lia. }
  destruct (C49_values bins r_max r_min r0 h' ev' fs' fr' Mk Hb Hh' He' Rs') as (r' & E' & Lp' & Ln' & V').
  { rewrite M. exact Hd'. } { rewrite CS. exact Small. }
  exists r, r'. split; [exact E|]. split; [exact E'|]. cbv zeta in V, V'. fold d md in V. fold d' in V'. rewrite M in V'.
  assert (LF : length (fs' ++ [fr']) = length (fs ++ [fr])) by (symmetry; revert FF; generalize (fs ++ [fr]) (fs' ++ [fr']); induction 1; simpl; congruence). rewrite LF in V'.
  assert (NF : 0 < INR (length (fs ++ [fr]))) by (apply lt_0_INR; rewrite app_length; simpl; lia). destruct Hd as (Vp & Np & Nq). set (nf := INR (length (fs ++ [fr]))) in *.
  assert (Np' : 0 < INR (rd_np d)) by (apply lt_0_INR; auto). assert (Nq' : 0 < INR (rd_nqp d)) by (apply lt_0_INR; destruct md; lia).
  assert (ok : 0 < r_max /\ 0 <= r_min /\ r_min < r_max /\ (0 < bins)%Z).
  { assert (N : ~ rdf_make bins r_max r_min = None) by congruence. rewrite C49_reject in N by lia. repeat split; try (apply Rnot_le_lt; tauto); try (apply Rnot_lt_le; tauto). lia. }
  destruct ok as (O1 & O2 & O3 & O4). assert (BP : 0 < IZR bins) by (apply IZR_lt; auto).
  assert (K : forall i, (i < Z.to_nat bins)%nat -> nth i (rdf_pcf r') 0 * (density md d') = nth i (rdf_pcf r) 0 * density md d).
  { intros i Hi. destruct (V i Hi) as [V1 _]. destruct (V' i Hi) as [V1' _]. rewrite CS, mult_INR, <- V1, Z1, Z2, mult_INR in V1'.
    assert (SP : 0 < shell (rd_2d d) (edge bins r_max r_min i) (edge bins r_max r_min (S i))).
    { apply shell_pos. unfold edge. rewrite S_INR. assert (0 <= INR i) by apply pos_INR. assert (0 < (r_max - r_min) / IZR bins) by (apply Rdiv_lt_0_compat; lra). split; nra. }
    set (sh := shell _ _ _) in *. apply Rmult_eq_reg_r with (sh * (INR m * INR (rd_np d)) * nf); [|apply Rgt_not_eq; repeat apply Rmult_lt_0_compat; auto].
    rewrite <- (Rmult_assoc (INR m)) in V1'. transitivity (nth i (rdf_pcf r') 0 * (density md d' * sh * (INR m * INR (rd_np d)) * nf)); [ring|]. rewrite V1'. ring. }
  assert (DE : INR (m * rd_nqp d) / (INR m * rd_vol d) = INR (rd_nqp d) / rd_vol d) by (rewrite mult_INR; field; split; lra).
  split; [|split].
  - apply (list_eq _ _ (Z.to_nat bins)); auto. intros i Hi. destruct (V i Hi) as [_ V2]. destruct (V' i Hi) as [_ V2']. rewrite CS, mult_INR, <- V2, Z3, mult_INR in V2'.
    apply Rmult_eq_reg_r with (INR m * INR (rd_nqp d) * nf); [|apply Rgt_not_eq; repeat apply Rmult_lt_0_compat; auto]. rewrite V2'. ring.
  - intros ME. apply (list_eq _ _ (Z.to_nat bins)); auto. intros i Hi. specialize (K i Hi). rewrite ME in K. unfold density in K. rewrite Z3, Z4, DE in K. apply Rmult_eq_reg_r in K; auto. apply Rgt_not_eq, Rdiv_lt_0_compat; auto.
  - intros ME. split; [congruence|]. rewrite Lp. intros i Hi. specialize (K i Hi). rewrite ME in K. unfold density in K. rewrite Z3, Z4 in K. rewrite mult_INR in *.
    apply Rmult_eq_reg_r with (INR (rd_nqp d) / rd_vol d); [|apply Rgt_not_eq, Rdiv_lt_0_compat; auto].
    transitivity (nth i (rdf_pcf r') 0 * ((INR m * INR (rd_nqp d) - 1) / (INR m * rd_vol d))); [field; repeat split; lra|]. rewrite K. field. split; lra.
Qed.
Print Assumptions C90_rdf.
(** The frames delivered by the queries are multiples of each other. *)
Lemma count_perm lo hi l l' : Permutation (map bd l) (map bd l') -> length (filter (fun x => Rle_bool lo (bd x) && Rlt_bool (bd x) hi) l) = length (filter (fun x => Rle_bool lo (bd x) && Rlt_bool (bd x) hi) l').
Proof.
  assert (G : forall u, length (filter (fun x => Rle_bool lo (bd x) && Rlt_bool (bd x) hi) u) = length (filter (fun d => Rle_bool lo d && Rlt_bool d hi) (map bd u))).
  { induction u as [|x u IH]; simpl; auto. destruct (_ && _); simpl; auto. }
  intros P. rewrite !G. apply Permutation_length, filter_perm. exact P.
Qed.
Lemma flat_prod {A B C} (h : A -> list C) (l : list A) (m : list B) : Permutation (flat_map (fun x => h (fst x)) (list_prod l m)) (concat (repeat (flat_map h l) (length m))).
Proof.
  induction l as [|x l IH]; simpl; [induction (length m); simpl; auto|]. rewrite flat_map_app, IH. rewrite flat_map_map'. cbn [fst]. clear IH. generalize (flat_map h l). intros u.
  induction m as [|y m IH]; simpl; auto. rewrite <- !app_assoc. apply Permutation_app_head. rewrite <- IH. rewrite !app_assoc. apply Permutation_app_tail, Permutation_app_comm.
Qed.
Theorem C90_frames n b b' t f g l np np' (qs qs' : list vec3) ls ls' ev ev' : super_box n b b' -> replicated n b b' t g l qs qs' ->
  length ls = length qs -> length ls' = length qs' -> np' = (copies_number n * np)%nat ->
  (forall i, (i < length qs')%nat -> (g i < length qs)%nat /\ Permutation (map (home f g) (nth i ls' [])) (nth (g i) ls [])) ->
  multiple_frame (copies_number n) (query_frame b np ls ev) (query_frame b' np' ls' ev').
Proof.
  intros SB RQ L L' En H. assert (C := copies_count n b b' SB t g l qs qs' RQ). unfold multiple_frame, query_frame. cbn [ri_data rd_2d rd_np rd_nqp rd_vol]. split; [|repeat split; auto].
  - intros lo hi. unfold dist_count, ri_all. cbn [flat_map ri_n ri_bonds]. rewrite !app_nil_r, !range_seq, L, L'.
    set (u := flat_map (fun i => nth i ls []) (seq 0 (length qs))). set (u' := flat_map (fun i => nth i ls' []) (seq 0 (length qs'))).
    transitivity (length (filter (fun x => Rle_bool lo (bd x) && Rlt_bool (bd x) hi) (concat (repeat u (copies_number n))))).
    + apply count_perm. transitivity (map bd (map (home f g) u')); [rewrite map_map; apply Permutation_refl|]. apply Permutation_map. unfold u'. rewrite map_flat_map.
      transitivity (flat_map (fun i => nth (g i) ls []) (seq 0 (length qs'))); [apply flat_map_pointwise; intros i Hi; apply in_seq in Hi; apply H; lia|].
      destruct RQ as (_ & _ & P). apply (flat_map_perm (fun x => nth (fst x) ls [])) in P. rewrite flat_map_map' in P. cbn [fst] in P. rewrite P. rewrite (flat_prod (fun i => nth i ls [])). fold u. rewrite block_length; [apply Permutation_refl|]. destruct n as [[nx ny] nz]. apply SB.
    + clear En C H. induction (copies_number n) as [|m IH]; simpl; auto. rewrite filter_app, app_length, IH. reflexivity.
  - eapply planar; eauto.
  - rewrite L, L'. exact C.
  - apply volume_super. exact SB.
Qed.

(** * LocalDensity *)
Theorem C90_local_density f g r D l two_d nq nq' ls ls' ev ev' num dens num' dens' : ldn_make r D = Some l ->
  (forall i, (i < nq')%nat -> (g i < nq)%nat /\ Permutation (map (home f g) (nth i ls' [])) (nth (g i) ls [])) ->
  execution 0 nq ev -> execution 0 nq' ev' ->
  ldn_compute l two_d nq (fun i => nth i ls []) ev = (num, dens) -> ldn_compute l two_d nq' (fun i => nth i ls' []) ev' = (num', dens') ->
  forall i, (i < nq')%nat -> 0 < D \/ (forall x, In x (nth (g i) ls []) -> bd x < r) -> exists n v,
    nth (g i) num None = Some n /\ nth i num' None = Some n /\ nth (g i) dens None = Some v /\ nth i dens' None = Some v.
Proof.
  intros Mk SB He He' E E' i Hi Hc. destruct (SB i Hi) as [Hg P].
  assert (V := C51_values r D l two_d nq (fun i => nth i ls []) ev Mk He). rewrite E in V. assert (V' := C51_values r D l two_d nq' (fun i => nth i ls' []) ev' Mk He'). rewrite E' in V'.
  destruct V as (_ & _ & V), V' as (_ & _ & V'). destruct (V (g i) Hg Hc) as (n & v & N1 & N2 & N3 & N4 & N5).
  assert (DP : Permutation (map bd (nth i ls' [])) (map bd (nth (g i) ls []))) by (apply (Permutation_map bd) in P; rewrite map_map in P; exact P).
  assert (Rp : 0 < r /\ 0 <= D). { assert (K : ~ ldn_make r D = None) by congruence. rewrite C51_reject in K. split; [apply Rnot_le_lt; tauto|apply Rnot_lt_le; tauto]. }
  destruct (V' i Hi) as (n' & v' & M1 & M2 & M3 & M4 & M5).
  { destruct Hc as [Hc|Hc]; [left; exact Hc|right]. intros x Hx. assert (K : In (bd x) (map bd (nth (g i) ls []))) by (eapply Permutation_in; [exact DP|]; apply in_map; auto).
    apply in_map_iff in K as (y & Ey & Hy). specialize (Hc y Hy). lra. }
  assert (En : n' = n).
  { destruct (Rle_lt_or_eq_dec 0 D) as [H|H]; [apply Rp| |].
    - rewrite M4, N4 by auto. rewrite <- !(map_map bd (inside r D)). apply lrsum_perm, Permutation_map. exact DP.
    - rewrite M5, N5 by auto. apply Permutation_length in P. rewrite map_length in P. congruence. }
  exists n, v. rewrite En in M1, M3. split; [exact N1|]. split; [exact M1|]. split; [exact N2|]. rewrite M2. f_equal.
  assert (SP : 0 < shell two_d 0 r) by (apply shell_pos; lra). apply Rmult_eq_reg_r with (shell two_d 0 r); [congruence|lra].
Qed.

(** * Cluster: the copies of a cluster lie in clusters of the block that project to it; there are at least as many. *)
Lemma classes_le' n1 n2 (h : nat -> nat) num1 idx1 num2 idx2 : (forall i, (i < n1)%nat -> (h i < n2)%nat) ->
  (forall i j, (i < n1)%nat -> (j < n1)%nat -> idx2 (h i) = idx2 (h j) -> idx1 i = idx1 j) ->
  (forall c, (c < num1)%nat -> exists i, (i < n1)%nat /\ idx1 i = c) -> (forall i, (i < n2)%nat -> (idx2 i < num2)%nat) -> (num1 <= num2)%nat.
Proof.
  intros H I S B. set (rep := fun c => hd 0%nat (members n1 idx1 c)).
  assert (RP : forall c, (c < num1)%nat -> (rep c < n1)%nat /\ idx1 (rep c) = c).
  { intros c Hc. destruct (S c Hc) as (i & Hi & E). assert (K : In i (members n1 idx1 c)) by (apply members_in; auto). unfold rep. destruct (members n1 idx1 c) as [|k l] eqn:EM; [destruct K|]. simpl. apply members_in. rewrite EM. simpl; auto. }
  rewrite <- (seq_length num1 0), <- (seq_length num2 0), <- (map_length (fun c => idx2 (h (rep c)))). apply NoDup_incl_length.
  - apply map_nodup; [apply seq_NoDup|]. intros x y Hx Hy E. apply in_seq in Hx, Hy. destruct (RP x) as [X1 X2]; [lia|]. destruct (RP y) as [Y1 Y2]; [lia|]. rewrite <- X2, <- Y2. apply I; auto.
  - intros x Hx. apply in_map_iff in Hx as (c & <- & Hc). apply in_seq in Hc. apply in_seq. destruct (RP c) as [X1 _]; [lia|]. specialize (B (h (rep c)) (H _ X1)). lia.
Qed.
Theorem C90_cluster n b b' t f k points points' ls ls' threads threads' keys keys' r r' : super_box n b b' -> replicated n b b' t f k points points' ->
  (forall i, (i < length points')%nat -> (f i < length points)%nat /\ Permutation (map (home f f) (nth i ls' [])) (nth (f i) ls [])) ->
  (forall p q, In (p, q) (pairs_of ls (length points)) -> (p < length points /\ q < length points)%nat) ->
  (forall p q, In (p, q) (pairs_of ls' (length points')) -> (p < length points' /\ q < length points')%nat) ->
  Permutation (pairs_of ls (length points)) (concat threads) -> Permutation (pairs_of ls' (length points')) (concat threads') ->
  cluster_run (length points) threads keys r -> cluster_run (length points') threads' keys' r' ->
  (forall i j, (i < length points')%nat -> (j < length points')%nat -> cr_idx r' i = cr_idx r' j -> cr_idx r (f i) = cr_idx r (f j)) /\
  (cr_num r <= cr_num r')%nat.
Proof.
  intros SB RP H B B' P P' Run Run'. assert (C := C39_components _ _ _ _ _ B P Run). assert (C' := C39_components _ _ _ _ _ B' P' Run').
  assert (F1 : forall p q, In (p, q) (pairs_of ls' (length points')) -> In (f p, f q) (pairs_of ls (length points))).
  { intros p q K. apply in_map_iff in K as (x & E & Hx). injection E as E1 E2. apply in_flat_map in Hx as (i & Hi & Hx). apply in_seq in Hi. destruct (H i) as [Hf Q]; [lia|]. apply in_map_iff. exists (home f f x). split; [unfold home; cbn; congruence|].
    apply in_flat_map. exists (f i). split; [apply in_seq; lia|]. eapply Permutation_in; [exact Q|]. apply in_map; auto. }
  assert (CC : forall i j, (i < length points')%nat -> (j < length points')%nat -> cr_idx r' i = cr_idx r' j -> cr_idx r (f i) = cr_idx r (f j)).
  { intros i j Hi Hj E. apply C' in E; auto. apply C; [apply H; auto|apply H; auto|]. eapply connected_map; eauto. }
  split; [exact CC|]. destruct (C40_numbering _ _ _ _ _ B P Run) as (_ & _ & N3 & _). destruct (C40_numbering _ _ _ _ _ B' P' Run') as (_ & N2' & _ & _).
  set (inv := fun j => hd 0%nat (filter (fun i => Nat.eqb (f i) j) (seq 0 (length points')))).
  assert (IV : forall j, (j < length points)%nat -> (inv j < length points')%nat /\ f (inv j) = j).
  { intros j Hj. destruct (copy_exists n b b' SB t f k points points' RP j 0 0 0 Hj) as (i & Hi & E & _). assert (K : In i (filter (fun i => Nat.eqb (f i) j) (seq 0 (length points')))) by (apply filter_In; rewrite in_seq, Nat.eqb_eq; auto with arith).
    unfold inv. destruct (filter _ _) as [|y u] eqn:EM; [destruct K|]. assert (K2 : In y (y :: u)) by (simpl; auto). rewrite <- EM in K2. apply filter_In in K2. rewrite in_seq, Nat.eqb_eq in K2. simpl. lia. }
  apply (classes_le' (length points) (length points') inv _ (cr_idx r) _ (cr_idx r')); auto; [intros; apply IV; auto|]. intros i j Hi Hj E. destruct (IV i Hi) as [I1 I2], (IV j Hj) as [J1 J2]. rewrite <- I2, <- J2. apply CC; auto.
Qed.
Print Assumptions C90_cluster.

(** * Hexatic *)
Theorem C90_hexatic kk weighted be be' n b b' t f k p r points points' ev ev' : b_2d b = true ->
  setting b points points p r -> super_box n b b' -> positive b' -> replicated n b b' t f k points points' ->
  (Z.of_nat (length points') <= 2 ^ 31)%Z -> (forall x, In x points' -> in_cell b' x) ->
  usable be b points -> usable be' b' points' -> execution 0 (length points) ev -> execution 0 (length points') ev' ->
  exists ls ls' psi psi', (forall res, py_query be b points points p res <-> res = Some ls) /\ (forall res, py_query be' b' points' points' p res <-> res = Some ls') /\
    hex_compute kk weighted b points (fun i => nth i ls []) ev = HDone psi /\ hex_compute kk weighted b' points' (fun i => nth i ls' []) ev' = HDone psi' /\
    forall i, (i < length points')%nat -> nth i psi' None = nth (f i) psi None.
Proof.
  intros D2 St SB Hb' RP L HP' U U' He He'.
  destruct (C90_bonds be be' n b b' t f f k k p r points points points' points' St SB Hb' RP RP ltac:(auto) L HP' HP' U U') as (ls & ls' & Q & Q' & L1 & L1' & H).
  assert (St' := C90_setting _ _ _ _ _ _ _ _ _ _ _ _ _ _ St SB Hb' RP RP L HP' HP'). assert (D2' : b_2d b' = true) by (rewrite (planar n b b' SB); exact D2).
  assert (T := fun i => query_terms be b points p r ls kk weighted i St U Q). assert (T' := fun i => query_terms be' _ points' _ _ ls' kk weighted i St' U' Q').
  destruct (C57_value kk weighted b points (fun i => nth i ls []) ev D2) as (psi & E & _ & V); auto. { intros i x Hi Hx. apply (proj1 (T i Hi) x Hx). }
  destruct (C57_value kk weighted b' points' (fun i => nth i ls' []) ev' D2') as (psi' & E' & _ & V'); auto. { intros i x Hi Hx. apply (proj1 (T' i Hi) x Hx). }
  exists ls, ls', psi, psi'. do 4 (split; [assumption|]). intros i Hi. destruct (H i Hi) as [Hf P]. destruct (V (f i) Hf) as [V1 V2], (V' i Hi) as [V1' V2']. cbv zeta in V1, V2, V1', V2'.
  rewrite (proj2 (T (f i) Hf)) in V1, V2. rewrite (proj2 (T' i Hi)) in V1', V2'.
  assert (HE : hterms kk weighted bv (map (home f f) (nth i ls' [])) = hterms kk weighted bv (nth i ls' [])) by (unfold hterms; rewrite map_map; reflexivity).
  assert (WM : forall z, wmean (hterms kk weighted bv (nth i ls' [])) z <-> wmean (hterms kk weighted bv (nth (f i) ls [])) z) by (intros z; rewrite <- HE; split; apply C57_permutation; auto; apply Permutation_sym; auto).
  destruct (nth (f i) psi None) as [z|] eqn:Ez.
  - apply V1', WM, V1. reflexivity.
  - destruct (nth i psi' None) as [z|] eqn:Ez'; auto. assert (K := proj1 (V1' z) eq_refl). apply WM, V1 in K. discriminate.
Qed.
Print Assumptions C90_hexatic.
