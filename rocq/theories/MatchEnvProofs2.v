From Coq Require Import Sorting.Sorted.
From Verif Require Import MatchEnvSpec MatchEnvProofs.
Local Open Scope nat_scope.

(** ** isSimilar *)
Record good (tsq : R) (v1 v2 : list vec3) (vm : bimap) : Prop := {
  gd_fst : NoDup (map fst vm);
  gd_snd : NoDup (map snd vm);
  gd_in : forall i j, In (i, j) vm -> i < length v1 /\ j < length v2 /\ (len_sq (vsub (nth i v1 v0) (nth j v2 v0)) < tsq)%R }.
Lemma existsb_false {A} (f : A -> bool) l : existsb f l = false -> forall x, In x l -> f x = false.
Proof. intros H x Hx. destruct (f x) eqn:E; auto. rewrite <- H. symmetry. apply existsb_exists. eauto. Qed.
Lemma NoDup_snoc {A} (l : list A) x : NoDup l -> ~ In x l -> NoDup (l ++ [x]).
Proof. intros H1 H2. eapply Permutation_NoDup; [apply Permutation_cons_append | constructor; auto]. Qed.
Lemma insert_good tsq v1 v2 vm p : fst p < length v1 -> snd p < length v2 -> good tsq v1 v2 vm ->
  exists vm', insert_close tsq v1 v2 vm p = Some vm' /\ good tsq v1 v2 vm'.
Proof.
  destruct p as [i j]; simpl fst; simpl snd. intros Hi Hj G. unfold insert_close; simpl fst; simpl snd.
  rewrite (nth_error_g v1 i v0 Hi), (nth_error_g v2 j v0 Hj).
  destruct (Rlt_bool_spec (len_sq (vsub (nth i v1 v0) (nth j v2 v0))) tsq) as [H|H]; [|eauto].
  eexists; split; [reflexivity|]. unfold emplace.
  destruct (existsb _ vm) eqn:E; auto. destruct G as [G1 G2 G3].
  assert (Hno : forall a b, In (a, b) vm -> a <> i /\ b <> j).
  { intros a b Hab. pose proof (existsb_false _ _ E _ Hab) as H0. simpl in H0. apply Bool.orb_false_iff in H0. destruct H0 as [H0 H1].
    apply Nat.eqb_neq in H0. apply Nat.eqb_neq in H1. auto. }
  constructor.
  - rewrite map_app. apply NoDup_snoc; auto. intros Hin. apply in_map_iff in Hin. destruct Hin as [[a b] [E1 E2]]. simpl in E1. destruct (Hno a b E2). contradiction.
  - rewrite map_app. apply NoDup_snoc; auto. intros Hin. apply in_map_iff in Hin. destruct Hin as [[a b] [E1 E2]]. simpl in E1. destruct (Hno a b E2). contradiction.
  - intros a b Hab. apply in_app_iff in Hab. destruct Hab as [Hab|[Hab|[]]]; [auto|]. injection Hab as <- <-. auto.
Qed.
Lemma insert_fold tsq v1 v2 : forall cand vm, (forall p, In p cand -> fst p < length v1 /\ snd p < length v2) -> good tsq v1 v2 vm ->
  exists vm', ofold (insert_close tsq v1 v2) cand vm = Some vm' /\ good tsq v1 v2 vm'.
Proof.
  induction cand as [|p cand IH]; intros vm Hc G; cbn [ofold]; [eauto|].
  destruct (Hc p (or_introl eq_refl)) as [H1 H2]. destruct (insert_good tsq v1 v2 vm p H1 H2 G) as [vm' [-> G']].
  apply IH; auto. intros; apply Hc; right; auto.
Qed.
Lemma good_nil tsq v1 v2 : good tsq v1 v2 [].
Proof. constructor; simpl; try constructor; intros; contradiction. Qed.
Lemma good_corr tsq v1 v2 vm : good tsq v1 v2 vm -> length v1 = length v2 -> length vm = length v1 -> correspondence (length v1) vm.
Proof.
  intros [G1 G2 G3] He Hl. split; apply NoDup_Permutation_bis; auto.
  - rewrite seq_length, map_length. lia.
  - intros x Hx. apply in_map_iff in Hx. destruct Hx as [[a b] [E Hp]]. simpl in E; subst. apply in_seq. destruct (G3 x b Hp). lia.
  - rewrite seq_length, map_length. lia.
  - intros x Hx. apply in_map_iff in Hx. destruct Hx as [[a b] [E Hp]]. simpl in E; subst. apply in_seq. destruct (G3 a x Hp). lia.
Qed.
Definition paired (tsq : R) (rot : rotm) (e1 e2 : env) (vm : bimap) : Prop :=
  forall i j, In (i, j) vm -> (len_sq (vsub (nth i (props e1) v0) (rapply rot (nth j (props e2) v0))) < tsq)%R.
Lemma similar_spec tsq reg e1 e2 : okv e1 -> okv e2 -> registers reg -> exists rot vm, is_similar tsq reg e1 e2 = Some (rot, vm) /\
  (vm = [] \/ length (e_vecs e1) = length (e_vecs e2) /\ correspondence (length (e_vecs e1)) vm /\ orthonormal rot /\ (reg = None -> rot = rid) /\ paired tsq rot e1 e2 vm).
Proof.
  intros O1 O2 Hr. unfold is_similar. destruct (Nat.eqb_spec (length (e_vecs e1)) (length (e_vecs e2))) as [El|El]; simpl negb; cbv iota; [|eauto].
  rewrite (proper_props e1 O1), (proper_props e2 O2). pose proof (props_length e1 O1) as L1. pose proof (props_length e2 O2) as L2.
  destruct reg as [f|].
  - specialize (Hr f eq_refl (props e1) (props e2)). destruct (f (props e1) (props e2)) as [rot cand]. simpl in Hr. destruct Hr as [Ho Hin].
    destruct (insert_fold tsq (props e1) (map (rapply rot) (props e2)) cand []) as [vm [-> G]]; [|apply good_nil|].
    { intros [i j] Hp. rewrite map_length. simpl. apply Hin; auto. }
    exists rot. destruct (Nat.eqb_spec (length vm) (length (e_vecs e1))) as [Ev|Ev]; [|eauto].
    exists vm. split; [reflexivity|]. right. split; auto. split; [|split; [auto|split; [discriminate|]]].
    + rewrite <- L1. apply (good_corr tsq _ _ vm G); rewrite ?map_length; lia.
    + intros i j Hp. destruct (gd_in _ _ _ _ G i j Hp) as [H1 [H2 H3]]. rewrite map_length in H2. rewrite (nth_map_lt _ _ _ v0) in H3; auto.
  - destruct (insert_fold tsq (props e1) (props e2) (list_prod (seq 0 (length (props e1))) (seq 0 (length (props e2)))) []) as [vm [-> G]]; [|apply good_nil|].
    { intros [i j] Hp. apply in_prod_iff in Hp. destruct Hp as [H1 H2]. apply in_seq in H1. apply in_seq in H2. simpl. lia. }
    exists rid. destruct (Nat.eqb_spec (length vm) (length (e_vecs e1))) as [Ev|Ev]; [|eauto].
    exists vm. split; [reflexivity|]. right. split; auto. split; [|split; [apply orth_id|split; [auto|]]].
    + rewrite <- L1. apply (good_corr tsq _ _ vm G); lia.
    + intros i j Hp. destruct (gd_in _ _ _ _ G i j Hp) as [H1 [H2 H3]]. rewrite rapply_id. exact H3.
Qed.

(** When every vector has only one candidate, the search finds it. *)
Lemma insert_complete tsq v1 v2 sg k : length v1 = k -> length v2 = k -> (forall i, i < k -> sg i < k) ->
  (forall i j, i < k -> j < k -> sg i = sg j -> i = j) ->
  (forall i, i < k -> (len_sq (vsub (nth i v1 v0) (nth (sg i) v2 v0)) < tsq)%R) ->
  (forall i j, i < k -> j < k -> (len_sq (vsub (nth i v1 v0) (nth j v2 v0)) < tsq)%R -> j = sg i) ->
  forall cand vm, (forall p, In p cand -> fst p < k /\ snd p < k) -> (forall a b, In (a, b) vm -> a < k /\ b = sg a) ->
    exists vm', ofold (insert_close tsq v1 v2) cand vm = Some vm' /\ incl vm vm' /\ (forall i, In (i, sg i) cand -> In (i, sg i) vm').
Proof.
  intros L1 L2 Hs Hinj Hcl Huq. induction cand as [|[i j] cand IH]; intros vm Hc Hv; cbn [ofold].
  { exists vm. split; auto. split; [apply incl_refl|]. intros i []. }
  destruct (Hc (i, j) (or_introl eq_refl)) as [H1 H2]. simpl in H1, H2.
  unfold insert_close at 1; simpl fst; simpl snd. rewrite (nth_error_g v1 i v0) by lia. rewrite (nth_error_g v2 j v0) by lia.
  assert (Hc' : forall p, In p cand -> fst p < k /\ snd p < k) by (intros; apply Hc; right; auto).
  destruct (Rlt_bool_spec (len_sq (vsub (nth i v1 v0) (nth j v2 v0))) tsq) as [H|H].
  - pose proof (Huq i j H1 H2 H) as ->.
    destruct (IH (emplace vm i (sg i))) as [vm' [E [Hi Hall]]]; auto.
    { intros a b Hab. unfold emplace in Hab. destruct (existsb _ vm); [auto|]. apply in_app_iff in Hab. destruct Hab as [Hab|[Hab|[]]]; auto.
      injection Hab as <- <-. auto. }
    exists vm'. split; auto.
    assert (Hsub : incl vm (emplace vm i (sg i))) by (unfold emplace; destruct (existsb _ vm); [apply incl_refl | apply incl_appl, incl_refl]).
    assert (Hme : In (i, sg i) (emplace vm i (sg i))).
    { unfold emplace. destruct (existsb _ vm) eqn:Ex; [|apply in_or_app; right; left; auto].
      apply existsb_exists in Ex. destruct Ex as [[a b] [Hab Ex]]. destruct (Hv a b Hab) as [Ha ->]. simpl in Ex. apply Bool.orb_true_iff in Ex.
      destruct Ex as [Ex|Ex]; apply Nat.eqb_eq in Ex; [subst; auto|]. apply Hinj in Ex; auto. subst; auto. }
    split; [intros x Hx; apply Hi, Hsub, Hx|]. intros i' [E'|Hin]; [|apply Hall; auto]. injection E' as E1 E2. subst i'. apply Hi, Hme.
  - destruct (IH vm) as [vm' [E [Hi Hall]]]; auto. exists vm'. split; auto. split; auto. intros i' [E'|Hin]; [|auto].
    injection E' as E1 E2. subst i' j. exfalso. apply (Rlt_not_le _ _ (Hcl i H1)). exact H.
Qed.
Lemma forall2_nth {A B} (P : A -> B -> Prop) d d' l m : Forall2 P l m <-> length l = length m /\ forall k, k < length l -> P (nth k l d) (nth k m d').
Proof.
  split.
  - induction 1; simpl; [split; auto; intros; lia|]. destruct IHForall2 as [H1 H2]. split; [lia|]. intros [|k] Hk; auto. apply H2. lia.
  - revert m. induction l as [|x l IH]; intros [|y m] [H1 H2]; simpl in *; try lia; constructor.
    + apply (H2 0). lia.
    + apply IH. split; [lia|]. intros k Hk. apply (H2 (S k)). lia.
Qed.
Lemma norm_sub_comm a b : norm (vsub a b) = norm (vsub b a).
Proof. rewrite <- norm_vneg. f_equal. vec_ring. Qed.
Lemma matchable_sigma t v1 v2 : matchable t v1 v2 -> length v1 = length v2 /\ exists sg, (forall i, i < length v1 -> sg i < length v1) /\
  (forall i j, i < length v1 -> j < length v1 -> sg i = sg j -> i = j) /\ forall i, i < length v1 -> close t (nth i v1 v0) (nth (sg i) v2 v0).
Proof.
  intros [w [Hp Ha]]. pose proof (proj1 (forall2_nth _ v0 v0 _ _) Ha) as [Hl Hc]. pose proof (Permutation_length Hp) as Hl2.
  split; [lia|]. pose proof (proj1 (Permutation_nth v2 w v0) Hp) as Hn. simpl in Hn. destruct Hn as [_ [f [Hb [Hi Hf]]]].
  exists f. split; [intros i Hlt; rewrite Hl, <- Hl2; apply Hb; lia|]. split; [intros i j H1 H2; apply Hi; lia|].
  intros i Hlt. rewrite <- Hf by lia. auto.
Qed.
Lemma separated_perm t v w : Permutation v w -> separated t v -> separated t w.
Proof.
  intros Hp Hs i j Hi Hj Hij. pose proof (Permutation_length Hp) as Hl. pose proof (proj1 (Permutation_nth v w v0) Hp) as Hn. simpl in Hn. destruct Hn as [_ [f [Hb [Hinj Hf]]]].
  rewrite (Hf i), (Hf j) by lia. apply Hs; try (apply Hb; lia). intros E. apply Hij, Hinj; auto; lia.
Qed.
Lemma matchable_perm t v1 v1' v2 v2' : Permutation v1 v1' -> Permutation v2 v2' -> matchable t v1 v2 -> matchable t v1' v2'.
Proof.
  intros H1 H2 [w [Hp Ha]]. destruct (Permutation_Forall2 H1 Ha) as [w' [Hw Ha']]. exists w'. split; auto.
  rewrite <- H2, Hp. exact Hw.
Qed.
Lemma norm_tri a b c : (norm (vsub a b) <= norm (vsub a c) + norm (vsub c b))%R.
Proof. replace (vsub a b) with (vadd (vsub a c) (vsub c b)) by vec_ring. apply norm_triangle. Qed.
Lemma similar_complete t e1 e2 : okv e1 -> okv e2 -> matchable t (props e1) (props e2) -> separated t (props e2) -> e_vecs e1 <> [] ->
  exists vm, is_similar (t * t) None e1 e2 = Some (rid, vm) /\ vm <> [].
Proof.
  intros O1 O2 Hm Hs Hne. pose proof (props_length e1 O1) as L1. pose proof (props_length e2 O2) as L2.
  destruct (matchable_sigma t _ _ Hm) as [Hl [sg [S1 [S2 S3]]]].
  destruct (similar_spec (t * t) None e1 e2 O1 O2) as [rot [vm [E _]]]; [intros f Hf; discriminate|].
  unfold is_similar in *. rewrite (proj2 (Nat.eqb_eq (length (e_vecs e1)) (length (e_vecs e2)))) in * by lia. cbn [negb] in *.
  rewrite (proper_props e1 O1), (proper_props e2 O2) in *.
  set (k := length (props e1)) in *.
  destruct (insert_fold (t * t) (props e1) (props e2) (list_prod (seq 0 k) (seq 0 (length (props e2)))) []) as [vm' [Ef G]]; [|apply good_nil|].
  { intros [i j] Hp. apply in_prod_iff in Hp. destruct Hp as [H1 H2]. apply in_seq in H1. apply in_seq in H2. simpl. lia. }
  destruct (insert_complete (t * t) (props e1) (props e2) sg k eq_refl (eq_sym Hl) S1 S2) with (cand := list_prod (seq 0 k) (seq 0 (length (props e2)))) (vm := @nil (nat * nat))
    as [vm'' [E' [_ Hall]]].
  { intros i Hi. apply close_sq. auto. }
  { intros i j Hi Hj Hc. apply close_sq in Hc. destruct (Nat.eq_dec j (sg i)) as [|Hne']; auto. exfalso.
    pose proof (Hs j (sg i)) as H. unfold close in *. specialize (S3 i Hi).
    pose proof (norm_tri (nth j (props e2) v0) (nth (sg i) (props e2) v0) (nth i (props e1) v0)) as Ht. rewrite (norm_sub_comm _ (nth i (props e1) v0)) in Ht.
    specialize (S1 i Hi). assert (H' := H ltac:(lia) ltac:(lia) Hne'). lra. }
  { intros [i j] Hp. apply in_prod_iff in Hp. destruct Hp as [H1 H2]. apply in_seq in H1. apply in_seq in H2. simpl. lia. }
  { intros a b []. }
  rewrite Ef in E'. injection E' as <-. rewrite Ef.
  assert (Hlen : length vm' = length (e_vecs e1)).
  { apply Nat.le_antisymm.
    - destruct G as [G1 _ G3]. rewrite <- L1. fold k. rewrite <- (map_length fst), <- (seq_length k 0). apply NoDup_incl_length; auto.
      intros x Hx. apply in_map_iff in Hx. destruct Hx as [[a b] [Ex Hp]]. simpl in Ex; subst. apply in_seq. destruct (G3 x b Hp). fold k in H. lia.
    - rewrite <- L1. fold k. rewrite <- (map_length fst vm'), <- (seq_length k 0). apply NoDup_incl_length; [apply seq_NoDup|].
      intros x Hx. apply in_seq in Hx. apply in_map_iff. exists (x, sg x). split; auto. apply Hall. apply in_prod; apply in_seq; [lia|].
      specialize (S1 x). lia. }
  rewrite Hlen, Nat.eqb_refl. exists vm'. split; auto. destruct vm'; [|discriminate]. simpl in Hlen. destruct (e_vecs e1); [contradiction|discriminate].
Qed.
Lemma similar_matchable t e1 e2 vm rot : okv e1 -> okv e2 -> e_rot e1 = rid -> e_rot e2 = rid -> is_similar (t * t) None e1 e2 = Some (rot, vm) -> vm <> [] ->
  matchable t (e_vecs e1) (e_vecs e2).
Proof.
  intros O1 O2 R1 R2 E Hne. destruct (similar_spec (t * t) None e1 e2 O1 O2) as [rot' [vm' [E' H]]]; [intros f Hf; discriminate|].
  rewrite E in E'. injection E' as <- <-. destruct H as [H|[Hl [Hc [_ [Hr Hp]]]]]; [contradiction|]. rewrite (Hr eq_refl) in Hp.
  apply (matchable_perm t (props e1) _ (props e2) _); try (symmetry; apply props_perm; auto).
  destruct (corr_left _ _ Hc) as [_ [f [Hf Hfp]]]. pose proof (props_length e1 O1) as L1. pose proof (props_length e2 O2) as L2.
  exists (map (fun i => nth (f i) (props e2) v0) (seq 0 (length (e_vecs e1)))). split.
  - rewrite <- (perm_map_nth (props e2) v0) at 1. rewrite L2, <- Hl. rewrite <- (map_map f (fun i => nth i (props e2) v0)). apply Permutation_map. symmetry. exact Hfp.
  - apply (forall2_nth _ v0 v0). rewrite map_length, seq_length. split; [auto|]. intros k Hk. rewrite (nth_map_lt _ _ _ 0) by (rewrite seq_length; lia).
    rewrite seq_nth by lia. simpl. apply close_sq. destruct (Hf k) as [_ [Hin _]]; [lia|]. specialize (Hp k (f k) Hin). rewrite rapply_id in Hp. exact Hp.
Qed.
