From Coq Require Import Sorting.Sorted.
From Verif Require Import MatchEnvSpec MatchEnvProofs MatchEnvProofs2 MatchEnvProofs3.
Local Open Scope nat_scope.

(** ** Averages *)
Lemma add_vecs_spec : forall a v, length a = length v -> length (add_vecs a v) = length v /\ forall k, nth k (add_vecs a v) v0 = vadd (nth k a v0) (nth k v v0).
Proof.
  induction a as [|x a IH]; intros [|y v] Hl; simpl in *; try lia.
  - split; auto. intros [|k]; symmetry; apply vadd_0_l.
  - destruct (IH v) as [H1 H2]; [lia|]. split; [lia|]. intros [|k]; auto.
Qed.
Lemma add_all K : forall l a, length a = K -> (forall v, In v l -> length v = K) ->
  length (fold_left add_vecs l a) = K /\ forall k, nth k (fold_left add_vecs l a) v0 = vadd (nth k a v0) (vsum (map (fun v => nth k v v0) l)).
Proof.
  induction l as [|v l IH]; intros a Ha Hl; simpl.
  - split; auto. intros k. rewrite vadd_0_r. reflexivity.
  - assert (Hv : length v = K) by (apply Hl; left; auto). destruct (add_vecs_spec a v) as [H1 H2]; [lia|].
    destruct (IH (add_vecs a v)) as [H3 H4]; [lia| intros; apply Hl; right; auto|]. split; auto. intros k. rewrite H4, H2. rewrite vadd_assoc. reflexivity.
Qed.
Definition total_env (s : list env) (m : nat) : list vec3 := fold_left add_vecs (map (fun i => props (g s i)) (set_of s m)) [].
Definition mean_of (s : list env) (m : nat) : list vec3 := map (vscale (1 / INR (length (set_of s m)))) (total_env s m).
Section populate.
  Variables (s : list env) (rank : list nat).
  Hypothesis W : wf s rank.
  Hypothesis physical : forall i, i < length s -> e_ghost (g s i) = false.
  Lemma total_spec m : m < length s -> root s m = m ->
    length (total_env s m) = length (e_vecs (g s m)) /\ forall k, nth k (total_env s m) v0 = vsum (map (fun i => nth k (props (g s i)) v0) (set_of s m)).
  Proof.
    intros Hm Hr. unfold total_env.
    assert (Hs : forall i, In i (set_of s m) -> length (props (g s i)) = length (e_vecs (g s m))).
    { intros i Hi. apply in_set_of in Hi. destruct Hi as [Hi E]. rewrite props_length by (apply (wf_ok _ _ W); auto). apply (wf_size _ _ W); auto. congruence. }
    assert (Hin : In m (set_of s m)) by (apply in_set_of; auto). destruct (set_of s m) as [|x l]; [destruct Hin|]. cbn [map fold_left].
    change (add_vecs [] (props (g s x))) with (props (g s x)).
    destruct (add_all (length (e_vecs (g s m))) (map (fun i => props (g s i)) l) (props (g s x))) as [H1 H2].
    - apply Hs; left; auto.
    - intros v Hv. apply in_map_iff in Hv. destruct Hv as [i [<- Hi]]. apply Hs; right; auto.
    - split; auto. intros k. rewrite H2, map_map. reflexivity.
  Qed.
  Lemma avg_spec m : m < length s -> root s m = m -> avg_env s m = Some (mean_of s m, s).
  Proof.
    intros Hm Hr. unfold avg_env. set (f := fun (st : list vec3 * nat * list env) i => _).
    assert (Hs : forall acc n i, i < length s -> f (acc, n, s) i = Some (if root s i =? m then (add_vecs acc (props (g s i)), S n, s) else (acc, n, s))).
    { intros acc n i Hi. unfold f. rewrite (nth_error_g s i dflt Hi). fold (g s i). rewrite physical by auto.
      fold (root s i). destruct (wf_flat _ _ W i Hi) as [H1 H2]. rewrite (mfind_flat s (root s i)) by (auto; apply (wf_flat _ _ W)). rewrite H2.
      rewrite (proper_props _ (wf_ok _ _ W i Hi)). destruct (root s i =? m); reflexivity. }
    assert (H : forall l acc n, (forall i, In i l -> i < length s) -> ofold f l (acc, n, s) =
      Some (fold_left add_vecs (map (fun i => props (g s i)) (filter (fun i => root s i =? m) l)) acc, n + length (filter (fun i => root s i =? m) l), s)).
    { induction l as [|i l IH]; intros acc n Hl; cbn [ofold filter map fold_left length]. { rewrite Nat.add_0_r; auto. }
      rewrite Hs by (apply Hl; left; auto). destruct (root s i =? m); rewrite IH by (intros; apply Hl; right; auto); cbn [map fold_left length]; [|reflexivity].
      rewrite Nat.add_succ_r. reflexivity. }
    rewrite H by (intros i Hi; apply in_seq in Hi; lia). fold (set_of s m). simpl plus.
    assert (Hin : In m (set_of s m)) by (apply in_set_of; auto).
    destruct (Nat.eqb_spec (length (set_of s m)) 0) as [E|E]; [destruct (set_of s m); [destruct Hin|discriminate]|]. reflexivity.
  Qed.

  Lemma push_env_spec penv i vs : i < S (length penv) ->
    length (push_env penv i vs) = S (length penv) /\ forall k, nth k (push_env penv i vs) [] = if k =? i then nth i penv [] ++ vs else nth k penv [].
  Proof.
    intros Hi. unfold push_env. assert (Hl : length (penv ++ [[]]) = S (length penv)) by (rewrite app_length; simpl; lia).
    assert (Hn : forall k, nth k (penv ++ [@nil vec3]) [] = nth k penv []).
    { intros k. destruct (Nat.lt_ge_cases k (length penv)) as [H|H]; [rewrite app_nth1; auto|]. rewrite app_nth2 by lia. rewrite (nth_overflow penv) by lia.
      destruct (k - length penv) as [|[|]]; reflexivity. }
    rewrite put_length. split; [auto|]. intros k. rewrite nth_put by lia. rewrite !Hn. reflexivity.
  Qed.
  Lemma nth_snoc {A} (l : list A) x k d : nth k (l ++ [x]) d = if k =? length l then x else nth k l d.
  Proof.
    destruct (Nat.eqb_spec k (length l)) as [-> |H]; [rewrite app_nth2, Nat.sub_diag by lia; reflexivity|].
    destruct (Nat.lt_ge_cases k (length l)) as [H'|H']; [rewrite app_nth1; auto|]. rewrite !nth_overflow; auto; rewrite ?app_length; simpl; lia.
  Qed.
  Variable old : list (list vec3).
  Record pinv (m : nat) (st : pop) : Prop := {
    pi_s : po_s st = s;
    pi_len : length (po_idx st) = m;
    pi_plen : length (po_penv st) = length old + m;
    pi_penv : forall i, nth i (po_penv st) [] = if i <? m then nth i old [] ++ props (g s i) else nth i old [];
    pi_key : forall i, i < m -> In (root s i, nth i (po_idx st) 0) (po_map st);
    pi_map : forall c l, In (c, l) (po_map st) -> l < length (po_cenv st) /\ nth l (po_cenv st) [] = mean_of s c /\ exists i, i < m /\ root s i = c /\ nth i (po_idx st) 0 = l;
    pi_fst : NoDup (map fst (po_map st));
    pi_snd : forall c c' l, In (c, l) (po_map st) -> In (c', l) (po_map st) -> c = c';
    pi_order : forall l, l < length (po_cenv st) -> exists i, i < m /\ nth i (po_idx st) 0 = l /\ forall j, j < i -> nth j (po_idx st) 0 < l }.
  Lemma pop_step_spec m st : pinv m st -> m < length s -> exists st', pop_step st m = Some st' /\ pinv (S m) st'.
  Proof.
    intros [Is Il Ipl Ip Ik Im If Isn Io] Hm. unfold pop_step. rewrite Is. rewrite (nth_error_g s m dflt Hm). fold (g s m). rewrite physical by auto.
    rewrite (proper_props _ (wf_ok _ _ W m Hm)). rewrite mfind_flat by (auto; apply (wf_flat _ _ W)).
    destruct (push_env_spec (po_penv st) (length (po_idx st)) (props (g s m))) as [P1 P2]; [lia|]. rewrite Il in *.
    assert (Hpe : forall i, nth i (push_env (po_penv st) m (props (g s m))) [] = if i <? S m then nth i old [] ++ props (g s i) else nth i old []).
    { intros i. rewrite P2, !Ip. destruct (Nat.eqb_spec i m) as [-> |Hne].
      - rewrite (proj2 (Nat.ltb_ge m m)), (proj2 (Nat.ltb_lt m (S m))) by lia. reflexivity.
      - destruct (Nat.ltb_spec i m), (Nat.ltb_spec i (S m)); auto; lia. }
    destruct (find (fun p => fst p =? root s m) (po_map st)) as [[c l]|] eqn:Ef.
    - apply find_some in Ef. destruct Ef as [Hin E]. simpl in E. apply Nat.eqb_eq in E. subst c. eexists; split; [reflexivity|].
      assert (Hn : forall i, i < m -> nth i (po_idx st ++ [l]) 0 = nth i (po_idx st) 0) by (intros; apply app_nth1; lia).
      assert (Hnm : nth m (po_idx st ++ [l]) 0 = l) by (rewrite nth_snoc, Il, Nat.eqb_refl; auto).
      constructor; cbn [po_s po_idx po_penv po_map po_cenv snd]; auto.
      + rewrite app_length; simpl; lia.
      + lia.
      + intros i Hi. destruct (Nat.eq_dec i m) as [-> |]; [rewrite Hnm; auto|]. rewrite Hn by lia. apply Ik. lia.
      + intros c' l' H'. destruct (Im c' l' H') as [A1 [A2 [i [A3 [A4 A5]]]]]. split; auto. split; auto. exists i. rewrite Hn by lia. auto.
      + intros l' Hl'. destruct (Io l' Hl') as [i [A1 [A2 A3]]]. exists i. split; [lia|]. rewrite Hn by lia. split; auto. intros j Hj. rewrite Hn by lia. auto.
    - destruct (wf_flat _ _ W m Hm) as [R1 R2]. rewrite avg_spec by auto. eexists; split; [reflexivity|]. set (L := length (po_cenv st)).
      assert (Hno : forall l, ~ In (root s m, l) (po_map st)).
      { intros l Hin. pose proof (find_none _ _ Ef _ Hin) as H. simpl in H. rewrite Nat.eqb_refl in H. discriminate. }
      assert (Hn : forall i, i < m -> nth i (po_idx st ++ [L]) 0 = nth i (po_idx st) 0) by (intros; apply app_nth1; lia).
      assert (Hnm : nth m (po_idx st ++ [L]) 0 = L) by (rewrite nth_snoc, Il, Nat.eqb_refl; auto).
      assert (Hlt : forall i, i < m -> nth i (po_idx st) 0 < L) by (intros i Hi; apply (Im _ _ (Ik i Hi))).
      constructor; cbn [po_s po_idx po_penv po_map po_cenv]; auto.
      + rewrite app_length; simpl; lia.
      + lia.
      + intros i Hi. apply in_or_app. destruct (Nat.eq_dec i m) as [-> |]; [rewrite Hnm; right; left; auto|]. rewrite Hn by lia. left. apply Ik. lia.
      + intros c' l' H'. rewrite app_length; simpl. apply in_app_iff in H'. destruct H' as [H'|[H'|[]]].
        * destruct (Im c' l' H') as [A1 [A2 [i [A3 [A4 A5]]]]]. split; [lia|]. rewrite app_nth1 by auto. split; auto. exists i. rewrite Hn by lia. auto.
        * injection H' as <- <-. split; [unfold L; lia|]. rewrite app_nth2 by (unfold L; lia). unfold L. rewrite Nat.sub_diag. split; auto. exists m. auto.
      + rewrite map_app. apply NoDup_snoc; auto. intros Hin. apply in_map_iff in Hin. destruct Hin as [[c l] [E Hin]]. simpl in E. subst c. apply (Hno l Hin).
      + intros c c' l H1 H2. apply in_app_iff in H1. apply in_app_iff in H2. destruct H1 as [H1|[H1|[]]], H2 as [H2|[H2|[]]].
        * eauto.
        * injection H2 as <- <-. destruct (Im _ _ H1). unfold L in *; lia.
        * injection H1 as <- <-. destruct (Im _ _ H2). unfold L in *; lia.
        * congruence.
      + intros l' Hl'. rewrite app_length in Hl'; simpl in Hl'. destruct (Nat.eq_dec l' L) as [-> |Hne].
        * exists m. split; [lia|]. split; auto. intros j Hj. rewrite Hn by lia. auto.
        * destruct (Io l') as [i [A1 [A2 A3]]]; [unfold L in *; lia|]. exists i. split; [lia|]. rewrite Hn by lia. split; auto. intros j Hj. rewrite Hn by lia. auto.
  Qed.
  Lemma pop_fold : forall k m st, pinv m st -> m + k = length s -> exists st', ofold pop_step (seq m k) st = Some st' /\ pinv (length s) st'.
  Proof.
    induction k as [|k IH]; intros m st P Hm; cbn [seq ofold].
    - exists st. split; auto. rewrite <- Hm, Nat.add_0_r. auto.
    - destruct (pop_step_spec m st P) as [st' [-> P']]; [lia|]. apply (IH (S m) st' P'). lia.
  Qed.
End populate.
Lemma populate_spec s rank o : wf s rank -> (forall i, i < length s -> e_ghost (g s i) = false) -> exists r, populate s o = Some r /\
  length (co_idx r) = length s /\ co_num r = length (co_cenv r) /\
  (forall i j, i < length s -> j < length s -> (nth i (co_idx r) 0 = nth j (co_idx r) 0 <-> root s i = root s j)) /\
  numbered (co_idx r) (co_num r) /\
  (length (co_penv r) = length (co_penv o) + length s /\
   forall i, nth i (co_penv r) [] = if i <? length s then nth i (co_penv o) [] ++ props (g s i) else nth i (co_penv o) []) /\
  (forall i, i < length s -> nth (nth i (co_idx r) 0) (co_cenv r) [] = mean_of s (root s i)).
Proof.
  intros W Hp. destruct (pop_fold s rank W Hp (co_penv o) (length s) 0 (PO s [] [] [] (co_penv o))) as [st [E P]]; auto.
  { constructor; simpl; auto; try (intros; lia); try (intros ? ? []); try (intros ? ? ? []); try constructor. }
  unfold populate. rewrite E. eexists; split; [reflexivity|]. cbn [co_idx co_num co_cenv co_penv]. destruct P as [Is Il Ipl Ip Ik Im If Isn Io].
  split; auto. split; auto. split; [|split; [|split; [auto|]]].
  - intros i j Hi Hj. pose proof (Ik i Hi) as Ki. pose proof (Ik j Hj) as Kj. split; intros H.
    + rewrite H in Ki. eapply Isn; eauto.
    + rewrite H in Ki. pose proof (find_key _ _ _ If Ki) as F1. pose proof (find_key _ _ _ If Kj) as F2. congruence.
  - split; [|rewrite Il; auto]. rewrite Il. intros i Hi. apply (Im _ _ (Ik i Hi)).
  - intros i Hi. apply (Im _ _ (Ik i Hi)).
Qed.
(** The members with label [nth i idx] are the set of [i]. *)
Lemma members_set s idx i : i < length s -> length idx = length s -> (forall i j, i < length s -> j < length s -> (nth i idx 0 = nth j idx 0 <-> root s i = root s j)) ->
  with_label idx (nth i idx 0) = set_of s (root s i).
Proof.
  intros Hi Hl H. unfold with_label, set_of. rewrite Hl. apply filter_ext_in. intros j Hj. apply in_seq in Hj.
  destruct (Nat.eqb_spec (nth j idx 0) (nth i idx 0)) as [E|E], (Nat.eqb_spec (root s j) (root s i)) as [E'|E']; auto; exfalso.
  - apply E', H; auto; lia.
  - apply E, H; auto; lia.
Qed.
