(** Lemmas on argument validation and on draining per-point iterators. *)
From Verif Require Import MArrayProofs NListProofs AABBProofs2 FilterProps AABBProps LinkCellProps BoxProofs BoxProofs2 CellQueryProps QueryModel QueryArgSpec.
Open Scope R_scope.

Lemma is_default_fin r : is_default (Fin r) = true <-> r = -1.
Proof. simpl. destruct (Reqb_spec r (-1)); split; congruence. Qed.

Definition accept (v : qargs -> option qargs) (p : pyargs) : option qargs := match encode p with Some a => v a | None => None end.

Lemma encode_none p : encode p = None <-> ~ well_formed p.
Proof.
  unfold encode, well_formed. destruct (pa_mode p) eqn:M; cycle 4.
  { split; [intros _ (_ & H & _); congruence|reflexivity]. }
  all: destruct (pa_k p) as [k|] eqn:K; destruct (pa_unknown p) eqn:U.
  all: try (destruct ((0 <=? k)%Z && (k <? 2 ^ 32)%Z) eqn:E;
    [apply andb_true_iff in E; destruct E as [E1 E2]; apply Z.leb_le in E1; apply Z.ltb_lt in E2|]).
  all: split; intros H; try discriminate; try reflexivity; try (intros (H1 & _); discriminate).
  all: try (exfalso; apply H; split; [reflexivity|split; [discriminate|]]; intros k' E'; try discriminate; injection E' as <-; lia).
  all: intros (_ & _ & H3); specialize (H3 k eq_refl); apply andb_false_iff in E; rewrite Z.leb_gt, Z.ltb_ge in E; lia.
Qed.
Lemma encode_some p : well_formed p -> exists m, encode p = Some (QA m (or_else (pa_k p) default_k) (match pa_rmax p with Some r => Fin r | None => Fin (-1) end)
    (or_else (pa_rmin p) 0) (or_else (pa_rguess p) (-1)) (or_else (pa_scale p) (-1)) (or_else (pa_excl p) false)) /\
  match m with MNone => mode_unset p | MBall => pa_mode p = PyBall | MNearest => pa_mode p = PyNearest end.
Proof.
  intros W. assert (E : encode p <> None) by (intros E; apply encode_none in E; auto).
  destruct W as (U & M & K). revert E. unfold encode, mode_unset. rewrite U.
  destruct (pa_k p) as [k|]; [specialize (K k eq_refl); replace ((0 <=? k)%Z && (k <? 2 ^ 32)%Z) with true
      by (symmetry; apply andb_true_iff; split; [apply Z.leb_le|apply Z.ltb_lt]; lia)|].
  all: destruct (pa_mode p); try congruence; intros _; eexists; (split; [reflexivity|]); simpl; auto.
Qed.

Definition fill (p : pyargs) (m : mode) (k : Z) (rmax : xreal) : qargs :=
  QA m k rmax (or_else (pa_rmin p) 0) (or_else (pa_rguess p) (-1)) (or_else (pa_scale p) (-1)) (or_else (pa_excl p) false).
Lemma base_ball p r : no_sentinel p -> well_formed p -> asks_ball p r -> accept validate_base p = Some (fill p MBall default_k (Fin r)).
Proof.
  intros (S1 & S2 & _) W (Hr & Hk & Hm). unfold accept. destruct (encode_some p W) as (m & E & M). rewrite E, Hr, Hk. rewrite Hr in S1.
  assert (D : is_default (Fin r) = false) by (destruct (is_default (Fin r)) eqn:D; auto; apply is_default_fin in D; congruence).
  unfold validate_base, infer_mode. destruct m; cbn [qa_mode qa_k qa_rmax qa_rmin qa_rguess qa_scale qa_excl or_else].
  - rewrite Z.eqb_refl, D. cbn [negb qa_mode qa_rmax qa_k]. rewrite D, Z.eqb_refl. reflexivity.
  - rewrite D, Z.eqb_refl. reflexivity.
  - exfalso. destruct Hm as [Hm|[Hm|Hm]]; congruence.
Qed.
Lemma base_nearest p k : no_sentinel p -> well_formed p -> asks_nearest p k ->
  accept validate_base p = Some (fill p MNearest k (match pa_rmax p with Some r => Fin r | None => Inf end)).
Proof.
  intros (S1 & S2 & _) W (Hk & Hm). unfold accept. destruct (encode_some p W) as (m & E & M). rewrite E, Hk. rewrite Hk in S2.
  assert (D : (k =? default_k)%Z = false) by (apply Z.eqb_neq; unfold default_k; congruence).
  assert (X : is_default (match pa_rmax p with Some r => Fin r | None => Fin (-1) end) = match pa_rmax p with Some _ => false | None => true end).
  { destruct (pa_rmax p) as [r|]; [|apply is_default_fin; reflexivity]. destruct (is_default (Fin r)) eqn:D'; auto. apply is_default_fin in D'. congruence. }
  unfold validate_base, infer_mode. destruct m; cbn [qa_mode qa_k qa_rmax qa_rmin qa_rguess qa_scale qa_excl or_else].
  - rewrite D. cbn [negb qa_mode qa_rmax qa_k]. rewrite D, X. destruct (pa_rmax p); reflexivity.
  - exfalso. destruct Hm as [Hm|[Hm|Hm]]; congruence.
  - rewrite D, X. destruct (pa_rmax p); reflexivity.
Qed.
Lemma base_accepts p : no_sentinel p -> accept validate_base p <> None -> well_formed p /\ ((exists r, asks_ball p r) \/ (exists k, asks_nearest p k)).
Proof.
  intros (S1 & S2 & _) H. assert (W : well_formed p).
  { unfold accept in H. assert (E : encode p <> None) by (destruct (encode p); congruence). revert E. unfold encode, well_formed.
    destruct (pa_mode p), (pa_k p) as [k|]; try congruence; try (destruct ((0 <=? k)%Z && (k <? 2 ^ 32)%Z) eqn:E2; try congruence);
      destruct (pa_unknown p); try congruence; intros _; (split; [reflexivity|split; [discriminate|]]); intros k' E'; try discriminate; injection E' as <-;
      apply andb_true_iff in E2; rewrite Z.leb_le, Z.ltb_lt in E2; lia. }
  split; auto. revert H. unfold accept. destruct (encode_some p W) as (m & E & M). rewrite E. unfold validate_base, infer_mode, asks_ball, asks_nearest.
  destruct m; cbn [qa_mode qa_k qa_rmax qa_rmin qa_rguess qa_scale qa_excl or_else].
  - destruct (pa_k p) as [k|] eqn:K.
    + intros _. right. exists k. auto.
    + cbn [or_else]. rewrite Z.eqb_refl. cbn [negb]. destruct (pa_rmax p) as [r|] eqn:Rm.
      * intros _. left. exists r. auto.
      * replace (is_default (Fin (-1))) with true by (symmetry; apply is_default_fin; reflexivity). cbn [negb qa_mode]. congruence.
  - destruct (pa_rmax p) as [r|]; cycle 1.
    + replace (is_default (Fin (-1))) with true by (symmetry; apply is_default_fin; reflexivity). congruence.
    + destruct (is_default (Fin r)); [congruence|]. destruct (pa_k p) as [k|]; [|intros _; left; exists r; auto].
      cbn [or_else]. destruct (k =? default_k)%Z eqn:D; [apply Z.eqb_eq in D; unfold default_k in D; congruence|]. cbn [negb]. congruence.
  - destruct (pa_k p) as [k|]; [intros _; right; exists k; auto|]. cbn [or_else]. rewrite Z.eqb_refl. congruence.
Qed.

Lemma base_again a a' : validate_base a = Some a' -> validate_base a' = Some a'.
Proof.
  assert (G : forall x, match qa_mode x with MBall => is_default (qa_rmax x) = false /\ (qa_k x =? default_k)%Z = true
      | MNearest => is_default (qa_rmax x) = false /\ (qa_k x =? default_k)%Z = false | MNone => False end -> validate_base x = Some x).
  { intros x. unfold validate_base, infer_mode. destruct (qa_mode x) eqn:M; cbn zeta; rewrite ?M; try tauto; intros [A B]; rewrite A, B; reflexivity. }
  intros H. apply G. revert H. unfold validate_base. set (i := infer_mode a). cbn zeta. destruct (qa_mode i) eqn:M; try discriminate.
  - destruct (is_default (qa_rmax i)) eqn:D; [discriminate|]. destruct (qa_k i =? default_k)%Z eqn:K; [|discriminate]. intros E. injection E as <-. rewrite M. auto.
  - destruct (qa_k i =? default_k)%Z eqn:K; [discriminate|]. destruct (is_default (qa_rmax i)) eqn:D; intros E; injection E as <-; cbn [qa_mode qa_k qa_rmax]; rewrite ?M; auto.
Qed.

(** Draining. *)
Lemma drain_all_some (run : vec3 -> nat -> option (list bond) -> Prop) (P : nat -> vec3 -> list bond -> Prop) qs : forall i,
  (forall j, (j < length qs)%nat -> exists l, (forall res, run (nth j qs v0) (i + j)%nat res <-> res = Some l) /\ P (i + j)%nat (nth j qs v0) l) ->
  exists ls, (forall res, drain_all run i qs res <-> res = Some ls) /\ length ls = length qs /\
    forall j, (j < length qs)%nat -> P (i + j)%nat (nth j qs v0) (nth j ls []).
Proof.
  induction qs as [|q qs IH]; intros i H.
  - exists []. split; [|split; [reflexivity|simpl; lia]]. intros res. split; [inversion 1; auto|intros ->; constructor].
  - destruct (H 0%nat) as (l & Hl & HP); [simpl; lia|]. rewrite Nat.add_0_r in Hl, HP. cbn [nth] in Hl, HP.
    destruct (IH (S i)) as (ls & E & L & HPs).
    { intros j Hj. destruct (H (S j)) as (l' & Hl' & HP'); [simpl; lia|]. exists l'. cbn [nth] in Hl', HP'. rewrite Nat.add_succ_r in Hl', HP'. auto. }
    exists (l :: ls). split; [|split].
    + intros res. split.
      * inversion 1; subst; [match goal with X : run q i None |- _ => apply Hl in X; discriminate end|].
        match goal with X : run q i (Some _) |- _ => apply Hl in X; injection X as -> end.
        match goal with X : drain_all _ _ _ _ |- _ => apply E in X; subst end. reflexivity.
      * intros ->. change (Some (l :: ls)) with (option_map (cons l) (Some ls)). constructor; [apply Hl; auto|apply E; auto].
    + simpl. auto.
    + intros [|j] Hj; cbn [nth]; [rewrite Nat.add_0_r; auto|]. rewrite Nat.add_succ_r. apply (HPs j). simpl in Hj. lia.
Qed.
Lemma drain_all_none run qs i : qs <> [] -> (forall q j res, run q j res <-> res = None) -> forall res, drain_all run i qs res <-> res = None.
Proof.
  intros N H res. destruct qs as [|q qs]; [congruence|]. split.
  - inversion 1; subst; auto. match goal with X : run q i (Some _) |- _ => apply H in X; discriminate end.
  - intros ->. constructor. apply H. reflexivity.
Qed.

(** Two sort results of permuted lists are equal when the order separates different elements. *)
Lemma sort_unique lt : forall s s' : list bond, Permutation s s' ->
  (forall i j, (i < j < length s)%nat -> lt (nth j s bond0) (nth i s bond0) = false) ->
  (forall i j, (i < j < length s')%nat -> lt (nth j s' bond0) (nth i s' bond0) = false) ->
  (forall x y, In x s -> In y s -> lt x y = false -> lt y x = false -> x = y) -> s = s'.
Proof.
  induction s as [|x s IH]; intros s' HP HO HO' HA.
  - apply Permutation_nil in HP. auto.
  - destruct s' as [|y s']; [apply Permutation_sym, Permutation_nil in HP; discriminate|].
    assert (E : x = y).
    { assert (Ix : In x (y :: s')) by (eapply Permutation_in; [exact HP|left; auto]).
      assert (Iy : In y (x :: s)) by (eapply Permutation_in; [apply Permutation_sym; exact HP|left; auto]).
      destruct Ix as [->|Ix]; auto. destruct Iy as [->|Iy]; auto. apply HA; [left; auto|right; auto| |].
      - apply (In_nth _ _ bond0) in Ix as (j & Hj & <-). apply (HO' 0%nat (S j)). simpl; lia.
      - apply (In_nth _ _ bond0) in Iy as (j & Hj & <-). apply (HO 0%nat (S j)). simpl; lia. }
    subst y. f_equal. apply Permutation_cons_inv in HP. apply IH; auto.
    + intros i j Hij. apply (HO (S i) (S j)). simpl; lia.
    + intros i j Hij. apply (HO' (S i) (S j)). simpl; lia.
    + intros u v Hu Hv. apply HA; right; auto.
Qed.
