(** Lemmas on the LinkCell nearest-neighbour search. *)
From Coq Require Import Sorting.Sorted.
From Verif Require Import MArrayProofs NListProofs AABBProofs2 BoxProofs BoxProofs2 LinkCellProofs LinkCellProofs2 LinkCellProofs3 LinkCellProps QueryProofs QueryProps KnnModel KnnProofs LinkCellSpec.
Open Scope Z_scope.

Lemma links_chain L c l : links L c l <-> chain L c l.
Proof.
  split.
  - induction 1; cbn [chain]; auto.
  - revert c. induction l as [|j l IH]; cbn [chain]; intros c H; [constructor; auto|]. destruct H. constructor; auto.
Qed.
Lemma chain_det L : forall l l' c, chain L c l -> chain L c l' -> l = l'.
Proof.
  induction l as [|j l IH]; intros [|j' l'] c; cbn [chain]; intros H H'; auto; try congruence.
  - destruct H' as [E _]. congruence.
  - destruct H as [E _]. congruence.
  - destruct H as [E C], H' as [E' C']. assert (j' = j) by congruence. subst. f_equal. eauto.
Qed.
Lemma reset_range M d : sh_range (sh_reset M d) = M. Proof. unfold sh_reset. destruct (M =? 0); auto. Qed.
Lemma eqb_range a c : sh_eqb a c = true -> sh_range a = sh_range c.
Proof. unfold sh_eqb. rewrite !andb_true_iff, !Z.eqb_eq. tauto. Qed.
Lemma nth_state_S d n : nth_state d (S n) = sh_next (nth_state d n). Proof. reflexivity. Qed.
Lemma sh_eqb_refl s : sh_eqb s s = true.
Proof. unfold sh_eqb. rewrite !Z.eqb_refl, Bool.eqb_reflx. auto. Qed.
Lemma existsb_in i seen : existsb (Z.eqb i) seen = true <-> In i seen.
Proof. rewrite existsb_exists. split; [intros (y & H & E); apply Z.eqb_eq in E; subst; auto|intros H; exists i; split; auto; apply Z.eqb_refl]. Qed.

Section Search.
Variables (lc : linkcell) (pc : Z * Z * Z).
Let d := b_2d (lc_box lc).
Let idx (p : Z * Z * Z) : Z := cell_index (lc_dim lc) (add3 pc p).
Let st (n : nat) : Z := idx (sh_pos (nth_state d n)).
Let maxR := lk_max_range lc.

Lemma advance_spec sh seen sh' seen' o : lk_advance lc pc sh seen sh' seen' o -> forall n, sh = nth_state d n ->
  (forall c, In c seen <-> exists m, (m <= n)%nat /\ st m = c) ->
  exists n', sh' = nth_state d n' /\ (n < n')%nat /\ (forall m, (m < n')%nat -> In (st m) seen) /\ (forall m, (n < m < n')%nat -> sh_eqb (nth_state d m) (sh_reset maxR d) = false) /\
    match o with
    | None => seen' = seen /\ sh_eqb (nth_state d n') (sh_reset maxR d) = true
    | Some c => c = st n' /\ ~ In c seen /\ seen' = c :: seen /\ sh_eqb (nth_state d n') (sh_reset maxR d) = false
    end.
Proof.
  assert (G : lk_advance lc pc sh seen sh' seen' o -> forall n, sh = nth_state d n -> (forall m, (m <= n)%nat -> In (st m) seen) ->
  exists n', sh' = nth_state d n' /\ (n < n')%nat /\ (forall m, (m < n')%nat -> In (st m) seen) /\ (forall m, (n < m < n')%nat -> sh_eqb (nth_state d m) (sh_reset maxR d) = false) /\
    match o with
    | None => seen' = seen /\ sh_eqb (nth_state d n') (sh_reset maxR d) = true
    | Some c => c = st n' /\ ~ In c seen /\ seen' = c :: seen /\ sh_eqb (nth_state d n') (sh_reset maxR d) = false
    end).
  { induction 1 as [sh seen E|sh seen E F|sh seen sh' seen' o E F A IH]; intros n -> HS.
    - exists (S n). rewrite nth_state_S. split; auto. split; [lia|]. split; [intros; apply HS; lia|]. split; [intros; lia|]. auto.
    - exists (S n). rewrite nth_state_S. split; auto. split; [lia|]. split; [intros; apply HS; lia|]. split; [intros; lia|]. split; [reflexivity|].
      split; [rewrite <- existsb_in, F; discriminate|]. auto.
    - destruct (IH (S n)) as (n' & E1 & E2 & E3 & E4 & E5); [reflexivity| |].
      + intros m Hm. destruct (Nat.eq_dec m (S n)) as [-> |]; [|apply HS; lia]. apply existsb_in in F. exact F.
      + exists n'. split; auto. split; [lia|]. split; auto. split; auto. intros m Hm. destruct (Nat.eq_dec m (S n)) as [-> |]; [exact E|apply E4; lia]. }
  intros A n E HS. apply G; auto. intros m Hm. apply HS. eauto.
Qed.
Lemma advance_total : forall k n seen, (forall m, (n < m < n + S k)%nat -> sh_eqb (nth_state d m) (sh_reset maxR d) = false) -> nth_state d (n + S k) = sh_reset maxR d ->
  exists sh' seen' o, lk_advance lc pc (nth_state d n) seen sh' seen' o.
Proof.
  induction k as [|k IH]; intros n seen HB HE.
  - exists (sh_next (nth_state d n)), seen, None. apply la_end. rewrite <- nth_state_S. fold maxR d. replace (S n) with (n + 1)%nat by lia. rewrite HE. apply sh_eqb_refl.
  - assert (E : sh_eqb (sh_next (nth_state d n)) (sh_reset maxR d) = false) by (rewrite <- nth_state_S; apply HB; lia).
    destruct (existsb (Z.eqb (st (S n))) seen) eqn:F.
    + destruct (IH (S n) seen) as (sh' & seen' & o & A); [intros; apply HB; lia|rewrite <- HE; f_equal; lia|]. exists sh', seen', o. apply la_skip; auto.
    + eexists _, _, _. apply la_fresh; auto.
Qed.

Variables (q : vec3) (qi k : nat) (r_max : xreal) (r_min : R) (excl : bool).
Variable cont : Z -> list nat.
Hypothesis Hcont : forall p, chain (lc_list lc) (length (lc_points lc) + Z.to_nat (idx p)) (cont (idx p)).
Let bonds (c : Z) := lk_bonds lc q qi r_max r_min excl (cont c).

Definition lk_inv (cell : Z) (sh : shell) (seen : list Z) (cur : list bond) (n : nat) : Prop :=
  sh = nth_state d n /\ (forall c, In c seen <-> exists m, (m <= n)%nat /\ st m = c) /\ cell = st n /\
  (forall m, (m <= n)%nat -> sh_eqb (nth_state d m) (sh_reset maxR d) = false) /\
  exists cells, NoDup (cell :: cells) /\ (forall c, In c (cell :: cells) <-> In c seen) /\ Permutation cur (flat_map bonds cells).
Lemma inv_start : 0 < maxR -> lk_inv (idx (0, 0, 0)) (sh_reset 0 d) [idx (sh_pos (sh_reset 0 d))] [] 0.
Proof.
  intros HM. split; [reflexivity|]. split.
  { intros c. split; [intros [<-|[]]; exists 0%nat; auto|]. intros (m & Hm & <-). assert (m = 0)%nat by lia. subst. left. reflexivity. }
  split; [reflexivity|]. split.
  { intros m Hm. assert (m = 0)%nat by lia. subst. destruct (sh_eqb _ _) eqn:E; auto. apply eqb_range in E. rewrite reset_range in E. simpl in E. lia. }
  exists []. split; [repeat constructor; auto|]. split; [|reflexivity]. intros c. reflexivity.
Qed.
(** All offsets below the range of a state come before it. *)
Lemma before_state n p : cheb p < sh_range (nth_state d n) -> offset_ok d p -> exists m, (m < n)%nat /\ sh_pos (nth_state d m) = p.
Proof.
  intros Hp Ho. destruct (C33_order d) as (O1 & O2 & O3). destruct (O3 p Ho) as (m & E & _). exists m. split; auto.
  destruct (le_lt_dec n m) as [L|L]; auto. exfalso. specialize (O2 _ _ L). destruct (O1 m) as [O _]. rewrite E in O. lia.
Qed.
Lemma before_end n : (forall m, (m <= n)%nat -> sh_eqb (nth_state d m) (sh_reset maxR d) = false) -> 0 <= maxR -> sh_range (nth_state d n) < maxR.
Proof.
  intros H HM. destruct (C33_cube d (Z.to_nat maxR)) as (e & E1 & E2 & _ & E4). rewrite Z2Nat.id in * by auto.
  destruct (le_lt_dec e n) as [L|L].
  - specialize (H e L). rewrite E1, sh_eqb_refl in H. discriminate.
  - destruct (C33_order d) as (O1 & _ & _). destruct (O1 n) as [O Ok]. rewrite <- O. apply E4. apply in_map_iff. exists n. split; auto. apply in_seq. lia.
Qed.
Definition lk_done (s : list bond) : Prop :=
  exists cells N, NoDup cells /\ Permutation (flat_map bonds cells) s /\ StronglySorted dle s /\ N <= maxR /\
    (forall c, In c cells -> exists p, cheb p < maxR /\ offset_ok d p /\ idx p = c) /\
    (forall p, cheb p < N -> offset_ok d p -> In (idx p) cells) /\
    (N = maxR \/ ((k <= length s)%nat /\ (bd (nth (k - 1) s bond0) < IZR (N - 1) * lc_width lc)%R)).
Lemma search_done cell sh seen cur s : 0 < maxR -> lk_search lc pc q qi k r_max r_min excl cell sh seen cur s -> forall n, lk_inv cell sh seen cur n -> lk_done s.
Proof.
  intros HM.
  assert (LK : forall n js cur s cells cell, cell = st n -> links (lc_list lc) (length (lc_points lc) + Z.to_nat cell) js ->
     sort_result less_dist (cur ++ lk_bonds lc q qi r_max r_min excl js) s -> Permutation cur (flat_map bonds cells) ->
     Permutation (flat_map bonds (cell :: cells)) s /\ StronglySorted dle s).
  { intros n js c0 s0 cells c -> HL HS HP. apply links_chain in HL. unfold st in *. pose proof (chain_det _ _ _ _ HL (Hcont _)) as ->.
    apply sort_dist_iff in HS as [P S]. split; auto. cbn [flat_map]. rewrite <- P, HP. apply Permutation_app_comm. }
  assert (CELLS : forall n cells, (forall c, In c cells <-> exists m, (m <= n)%nat /\ st m = c) -> (forall m, (m <= n)%nat -> sh_eqb (nth_state d m) (sh_reset maxR d) = false) ->
     forall c, In c cells -> exists p, cheb p < maxR /\ offset_ok d p /\ idx p = c).
  { intros n cells HC HB c Hc. apply HC in Hc as (m & Hm & <-). exists (sh_pos (nth_state d m)). destruct (C33_order d) as (O1 & _ & _). destruct (O1 m) as [O Ok].
    split; [|split; [exact Ok|reflexivity]]. rewrite O. apply before_end; [|lia]. intros; apply HB; lia. }
  induction 1 as [cell sh seen cur js sh' seen' s HL HA HS|cell sh seen cur js sh' seen' c s HL HA HS HK HD|cell sh seen cur js sh' seen' c s res HL HA HS HN HR IH];
    intros n (En & HI & Ec & HB & cells & ND & HC & HP).
  - destruct (LK n js cur s cells cell Ec HL HS HP) as [P S]. destruct (advance_spec _ _ _ _ _ HA n En HI) as (n' & E1 & E2 & E3 & E4 & E5 & E6).
    apply eqb_range in E6. rewrite reset_range in E6. exists (cell :: cells), maxR.
    split; [auto|]. split; [auto|]. split; [auto|]. split; [lia|]. split; [apply (CELLS n); auto; intros c; rewrite HC; auto|]. split; [|auto].
    intros p Hp Ho. rewrite <- E6 in Hp. destruct (before_state n' p Hp Ho) as (m & Hm & Ep). rewrite <- Ep. apply HC. apply E3. auto.
  - destruct (LK n js cur s cells cell Ec HL HS HP) as [P S]. destruct (advance_spec _ _ _ _ _ HA n En HI) as (n' & E1 & E2 & E3 & E4 & E5 & E6 & E7 & E8).
    exists (cell :: cells), (sh_range sh'). split; [auto|]. split; [auto|]. split; [auto|]. split.
    { assert (sh_range (nth_state d n') < maxR); [|subst sh'; lia]. apply before_end; [|lia]. intros m Hm. destruct (Nat.eq_dec m n') as [-> |]; auto.
      destruct (le_lt_dec m n); [apply HB; auto|apply E4; lia]. }
    split; [apply (CELLS n); auto; intros c'; rewrite HC; auto|]. split; [|auto].
    intros p Hp Ho. rewrite E1 in Hp. destruct (before_state n' p Hp Ho) as (m & Hm & Ep). rewrite <- Ep. apply HC. apply E3. auto.
  - destruct (LK n js cur s cells cell Ec HL HS HP) as [P S]. destruct (advance_spec _ _ _ _ _ HA n En HI) as (n' & E1 & E2 & E3 & E4 & E5 & E6 & E7 & E8).
    apply (IH n'). split; [auto|]. split.
    { intros c'. rewrite E7. cbn [In]. rewrite HI. split.
      - intros [<- |(m & Hm & <-)]; [exists n'; auto|exists m; split; [lia|auto]].
      - intros (m & Hm & <-). destruct (Nat.eq_dec m n') as [-> |]; [left; auto|right]. apply HI, E3. lia. }
    split; [auto|]. split.
    { intros m Hm. destruct (Nat.eq_dec m n') as [-> |]; auto. destruct (le_lt_dec m n); [apply HB; auto|apply E4; lia]. }
    exists (cell :: cells). split; [|split].
    + constructor; auto. rewrite HC. auto.
    + intros c'. rewrite E7. cbn [In]. rewrite <- HC. cbn [In]. tauto.
    + symmetry. auto.
Qed.
Lemma search_exists : 0 < maxR -> exists s, lk_search lc pc q qi k r_max r_min excl (idx (0, 0, 0)) (sh_reset 0 d) [idx (sh_pos (sh_reset 0 d))] [] s.
Proof.
  intros HM. destruct (C33_cube d (Z.to_nat maxR)) as (e & E1 & E2 & _ & _). rewrite Z2Nat.id in E1, E2 by lia.
  assert (G : forall f n cell sh seen cur, lk_inv cell sh seen cur n -> (n < e)%nat -> (e - n <= f)%nat -> exists s, lk_search lc pc q qi k r_max r_min excl cell sh seen cur s).
  { induction f as [|f IH]; intros n cell sh seen cur INV Hn Hf; [lia|].
    pose proof INV as (En & HI & Ec & HB & cells & ND & HC & HP).
    destruct (advance_total (e - n - 1) n seen) as (sh' & seen' & o & HA).
    { intros m Hm. apply E2. lia. } { replace (n + S (e - n - 1))%nat with e by lia. auto. }
    rewrite <- En in HA. assert (HL : links (lc_list lc) (length (lc_points lc) + Z.to_nat cell) (cont cell)).
    { apply links_chain. rewrite Ec. apply Hcont. }
    destruct (sort_dist_exists (cur ++ lk_bonds lc q qi r_max r_min excl (cont cell))) as [s HS].
    destruct o as [c|]; [|exists s; eapply ls_last; eauto].
    destruct (le_lt_dec k (length s)) as [L|L].
    - destruct (Rlt_dec (bd (nth (k - 1) s bond0)) (IZR (sh_range sh' - 1) * lc_width lc)) as [R|R]; [exists s; eapply ls_early; eauto|].
      destruct (advance_spec _ _ _ _ _ HA n En HI) as (n' & F1 & F2 & F3 & F4 & F5 & F6 & F7 & F8).
      destruct (IH n' c sh' seen' s) as [res HR]; [| | |exists res; eapply ls_again; eauto; intros [_ ?]; contradiction].
      2:{ destruct (le_lt_dec e n') as [G|G]; auto. exfalso. destruct (Nat.eq_dec n' e) as [-> |]; [rewrite E1, sh_eqb_refl in F8; discriminate|].
          specialize (F4 e ltac:(lia)). rewrite E1, sh_eqb_refl in F4. discriminate. }
      2:{ lia. }
      split; [auto|]. split.
      { intros c'. rewrite F7. cbn [In]. rewrite HI. split.
        - intros [<- |(m & Hm & <-)]; [exists n'; auto|exists m; split; [lia|auto]].
        - intros (m & Hm & <-). destruct (Nat.eq_dec m n') as [-> |]; [left; auto|right]. apply HI, F3. lia. }
      split; [auto|]. split.
      { intros m Hm. destruct (Nat.eq_dec m n') as [-> |]; auto. destruct (le_lt_dec m n); [apply HB; auto|apply F4; lia]. }
      exists (cell :: cells). split; [constructor; auto; rewrite HC; auto|]. split; [intros c'; rewrite F7; cbn [In]; rewrite <- HC; cbn [In]; tauto|].
      apply sort_dist_iff in HS as [P _]. rewrite <- P, HP. cbn [flat_map]. apply Permutation_app_comm.
    - destruct (advance_spec _ _ _ _ _ HA n En HI) as (n' & F1 & F2 & F3 & F4 & F5 & F6 & F7 & F8).
      destruct (IH n' c sh' seen' s) as [res HR]; [| | |exists res; eapply ls_again; eauto; intros [? _]; lia].
      2:{ destruct (le_lt_dec e n') as [G|G]; auto. exfalso. destruct (Nat.eq_dec n' e) as [-> |]; [rewrite E1, sh_eqb_refl in F8; discriminate|].
          specialize (F4 e ltac:(lia)). rewrite E1, sh_eqb_refl in F4. discriminate. }
      2:{ lia. }
      split; [auto|]. split.
      { intros c'. rewrite F7. cbn [In]. rewrite HI. split.
        - intros [<- |(m & Hm & <-)]; [exists n'; auto|exists m; split; [lia|auto]].
        - intros (m & Hm & <-). destruct (Nat.eq_dec m n') as [-> |]; [left; auto|right]. apply HI, F3. lia. }
      split; [auto|]. split.
      { intros m Hm. destruct (Nat.eq_dec m n') as [-> |]; auto. destruct (le_lt_dec m n); [apply HB; auto|apply F4; lia]. }
      exists (cell :: cells). split; [constructor; auto; rewrite HC; auto|]. split; [intros c'; rewrite F7; cbn [In]; rewrite <- HC; cbn [In]; tauto|].
      apply sort_dist_iff in HS as [P _]. rewrite <- P, HP. cbn [flat_map]. apply Permutation_app_comm. }
  apply (G e 0%nat); [apply inv_start; auto| |lia].
  destruct e; [|lia]. exfalso. assert (R : sh_range (nth_state d 0) = maxR) by (rewrite E1; apply reset_range). simpl in R. lia.
Qed.
End Search.
