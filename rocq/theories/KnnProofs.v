(** Lemmas on the AABB nearest-neighbour search. *)
From Coq Require Import Sorting.Sorted.
From Verif Require Import MArrayProofs NListProofs AABBProofs2 FilterProps AABBProps BoxProofs BoxProofs2 BoxProps QueryProofs QueryProps KnnModel KnnSpec.
Open Scope R_scope.

Lemma filter_keep {A} (f : A -> bool) l : (forall x, In x l -> f x = true) -> filter f l = l.
Proof. induction l as [|x l IH]; simpl; intros H; auto. rewrite (H x) by auto. f_equal. apply IH. auto. Qed.
(** ** Sorting by distance *)
Definition dle (x y : bond) : Prop := bd x <= bd y.
Lemma sorted_nth l : StronglySorted dle l -> forall i j, (i < j < length l)%nat -> bd (nth i l bond0) <= bd (nth j l bond0).
Proof.
  induction 1 as [|x l _ IH F]; intros i j H; [simpl in H; lia|]. destruct i as [|i], j as [|j]; try lia; cbn [nth].
  - rewrite Forall_forall in F. apply F. apply nth_In. simpl in H. lia.
  - apply IH. simpl in H. lia.
Qed.
Lemma nth_sorted l : (forall i j, (i < j < length l)%nat -> bd (nth i l bond0) <= bd (nth j l bond0)) -> StronglySorted dle l.
Proof.
  induction l as [|x l IH]; intros H; constructor.
  - apply IH. intros i j Hij. apply (H (S i) (S j)). simpl. lia.
  - apply Forall_forall. intros y Hy. apply (In_nth _ _ bond0) in Hy as (j & Hj & <-). apply (H 0%nat (S j)). simpl. lia.
Qed.
Lemma sort_dist_iff l s : sort_result less_dist l s <-> Permutation l s /\ StronglySorted dle s.
Proof.
  unfold sort_result, less_dist. split; intros [P H]; split; auto.
  - apply nth_sorted. intros i j Hij. specialize (H i j Hij). apply Rltb_false in H. auto.
  - intros i j Hij. apply Rltb_false. apply sorted_nth; auto.
Qed.
Lemma sort_dist_exists l : exists s, sort_result less_dist l s.
Proof.
  assert (INS : forall x s, StronglySorted dle s -> exists s', Permutation (x :: s) s' /\ StronglySorted dle s').
  { intros x s. induction 1 as [|y s S IH F].
    - exists [x]. split; auto. repeat constructor.
    - destruct (Rle_dec (bd x) (bd y)) as [L|L].
      + exists (x :: y :: s). split; auto. constructor; [constructor; auto|]. constructor; auto. apply Forall_forall. intros z Hz. rewrite Forall_forall in F. specialize (F z Hz). unfold dle in *. lra.
      + destruct IH as (s' & P & S'). exists (y :: s'). split; [rewrite perm_swap; constructor; auto|]. constructor; auto.
        apply Forall_forall. intros z Hz. apply (Permutation_in _ (Permutation_sym P)) in Hz. rewrite Forall_forall in F. destruct Hz as [<-|Hz]; [unfold dle; lra|auto]. }
  induction l as [|x l [s IH]].
  - exists []. apply sort_dist_iff. split; auto. constructor.
  - apply sort_dist_iff in IH as [P S]. destruct (INS x s S) as (s' & P' & S'). exists s'. apply sort_dist_iff. split; auto. rewrite P. auto.
Qed.
Lemma firstn_sorted k l : StronglySorted dle l -> StronglySorted dle (firstn k l) /\ forall x y, In x (firstn k l) -> In y (skipn k l) -> bd x <= bd y.
Proof.
  intros H. revert k. induction H as [|x l S IH F]; intros [|k]; simpl; [split; [constructor|intros ? ? []]|split; [constructor|intros ? ? []]|split; [constructor|intros ? ? []]|].
  destruct (IH k) as [A B]. rewrite Forall_forall in F. split.
  - constructor; auto. apply Forall_forall. intros y Hy. apply F. rewrite <- (firstn_skipn k l). apply in_or_app. auto.
  - intros u v [<-|Hu] Hv; auto. apply F. rewrite <- (firstn_skipn k l). apply in_or_app. auto.
Qed.
Lemma NoDup_firstn {A} k (l : list A) : NoDup l -> NoDup (firstn k l).
Proof. revert k. induction l as [|x l IH]; intros [|k] H; simpl; try constructor; inversion_clear H; auto. intros I. apply H0. rewrite <- (firstn_skipn k l). apply in_or_app. auto. Qed.

(** ** The map of nearest images *)
Lemma find_put m k v k' : find_bond (put_bond m k v) k' = if Nat.eqb k' k then Some v else find_bond m k'.
Proof.
  induction m as [|[a w] m IH]; cbn [put_bond find_bond].
  - destruct (Nat.eqb_spec k' k); auto.
  - destruct (Nat.eqb_spec k a) as [-> |N]; cbn [find_bond].
    + destruct (Nat.eqb_spec k' a); auto.
    + rewrite IH. destruct (Nat.eqb_spec k' a) as [-> |N']; auto. destruct (Nat.eqb_spec a k); congruence.
Qed.
Lemma keys_put m k v : NoDup (map fst m) -> NoDup (map fst (put_bond m k v)) /\ forall a, In a (map fst (put_bond m k v)) <-> a = k \/ In a (map fst m).
Proof.
  induction m as [|[a w] m IH]; cbn [put_bond map fst].
  - intros _. split; [repeat constructor; intros []|]. simpl. intuition.
  - intros H. inversion_clear H as [|? ? N D]. destruct (IH D) as [D' I]. destruct (Nat.eqb_spec k a) as [-> |NE]; cbn [map fst].
    + split; [constructor; auto|]. intros c. simpl. intuition.
    + split; [constructor; auto; rewrite I; intros [E|E]; [congruence|auto]|]. intros c. simpl. rewrite I. intuition.
Qed.
Lemma find_in m k v : NoDup (map fst m) -> (find_bond m k = Some v <-> In (k, v) m).
Proof.
  induction m as [|[a w] m IH]; cbn [find_bond map fst]; [split; [discriminate|intros []]|]. intros H. inversion_clear H as [|? ? N D]. specialize (IH D).
  destruct (Nat.eqb_spec k a) as [-> |NE].
  - split; [intros E; injection E as ->; left; auto|]. intros [E|E]; [congruence|]. exfalso. apply N. apply (in_map fst) in E. auto.
  - rewrite IH. split; [right; auto|]. intros [E|E]; [congruence|auto].
Qed.
Lemma find_none m k : find_bond m k = None <-> ~ In k (map fst m).
Proof.
  induction m as [|[a w] m IH]; cbn [find_bond map fst]; [tauto|]. destruct (Nat.eqb_spec k a) as [-> |NE].
  - split; [discriminate|]. intros H. exfalso. apply H. left; auto.
  - rewrite IH. simpl. intuition.
Qed.
Definition min_inv (r_min : R) (l : list bond) (st : list (nat * bond) * list nat) : Prop :=
  let '(m, below) := st in
  NoDup (map fst m) /\ NoDup below /\
  (forall k y, find_bond m k = Some y -> In y l /\ bp y = k /\ forall x, In x l -> bp x = k -> bd y <= bd x) /\
  (forall x, In x l -> find_bond m (bp x) <> None) /\
  (forall k, In k below <-> exists y, find_bond m k = Some y /\ bd y < r_min).
Lemma insert_set_spec s k : NoDup s -> NoDup (insert_set s k) /\ forall a, In a (insert_set s k) <-> a = k \/ In a s.
Proof.
  intros H. unfold insert_set. destruct (existsb (Nat.eqb k) s) eqn:E.
  - split; auto. apply existsb_exists in E as (y & Hy & E). apply Nat.eqb_eq in E. subst y. intros a. split; [auto|]. intros [-> |?]; auto.
  - split.
    + constructor; auto. intros Hk. assert (existsb (Nat.eqb k) s = true) by (apply existsb_exists; exists k; split; auto; apply Nat.eqb_refl). congruence.
    + intros a. simpl. intuition.
Qed.
Lemma keep_min_inv r_min l st x : min_inv r_min l st -> min_inv r_min (l ++ [x]) (keep_min r_min st x).
Proof.
  destruct st as [m below]. intros (D & DB & HM & HC & HB). unfold keep_min.
  assert (APP : forall y, In y (l ++ [x]) <-> In y l \/ y = x) by (intros y; rewrite in_app_iff; simpl; intuition).
  destruct (match find_bond m (bp x) with None => true | Some y => Rltb (bd x) (bd y) end) eqn:E.
  - destruct (keys_put m (bp x) x D) as [D' _].
    assert (LE : forall y, find_bond m (bp x) = Some y -> bd x < bd y) by (intros y Hy; rewrite Hy in E; apply Rltb_true in E; auto).
    assert (B' : forall k, In k (if Rltb (bd x) r_min then insert_set below (bp x) else below) <-> In k below \/ bd x < r_min /\ k = bp x).
    { intros k. destruct (Rltb (bd x) r_min) eqn:ER; [apply Rltb_true in ER|apply Rltb_false in ER].
      - destruct (insert_set_spec below (bp x) DB) as [_ I]. rewrite I. intuition.
      - intuition. lra. }
    split; [auto|]. split; [destruct (Rltb (bd x) r_min); auto; apply insert_set_spec; auto|]. split; [|split].
    + intros k y. rewrite find_put. destruct (Nat.eqb_spec k (bp x)) as [-> |NE].
      * intros Ey. injection Ey as <-. split; [apply APP; auto|split; auto]. intros z Hz Ez. apply APP in Hz as [Hz| ->]; [|lra].
        destruct (find_bond m (bp x)) as [w|] eqn:F.
        -- destruct (HM _ _ F) as (_ & _ & G). specialize (G z Hz Ez). specialize (LE w eq_refl). lra.
        -- exfalso. apply (HC z Hz). rewrite Ez. auto.
      * intros F. destruct (HM _ _ F) as (I & K & G). split; [apply APP; auto|split; auto]. intros z Hz Ez. apply APP in Hz as [Hz| ->]; auto. congruence.
    + intros z Hz. rewrite find_put. destruct (Nat.eqb_spec (bp z) (bp x)); [discriminate|]. apply APP in Hz as [Hz| ->]; [auto|congruence].
    + intros k. rewrite B', HB. split.
      * intros [(y & F & Ly)|[L ->]].
        -- destruct (Nat.eq_dec k (bp x)) as [-> |NE].
           ++ exists x. rewrite find_put, Nat.eqb_refl. split; auto. specialize (LE y F). lra.
           ++ exists y. rewrite find_put. destruct (Nat.eqb_spec k (bp x)); [congruence|auto].
        -- exists x. rewrite find_put, Nat.eqb_refl. auto.
      * intros (y & F & Ly). rewrite find_put in F. destruct (Nat.eqb_spec k (bp x)) as [-> |NE]; [injection F as <-; auto|]. left. exists y. auto.
  - destruct (find_bond m (bp x)) as [w|] eqn:F; [|discriminate]. apply Rltb_false in E.
    split; [auto|split; [auto|]]. split; [|split; auto].
    + intros k y Fy. destruct (HM _ _ Fy) as (I & K & G). split; [apply APP; auto|split; auto]. intros z Hz Ez. apply APP in Hz as [Hz| ->]; auto.
      rewrite Ez in F. rewrite F in Fy. injection Fy as <-. auto.
    + intros z Hz. apply APP in Hz as [Hz| ->]; auto. congruence.
Qed.
Lemma fold_min_inv r_min l : min_inv r_min l (fold_left (keep_min r_min) l ([], [])).
Proof.
  assert (G : forall l l0 st, min_inv r_min l0 st -> min_inv r_min (l0 ++ l) (fold_left (keep_min r_min) l st)).
  { clear. induction l as [|x l IH]; intros l0 st H; simpl; [rewrite app_nil_r; auto|]. replace (l0 ++ x :: l) with ((l0 ++ [x]) ++ l) by (rewrite <- app_assoc; reflexivity). apply IH, keep_min_inv, H. }
  apply (G l []). split; [constructor|split; [constructor|]]. split; [discriminate|]. split; [intros x []|]. intros k. split; [intros []|intros (y & E & _); discriminate].
Qed.
Lemma min_count r_min l m below : min_inv r_min l (m, below) -> length (filter (fun x => Rleb r_min (bd x)) (map snd m)) = (length m - length below)%nat.
Proof.
  intros (D & DB & HM & HC & HB).
  assert (L : length below = length (filter (fun x => negb (Rleb r_min (bd x))) (map snd m))).
  { transitivity (length (map fst (filter (fun kx => negb (Rleb r_min (bd (snd kx)))) m))).
    - apply Permutation_length. apply NoDup_Permutation; auto.
      + clear - D. induction m as [|[k v] m IH]; simpl; [constructor|]. inversion_clear D as [|? ? N D']. destruct (negb _); simpl; auto. constructor; auto.
        intros H. apply N. apply in_map_iff in H as ([k' v'] & E & H). apply filter_In in H as [H _]. simpl in E. subst k'. apply (in_map fst) in H. auto.
      + intros k. rewrite HB, in_map_iff. split.
        * intros (y & F & Ly). exists (k, y). split; auto. apply filter_In. split; [apply find_in; auto|]. simpl. rewrite (proj2 (Rleb_false _ _)); auto.
        * intros ([k' y] & E & H). simpl in E. subst k'. apply filter_In in H as [H N]. exists y. split; [apply find_in; auto|]. simpl in N. apply negb_true_iff, Rleb_false in N. auto.
    - rewrite map_length. clear. induction m as [|[k v] m IH]; simpl; auto. destruct (negb _); simpl; auto. }
  rewrite L. clear. induction m as [|[k v] m IH]; simpl; auto.
  assert (H : forall l : list bond, (length (filter (fun x => negb (Rleb r_min (bd x))) l) <= length l)%nat) by (clear; induction l as [|y l IH]; simpl; [lia|destruct (negb (Rleb r_min (bd y))); simpl; lia]).
  specialize (H (map snd m)). rewrite map_length in H. destruct (Rleb r_min (bd v)); cbn [negb filter length]; [|exact IH]. destruct (length (filter (fun x => negb (Rleb r_min (bd x))) (map snd m))); lia.
Qed.

(** ** One ball query of the search *)
Lemma one_near_image b points q j r i1 i2 i3 i1' i2' i3' : positive b -> 2 * r <= min_plane b -> allowed b i1 i2 i3 -> allowed b i1' i2' i3' ->
  norm (sep b points q j i1 i2 i3) < r -> norm (sep b points q j i1' i2' i3') < r -> (i1, i2, i3) = (i1', i2', i3').
Proof.
  intros Hb Hr (_ & _ & _ & A) (_ & _ & _ & A') N N'. destruct (min_plane_spec b) as (MX & MY & MZ & _).
  set (c := sep b points q j i1 i2 i3) in *. set (c' := sep b points q j i1' i2' i3') in *. set (m := Rmax (norm c) (norm c')).
  assert (E : c' = vadd c (shift b (i1 - i1') (i2 - i2') (i3 - i3'))) by (unfold c, c', sep, shift, comb; rewrite !minus_IZR; vec_ring).
  destruct (C07_no_two_images_in_ball b v0 c c' m (i1 - i1') (i2 - i2') (i3 - i3') Hb) as (X & Y & Z); auto.
  { replace (vsub c v0) with c by vec_ring. apply Rmax_l. } { replace (vsub c' v0) with c' by vec_ring. apply Rmax_r. }
  assert (M : m < r) by (apply Rmax_lub_lt; auto). specialize (X ltac:(lra)). specialize (Y ltac:(lra)).
  assert (i3 = i3').
  { destruct (b_2d b) eqn:E2; [rewrite A, A' by auto; reflexivity|]. specialize (MZ eq_refl). specialize (Z eq_refl ltac:(lra)). lia. }
  repeat f_equal; try lia; auto.
Qed.

(** What the loop has in hand after a ball query of radius [rho]. *)
Definition hand (b : box) (points : list vec3) (q : vec3) (qi : nat) (excl : bool) (r_min rho : R) (S : list bond) : Prop :=
  NoDup (map bp S) /\
  (forall x, In x S -> candidate b points q qi excl r_min near_images (bp x) (bv x) /\ norm (bv x) < rho /\ x = Bond qi (bp x) (norm (bv x)) 1 (bv x)) /\
  (forall j v, candidate b points q qi excl r_min near_images j v -> norm v < rho -> In j (map bp S)).
Lemma collect_hand b points q qi excl r_min rho ext found cur m below : positive b ->
  (ext = false -> 2 * rho <= min_plane b) -> NoDup found -> (forall x, In x found <-> in_range b points q qi rho 0 excl near_images x) ->
  knn_collect ext qi r_min excl found = (cur, (m, below)) ->
  hand b points q qi excl r_min rho (cur ++ filter (fun x => Rleb r_min (bd x)) (map snd m)) /\
  (length (cur ++ filter (fun x => Rleb r_min (bd x)) (map snd m)) = length cur + (length m - length below))%nat /\ (ext = true -> cur = []) /\ (ext = false -> m = []).
Proof.
  intros Hb HE ND HI. unfold knn_collect.
  assert (FF : filter (fun x => negb excl || negb (Nat.eqb qi (bp x))) found = found).
  { apply filter_keep. intros x Hx. apply HI in Hx as (j & i1 & i2 & i3 & _ & _ & _ & NE & _ & ->). simpl.
    destruct excl; auto. simpl. destruct (Nat.eqb_spec qi j); auto; exfalso; apply NE; auto. }
  rewrite FF. clear FF. destruct ext.
  - intros E. pose proof (fold_min_inv r_min found) as INV. destruct (fold_left (keep_min r_min) found ([], [])) as [m' below']. injection E as <- <- <-.
    split; [|split; [simpl; eapply min_count; eauto|split; [auto|discriminate]]]. cbn [app].
    destruct INV as (D & DB & HM & HC & HB).
    assert (VAL : forall x, In x (map snd m') <-> find_bond m' (bp x) = Some x).
    { intros x. rewrite in_map_iff. split.
      - intros ([k y] & Ey & H). simpl in Ey. subst y. apply find_in in H; auto. destruct (HM _ _ H) as (_ & <- & _). auto.
      - intros H. apply find_in in H; auto. exists (bp x, x). auto. }
    assert (NEAR : forall x, find_bond m' (bp x) = Some x -> (bp x < length points)%nat /\ ~ (excl = true /\ qi = bp x) /\
       nearest_image b points q near_images (bp x) (bv x) /\ norm (bv x) < rho /\ x = Bond qi (bp x) (norm (bv x)) 1 (bv x)).
    { intros x F. destruct (HM _ _ F) as (I & _ & G). pose proof (proj1 (HI x) I) as (j & i1 & i2 & i3 & Hj & HA & HN & NE & HR & Ex).
      assert (Ej : bp x = j) by (rewrite Ex; reflexivity). assert (Ev : bv x = sep b points q j i1 i2 i3) by (rewrite Ex; reflexivity).
      assert (Ed : bd x = norm (bv x)) by (rewrite Ex; reflexivity).
      rewrite Ej. split; auto. split; auto. split; [|split; [rewrite Ev; lra|rewrite Ev; exact Ex]]. split; [exists i1, i2, i3; auto|].
      intros k1 k2 k3 KA KN. destruct (Rlt_le_dec (norm (sep b points q j k1 k2 k3)) rho) as [L|L]; [|rewrite Ev; lra].
      specialize (G (Bond qi j (norm (sep b points q j k1 k2 k3)) 1 (sep b points q j k1 k2 k3))). rewrite <- Ed. apply G; auto.
      apply HI. exists j, k1, k2, k3. do 4 (split; [auto|]). split; [split; [apply norm_nonneg|auto]|auto]. }
    split; [|split].
    + assert (KV : forall l : list (nat * bond), (forall k y, In (k, y) l -> bp y = k) -> NoDup (map fst l) -> NoDup (map bp (filter (fun x => Rleb r_min (bd x)) (map snd l)))).
      { clear. induction l as [|[k v] l IH]; simpl; intros K N; [constructor|]. inversion_clear N as [|? ? N1 N2]. assert (Ev : bp v = k) by (apply K; auto).
        destruct (Rleb r_min (bd v)); simpl; [|apply IH; auto]. constructor; [|apply IH; auto].
        rewrite Ev. intros H. apply N1. apply in_map_iff in H as (y & Ey & H). apply filter_In in H as [H _]. apply in_map_iff in H as ([k' y'] & E & H). simpl in E. subst y'.
        assert (Q : bp y = k') by (apply K; auto). rewrite <- Q, Ey in H. clear Q. apply (in_map fst) in H. exact H. }
      apply KV; auto. intros k y H. apply find_in in H; auto. destruct (HM _ _ H) as (_ & K & _). auto.
    + intros x Hx. apply filter_In in Hx as [Hx L]. apply Rleb_true in L. apply VAL in Hx. destruct (NEAR x Hx) as (A & B & C & Dd & E).
      split; [|split; auto]. split; auto. split; auto. split; auto. rewrite E in L. simpl in L. auto.
    + intros j v (Hj & NE & [(i1 & i2 & i3 & HA & HN & Ev) Hmin] & Hr) Hv.
      set (x := Bond qi j (norm v) 1 v). assert (Ix : In x found).
      { apply HI. exists j, i1, i2, i3. rewrite <- Ev. do 4 (split; [auto|]). split; [split; [apply norm_nonneg|auto]|auto]. }
      destruct (find_bond m' j) as [y|] eqn:F; [|exfalso; apply (HC x Ix); auto].
      destruct (HM _ _ F) as (Iy & Ey & G). rewrite <- Ey in F. destruct (NEAR y F) as (_ & _ & [_ Nmin] & _ & EY).
      assert (LE : r_min <= bd y).
      { rewrite EY. simpl. pose proof (proj1 (HI y) Iy) as (j' & k1 & k2 & k3 & _ & KA & KN & _ & _ & Ex). rewrite Ex. simpl.
        assert (j' = j) by (rewrite <- Ey, Ex; reflexivity). subst j'. specialize (Hmin k1 k2 k3 KA KN). lra. }
      apply in_map_iff. exists y. split; auto. apply filter_In. split; [apply VAL; auto|]. apply Rleb_true. auto.
  - intros E. injection E as <- <- <-. cbn [map filter]. rewrite app_nil_r. split; [|split; [simpl; lia|split; [discriminate|auto]]]. specialize (HE eq_refl).
    assert (MEM : forall x, In x found -> exists i1 i2 i3, allowed b i1 i2 i3 /\ near_images i1 i2 i3 /\ bv x = sep b points q (bp x) i1 i2 i3 /\ norm (bv x) < rho /\
        (bp x < length points)%nat /\ ~ (excl = true /\ qi = bp x) /\ x = Bond qi (bp x) (norm (bv x)) 1 (bv x)).
    { intros x Hx. apply HI in Hx as (j & i1 & i2 & i3 & Hj & HA & HN & NE & HR & ->). exists i1, i2, i3. cbn [bp bv]. split; [auto|]. split; [auto|]. split; [reflexivity|]. split; [lra|]. auto. }
    split; [|split].
    + apply NoDup_map_in; [|apply List.NoDup_filter; auto].
      intros x y Hx Hy Exy. apply filter_In in Hx as [Hx _]. apply filter_In in Hy as [Hy _].
      destruct (MEM x Hx) as (i1 & i2 & i3 & A & N & V & L & _ & _ & EX). destruct (MEM y Hy) as (k1 & k2 & k3 & A' & N' & V' & L' & _ & _ & EY).
      rewrite <- Exy in *. rewrite V in L. rewrite V' in L'. pose proof (one_near_image b points q (bp x) rho i1 i2 i3 k1 k2 k3 Hb HE A A' L L') as T. injection T as <- <- <-.
      rewrite EX, EY, V, V'. reflexivity.
    + intros x Hx. apply filter_In in Hx as [Hx Lr]. apply Rleb_true in Lr. destruct (MEM x Hx) as (i1 & i2 & i3 & A & N & V & L & Hj & NE & EX).
      split; [|split; auto]. split; auto. split; auto. split; [|rewrite EX in Lr; auto]. split; [exists i1, i2, i3; auto|].
      intros k1 k2 k3 KA KN. destruct (Rlt_le_dec (norm (sep b points q (bp x) k1 k2 k3)) rho) as [Lk|Lk]; [|lra].
      rewrite V in L. pose proof (one_near_image b points q (bp x) rho i1 i2 i3 k1 k2 k3 Hb HE A KA L Lk) as T. injection T as <- <- <-. rewrite V. lra.
    + intros j v (Hj & NE & [(i1 & i2 & i3 & HA & HN & Ev) Hmin] & Hr) Hv. apply in_map_iff. exists (Bond qi j (norm v) 1 v). split; auto.
      apply filter_In. split; [|apply Rleb_true; auto]. apply HI. exists j, i1, i2, i3. rewrite <- Ev. do 4 (split; [auto|]). split; [split; [apply norm_nonneg|auto]|auto].
Qed.
