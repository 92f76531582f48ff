(** Proofs about the SANN and RAD filters. *)
From Verif Require Import FilterModel NListSpec ParProofs NListProofs NListProofs2.

Definition later_not_less (lt : bond -> bond -> bool) (l : list bond) : Prop :=
  forall i j, i < j < length l -> lt (nth j l bond0) (nth i l bond0) = false.
Lemma pairs_iff (P : bond -> bond -> Prop) l :
  (forall i j, i < j < length l -> P (nth i l bond0) (nth j l bond0)) <-> ForallOrdPairs P l.
Proof.
  induction l as [|x l IH]; split; intros H.
  - constructor.
  - intros i j Hij; simpl in Hij; lia.
  - constructor.
    + apply Forall_forall. intros y Hy. apply (In_nth _ _ bond0) in Hy as (k & Hk & <-). apply (H 0 (S k)). simpl; lia.
    + apply IH. intros i j Hij. apply (H (S i) (S j)). simpl; lia.
  - inversion H as [|? ? HF HP]; subst. intros i [|j] Hij; [lia|]. destruct i as [|i]; simpl in *.
    + rewrite Forall_forall in HF. apply HF, nth_In. lia.
    + apply (proj2 IH HP). lia.
Qed.
Lemma FOP_filter (P : bond -> bond -> Prop) f l : ForallOrdPairs P l -> ForallOrdPairs P (filter f l).
Proof.
  induction 1 as [|x l HF HP IH]; simpl; [constructor|]. destruct (f x); auto. constructor; auto.
  apply Forall_forall. intros y Hy. apply filter_In in Hy as [Hy _]. rewrite Forall_forall in HF. auto.
Qed.
Lemma sort_result_filter f lt l l' : sort_result lt l l' -> sort_result lt (filter f l) (filter f l').
Proof.
  intros [HP HO]. split; [apply filter_perm; auto|].
  apply (pairs_iff (fun a b => lt b a = false)). apply FOP_filter. apply pairs_iff. exact HO.
Qed.

Lemma takew_firstn i l : takew i l = firstn (length (takew i l)) l.
Proof. induction l as [|b l IH]; simpl; auto. destruct (bq b =? i); simpl; auto. f_equal. auto. Qed.
Lemma slice_spec nl counts i : sorted_q (nl_bonds nl) -> nth i counts 0 = cnt i (nl_bonds nl) ->
  slice nl counts i = of_point i (nl_bonds nl).
Proof.
  intros HS HC. unfold slice. rewrite HC, find_first_index_spec by auto. unfold cnt. rewrite <- (takew_before i) by auto.
  symmetry. apply takew_firstn.
Qed.

Lemma filter_result shell allow nl res : reach nl -> filter_compute shell allow nl res ->
  exists L : nat -> list bond,
    (forall i, sort_result less_as_distance (of_point i (nl_bonds nl)) (L i)) /\
    let unfilled := exists i, i < nl_nq nl /\ snd (shell i (L i)) = true in
    (unfilled /\ allow = false /\ res = Raised) \/
    (~ (unfilled /\ allow = false) /\ exists l,
       Permutation (flat_map (fun i => fst (shell i (L i))) (range 0 (nl_nq nl))) l /\ later_not_less less_as_distance l /\
       ((l = [] /\ res = Undefined) \/
        (exists q p, res = Filtered (NL (q + 1) (p + 1) l false (repeat 0 (q + 1)) (repeat 0 (q + 1))) /\
           (forall b, In b l -> bq b <= q /\ bp b <= p) /\ (exists b, In b l /\ bq b = q) /\ (exists b, In b l /\ bp b = p)))).
Proof.
  intros R (evs & sorted & HEs & HSo & H). unfold nl_copy in HSo.
  pose proof (reach_sort true evs nl sorted R HEs HSo) as R'. apply reach_inv in R'.
  destruct (nl_sort_spec true evs nl sorted HEs HSo) as [HS E].
  destruct (update_total sorted R') as (s & Es).
  destruct (update_inv sorted s R' Es) as (E1 & E2 & E3 & E4 & E5 & E6).
  unfold get_counts in H. rewrite Es in H. cbn [option_map] in H. destruct H as (ev & HE & H). cbv zeta in H.
  assert (NQ : nl_nq s = nl_nq nl) by (rewrite E2, E; reflexivity). rewrite NQ in *.
  exists (fun i => of_point i (nl_bonds sorted)). split; [intros i; apply sort_result_filter; auto|].
  assert (SL : forall i, i < nl_nq nl -> slice s (nl_counts s) i = of_point i (nl_bonds sorted)).
  { intros i Hi. rewrite <- E1. apply slice_spec; rewrite E1; [apply R'|]. rewrite E6. unfold spec_counts. rewrite nth_map_range; auto.
    rewrite E. simpl. auto. }
  assert (UF : existsb (fun i => snd (shell i (slice s (nl_counts s) i))) (range 0 (nl_nq nl)) = true <->
          exists i, i < nl_nq nl /\ snd (shell i (of_point i (nl_bonds sorted))) = true).
  { rewrite existsb_exists. split.
    - intros (i & Hi & U). unfold range in Hi. apply in_seq in Hi. exists i. split; [lia|]. rewrite <- SL by lia. auto.
    - intros (i & Hi & U). exists i. split; [unfold range; apply in_seq; lia|]. rewrite SL by lia. auto. }
  cbv zeta. destruct (existsb _ _ && negb allow) eqn:EU.
  - left. apply andb_true_iff in EU as [U A]. apply UF in U. apply negb_true_iff in A. auto.
  - right. split.
    { intros [U A]. apply UF in U. rewrite U, A in EU. discriminate. }
    destruct H as (l & evn & [HP HO] & HEn & ->). exists l. split; [|split; [exact HO|]].
    + rewrite run_local_app in HP. simpl in HP. rewrite <- HP. apply execution_perm in HE.
      rewrite <- (Permutation_flat_map _ (Permutation_sym HE)).
      assert (X : forall m a, a + m <= nl_nq nl -> flat_map (fun i => fst (shell i (of_point i (nl_bonds sorted)))) (seq a m) =
               flat_map (fun i => fst (shell i (slice s (nl_counts s) i))) (seq a m)).
      { induction m as [|m IH]; intros a Ha; simpl; auto. rewrite SL by lia. f_equal. apply IH. lia. }
      unfold range. rewrite X by lia. reflexivity.
    + destruct l as [|x l]; [left; split; auto; rewrite from_bonds_empty by auto; auto|]. right.
      destruct (from_bonds_spec (x :: l) evn HEn) as (q & p & EB & Q); [discriminate|]. rewrite EB. exists q, p. auto.
Qed.

Lemma filtered_of_point shell allow nl nl' : reach nl -> (forall i l x, In x (fst (shell i l)) -> bq x = i) ->
  filter_compute shell allow nl (Filtered nl') ->
  exists L : nat -> list bond,
    (forall i, sort_result less_as_distance (of_point i (nl_bonds nl)) (L i)) /\
    (forall i, Permutation (of_point i (nl_bonds nl')) (if i <? nl_nq nl then fst (shell i (L i)) else [])) /\
    later_not_less less_as_distance (nl_bonds nl') /\
    ~ (allow = false /\ exists i, i < nl_nq nl /\ snd (shell i (L i)) = true).
Proof.
  intros R HQ H. destruct (filter_result shell allow nl _ R H) as (L & HL & [(_ & _ & F)|(NU & l & HP & HO & [(_ & F)|(q & p & F & _)])]); try discriminate.
  exists L. split; auto. injection F as ->. cbn [nl_bonds]. split; [|split; [auto|tauto]].
  intros i. unfold of_point. rewrite <- (filter_perm _ _ _ HP). clear -HQ. unfold range. rewrite Nat.sub_0_r.
  assert (KP : filter (fun b => bq b =? i) (fst (shell i (L i))) = fst (shell i (L i))).
  { assert (H : forall x, In x (fst (shell i (L i))) -> bq x = i) by (intros; eapply HQ; eauto).
    induction (fst (shell i (L i))) as [|x l IHl]; simpl; auto. rewrite (proj2 (Nat.eqb_eq _ _)) by (apply H; left; auto).
    f_equal. apply IHl. intros; apply H; right; auto. }
  assert (DR : forall k, k <> i -> filter (fun b => bq b =? i) (fst (shell k (L k))) = []).
  { intros k Hk. assert (H : forall x, In x (fst (shell k (L k))) -> bq x <> i) by (intros x Hx; rewrite (HQ k (L k) x Hx); auto).
    induction (fst (shell k (L k))) as [|x l IHl]; simpl; auto. rewrite (proj2 (Nat.eqb_neq _ _)) by (apply H; left; auto).
    apply IHl. intros; apply H; right; auto. }
  assert (SK : forall m a, ~ (a <= i < a + m) -> filter (fun b => bq b =? i) (flat_map (fun k => fst (shell k (L k))) (seq a m)) = []).
  { induction m as [|m IH]; intros a H; simpl; auto. rewrite filter_app, IH, DR by lia. reflexivity. }
  destruct (Nat.ltb_spec i (nl_nq nl)) as [Hi|Hi].
  - replace (nl_nq nl) with (i + S (nl_nq nl - S i)) by lia. rewrite seq_app, flat_map_app, filter_app. simpl.
    rewrite filter_app, KP, (SK i 0), (SK (nl_nq nl - S i) (S i)) by lia. rewrite app_nil_r. reflexivity.
  - rewrite SK by lia. reflexivity.
Qed.

(** ** SANN *)
Definition dsum (l : list bond) : R := fold_right Rplus 0%R (map bd l).
Lemma dsum_app a b : dsum (a ++ b) = (dsum a + dsum b)%R.
Proof. unfold dsum. induction a; simpl; [ring|]. rewrite IHa. ring. Qed.
(** m nearest neighbours form a self-consistent shell. *)
Definition sann_shell_ok (l : list bond) (m : nat) : Prop :=
  3 <= m < length l /\ (dsum (firstn m l) / (INR m - 2) <= bd (nth m l bond0))%R.

Lemma sann_first_spec : forall l m sum,
  let '(k, r, m', s) := sann_first l m sum in
  l = k ++ r /\ m' = m + length k /\ s = (sum + dsum k)%R /\ (r <> [] -> 3 <= m') /\ length k <= 3 - m.
Proof.
  induction l as [|x l IH]; intros m sum; cbn [sann_first].
  - split; auto. split; [simpl; lia|]. split; [unfold dsum; simpl; ring|]. split; [congruence|simpl; lia].
  - destruct (Nat.ltb_spec m 3).
    + specialize (IH (S m) (sum + bd x)%R). destruct (sann_first l (S m) (sum + bd x)) as [[[k r] m'] s].
      destruct IH as (-> & -> & -> & H1 & H2). cbn [length app]. split; auto. split; [lia|]. split; [unfold dsum; simpl; ring|].
      split; [intros N; specialize (H1 N); lia|lia].
    + split; auto. split; [simpl; lia|]. split; [unfold dsum; simpl; ring|]. split; [intros _; lia|simpl length; lia].
Qed.
Lemma sann_more_spec : forall l pre m sum, m = length pre -> sum = dsum pre ->
  let '(k, m') := sann_more l m sum in
  m' = m + length k /\ k = firstn (length k) l /\ length k <= length l /\
  (forall j, m <= j < m' -> (bd (nth j (pre ++ l) bond0) < dsum (firstn j (pre ++ l)) / (INR j - 2))%R) /\
  (m' < length (pre ++ l) -> (dsum (firstn m' (pre ++ l)) / (INR m' - 2) <= bd (nth m' (pre ++ l) bond0))%R).
Proof.
  induction l as [|x l IH]; intros pre m sum Hm Hs; simpl.
  - split; [lia|]. split; auto. split; auto. split; [intros; lia|]. rewrite app_nil_r. lia.
  - assert (NX : nth m (pre ++ x :: l) bond0 = x) by (subst m; rewrite app_nth2, Nat.sub_diag by lia; auto).
    assert (FX : firstn m (pre ++ x :: l) = pre) by (subst m; rewrite firstn_app, Nat.sub_diag, firstn_all; simpl; apply app_nil_r).
    destruct (Rltb_spec (bd x) (sum / (INR m - 2))) as [C|C].
    + specialize (IH (pre ++ [x]) (S m) (sum + bd x)%R). destruct (sann_more l (S m) (sum + bd x)) as [k m'].
      destruct IH as (-> & E & H1 & H2 & H3).
      { rewrite app_length; simpl; lia. } { rewrite dsum_app; unfold dsum at 2; simpl; subst; ring. }
      rewrite <- app_assoc in H2, H3. simpl in H2, H3 |- *.
      split; [lia|]. split; [f_equal; auto|]. split; [lia|]. split.
      * intros j Hj. destruct (Nat.eq_dec j m) as [->|]; [rewrite NX, FX, <- Hs; auto|]. apply H2. lia.
      * replace (m + S (length k)) with (S (m + length k)) by lia. auto.
    + simpl. split; [lia|]. split; auto. split; [lia|]. split; [intros; lia|]. intros _. replace (m + 0) with m by lia.
      rewrite ?Nat.add_0_r, NX, FX, <- Hs. lra.
Qed.

Lemma sann_shell_spec i l :
  exists m, m <= length l /\ sann_shell i l = (map (set_q i) (firstn m l), m =? length l) /\
    (m < length l -> sann_shell_ok l m) /\ (forall m', sann_shell_ok l m' -> m <= m').
Proof.
  unfold sann_shell. pose proof (sann_first_spec l 0 0%R) as F. destruct (sann_first l 0 0) as [[[k1 rest] m] sum].
  destruct F as (E & Em & Es & H3 & H4). simpl in Em. rewrite Rplus_0_l in Es.
  pose proof (sann_more_spec rest k1 m sum Em Es) as M. destruct (sann_more rest m sum) as [k2 m'].
  destruct M as (Em' & Ek & Lk & HA & HB). rewrite <- E in HA, HB.
  exists m'. assert (LL : length l = length k1 + length rest) by (rewrite E, app_length; auto).
  split; [lia|]. split; [|split].
  - f_equal. f_equal. rewrite E, Em', Em, firstn_app. rewrite firstn_all2 by lia. f_equal.
    replace (length k1 + length k2 - length k1) with (length k2) by lia. auto.
  - intros HL. split; [|auto]. split; auto. destruct rest as [|x rest]; [simpl in *; lia|]. assert (3 <= m) by (apply H3; discriminate). lia.
  - intros m'' [[A B] C]. destruct (Nat.le_gt_cases m' m''); auto. exfalso.
    assert (m <= m''). { destruct (Nat.le_gt_cases m m''); auto. lia. }
    specialize (HA m'' ltac:(lia)). lra.
Qed.
Lemma sann_shell_q i l x : In x (fst (sann_shell i l)) -> bq x = i.
Proof.
  destruct (sann_shell_spec i l) as (m & _ & -> & _). simpl. intros H. apply in_map_iff in H as (y & <- & _). reflexivity.
Qed.

(** ** RAD *)
Section Rad.
  Context (b : box) (points : list vec3) (radii : list R) (i : nat) (q : vec3).
  Let blocked (l : list bond) (j : nat) : bool := rad_blocked b points radii q (firstn j l) (nth j l bond0).
  Let mk (x : bond) : bond := Bond i (bp x) (bd x) 1%R (rad_vec b points q x).

  Lemma rad_open : forall rest prev g,
    fst (rad_loop b points radii false i q prev rest g) =
    map (fun j => mk (nth j (prev ++ rest) bond0))
        (filter (fun j => negb (blocked (prev ++ rest) j)) (seq (length prev) (length rest))).
  Proof.
    induction rest as [|x rest IH]; intros prev g; [reflexivity|]. cbn [rad_loop length seq filter].
    unfold blocked at 1. rewrite firstn_app, Nat.sub_diag, firstn_all. cbn [firstn]. rewrite app_nil_r.
    rewrite app_nth2, Nat.sub_diag by lia. cbn [nth].
    assert (EA : prev ++ x :: rest = (prev ++ [x]) ++ rest) by (rewrite <- app_assoc; reflexivity).
    assert (EL : S (length prev) = length (prev ++ [x])) by (rewrite app_length; simpl; lia).
    destruct (rad_blocked b points radii q prev x); cbn [negb].
    - rewrite IH. rewrite EA, EL. reflexivity.
    - specialize (IH (prev ++ [x]) true). destruct (rad_loop b points radii false i q (prev ++ [x]) rest true) as [k g'].
      cbn [fst map] in *. rewrite app_nth2, Nat.sub_diag by lia. cbn [nth]. rewrite IH, EA, EL. reflexivity.
  Qed.
  Lemma rad_closed : forall rest prev g,
    exists m, m <= length rest /\
      fst (rad_loop b points radii true i q prev rest g) = map mk (firstn m rest) /\
      (forall j, j < m -> blocked (prev ++ rest) (length prev + j) = false) /\
      (m < length rest -> blocked (prev ++ rest) (length prev + m) = true) /\
      snd (rad_loop b points radii true i q prev rest g) = (if m =? length rest then (if length rest =? 0 then g else true) else false).
  Proof.
    induction rest as [|x rest IH]; intros prev g.
    - exists 0. simpl. split; auto. split; auto. split; [intros; lia|]. split; [lia|auto].
    - cbn [rad_loop].
      assert (EA : prev ++ x :: rest = (prev ++ [x]) ++ rest) by (rewrite <- app_assoc; reflexivity).
      assert (B0 : blocked (prev ++ x :: rest) (length prev + 0) = rad_blocked b points radii q prev x).
      { unfold blocked. rewrite Nat.add_0_r, firstn_app, Nat.sub_diag, firstn_all. cbn [firstn]. rewrite app_nil_r.
        rewrite app_nth2, Nat.sub_diag by lia. reflexivity. }
      destruct (rad_blocked b points radii q prev x) eqn:EB.
      + exists 0. simpl. split; [lia|]. split; auto. split; [intros; lia|]. split; [intros _; exact B0|auto].
      + destruct (IH (prev ++ [x]) true) as (m & H1 & H2 & H3 & H4 & H5).
        destruct (rad_loop b points radii true i q (prev ++ [x]) rest true) as [k g']. simpl in H2, H5.
        exists (S m). cbn [length firstn map fst snd]. split; [lia|]. split; [rewrite H2; reflexivity|]. split; [|split].
        * intros [|j] Hj; [exact B0|]. rewrite EA. specialize (H3 j ltac:(lia)). rewrite app_length in H3; simpl in H3.
          replace (length prev + S j) with (length prev + 1 + j) by lia. auto.
        * intros HL. rewrite EA. specialize (H4 ltac:(lia)). rewrite app_length in H4; simpl in H4.
          replace (length prev + S m) with (length prev + 1 + m) by lia. auto.
        * rewrite H5. simpl. destruct (m =? length rest); auto. destruct (length rest =? 0); auto.
  Qed.
End Rad.

Lemma rad_shell_q b points radii closed qpoints i l x : In x (fst (rad_shell b points radii closed qpoints i l)) -> bq x = i.
Proof.
  unfold rad_shell. destruct closed.
  - destruct (rad_closed b points radii i (nth i qpoints v0) l [] true) as (m & _ & E & _).
    destruct (rad_loop _ _ _ _ _ _ _ _ _) as [k g]. simpl in *. subst. intros H. apply in_map_iff in H as (y & <- & _). reflexivity.
  - pose proof (rad_open b points radii i (nth i qpoints v0) l [] true) as E.
    destruct (rad_loop _ _ _ _ _ _ _ _ _) as [k g]. simpl in *. subst. intros H. apply in_map_iff in H as (y & <- & _). reflexivity.
Qed.
