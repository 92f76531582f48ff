(** Segments and counts, iteration, constructors, sorting, reachable lists. *)
From Verif Require Import NListSpec ParProofs MArrayProofs NListProofs.

Definition cnt (k : nat) (bs : list bond) : nat := length (of_point k bs).
Definition spec_counts (nq : nat) (bs : list bond) : list nat := map (fun k => cnt k bs) (range 0 nq).
Definition spec_segments (nq : nat) (bs : list bond) : list nat :=
  map (fun k => if cnt k bs =? 0 then 0 else before k bs) (range 0 nq).

Lemma cnt_app k a b : cnt k (a ++ b) = cnt k a + cnt k b.
Proof. unfold cnt, of_point. rewrite filter_app, app_length. auto. Qed.
Lemma cnt_one k b : cnt k [b] = if bq b =? k then 1 else 0.
Proof. unfold cnt, of_point; simpl. destruct (bq b =? k); auto. Qed.
Lemma before_app k a b : before k (a ++ b) = before k a + before k b.
Proof. unfold before. rewrite filter_app, app_length. auto. Qed.
Lemma before_one k b : before k [b] = if bq b <? k then 1 else 0.
Proof. unfold before; simpl. destruct (bq b <? k); auto. Qed.
Lemma cnt_zero k bs : (forall x, In x bs -> bq x <> k) -> cnt k bs = 0.
Proof.
  intros H. unfold cnt, of_point. induction bs as [|b bs IH]; simpl; auto.
  rewrite (proj2 (Nat.eqb_neq _ _)) by (apply H; left; auto). apply IH. intros; apply H; right; auto.
Qed.
Lemma cnt_pos k bs x : In x bs -> bq x = k -> 0 < cnt k bs.
Proof.
  intros H E. unfold cnt. assert (I : In x (of_point k bs)).
  { apply filter_In. split; auto. apply Nat.eqb_eq; auto. }
  destruct (of_point k bs); [contradiction|simpl; lia].
Qed.
Lemma before_all k bs : (forall x, In x bs -> bq x < k) -> before k bs = length bs.
Proof.
  intros H. unfold before. induction bs as [|b bs IH]; simpl; auto.
  rewrite (proj2 (Nat.ltb_lt _ _)) by (apply H; left; auto). simpl. f_equal. apply IH. intros; apply H; right; auto.
Qed.
Lemma filter_perm {A} (f : A -> bool) l l' : Permutation l l' -> Permutation (filter f l) (filter f l').
Proof.
  induction 1; simpl; auto.
  - destruct (f x); auto.
  - destruct (f x), (f y); auto. constructor.
  - etransitivity; eauto.
Qed.
Lemma cnt_perm k l l' : Permutation l l' -> cnt k l = cnt k l'.
Proof. intros H. apply Permutation_length, filter_perm, H. Qed.
Lemma before_perm k l l' : Permutation l l' -> before k l = before k l'.
Proof. intros H. apply Permutation_length, filter_perm, H. Qed.
Lemma nth_map_range {T} (f : nat -> T) n k d : k < n -> nth k (map f (range 0 n)) d = f k.
Proof.
  intros H. rewrite (nth_indep _ d (f 0)) by (rewrite map_length; unfold range; rewrite seq_length; lia).
  rewrite (map_nth f). unfold range. rewrite seq_nth by lia. auto.
Qed.
Lemma map_range_length {T} (f : nat -> T) n : length (map f (range 0 n)) = n.
Proof. rewrite map_length. unfold range. rewrite seq_length. lia. Qed.

(** ** Segment loop *)
Definition seg_inv (nq : nat) (pre : list bond) (last : option nat) (counter : nat) (segs counts : list nat) : Prop :=
  length segs = nq /\ length counts = nq /\
  match last with
  | None => pre = [] /\ counter = 0
  | Some l => (forall x, In x pre -> bq x <= l) /\ (exists x, In x pre /\ bq x = l) /\ counter = cnt l pre /\ l < nq
  end /\
  (forall k, k < nq -> nth k segs 0 = if cnt k pre =? 0 then 0 else before k pre) /\
  (forall k, k < nq -> nth k counts 0 = if match last with Some l => l =? k | None => false end then 0 else cnt k pre).

Lemma seg_loop_spec nq : forall bs pre last counter segs counts,
  sorted_q (pre ++ bs) -> (forall b, In b bs -> bq b < nq) -> seg_inv nq pre last counter segs counts ->
  exists last' counter' segs' counts',
    seg_loop bs (length pre) last counter segs counts = Some (last', counter', segs', counts') /\
    seg_inv nq (pre ++ bs) last' counter' segs' counts'.
Proof.
  induction bs as [|b bs IH]; intros pre last counter segs counts HS HB I.
  - simpl. exists last, counter, segs, counts. rewrite app_nil_r. auto.
  - destruct I as (L1 & L2 & HL & SG & CT).
    assert (HSb : forall x, In x pre -> bq x <= bq b).
    { intros x Hx. apply sorted_q_app in HS as (_ & _ & H). apply H; auto. left; auto. }
    assert (Hb : bq b < nq) by (apply HB; left; auto).
    assert (HS' : sorted_q ((pre ++ [b]) ++ bs)) by (rewrite <- app_assoc; auto).
    assert (LP : S (length pre) = length (pre ++ [b])) by (rewrite app_length; simpl; lia).
    assert (EA : pre ++ b :: bs = (pre ++ [b]) ++ bs) by (rewrite <- app_assoc; auto).
    assert (HIn : forall x, In x (pre ++ [b]) -> bq x <= bq b).
    { intros x Hx. apply in_app_or in Hx as [Hx|[<-|[]]]; auto. }
    assert (HEx : exists x, In x (pre ++ [b]) /\ bq x = bq b).
    { exists b. split; auto. apply in_or_app; right; left; auto. }
    simpl. destruct (match last with Some l => bq b =? l | None => false end) eqn:ES.
    + (* same query point *)
      destruct last as [l|]; [|discriminate]. apply Nat.eqb_eq in ES. destruct HL as (H1 & H2 & H3 & H4).
      rewrite EA, LP. apply IH; auto; [intros; apply HB; right; auto|].
      split; [auto|split; [auto|split; [|split]]].
      * split; [auto|split; [auto|split; [|auto]]].
        rewrite cnt_app, cnt_one, Nat.eqb_refl. rewrite ES, <- H3. lia.
      * intros k Hk. rewrite SG by auto. rewrite cnt_app, cnt_one, before_app, before_one.
        destruct (Nat.eqb_spec (bq b) k) as [E|E].
        -- assert (P : 0 < cnt k pre) by (destruct H2 as (x & Hx & Ex); apply (cnt_pos k pre x); auto; lia).
           rewrite (proj2 (Nat.eqb_neq (cnt k pre) 0)) by lia.
           rewrite (proj2 (Nat.eqb_neq (cnt k pre + 1) 0)) by lia.
           rewrite (proj2 (Nat.ltb_ge _ _)) by lia. lia.
        -- rewrite Nat.add_0_r. destruct (Nat.eqb_spec (cnt k pre) 0); auto.
           destruct (Nat.ltb_spec (bq b) k); [|lia]. exfalso. apply n. apply cnt_zero. intros x Hx. specialize (HSb x Hx). lia.
      * intros k Hk. rewrite CT by auto. rewrite cnt_app, cnt_one. rewrite ES.
        destruct (Nat.eqb_spec l k); [auto|lia].
    + (* new query point *)
      assert (NEW : forall x, In x pre -> bq x < bq b).
      { intros x Hx. destruct last as [l|].
        - apply Nat.eqb_neq in ES. destruct HL as (H1 & (y & Hy & Ey) & _ & _).
          specialize (HSb y Hy). specialize (H1 x Hx). lia.
        - destruct HL as [-> _]. contradiction. }
      assert (C0 : cnt (bq b) pre = 0).
      { apply cnt_zero. intros x Hx. specialize (NEW x Hx). lia. }
      rewrite wr_some by lia.
      assert (SG' : forall k, k < nq -> nth k (upd segs (bq b) (length pre)) 0 =
                 if cnt k (pre ++ [b]) =? 0 then 0 else before k (pre ++ [b])).
      { intros k Hk. rewrite nth_upd_if by lia. rewrite cnt_app, cnt_one, before_app, before_one.
        rewrite (Nat.eqb_sym (bq b) k). destruct (Nat.eqb_spec k (bq b)) as [->|E].
        - rewrite (proj2 (Nat.eqb_neq (cnt (bq b) pre + 1) 0)) by lia.
          rewrite (before_all _ _ NEW). rewrite Nat.ltb_irrefl. lia.
        - rewrite Nat.add_0_r, SG by auto. destruct (Nat.eqb_spec (cnt k pre) 0); auto.
          destruct (Nat.ltb_spec (bq b) k); [|lia]. exfalso. apply n. apply cnt_zero. intros x Hx. specialize (HSb x Hx). lia. }
      assert (CNT1 : 1 = cnt (bq b) (pre ++ [b])) by (rewrite cnt_app, cnt_one, Nat.eqb_refl; lia).
      rewrite EA, LP.
      destruct (Nat.ltb_spec 0 (bq b)) as [P|P].
      * destruct last as [l|].
        -- destruct HL as (H1 & (y & Hy & Ey) & H3 & H4). rewrite wr_some by lia.
           assert (l < bq b) by (specialize (NEW y Hy); lia).
           apply IH; auto; [intros; apply HB; right; auto|].
           split; [rewrite upd_length; auto|split; [rewrite upd_length; auto|split; [auto|split; [auto|]]]].
           intros k Hk. rewrite nth_upd_if by lia. rewrite CT by auto. rewrite cnt_app, cnt_one.
           rewrite (Nat.eqb_sym (bq b) k). destruct (Nat.eqb_spec k (bq b)) as [->|E].
           ++ rewrite (proj2 (Nat.eqb_neq (bq b) l)) by lia. rewrite (proj2 (Nat.eqb_neq l (bq b))) by lia. auto.
           ++ rewrite Nat.add_0_r. rewrite (Nat.eqb_sym l k). destruct (Nat.eqb_spec k l); subst; auto.
        -- destruct HL as [-> ->]. simpl app in *.
           apply IH; auto; [intros; apply HB; right; auto|].
           split; [rewrite upd_length; auto|split; [auto|split; [auto|split; [auto|]]]].
           intros k Hk. rewrite CT by auto. rewrite cnt_one. destruct (bq b =? k); auto.
      * assert (Z : bq b = 0) by lia.
        assert (PN : pre = []).
        { destruct pre as [|x pre]; auto. specialize (NEW x (or_introl eq_refl)). lia. }
        subst pre. destruct last as [l|]; [destruct HL as (_ & (y & [] & _) & _)|].
        destruct HL as [_ ->].
        apply IH; auto; [intros; apply HB; right; auto|].
        split; [rewrite upd_length; auto|split; [auto|split; [auto|split; [auto|]]]].
        intros k Hk. rewrite CT by auto. simpl app. rewrite cnt_one. destruct (bq b =? k); auto.
Qed.

Lemma update_spec nl : nl_updated nl = false -> sorted_q (nl_bonds nl) -> (forall b, In b (nl_bonds nl) -> bq b < nl_nq nl) ->
  update_segment_counts nl =
  Some (NL (nl_nq nl) (nl_np nl) (nl_bonds nl) true (spec_segments (nl_nq nl) (nl_bonds nl)) (spec_counts (nl_nq nl) (nl_bonds nl))).
Proof.
  intros HU HS HB. unfold update_segment_counts. rewrite HU.
  destruct (seg_loop_spec (nl_nq nl) (nl_bonds nl) [] None 0 (repeat 0 (nl_nq nl)) (repeat 0 (nl_nq nl)))
    as (last & counter & segs & counts & E & I); auto.
  { split; [apply repeat_length|split; [apply repeat_length|split; [auto|split]]]; intros k Hk; simpl; apply nth_repeat. }
  simpl in E. rewrite E. clear E. simpl app in I. destruct I as (L1 & L2 & HL & SG & CT).
  assert (ES : segs = spec_segments (nl_nq nl) (nl_bonds nl)).
  { apply (list_ext 0); [unfold spec_segments; rewrite map_range_length; auto|].
    intros k Hk. unfold spec_segments. rewrite nth_map_range by lia. apply SG. lia. }
  destruct last as [l|].
  - destruct HL as (H1 & _ & H3 & H4). rewrite wr_some by lia. rewrite ES. do 2 f_equal.
    apply (list_ext 0); [unfold spec_counts; rewrite map_range_length, upd_length; auto|].
    rewrite upd_length. intros k Hk. unfold spec_counts. rewrite nth_map_range by lia. rewrite nth_upd_if by lia.
    rewrite CT by lia. rewrite (Nat.eqb_sym l k). destruct (Nat.eqb_spec k l); subst; auto.
  - rewrite ES. do 2 f_equal. apply (list_ext 0); [unfold spec_counts; rewrite map_range_length; auto|].
    intros k Hk. unfold spec_counts. rewrite nth_map_range by lia. apply CT. lia.
Qed.

(** ** Iteration *)
Fixpoint takew (i : nat) (l : list bond) : list bond :=
  match l with [] => [] | b :: l => if bq b =? i then b :: takew i l else [] end.
Lemma takew_ge i l : sorted_q l -> (forall x, In x l -> i <= bq x) -> takew i l = of_point i l.
Proof.
  unfold of_point. induction l as [|b l IH]; intros HS H; simpl; auto. destruct (Nat.eqb_spec (bq b) i) as [E|E].
  - f_equal. apply IH; [eapply sorted_q_tail; eauto|intros; apply H; right; auto].
  - assert (HH : forall x, In x l -> bq x <> i).
    { intros x Hx. pose proof (sorted_q_head _ _ HS x Hx). specialize (H b (or_introl eq_refl)). lia. }
    clear -HH. induction l as [|x l IH]; simpl; auto. rewrite (proj2 (Nat.eqb_neq _ _)) by (apply HH; left; auto).
    apply IH. intros; apply HH; right; auto.
Qed.
Lemma takew_before i bs : sorted_q bs -> takew i (skipn (before i bs) bs) = of_point i bs.
Proof.
  induction bs as [|b bs IH]; intros HS; auto.
  pose proof (sorted_q_tail _ _ HS) as HT. unfold before. simpl filter. destruct (Nat.ltb_spec (bq b) i).
  - simpl. fold (before i bs). rewrite IH by auto. unfold of_point at 2. simpl.
    rewrite (proj2 (Nat.eqb_neq _ _)) by lia. reflexivity.
  - replace (filter (fun b0 => bq b0 <? i) bs) with (@nil bond).
    + simpl skipn. apply takew_ge; auto. intros x [<-|Hx]; auto. pose proof (sorted_q_head _ _ HS x Hx). lia.
    + assert (HH : forall x, In x bs -> i <= bq x) by (intros x Hx; pose proof (sorted_q_head _ _ HS x Hx); lia).
      clear -HH. induction bs; simpl; auto. rewrite (proj2 (Nat.ltb_ge _ _)) by (apply HH; left; auto).
      apply IHbs. intros; apply HH; right; auto.
Qed.
Lemma skipn_nth {T} (l : list T) d : forall c, c < length l -> skipn c l = nth c l d :: skipn (S c) l.
Proof. induction l as [|x l IH]; intros [|c] H; simpl in *; auto; try lia. apply IH. lia. Qed.

Lemma visit_spec nl i : forall fuel c ret, c <= length (nl_bonds nl) -> length (nl_bonds nl) - c < fuel ->
  (let (nb, it) := iter_next nl (NLI c ret false) in visit fuel nl i nb it) = Some (takew i (skipn c (nl_bonds nl))).
Proof.
  induction fuel as [|fuel IH]; intros c ret Hc Hf; [lia|].
  unfold iter_next at 1. cbn [it_cur it_ret it_fin]. destruct (Nat.eqb_spec c (length (nl_bonds nl))) as [E|E].
  - cbn [visit]. unfold iter_end; simpl. rewrite orb_true_r. rewrite E, skipn_all. reflexivity.
  - cbn [visit]. unfold iter_end; cbn [it_ret it_fin]. rewrite orb_false_r.
    rewrite (skipn_nth (nl_bonds nl) bond0 c) by lia. cbn [takew].
    destruct (bq (nth c (nl_bonds nl) bond0) =? i); cbn [negb]; auto.
    specialize (IH (S c) (Some (bq (nth c (nl_bonds nl) bond0))) ltac:(lia) ltac:(lia)).
    destruct (iter_next nl (NLI (S c) (Some (bq (nth c (nl_bonds nl) bond0))) false)) as [nb it].
    rewrite IH. reflexivity.
Qed.

Lemma iterate_spec nl i : sorted_q (nl_bonds nl) -> iterate nl i = Some (of_point i (nl_bonds nl)).
Proof.
  intros HS. unfold iterate, iter_init. rewrite find_first_index_spec by auto.
  pose proof (before_le i (nl_bonds nl)) as HL.
  destruct (Nat.eqb_spec (before i (nl_bonds nl)) (length (nl_bonds nl))) as [E|E].
  - unfold iter_next. cbn [it_cur it_ret it_fin]. rewrite (proj2 (Nat.eqb_eq _ _) E). cbn [visit].
    unfold iter_end; simpl. rewrite <- takew_before by auto. rewrite E, skipn_all. reflexivity.
  - pose proof (visit_spec nl i (S (length (nl_bonds nl))) (before i (nl_bonds nl))
                 (Some (bq (nth (before i (nl_bonds nl)) (nl_bonds nl) bond0))) HL ltac:(lia)) as V.
    rewrite takew_before in V by auto. exact V.
Qed.

Lemma loop_over_iterator_spec nl ev : sorted_q (nl_bonds nl) ->
  loop_over_iterator nl ev = Some (map (fun e => (snd e, of_point (snd e) (nl_bonds nl))) ev).
Proof.
  intros HS. induction ev as [|[t i] ev IH]; simpl; auto. rewrite iterate_spec, IH by auto. reflexivity.
Qed.

Lemma split_point a bs : sorted_q bs -> (forall x, In x bs -> a <= bq x) ->
  bs = of_point a bs ++ filter (fun b => negb (bq b =? a)) bs.
Proof.
  unfold of_point. induction bs as [|b bs IH]; intros HS H; simpl; auto.
  destruct (Nat.eqb_spec (bq b) a) as [E|E]; simpl.
  - f_equal. apply IH; [eapply sorted_q_tail; eauto|intros; apply H; right; auto].
  - assert (HH : forall x, In x bs -> bq x <> a).
    { intros x Hx. pose proof (sorted_q_head _ _ HS x Hx). specialize (H b (or_introl eq_refl)). lia. }
    clear -HH. replace (filter (fun b0 => bq b0 =? a) bs) with (@nil bond).
    + simpl. f_equal. induction bs as [|x bs IH]; simpl; auto. rewrite (proj2 (Nat.eqb_neq _ _)) by (apply HH; left; auto).
      simpl. f_equal. apply IH. intros; apply HH; right; auto.
    + induction bs as [|x bs IH]; simpl; auto. rewrite (proj2 (Nat.eqb_neq _ _)) by (apply HH; left; auto).
      apply IH. intros; apply HH; right; auto.
Qed.
Lemma sorted_q_filter f bs : sorted_q bs -> sorted_q (filter f bs).
Proof. intros H. rewrite <- select_map_filter. apply sorted_q_select; auto. Qed.
Lemma all_points m : forall a bs, sorted_q bs -> (forall x, In x bs -> a <= bq x < a + m) ->
  flat_map (fun i => of_point i bs) (seq a m) = bs.
Proof.
  induction m as [|m IH]; intros a bs HS H; simpl.
  - destruct bs as [|b bs]; auto. specialize (H b (or_introl eq_refl)). lia.
  - transitivity (of_point a bs ++ filter (fun b => negb (bq b =? a)) bs);
      [|symmetry; apply split_point; auto; intros x Hx; specialize (H x Hx); lia]. f_equal.
    rewrite <- (IH (S a) (filter (fun b => negb (bq b =? a)) bs)).
    + assert (HE : forall i, a < i -> of_point i bs = of_point i (filter (fun b => negb (bq b =? a)) bs)).
      { intros i Hi. unfold of_point. clear -Hi. induction bs as [|b bs IHb]; simpl; auto.
        destruct (Nat.eqb_spec (bq b) i), (Nat.eqb_spec (bq b) a); simpl; subst; try lia; auto.
        - rewrite Nat.eqb_refl. f_equal. auto.
        - rewrite (proj2 (Nat.eqb_neq _ _)) by lia. auto. }
      assert (forall l, (forall i, In i l -> a < i) ->
        flat_map (fun i => of_point i bs) l = flat_map (fun i => of_point i (filter (fun b => negb (bq b =? a)) bs)) l).
      { induction l as [|i l IHl]; simpl; auto. intros Hl. rewrite (HE i) by (apply Hl; auto). f_equal. auto. }
      apply H0. intros i Hi. apply in_seq in Hi. lia.
    + apply sorted_q_filter; auto.
    + intros x Hx. apply filter_In in Hx as [Hx HN]. specialize (H x Hx). apply negb_true_iff, Nat.eqb_neq in HN. lia.
Qed.

(** ** all_pairs *)
Definition apb (b : box) (points qpoints : list vec3) (i j : nat) : bond :=
  let dr := wrap b (vsub (nth i qpoints v0) (nth j points v0)) in Bond i j (norm dr) 1%R dr.
Definition keep (excl : bool) (i j : nat) : bool := negb (excl && (i =? j)).
Definition row (b : box) (points qpoints : list vec3) (excl : bool) (i : nat) : list bond :=
  map (apb b points qpoints i) (filter (keep excl i) (range 0 (length points))).

Lemma ap_inner_spec b points qpoints excl i : forall js pre mid post,
  length mid = length (filter (keep excl i) js) ->
  ap_inner b points (nth i qpoints v0) i excl js (length pre) (pre ++ mid ++ post) =
  Some (pre ++ map (apb b points qpoints i) (filter (keep excl i) js) ++ post).
Proof.
  induction js as [|j js IH]; intros pre mid post HL.
  - destruct mid; [reflexivity|discriminate].
  - cbn [ap_inner filter] in *. unfold keep at 1 in HL. unfold keep at 1.
    destruct (excl && (i =? j)); cbn [negb] in *; [apply IH; auto|].
    destruct mid as [|m mid]; [discriminate|].
    rewrite wr_some by (rewrite !app_length; simpl; lia). cbn [app]. rewrite upd_app.
    replace (Bond i j (sqrt (dot (wrap b (vsub (nth i qpoints v0) (nth j points v0))) (wrap b (vsub (nth i qpoints v0) (nth j points v0))))) 1%R
         (wrap b (vsub (nth i qpoints v0) (nth j points v0)))) with (apb b points qpoints i j) by reflexivity.
    specialize (IH (pre ++ [apb b points qpoints i j]) mid post ltac:(simpl in HL; lia)).
    rewrite app_length in IH; simpl in IH. rewrite Nat.add_1_r in IH. rewrite <- !app_assoc in IH. simpl in IH.
    rewrite IH. reflexivity.
Qed.

Definition row_len (np : nat) (excl : bool) (i : nat) : nat := np - (if excl && (i <? np) then 1 else 0).
Lemma keep_len excl i : forall m a,
  length (filter (keep excl i) (seq a m)) = m - (if excl && (a <=? i) && (i <? a + m) then 1 else 0).
Proof.
  induction m as [|m IH]; intros a; [reflexivity|].
  cbn [seq filter]. unfold keep at 1. destruct excl; cbn [andb negb].
  - destruct (Nat.eqb_spec i a) as [E|E]; cbn [negb length]; rewrite IH; cbn [andb];
      destruct (Nat.leb_spec (S a) i), (Nat.leb_spec a i), (Nat.ltb_spec i (S a + m)), (Nat.ltb_spec i (a + S m)); cbn [andb]; lia.
  - cbn [length]. rewrite IH. cbn [andb]. lia.
Qed.
Lemma row_length b points qpoints excl i : length (row b points qpoints excl i) = row_len (length points) excl i.
Proof.
  unfold row. rewrite map_length. unfold range. rewrite Nat.sub_0_r, keep_len. simpl. unfold row_len.
  rewrite andb_true_r. reflexivity.
Qed.
Lemma ap_offset_S np i excl : ap_offset np (S i) excl = ap_offset np i excl + row_len np excl i.
Proof.
  unfold ap_offset, row_len. destruct excl; cbn [andb]; rewrite Nat.mul_succ_l; [|lia].
  assert (H : Nat.min i np <= i * np) by (destruct np; [lia|]; nia). revert H. generalize (i * np). intros m H.
  destruct (Nat.ltb_spec i np); lia.
Qed.
Lemma flat_len {T} (f : nat -> list T) np excl : (forall i, length (f i) = row_len np excl i) ->
  forall n, length (flat_map f (range 0 n)) = ap_offset np n excl.
Proof.
  intros H. unfold range. induction n as [|n IH].
  - simpl. unfold ap_offset. destruct excl; reflexivity.
  - rewrite Nat.sub_0_r in *. rewrite seq_S, flat_map_app, app_length, IH. simpl. rewrite app_nil_r, H.
    symmetry. apply ap_offset_S.
Qed.

Section AllPairs.
  Context (b : box) (points qpoints : list vec3) (excl : bool).
  Let np := length points. Let nq := length qpoints.
  Let blk (P : list nat) (i : nat) : list bond :=
    if existsb (Nat.eqb i) P then row b points qpoints excl i else repeat bond0 (row_len np excl i).
  Lemma blk_len P i : length (blk P i) = row_len np excl i.
  Proof. unfold blk. destruct (existsb _ P); [apply row_length|apply repeat_length]. Qed.

  Lemma ap_row_step P i : i < nq ->
    ap_row b points qpoints excl i (flat_map (blk P) (range 0 nq)) = Some (flat_map (blk (i :: P)) (range 0 nq)).
  Proof.
    intros Hi. rewrite <- (range_app 0 i nq) by lia. rewrite !flat_map_app.
    replace (range i nq) with (i :: range (S i) nq) by (unfold range; replace (nq - i) with (S (nq - S i)) by lia; reflexivity).
    cbn [flat_map].
    assert (EX : forall l, ~ In i l -> flat_map (blk (i :: P)) l = flat_map (blk P) l).
    { induction l as [|x l IH]; intros HN; simpl; auto. f_equal; [|apply IH; intros H; apply HN; right; auto].
      unfold blk; simpl. rewrite (proj2 (Nat.eqb_neq x i)); auto. intros ->. apply HN; left; auto. }
    rewrite (EX (range 0 i)) by (unfold range; rewrite in_seq; lia).
    rewrite (EX (range (S i) nq)) by (unfold range; rewrite in_seq; lia).
    replace (blk (i :: P) i) with (row b points qpoints excl i) by (unfold blk; simpl; rewrite Nat.eqb_refl; reflexivity).
    unfold ap_row. rewrite <- (flat_len (blk P) (length points) excl (blk_len P) i).
    rewrite (ap_inner_spec b points qpoints excl i (range 0 (length points))).
    - reflexivity.
    - rewrite blk_len. pose proof (row_length b points qpoints excl i) as RL. unfold row in RL. rewrite map_length in RL. symmetry. exact RL.
  Qed.

  Lemma all_pairs_spec ev : execution 0 nq ev ->
    all_pairs b points qpoints excl ev =
    Some (NL nq np (flat_map (row b points qpoints excl) (range 0 nq)) false (repeat 0 nq) (repeat 0 nq)).
  Proof.
    intros HE. apply execution_perm in HE. unfold all_pairs. fold np nq.
    assert (E0 : repeat bond0 (np * nq - (if excl then Nat.min np nq else 0)) = flat_map (blk []) (range 0 nq)).
    { apply (list_ext bond0).
      - rewrite repeat_length. rewrite (flat_len (blk []) np excl (blk_len [])). unfold ap_offset.
        rewrite Nat.mul_comm, Nat.min_comm. reflexivity.
      - intros k Hk. rewrite nth_repeat. clear. generalize (range 0 nq). intros l. revert k.
        assert (Z : forall l, Forall (eq bond0) (flat_map (blk []) l)).
        { induction l0; simpl; auto. apply Forall_app. split; auto. unfold blk; simpl.
          generalize (row_len np excl a). induction n; simpl; auto. }
        specialize (Z l). rewrite Forall_forall in Z. intros k.
        destruct (Nat.lt_ge_cases k (length (flat_map (blk []) l))).
        + apply Z. apply nth_In; auto.
        + rewrite nth_overflow; auto. }
    rewrite E0.
    assert (G : forall (ev : list (nat * nat)) P, (forall e, In e ev -> snd e < nq) ->
      fold_left (fun o e => match o with Some a => ap_row b points qpoints excl (snd e) a | None => None end)
        ev (Some (flat_map (blk P) (range 0 nq))) = Some (flat_map (blk (rev (map snd ev) ++ P)) (range 0 nq))).
    { clear. induction ev as [|[t i] ev IH]; intros P H; [reflexivity|]. cbn [fold_left snd map rev].
      rewrite ap_row_step by (apply (H (t, i)); left; auto). rewrite IH by (intros; apply H; right; auto).
      rewrite <- app_assoc. reflexivity. }
    rewrite G.
    - cbn [option_map]. do 2 f_equal.
      assert (forall l, (forall i, In i l -> In i (map snd ev)) -> flat_map (blk (rev (map snd ev) ++ [])) l = flat_map (row b points qpoints excl) l).
      { induction l as [|i l IH]; simpl; auto. intros H. f_equal; auto. unfold blk.
        replace (existsb (Nat.eqb i) (rev (map snd ev) ++ [])) with true; auto. symmetry. apply existsb_exists.
        exists i. split; [|apply Nat.eqb_refl]. rewrite app_nil_r, <- in_rev. apply H; auto. }
      apply H. intros i Hi. eapply Permutation_in; [symmetry; exact HE|auto].
    - intros e He. assert (In (snd e) (range 0 nq)) by (eapply Permutation_in; [exact HE|apply in_map; auto]).
      unfold range in H. apply in_seq in H. lia.
  Qed.
End AllPairs.

Lemma in_row b points qpoints excl i x : In x (row b points qpoints excl i) <->
  exists j, j < length points /\ keep excl i j = true /\ x = apb b points qpoints i j.
Proof.
  unfold row. rewrite in_map_iff. split.
  - intros (j & <- & H). apply filter_In in H as [H K]. unfold range in H. apply in_seq in H. exists j. split; [lia|auto].
  - intros (j & H & K & ->). exists j. split; auto. apply filter_In. split; auto. unfold range. apply in_seq. lia.
Qed.
Lemma rows_valid b points qpoints excl : forall n, n <= length qpoints ->
  valid_bonds (length qpoints) (length points) (flat_map (row b points qpoints excl) (range 0 n)).
Proof.
  intros n Hn. split.
  - unfold range. rewrite Nat.sub_0_r. clear Hn. induction n as [|n IH]; [intros i j; simpl; lia|].
    rewrite seq_S, flat_map_app. simpl. rewrite app_nil_r. apply sorted_q_app. split; auto. split.
    + intros i j Hij. assert (forall k, k < length (row b points qpoints excl n) -> bq (nth k (row b points qpoints excl n) bond0) = n).
      { intros k Hk. pose proof (nth_In _ bond0 Hk) as HI. apply in_row in HI as (j' & _ & _ & ->). reflexivity. }
      rewrite !H by lia. lia.
    + intros x y Hx Hy. apply in_flat_map in Hx as (i & Hi & Hx). apply in_seq in Hi.
      apply in_row in Hx as (? & _ & _ & ->). apply in_row in Hy as (? & _ & _ & ->). simpl. lia.
  - intros x Hx. apply in_flat_map in Hx as (i & Hi & Hx). unfold range in Hi. apply in_seq in Hi.
    apply in_row in Hx as (j & Hj & _ & ->). simpl. lia.
Qed.

(** ** Thread-local collections *)
Lemma run_local_app {T} (f : nat -> list T) ev : forall ls,
  Permutation (flat_map snd (run_local [] (fun i acc => acc ++ f i) ev ls)) (flat_map snd ls ++ flat_map f (map snd ev)).
Proof.
  unfold run_local. induction ev as [|[t i] ev IH]; intros ls; simpl; [rewrite app_nil_r; auto|].
  rewrite IH. rewrite app_assoc. apply Permutation_app_tail.
  clear. induction ls as [|[t' a] ls IH]; simpl; [rewrite app_nil_r; auto|].
  destruct (Nat.eqb t t'); simpl.
  - rewrite <- !app_assoc. apply Permutation_app_head. apply Permutation_app_comm.
  - rewrite <- app_assoc. apply Permutation_app_head, IH.
Qed.

Section LocalTotal.
  Context {T : Type} (z : T) (op : T -> T -> T)
    (assoc : forall a b c, op a (op b c) = op (op a b) c) (comm : forall a b, op a b = op b a) (unit : forall a, op z a = a).
  Lemma run_local_total (f : nat -> T) body ev : (forall i a, body i a = op a (f i)) -> forall ls,
    total z op (map snd (run_local z body ev ls)) = op (total z op (map snd ls)) (total z op (map f (map snd ev))).
  Proof.
    intros HB. unfold run_local. induction ev as [|[t i] ev IH]; intros ls; simpl.
    - unfold total at 3; simpl. rewrite comm, unit. auto.
    - rewrite IH. rewrite (total_cons z op assoc comm unit (f i)). rewrite assoc. f_equal.
      clear IH. induction ls as [|[t' a] ls IH]; simpl.
      + rewrite HB. rewrite (total_one z op unit). unfold total; simpl. reflexivity.
      + destruct (Nat.eqb t t'); simpl; rewrite !(total_cons z op assoc comm unit).
        * rewrite HB. rewrite <- !assoc. f_equal. apply comm.
        * rewrite IH. apply assoc.
  Qed.
End LocalTotal.

Lemma run_local_nonempty {A} (init : A) body ev : ev <> [] -> run_local init body ev [] <> [].
Proof.
  destruct ev as [|[t i] ev]; [congruence|]. intros _. unfold run_local; simpl.
  assert (G : forall (ev : list (nat * nat)) (ls : locals A), ls <> [] ->
    fold_left (fun ls e => local_update init (body (snd e)) (fst e) ls) ev ls <> []).
  { clear. induction ev as [|[t i] ev IH]; intros ls H; simpl; auto. apply IH.
    destruct ls as [|[t' a] ls]; simpl; [congruence|]. destruct (Nat.eqb t t'); congruence. }
  apply G. discriminate.
Qed.

Lemma max_of_total l : l <> [] -> max_of l = Some (total 0 Nat.max l).
Proof. destruct l; [congruence|]. intros _. reflexivity. Qed.

Lemma from_bonds_spec bs ev : execution 0 (length bs) ev -> bs <> [] ->
  exists q p, from_bonds bs ev = Some (NL (q + 1) (p + 1) bs false (repeat 0 (q + 1)) (repeat 0 (q + 1))) /\
    (forall b, In b bs -> bq b <= q /\ bp b <= p) /\ (exists b, In b bs /\ bq b = q) /\ (exists b, In b bs /\ bp b = p).
Proof.
  intros HE HN. pose proof (execution_perm _ _ _ HE) as HP. unfold from_bonds.
  rewrite par_copy by (auto; apply repeat_length).
  assert (EN : ev <> []).
  { intros ->. simpl in HP. apply Permutation_nil in HP. destruct bs; [congruence|]. unfold range in HP; simpl in HP. discriminate. }
  assert (GEN : forall f : bond -> nat, exists m,
    max_of (map snd (run_local 0 (fun i m => if m <? f (nth i bs bond0) then f (nth i bs bond0) else m) ev [])) = Some m /\
    (forall b, In b bs -> f b <= m) /\ (exists b, In b bs /\ f b = m)).
  { intros f. eexists. split.
    - rewrite max_of_total.
      + rewrite (run_local_total 0 Nat.max Nat.max_assoc Nat.max_comm Nat.max_0_l (fun i => f (nth i bs bond0))).
        * reflexivity.
        * intros i a. destruct (Nat.ltb_spec a (f (nth i bs bond0))); lia.
      + intros H. apply map_eq_nil in H. revert H. apply run_local_nonempty; auto.
    - assert (ET : total 0 Nat.max (map (fun i => f (nth i bs bond0)) (map snd ev)) = total 0 Nat.max (map f bs)).
      { rewrite (total_perm 0 Nat.max Nat.max_assoc Nat.max_comm (map (fun i => f (nth i bs bond0)) (map snd ev))
                  (map (fun i => f (nth i bs bond0)) (range 0 (length bs)))) by (apply Permutation_map; auto).
        f_equal. rewrite <- (map_map (fun i => nth i bs bond0) f). rewrite map_nth_range. reflexivity. }
      unfold total at 1 3. simpl fold_left. rewrite !Nat.max_0_l, ET. clear -HN.
      assert (tc := total_cons 0 Nat.max Nat.max_assoc Nat.max_comm Nat.max_0_l).
      induction bs as [|b bs IH]; [congruence|]. simpl map. rewrite tc. destruct bs as [|b' bs].
      + split; [intros x [<-|[]]; lia|]. exists b. split; [left; auto|]. unfold total; simpl. lia.
      + destruct IH as [I1 (y & I2 & I3)]; [congruence|]. split.
        * intros x [<-|Hx]; [lia|]. specialize (I1 x Hx). lia.
        * destruct (Nat.le_ge_cases (f b) (total 0 Nat.max (map f (b' :: bs)))).
          -- exists y. split; [right; auto|]. lia.
          -- exists b. split; [left; auto|]. lia. }
  destruct (GEN bp) as (p & Ep & P1 & P2). destruct (GEN bq) as (q & Eq & Q1 & Q2).
  rewrite Ep, Eq. exists q, p. split; auto.
Qed.
Lemma from_bonds_empty ev : execution 0 0 ev -> from_bonds [] ev = None.
Proof.
  intros HE. apply execution_perm in HE. unfold range in HE; simpl in HE. symmetry in HE. apply Permutation_nil in HE.
  apply map_eq_nil in HE. subst. reflexivity.
Qed.

(** ** Sorting *)
Lemma less_tuple_q a b : less_as_tuple b a = false -> bq a <= bq b.
Proof.
  unfold less_as_tuple. destruct (Nat.eqb_spec (bq b) (bq a)); simpl; [lia|].
  intros H. apply Nat.ltb_ge in H. auto.
Qed.
Lemma less_distance_q a b : less_as_distance b a = false -> bq a <= bq b.
Proof.
  unfold less_as_distance. destruct (Nat.eqb_spec (bq b) (bq a)); simpl; [lia|].
  intros H. apply Nat.ltb_ge in H. auto.
Qed.
Lemma sort_sorted_q (by_d : bool) l l' : sort_result (if by_d then less_as_distance else less_as_tuple) l l' -> sorted_q l'.
Proof.
  intros [_ H] i j Hij. specialize (H i j Hij). destruct by_d; [apply less_distance_q|apply less_tuple_q]; auto.
Qed.
Lemma nl_sort_spec by_d ev nl nl' : execution 0 (length (nl_bonds nl)) ev -> nl_sort by_d ev nl nl' ->
  sort_result (if by_d then less_as_distance else less_as_tuple) (nl_bonds nl) (nl_bonds nl') /\
  nl' = NL (nl_nq nl) (nl_np nl) (nl_bonds nl') (nl_updated nl) (nl_segments nl) (nl_counts nl).
Proof.
  intros HE (l & HS & ->). assert (HL : length (nl_bonds nl) = length l) by (apply Permutation_length, HS).
  rewrite par_copy; [|rewrite <- HL; auto|auto]. simpl. auto.
Qed.
Lemma to_neighbor_list_spec by_d nq np pp ev ev2 nl :
  execution 0 nq ev -> execution 0 (length (nl_bonds nl)) ev2 -> to_neighbor_list by_d nq np pp ev ev2 nl ->
  nl_nq nl = nq /\ nl_np nl = np /\ nl_updated nl = false /\
  sort_result (if by_d then less_as_distance else less_as_tuple) (map rebuild (flat_map pp (range 0 nq))) (nl_bonds nl).
Proof.
  intros HE HE2 (l & HS & ->). split; auto. split; auto. split; auto.
  cbn [nl_bonds] in *.
  assert (LA : length (fold_left (fun a e => upd a (snd e) (nth (snd e) l bond0)) ev2 (repeat bond0 (length l))) = length l).
  { clear. assert (G : forall ev (arr : list bond), length (fold_left (fun a (e : nat * nat) => upd a (snd e) (nth (snd e) l bond0)) ev arr) = length arr).
    { induction ev; intros; simpl; auto. rewrite IHev, upd_length; auto. }
    rewrite G. apply repeat_length. }
  rewrite LA in HE2. rewrite par_copy by (auto; apply repeat_length).
  destruct HS as [HP HO]. split; auto.
  rewrite <- HP. symmetry. rewrite run_local_app. simpl.
  apply execution_perm in HE.
  assert (EM : forall l0, map rebuild (flat_map pp l0) = flat_map (fun i => map rebuild (pp i)) l0).
  { induction l0; simpl; auto. rewrite map_app, IHl0. auto. }
  rewrite EM. apply Permutation_flat_map. auto.
Qed.

(** ** Reachable lists *)
Definition nl_inv (nl : nlist) : Prop :=
  valid_bonds (nl_nq nl) (nl_np nl) (nl_bonds nl) /\
  (nl_updated nl = true -> nl_segments nl = spec_segments (nl_nq nl) (nl_bonds nl) /\
  nl_counts nl = spec_counts (nl_nq nl) (nl_bonds nl)).
Lemma spec_perm nq l l' : Permutation l l' -> (spec_segments nq l = spec_segments nq l') /\ (spec_counts nq l = spec_counts nq l').
Proof.
  intros H. unfold spec_segments, spec_counts. split; apply map_ext; intros k; rewrite (cnt_perm k l l' H); auto.
  rewrite (before_perm k l l' H). auto.
Qed.

Lemma update_inv nl nl' : nl_inv nl -> update_segment_counts nl = Some nl' ->
  nl_bonds nl' = nl_bonds nl /\ nl_nq nl' = nl_nq nl /\ nl_np nl' = nl_np nl /\ nl_updated nl' = true /\
  nl_segments nl' = spec_segments (nl_nq nl) (nl_bonds nl) /\ nl_counts nl' = spec_counts (nl_nq nl) (nl_bonds nl).
Proof.
  intros [[HS HV] HU] E. destruct (nl_updated nl) eqn:EU.
  - unfold update_segment_counts in E. rewrite EU in E. injection E as <-. destruct (HU eq_refl). repeat split; auto.
  - rewrite update_spec in E by (auto; intros b Hb; apply HV; auto). injection E as <-. simpl. repeat split; auto.
Qed.
Lemma update_total nl : nl_inv nl -> exists nl', update_segment_counts nl = Some nl'.
Proof.
  intros [[HS HV] HU]. destruct (nl_updated nl) eqn:EU.
  - unfold update_segment_counts. rewrite EU. eauto.
  - rewrite update_spec by (auto; intros b Hb; apply HV; auto). eauto.
Qed.

Lemma combine4 (qs ps : list nat) (vs : list vec3) (ws : list R) :
  length ps = length qs -> length vs = length qs -> length ws = length qs ->
  let rows := combine (combine (combine qs ps) vs) ws in
  length rows = length qs /\ forall i, nth i rows (0, 0, v0, 0%R) = (nth i qs 0, nth i ps 0, nth i vs v0, nth i ws 0%R).
Proof.
  intros H1 H2 H3 rows. unfold rows. split.
  - rewrite !combine_length. lia.
  - intros i. rewrite !combine_nth by (rewrite ?combine_length; lia). reflexivity.
Qed.

Definition the_weights (n : nat) (ws : option (list R)) : list R := match ws with Some w => w | None => repeat 1%R n end.
Definition arrays_ok (nq np : nat) (qs ps : list nat) (vs : list vec3) (ws : list R) : Prop :=
  length ps = length qs /\ length vs = length qs /\ length ws = length qs /\
  (forall i j, i < j < length qs -> nth i qs 0 <= nth j qs 0) /\
  (forall i, i < length qs -> nth i qs 0 < nq /\ nth i ps 0 < np).

Lemma from_arrays_spec nq np qs ps vs ws :
  (arrays_ok nq np qs ps vs (the_weights (length qs) ws) ->
   exists nl, from_arrays nq np qs ps vs ws = Some nl /\ nl_nq nl = nq /\ nl_np nl = np /\ nl_updated nl = false /\
     length (nl_bonds nl) = length qs /\
     forall i, i < length qs -> nth i (nl_bonds nl) bond0 =
       Bond (nth i qs 0) (nth i ps 0) (norm (nth i vs v0)) (nth i (the_weights (length qs) ws) 0%R) (nth i vs v0)) /\
  (~ arrays_ok nq np qs ps vs (the_weights (length qs) ws) -> from_arrays nq np qs ps vs ws = None).
Proof.
  unfold from_arrays. fold (the_weights (length qs) ws). set (w := the_weights (length qs) ws). unfold arrays_ok.
  destruct (Nat.eqb_spec (length ps) (length qs)) as [L1|L1]; cbn [negb]; [|split; [intros (? & _); contradiction|auto]].
  destruct (Nat.eqb_spec (length vs) (length qs)) as [L2|L2]; cbn [negb]; [|split; [intros (_ & ? & _); contradiction|auto]].
  destruct (Nat.eqb_spec (length w) (length qs)) as [L3|L3]; cbn [negb]; [|split; [intros (_ & _ & ? & _); contradiction|auto]].
  destruct (combine4 qs ps vs w L1 L2 L3) as [CL CN]. set (rows := combine (combine (combine qs ps) vs) w) in *.
  pose proof (ctor_loop_spec nq np rows 0) as H. cbv zeta in H.
  assert (NQ : forall i, nth i (map (fun r => fst (fst (fst r))) rows) 0 = nth i qs 0).
  { intros i. change 0 with ((fun r : nat * nat * vec3 * R => fst (fst (fst r))) (0, 0, v0, 0%R)) at 1. rewrite map_nth, CN. auto. }
  assert (EQV : ((forall i j, i < j < length rows -> nth i (map (fun r => fst (fst (fst r))) rows) 0 <= nth j (map (fun r => fst (fst (fst r))) rows) 0) /\
            (forall q, In q (map (fun r => fst (fst (fst r))) rows) -> 0 <= q) /\
            Forall (fun r => fst (fst (fst r)) < nq /\ snd (fst (fst r)) < np) rows) <->
     ((forall i j, i < j < length qs -> nth i qs 0 <= nth j qs 0) /\
      (forall i, i < length qs -> nth i qs 0 < nq /\ nth i ps 0 < np))).
  { split.
    - intros (A & _ & C). split.
      + intros i j Hij. specialize (A i j). rewrite !NQ, CL in A. auto.
      + intros i Hi. rewrite Forall_forall in C. specialize (C (nth i rows (0, 0, v0, 0%R))). rewrite CN in C. apply C.
        rewrite <- CN. apply nth_In. lia.
    - intros (A & C). split; [|split].
      + intros i j Hij. rewrite !NQ. apply A. lia.
      + intros; lia.
      + rewrite Forall_forall. intros r Hr. apply (In_nth _ _ (0, 0, v0, 0%R)) in Hr as (i & Hi & <-). rewrite CN. simpl.
        apply C. lia. }
  destruct H as [HA HB]. split.
  - intros (_ & _ & _ & A). rewrite HA by (apply EQV; exact A). simpl. eexists. split; [reflexivity|]. simpl.
    split; auto. split; auto. split; auto. split; [rewrite map_length; auto|].
    intros i Hi.
    set (g := fun '(q, p, v, w0) => Bond q p (norm v) w0 v).
    rewrite (nth_indep _ bond0 (g (0, 0, v0, 0%R))) by (rewrite map_length; lia).
    rewrite map_nth, CN. reflexivity.
  - intros N. rewrite HB; auto. intros A. apply N. repeat (split; [assumption|]). apply EQV; exact A.
Qed.

Lemma sort_inv nq np l l' by_d : sort_result (if by_d : bool then less_as_distance else less_as_tuple) l l' ->
  (forall b, In b l -> bq b < nq /\ bp b < np) -> valid_bonds nq np l'.
Proof.
  intros HS H. split; [eapply sort_sorted_q; eauto|]. intros b Hb. apply H. eapply Permutation_in; [symmetry; apply HS|auto].
Qed.

Lemma ctor_loop_valid nq np : forall rows last bs, ctor_loop nq np last rows = Some bs ->
  valid_bonds nq np bs /\ forall b, In b bs -> last <= bq b.
Proof.
  induction rows as [|[[[q p] v] w] rows IH]; intros last bs E; simpl in E.
  - injection E as <-. split; [split; [intros i j; simpl; lia|intros ? []]|intros ? []].
  - destruct (Nat.ltb_spec q last); [discriminate|]. destruct (Nat.leb_spec nq q); [discriminate|].
    destruct (Nat.leb_spec np p); [discriminate|]. destruct (ctor_loop nq np q rows) as [l|] eqn:EL; [|discriminate].
    injection E as <-. destruct (IH _ _ EL) as [[V1 V2] V3]. split; [split|].
    + apply sorted_q_cons; auto.
    + intros b [<-|Hb]; auto.
    + intros b [<-|Hb]; auto. specialize (V3 b Hb). lia.
Qed.
Lemma reach_inv nl : reach nl -> nl_inv nl.
Proof.
  induction 1 as [nq np qs ps vs ws nl E|b pts qpts excl ev nl HE E|by_d nq np pp ev ev2 nl H1 H2 H3 E|bs ev nl H1 HE E
                 |nl mask nl' k R IH E|nl r1 r2 nl' k R IH E|by_d ev nl nl' R IH HE E|nl R IH|nl nl' R IH E].
  - unfold from_arrays in E. destruct (length ps =? length qs); [|discriminate]. destruct (length vs =? length qs); [|discriminate].
    destruct (length (match ws with Some w => w | None => repeat 1%R (length qs) end) =? length qs); [|discriminate].
    simpl in E. destruct (ctor_loop _ _ _ _) as [bs|] eqn:EL; [|discriminate]. injection E as <-.
    split; [|discriminate]. simpl. apply ctor_loop_valid in EL. tauto.
  - rewrite all_pairs_spec in E by auto. injection E as <-. split; [|discriminate]. simpl. apply rows_valid. lia.
  - destruct (to_neighbor_list_spec _ _ _ _ _ _ _ H1 H2 E) as (<- & <- & U & HS). split; [|rewrite U; discriminate].
    eapply sort_inv; eauto. intros b Hb. apply in_map_iff in Hb as (x & <- & Hx). apply in_flat_map in Hx as (i & Hi & Hx).
    destruct (H3 i x Hx). unfold range in Hi. apply in_seq in Hi. simpl. lia.
  - destruct bs as [|b0 bs0] eqn:EB; [rewrite from_bonds_empty in E by auto; discriminate|].
    destruct (from_bonds_spec (b0 :: bs0) ev HE) as (q & p & E' & M & _); [discriminate|].
    rewrite E in E'. injection E' as ->. split; [|discriminate]. cbn [nl_nq nl_np nl_bonds]. split; auto.
    intros b Hb. specialize (M b Hb). lia.
  - destruct (Nat.lt_ge_cases (length mask) (length (nl_bonds nl))); [rewrite nl_filter_short in E by auto; discriminate|].
    rewrite nl_filter_spec in E by auto. injection E as <- _. split; [|discriminate]. simpl. apply valid_select, IH.
  - rewrite nl_filter_r_spec in E. destruct (_ && _ && _); [|discriminate]. cbv zeta in E. injection E as <- _.
    split; [|discriminate]. cbn [nl_nq nl_np nl_bonds]. rewrite <- select_map_filter. apply valid_select, IH.
  - destruct (nl_sort_spec _ _ _ _ HE E) as [HS E']. rewrite E'. destruct IH as [[V1 V2] U]. split; cbn [nl_nq nl_np nl_bonds nl_updated nl_segments nl_counts].
    + eapply sort_inv; eauto.
    + intros HU. destruct (U HU) as [-> ->]. destruct (spec_perm (nl_nq nl) _ _ (proj1 HS)). auto.
  - exact IH.
  - destruct (update_inv _ _ IH E) as (E1 & E2 & E3 & E4 & E5 & E6). destruct IH as [V _].
    split; rewrite E2, ?E3, E1; auto.
Qed.
