(** Proofs about the AABB tree: layout, enclosure, skip pointers, traversal. *)
From Verif Require Import AABBModel AABBSpec NListProofs MArrayProofs.
Open Scope nat_scope.

(** ** Abstract trees and their array layout *)
Inductive tree := TLeaf (bx : aabb) (els : list (aabb * nat)) | TNode (bx : aabb) (l r : tree).
Definition tbox (t : tree) : aabb := match t with TLeaf b _ => b | TNode b _ _ => b end.
Fixpoint tsize (t : tree) : nat := match t with TLeaf _ _ => 1 | TNode _ l r => S (tsize l + tsize r) end.
Fixpoint elements (t : tree) : list (aabb * nat) :=
  match t with TLeaf _ e => e | TNode _ l r => elements l ++ elements r end.
Definition tags (els : list (aabb * nat)) : list nat := map (fun e => ab_tag (fst e)) els.
Fixpoint layout (sk : bool) (t : tree) (base : nat) (parent : option nat) : list node :=
  match t with
  | TLeaf b e => [Node b None None parent 0 (map snd e) (tags e)]
  | TNode b l r => Node b (Some (S base)) (Some (S base + tsize l)) parent (if sk then tsize l + tsize r else 0) [] []
                   :: layout sk l (S base) (Some base) ++ layout sk r (S base + tsize l) (Some base)
  end.
Lemma layout_length sk t : forall base p, length (layout sk t base p) = tsize t.
Proof. induction t; intros; simpl; auto. rewrite app_length, IHt1, IHt2. auto. Qed.
Lemma tsize_pos t : 0 < tsize t.
Proof. destruct t; simpl; lia. Qed.

Lemma vle_refl a : vle a a. Proof. repeat split; lra. Qed.
Lemma vle_trans a b c : vle a b -> vle b c -> vle a c.
Proof. intros (?&?&?) (?&?&?). repeat split; lra. Qed.
Lemma inside_refl a : inside a a. Proof. split; apply vle_refl. Qed.
Lemma inside_trans a b c : inside a b -> inside b c -> inside a c.
Proof. intros [] []. split; eapply vle_trans; eauto. Qed.
Lemma merge_l a b : inside a (merge a b).
Proof. split; repeat split; simpl; auto using Rmin_l, Rmax_l. Qed.
Lemma merge_r a b : inside b (merge a b).
Proof. split; repeat split; simpl; auto using Rmin_r, Rmax_r. Qed.
Lemma merge_least a b c : inside a c -> inside b c -> inside (merge a b) c.
Proof.
  intros [(?&?&?) (?&?&?)] [(?&?&?) (?&?&?)].
  split; repeat split; simpl; try (apply Rmin_glb; auto); try (apply Rmax_lub; auto).
Qed.

Fixpoint wf (t : tree) : Prop :=
  match t with
  | TLeaf b e => 0 < length e <= NODE_CAPACITY /\ forall x, In x e -> inside (fst x) b
  | TNode b l r => inside (tbox l) b /\ inside (tbox r) b /\ wf l /\ wf r
  end.
Lemma wf_elements t : wf t -> forall x, In x (elements t) -> inside (fst x) (tbox t).
Proof.
  induction t; simpl; [tauto|]. intros (Hl & Hr & Wl & Wr) x Hx. apply in_app_or in Hx as [Hx|Hx];
    eapply inside_trans; eauto.
Qed.

(** ** The merge over a segment is its least enclosing box *)
Lemma merge_fold_spec arr start : forall n a0 m0,
  (forall B, inside m0 B <-> forall i, i < a0 -> inside (fst (nth (start + i) arr elt0)) B) ->
  forall B, inside (fold_left (fun m i => merge m (fst (nth (start + i) arr elt0))) (seq a0 n) m0) B <->
            forall i, i < a0 + n -> inside (fst (nth (start + i) arr elt0)) B.
Proof.
  induction n as [|n IH]; intros a0 m0 H0 B; simpl.
  - rewrite H0. split; intros H i Hi; apply H; lia.
  - replace (a0 + S n) with (S a0 + n) by lia. apply IH. intros C. split.
    + intros HI i Hi. destruct (Nat.eq_dec i a0) as [->|N].
      * eapply inside_trans; [apply merge_r|eauto].
      * apply (H0 C); [|lia]. eapply inside_trans; [apply merge_l|eauto].
    + intros HA. apply merge_least; [apply H0; intros; apply HA; lia|apply HA; lia].
Qed.
Definition my_box (arr : list (aabb * nat)) (start len : nat) : aabb :=
  fold_left (fun m i => merge m (fst (nth (start + i) arr elt0))) (seq 1 (len - 1)) (fst (nth start arr elt0)).
Lemma my_box_spec pre seg post : 0 < length seg ->
  forall B, inside (my_box (pre ++ seg ++ post) (length pre) (length seg)) B <-> forall x, In x seg -> inside (fst x) B.
Proof.
  intros H B. unfold my_box. rewrite (merge_fold_spec (pre ++ seg ++ post) (length pre) (length seg - 1) 1).
  - replace (1 + (length seg - 1)) with (length seg) by lia. split.
    + intros HI x Hx. apply (In_nth _ _ elt0) in Hx as (i & Hi & <-). specialize (HI i Hi).
      rewrite app_nth2, app_nth1 in HI by lia. replace (length pre + i - length pre) with i in HI by lia. auto.
    + intros HI i Hi. rewrite app_nth2, app_nth1 by lia. apply HI. apply nth_In. lia.
  - intros C. split; [intros HI i Hi; replace (length pre + i) with (length pre) by lia; auto|].
    intros HI. specialize (HI 0 ltac:(lia)). rewrite Nat.add_0_r in HI. auto.
Qed.

(** ** Swaps and the partition loop *)
Lemma upd_app_mid {T} (pre seg post : list T) i x : i < length seg ->
  upd (pre ++ seg ++ post) (length pre + i) x = pre ++ upd seg i x ++ post.
Proof.
  intros H. induction pre as [|y pre IH]; simpl.
  - revert i H. induction seg as [|z seg IH]; intros i H; [simpl in H; lia|]. destruct i; simpl; auto.
    f_equal. apply IH. simpl in H. lia.
  - f_equal. exact IH.
Qed.
Lemma nth_app_mid {T} (pre seg post : list T) i d : i < length seg -> nth (length pre + i) (pre ++ seg ++ post) d = nth i seg d.
Proof. intros H. rewrite app_nth2, app_nth1 by lia. f_equal. lia. Qed.
Lemma swap_mid {T} (d : T) pre seg post i j : i < length seg -> j < length seg ->
  swap d (pre ++ seg ++ post) (length pre + i) (length pre + j) = pre ++ swap d seg i j ++ post.
Proof.
  intros Hi Hj. unfold swap. rewrite !nth_app_mid by auto. rewrite upd_app_mid by auto.
  rewrite upd_app_mid; auto. rewrite upd_length. auto.
Qed.
Lemma swap_perm {T} (d : T) l i j : i < length l -> j < length l -> Permutation l (swap d l i j).
Proof.
  intros Hi Hj. unfold swap. apply (Permutation_nth l _ d). cbv zeta. rewrite !upd_length. split; auto.
  exists (fun k => if k =? j then i else if k =? i then j else k). split; [|split].
  - intros k Hk. destruct (k =? j); auto. destruct (k =? i); auto.
  - intros x y Hx Hy. destruct (Nat.eqb_spec x j), (Nat.eqb_spec y j), (Nat.eqb_spec x i), (Nat.eqb_spec y i); intros; lia.
  - intros k Hk. rewrite nth_upd_if by (rewrite upd_length; auto). destruct (Nat.eqb_spec k j); auto.
    rewrite nth_upd_if by auto. destruct (Nat.eqb_spec k i); auto.
Qed.
Lemma part_loop_spec axis mid pre post : forall fuel seg i sr, sr - i <= fuel -> sr <= length seg ->
  exists seg' sr', part_loop fuel axis mid (pre ++ seg ++ post) (length pre) i sr = Some (pre ++ seg' ++ post, sr') /\
    Permutation seg seg' /\ sr' <= sr.
Proof.
  induction fuel as [|fuel IH]; intros seg i sr HF HS; simpl; destruct (Nat.ltb_spec i sr).
  - lia.
  - exists seg, sr. auto.
  - destruct (Rltb _ mid).
    + destruct (IH seg (S i) sr) as (seg' & sr' & E & P & L); [lia..|]. eauto.
    + replace (length pre + sr - 1) with (length pre + (sr - 1)) by lia. rewrite swap_mid by lia.
      destruct (IH (swap elt0 seg i (sr - 1)) i (sr - 1)) as (seg' & sr' & E & P & L); [lia| |].
      { unfold swap. rewrite !upd_length. lia. }
      exists seg', sr'. split; auto. split; [|lia]. transitivity (swap elt0 seg i (sr - 1)); auto. apply swap_perm; lia.
  - exists seg, sr. auto.
Qed.

(** ** Building *)
Lemma build_spec : forall fuel nodes parent pre seg post, 0 < length seg <= fuel ->
  exists seg' t, build_node fuel (pre ++ seg ++ post) nodes (length pre) (length seg) parent =
      Some (length nodes, pre ++ seg' ++ post, nodes ++ layout false t (length nodes) parent) /\
    Permutation seg seg' /\ elements t = seg' /\ wf t /\
    (forall B, inside (tbox t) B <-> forall x, In x seg -> inside (fst x) B).
Proof.
  induction fuel as [|fuel IH]; intros nodes parent pre seg post HL; [lia|].
  cbn [build_node]. fold (my_box (pre ++ seg ++ post) (length pre) (length seg)).
  pose proof (my_box_spec pre seg post (proj1 HL)) as MB. set (my := my_box (pre ++ seg ++ post) (length pre) (length seg)) in *.
  destruct (Nat.leb_spec (length seg) NODE_CAPACITY) as [HC|HC].
  - exists seg, (TLeaf my seg). rewrite skipn_app, skipn_all, Nat.sub_diag. cbn [skipn app].
    rewrite firstn_app, firstn_all, Nat.sub_diag. cbn [firstn]. rewrite app_nil_r. split; [reflexivity|].
    split; auto. split; auto. split; [|exact MB]. split; [lia|]. apply MB. apply inside_refl.
  - set (axis := if _ && _ then vx else _).
    assert (N2 : (length seg =? 2) = false) by (apply Nat.eqb_neq; unfold NODE_CAPACITY in HC; lia). rewrite N2.
    destruct (part_loop_spec axis (axis (aabb_pos my)) pre post (length seg) seg 0 (length seg)) as (sg & sr & -> & HP & HS); [lia..|].
    set (sr1 := if sr =? length seg then length seg - 1 else sr). set (sr2 := if sr1 =? 0 then 1 else sr1).
    assert (B2 : 0 < sr2 < length seg).
    { unfold NODE_CAPACITY in HC. unfold sr2, sr1. destruct (Nat.eqb_spec sr (length seg)).
      - destruct (Nat.eqb_spec (length seg - 1) 0); lia.
      - destruct (Nat.eqb_spec sr 0); lia. }
    assert (LS : length sg = length seg) by (symmetry; apply Permutation_length; auto).
    assert (ES : sg = firstn sr2 sg ++ skipn sr2 sg) by (symmetry; apply firstn_skipn).
    set (s1 := firstn sr2 sg) in *. set (s2 := skipn sr2 sg) in *.
    assert (L1 : length s1 = sr2) by (unfold s1; rewrite firstn_length; lia).
    assert (L2 : length s2 = length seg - sr2) by (unfold s2; rewrite skipn_length; lia).
    destruct (IH (nodes ++ [node0]) (Some (length nodes)) pre s1 (s2 ++ post)) as (s1' & t1 & E1 & P1 & X1 & W1 & I1); [lia|].
    rewrite L1 in E1. replace (pre ++ sg ++ post) with (pre ++ s1 ++ s2 ++ post) by (rewrite ES, <- app_assoc; reflexivity). rewrite E1.
    destruct (IH ((nodes ++ [node0]) ++ layout false t1 (length (nodes ++ [node0])) (Some (length nodes))) (Some (length nodes))
                (pre ++ s1') s2 post) as (s2' & t2 & E2 & P2 & X2 & W2 & I2); [lia|].
    assert (LL : length (pre ++ s1') = length pre + sr2) by (rewrite app_length, <- (Permutation_length P1); lia).
    rewrite LL, L2 in E2. rewrite <- app_assoc in E2. rewrite E2.
    exists (s1' ++ s2'), (TNode my t1 t2). split; [|split; [|split; [|split]]].
    + rewrite !app_length, layout_length. cbn [length]. f_equal. f_equal; [f_equal; rewrite !app_assoc; reflexivity|].
      rewrite <- !app_assoc. cbn [app]. rewrite upd_app. cbn [layout].
      replace (length nodes + 1) with (S (length nodes)) by lia. reflexivity.
    + rewrite HP, ES. apply Permutation_app; auto.
    + simpl. congruence.
    + simpl. assert (G : forall x, In x sg -> inside (fst x) my).
      { intros x Hx. apply (proj1 (MB my) (inside_refl my)). eapply Permutation_in; [symmetry; exact HP|auto]. }
      split; [|split; [|split; auto]]; [apply I1|apply I2]; intros x Hx; apply G; rewrite ES; apply in_or_app; auto.
    + simpl. exact MB.
Qed.

(** ** Skip pointers *)
Lemma nth_app_len {T} (A : list T) x B d : nth (length A) (A ++ x :: B) d = x.
Proof. rewrite app_nth2, Nat.sub_diag by lia. reflexivity. Qed.
Lemma update_skip_spec : forall t fuel A p B, tsize t <= fuel ->
  update_skip fuel (A ++ layout false t (length A) p ++ B) (length A) = Some (tsize t, A ++ layout true t (length A) p ++ B).
Proof.
  induction t as [bx e|bx l IHl r IHr]; intros fuel A p B HF; simpl in HF; destruct fuel as [|fuel]; try lia.
  - cbn [update_skip layout app]. rewrite nth_app_len. reflexivity.
  - cbn [update_skip layout]. rewrite <- app_comm_cons, <- app_assoc, nth_app_len. cbn [n_left n_right].
    set (n0 := Node bx _ _ _ _ _ _).
    assert (LA : length (A ++ [n0]) = S (length A)) by (rewrite app_length; simpl; lia).
    pose proof (IHl fuel (A ++ [n0]) (Some (length A)) (layout false r (S (length A) + tsize l) (Some (length A)) ++ B) ltac:(lia)) as E1.
    rewrite LA, <- !app_assoc in E1. cbn [app] in E1. rewrite E1.
    assert (LB : length (A ++ n0 :: layout true l (S (length A)) (Some (length A))) = S (length A) + tsize l).
    { rewrite app_length. simpl. rewrite layout_length. lia. }
    pose proof (IHr fuel (A ++ n0 :: layout true l (S (length A)) (Some (length A))) (Some (length A)) B ltac:(lia)) as E2.
    rewrite LB in E2. rewrite <- !app_assoc in E2. cbn [app] in E2. rewrite E2.
    rewrite nth_app_len. cbn [n_box n_left n_right n_parent n_parts n_tags n0].
    rewrite upd_app. cbn [tsize layout]. rewrite <- app_comm_cons, <- app_assoc. f_equal. f_equal. lia.
Qed.

(** The tree built from any non-empty array of boxes. *)
Lemma build_tree_spec boxes : boxes <> [] ->
  exists t, build_tree boxes = Some (layout true t 0 None) /\ wf t /\
    Permutation (elements t) (combine boxes (seq 0 (length boxes))).
Proof.
  intros HB. unfold build_tree. set (seg := combine boxes (seq 0 (length boxes))).
  assert (LS : length seg = length boxes) by (unfold seg; rewrite combine_length, seq_length; lia).
  destruct (build_spec (length boxes) [] None [] seg []) as (seg' & t & E & P & X & W & _).
  { rewrite LS. destruct boxes; [congruence|simpl; lia]. }
  simpl in E. rewrite app_nil_r, LS in E. rewrite E. simpl.
  exists t. split; [|split; auto].
  - pose proof (update_skip_spec t (tsize t) [] None [] (le_n _)) as U. simpl in U. rewrite app_nil_r in U.
    rewrite layout_length. rewrite U. simpl. rewrite app_nil_r. reflexivity.
  - rewrite X. symmetry. exact P.
Qed.

(** ** AABBTree::query *)
Fixpoint box_hits (a : aabb) (t : tree) : list nat :=
  if overlap_box (tbox t) a then match t with TLeaf _ e => map snd e | TNode _ l r => box_hits a l ++ box_hits a r end else [].
Lemma tree_query_step a : forall t A p B fuel l, (forall f, fuel <= f ->
    tree_query f (A ++ layout true t (length A) p ++ B) a (length A + tsize t) = Some l) ->
  forall f, fuel + tsize t <= f -> tree_query f (A ++ layout true t (length A) p ++ B) a (length A) = Some (box_hits a t ++ l).
Proof.
  induction t as [bx e|bx tl IHl tr IHr]; intros A p B fuel l HC f Hf.
  - simpl in Hf, HC. destruct f as [|f]; [lia|]. unfold tree_query; fold tree_query.
    cbn [layout app]. destruct (Nat.ltb_spec (length A) (length (A ++ Node bx None None p 0 (map snd e) (tags e) :: B))) as [_|N];
      [|rewrite app_length in N; simpl in N; lia].
    rewrite nth_app_len. cbn [n_box is_leaf n_left n_parts n_skip box_hits tbox]. 
    cbn [layout app] in HC. destruct (overlap_box bx a).
    + replace (S (length A)) with (length A + 1) by lia. rewrite HC by lia. reflexivity.
    + rewrite Nat.add_0_r. replace (S (length A)) with (length A + 1) by lia. rewrite HC by lia. reflexivity.
  - simpl tsize in Hf, HC. destruct f as [|f]; [lia|].
    set (n0 := Node bx (Some (S (length A))) (Some (S (length A) + tsize tl)) p (tsize tl + tsize tr) [] []).
    cbn [layout] in *. fold n0 in HC |- *. rewrite <- app_comm_cons in *. rewrite <- app_assoc in *.
    set (nodes := A ++ n0 :: layout true tl (S (length A)) (Some (length A)) ++ layout true tr (S (length A) + tsize tl) (Some (length A)) ++ B) in *.
    unfold tree_query; fold tree_query.
    destruct (Nat.ltb_spec (length A) (length nodes)) as [_|N]; [|unfold nodes in N; rewrite app_length in N; simpl in N; lia].
    unfold nodes at 1 2 4. rewrite nth_app_len. cbn [n_box is_leaf n_left n_skip n0 box_hits tbox].
    destruct (overlap_box bx a).
    + assert (LA : length (A ++ [n0]) = S (length A)) by (rewrite app_length; simpl; lia).
      assert (LB : length (A ++ n0 :: layout true tl (S (length A)) (Some (length A))) = S (length A) + tsize tl).
      { rewrite app_length. simpl. rewrite layout_length. lia. }
      assert (HR : forall g, fuel + tsize tr <= g -> tree_query g nodes a (S (length A) + tsize tl) = Some (box_hits a tr ++ l)).
      { pose proof (IHr (A ++ n0 :: layout true tl (S (length A)) (Some (length A))) (Some (length A)) B fuel l) as E.
        rewrite LB in E. rewrite <- !app_assoc in E. cbn [app] in E. fold nodes in E. apply E.
        intros g Hg. replace (S (length A) + tsize tl + tsize tr) with (length A + S (tsize tl + tsize tr)) by lia. auto. }
      pose proof (IHl (A ++ [n0]) (Some (length A)) (layout true tr (S (length A) + tsize tl) (Some (length A)) ++ B) (fuel + tsize tr) (box_hits a tr ++ l)) as E.
      rewrite LA in E. rewrite <- !app_assoc in E. cbn [app] in E. fold nodes in E.
      rewrite E; [|exact HR|lia]. simpl. rewrite app_assoc. reflexivity.
    + unfold nodes at 2. rewrite nth_app_len. cbn [n_skip n0]. replace (S (length A + (tsize tl + tsize tr))) with (length A + S (tsize tl + tsize tr)) by lia. rewrite HC by lia. reflexivity.
Qed.
Lemma tree_query_spec a t : tree_query (tsize t) (layout true t 0 None) a 0 = Some (box_hits a t).
Proof.
  rewrite <- (app_nil_r (box_hits a t)). pose proof (tree_query_step a t [] None [] 0 []) as E. simpl in E.
  rewrite app_nil_r in E. apply E; auto. intros f _. destruct f; simpl; rewrite layout_length, Nat.ltb_irrefl; reflexivity.
Qed.
(** Hits contain every particle whose own box overlaps, and only particles of the tree, each once. *)
Lemma overlap_mono a b c : inside a b -> overlap_box a c = true -> overlap_box b c = true.
Proof.
  intros [(?&?&?) (?&?&?)]. unfold overlap_box. rewrite !andb_true_iff, !Rleb_true. intros. lra.
Qed.
Lemma box_hits_complete a t : wf t -> forall x, In x (elements t) -> overlap_box (fst x) a = true -> In (snd x) (box_hits a t).
Proof.
  induction t as [bx e|bx l IHl r IHr]; intros W x Hx HO; cbn [box_hits].
  - rewrite (overlap_mono (fst x) (tbox (TLeaf bx e)) a); auto; [apply in_map; auto|]. apply wf_elements; auto.
  - rewrite (overlap_mono (fst x) (tbox (TNode bx l r)) a); auto; [|apply wf_elements; auto].
    simpl in W, Hx. apply in_or_app. apply in_app_or in Hx as [Hx|Hx]; [left; apply IHl|right; apply IHr]; tauto.
Qed.
Lemma box_hits_sub a t : exists rest, Permutation (box_hits a t ++ rest) (map snd (elements t)).
Proof.
  induction t as [bx e|bx l [rl IHl] r [rr IHr]]; cbn [box_hits]; destruct (overlap_box _ a).
  - exists []. rewrite app_nil_r. reflexivity.
  - exists (map snd e). reflexivity.
  - exists (rl ++ rr). simpl. rewrite map_app, <- IHl, <- IHr. rewrite !app_assoc. apply Permutation_app_tail.
    rewrite <- !app_assoc. apply Permutation_app_head. apply Permutation_app_comm.
  - exists (map snd (elements (TNode bx l r))). reflexivity.
Qed.

(** ** The ball iterator as one run of its loops *)
Fixpoint ball_run (fuel : nat) (step : ball_state -> ball_event) (s : ball_state) : option (list bond) :=
  match fuel with
  | O => None
  | S fuel => match step s with
              | Emit x s => option_map (cons x) (ball_run fuel step s)
              | Go s => ball_run fuel step s
              | Finished => Some []
              end
  end.
Section Drain.
  Variable step : ball_state -> ball_event.
  Lemma next_mono : forall f s r, ball_next f step s = Some r -> forall g, f <= g -> ball_next g step s = Some r.
  Proof.
    induction f as [|f IH]; simpl; intros s r E g Hg; [discriminate|]. destruct g as [|g]; [lia|]. simpl.
    destruct (step s); auto. apply IH; auto. lia.
  Qed.
  Lemma drain_eq f s : ball_drain (S f) step s =
    match ball_next (S f) step s with
    | None => None
    | Some (None, _) => Some []
    | Some (Some x, s) => option_map (cons x) (ball_drain f step s)
    end.
  Proof. reflexivity. Qed.
  Lemma drain_mono : forall f s l, ball_drain f step s = Some l -> forall g, f <= g -> ball_drain g step s = Some l.
  Proof.
    induction f as [|f IH]; intros s l E g Hg; [discriminate|]. destruct g as [|g]; [lia|].
    rewrite drain_eq in E. rewrite drain_eq.
    destruct (ball_next (S f) step s) as [[[x|] s']|] eqn:EN; [| |discriminate]; rewrite (next_mono _ _ _ EN (S g)) by auto; auto.
    destruct (ball_drain f step s') eqn:ED; [|discriminate]. rewrite (IH _ _ ED g) by lia. auto.
  Qed.
  Lemma drain_det s l1 l2 : drains step s l1 -> drains step s l2 -> l1 = l2.
  Proof.
    intros [f1 E1] [f2 E2]. apply (drain_mono _ _ _) with (g := f1 + f2) in E1; [|lia].
    apply (drain_mono _ _ _) with (g := f1 + f2) in E2; [|lia]. congruence.
  Qed.
  Lemma run_drains : forall f s l, ball_run f step s = Some l -> drains step s l.
  Proof.
    induction f as [|f IH]; simpl; intros s l E; [discriminate|]. destruct (step s) as [x s'|s'|] eqn:ES.
    - destruct (ball_run f step s') as [l'|] eqn:ER; [|discriminate]. injection E as <-.
      destruct (IH _ _ ER) as [g Eg]. exists (S g). simpl. rewrite ES, Eg. reflexivity.
    - destruct (IH _ _ E) as [g Eg]. exists (S g). destruct g as [|g]; [discriminate|].
      rewrite drain_eq in Eg. rewrite drain_eq.
      replace (ball_next (S (S g)) step s) with (ball_next (S g) step s') by (cbn [ball_next]; rewrite ES; reflexivity).
      destruct (ball_next (S g) step s') as [[[x|] s2]|]; [|auto|discriminate].
      destruct (ball_drain g step s2) eqn:ED; [|discriminate]. rewrite (drain_mono _ _ _ ED (S g)) by lia. auto.
    - injection E as <-. exists 1. simpl. rewrite ES. reflexivity.
  Qed.
End Drain.

(** ** Traversal by the ball iterator *)
Section Ball.
  Variables (b : box) (points images : list vec3) (q : vec3) (qi : nat) (r_max r_min : R) (excl : bool).
  Definition emit (c : vec3) (j : nat) : list bond :=
    if excl && (qi =? j) then []
    else let r_ij := vsub (flat_z b (nth j points v0)) c in
         if Rltb (dot r_ij r_ij) (r_max * r_max) && Rleb (r_min * r_min) (dot r_ij r_ij)
         then [Bond qi j (sqrt (dot r_ij r_ij)) 1%R r_ij] else [].
  Fixpoint hits (c : vec3) (t : tree) : list bond :=
    if overlap_sphere (tbox t) c r_max
    then match t with TLeaf _ e => flat_map (emit c) (tags e) | TNode _ l r => hits c l ++ hits c r end else [].
  Definition center (m : nat) : vec3 := vadd (flat_z b q) (nth m images v0).

  (** Running from [s] gives the bonds [pre] and continues from [s']. *)
  Definition leads (nodes : list node) (s : ball_state) (pre : list bond) (s' : ball_state) : Prop :=
    forall f l, ball_run f (ball_step b points nodes images q qi r_max r_min excl) s' = Some l ->
      exists g, ball_run g (ball_step b points nodes images q qi r_max r_min excl) s = Some (pre ++ l).
  Lemma leads_refl nodes s : leads nodes s [] s.
  Proof. intros f l E. exists f. exact E. Qed.
  Lemma leads_trans nodes s1 p1 s2 p2 s3 : leads nodes s1 p1 s2 -> leads nodes s2 p2 s3 -> leads nodes s1 (p1 ++ p2) s3.
  Proof. intros H1 H2 f l E. destruct (H2 _ _ E) as [g Eg]. destruct (H1 _ _ Eg) as [h Eh]. exists h. rewrite <- app_assoc. auto. Qed.
  Lemma leads_go nodes s s' : ball_step b points nodes images q qi r_max r_min excl s = Go s' -> leads nodes s [] s'.
  Proof. intros E f l R. exists (S f). simpl. rewrite E. exact R. Qed.
  Lemma leads_emit nodes s x s' : ball_step b points nodes images q qi r_max r_min excl s = Emit x s' -> leads nodes s [x] s'.
  Proof. intros E f l R. exists (S f). simpl. rewrite E, R. reflexivity. Qed.

  Lemma leaf_leads nodes m k n : m < length images -> k < length nodes -> nth k nodes node0 = n -> is_leaf n = true ->
    overlap_sphere (n_box n) (center m) r_max = true ->
    forall todo ref, skipn ref (n_tags n) = todo -> leads nodes (BS m k ref) (flat_map (emit (center m)) todo) (BS m (S k) 0).
  Proof.
    intros Hm Hk En El Ho. induction todo as [|j todo IH]; intros ref HR.
    - assert (HL : (ref <? length (n_tags n)) = false).
      { apply Nat.ltb_ge. destruct (Nat.le_gt_cases (length (n_tags n)) ref); auto. exfalso.
        pose proof (skipn_length ref (n_tags n)). rewrite HR in H0. simpl in H0. lia. }
      simpl. apply leads_go. unfold ball_step. cbn [s_img s_node s_ref]. rewrite (proj2 (Nat.ltb_lt _ _) Hm), (proj2 (Nat.ltb_lt _ _) Hk).
      cbv zeta. rewrite En. fold (center m). rewrite Ho, El, HL. reflexivity.
    - assert (HL : ref < length (n_tags n)).
      { destruct (Nat.le_gt_cases (length (n_tags n)) ref); auto. rewrite skipn_all2 in HR by auto. discriminate. }
      assert (HN : nth ref (n_tags n) 0 = j).
      { rewrite <- (firstn_skipn ref (n_tags n)), HR. rewrite app_nth2; rewrite firstn_length; [|lia]. rewrite Nat.min_l, Nat.sub_diag by lia. reflexivity. }
      assert (HS : skipn (S ref) (n_tags n) = todo).
      { clear -HR. revert HR. generalize (n_tags n). induction ref as [|ref IHr]; intros [|y u] HR; simpl in *; try discriminate.
        - injection HR as _ ->. reflexivity.
        - apply (IHr u HR). }
      cbn [flat_map]. apply leads_trans with (BS m k (S ref)); [|apply IH; auto].
      assert (ST : ball_step b points nodes images q qi r_max r_min excl (BS m k ref) =
        if excl && (qi =? j) then Go (BS m k (S ref))
        else let r_ij := vsub (flat_z b (nth j points v0)) (center m) in
             if Rltb (dot r_ij r_ij) (r_max * r_max) && Rleb (r_min * r_min) (dot r_ij r_ij)
             then Emit (Bond qi j (sqrt (dot r_ij r_ij)) 1%R r_ij) (BS m k (S ref)) else Go (BS m k (S ref))).
      { unfold ball_step. cbn [s_img s_node s_ref]. rewrite (proj2 (Nat.ltb_lt _ _) Hm), (proj2 (Nat.ltb_lt _ _) Hk).
        cbv zeta. rewrite En. fold (center m). rewrite Ho, El, (proj2 (Nat.ltb_lt _ _) HL). cbn [andb]. rewrite HN. reflexivity. }
      unfold emit. destruct (excl && (qi =? j)); [apply leads_go; exact ST|]. cbv zeta in ST |- *.
      destruct (_ && _); [apply leads_emit|apply leads_go]; exact ST.
  Qed.
  Lemma tree_leads : forall t A p B m, m < length images ->
    leads (A ++ layout true t (length A) p ++ B) (BS m (length A) 0) (hits (center m) t) (BS m (length A + tsize t) 0).
  Proof.
    induction t as [bx e|bx tl IHl tr IHr]; intros A p B m Hm.
    - cbn [layout app tsize hits tbox]. set (n := Node bx None None p 0 (map snd e) (tags e)).
      assert (HK : length A < length (A ++ n :: B)) by (rewrite app_length; simpl; lia).
      replace (length A + 1) with (S (length A)) by lia. destruct (overlap_sphere bx (center m) r_max) eqn:EO.
      + apply (leaf_leads (A ++ n :: B) m (length A) n Hm HK (nth_app_len _ _ _ _) eq_refl EO (tags e) 0 eq_refl).
      + apply leads_go. unfold ball_step. cbn [s_img s_node s_ref]. rewrite (proj2 (Nat.ltb_lt _ _) Hm), (proj2 (Nat.ltb_lt _ _) HK).
        cbv zeta. rewrite nth_app_len. fold (center m). cbn [n_box n]. rewrite EO. cbn [n_skip]. rewrite Nat.add_0_r. reflexivity.
    - cbn [layout]. rewrite <- app_comm_cons, <- app_assoc.
      set (n0 := Node bx (Some (S (length A))) (Some (S (length A) + tsize tl)) p (tsize tl + tsize tr) [] []).
      set (nodes := A ++ n0 :: layout true tl (S (length A)) (Some (length A)) ++ layout true tr (S (length A) + tsize tl) (Some (length A)) ++ B).
      assert (HK : length A < length nodes) by (unfold nodes; rewrite app_length; simpl; lia).
      assert (HN : nth (length A) nodes node0 = n0) by apply nth_app_len.
      cbn [hits tbox tsize]. destruct (overlap_sphere bx (center m) r_max) eqn:EO.
      + assert (LA : length (A ++ [n0]) = S (length A)) by (rewrite app_length; simpl; lia).
        assert (LB : length (A ++ n0 :: layout true tl (S (length A)) (Some (length A))) = S (length A) + tsize tl).
        { rewrite app_length. simpl. rewrite layout_length. lia. }
        pose proof (IHl (A ++ [n0]) (Some (length A)) (layout true tr (S (length A) + tsize tl) (Some (length A)) ++ B) m Hm) as E1.
        rewrite LA in E1. rewrite <- !app_assoc in E1. cbn [app] in E1. fold nodes in E1.
        pose proof (IHr (A ++ n0 :: layout true tl (S (length A)) (Some (length A))) (Some (length A)) B m Hm) as E2.
        rewrite LB in E2. rewrite <- !app_assoc in E2. cbn [app] in E2. fold nodes in E2.
        replace (length A + S (tsize tl + tsize tr)) with (S (length A) + tsize tl + tsize tr) by lia.
        change (hits (center m) tl ++ hits (center m) tr) with ([] ++ (hits (center m) tl ++ hits (center m) tr)).
        eapply leads_trans; [|eapply leads_trans; [exact E1|exact E2]].
        apply leads_go. unfold ball_step. cbn [s_img s_node s_ref]. rewrite (proj2 (Nat.ltb_lt _ _) Hm), (proj2 (Nat.ltb_lt _ _) HK).
        cbv zeta. rewrite HN. fold (center m). cbn [n_box n0]. rewrite EO. reflexivity.
      + apply leads_go. unfold ball_step. cbn [s_img s_node s_ref]. rewrite (proj2 (Nat.ltb_lt _ _) Hm), (proj2 (Nat.ltb_lt _ _) HK).
        cbv zeta. rewrite HN. fold (center m). cbn [n_box n0]. rewrite EO. cbn [n_skip n0].
        replace (S (length A + (tsize tl + tsize tr))) with (length A + S (tsize tl + tsize tr)) by lia. reflexivity.
  Qed.
  Lemma ball_drains_hits t : let nodes := layout true t 0 None in
    drains (ball_step b points nodes images q qi r_max r_min excl) (BS 0 0 0)
           (flat_map (fun im => hits (vadd (flat_z b q) im) t) images).
  Proof.
    intros nodes.
    assert (G : forall k m, m + k = length images ->
      exists f, ball_run f (ball_step b points nodes images q qi r_max r_min excl) (BS m 0 0) =
        Some (flat_map (fun im => hits (vadd (flat_z b q) im) t) (skipn m images))).
    { induction k as [|k IH]; intros m Hm.
      - exists 1. cbn [ball_run]. unfold ball_step. cbn [s_img]. destruct (Nat.ltb_spec m (length images)); [lia|].
        rewrite skipn_all2 by lia. reflexivity.
      - destruct (IH (S m) ltac:(lia)) as [f Ef].
        pose proof (tree_leads t [] None [] m ltac:(lia)) as TL. simpl in TL. rewrite app_nil_r in TL. fold nodes in TL.
        assert (GO : leads nodes (BS m (tsize t) 0) [] (BS (S m) 0 0)).
        { apply leads_go. unfold ball_step. cbn [s_img s_node s_ref]. rewrite (proj2 (Nat.ltb_lt m (length images)) ltac:(lia)).
          unfold nodes. rewrite layout_length, Nat.ltb_irrefl. reflexivity. }
        destruct (leads_trans _ _ _ _ _ _ TL GO _ _ Ef) as [g Eg]. exists g. rewrite Eg. f_equal. rewrite app_nil_r.
        assert (SK : skipn m images = nth m images v0 :: skipn (S m) images).
        { clear -Hm. revert images Hm. induction m as [|m IH]; intros [|y l] H; simpl in *; try lia; auto. }
        rewrite SK. reflexivity. }
    destruct (G (length images) 0 eq_refl) as [f Ef]. simpl in Ef. eapply run_drains. exact Ef.
  Qed.

  (** Skipping a subtree loses nothing: points of a box the sphere misses are out of range. *)
  Lemma clamp_le p lo hi x : (lo <= x <= hi)%R -> (clamp_delta p lo hi * clamp_delta p lo hi <= (x - p) * (x - p))%R.
  Proof.
    intros H. unfold clamp_delta. destruct (Rle_lt_dec p lo).
    - rewrite (Rmax_right p lo), Rmin_left by lra. nra.
    - rewrite (Rmax_left p lo) by lra. destruct (Rle_lt_dec p hi).
      + rewrite Rmin_left by lra. pose proof (Rle_0_sqr (x - p)) as S. unfold Rsqr in S. nra.
      + rewrite Rmin_right by lra. nra.
  Qed.
  Lemma overlap_sphere_false a c x : overlap_sphere a c r_max = false -> vle (ab_lo a) x -> vle x (ab_hi a) ->
    (r_max * r_max <= dot (vsub x c) (vsub x c))%R.
  Proof.
    unfold overlap_sphere. intros H (?&?&?) (?&?&?). apply Rltb_false in H. eapply Rle_trans; [exact H|].
    unfold dot. cbn [vx vy vz vsub]. repeat apply Rplus_le_compat; apply clamp_le; lra.
  Qed.
  Definition is_point_element (x : aabb * nat) : Prop :=
    ab_lo (fst x) = flat_z b (nth (ab_tag (fst x)) points v0) /\ ab_hi (fst x) = flat_z b (nth (ab_tag (fst x)) points v0).
  Lemma emit_far c bx els : overlap_sphere bx c r_max = false -> (forall x, In x els -> inside (fst x) bx /\ is_point_element x) ->
    flat_map (emit c) (tags els) = [].
  Proof.
    intros HO. induction els as [|x els IH]; intros H; simpl; auto. rewrite IH by (intros; apply H; right; auto). rewrite app_nil_r.
    destruct (H x (or_introl eq_refl)) as [[HL HH] [EL EH]]. rewrite EL in HL. rewrite EH in HH.
    pose proof (overlap_sphere_false bx c _ HO HL HH) as HD. unfold emit. destruct (_ && _); auto. cbv zeta.
    rewrite (proj2 (Rltb_false _ _) HD). reflexivity.
  Qed.
  Lemma hits_all c t : wf t -> (forall x, In x (elements t) -> is_point_element x) ->
    hits c t = flat_map (emit c) (tags (elements t)).
  Proof.
    induction t as [bx e|bx l IHl r IHr]; intros W HE; cbn [hits]; destruct (overlap_sphere _ c r_max) eqn:EO; auto.
    - symmetry. apply (emit_far c bx); auto. intros x Hx. split; [apply W; auto|apply HE; auto].
    - simpl in W. cbn [elements] in *. rewrite IHl, IHr; try tauto; try (intros; apply HE; apply in_or_app; auto).
      unfold tags. rewrite map_app, flat_map_app. reflexivity.
    - symmetry. apply (emit_far c bx); auto. intros x Hx. split; [apply (wf_elements _ W x Hx)|apply HE; auto].
  Qed.
End Ball.

(** The tree of the points. *)
Lemma point_tree_spec b points : points <> [] ->
  exists t, aabb_query_tree b points = Some (layout true t 0 None) /\ wf t /\
    (forall x, In x (elements t) -> is_point_element b points x) /\
    Permutation (tags (elements t)) (seq 0 (length points)).
Proof.
  intros HN. unfold aabb_query_tree.
  set (boxes := map _ (combine (seq 0 (length points)) points)).
  assert (LB : length boxes = length points) by (unfold boxes; rewrite map_length, combine_length, seq_length; lia).
  destruct (build_tree_spec boxes) as (t & E & W & P).
  { intros F. rewrite F in LB. destruct points; [congruence|discriminate]. }
  exists t. split; auto. split; auto.
  assert (NB : forall i, i < length points -> nth i boxes aabb0 = aabb_point (flat_z b (nth i points v0)) i).
  { intros i Hi. unfold boxes. set (f := fun ip : nat * vec3 => aabb_point (flat_z b (snd ip)) (fst ip)).
    rewrite (nth_indep _ aabb0 (f (0, v0))) by (rewrite map_length, combine_length, seq_length; lia).
    rewrite map_nth, combine_nth by (rewrite seq_length; auto). unfold f. simpl. rewrite seq_nth by auto. reflexivity. }
  split.
  - intros x Hx. apply (Permutation_in _ P) in Hx. apply (In_nth _ _ (aabb0, 0)) in Hx as (i & Hi & <-).
    rewrite combine_length, seq_length in Hi. rewrite combine_nth by (rewrite seq_length; auto).
    unfold is_point_element. simpl fst. rewrite NB by lia. split; reflexivity.
  - unfold tags. rewrite (Permutation_map _ P). rewrite LB.
    assert (EQ : map (fun e => ab_tag (fst e)) (combine boxes (seq 0 (length points))) = seq 0 (length points)).
    { apply nth_ext with (d := 0) (d' := 0).
      - rewrite map_length, combine_length, seq_length. lia.
      - intros i Hi. rewrite map_length, combine_length, seq_length in Hi.
        set (f := fun e : aabb * nat => ab_tag (fst e)).
        rewrite (nth_indep _ 0 (f (aabb0, 0))) by (rewrite map_length, combine_length, seq_length; lia).
        rewrite map_nth, combine_nth by (rewrite seq_length; auto). unfold f. simpl. rewrite NB by lia. rewrite seq_nth by lia. reflexivity. }
    rewrite EQ. reflexivity.
Qed.

(** ** Facts about the node array *)
Lemma layout_parts sk t : forall base p, flat_map n_parts (layout sk t base p) = map snd (elements t).
Proof. induction t; intros; simpl; [apply app_nil_r|]. rewrite flat_map_app, IHt1, IHt2, map_app. reflexivity. Qed.
Lemma layout_tags sk t : forall base p, flat_map n_tags (layout sk t base p) = tags (elements t).
Proof. induction t; intros; simpl; [apply app_nil_r|]. rewrite flat_map_app, IHt1, IHt2. unfold tags. rewrite map_app. reflexivity. Qed.
Lemma layout_boxes sk t : wf t -> forall base p n, In n (layout sk t base p) -> inside (n_box n) (tbox t).
Proof.
  induction t as [bx e|bx l IHl r IHr]; intros W base p n Hn.
  - destruct Hn as [<-|[]]. apply inside_refl.
  - simpl in W, Hn. destruct W as (Il & Ir & Wl & Wr). destruct Hn as [<-|Hn]; [apply inside_refl|]. simpl.
    apply in_app_or in Hn as [Hn|Hn]; [eapply inside_trans; [eapply IHl; eauto|auto]|eapply inside_trans; [eapply IHr; eauto|auto]].
Qed.
(** Everything a node's skip pointer jumps over is enclosed by the node's box. *)
Lemma layout_skip t : wf t -> forall base p k, k < tsize t ->
  let ns := layout true t base p in
  k + n_skip (nth k ns node0) < tsize t /\
  forall m, k <= m <= k + n_skip (nth k ns node0) -> inside (n_box (nth m ns node0)) (n_box (nth k ns node0)).
Proof.
  induction t as [bx e|bx l IHl r IHr]; intros W base p k Hk ns.
  - simpl in Hk. replace k with 0 by lia. simpl. split; [lia|]. intros m Hm. replace m with 0 by lia. apply inside_refl.
  - simpl in W. destruct W as (Il & Ir & Wl & Wr). destruct k as [|k].
    + cbn [ns layout nth n_skip tsize]. split; [lia|]. intros m Hm.
      apply (layout_boxes true (TNode bx l r) (conj Il (conj Ir (conj Wl Wr))) base p).
      apply (nth_In (layout true (TNode bx l r) base p) node0). rewrite layout_length. simpl. lia.
    + simpl tsize in Hk. unfold ns. cbn [layout nth tsize].
      set (la := layout true l (S base) (Some base)). set (ra := layout true r (S base + tsize l) (Some base)).
      assert (LL : length la = tsize l) by apply layout_length. assert (LR : length ra = tsize r) by apply layout_length.
      destruct (Nat.lt_ge_cases k (tsize l)) as [H|H].
      * destruct (IHl Wl (S base) (Some base) k H) as [B1 B2]. fold la in B1, B2. rewrite (app_nth1 la ra node0 (n := k)) by lia.
        split; [lia|]. intros [|m] Hm; [lia|]. rewrite app_nth1 by lia. apply B2. lia.
      * destruct (IHr Wr (S base + tsize l) (Some base) (k - tsize l) ltac:(lia)) as [B1 B2]. fold ra in B1, B2.
        rewrite (app_nth2 la ra node0 (n := k)) by lia. rewrite LL. split; [lia|]. intros [|m] Hm; [lia|].
        rewrite app_nth2 by lia. rewrite LL. apply B2. lia.
Qed.
Lemma layout_leaf sk t : wf t -> forall base p n, In n (layout sk t base p) -> is_leaf n = true ->
  0 < length (n_parts n) <= NODE_CAPACITY /\ length (n_tags n) = length (n_parts n) /\
  exists e, n_parts n = map snd e /\ n_tags n = tags e /\ (forall x, In x e -> In x (elements t) /\ inside (fst x) (n_box n)).
Proof.
  induction t as [bx e|bx l IHl r IHr]; intros W base p n Hn HL; simpl in Hn.
  - destruct Hn as [<-|[]]. simpl in W |- *. unfold tags. rewrite !map_length. split; [tauto|split; auto].
    exists e. split; auto. split; auto. intros x Hx. split; auto. apply W; auto.
  - simpl in W. destruct W as (Il & Ir & Wl & Wr). destruct Hn as [<-|Hn]; [discriminate|].
    apply in_app_or in Hn as [Hn|Hn]; [destruct (IHl Wl _ _ _ Hn HL) as (A & B & e & C & D & E)|destruct (IHr Wr _ _ _ Hn HL) as (A & B & e & C & D & E)];
      (split; [exact A|split; [exact B|exists e; split; [exact C|split; [exact D|]]]]);
      intros x Hx; destruct (E x Hx); split; auto; simpl; apply in_or_app; auto.
Qed.
Lemma layout_inner sk t : forall base p n, In n (layout sk t base p) -> is_leaf n = false -> n_parts n = [] /\ n_tags n = [].
Proof.
  induction t as [bx e|bx l IHl r IHr]; intros base p n Hn HL; simpl in Hn.
  - destruct Hn as [<-|[]]. discriminate.
  - destruct Hn as [<-|Hn]; [auto|]. apply in_app_or in Hn as [Hn|Hn]; eauto.
Qed.
(** The traversal collects exactly the leaves whose box overlaps. *)
Lemma box_hits_filter a sk t : wf t -> forall base p,
  box_hits a t = flat_map n_parts (filter (fun n => overlap_box (n_box n) a) (layout sk t base p)).
Proof.
  induction t as [bx e|bx l IHl r IHr]; intros W base p; cbn [box_hits tbox layout filter n_box].
  - destruct (overlap_box bx a); simpl; [rewrite app_nil_r; auto|auto].
  - simpl in W. destruct W as (Il & Ir & Wl & Wr). rewrite filter_app.
    destruct (overlap_box bx a) eqn:EO.
    + cbn [flat_map n_parts app]. rewrite flat_map_app. f_equal; auto.
    + symmetry. rewrite flat_map_app.
      assert (G : forall t base p, inside (tbox t) bx -> wf t -> flat_map n_parts (filter (fun n => overlap_box (n_box n) a) (layout sk t base p)) = []).
      { intros t b0 p0 Ht Wt. replace (filter _ _) with (@nil node); auto. symmetry.
        destruct (filter _ _) as [|n rest] eqn:EF; auto. exfalso.
        assert (Hn : In n (n :: rest)) by (left; auto). rewrite <- EF in Hn. apply filter_In in Hn as [Hn HO].
        rewrite (overlap_mono (n_box n) bx a) in EO; [discriminate| |auto].
        eapply inside_trans; [eapply layout_boxes; eauto|auto]. }
      rewrite !G; auto.
Qed.
