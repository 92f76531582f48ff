(** Proofs about neighbour lists. *)
From Verif Require Import NListSpec ParProofs MArrayProofs.

(** ** Generic list facts *)
Lemma nth_upd_same {T} (l : list T) k x d : k < length l -> nth k (upd l k x) d = x.
Proof. revert k; induction l; intros [|k] H; simpl in *; auto; try lia. apply IHl; lia. Qed.
Lemma nth_upd_other {T} (l : list T) k j x d : j <> k -> nth j (upd l k x) d = nth j l d.
Proof. revert k j; induction l; intros [|k] [|j] H; simpl; auto; try congruence. Qed.
Lemma nth_upd_if {T} (l : list T) k j x d : k < length l ->
  nth j (upd l k x) d = if j =? k then x else nth j l d.
Proof.
  intros H. destruct (Nat.eqb_spec j k) as [->|N]; [apply nth_upd_same|apply nth_upd_other]; auto.
Qed.
Lemma wr_some {T} (l : list T) i x : i < length l -> wr l i x = Some (upd l i x).
Proof. intros H. unfold wr. apply Nat.ltb_lt in H. rewrite H. auto. Qed.
Lemma upd_app {T} (a : list T) y b x : upd (a ++ y :: b) (length a) x = a ++ x :: b.
Proof. induction a; simpl; auto. f_equal; auto. Qed.
Lemma list_ext {T} (d : T) (l l' : list T) :
  length l = length l' -> (forall k, k < length l -> nth k l d = nth k l' d) -> l = l'.
Proof. intros H1 H2. eapply nth_ext; eauto. Qed.

(** A parallel loop writing f i at index i fills the array with f, whatever the execution. *)
Lemma par_write {T} (f : nat -> T) n ev arr : execution 0 n ev -> length arr = n ->
  fold_left (fun a e => upd a (snd e) (f (snd e))) ev arr = map f (range 0 n).
Proof.
  intros HE HL. apply execution_perm in HE.
  assert (G : forall (ev : list (nat * nat)) arr, Forall (fun e => snd e < length arr) ev ->
    let r := fold_left (fun a e => upd a (snd e) (f (snd e))) ev arr in
    length r = length arr /\ forall k, k < length arr ->
      nth k r (f k) = if existsb (fun e => snd e =? k) ev then f k else nth k arr (f k)).
  { clear. induction ev as [|[t i] ev IH]; intros arr HF; simpl; auto.
    inversion HF as [|? ? Hi HF']; subst. simpl in *.
    destruct (IH (upd arr i (f i))) as [L N]; [rewrite upd_length; auto|].
    rewrite upd_length in *. split; auto. intros k Hk. rewrite N by auto. rewrite nth_upd_if by auto.
    destruct (existsb _ ev) eqn:E; [rewrite orb_true_r; auto|]. rewrite orb_false_r, (Nat.eqb_sym i k).
    destruct (Nat.eqb_spec k i) as [->|]; auto. }
  destruct (G ev arr) as [L N].
  { apply Forall_forall. intros e He. rewrite HL. assert (In (snd e) (range 0 n)).
    { eapply Permutation_in; [exact HE|]. apply in_map; auto. }
    unfold range in H. apply in_seq in H. lia. }
  eapply nth_ext with (d := f 0) (d' := f 0).
  - rewrite L, map_length. unfold range. rewrite seq_length. lia.
  - intros k Hk. rewrite L in Hk. rewrite (map_nth f). unfold range. rewrite seq_nth by lia. simpl.
    rewrite (nth_indep _ (f 0) (f k)) by lia. rewrite N by auto.
    assert (E : existsb (fun e => snd e =? k) ev = true).
    { apply existsb_exists. assert (Hin : In k (map snd ev)).
      { eapply Permutation_in; [symmetry; exact HE|]. unfold range. apply in_seq. lia. }
      apply in_map_iff in Hin as (e & <- & He). exists e. split; auto. apply Nat.eqb_refl. }
    rewrite E. auto.
Qed.
Lemma map_nth_range {T} (l : list T) d : map (fun i => nth i l d) (range 0 (length l)) = l.
Proof.
  unfold range. rewrite Nat.sub_0_r. apply nth_ext with (d := d) (d' := d).
  - rewrite map_length, seq_length; auto.
  - intros k Hk. rewrite map_length, seq_length in Hk.
    rewrite (nth_indep _ d (nth 0 l d)) by (rewrite map_length, seq_length; auto).
    rewrite (map_nth (fun i => nth i l d)), seq_nth; auto.
Qed.
Lemma par_copy (l arr : list bond) ev : execution 0 (length l) ev -> length arr = length l ->
  fold_left (fun a e => upd a (snd e) (nth (snd e) l bond0)) ev arr = l.
Proof.
  intros HE HL. rewrite (par_write (fun i => nth i l bond0) (length l)) by auto. apply map_nth_range.
Qed.

(** ** sorted_q *)
Lemma sorted_q_tail b bs : sorted_q (b :: bs) -> sorted_q bs.
Proof. intros H i j Hij. apply (H (S i) (S j)). simpl. lia. Qed.
Lemma sorted_q_head b bs : sorted_q (b :: bs) -> forall x, In x bs -> bq b <= bq x.
Proof.
  intros H x Hx. apply (In_nth _ _ bond0) in Hx as (k & Hk & <-). apply (H 0 (S k)). simpl. lia.
Qed.
Lemma sorted_q_cons b bs : sorted_q bs -> (forall x, In x bs -> bq b <= bq x) -> sorted_q (b :: bs).
Proof.
  intros H1 H2 [|i] [|j] Hij; simpl in *; try lia.
  - apply H2. apply nth_In. lia.
  - apply H1. lia.
Qed.
Lemma sorted_q_app a b : sorted_q (a ++ b) <->
  sorted_q a /\ sorted_q b /\ forall x y, In x a -> In y b -> bq x <= bq y.
Proof.
  induction a as [|x a IH]; simpl.
  - split; [intros H; split; [intros i j; simpl; lia|split; auto; contradiction]|tauto].
  - split.
    + intros H. pose proof (sorted_q_tail _ _ H) as T. apply IH in T as (A & B & C).
      pose proof (sorted_q_head _ _ H) as HD. split; [|split; auto].
      * apply sorted_q_cons; auto. intros y Hy. apply HD. apply in_or_app; auto.
      * intros u v [<-|Hu] Hv; [apply HD; apply in_or_app; auto|auto].
    + intros (A & B & C). apply sorted_q_cons.
      * apply IH. split; [eapply sorted_q_tail; eauto|]. split; [exact B|]. intros u v Hu Hv. apply C; [right; exact Hu|exact Hv].
      * intros y Hy. apply in_app_or in Hy as [Hy|Hy]; [eapply sorted_q_head; eauto|apply C; auto; left; auto].
Qed.
Lemma sorted_q_map (bs bs' : list bond) : map bq bs = map bq bs' -> sorted_q bs -> sorted_q bs'.
Proof.
  intros E H i j Hij.
  assert (L : length bs = length bs') by (rewrite <- (map_length bq bs), E, map_length; auto).
  rewrite <- !(map_nth bq), <- E, !(map_nth bq). apply H. lia.
Qed.

(** ** C18 constructor *)
Lemma ctor_loop_spec nq np : forall rows last,
  let qs := map (fun r => fst (fst (fst r))) rows in
  let ok := (forall i j, i < j < length rows -> nth i qs 0 <= nth j qs 0) /\
            (forall q, In q qs -> last <= q) /\
            Forall (fun r => fst (fst (fst r)) < nq /\ snd (fst (fst r)) < np) rows in
  (ok -> ctor_loop nq np last rows =
         Some (map (fun '(q, p, v, w) => Bond q p (norm v) w v) rows)) /\
  (~ ok -> ctor_loop nq np last rows = None).
Proof.
  induction rows as [|[[[q p] v] w] rows IH]; intros last; cbv zeta; simpl.
  - split; auto. intros H. exfalso. apply H. split; [intros; lia|]. split; [intros ? []|constructor].
  - specialize (IH q). cbv zeta in IH. destruct IH as [I1 I2].
    set (qs := map (fun r => fst (fst (fst r))) rows) in *.
    assert (EQ : ((forall i j, i < j < S (length rows) -> nth i (q :: qs) 0 <= nth j (q :: qs) 0) /\
                 (forall x, q = x \/ In x qs -> last <= x) /\
                 Forall (fun r => fst (fst (fst r)) < nq /\ snd (fst (fst r)) < np) ((q, p, v, w) :: rows)) <->
                 (last <= q /\ q < nq /\ p < np /\
                  ((forall i j, i < j < length rows -> nth i qs 0 <= nth j qs 0) /\
                   (forall x, In x qs -> q <= x) /\
                   Forall (fun r => fst (fst (fst r)) < nq /\ snd (fst (fst r)) < np) rows))).
    { split.
      - intros (A & B & C). inversion C as [|? ? [C1 C2] C3]; subst. simpl in *.
        split; [apply B; auto|]. split; auto. split; auto. split; [|split; auto].
        + intros i j Hij. apply (A (S i) (S j)). lia.
        + intros x Hx. apply (In_nth _ _ 0) in Hx as (k & Hk & <-).
          assert (k < length rows) by (unfold qs in Hk; rewrite map_length in Hk; auto).
          apply (A 0 (S k)). lia.
      - intros (A & B & C & D & E & F). split; [|split].
        + intros [|i] [|j] Hij; simpl; try lia; [|apply D; lia]. apply E. apply nth_In. unfold qs.
          rewrite map_length. lia.
        + intros x [<-|Hx]; auto. specialize (E x Hx). lia.
        + constructor; auto. }
    rewrite EQ. clear EQ.
    destruct (Nat.ltb_spec q last); [split; auto; intros; lia|].
    destruct (Nat.leb_spec nq q); [split; auto; intros; lia|].
    destruct (Nat.leb_spec np p); [split; auto; intros; lia|].
    split.
    + intros (_ & _ & _ & O). rewrite I1 by auto. reflexivity.
    + intros N. rewrite I2; auto. intros O. apply N. auto.
Qed.

(** ** C20 filter *)
Lemma select_cons {A} (m : bool) mask (x : A) l :
  select (m :: mask) (x :: l) = if m then x :: select mask l else select mask l.
Proof. unfold select; simpl. destruct m; auto. Qed.

Lemma filter_loop_spec : forall bs mask pre, length bs <= length mask ->
  filter_loop bs mask (length pre) (pre ++ repeat bond0 (count_occ bool_dec (firstn (length bs) mask) true))
  = Some (pre ++ select mask bs).
Proof.
  induction bs as [|b bs IH]; intros mask pre H; simpl.
  - unfold select; simpl. auto.
  - destruct mask as [|m mask]; simpl in *; [lia|]. rewrite select_cons. destruct m; simpl.
    + destruct (bool_dec true true) as [_|N]; [|congruence]. simpl.
      rewrite wr_some by (rewrite app_length; simpl; lia). rewrite upd_app.
      specialize (IH mask (pre ++ [b]) ltac:(lia)). rewrite app_length in IH; simpl in IH.
      rewrite Nat.add_1_r in IH. rewrite <- app_assoc in IH. simpl in IH. rewrite IH.
      rewrite <- app_assoc. reflexivity.
    + destruct (bool_dec false true) as [N|_]; [congruence|]. apply IH. lia.
Qed.
Lemma filter_loop_short : forall bs mask g arr, length mask < length bs -> filter_loop bs mask g arr = None.
Proof.
  induction bs as [|b bs IH]; intros mask g arr H; simpl in *; [lia|].
  destruct mask as [|[|] mask]; auto; simpl in H.
  - destruct (wr arr g b); auto. apply IH. lia.
  - apply IH. lia.
Qed.
Lemma select_length {A} : forall (l : list A) mask, length l <= length mask ->
  length (select mask l) = count_occ bool_dec (firstn (length l) mask) true.
Proof.
  induction l as [|x l IH]; intros mask H; simpl; auto. destruct mask as [|m mask]; simpl in *; [lia|].
  rewrite select_cons. destruct m; simpl.
  - destruct (bool_dec true true) as [_|N]; [|congruence]. rewrite IH; auto; lia.
  - destruct (bool_dec false true) as [N|_]; [congruence|]. apply IH. lia.
Qed.
Lemma select_le {A} : forall (l : list A) mask, length (select mask l) <= length l.
Proof.
  induction l as [|x l IH]; intros mask; [unfold select; simpl; lia|]. destruct mask as [|m mask]; [unfold select; simpl; lia|].
  rewrite select_cons. specialize (IH mask). destruct m; simpl; lia.
Qed.
Lemma nl_filter_spec nl mask : length (nl_bonds nl) <= length mask ->
  nl_filter nl mask =
  Some (NL (nl_nq nl) (nl_np nl) (select mask (nl_bonds nl)) false (nl_segments nl) (nl_counts nl),
        length (nl_bonds nl) - length (select mask (nl_bonds nl))).
Proof.
  intros H. unfold nl_filter. pose proof (filter_loop_spec (nl_bonds nl) mask [] H) as F. simpl in F. rewrite F.
  simpl. rewrite select_length by auto. reflexivity.
Qed.
Lemma nl_filter_short nl mask : length mask < length (nl_bonds nl) -> nl_filter nl mask = None.
Proof. intros H. unfold nl_filter. rewrite filter_loop_short; auto. Qed.
Lemma select_map_filter {A} (f : A -> bool) l : select (map f l) l = filter f l.
Proof. induction l; simpl; auto. rewrite select_cons, IHl. auto. Qed.
Lemma select_incl {A} (l : list A) mask x : In x (select mask l) -> In x l.
Proof.
  unfold select. intros H. apply in_map_iff in H as ((y & m) & <- & H). apply filter_In in H as [H _].
  apply in_combine_l in H. auto.
Qed.
Lemma sorted_q_select mask bs : sorted_q bs -> sorted_q (select mask bs).
Proof.
  revert mask. induction bs as [|b bs IH]; intros mask H; [unfold select; simpl; auto|].
  destruct mask as [|m mask]; [unfold select; simpl; intros i j; simpl; lia|].
  rewrite select_cons. pose proof (sorted_q_tail _ _ H). destruct m; auto.
  apply sorted_q_cons; auto. intros x Hx. apply select_incl in Hx. eapply sorted_q_head; eauto.
Qed.
Lemma valid_select nq np mask bs : valid_bonds nq np bs -> valid_bonds nq np (select mask bs).
Proof.
  intros [H1 H2]. split; [apply sorted_q_select; auto|]. intros b Hb. apply H2. eapply select_incl; eauto.
Qed.
Lemma nl_filter_r_spec nl r_max r_min :
  nl_filter_r nl r_max r_min =
  if Rltb 0 r_max && Rleb 0 r_min && Rltb r_min r_max then
    let bs := filter (fun b => Rleb r_min (bd b) && Rltb (bd b) r_max) (nl_bonds nl) in
    Some (NL (nl_nq nl) (nl_np nl) bs false (nl_segments nl) (nl_counts nl), length (nl_bonds nl) - length bs)
  else None.
Proof.
  unfold nl_filter_r.
  destruct (Rleb_spec r_max 0), (Rltb_spec 0 r_max); simpl; try (exfalso; lra); auto.
  destruct (Rltb_spec r_min 0), (Rleb_spec 0 r_min); simpl; try (exfalso; lra); auto.
  destruct (Rleb_spec r_max r_min), (Rltb_spec r_min r_max); simpl; try (exfalso; lra); auto.
  rewrite nl_filter_spec by (rewrite map_length; auto). rewrite select_map_filter. reflexivity.
Qed.

(** ** C19 bisection *)
Lemma filter_lt_app i a b : sorted_q (a ++ b) -> (forall x, In x a -> bq x < i) -> (forall x, In x b -> i <= bq x) ->
  before i (a ++ b) = length a.
Proof.
  intros _ Ha Hb. unfold before. rewrite filter_app, app_length.
  replace (filter (fun b0 => bq b0 <? i) b) with (@nil bond).
  - simpl. rewrite Nat.add_0_r. f_equal. clear Hb. induction a; simpl; auto.
    rewrite (proj2 (Nat.ltb_lt _ _)) by (apply Ha; left; auto). f_equal. apply IHa. intros; apply Ha; right; auto.
  - clear Ha. induction b; simpl; auto. rewrite (proj2 (Nat.ltb_ge _ _)) by (apply Hb; left; auto).
    apply IHb. intros; apply Hb; right; auto.
Qed.
(** [before i] is characterised by its two sides. *)
Lemma before_unique i bs k : sorted_q bs -> k <= length bs ->
  (forall j, j < k -> bq (nth j bs bond0) < i) -> (forall j, k <= j < length bs -> i <= bq (nth j bs bond0)) ->
  before i bs = k.
Proof.
  intros HS Hk H1 H2. rewrite <- (firstn_skipn k bs). rewrite filter_lt_app.
  - apply firstn_length_le; auto.
  - rewrite firstn_skipn; auto.
  - intros x Hx. apply (In_nth _ _ bond0) in Hx as (j & Hj & <-). rewrite firstn_length_le in Hj by auto.
    rewrite <- (firstn_skipn k bs) in H1. specialize (H1 j Hj). rewrite app_nth1 in H1; auto.
    rewrite firstn_length_le; auto.
  - intros x Hx. apply (In_nth _ _ bond0) in Hx as (j & Hj & <-). rewrite skipn_length in Hj.
    specialize (H2 (k + j) ltac:(lia)). rewrite <- (firstn_skipn k bs) in H2 at 1.
    rewrite app_nth2 in H2 by (rewrite firstn_length_le; lia). rewrite firstn_length_le in H2 by auto.
    replace (k + j - k) with j in H2 by lia. auto.
Qed.
Lemma before_sides i bs : sorted_q bs ->
  (forall j, j < before i bs -> bq (nth j bs bond0) < i) /\
  (forall j, before i bs <= j < length bs -> i <= bq (nth j bs bond0)).
Proof.
  induction bs as [|b bs IH]; intros HS; [unfold before; simpl; split; intros; lia|].
  pose proof (sorted_q_tail _ _ HS) as HT. specialize (IH HT). unfold before in *; simpl.
  destruct (Nat.ltb_spec (bq b) i).
  - simpl. destruct IH as [I1 I2]. split.
    + intros [|j] Hj; simpl; auto. apply I1. lia.
    + intros [|j] Hj; simpl; [lia|]. apply I2. lia.
  - replace (filter (fun b0 => bq b0 <? i) bs) with (@nil bond).
    + simpl. split; [intros; lia|]. intros [|j] Hj; simpl; auto.
      pose proof (sorted_q_head _ _ HS (nth j bs bond0) ltac:(apply nth_In; lia)). lia.
    + assert (HH : forall x, In x bs -> i <= bq x) by (intros x Hx; pose proof (sorted_q_head _ _ HS x Hx); lia).
      clear -HH. induction bs; simpl; auto. rewrite (proj2 (Nat.ltb_ge _ _)) by (apply HH; left; auto).
      apply IHbs. intros; apply HH; right; auto.
Qed.
Lemma before_le i bs : before i bs <= length bs.
Proof. unfold before. induction bs; simpl; auto. destruct (bq a <? i); simpl; lia. Qed.

Lemma bisection_spec bs val : sorted_q bs -> forall fuel left right,
  left < right <= length bs -> right - left <= fuel ->
  (left = 0 \/ bq (nth left bs bond0) < val) -> (right = length bs \/ val <= bq (nth right bs bond0)) ->
  let r := bisection fuel bs val left right in
  left <= r < right /\ (r = 0 \/ bq (nth r bs bond0) < val) /\ (r + 1 = length bs \/ val <= bq (nth (r + 1) bs bond0)).
Proof.
  intros HS. induction fuel as [|fuel IH]; intros left right H1 H2 H3 H4; cbv zeta; cbn [bisection]; [lia|].
  destruct (Nat.leb_spec right (left + 1)).
  - assert (right = left + 1) by lia. subst right. split; [lia|]. split; auto.
  - set (mid := (left + right) / 2).
    assert (M : left < mid < right).
    { unfold mid. split.
      - apply Nat.div_le_lower_bound; lia.
      - apply Nat.div_lt_upper_bound; lia. }
    destruct (Nat.ltb_spec (bq (nth mid bs bond0)) val).
    + pose proof (IH mid right ltac:(lia) ltac:(lia) (or_intror H0) H4) as (A & B & C). split; [lia|]. auto.
    + pose proof (IH left mid ltac:(lia) ltac:(lia) H3 (or_intror H0)) as (A & B & C). split; [lia|]. auto.
Qed.

Lemma find_first_index_spec nl i : sorted_q (nl_bonds nl) -> find_first_index nl i = before i (nl_bonds nl).
Proof.
  intros HS. unfold find_first_index. destruct (Nat.eqb_spec (length (nl_bonds nl)) 0) as [E|E].
  - apply length_zero_iff_nil in E. rewrite E. reflexivity.
  - destruct (bisection_spec (nl_bonds nl) i HS (length (nl_bonds nl)) 0 (length (nl_bonds nl))) as (A & B & C); auto; try lia.
    set (r := bisection _ _ _ _ _) in *. symmetry.
    destruct (Nat.ltb_spec (bq (nth 0 (nl_bonds nl) bond0)) i).
    + assert (Hr : bq (nth r (nl_bonds nl) bond0) < i) by (destruct B as [->|B]; auto).
      apply before_unique; auto; try lia.
      * intros j Hj. destruct (Nat.eq_dec j r) as [->|]; auto. specialize (HS j r ltac:(lia)). lia.
      * intros j Hj. destruct C as [C|C]; [lia|]. destruct (Nat.eq_dec j (r + 1)) as [->|]; auto.
        specialize (HS (r + 1) j ltac:(lia)). lia.
    + rewrite Nat.add_0_r. assert (r = 0).
      { destruct B as [B|B]; auto. destruct (Nat.eq_dec r 0); auto. specialize (HS 0 r ltac:(lia)). lia. }
      rewrite H0. apply before_unique; auto; try lia. intros j Hj. destruct (Nat.eq_dec j 0) as [->|]; auto.
      specialize (HS 0 j ltac:(lia)). lia.
Qed.
