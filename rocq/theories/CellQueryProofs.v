(** Counting sort of the CellQuery grid: the buffer is the concatenation of the per-cell groups. *)
From Verif Require Import CellQueryModel MArrayProofs NListProofs AABBProofs2.
Open Scope nat_scope.

Definition in_c (c : nat) (e : nat * tagged) : bool := fst e =? c.
Definition real_in (c : nat) (e : nat * tagged) : bool := in_c c e && negb (is_ghost e).
Definition ghost_in (c : nat) (e : nat * tagged) : bool := in_c c e && is_ghost e.
Definition nr (m : list (nat * tagged)) (c : nat) : nat := length (filter (real_in c) m).
Definition ng (m : list (nat * tagged)) (c : nat) : nat := length (filter (ghost_in c) m).
(** Group of a cell in the buffer. *)
Definition group (m : list (nat * tagged)) (c : nat) : list tagged := map snd (filter (real_in c) m ++ filter (ghost_in c) m).

Lemma nth_upd (l : list nat) i x k : i < length l -> nth k (upd l i x) 0 = if k =? i then x else nth k l 0.
Proof.
  intros H. destruct (Nat.eqb_spec k i) as [->|N].
  - apply nth_error_nth. apply upd_same. auto.
  - destruct (Nat.lt_ge_cases k (length l)) as [K|K].
    + apply nth_error_nth. rewrite upd_other by auto. apply nth_error_nth'. auto.
    + rewrite !nth_overflow; auto. rewrite upd_length. auto.
Qed.
Lemma bump_length l i : length (bump l i) = length l.
Proof. apply upd_length. Qed.
Lemma nth_bump l i k : i < length l -> nth k (bump l i) 0 = nth k l 0 + (if i =? k then 1 else 0).
Proof. intros H. unfold bump. rewrite nth_upd by auto. rewrite Nat.eqb_sym. destruct (Nat.eqb_spec i k); subst; lia. Qed.

Lemma counts_length n m : length (counts_of n m) = n.
Proof.
  unfold counts_of. rewrite <- (repeat_length 0 n) at 2. generalize (repeat 0 n). induction m as [|e m IH]; intros l; simpl; auto.
  rewrite IH, bump_length. auto.
Qed.
Lemma counts_nth n m c : (forall e, In e m -> fst e < n) -> nth c (counts_of n m) 0 = length (filter (in_c c) m).
Proof.
  intros H. unfold counts_of. assert (G : forall l, length l = n -> nth c (fold_left (fun l e => bump l (fst e)) m l) 0 = nth c l 0 + length (filter (in_c c) m)).
  { induction m as [|e m IH]; intros l Hl; simpl; [lia|]. rewrite IH; [|intros; apply H; right; auto|rewrite bump_length; auto].
    rewrite nth_bump by (rewrite Hl; apply H; left; auto). unfold in_c at 2. destruct (fst e =? c); simpl; lia. }
  rewrite G by apply repeat_length. rewrite nth_repeat. auto.
Qed.
Lemma real_filter c m : filter (in_c c) (filter (fun e => negb (is_ghost e)) m) = filter (real_in c) m.
Proof. induction m as [|e m IH]; simpl; auto. unfold real_in at 1. destruct (is_ghost e); simpl; rewrite ?andb_false_r, ?andb_true_r; auto. destruct (in_c c e); rewrite IH; auto. Qed.
Lemma in_split c m : length (filter (in_c c) m) = nr m c + ng m c.
Proof. unfold nr, ng, real_in, ghost_in. induction m as [|e m IH]; simpl; auto. destruct (in_c c e), (is_ghost e); simpl; lia. Qed.

Lemma prefix_length l : forall o, length (prefix_sum o l) = length l.
Proof. induction l; intros; simpl; auto. Qed.
Lemma prefix_nth l : forall o c, c < length l -> nth c (prefix_sum o l) 0 = o + list_sum (firstn c l).
Proof. induction l as [|x l IH]; intros o [|c] H; simpl in *; try lia. rewrite IH by lia. lia. Qed.
Lemma list_sum_firstn_S l c : c < length l -> list_sum (firstn (S c) l) = list_sum (firstn c l) + nth c l 0.
Proof. revert c. induction l as [|x l IH]; intros [|c] H; simpl in *; try lia. specialize (IH c). simpl in IH. rewrite IH by lia. lia. Qed.
Lemma list_sum_firstn_le l c d : c <= d -> list_sum (firstn c l) <= list_sum (firstn d l).
Proof. revert c d. induction l as [|x l IH]; intros [|c] [|d] H; simpl; try lia. specialize (IH c d). lia. Qed.
Lemma list_sum_firstn_all l c : list_sum (firstn c l) <= list_sum l.
Proof. revert c. induction l as [|x l IH]; intros [|c]; simpl; try lia. specialize (IH c). lia. Qed.

Lemma counts_sum n m : (forall e, In e m -> fst e < n) -> list_sum (counts_of n m) = length m.
Proof.
  intros H. unfold counts_of. assert (G : forall l, length l = n -> list_sum (fold_left (fun l e => bump l (fst e)) m l) = list_sum l + length m).
  { assert (B : forall l i, i < length l -> list_sum (bump l i) = S (list_sum l)).
    { clear. induction l as [|x l IH]; intros [|i] Hi; simpl in *; try lia. unfold bump in *. simpl. rewrite IH by lia. lia. }
    induction m as [|e m IH]; intros l Hl; simpl; [lia|]. rewrite IH; [|intros; apply H; right; auto|rewrite bump_length; auto].
    rewrite B by (rewrite Hl; apply H; left; auto). lia. }
  rewrite G by apply repeat_length. replace (list_sum (repeat 0 n)) with 0; auto. clear. induction n; simpl; auto.
Qed.

Section Place.
  Variables (n : nat) (m : list (nat * tagged)).
  Hypothesis Hm : forall e, In e m -> fst e < n.
  Let counts := counts_of n m.
  Let creal := counts_of n (filter (fun e => negb (is_ghost e)) m).
  Let starts := prefix_sum 0 counts.
  Let st c := list_sum (firstn c counts).

  Lemma starts_nth c : c < n -> nth c starts 0 = st c.
  Proof. intros H. unfold starts. rewrite prefix_nth by (unfold counts; rewrite counts_length; auto). auto. Qed.
  Lemma creal_nth c : nth c creal 0 = nr m c.
  Proof. unfold creal. rewrite counts_nth. { rewrite real_filter. auto. } intros e He. apply filter_In in He. apply Hm, He. Qed.
  Lemma st_S c : c < n -> st (S c) = st c + (nr m c + ng m c).
  Proof. intros H. unfold st. rewrite list_sum_firstn_S by (unfold counts; rewrite counts_length; auto). f_equal. unfold counts. rewrite counts_nth by auto. apply in_split. Qed.
  Lemma st_lt c d : c < d -> c < n -> st c + (nr m c + ng m c) <= st d.
  Proof. intros H H1. rewrite <- st_S by auto. apply list_sum_firstn_le. lia. Qed.
  Lemma st_le c : c < n -> st c + (nr m c + ng m c) <= length m.
  Proof. intros H. rewrite <- st_S by auto. unfold st. rewrite <- (counts_sum n m Hm). apply list_sum_firstn_all. Qed.

  Definition placed (done : list (nat * tagged)) (buf : list tagged) : Prop :=
    length buf = length m /\
    (forall c i e, c < n -> nth_error (filter (real_in c) done) i = Some e -> nth_error buf (st c + i) = Some (snd e)) /\
    (forall c i e, c < n -> nth_error (filter (ghost_in c) done) i = Some e -> nth_error buf (st c + nr m c + i) = Some (snd e)).

  Lemma filter_app_one {A} (f : A -> bool) l x : filter f (l ++ [x]) = filter f l ++ (if f x then [x] else []).
  Proof. rewrite filter_app. simpl. auto. Qed.
  Lemma sep_cells c c' i i' : c < n -> c' < n -> c <> c' -> i < nr m c + ng m c -> i' < nr m c' + ng m c' -> st c + i <> st c' + i'.
  Proof. intros H H' N Hi Hi'. destruct (Nat.lt_ge_cases c c') as [L|L]. - pose proof (st_lt c c' L H). lia. - pose proof (st_lt c' c ltac:(lia) H'). lia. Qed.

  Lemma place_ok : forall todo done buf ri gi, m = done ++ todo -> placed done buf -> length ri = n -> length gi = n ->
    (forall c, nth c ri 0 = nr done c) -> (forall c, nth c gi 0 = ng done c) ->
    exists buf' ri' gi', fold_left (place_one starts creal) todo (Some (buf, ri, gi)) = Some (buf', ri', gi') /\ placed m buf'.
  Proof.
    induction todo as [|e todo IH]; intros done buf ri gi Em HP Hri Hgi Rri Rgi; simpl.
    - rewrite app_nil_r in Em. subst done. eauto.
    - assert (He : fst e < n) by (apply Hm; rewrite Em, in_app_iff; right; left; auto). set (c := fst e) in *.
      assert (NR : forall c, nr m c = nr done c + nr (e :: todo) c) by (intros; unfold nr; rewrite Em, filter_app, app_length; auto).
      assert (NG : forall c, ng m c = ng done c + ng (e :: todo) c) by (intros; unfold ng; rewrite Em, filter_app, app_length; auto).
      assert (LT : forall (f : nat * tagged -> bool) i x, nth_error (filter f done) i = Some x -> i < length (filter f done)) by (intros; apply nth_error_Some; congruence).
      destruct HP as (HL & HR & HG).
      destruct (is_ghost e) eqn:EG.
      + rewrite starts_nth, creal_nth, Rgi by auto.
        assert (LG : ng done c < ng m c). { rewrite NG. unfold ng at 3. simpl. unfold ghost_in at 1, in_c. fold c. rewrite Nat.eqb_refl, EG. simpl. lia. }
        pose proof (st_le c He). rewrite wr_some by lia.
        apply (IH (done ++ [e])); auto; [rewrite <- app_assoc; auto| |rewrite bump_length; auto| |].
        * split; [rewrite upd_length; auto|]. split.
          -- intros c' i x Hc' E. rewrite filter_app_one in E. unfold real_in at 2 in E. rewrite EG, andb_false_r, app_nil_r in E.
             pose proof (LT _ _ _ E) as Li. fold (nr done c') in Li. rewrite upd_other; [auto|].
             destruct (Nat.eq_dec c c') as [<-|N]; [pose proof (NR c); lia|].
             rewrite <- Nat.add_assoc. apply sep_cells; auto; [lia|]. specialize (NR c'). lia.
          -- intros c' i x Hc' E. rewrite filter_app_one in E. unfold ghost_in at 2 in E. rewrite EG, andb_true_r in E. unfold in_c in E. fold c in E.
             destruct (Nat.eqb_spec c c') as [<-|N].
             ++ destruct (Nat.lt_ge_cases i (ng done c)) as [Li|Li].
                ** rewrite nth_error_app1 in E by auto. rewrite upd_other by lia. auto.
                ** rewrite nth_error_app2 in E by auto. fold (ng done c) in E. destruct (i - ng done c) as [|[|]] eqn:EI; simpl in E; try discriminate.
                   injection E as <-. replace i with (ng done c) by lia. apply upd_same. lia.
             ++ rewrite app_nil_r in E. pose proof (LT _ _ _ E) as Li. fold (ng done c') in Li. rewrite upd_other; [auto|].
                rewrite <- !Nat.add_assoc. apply sep_cells; auto; [lia|]. specialize (NG c'). lia.
        * intros c'. rewrite Rri. unfold nr. rewrite filter_app_one. unfold real_in at 3. rewrite EG, andb_false_r, app_nil_r. auto.
        * intros c'. rewrite nth_bump by lia. rewrite Rgi. unfold ng. rewrite filter_app_one, app_length. unfold ghost_in at 3, in_c. fold c. rewrite EG, andb_true_r. destruct (c =? c'); auto.
      + rewrite starts_nth, Rri by auto.
        assert (LG : nr done c < nr m c). { rewrite NR. unfold nr at 3. simpl. unfold real_in at 1, in_c. fold c. rewrite Nat.eqb_refl, EG. simpl. lia. }
        pose proof (st_le c He). rewrite wr_some by lia.
        apply (IH (done ++ [e])); auto; [rewrite <- app_assoc; auto| |rewrite bump_length; auto| |].
        * split; [rewrite upd_length; auto|]. split.
          -- intros c' i x Hc' E. rewrite filter_app_one in E. unfold real_in at 2 in E. rewrite EG in E. cbn [negb] in E. rewrite andb_true_r in E. unfold in_c in E. fold c in E.
             destruct (Nat.eqb_spec c c') as [<-|N].
             ++ destruct (Nat.lt_ge_cases i (nr done c)) as [Li|Li].
                ** rewrite nth_error_app1 in E by auto. rewrite upd_other by lia. auto.
                ** rewrite nth_error_app2 in E by auto. fold (nr done c) in E. destruct (i - nr done c) as [|[|]] eqn:EI; simpl in E; try discriminate.
                   injection E as <-. replace i with (nr done c) by lia. apply upd_same. lia.
             ++ rewrite app_nil_r in E. pose proof (LT _ _ _ E) as Li. fold (nr done c') in Li. rewrite upd_other; [auto|].
                apply sep_cells; auto; [lia|]. specialize (NR c'). lia.
          -- intros c' i x Hc' E. rewrite filter_app_one in E. unfold ghost_in at 2 in E. rewrite EG, andb_false_r, app_nil_r in E.
             pose proof (LT _ _ _ E) as Li. fold (ng done c') in Li. rewrite upd_other; [auto|].
             destruct (Nat.eq_dec c c') as [<-|N]; [lia|].
             rewrite <- Nat.add_assoc. apply sep_cells; auto; [lia|]. specialize (NG c'). lia.
        * intros c'. rewrite nth_bump by lia. rewrite Rri. unfold nr. rewrite filter_app_one, app_length. unfold real_in at 3, in_c. fold c. rewrite EG. cbn [negb]. rewrite andb_true_r. destruct (c =? c'); auto.
        * intros c'. rewrite Rgi. unfold ng. rewrite filter_app_one. unfold ghost_in at 3. rewrite EG, andb_false_r, app_nil_r. auto.
  Qed.

  Lemma place_spec : exists buf, place n starts creal m = Some buf /\ length buf = length m /\
    (forall c, c < n -> nth_error starts c = Some (st c) /\ nth_error counts c = Some (length (group m c))) /\
    (forall c i, c < n -> i < length (group m c) -> nth_error buf (st c + i) = nth_error (group m c) i) /\
    (forall c, c < n -> st (S c) = st c + length (group m c)).
  Proof.
    assert (LG : forall c, length (group m c) = nr m c + ng m c) by (intros; unfold group; rewrite map_length, app_length; auto).
    destruct (place_ok m [] (repeat (Tag v0 0) (length m)) (repeat 0 n) (repeat 0 n)) as (buf & ri & gi & E & HL & HR & HG); auto.
    - split; [apply repeat_length|]. split; intros c [|i] e H1 H2; discriminate.
    - apply repeat_length. - apply repeat_length. - intros. rewrite nth_repeat. auto. - intros. rewrite nth_repeat. auto.
    - exists buf. unfold place. rewrite E. split; auto. split; auto. split; [|split].
      + intros c Hc. split.
        * rewrite (nth_error_nth' _ 0), starts_nth; auto. unfold starts. rewrite prefix_length. unfold counts. rewrite counts_length. auto.
        * rewrite (nth_error_nth' _ 0) by (unfold counts; rewrite counts_length; auto). unfold counts. rewrite counts_nth, in_split, LG by auto. auto.
      + intros c i Hc Hi. rewrite LG in Hi. unfold group. rewrite nth_error_map. destruct (Nat.lt_ge_cases i (nr m c)) as [Li|Li].
        * rewrite nth_error_app1 by auto. destruct (nth_error (filter (real_in c) m) i) as [e|] eqn:EE.
          -- simpl. apply HR; auto. -- apply nth_error_None in EE. unfold nr in Li. lia.
        * rewrite nth_error_app2 by auto. fold (nr m c). destruct (nth_error (filter (ghost_in c) m) (i - nr m c)) as [e|] eqn:EE.
          -- simpl. replace (st c + i) with (st c + nr m c + (i - nr m c)) by lia. apply HG; auto. -- apply nth_error_None in EE. fold (ng m c) in EE. lia.
      + intros c Hc. rewrite st_S, LG by auto. auto.
  Qed.
End Place.
