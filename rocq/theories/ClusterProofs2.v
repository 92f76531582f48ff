(** Cluster.compute always has a result: the passes after the merge end, and the comparator can be sorted by. *)
From Verif Require Import DsetSpec DsetProofs DsetProps DsetProofs2 DsetProps2 DsetProofs3 DsetProps3 ClusterModel ClusterProofs.

Lemma one_ends {A} n (conn : nat -> nat -> Prop) m (p : prog A) : Inv n conn m -> (exists l, W n (m, l)) -> (forall N, safe n conn N (fun _ _ => True) m p) ->
  (forall N g, Inv n conn (fst g) -> W n g -> rsafe n conn N (fun _ => True) g p) -> (forall N, tsafe n conn N (fun _ => True) m p) ->
  exists m' a, run1 m p m' a /\ Inv n conn m' /\ exists l, W n (m', l).
Proof.
  intros HI (l & HW) HS HR HT. set (Qs := [fun (_ : A) (_ : mem) => True]).
  assert (TS : threads_safe n conn Qs m [p]) by (split; auto; constructor; auto).
  assert (RT : exists l, rthreads n conn (m, l) [p]) by (exists l; split; auto; constructor; auto; intros N; apply HR; auto).
  assert (AC : Acc (fun s' s => pstep s s') (m, [p])) by (apply (J_acc n conn Qs _ _ eq_refl); split; auto; split; auto; cbn [snd]; constructor; auto).
  assert (EX : forall s, Acc (fun s' s => pstep s s') s -> exists m ps, star pstep s (m, ps) /\ exists rs : list A, ps = map Ret rs).
  { induction 1 as [[m0 ps] _ IH]. destruct (all_done m0 ps) as [[s' S']|[rs R]]; [|exists m0, ps; split; [constructor|eauto]]. destruct (IH s' S') as (m1 & ps1 & S1 & R1). exists m1, ps1. split; auto. eapply star_step; eauto. }
  destruct (EX _ AC) as (m' & ps & ST & rs & ->). destruct (star_safe n conn Qs _ _ ST TS) as [[HI' F] _]. apply two_length in F. cbn [snd] in F. rewrite map_length in F. destruct rs as [|a [|]]; try discriminate.
  exists m', a. split; auto. split; auto. destruct (star_rank n conn Qs _ _ ST TS RT) as (l' & HW' & _). exists l'. auto.
Qed.
Lemma merge_ranks n threads m : (forall p q, In (p, q) (concat threads) -> p < n /\ q < n) -> merge_run threads m -> exists l, W n (m, l).
Proof.
  intros HB ST. set (pairs := concat threads) in *. set (conn := connected pairs).
  set (Qs := map (fun l (_ : unit) m' => forall p q, In (p, q) l -> joined m' p q) threads).
  assert (HP : forall l x, In l threads -> In x l -> In x pairs) by (intros l x Hl Hx; unfold pairs; apply in_concat; eauto).
  assert (TS : threads_safe n conn Qs dset_init (map bonds_prog threads)).
  { split; [apply init_inv|]. unfold Qs, conn. clear ST Qs conn. clearbody pairs. induction threads as [|l ts IH]; simpl; constructor.
    + intros N. apply bonds_safe; [|apply init_inv]. intros p q H. assert (In (p, q) pairs) by (apply (HP l); auto; left; auto). destruct (HB p q); auto.
    + apply IH. intros. eapply HP; [right|]; eauto. }
  destruct (star_rank n conn Qs _ _ ST TS) as (l & HW & _); [|exists l; auto].
  exists (fun _ => 0). split; [apply W_init|]. cbn [fst snd]. apply Forall_forall. intros p Hp. apply in_map_iff in Hp as (t & <- & Ht). intros N.
  apply rbonds; [apply connected_refl|apply connected_sym|apply connected_trans| |apply init_inv|apply W_init]. intros. apply HB. eapply HP; eauto.
Qed.
Section Passes.
Variables (n : nat) (pairs : list (nat * nat)).
Notation conn := (connected pairs).
Let CR := connected_refl pairs.
Let CS := connected_sym pairs.
Let CT := connected_trans pairs.
Lemma label_three todo : (forall i, In i todo -> i < n) ->
  (forall st N m, Inv n conn m -> safe n conn N (fun _ _ => True) m (label_pass n todo st)) /\
  (forall st N g, Inv n conn (fst g) -> W n g -> rsafe n conn N (fun _ => True) g (label_pass n todo st)) /\
  (forall st N m, Inv n conn m -> tsafe n conn N (fun _ => True) m (label_pass n todo st)).
Proof.
  induction todo as [|i t IH]; intros HT; cbn [label_pass].
  - split; [|split]; intros; [|apply rsafe_ret; auto|apply tsafe_ret; auto]. destruct N; [exact I|]. intros m' _ _. auto.
  - destruct IH as (I1 & I2 & I3); [intros; apply HT; right; auto|]. assert (Hi : i < n) by (apply HT; left; auto). split; [|split]; intros.
    + apply call_find; auto.
    + apply rcall_find; auto.
    + apply tcall_find; auto.
Qed.
Lemma assign_three keys st reindex todo : (forall i, In i todo -> i < n) ->
  (forall r N m, Inv n conn m -> safe n conn N (fun _ _ => True) m (assign_pass keys st reindex todo r)) /\
  (forall r N g, Inv n conn (fst g) -> W n g -> rsafe n conn N (fun _ => True) g (assign_pass keys st reindex todo r)) /\
  (forall r N m, Inv n conn m -> tsafe n conn N (fun _ => True) m (assign_pass keys st reindex todo r)).
Proof.
  induction todo as [|i t IH]; intros HT; cbn [assign_pass].
  - split; [|split]; intros; [|apply rsafe_ret; auto|apply tsafe_ret; auto]. destruct N; [exact I|]. intros m' _ _. auto.
  - destruct IH as (I1 & I2 & I3); [intros; apply HT; right; auto|]. assert (Hi : i < n) by (apply HT; left; auto). split; [|split]; intros.
    + apply call_find; auto.
    + apply rcall_find; auto.
    + apply tcall_find; auto.
Qed.
End Passes.

(** Sorting by the comparator. *)
Lemma before_trans st a b c : before st b a = false -> before st c b = false -> before st c a = false.
Proof.
  unfold before. destruct (Nat.eqb_spec (lb_count st b) (lb_count st a)), (Nat.eqb_spec (lb_count st c) (lb_count st b)), (Nat.eqb_spec (lb_count st c) (lb_count st a)); cbn [negb]; rewrite ?Nat.ltb_ge; try lia.
Qed.
Lemma before_asym st a b : before st a b = true -> before st b a = false.
Proof. unfold before. destruct (Nat.eqb_spec (lb_count st a) (lb_count st b)), (Nat.eqb_spec (lb_count st b) (lb_count st a)); cbn [negb]; rewrite ?Nat.ltb_ge, ?Nat.ltb_lt; lia. Qed.
Fixpoint put (st : labels) (x : nat) (l : list nat) : list nat := match l with [] => [x] | y :: t => if before st y x then y :: put st x t else x :: l end.
Definition ordered (st : labels) (l : list nat) : Prop := forall a b, a < b < length l -> before st (nth b l 0) (nth a l 0) = false.
Lemma put_perm st x l : Permutation (x :: l) (put st x l).
Proof. induction l as [|y t IH]; simpl; auto. destruct (before st y x); auto. eapply Permutation_trans; [apply perm_swap|]. auto. Qed.
Lemma ordered_cons st x l : ordered st (x :: l) <-> (forall y, In y l -> before st y x = false) /\ ordered st l.
Proof.
  split.
  - intros H. split.
    + intros y Hy. destruct (In_nth _ _ 0 Hy) as (k & Hk & <-). apply (H 0 (S k)). simpl. lia.
    + intros a b Hab. apply (H (S a) (S b)). simpl. lia.
  - intros [H1 H2] [|a] [|b] Hab; simpl in *; try lia; [|apply H2; lia]. apply H1. apply nth_In. lia.
Qed.
Lemma before_irrefl st x : before st x x = false.
Proof. unfold before. rewrite Nat.eqb_refl. simpl. apply Nat.ltb_ge. auto. Qed.
Lemma put_ordered st x l : ordered st l -> ordered st (put st x l).
Proof.
  induction l as [|y t IH]; intros H; cbn [put]; [apply ordered_cons; split; [intros ? []|intros a b Hab; simpl in Hab; lia]|]. pose proof H as H0. apply ordered_cons in H as [H1 H2]. destruct (before st y x) eqn:E.
  - apply ordered_cons. split; auto. intros z Hz. apply (Permutation_in z (Permutation_sym (put_perm st x t))) in Hz as [<-|Hz]; auto. apply before_asym. auto.
  - apply ordered_cons. split; auto. intros z [<-|Hz]; auto. eapply before_trans; [exact E|]. auto.
Qed.
Lemma sort_exists st : exists idx, sorted_indexes st idx.
Proof.
  assert (G : forall l, exists l', Permutation l l' /\ ordered st l').
  { induction l as [|x l (l' & P & O)]; [exists []; split; auto; intros a b Hab; simpl in Hab; lia|]. exists (put st x l'). split; [eapply Permutation_trans; [apply perm_skip; exact P|apply put_perm]|apply put_ordered; auto]. }
  destruct (G (seq 0 (lb_num st))) as (l' & P & O). exists l'. split; auto.
Qed.
