(** Proofs about the labelling passes of Cluster::compute. *)
From Verif Require Import DsetSpec DsetProofs DsetProps ClusterModel ClusterSpec.

Lemma vset_same v i x : vset v i x i = x. Proof. unfold vset. rewrite Nat.eqb_refl. auto. Qed.
Lemma vset_other v i x j : j <> i -> vset v i x j = v j. Proof. intros H. unfold vset. rewrite (proj2 (Nat.eqb_neq j i)); auto. Qed.
Lemma finite_choice n (P : nat -> nat -> Prop) : (forall i, i < n -> exists r, P i r) -> exists f, forall i, i < n -> P i (f i).
Proof.
  induction n as [|n IH]; intros H; [exists (fun _ => 0); lia|]. destruct IH as [f Hf]; [intros; apply H; lia|]. destruct (H n) as [r Hr]; [lia|].
  exists (vset f n r). intros i Hi. destruct (Nat.eq_dec i n) as [-> |Hne]; [rewrite vset_same; auto|rewrite vset_other by auto; apply Hf; lia].
Qed.

(** The merge phase. *)
Lemma bonds_safe n pairs l : (forall p q, In (p, q) l -> p < n /\ q < n /\ In (p, q) pairs) -> forall N m, Inv n (connected pairs) m ->
  safe n (connected pairs) N (fun _ m' => forall p q, In (p, q) l -> joined m' p q) m (bonds_prog l).
Proof.
  pose proof (connected_refl pairs) as CR. pose proof (connected_sym pairs) as CS. pose proof (connected_trans pairs) as CT.
  induction l as [|[p q] t IH]; intros HL N m HI.
  - destruct N; [exact I|]. intros m' HI' E a b [].
  - destruct (HL p q (or_introl eq_refl)) as (Hp & Hq & Hin). cbn [bonds_prog].
    assert (TAIL : forall m1 N', Inv n (connected pairs) m1 -> joined m1 p q -> safe n (connected pairs) N' (fun _ m' => forall a b, In (a, b) ((p, q) :: t) -> joined m' a b) m1 (bonds_prog t)).
    { intros m1 N' HI1 J. apply safe_weaken with (P := fun _ m' => forall a b, In (a, b) t -> joined m' a b); auto.
      - apply IH; auto. intros a b H. apply HL. right. auto.
      - intros _ m2 HI2 E2 H a b [E|H']; auto. injection E as <- <-. eapply ev_joined; eauto.
      - intros _ m2 m3 H HI3 E3 a b Hab. destruct (HL a b Hab) as (? & ? & _). eapply ev_joined; eauto. }
    match goal with |- safe _ _ _ _ _ (CallSame _ _ ?f) => change (CallSame p q f) with (bind (CallSame p q Ret) f) end.
    apply safe_bind with (P := tested n (connected pairs) m p q); auto; [apply safe_same; auto; apply ev_refl|].
    intros [|] m1 N1 _ HI1 E1 T; simpl in T; [apply TAIL; auto|].
    match goal with |- safe _ _ _ _ _ (CallUnite _ _ ?f) => change (CallUnite p q f) with (bind (CallUnite p q Ret) f) end.
    apply safe_bind with (P := fun _ m' => joined m' p q); auto. apply safe_unite; auto. apply connected_in. auto.
Qed.
Lemma merge_result n threads m : (forall p q, In (p, q) (concat threads) -> p < n /\ q < n) -> merge_run threads m ->
  Inv n (connected (concat threads)) m /\ forall a b, a < n -> b < n -> joined m a b <-> connected (concat threads) a b.
Proof.
  intros HB MR. set (pairs := concat threads) in *. set (Qs := map (fun l (_ : unit) m' => forall p q, In (p, q) l -> joined m' p q) threads).
  destruct (star_safe n (connected pairs) Qs _ _ MR) as [[HI HF] _].
  - cbn [fst snd]. split; [apply init_inv|]. assert (HP : forall l x, In l threads -> In x l -> In x pairs) by (intros l x Hl Hx; unfold pairs; apply in_concat; eauto).
    unfold Qs. clear MR Qs. clearbody pairs. induction threads as [|l ts IH]; simpl; constructor.
    + intros N. apply bonds_safe; [|apply init_inv]. intros p q H. assert (In (p, q) pairs) by (apply (HP l); auto; left; auto). destruct (HB p q); auto.
    + apply IH. intros. eapply HP; [right|]; eauto.
  - cbn [fst snd] in *. split; auto. apply closure; auto. intros a b Hab. destruct (HB a b Hab). split; auto. split; auto.
    unfold pairs in Hab. apply in_concat in Hab as (l & Hl & Hx). clear -HF Hl Hx HI. unfold Qs in HF. clear Qs. clearbody pairs. induction threads as [|l' ts IH]; [destruct Hl|]. simpl in HF. inversion HF; subst.
    destruct Hl as [-> |Hl]; [|apply IH; auto]. apply (H2 1 m HI (ev_refl n m) a b). auto.
Qed.

(** The sequential passes: find returns the representatives [rt] in force at the end of the merge phase. *)
Section Passes.
Variables (n : nat) (pairs : list (nat * nat)) (m1 : mem) (rt : nat -> nat).
Hypothesis HI1 : Inv n (connected pairs) m1.
Hypothesis CL : forall a b, a < n -> b < n -> joined m1 a b <-> connected pairs a b.
Hypothesis RT : forall i, i < n -> reach m1 i (rt i).
Lemma found_rt m i r m' : i < n -> ev n m1 m -> found n (connected pairs) m i r m' -> r = rt i.
Proof.
  intros Hi E (Hr & mr & A1 & A2 & A3 & A4 & A5).
  assert (C : connected pairs i r) by (apply (joined_conn n (connected pairs) (connected_refl _) (connected_sym _) (connected_trans _) mr); auto).
  apply CL in C; auto. destruct C as (z & C1 & C2). assert (Rr : par m1 r = r) by (apply (ev_root n m1 mr); auto; eapply ev_trans; eauto).
  rewrite (reach_det _ _ _ (reach_root _ _ Rr) _ C2). apply (reach_det m1 i); auto.
Qed.
Lemma label_safe todo : (forall i, In i todo -> i < n) -> forall st N m, Inv n (connected pairs) m -> ev n m1 m ->
  safe n (connected pairs) N (fun st' _ => st' = fold_left (fun st i => label_step n (rt i) i st) todo st) m (label_pass n todo st).
Proof.
  induction todo as [|i t IH]; intros HT st N m HI E; cbn [label_pass fold_left].
  - destruct N; [exact I|]. intros m' _ _. auto.
  - apply call_find; auto using connected_refl, connected_sym; try (intros; eapply connected_trans; eauto); [apply HT; left; auto|].
    intros r m' N' _ HI' E' F. rewrite (found_rt m i r m'); auto; [|apply HT; left; auto]. apply IH; auto; [intros; apply HT; right; auto|eapply ev_trans; eauto].
Qed.
Lemma assign_safe keys st reindex todo : (forall i, In i todo -> i < n) -> forall r N m, Inv n (connected pairs) m -> ev n m1 m ->
  safe n (connected pairs) N (fun r' _ => r' = fold_left (fun r i => assign_step keys st reindex (rt i) i r) todo r) m (assign_pass keys st reindex todo r).
Proof.
  induction todo as [|i t IH]; intros HT r N m HI E; cbn [assign_pass fold_left].
  - destruct N; [exact I|]. intros m' _ _. auto.
  - apply call_find; auto using connected_refl, connected_sym; try (intros; eapply connected_trans; eauto); [apply HT; left; auto|].
    intros s m' N' _ HI' E' F. rewrite (found_rt m i s m'); auto; [|apply HT; left; auto]. apply IH; auto; [intros; apply HT; right; auto|eapply ev_trans; eauto].
Qed.
Lemma run1_safe {A} m (p : prog A) (Q : A -> mem -> Prop) m' a : Inv n (connected pairs) m -> (forall N, safe n (connected pairs) N Q m p) -> run1 m p m' a -> Inv n (connected pairs) m' /\ ev n m m' /\ Q a m'.
Proof.
  intros HI HS R. destruct (star_safe n (connected pairs) [Q] _ _ R) as [[HI' HF] E]; [cbn [fst snd]; split; auto|]. cbn [fst snd] in *. split; auto. split; auto. inversion HF; subst. apply (H2 1 m' HI' (ev_refl n m')).
Qed.
End Passes.

(** The labelling of the points in the order of their indices. *)
Section Labels.
Variables (n : nat) (rt : nat -> nat).
Hypothesis RTn : forall i, i < n -> rt i < n.
Definition labelled (k : nat) : labels := fold_left (fun st i => label_step n (rt i) i st) (seq 0 k) (labels_init n).
Lemma seq_snoc k : seq 0 (S k) = seq 0 k ++ [k]. Proof. rewrite List.seq_S. auto. Qed.
Lemma labelled_S k : labelled (S k) = label_step n (rt k) k (labelled k).
Proof. unfold labelled. rewrite seq_snoc, fold_left_app. auto. Qed.
Definition cnt (f : nat -> nat) (k c : nat) : nat := length (filter (fun i => Nat.eqb (f i) c) (seq 0 k)).
Lemma cnt_S f k c : cnt f (S k) c = cnt f k c + if Nat.eqb (f k) c then 1 else 0.
Proof. unfold cnt. rewrite seq_snoc, filter_app, app_length. cbn [filter]. destruct (Nat.eqb (f k) c); auto. Qed.
Lemma cnt_ext f g k c : (forall i, i < k -> f i = g i) -> cnt f k c = cnt g k c.
Proof. intros H. unfold cnt. f_equal. apply filter_ext_in. intros i Hi. apply in_seq in Hi. rewrite H; auto. lia. Qed.
Record lab_inv (k : nat) (st : labels) : Prop := {
  li_num : lb_num st <= k;
  li_lt : forall i, i < k -> lb_label st (rt i) < lb_num st;
  li_new : forall s, (forall i, i < k -> rt i <> s) -> lb_label st s = n;
  li_inj : forall i j, i < k -> j < k -> lb_label st (rt i) = lb_label st (rt j) -> rt i = rt j;
  li_min : forall c, c < lb_num st -> lb_min st c < k /\ lb_label st (rt (lb_min st c)) = c /\ forall j, j < k -> lb_label st (rt j) = c -> lb_min st c <= j;
  li_count : forall c, lb_count st c = cnt (fun i => lb_label st (rt i)) k c }.
Lemma seen_dec k s : (exists i, i < k /\ rt i = s) \/ forall i, i < k -> rt i <> s.
Proof.
  induction k as [|k [(i & Hi & E)|IH]]; [right; lia|left; exists i; auto|]. destruct (Nat.eq_dec (rt k) s) as [E|NE]; [left; exists k; auto|]. right. intros i Hi. destruct (Nat.eq_dec i k) as [-> |]; auto. apply IH. lia.
Qed.
Lemma labelled_inv k : k <= n -> lab_inv k (labelled k).
Proof.
  induction k as [|k IH]; intros Hk.
  - unfold labelled. simpl. constructor; simpl; auto; try lia.
  - specialize (IH ltac:(lia)). rewrite labelled_S. destruct (labelled k) as [lab count mn num]. destruct IH as [I1 I2 I3 I4 I5 I6]. cbn [lb_label lb_count lb_min lb_num] in *.
    unfold label_step. cbn [lb_label lb_count lb_min lb_num]. destruct (seen_dec k (rt k)) as [(i & Hi & E)|NEW].
    + assert (L : lab (rt k) < num) by (rewrite <- E; auto). rewrite (proj2 (Nat.eqb_neq (lab (rt k)) n)) by lia. cbn [lb_label lb_count lb_min lb_num].
      assert (SPLIT : forall j, j < S k -> j < k \/ j = k) by lia.
      constructor; cbn [lb_label lb_count lb_min lb_num].
      * lia.
      * intros j Hj. destruct (SPLIT j Hj) as [?| -> ]; auto.
      * intros s Hs. apply I3. intros j Hj. apply Hs. lia.
      * intros a b Ha Hb HE. destruct (SPLIT a Ha) as [Ha'| -> ], (SPLIT b Hb) as [Hb'| -> ]; auto; rewrite <- E in *; auto.
      * intros c Hc. destruct (I5 c Hc) as (M1 & M2 & M3). split; [lia|]. split; auto. intros j Hj Ej. destruct (SPLIT j Hj) as [?| -> ]; auto. lia.
      * intros c. rewrite cnt_S. rewrite <- I6. unfold vset. rewrite (Nat.eqb_sym (lab (rt k)) c). destruct (Nat.eqb_spec c (lab (rt k))) as [-> |]; lia.
    + rewrite (I3 _ NEW), Nat.eqb_refl. cbn [lb_label lb_count lb_min lb_num]. rewrite vset_same.
      assert (OLD : forall j, j < k -> vset lab (rt k) num (rt j) = lab (rt j)) by (intros j Hj; apply vset_other; apply NEW; auto).
      assert (SPLIT : forall j, j < S k -> j < k \/ j = k) by lia.
      constructor; cbn [lb_label lb_count lb_min lb_num].
      * lia.
      * intros j Hj. destruct (SPLIT j Hj) as [Hj'| -> ]; [rewrite OLD by auto; specialize (I2 j Hj'); lia|rewrite vset_same; lia].
      * intros s Hs. rewrite vset_other; [apply I3; intros j Hj; apply Hs; lia|]. intros ->. apply (Hs k); auto; lia.
      * intros a b Ha Hb. destruct (SPLIT a Ha) as [Ha'| -> ], (SPLIT b Hb) as [Hb'| -> ]; auto; rewrite ?vset_same, ?OLD by auto; intros HE; auto.
        -- specialize (I2 a Ha'). lia.
        -- specialize (I2 b Hb'). lia.
      * intros c Hc. destruct (Nat.eq_dec c num) as [-> |Hne].
        -- rewrite vset_same, vset_same. split; [lia|]. split; auto. intros j Hj Ej. destruct (SPLIT j Hj) as [Hj'| -> ]; auto. rewrite OLD in Ej by auto. specialize (I2 j Hj'). lia.
        -- rewrite (vset_other mn) by auto. destruct (I5 c ltac:(lia)) as (M1 & M2 & M3). split; [lia|]. rewrite OLD by auto. split; auto.
           intros j Hj Ej. destruct (SPLIT j Hj) as [Hj'| -> ]; [rewrite OLD in Ej by auto; auto|lia].
      * intros c. rewrite cnt_S, vset_same, (cnt_ext _ (fun i => lab (rt i)) k c OLD), <- I6. unfold vset at 1. rewrite (Nat.eqb_sym num c). destruct (Nat.eqb_spec c num) as [-> |]; lia.
Qed.
End Labels.

(** The inverse of the sorting permutation. *)
Lemma invert_spec idx : NoDup idx -> forall a, a < length idx -> invert idx (nth a idx 0) = a.
Proof.
  intros ND. unfold invert. assert (G : forall k, k <= length idx -> forall a, a < k -> fold_left (fun v i => vset v (nth i idx 0) i) (seq 0 k) (fun _ => 0) (nth a idx 0) = a).
  { induction k as [|k IH]; intros Hk a Ha; [lia|]. rewrite seq_snoc, fold_left_app. cbn [fold_left]. destruct (Nat.eq_dec a k) as [-> |Hne]; [apply vset_same|]. rewrite vset_other; [apply IH; lia|].
    intros E. apply Hne. apply (proj1 (NoDup_nth idx 0) ND); auto; lia. }
  intros a Ha. apply (G (length idx)); auto.
Qed.
