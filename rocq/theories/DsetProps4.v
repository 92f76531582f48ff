(** C41: what a thread may rely on while others still unite: everything that was united, or found to be the same, before. *)
From Verif Require Import DsetSpec DsetProofs DsetProps.

(** The pairs a log shows to be united. *)
Definition shown (e : op * result) : list (nat * nat) := match e with (OUnite a b, _) => [(a, b)] | (OSame a b, RBool true) => [(a, b)] | _ => [] end.
Definition seen (log : list (op * result)) : list (nat * nat) := flat_map shown log.
(** The pairs shown by the threads that have finished. *)
Definition finished (ps : list (prog (list (op * result)))) : list (nat * nat) := flat_map (fun p => match p with Ret log => seen log | _ => [] end) ps.

Lemma Forall2_len {A B} (R : A -> B -> Prop) l l' : Forall2 R l l' -> length l = length l'.
Proof. induction 1; simpl; auto. Qed.
Lemma app_same {A} (a1 a2 b1 b2 : list A) : length a1 = length b1 -> b1 ++ b2 = a1 ++ a2 -> a1 = b1 /\ a2 = b2.
Proof. revert b1. induction a1 as [|x a1 IH]; intros [|y b1] L E; simpl in *; try discriminate; auto. injection E as <- E. destruct (IH b1) as [-> ->]; auto. Qed.
Section Known.
Variables (n : nat) (pairs : list (nat * nat)).
Notation conn := (connected pairs).
Let cr := connected_refl pairs.
Let cs := connected_sym pairs.
Let ct := connected_trans pairs.
Definition known_in (m : mem) (known : list (nat * nat)) : Prop := forall a b, In (a, b) known -> a < n /\ b < n /\ joined m a b.
Lemma known_ev m m' known : known_in m known -> ev n m m' -> known_in m' known.
Proof. intros H E a b Hab. destruct (H a b Hab) as (A & B & C). split; auto. split; auto. eapply ev_joined; eauto. Qed.
Lemma known_joined m known a b : Inv n conn m -> known_in m known -> a < n -> connected known a b -> joined m a b.
Proof.
  intros HI HK Ha C. assert (G : a = b \/ (a < n /\ b < n /\ joined m a b)).
  { clear Ha. induction C as [a b H|a|a b C IH|a b c C1 IH1 C2 IH2]; auto.
    - destruct IH as [->|(H1 & H2 & H3)]; auto. right. split; auto. split; auto. apply joined_sym; auto.
    - destruct IH1 as [->|(H1 & H2 & H3)]; auto. destruct IH2 as [<-|(H4 & H5 & H6)]; auto. right. split; auto. split; auto. eapply joined_trans; eauto. }
  destruct G as [<-|(_ & _ & J)]; auto. apply (joined_refl n conn cr ct); auto.
Qed.
Definition session (known : list (nat * nat)) (log : list (op * result)) : Prop :=
  forall l1 a b x l2, log = l1 ++ (OSame a b, RBool x) :: l2 -> (connected (known ++ seen l1) a b -> x = true) /\ (x = true -> conn a b).
Lemma session_safe ops : Forall (op_ok n) ops -> (forall x, In x (flat_map op_pairs ops) -> In x pairs) -> forall known N m, Inv n conn m -> known_in m known ->
  safe n conn N (fun log _ => map fst log = ops /\ session known log) m (ops_prog ops).
Proof.
  induction ops as [|o t IH]; intros HO HP known N m HI HK.
  - destruct N; [exact I|]. intros m' HI' E. split; auto. intros l1 a b x l2 Q. destruct l1; discriminate.
  - inversion HO as [|? ? Ho Ht]; subst.
    assert (TAIL : forall r m1 N', Inv n conn m1 -> known_in m1 (known ++ shown (o, r)) ->
      (forall a b x, (o, r) = (OSame a b, RBool x) -> (connected known a b -> x = true) /\ (x = true -> conn a b)) ->
      safe n conn N' (fun log _ => map fst log = o :: t /\ session known log) m1 (bind (ops_prog t) (fun l => Ret ((o, r) :: l)))).
    { intros r m1 N' HI1 HK1 H1. apply safe_bind with (P := fun log _ => map fst log = t /\ session (known ++ shown (o, r)) log); auto.
      - apply IH; auto. intros x Hx. apply HP. simpl. apply in_or_app. auto.
      - intros l m2 N2 _ HI2 E2 [L1 L2]. destruct N2; [exact I|]. intros m3 _ _. split; [simpl; congruence|].
        intros l1 a b x l2 Q. destruct l1 as [|e l1]; cbn [app] in Q.
        + injection Q as Q1 Q2 _. cbn [seen flat_map]. rewrite app_nil_r. apply H1. congruence.
        + injection Q as <- Q. destruct (L2 l1 a b x l2 Q) as [S1 S2]. split; auto. intros C. apply S1. cbn [seen flat_map] in C. rewrite <- app_assoc. exact C. }
    assert (KA : forall m1 l, ev n m m1 -> known_in m1 l -> known_in m1 (known ++ l)).
    { intros m1 l E Hl a b Hab. apply in_app_or in Hab as [Hab|Hab]; auto. apply (known_ev m m1 known HK E a b Hab). }
    destruct o as [a|a b|a b]; cbn [ops_prog].
    + apply call_find; auto. intros r m1 N1 _ HI1 E1 _. apply TAIL; auto; [apply KA; auto; intros ? ? []|]. intros ? ? ? Q. discriminate.
    + destruct Ho as [Ha Hb]. match goal with |- safe _ _ _ _ _ (CallSame _ _ ?f) => change (CallSame a b f) with (bind (CallSame a b Ret) f) end.
      apply safe_bind with (P := tested n conn m a b); auto; [apply safe_same; auto; apply ev_refl|]. intros x m1 N1 _ HI1 E1 T. apply TAIL; auto.
      * apply KA; auto. destruct x; simpl in T |- *; [|intros ? ? []]. intros p q [Q|[]]. injection Q as <- <-. split; auto.
      * intros a' b' x' Q. injection Q as <- <- <-. destruct x; simpl in T; split; auto; try discriminate.
        -- intros _. apply (joined_conn n conn cr cs ct m1); auto.
        -- intros C. exfalso. destruct T as (mt & A1 & A2 & A3 & A4). apply A4. apply (ev_joined n m); auto. apply (known_joined m known); auto.
    + destruct Ho as [Ha Hb]. match goal with |- safe _ _ _ _ _ (CallUnite _ _ ?f) => change (CallUnite a b f) with (bind (CallUnite a b Ret) f) end.
      apply safe_bind with (P := fun _ m' => joined m' a b); auto; [apply safe_unite; auto; apply connected_in, HP; simpl; auto|]. intros x m1 N1 _ HI1 E1 T. apply TAIL; auto.
      * apply KA; auto. intros p q [Q|[]]. injection Q as <- <-. auto.
      * intros ? ? ? Q. discriminate.
Qed.
End Known.

(** Threads [more] start when [threads] have come to (m, ps), and run while those go on.  An answer of same must be positive when
    its elements are connected by pairs shown by threads finished by then, or shown earlier by the same thread; and a positive
    answer is always right. *)
Theorem C41_session : forall n threads m ps more m' ps' logs, Forall (Forall (op_ok n)) threads -> Forall (Forall (op_ok n)) more ->
  star pstep (dset_init, map ops_prog threads) (m, ps) -> star pstep (m, ps ++ map ops_prog more) (m', ps' ++ map Ret logs) -> length ps' = length ps ->
  Forall2 (fun ops log => map fst log = ops /\ forall l1 a b x l2, log = l1 ++ (OSame a b, RBool x) :: l2 ->
     (connected (finished ps ++ seen l1) a b -> x = true) /\ (x = true -> connected (united threads ++ united more) a b)) more logs.
Proof.
  intros n threads m ps more m' ps' logs HO HM ST ST2 HL. set (pairs := united threads ++ united more). set (Q0 := log_good n pairs dset_init).
  destruct (star_safe n (connected pairs) (map Q0 threads) _ _ ST) as [[HI HF] _].
  { apply threads_start; auto; [apply init_inv|]. intros x Hx. unfold pairs. apply in_or_app. auto. }
  cbn [fst snd] in HI, HF.
  assert (LT : length threads = length ps) by (pose proof (Forall2_len _ _ _ HF) as X; rewrite map_length in X; auto).
  assert (KN : known_in n m (finished ps)).
  { intros a b Hab. unfold finished in Hab. apply in_flat_map in Hab as (p & Hp & Hab). destruct p as [log| | | | |]; try destruct Hab.
    assert (X : exists t, In t threads /\ log_good n pairs dset_init t log m).
    { unfold Q0 in HF. clear -HF Hp HI. clearbody pairs. revert threads HF. induction ps as [|q ps IH]; intros threads HF; [destruct Hp|]. destruct threads as [|t ts]; simpl in HF; inversion HF; subst. destruct Hp as [->|Hp].
      - exists t. split; [left; auto|]. apply (H2 1 m HI (ev_refl n m)).
      - destruct (IH Hp ts H4) as (t' & T1 & T2). exists t'. split; [right; auto|auto]. }
    destruct X as (t & Ht & L1 & L2). apply in_flat_map in Hab as (e & He & Hab). rewrite Forall_forall in L2, HO. specialize (L2 e He). assert (Hok : op_ok n (fst e)) by (specialize (HO t Ht); rewrite Forall_forall in HO; apply HO; rewrite <- L1; apply in_map; auto).
    destruct e as [[c|c d|c d] [r|x|]]; simpl in Hab, L2, Hok; try contradiction.
    - destruct x; [|destruct Hab]. destruct Hab as [Q|[]]. injection Q as <- <-. simpl in L2. tauto.
    - destruct Hab as [Q|[]]. injection Q as <- <-. tauto. }
  set (Q1 := fun ops (log : list (op * result)) (_ : mem) => map fst log = ops /\ session pairs (finished ps) log).
  assert (TS2 : threads_safe n (connected pairs) (map Q0 threads ++ map Q1 more) m (ps ++ map ops_prog more)).
  { split; auto. apply Forall2_app; auto. assert (HP : forall t x, In t more -> In x (flat_map op_pairs t) -> In x pairs).
    { intros t x Ht Hx. unfold pairs. apply in_or_app. right. unfold united. apply in_flat_map. exists t. auto. }
    clear -HM HI KN HP. clearbody pairs. induction more as [|t ts IH]; simpl; constructor.
    - intros N. inversion HM; subst. apply session_safe; auto. intros x Hx. apply (HP t); auto. left. auto.
    - inversion HM; subst. apply IH; auto. intros. eapply HP; [right|]; eauto. }
  destruct (star_safe n (connected pairs) _ _ _ ST2 TS2) as [[HI' HF'] _]. cbn [fst snd] in HI', HF'.
  apply Forall2_app_inv_l in HF' as (a1 & a2 & F1 & F2 & E).
  assert (a1 = ps' /\ a2 = map Ret logs) as [-> ->].
  { pose proof (Forall2_len _ _ _ F1) as X. rewrite map_length in X. apply app_same; auto. lia. }
  unfold Q1 in F2. change (united threads ++ united more) with pairs. clear -F2 HI'. clearbody pairs. revert logs F2. induction more as [|t ts IH]; intros [|g logs] F2; cbn [map] in F2; inversion F2 as [|? ? ? ? HA HB]; constructor.
  - destruct (HA 1 m' HI' (ev_refl n m')) as [A B]. split; auto.
  - apply IH. exact HB.
Qed.
(** Thread 0 has united 0 and 1 and is done while thread 1 has not started; two more threads then ask while it unites 2 and 3. *)
Definition ex_first : list (list op) := [[OUnite 0 1]; [OUnite 2 3]].
Definition ex_more : list (list op) := [[OSame 1 0; OUnite 1 2; OSame 0 2]; [OSame 0 3]].
Example C41_session_ex : exists m ps m' ps' logs, Forall (Forall (op_ok 4)) ex_first /\ Forall (Forall (op_ok 4)) ex_more /\
  star pstep (dset_init, map ops_prog ex_first) (m, ps) /\ star pstep (m, ps ++ map ops_prog ex_more) (m', ps' ++ map Ret logs) /\ length ps' = length ps /\
  finished ps = [(0, 1)] /\ logs = [[(OSame 1 0, RBool true); (OUnite 1 2, RDone); (OSame 0 2, RBool true)]; [(OSame 0 3, RBool false)]] /\ finished ps' = [(0, 1); (2, 3)].
Proof.
  pose proof (sched_star (repeat 0 40) dset_init (map ops_prog ex_first)) as ST. set (s1 := sched (repeat 0 40) dset_init (map ops_prog ex_first)) in ST. rewrite (surjective_pairing s1) in ST.
  pose proof (sched_star (repeat 3 40 ++ repeat 1 8 ++ repeat 2 80 ++ repeat 1 40) (fst s1) (snd s1 ++ map ops_prog ex_more)) as ST2. set (s2 := sched _ (fst s1) (snd s1 ++ map ops_prog ex_more)) in ST2. rewrite (surjective_pairing s2) in ST2.
  exists (fst s1), (snd s1), (fst s2), (firstn 2 (snd s2)), [[(OSame 1 0, RBool true); (OUnite 1 2, RDone); (OSame 0 2, RBool true)]; [(OSame 0 3, RBool false)]].
  split; [repeat constructor|]. split; [repeat constructor|]. split; [exact ST|]. split; [|split; [|split; [|split]]]; try (vm_compute; reflexivity).
  replace (firstn 2 (snd s2) ++ _) with (snd s2); [exact ST2|]. vm_compute. reflexivity.
Qed.
Print Assumptions C41_session.
