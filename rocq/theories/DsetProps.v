(** C41: the lock-free union-find computes the partition generated by the united pairs, for every interleaving. *)
From Coq Require Import FunctionalExtensionality.
From Verif Require Import DsetSpec DsetProofs.

Lemma connected_refl l a : connected l a a. Proof. apply rst_refl. Qed.
Lemma connected_sym l a b : connected l a b -> connected l b a. Proof. apply rst_sym. Qed.
Lemma connected_trans l a b c : connected l a b -> connected l b c -> connected l a c. Proof. apply rst_trans. Qed.
Lemma connected_in l a b : In (a, b) l -> connected l a b. Proof. intros. apply rst_step. auto. Qed.
Lemma connected_incl l l' : (forall x, In x l -> In x l') -> forall a b, connected l a b -> connected l' a b.
Proof. intros H a b C. induction C; [apply connected_in; auto|apply connected_refl|apply connected_sym; auto|eapply connected_trans; eauto]. Qed.
Lemma connected_perm l l' : Permutation l l' -> forall a b, connected l a b <-> connected l' a b.
Proof. intros P a b. split; apply connected_incl; intros x; apply Permutation_in; auto. apply Permutation_sym; auto. Qed.

Section Runs.
Variables (n : nat) (pairs : list (nat * nat)).
Notation conn := (connected pairs).
Let cr := connected_refl pairs.
Let cs := connected_sym pairs.
Let ct := connected_trans pairs.
Lemma init_inv : Inv n conn dset_init.
Proof. intros i Hi. unfold par. simpl. split; auto. split; auto. congruence. Qed.
(** The result of one operation started in [m0]. *)
Definition good (m0 : mem) (e : op * result) (m : mem) : Prop :=
  match e with
  | (OFind a, RNode r) => found n conn m0 a r m
  | (OSame a b, RBool x) => tested n conn m0 a b x m
  | (OUnite a b, RDone) => joined m a b
  | _ => False
  end.
Lemma good_ev m0 e m m' o : op_ok n o -> fst e = o -> good m0 e m -> ev n m m' -> good m0 e m'.
Proof.
  intros HO <- HG E. destruct e as [[a|a b|a b] [r|x|]]; simpl in *; try contradiction.
  - eapply found_ev; eauto.
  - destruct x; simpl in *; [eapply ev_joined; [exact E| | |]; tauto|]. destruct HG as (mt & A1 & A2 & A3 & A4). exists mt. split; auto. split; auto. split; auto. eapply ev_trans; eauto.
  - eapply ev_joined; [exact E| | |]; tauto.
Qed.
Lemma good_start m0 m1 e m : ev n m0 m1 -> good m1 e m -> good m0 e m.
Proof.
  intros E. destruct e as [[a|a b|a b] [r|x|]]; simpl; auto.
  - intros (H & mr & A1 & A2 & A3 & A4). split; auto. exists mr. split; auto. split; auto. eapply ev_trans; eauto.
  - destruct x; auto. intros (mt & A1 & A2 & A3). exists mt. split; auto. split; auto. eapply ev_trans; eauto.
Qed.
Definition log_good (m0 : mem) (ops : list op) (log : list (op * result)) (m : mem) : Prop := map fst log = ops /\ Forall (fun e => good m0 e m) log.
Lemma ops_safe ops : Forall (op_ok n) ops -> (forall x, In x (flat_map op_pairs ops) -> In x pairs) -> forall N m, Inv n conn m -> safe n conn N (log_good m ops) m (ops_prog ops).
Proof.
  induction ops as [|o t IH]; intros HO HP N m HI.
  - destruct N; [exact I|]. intros m' HI' E. split; constructor.
  - inversion HO as [|? ? Ho Ht]; subst. assert (TAIL : forall r m1 N', Inv n conn m1 -> ev n m m1 -> good m (o, r) m1 ->
      safe n conn N' (log_good m (o :: t)) m1 (bind (ops_prog t) (fun l => Ret ((o, r) :: l)))).
    { intros r m1 N' HI1 E1 HG. apply safe_bind with (P := log_good m1 t); auto.
      - apply IH; auto. intros x Hx. apply HP. simpl. apply in_or_app. auto.
      - intros l m2 N2 _ HI2 E2 [L1 L2]. destruct N2; [exact I|]. intros m3 HI3 E3. split; [simpl; congruence|]. constructor.
        + apply (good_ev _ _ m1 _ o); auto. eapply ev_trans; eauto.
        + rewrite Forall_forall in *. intros e He. apply good_start with (m1 := m1); auto. apply (good_ev _ _ m2 _ (fst e)); auto. apply Ht. rewrite <- L1. apply in_map. auto. }
    destruct o as [a|a b|a b]; cbn [ops_prog].
    + apply call_find; auto.
    + match goal with |- safe _ _ _ _ _ (CallSame _ _ ?f) => change (CallSame a b f) with (bind (CallSame a b Ret) f) end.
      apply safe_bind with (P := tested n conn m a b); auto. apply safe_same; auto; [apply ev_refl|apply Ho|apply Ho].
    + match goal with |- safe _ _ _ _ _ (CallUnite _ _ ?f) => change (CallUnite a b f) with (bind (CallUnite a b Ret) f) end.
      apply safe_bind with (P := fun _ m' => joined m' a b); auto. apply safe_unite; auto; [apply Ho|apply Ho|]. apply connected_in, HP. simpl. auto.
Qed.
Lemma threads_start m threads : Inv n conn m -> Forall (Forall (op_ok n)) threads -> (forall x, In x (united threads) -> In x pairs) ->
  threads_safe n conn (map (log_good m) threads) m (map ops_prog threads).
Proof.
  intros HI HO HP. split; auto. induction threads as [|t ts IH]; simpl; constructor.
  - intros N. inversion HO; subst. apply ops_safe; auto. intros x Hx. apply HP. simpl. apply in_or_app. auto.
  - inversion HO; subst. apply IH; auto. intros x Hx. apply HP. simpl. apply in_or_app. auto.
Qed.
Lemma threads_end m (Qs : list (list (op * result) -> mem -> Prop)) logs : threads_safe n conn Qs m (map Ret logs) -> Forall2 (fun Q l => Q l m) Qs logs.
Proof.
  intros [HI HF]. remember (map Ret logs) as ps eqn:E. revert logs E. induction HF as [|Q p Qs ps HQ HF IH]; intros [|l logs] E; simpl in E; try discriminate; constructor.
  - injection E as -> ->. apply (HQ 1 m HI (ev_refl n m)).
  - apply IH. injection E. auto.
Qed.
End Runs.

Lemma united_ok n threads : Forall (Forall (op_ok n)) threads -> forall a b, In (a, b) (united threads) -> a < n /\ b < n.
Proof.
  intros H a b Hin. unfold united in Hin. apply in_flat_map in Hin as (t & Ht & Hin). apply in_flat_map in Hin as (o & Ho & Hin). rewrite Forall_forall in H. specialize (H t Ht). rewrite Forall_forall in H. specialize (H o Ho).
  destruct o; simpl in Hin; try contradiction. destruct Hin as [E|[]]. injection E as <- <-. auto.
Qed.
Lemma closure n pairs m : Inv n (connected pairs) m -> (forall a b, In (a, b) pairs -> a < n /\ b < n /\ joined m a b) -> forall a b, a < n -> b < n -> joined m a b <-> connected pairs a b.
Proof.
  intros HI HP. assert (G : forall a b, connected pairs a b -> a = b \/ (a < n /\ b < n /\ joined m a b)).
  { intros a b C. induction C as [a b H|a|a b C IH|a b c C1 IH1 C2 IH2]; auto.
    - destruct IH as [->|(H1 & H2 & H3)]; auto. right. split; auto. split; auto. apply joined_sym; auto.
    - destruct IH1 as [->|(H1 & H2 & H3)]; auto. destruct IH2 as [<-|(H4 & H5 & H6)]; auto. right. split; auto. split; auto. eapply joined_trans; eauto. }
  intros a b Ha Hb. split; [apply (joined_conn n (connected pairs) (connected_refl _) (connected_sym _) (connected_trans _)); auto|].
  intros C. destruct (G a b C) as [->|(_ & _ & H)]; auto. apply (joined_refl n (connected pairs) (connected_refl _) (connected_trans _)); auto.
Qed.

(** At every moment: every parent chain ends in a root of the structure, and joined elements are connected by united pairs. *)
Theorem C41_always : forall n threads m ps, Forall (Forall (op_ok n)) threads ->
  star pstep (dset_init, map ops_prog threads) (m, ps) ->
  (forall a, a < n -> exists r, reach m a r /\ r < n) /\ (forall a b, a < n -> b < n -> joined m a b -> connected (united threads) a b).
Proof.
  intros n threads m ps HO ST.
  destruct (star_safe n (connected (united threads)) (map (log_good n (united threads) dset_init) threads) _ _ ST) as [[HI _] _]; [apply threads_start; auto; apply init_inv|].
  cbn [fst] in HI. split.
  - intros a Ha. destruct (reach_exists n (connected (united threads)) (connected_refl _) (connected_trans _) m HI a Ha) as (r & R & Hr & _). eauto.
  - intros a b Ha Hb. apply (joined_conn n (connected (united threads)) (connected_refl _) (connected_sym _) (connected_trans _)); auto.
Qed.
(** When all operations are done: exactly the generated partition; every logged answer is right. *)
Theorem C41_finished : forall n threads m logs, Forall (Forall (op_ok n)) threads ->
  star pstep (dset_init, map ops_prog threads) (m, map Ret logs) ->
  (forall a b, a < n -> b < n -> joined m a b <-> connected (united threads) a b) /\
  Forall2 (fun t log => map fst log = t /\
     Forall (fun e => match e with
                      | (OFind a, RNode r) => r < n /\ connected (united threads) a r
                      | (OSame a b, RBool true) => connected (united threads) a b
                      | (OSame a b, RBool false) | (OUnite a b, RDone) => True
                      | _ => False end) log) threads logs.
Proof.
  intros n threads m logs HO ST. set (pairs := united threads).
  destruct (star_safe n (connected pairs) (map (log_good n pairs dset_init) threads) _ _ ST) as [TS _]; [apply threads_start; auto; apply init_inv|].
  cbn [fst snd] in TS. pose proof (proj1 TS) as HI. apply threads_end in TS.
  assert (LG : Forall2 (fun t log => log_good n pairs dset_init t log m) threads logs).
  { clear -TS. clearbody pairs. revert logs TS. induction threads as [|t ts IH]; intros logs TS; inversion TS; subst; constructor; auto. }
  assert (JP : forall a b, In (a, b) pairs -> joined m a b).
  { intros a b Hin. unfold pairs, united in Hin. apply in_flat_map in Hin as (t & Ht & Hin). destruct (In_nth _ _ [] Ht) as (k & Hk & Et).
    assert (LGk : exists log, log_good n pairs dset_init t log m).
    { clear -LG Ht. clearbody pairs. induction LG as [|t' log ts logs H F IH]; [destruct Ht|]. destruct Ht as [<- |Ht]; [exists log; exact H|exact (IH Ht)]. }
    destruct LGk as (log & L1 & L2). apply in_flat_map in Hin as (o & Ho & Hin). rewrite <- L1 in Ho. apply in_map_iff in Ho as (e & Ee & He). rewrite Forall_forall in L2. specialize (L2 e He).
    destruct e as [o' r]. cbn [fst] in Ee. subst o'. destruct o; simpl in Hin; try contradiction. destruct Hin as [E|[]]. injection E as <- <-. destruct r; simpl in L2; try contradiction. auto. }
  assert (CL : forall a b, a < n -> b < n -> joined m a b <-> connected pairs a b).
  { apply closure; auto. intros a b Hin. destruct (united_ok n threads HO a b Hin). auto. }
  split; auto. rewrite Forall_forall in HO. assert (HO' : forall t, In t threads -> Forall (op_ok n) t) by auto. clear -LG HI CL HO'. clearbody pairs. induction LG as [|t log ts logs [L1 L2] F IH]; constructor.
  - split; auto. specialize (HO' t (or_introl eq_refl)). rewrite Forall_forall in *. intros [o r] He. specialize (L2 _ He). assert (Ho : op_ok n o) by (apply HO'; rewrite <- L1; apply (in_map fst) in He; auto).
    destruct o as [a|a b|a b], r as [r|x|]; simpl in *; try contradiction; auto.
    + destruct (found_joined n (connected pairs) _ _ _ _ Ho L2) as [Hr J]. split; auto. apply CL; auto.
    + destruct x; auto. simpl in L2. apply CL; tauto.
  - apply IH. intros. apply HO'. right. auto.
Qed.
(** Queries made after all unites are done, again by any number of threads in any interleaving, answer exactly. *)
Theorem C41_queries : forall n threads m logs queries m' logs', Forall (Forall (op_ok n)) threads ->
  star pstep (dset_init, map ops_prog threads) (m, map Ret logs) ->
  Forall (Forall (op_ok n)) queries -> Forall (Forall only_reads) queries ->
  star pstep (m, map ops_prog queries) (m', map Ret logs') ->
  (forall log a b x, In log logs' -> In (OSame a b, RBool x) log -> (x = true <-> connected (united threads) a b)) /\
  (forall log1 log2 a b r s, In log1 logs' -> In log2 logs' -> In (OFind a, RNode r) log1 -> In (OFind b, RNode s) log2 -> (r = s <-> connected (united threads) a b)).
Proof.
  intros n threads m logs queries m' logs' HO ST HO2 HR ST2. set (pairs := united threads).
  assert (CL : forall a b, a < n -> b < n -> joined m a b <-> connected pairs a b) by (apply (C41_finished n threads m logs); auto).
  destruct (star_safe n (connected pairs) (map (log_good n pairs dset_init) threads) _ _ ST) as [[HI _] _]; [apply threads_start; auto; apply init_inv|]. cbn [fst] in HI.
  destruct (star_safe n (connected pairs) (map (log_good n pairs m) queries) _ _ ST2) as [TS E].
  { apply threads_start; auto. intros x Hx. exfalso. unfold united in Hx. apply in_flat_map in Hx as (t & Ht & Hx). apply in_flat_map in Hx as (o & Ho & Hx). rewrite Forall_forall in HR. specialize (HR t Ht). rewrite Forall_forall in HR. specialize (HR o Ho). destruct o; simpl in *; auto. }
  cbn [fst snd] in TS, E. pose proof (proj1 TS) as HI'. apply threads_end in TS.
  assert (LG : forall log e, In log logs' -> In e log -> op_ok n (fst e) /\ good n pairs m e m').
  { clear -TS HO2. clearbody pairs. revert logs' TS. induction queries as [|t ts IH]; intros logs' TS log e Hl He; inversion TS; subst; [destruct Hl|]. inversion HO2; subst. destruct Hl as [->|Hl]; [|eapply IH; eauto].
    destruct H1 as [L1 L2]. rewrite Forall_forall in *. split; auto. apply H2. rewrite <- L1. apply in_map. auto. }
  assert (CT : forall a b c, connected pairs a b -> connected pairs b c -> connected pairs a c) by (apply connected_trans).
  assert (CS : forall a b, connected pairs a b -> connected pairs b a) by (apply connected_sym).
  assert (CR : forall a, connected pairs a a) by (apply connected_refl).
  split.
  - intros log a b x Hl He. destruct (LG log _ Hl He) as [[Ha Hb] HG]. simpl in HG. destruct x; simpl in HG.
    + split; auto. intros _. eapply (joined_conn n); [..|exact HG]; eauto.
    + split; [discriminate|]. intros C. exfalso. destruct HG as (mt & A1 & A2 & A3 & A4). apply A4. apply (ev_joined n m); auto. apply CL; auto.
  - intros log1 log2 a b r s Hl1 Hl2 H1 H2. destruct (LG _ _ Hl1 H1) as [Ha (Hr & mr & A1 & A2 & A3 & A4 & A5)]. destruct (LG _ _ Hl2 H2) as [Hb (Hs & ms & B1 & B2 & B3 & B4 & B5)]. simpl in Ha, Hb.
    assert (Cr : connected pairs a r) by (eapply (joined_conn n); [..|exact A5]; eauto). assert (Cs : connected pairs b s) by (eapply (joined_conn n); [..|exact B5]; eauto).
    assert (Rr : par m r = r) by (apply (ev_root n m mr); auto). assert (Rs : par m s = s) by (apply (ev_root n m ms); auto).
    split; [intros <-; eauto|]. intros C. assert (J : joined m r s) by (apply CL; eauto). destruct J as (z & J1 & J2).
    rewrite (reach_det _ _ _ (reach_root _ _ Rr) _ J1), (reach_det _ _ _ (reach_root _ _ Rs) _ J2). auto.
Qed.

(** An executable scheduler, to show concrete executions. *)
Definition tick {A} (m : mem) (p : prog A) : mem * prog A :=
  match p with
  | Ret a => (m, Ret a)
  | Read i k => (m, k (m i))
  | Cas weak i old new k => if word_eqb (m i) old then (upd m i new, k true) else (m, k false)
  | CallFind id k => (m, bind (find_body id) k)
  | CallSame a b k => (m, bind (same_body a b) k)
  | CallUnite a b k => (m, bind (unite_body a b) k)
  end.
Lemma word_eqb_eq a b : word_eqb a b = true <-> a = b.
Proof.
  unfold word_eqb. destruct a as [a1 a2], b as [b1 b2]; cbn [fst snd]. rewrite andb_true_iff, !Nat.eqb_eq. split; [intros [-> ->]; auto|intros E; injection E; auto].
Qed.
Lemma tick_step {A} m (p : prog A) : tick m p = (m, p) \/ tstep m p (fst (tick m p)) (snd (tick m p)).
Proof.
  destruct p; simpl; auto; right; try constructor. destruct (word_eqb (m i) old) eqn:E; simpl.
  - apply t_cas_ok. apply word_eqb_eq. auto.
  - apply t_cas_fail. left. intros H. apply word_eqb_eq in H. congruence.
Qed.
Fixpoint sched {A} (ts : list nat) (m : mem) (ps : list (prog A)) : mem * list (prog A) :=
  match ts with
  | [] => (m, ps)
  | t :: ts => match nth_error ps t with
               | None => sched ts m ps
               | Some p => let '(m', p') := tick m p in sched ts m' (firstn t ps ++ p' :: skipn (S t) ps)
               end
  end.
Lemma sched_star {A} ts : forall m (ps : list (prog A)), star pstep (m, ps) (sched ts m ps).
Proof.
  induction ts as [|t ts IH]; intros m ps; cbn [sched]; [constructor|]. destruct (nth_error ps t) as [p|] eqn:E; auto.
  assert (EP : ps = firstn t ps ++ p :: skipn (S t) ps).
  { clear -E. revert ps E. induction t as [|t IH]; intros [|x ps] E; try discriminate; simpl in *; [congruence|]. f_equal. apply IH. auto. }
  destruct (tick m p) as [m' p'] eqn:ET. destruct (tick_step m p) as [K|K]; rewrite ET in K; cbn [fst snd] in K.
  - injection K as -> ->. rewrite <- EP. auto.
  - eapply star_step; [|apply IH]. rewrite EP at 1. constructor. auto.
Qed.
(** Two threads uniting (0,2) and (1,2): when the second has found the roots 1 and 2 and is about to link 2 below 1, the first
    links 2 below 0; the compare-exchange of the second fails, and it retries. *)
Definition ex_threads : list (list op) := [[OUnite 0 2; OSame 0 1]; [OUnite 1 2; OFind 1]].
Definition ex_schedule : list nat := repeat 1 7 ++ repeat 0 8 ++ repeat 1 40 ++ repeat 0 30.
Example C41_ex : exists m logs, Forall (Forall (op_ok 3)) ex_threads /\ star pstep (dset_init, map ops_prog ex_threads) (m, map Ret logs) /\ logs = [[(OUnite 0 2, RDone); (OSame 0 1, RBool true)]; [(OUnite 1 2, RDone); (OFind 1, RNode 0)]] /\ map m [0; 1; 2] = [(1, 0); (0, 0); (0, 0)].
Proof.
  pose proof (sched_star ex_schedule dset_init (map ops_prog ex_threads)) as ST. destruct (sched ex_schedule dset_init (map ops_prog ex_threads)) as [m ps] eqn:E.
  exists m, [[(OUnite 0 2, RDone); (OSame 0 1, RBool true)]; [(OUnite 1 2, RDone); (OFind 1, RNode 0)]].
  split; [|split; [|split]]; auto.
  - repeat constructor.
  - replace (map Ret _) with ps; auto. apply (f_equal snd) in E. cbn [snd] in E. rewrite <- E. vm_compute. reflexivity.
  - apply (f_equal fst) in E. cbn [fst] in E. rewrite <- E. vm_compute. reflexivity.
Qed.
Print Assumptions C41_always.
Print Assumptions C41_finished.
Print Assumptions C41_queries.
