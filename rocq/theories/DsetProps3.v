(** C41: every execution ends, whatever the scheduling; no fairness is needed and spurious failures of weak compare-exchanges
    are allowed. *)
From Verif Require Import DsetSpec DsetProofs DsetProps DsetProofs2 DsetProps2 DsetProofs3 ClusterModel ClusterProofs.

(** A program that has not returned can take a step. *)
Lemma can_step {A} (m : mem) (p : prog A) : (exists a, p = Ret a) \/ exists m' p', tstep m p m' p'.
Proof.
  destruct p as [a|i k|weak i old new k|id k|a b k|a b k]; [left; eauto|right..].
  - eexists _, _. constructor.
  - destruct (word_eqb (m i) old) eqn:E.
    + eexists _, _. apply t_cas_ok. apply word_eqb_eq. auto.
    + eexists _, _. apply t_cas_fail. left. intros H. apply word_eqb_eq in H. congruence.
  - eexists _, _. constructor.
  - eexists _, _. constructor.
  - eexists _, _. constructor.
Qed.
Lemma all_done {A} (m : mem) (ps : list (prog A)) : (exists s', pstep (m, ps) s') \/ exists rs, ps = map Ret rs.
Proof.
  assert (G : (exists l1 p l2 m' p', ps = l1 ++ p :: l2 /\ tstep m p m' p') \/ exists rs, ps = map Ret rs).
  { induction ps as [|p ps IH]; [right; exists []; auto|]. destruct (can_step m p) as [(a & ->)|(m' & p' & T)]; [|left; exists [], p, ps, m', p'; auto].
    destruct IH as [(l1 & q & l2 & m' & q' & -> & T)|(rs & ->)]; [left; exists (Ret a :: l1), q, l2, m', q'; auto|right; exists (a :: rs); auto]. }
  destruct G as [(l1 & q & l2 & m' & q' & -> & T)|G]; auto. left. eexists. constructor. exact T.
Qed.
Lemma done_stuck {A} (m : mem) (rs : list A) s' : ~ pstep (m, map Ret rs) s'.
Proof.
  intros S'. remember (m, map Ret rs) as s eqn:E. destruct S' as [m0 l1 p l2 m' p' T]. injection E as -> E. assert (I : In p (map Ret rs)) by (rewrite <- E; apply in_or_app; right; left; auto).
  apply in_map_iff in I as (a & <- & _). inversion T.
Qed.
Lemma two_length {A B} (R : A -> B -> Prop) l l' : Forall2 R l l' -> length l = length l'.
Proof. induction 1; simpl; auto. Qed.
Lemma tbonds n (conn : nat -> nat -> Prop) l : (forall p q, In (p, q) l -> p < n /\ q < n) -> forall N m, Inv n conn m -> tsafe n conn N (fun _ => True) m (bonds_prog l).
Proof.
  induction l as [|[p q] t IH]; intros HL N m HI.
  - apply tsafe_ret. auto.
  - destruct (HL p q (or_introl eq_refl)) as (Hp & Hq). cbn [bonds_prog].
    match goal with |- tsafe _ _ _ _ _ (CallSame _ _ ?f) => change (CallSame p q f) with (bind (CallSame p q Ret) f) end.
    apply tsafe_bind with (P := fun _ => True); auto; [apply tsafe_same; auto|].
    intros [|] m1 N1 _ HI1 E1 _; [apply IH; auto; intros; apply HL; right; auto|].
    match goal with |- tsafe _ _ _ _ _ (CallUnite _ _ ?f) => change (CallUnite p q f) with (bind (CallUnite p q Ret) f) end.
    apply tsafe_bind with (P := fun _ => True); auto; [apply tsafe_unite; auto|].
    intros ? m2 N2 _ HI2 E2 _. apply IH; auto. intros; apply HL; right; auto.
Qed.

(** No infinite execution exists, and an execution that cannot go on has finished every operation of every thread. *)
Theorem C41_terminates : forall n threads, Forall (Forall (op_ok n)) threads ->
  (forall f : nat -> mem * list (prog (list (op * result))), f 0 = (dset_init, map ops_prog threads) -> ~ forall k, pstep (f k) (f (1 + k))) /\
  (forall m ps, star pstep (dset_init, map ops_prog threads) (m, ps) -> (forall s', ~ pstep (m, ps) s') -> exists logs, ps = map Ret logs).
Proof.
  intros n threads HO. split.
  - apply acc_no_run. set (conn := connected (united threads)).
    apply (J_acc n conn (map (log_good n (united threads) dset_init) threads) _ _ eq_refl). split; [apply threads_start; auto; apply init_inv|]. cbn [fst snd]. rewrite Forall_forall in HO. split.
    + exists (fun _ => 0). split; [apply W_init|]. apply Forall_forall. intros p Hp. apply in_map_iff in Hp as (t & <- & Ht). intros N. apply rsafe_ops; auto; [apply init_inv|apply W_init].
    + apply Forall_forall. intros p Hp. apply in_map_iff in Hp as (t & <- & Ht). intros N. apply tsafe_ops; auto. apply init_inv.
  - intros m ps _ H. destruct (all_done m ps) as [[s' S']|?]; auto. destruct (H s' S').
Qed.
(** Cluster's merge phase: it cannot run forever, and when it stops, the clusters are merged. *)
Theorem C41_cluster_terminates : forall n threads, (forall p q, In (p, q) (concat threads) -> p < n /\ q < n) ->
  (forall f : nat -> mem * list (prog unit), f 0 = (dset_init, map bonds_prog threads) -> ~ forall k, pstep (f k) (f (1 + k))) /\
  (forall m ps, star pstep (dset_init, map bonds_prog threads) (m, ps) -> (forall s', ~ pstep (m, ps) s') ->
     forall a b, a < n -> b < n -> joined m a b <-> connected (concat threads) a b) /\
  exists m, merge_run threads m.
Proof.
  intros n threads HB. set (pairs := concat threads) in *. set (conn := connected pairs).
  set (Qs := map (fun l (_ : unit) m' => forall p q, In (p, q) l -> joined m' p q) threads).
  assert (HP : forall l x, In l threads -> In x l -> In x pairs) by (intros l x Hl Hx; unfold pairs; apply in_concat; eauto).
  assert (TS : threads_safe n conn Qs dset_init (map bonds_prog threads)).
  { split; [apply init_inv|]. unfold Qs, conn. clear Qs conn. clearbody pairs. induction threads as [|l ts IH]; simpl; constructor.
    + intros N. apply bonds_safe; [|apply init_inv]. intros p q H. assert (In (p, q) pairs) by (apply (HP l); auto; left; auto). destruct (HB p q); auto.
    + apply IH. intros. eapply HP; [right|]; eauto. }
  assert (AC : Acc (fun s' s => pstep s s') (dset_init, map bonds_prog threads)).
  { apply (J_acc n conn Qs _ _ eq_refl). split; [exact TS|]. cbn [fst snd]. split.
    + exists (fun _ => 0). split; [apply W_init|]. apply Forall_forall. intros p Hp. apply in_map_iff in Hp as (t & <- & Ht). intros N.
      apply rbonds; [apply connected_refl|apply connected_sym|apply connected_trans| |apply init_inv|apply W_init]. intros. apply HB. eapply HP; eauto.
    + apply Forall_forall. intros p Hp. apply in_map_iff in Hp as (t & <- & Ht). intros N. apply tbonds; [|apply init_inv]. intros. apply HB. eapply HP; eauto. }
  assert (ME : forall m ps, star pstep (dset_init, map bonds_prog threads) (m, ps) -> (forall s', ~ pstep (m, ps) s') -> merge_run threads m).
  { intros m ps ST H. destruct (all_done m ps) as [[s' S']|[rs ->]]; [destruct (H s' S')|]. unfold merge_run. replace (map (fun _ => Ret tt) threads) with (map (@Ret unit) rs); auto.
    assert (L : length rs = length threads).
    { destruct (star_safe n conn Qs _ _ ST TS) as [[_ F] _]. apply two_length in F. unfold Qs in F. cbn [snd] in F. rewrite !map_length in F. auto. }
    clear -L. revert threads L. induction rs as [|[] rs IH]; intros [|t ts] L; try discriminate; simpl; auto. f_equal. apply IH. simpl in L. congruence. }
  split; [apply acc_no_run; exact AC|]. split.
  - intros m ps ST H. apply merge_result; auto. eapply ME; eauto.
  - assert (EX : forall s, Acc (fun s' s => pstep s s') s -> exists m ps, star pstep s (m, ps) /\ exists rs, ps = map (@Ret unit) rs).
    { induction 1 as [[m ps] _ IH]. destruct (all_done m ps) as [[s' S']|[rs R]]; [|exists m, ps; split; [constructor|eauto]]. destruct (IH s' S') as (m1 & ps1 & S1 & R1). exists m1, ps1. split; auto. eapply star_step; eauto. }
    destruct (EX _ AC) as (m & ps & ST & rs & ->). exists m. apply (ME m (map Ret rs)); auto. intros s'. apply done_stuck.
Qed.
(** The hypotheses are met by the threads of C41_ex, whose run below cannot be extended. *)
Example C41_terminates_ex : Forall (Forall (op_ok 3)) ex_threads /\ exists m ps, star pstep (dset_init, map ops_prog ex_threads) (m, ps) /\ forall s', ~ pstep (m, ps) s'.
Proof.
  split; [repeat constructor|]. destruct C41_ex as (m & logs & _ & ST & _). exists m, (map Ret logs). split; auto. intros s'. apply done_stuck.
Qed.
Print Assumptions C41_terminates.
Print Assumptions C41_cluster_terminates.
