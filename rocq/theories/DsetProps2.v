(** C41: ranks stay logarithmic in the number of elements, so the 64-bit entries hold rank and parent without overflow and
    without touching the lock flag, at every moment of every interleaving. *)
From Verif Require Import DsetSpec DsetProofs DsetProps DsetProofs2 Dset64Model ClusterModel ClusterProofs.

Lemma rbonds n (conn : nat -> nat -> Prop) (cr : forall a, conn a a) (cs : forall a b, conn a b -> conn b a) (ct : forall a b c, conn a b -> conn b c -> conn a c) l : (forall p q, In (p, q) l -> p < n /\ q < n) ->
  forall N g, Inv n conn (fst g) -> W n g -> rsafe n conn N (fun _ => True) g (bonds_prog l).
Proof.
  induction l as [|[p q] t IH]; intros HL N g HI HW.
  - apply rsafe_ret. auto.
  - destruct (HL p q (or_introl eq_refl)) as (Hp & Hq). cbn [bonds_prog].
    match goal with |- rsafe _ _ _ _ _ (CallSame _ _ ?f) => change (CallSame p q f) with (bind (CallSame p q Ret) f) end.
    apply rsafe_bind with (P := fun _ => True); auto; [apply rsafe_same; auto|].
    intros [|] g1 N1 _ HI1 HW1 E1 _; [apply IH; auto; intros; apply HL; right; auto|].
    match goal with |- rsafe _ _ _ _ _ (CallUnite _ _ ?f) => change (CallUnite p q f) with (bind (CallUnite p q Ret) f) end.
    apply rsafe_bind with (P := fun _ => True); auto; [apply rsafe_unite; auto|].
    intros ? g2 N2 _ HI2 HW2 E2 _. apply IH; auto. intros; apply HL; right; auto.
Qed.
Lemma W_init n l : W n (dset_init, l).
Proof. intros x k _ H. cbn in H. lia. Qed.

(** The rank of every element is at most the binary logarithm of the number of elements. *)
Theorem C41_ranks : forall n threads m ps, Forall (Forall (op_ok n)) threads ->
  star pstep (dset_init, map ops_prog threads) (m, ps) -> forall i, i < n -> 2 ^ rank_of (m i) <= n /\ parent_of (m i) < n.
Proof.
  intros n threads m ps HO ST i Hi. set (conn := connected (united threads)).
  assert (TS : threads_safe n conn (map (log_good n (united threads) dset_init) threads) dset_init (map ops_prog threads)) by (apply threads_start; auto; apply init_inv).
  destruct (star_rank n conn (map (log_good n (united threads) dset_init) threads) _ _ ST TS) as (l & HW & _).
  - exists (fun _ => 0). split; [apply W_init|]. cbn [fst snd]. apply Forall_forall. intros p Hp. apply in_map_iff in Hp as (t & <- & Ht). rewrite Forall_forall in HO. intros N.
    apply rsafe_ops; auto; [apply init_inv|apply W_init].
  - cbn [fst] in HW. split; [apply (W_log n m l HW i Hi)|]. destruct (star_safe n conn (map (log_good n (united threads) dset_init) threads) _ _ ST TS) as [[HI _] _]. apply (HI i Hi).
Qed.
(** The same while Cluster merges its bonds. *)
Theorem C41_cluster_ranks : forall n threads m ps, (forall p q, In (p, q) (concat threads) -> p < n /\ q < n) ->
  star pstep (dset_init, map bonds_prog threads) (m, ps) -> forall i, i < n -> 2 ^ rank_of (m i) <= n /\ parent_of (m i) < n.
Proof.
  intros n threads m ps HB ST i Hi. set (pairs := concat threads) in *. set (conn := connected pairs).
  set (Qs := map (fun l (_ : unit) m' => forall p q, In (p, q) l -> joined m' p q) threads).
  assert (HP : forall l x, In l threads -> In x l -> In x pairs) by (intros l x Hl Hx; unfold pairs; apply in_concat; eauto).
  assert (TS : threads_safe n conn Qs dset_init (map bonds_prog threads)).
  { split; [apply init_inv|]. unfold Qs, conn. clear ST Qs conn. clearbody pairs. induction threads as [|l ts IH]; simpl; constructor.
    + intros N. apply bonds_safe; [|apply init_inv]. intros p q H. assert (In (p, q) pairs) by (apply (HP l); auto; left; auto). destruct (HB p q); auto.
    + apply IH. intros. eapply HP; [right|]; eauto. }
  destruct (star_rank n conn Qs _ _ ST TS) as (l & HW & _).
  - exists (fun _ => 0). split; [apply W_init|]. cbn [fst snd]. apply Forall_forall. intros p Hp. apply in_map_iff in Hp as (t & <- & Ht). intros N.
    apply rbonds; [apply connected_refl|apply connected_sym|apply connected_trans| |apply init_inv|apply W_init]. intros. apply HB. eapply HP; eauto.
  - cbn [fst] in HW. split; [apply (W_log n m l HW i Hi)|]. destruct (star_safe n conn Qs _ _ ST TS) as [[HI _] _]. apply (HI i Hi).
Qed.

Local Open Scope N_scope.
Lemma small_bits a k : a < 2 ^ k -> forall j, k <= j -> N.testbit a j = false.
Proof.
  intros H j Hj. destruct (N.eq_dec a 0) as [->|Hz]; [apply N.bits_0|]. apply N.bits_above_log2. apply N.lt_le_trans with k; auto. apply N.log2_lt_pow2; lia.
Qed.
Lemma entry_bits r p j : N.of_nat r < 2 ^ 31 -> N.of_nat p < 2 ^ 32 ->
  N.testbit (entry (r, p)) j = if j <? 32 then N.testbit (N.of_nat p) j else N.testbit (N.of_nat r) (j - 32).
Proof.
  intros Hr Hp. unfold entry. cbn [rank_of parent_of fst snd]. rewrite N.lor_spec, N.land_spec. destruct (N.ltb_spec j 32) as [L|L].
  - rewrite N.shiftl_spec_low by auto. auto.
  - rewrite N.shiftl_spec_high' by auto. rewrite (small_bits (N.of_nat p) 32) by auto. rewrite orb_false_r. destruct (N.lt_ge_cases j 64) as [H|H].
    + rewrite N.ones_spec_low by auto. apply andb_true_r.
    + rewrite N.ones_spec_high by auto. rewrite andb_false_r. symmetry. apply (small_bits _ 31); auto. lia.
Qed.
Lemma entry_back r p : N.of_nat r < 2 ^ 31 -> N.of_nat p < 2 ^ 32 ->
  entry (r, p) < 2 ^ 63 /\ entry_locked (entry (r, p)) = false /\ entry_rank (entry (r, p)) = N.of_nat r /\ entry_parent (entry (r, p)) = N.of_nat p /\
  forall p', N.of_nat p' < 2 ^ 32 -> entry_moved (entry (r, p)) p' = entry (r, p').
Proof.
  intros Hr Hp. assert (HI : forall j, 63 <= j -> N.testbit (entry (r, p)) j = false).
  { intros j Hj. rewrite entry_bits by auto. destruct (N.ltb_spec j 32); [lia|]. apply (small_bits _ 31); auto. lia. }
  split; [|split; [|split; [|split]]].
  - destruct (N.eq_dec (entry (r, p)) 0) as [->|Hz]; [reflexivity|]. apply N.log2_lt_pow2; [lia|]. destruct (N.lt_ge_cases (N.log2 (entry (r, p))) 63) as [?|L]; auto. exfalso.
    specialize (HI _ L). rewrite N.bit_log2 in HI by auto. discriminate.
  - apply HI. lia.
  - apply N.bits_inj. intros j. unfold entry_rank. change 0x7FFFFFFF with (N.ones 31). rewrite !N.land_spec, N.shiftr_spec', entry_bits by auto. destruct (N.ltb_spec (j + 32) 32); [lia|]. replace (j + 32 - 32) with j by lia.
    destruct (N.lt_ge_cases j 31) as [L|L].
    + rewrite !N.ones_spec_low by lia. rewrite !andb_true_r. auto.
    + rewrite (small_bits _ 31 Hr) by auto. auto.
  - apply N.bits_inj. intros j. unfold entry_parent. rewrite N.land_spec, entry_bits by auto. destruct (N.ltb_spec j 32) as [L|L].
    + rewrite N.ones_spec_low by auto. apply andb_true_r.
    + rewrite N.ones_spec_high by auto. rewrite andb_false_r. symmetry. apply (small_bits _ 32); auto.
  - intros p' Hp'. apply N.bits_inj. intros j. unfold entry_moved. change 0xFFFFFFFF00000000 with (N.shiftl (N.ones 32) 32). rewrite N.lor_spec, N.land_spec, !entry_bits by auto. destruct (N.ltb_spec j 32) as [L|L].
    + rewrite N.shiftl_spec_low by auto. rewrite andb_false_r. auto.
    + rewrite N.shiftl_spec_high' by auto. rewrite (small_bits (N.of_nat p') 32) by auto. rewrite orb_false_r. destruct (N.lt_ge_cases (j - 32) 32) as [H|H].
      * rewrite N.ones_spec_low by auto. apply andb_true_r.
      * rewrite (small_bits _ 31 Hr) by lia. auto.
Qed.
Lemma rank_small n r : (2 ^ r <= n)%nat -> N.of_nat n < 2 ^ 32 -> (r <= 31)%nat.
Proof.
  intros H Hn. destruct (le_lt_dec r 31) as [?|L]; auto. exfalso. assert (E : N.of_nat (2 ^ r) = 2 ^ N.of_nat r).
  { clear. induction r as [|r IH]; [reflexivity|]. rewrite Nat2N.inj_succ, N.pow_succ_r'. rewrite <- IH. cbn [Nat.pow]. lia. }
  assert (2 ^ 32 <= 2 ^ N.of_nat r) by (apply N.pow_le_mono_r; lia). lia.
Qed.
(** With at most 2^32 - 1 elements: the rank is at most 31, the 64-bit entry has its lock flag clear, rank() and parent() give
    back what was stored, the masking in find keeps the rank, and comparing entries is comparing rank and parent. *)
Theorem C41_packed : forall n threads m ps, Forall (Forall (op_ok n)) threads -> N.of_nat n < 2 ^ 32 ->
  star pstep (dset_init, map ops_prog threads) (m, ps) -> forall i, (i < n)%nat ->
  (rank_of (m i) <= 31)%nat /\ entry (m i) < 2 ^ 63 /\ entry_locked (entry (m i)) = false /\
  entry_rank (entry (m i)) = N.of_nat (rank_of (m i)) /\ entry_parent (entry (m i)) = N.of_nat (parent_of (m i)) /\
  (forall p, (p < n)%nat -> entry_moved (entry (m i)) p = entry (rank_of (m i), p)) /\
  (forall r p, N.of_nat r < 2 ^ 31 -> N.of_nat p < 2 ^ 32 -> entry (m i) = entry (r, p) <-> m i = (r, p)).
Proof.
  intros n threads m ps HO Hn ST i Hi. destruct (C41_ranks n threads m ps HO ST i Hi) as [HR HP]. apply rank_small in HR; auto. destruct (m i) as [r p] eqn:E. cbn [rank_of parent_of fst snd] in *.
  assert (Hr : N.of_nat r < 2 ^ 31) by (apply N.le_lt_trans with 31; [lia|reflexivity]). assert (Hp : N.of_nat p < 2 ^ 32) by lia.
  destruct (entry_back r p Hr Hp) as (A & B & C & D & F). split; auto. split; auto. split; auto. split; auto. split; auto. split.
  - intros p' Hp'. apply F. lia.
  - intros r' p' Hr' Hp'. split; [|intros Q; rewrite Q; auto]. intros Q. destruct (entry_back r' p' Hr' Hp') as (_ & _ & C' & D' & _). rewrite <- Q in C', D'. rewrite C in C'. rewrite D in D'. f_equal; lia.
Qed.
(** The bound is reached: four elements, rank 2, by two threads. *)
Definition ex_four : list (list op) := [[OUnite 0 1; OUnite 0 2]; [OUnite 2 3]]%nat.
Example C41_ranks_ex : exists m ps, Forall (Forall (op_ok 4)) ex_four /\ star pstep (dset_init, map ops_prog ex_four) (m, ps) /\ map m [0; 1; 2; 3]%nat = [(2, 0); (0, 0); (1, 0); (0, 2)]%nat /\
  map (fun i => entry (m i)) [0; 1; 2; 3]%nat = [8589934592; 0; 4294967296; 2].
Proof.
  pose proof (sched_star (repeat 1%nat 40 ++ repeat 0%nat 80) dset_init (map ops_prog ex_four)) as ST. destruct (sched (repeat 1%nat 40 ++ repeat 0%nat 80) dset_init (map ops_prog ex_four)) as [m ps] eqn:E.
  exists m, ps. split; [repeat constructor|]. split; auto. apply (f_equal fst) in E. cbn [fst] in E. rewrite <- E. split; vm_compute; reflexivity.
Qed.
Print Assumptions C41_ranks.
Print Assumptions C41_cluster_ranks.
Print Assumptions C41_packed.
