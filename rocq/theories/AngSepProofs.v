(** Proofs about angular separations: the loops and the angle itself. *)
From Verif Require Import AngSepSpec QuatProofs QuatProps MatchEnvProofs NListProofs ParProofs Vec.
From Coq Require Import Lra Lia.
Local Open Scope R_scope.

Lemma before_mono bs i j : sorted_q bs -> (i <= j)%nat -> (before i bs <= before j bs)%nat.
Proof.
  intros HS Hij. destruct (before_sides i bs HS) as [L1 L2], (before_sides j bs HS) as [M1 M2].
  pose proof (before_le i bs). destruct (le_lt_dec (before i bs) (before j bs)) as [|C]; auto.
  specialize (M2 (before j bs)). specialize (L1 (before j bs)). lia.
Qed.

Section loops.
  Variables (nl : nlist) (o qo equiv : list quat) (h : nat -> R) (np : nat).
  Let bs := nl_bonds nl.
  Hypothesis HS : sorted_q bs.
  Hypothesis Ho : (np <= length o)%nat.
  Hypothesis Hh : forall m, (m < length bs)%nat -> (bq (nth m bs bond0) < np)%nat ->
    exists qq, nth_error qo (bp (nth m bs bond0)) = Some qq /\ min_sep_angle (nth (bq (nth m bs bond0)) o qid) qq equiv = Some (h m).

  Lemma sep_bonds_ok fuel i k a : (i < np)%nat -> (before i bs <= k <= before (S i) bs)%nat -> (before (S i) bs - k <= fuel)%nat ->
    length a = length bs ->
    exists a', sep_bonds fuel bs (nth i o qid) qo equiv i k a = Some (before (S i) bs, a') /\ length a' = length bs /\
      forall m, nth m a' 0 = if (k <=? m)%nat && (m <? before (S i) bs)%nat then h m else nth m a 0.
  Proof.
    revert k a. induction fuel as [|fuel IH]; intros k a Hi Hk Hf La.
    all: destruct (before_sides i bs HS) as [L1 L2], (before_sides (S i) bs HS) as [M1 M2]; pose proof (before_le (S i) bs) as Lb.
    - assert (k = before (S i) bs) by lia. subst k. exists a. split; [|split; auto].
      + simpl. destruct (nth_error bs (before (S i) bs)) as [b|] eqn:E; auto.
        assert (Hlt : (before (S i) bs < length bs)%nat) by (apply nth_error_Some; congruence).
        rewrite (nth_error_g _ _ bond0 Hlt) in E. injection E as <-.
        specialize (M2 (before (S i) bs)). destruct (Nat.eqb_spec (bq (nth (before (S i) bs) bs bond0)) i); simpl; auto. lia.
      + intros m. destruct (Nat.leb_spec (before (S i) bs) m), (Nat.ltb_spec m (before (S i) bs)); simpl; auto; lia.
    - destruct (Nat.eq_dec k (before (S i) bs)) as [->|Hne].
      + exists a. split; [|split; auto].
        * simpl. destruct (nth_error bs (before (S i) bs)) as [b|] eqn:E; auto.
          assert (Hlt : (before (S i) bs < length bs)%nat) by (apply nth_error_Some; congruence).
          rewrite (nth_error_g _ _ bond0 Hlt) in E. injection E as <-.
          specialize (M2 (before (S i) bs)). destruct (Nat.eqb_spec (bq (nth (before (S i) bs) bs bond0)) i); simpl; auto. lia.
        * intros m. destruct (Nat.leb_spec (before (S i) bs) m), (Nat.ltb_spec m (before (S i) bs)); simpl; auto; lia.
      + assert (Hk' : (k < length bs)%nat) by lia.
        assert (Eq : bq (nth k bs bond0) = i).
        { specialize (L2 k). specialize (M1 k). lia. }
        destruct (Hh k Hk') as (qq & E1 & E2); [lia|].
        destruct (IH (S k) (put a k (h k))) as (a' & Ea & La' & Va); try lia; [rewrite put_length; exact La|].
        exists a'. split; [|split; [exact La'|]].
        * simpl. rewrite (nth_error_g _ _ bond0 Hk'), Eq, Nat.eqb_refl. simpl. rewrite E1. rewrite Eq in E2. rewrite E2. exact Ea.
        * intros m. rewrite Va, nth_put by lia.
          destruct (Nat.leb_spec (S k) m), (Nat.leb_spec k m), (Nat.ltb_spec m (before (S i) bs)), (Nat.eqb_spec m k); simpl; auto; subst; try lia; auto.
  Qed.

  Lemma sep_points_ok n : forall i a, (i + n <= np)%nat -> length a = length bs ->
    exists a', sep_points bs o qo equiv (seq i n) (before i bs, a) = Some (before (i + n) bs, a') /\ length a' = length bs /\
      forall m, nth m a' 0 = if (before i bs <=? m)%nat && (m <? before (i + n) bs)%nat then h m else nth m a 0.
  Proof.
    induction n as [|n IH]; intros i a Hi La; simpl.
    - exists a. rewrite Nat.add_0_r. split; auto. split; auto. intros m.
      destruct (Nat.leb_spec (before i bs) m), (Nat.ltb_spec m (before i bs)); simpl; auto; lia.
    - rewrite (nth_error_g _ _ qid) by lia. pose proof (before_mono bs i (S i) HS ltac:(lia)) as B. pose proof (before_le (S i) bs).
      destruct (sep_bonds_ok (length bs) i (before i bs) a) as (a1 & E1 & La1 & V1); try lia.
      rewrite E1. destruct (IH (S i) a1) as (a2 & E2 & La2 & V2); try lia.
      exists a2. replace (i + S n)%nat with (S i + n)%nat by lia. split; [exact E2|]. split; [exact La2|].
      intros m. rewrite V2, V1.
      assert (B2 : (before (S i) bs <= before (S i + n) bs)%nat).
      { apply before_mono; [exact HS|lia]. }
      destruct (Nat.leb_spec (before (S i) bs) m), (Nat.ltb_spec m (before (S i + n) bs)), (Nat.leb_spec (before i bs) m),
        (Nat.ltb_spec m (before (S i) bs)); simpl; auto; lia.
  Qed.

  Lemma sep_chunk_ok a c : (fst c <= snd c <= np)%nat -> length a = length bs ->
    exists a', sep_chunk nl o qo equiv a c = Some a' /\ length a' = length bs /\
      forall m, (m < length bs)%nat -> nth m a' 0 = if (fst c <=? bq (nth m bs bond0))%nat && (bq (nth m bs bond0) <? snd c)%nat then h m else nth m a 0.
  Proof.
    intros Hc La. unfold sep_chunk, range. rewrite find_first_index_spec by exact HS. fold bs.
    destruct (sep_points_ok (snd c - fst c) (fst c) a) as (a' & E & La' & V); try lia; auto.
    exists a'. rewrite E. split; [reflexivity|]. split; [exact La'|]. intros m Hm. rewrite V.
    replace (fst c + (snd c - fst c))%nat with (snd c) by lia.
    destruct (before_sides (fst c) bs HS) as [L1 L2], (before_sides (snd c) bs HS) as [M1 M2].
    specialize (L1 m); specialize (L2 m); specialize (M1 m); specialize (M2 m).
    destruct (Nat.leb_spec (before (fst c) bs) m), (Nat.ltb_spec m (before (snd c) bs)),
      (Nat.leb_spec (fst c) (bq (nth m bs bond0))), (Nat.ltb_spec (bq (nth m bs bond0)) (snd c)); simpl; auto; lia.
  Qed.

  Lemma sep_chunks_ok cs : (forall c, In c cs -> (fst c <= snd c <= np)%nat) -> forall a, length a = length bs ->
    exists a', ofold (fun a c => sep_chunk nl o qo equiv a c) cs a = Some a' /\ length a' = length bs /\
      forall m, (m < length bs)%nat -> nth m a' 0 =
        if existsb (fun c => (fst c <=? bq (nth m bs bond0))%nat && (bq (nth m bs bond0) <? snd c)%nat) cs then h m else nth m a 0.
  Proof.
    induction cs as [|c cs IH]; intros Hc a La; simpl; [exists a; auto|].
    destruct (sep_chunk_ok a c) as (a1 & E1 & La1 & V1); [apply Hc; left; auto|auto|]. rewrite E1.
    destruct (IH (fun c H => Hc c (or_intror H)) a1 La1) as (a2 & E2 & La2 & V2). exists a2. split; [exact E2|]. split; [exact La2|].
    intros m Hm. rewrite (V2 m Hm), (V1 m Hm). destruct ((fst c <=? _)%nat && _); simpl; auto. destruct (existsb _ cs); reflexivity.
  Qed.

  Lemma sep_neighbor_ok cs cs' : chunking 0 np cs -> Permutation cs cs' ->
    exists a, sep_neighbor nl np o qo equiv cs' = Some a /\ length a = length bs /\
      forall m, (m < length bs)%nat -> nth m a 0 = if (bq (nth m bs bond0) <? np)%nat then h m else 0.
  Proof.
    intros Hch HP.
    assert (Hb : forall c, In c cs' -> (fst c <= snd c <= np)%nat).
    { intros c Hc. apply (Permutation_in c (Permutation_sym HP)) in Hc. unfold chunking in Hch.
      destruct (np <=? 0)%nat; [subst cs; destruct Hc|]. pose proof (splits_bounds _ _ _ Hch c Hc). lia. }
    destruct (sep_chunks_ok cs' Hb (repeat 0 (length bs))) as (a & E & La & V); [apply repeat_length|].
    exists a. split; [exact E|]. split; [exact La|]. intros m Hm. rewrite (V m Hm), nth_repeat.
    set (q := bq (nth m bs bond0)).
    assert (X : existsb (fun c => (fst c <=? q)%nat && (q <? snd c)%nat) cs' = (q <? np)%nat).
    { apply Bool.eq_iff_eq_true. rewrite existsb_exists, Nat.ltb_lt. split.
      - intros (c & Hc & B). apply andb_true_iff in B as [B1 B2]. apply Nat.ltb_lt in B2. specialize (Hb c Hc). lia.
      - intros Hq. assert (I : In q (range 0 np)) by (unfold range; apply in_seq; lia).
        rewrite <- (chunking_range _ _ _ Hch) in I. apply in_flat_map in I as (c & Hc & I). exists c.
        split; [apply (Permutation_in c HP Hc)|]. unfold range in I. apply in_seq in I.
        apply andb_true_iff; split; [apply Nat.leb_le|apply Nat.ltb_lt]; lia. }
    rewrite X. reflexivity.
  Qed.
End loops.
