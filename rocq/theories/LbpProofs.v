(** Proofs about local bond projections. *)
From Verif Require Import QuatProofs QuatProps MatchEnvProofs NListProofs ParProofs AngSepProofs Vec LbpSpec.
From Coq Require Import Lra Lia.
Local Open Scope R_scope.

Section loops.
  Variables (nl : nlist) (o : list quat) (pv : list vec3) (equiv : list quat) (h : nat -> list lbp_entry) (np : nat) (z : list lbp_entry).
  Let bs := nl_bonds nl.
  Hypothesis HS : sorted_q bs.
  Hypothesis Hh : forall m, (m < length bs)%nat -> (bq (nth m bs bond0) < np)%nat -> lbp_row o pv equiv (nth m bs bond0) = Some (h m).

  Lemma lbp_bonds_ok fuel i k a : (i < np)%nat -> (before i bs <= k <= before (S i) bs)%nat -> (before (S i) bs - k <= fuel)%nat ->
    length a = length bs ->
    exists a', lbp_bonds fuel bs o pv equiv i k a = Some (before (S i) bs, a') /\ length a' = length bs /\
      forall m, nth m a' z = if (k <=? m)%nat && (m <? before (S i) bs)%nat then h m else nth m a z.
  Proof.
    revert k a. induction fuel as [|fuel IH]; intros k a Hi Hk Hf La.
    all: destruct (before_sides i bs HS) as [L1 L2], (before_sides (S i) bs HS) as [M1 M2]; pose proof (before_le (S i) bs) as Lb.
    - assert (k = before (S i) bs) by lia. subst k. exists a. split; [|split; auto].
      + simpl. destruct (nth_error bs (before (S i) bs)) as [b|] eqn:E; auto.
        assert (Hlt : (before (S i) bs < length bs)%nat) by (apply nth_error_Some; congruence).
        rewrite (nth_error_g _ _ bond0 Hlt) in E. injection E as <-.
        specialize (M2 (before (S i) bs)). destruct (Nat.eqb_spec (bq (nth (before (S i) bs) bs bond0)) i); simpl; auto. lia.
      + intros m. destruct (Nat.leb_spec (before (S i) bs) m), (Nat.ltb_spec m (before (S i) bs)); simpl; auto; lia.
    - destruct (Nat.eq_dec k (before (S i) bs)) as [->|Hne].
      + exists a. split; [|split; auto].
        * simpl. destruct (nth_error bs (before (S i) bs)) as [b|] eqn:E; auto.
          assert (Hlt : (before (S i) bs < length bs)%nat) by (apply nth_error_Some; congruence).
          rewrite (nth_error_g _ _ bond0 Hlt) in E. injection E as <-.
          specialize (M2 (before (S i) bs)). destruct (Nat.eqb_spec (bq (nth (before (S i) bs) bs bond0)) i); simpl; auto. lia.
        * intros m. destruct (Nat.leb_spec (before (S i) bs) m), (Nat.ltb_spec m (before (S i) bs)); simpl; auto; lia.
      + assert (Hk' : (k < length bs)%nat) by lia.
        assert (Eq : bq (nth k bs bond0) = i).
        { specialize (L2 k). specialize (M1 k). lia. }
        assert (E2 := Hh k Hk'); rewrite Eq in E2; specialize (E2 Hi).
        destruct (IH (S k) (put a k (h k))) as (a' & Ea & La' & Va); try lia; [rewrite put_length; exact La|].
        exists a'. split; [|split; [exact La'|]].
        * simpl. rewrite (nth_error_g _ _ bond0 Hk'), Eq, Nat.eqb_refl. simpl. rewrite E2. exact Ea.
        * intros m. rewrite Va, nth_put by lia.
          destruct (Nat.leb_spec (S k) m), (Nat.leb_spec k m), (Nat.ltb_spec m (before (S i) bs)), (Nat.eqb_spec m k); simpl; auto; subst; try lia; auto.
  Qed.

  Lemma lbp_points_ok n : forall i a, (i + n <= np)%nat -> length a = length bs ->
    exists a', lbp_points bs o pv equiv (seq i n) (before i bs, a) = Some (before (i + n) bs, a') /\ length a' = length bs /\
      forall m, nth m a' z = if (before i bs <=? m)%nat && (m <? before (i + n) bs)%nat then h m else nth m a z.
  Proof.
    induction n as [|n IH]; intros i a Hi La; simpl.
    - exists a. rewrite Nat.add_0_r. split; auto. split; auto. intros m.
      destruct (Nat.leb_spec (before i bs) m), (Nat.ltb_spec m (before i bs)); simpl; auto; lia.
    - pose proof (before_mono bs i (S i) HS ltac:(lia)) as B. pose proof (before_le (S i) bs).
      destruct (lbp_bonds_ok (length bs) i (before i bs) a) as (a1 & E1 & La1 & V1); try lia.
      rewrite E1. destruct (IH (S i) a1) as (a2 & E2 & La2 & V2); try lia.
      exists a2. replace (i + S n)%nat with (S i + n)%nat by lia. split; [exact E2|]. split; [exact La2|].
      intros m. rewrite V2, V1.
      assert (B2 : (before (S i) bs <= before (S i + n) bs)%nat).
      { apply before_mono; [exact HS|lia]. }
      destruct (Nat.leb_spec (before (S i) bs) m), (Nat.ltb_spec m (before (S i + n) bs)), (Nat.leb_spec (before i bs) m),
        (Nat.ltb_spec m (before (S i) bs)); simpl; auto; lia.
  Qed.

  Lemma lbp_chunk_ok a c : (fst c <= snd c <= np)%nat -> length a = length bs ->
    exists a', lbp_chunk nl o pv equiv a c = Some a' /\ length a' = length bs /\
      forall m, (m < length bs)%nat -> nth m a' z = if (fst c <=? bq (nth m bs bond0))%nat && (bq (nth m bs bond0) <? snd c)%nat then h m else nth m a z.
  Proof.
    intros Hc La. unfold lbp_chunk, range. rewrite find_first_index_spec by exact HS. fold bs.
    destruct (lbp_points_ok (snd c - fst c) (fst c) a) as (a' & E & La' & V); try lia; auto.
    exists a'. rewrite E. split; [reflexivity|]. split; [exact La'|]. intros m Hm. rewrite V.
    replace (fst c + (snd c - fst c))%nat with (snd c) by lia.
    destruct (before_sides (fst c) bs HS) as [L1 L2], (before_sides (snd c) bs HS) as [M1 M2].
    specialize (L1 m); specialize (L2 m); specialize (M1 m); specialize (M2 m).
    destruct (Nat.leb_spec (before (fst c) bs) m), (Nat.ltb_spec m (before (snd c) bs)),
      (Nat.leb_spec (fst c) (bq (nth m bs bond0))), (Nat.ltb_spec (bq (nth m bs bond0)) (snd c)); simpl; auto; lia.
  Qed.

  Lemma lbp_chunks_ok cs : (forall c, In c cs -> (fst c <= snd c <= np)%nat) -> forall a, length a = length bs ->
    exists a', ofold (fun a c => lbp_chunk nl o pv equiv a c) cs a = Some a' /\ length a' = length bs /\
      forall m, (m < length bs)%nat -> nth m a' z =
        if existsb (fun c => (fst c <=? bq (nth m bs bond0))%nat && (bq (nth m bs bond0) <? snd c)%nat) cs then h m else nth m a z.
  Proof.
    induction cs as [|c cs IH]; intros Hc a La; simpl; [exists a; auto|].
    destruct (lbp_chunk_ok a c) as (a1 & E1 & La1 & V1); [apply Hc; left; auto|auto|]. rewrite E1.
    destruct (IH (fun c H => Hc c (or_intror H)) a1 La1) as (a2 & E2 & La2 & V2). exists a2. split; [exact E2|]. split; [exact La2|].
    intros m Hm. rewrite (V2 m Hm), (V1 m Hm). destruct ((fst c <=? _)%nat && _); simpl; auto. destruct (existsb _ cs); reflexivity.
  Qed.

  Lemma lbp_neighbor_ok cs cs' : chunking 0 np cs -> Permutation cs cs' ->
    exists a, ofold (fun a c => lbp_chunk nl o pv equiv a c) cs' (repeat z (length bs)) = Some a /\ length a = length bs /\
      forall m, (m < length bs)%nat -> nth m a z = if (bq (nth m bs bond0) <? np)%nat then h m else z.
  Proof.
    intros Hch HP.
    assert (Hb : forall c, In c cs' -> (fst c <= snd c <= np)%nat).
    { intros c Hc. apply (Permutation_in c (Permutation_sym HP)) in Hc. unfold chunking in Hch.
      destruct (np <=? 0)%nat; [subst cs; destruct Hc|]. pose proof (splits_bounds _ _ _ Hch c Hc). lia. }
    destruct (lbp_chunks_ok cs' Hb (repeat z (length bs))) as (a & E & La & V); [apply repeat_length|].
    exists a. split; [exact E|]. split; [exact La|]. intros m Hm. rewrite (V m Hm), nth_repeat.
    set (q := bq (nth m bs bond0)).
    assert (X : existsb (fun c => (fst c <=? q)%nat && (q <? snd c)%nat) cs' = (q <? np)%nat).
    { apply Bool.eq_iff_eq_true. rewrite existsb_exists, Nat.ltb_lt. split.
      - intros (c & Hc & B). apply andb_true_iff in B as [B1 B2]. apply Nat.ltb_lt in B2. specialize (Hb c Hc). lia.
      - intros Hq. assert (I : In q (range 0 np)) by (unfold range; apply in_seq; lia).
        rewrite <- (chunking_range _ _ _ Hch) in I. apply in_flat_map in I as (c & Hc & I). exists c.
        split; [apply (Permutation_in c HP Hc)|]. unfold range in I. apply in_seq in I.
        apply andb_true_iff; split; [apply Nat.leb_le|apply Nat.ltb_lt]; lia. }
    rewrite X. reflexivity.
  Qed.
End loops.

(** The maximum over a list. *)
Lemma fold_max {A} (f : A -> R) l a : let m := fold_left (fun x e => let t := f e in if Rlt_bool x t then t else x) l a in
  a <= m /\ (forall e, In e l -> f e <= m) /\ (m = a \/ exists e, In e l /\ m = f e).
Proof.
  revert a. induction l as [|e l IH]; intros a; cbn [fold_left]; cbv zeta.
  - split; [lra|]. split; [intros e []|auto].
  - destruct (IH (if Rlt_bool a (f e) then f e else a)) as (I1 & I2 & I3). cbv zeta in I1, I2, I3. set (m := fold_left _ l _) in *.
    assert (B : a <= (if Rlt_bool a (f e) then f e else a) /\ f e <= (if Rlt_bool a (f e) then f e else a)) by (destruct (Rlt_bool_spec a (f e)); lra).
    split; [lra|]. split.
    + intros x [<-|H]; [lra|auto].
    + destruct I3 as [I3|(x & H & I3)]; [|right; exists x; split; [right; exact H|exact I3]].
      destruct (Rlt_bool a (f e)); [right; exists e; split; [left; reflexivity|exact I3]|left; exact I3].
Qed.
Lemma rotate_id v : rotate qid v = v.
Proof. apply vec_eq; unfold rotate, dot, cross; simpl; ring. Qed.
Lemma rotate_opp q v : rotate (qopp q) v = rotate q v.
Proof. rewrite <- !rotate_matrix, rot_opp. reflexivity. Qed.
Lemma rotate_move q v w : unitq q -> dot v (rotate (qconj q) w) = dot (rotate q v) w.
Proof.
  intros U. assert (N := rotate_norm2 q v (rotate (qconj q) w)). rewrite (proj1 (unitq_norm2 q) U) in N.
  rewrite <- rotate_mul, unit_inv_r, rotate_id in N by exact U. rewrite N. ring.
Qed.
Lemma rotate_norm q v : unitq q -> norm (rotate q v) = norm v.
Proof. intros U. unfold norm. rewrite rotate_norm2, (proj1 (unitq_norm2 q) U). f_equal. ring. Qed.
Lemma carried_unit o g : unitq o -> unitq g -> unitq (qmul o g).
Proof. apply unitq_mul. Qed.
Lemma same_rotate a b v : same_rotation a b -> rotate a v = rotate b v.
Proof. intros [->| ->]; [reflexivity|apply rotate_opp]. Qed.
Lemma same_mul a b c : same_rotation b c -> same_rotation (qmul a b) (qmul a c).
Proof. intros [->| ->]; [left; reflexivity|right]. apply quat_eq; [simpl; unfold dot; simpl; ring|apply vec_eq; simpl; ring]. Qed.
Lemma same_mul_l a b c : same_rotation b c -> same_rotation (qmul b a) (qmul c a).
Proof. intros [->| ->]; [left; reflexivity|right]. apply quat_eq; [simpl; unfold dot; simpl; ring|apply vec_eq; simpl; ring]. Qed.
Lemma same_sym a b : same_rotation a b -> same_rotation b a.
Proof. intros [->| ->]; [left; reflexivity|right]. apply quat_eq; [simpl; ring|apply vec_eq; simpl; ring]. Qed.
Lemma same_trans a b c : same_rotation a b -> same_rotation b c -> same_rotation a c.
Proof. intros H [->| ->]; [exact H|]. destruct H as [->| ->]; [right; reflexivity|left]. apply quat_eq; [simpl; ring|apply vec_eq; simpl; ring]. Qed.
