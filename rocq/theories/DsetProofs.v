(** Rely-guarantee reasoning about the lock-free union-find. *)
From Coq Require Import FunctionalExtensionality Wf_nat.
From Verif Require Export DsetSpec.

Definition rk (m : mem) (i : nat) : nat := rank_of (m i).
(** Order in which parents increase. *)
Definition below (m : mem) (i j : nat) : Prop := rk m i < rk m j \/ (rk m i = rk m j /\ j < i).
Lemma reach_det m a r : reach m a r -> forall r', reach m a r' -> r = r'.
Proof. induction 1; intros r' H'; inversion H'; subst; try congruence; auto. Qed.
Lemma reach_is_root m a r : reach m a r -> par m r = r.
Proof. induction 1; auto. Qed.
Lemma joined_sym m a b : joined m a b -> joined m b a.
Proof. intros (r & H1 & H2). exists r. auto. Qed.
Lemma joined_trans m a b c : joined m a b -> joined m b c -> joined m a c.
Proof. intros (r & H1 & H2) (r' & H3 & H4). pose proof (reach_det _ _ _ H2 _ H3). subst. exists r'. auto. Qed.
Lemma below_trans m i j k : below m i j -> below m j k -> below m i k.
Proof. unfold below. intros [H|[H1 H2]] [H'|[H1' H2']]; lia. Qed.
Lemma below_irrefl m i : ~ below m i i. Proof. unfold below. lia. Qed.

Section Fixed.
Variables (n : nat) (conn : nat -> nat -> Prop).
Hypothesis conn_refl : forall a, conn a a.
Hypothesis conn_sym : forall a b, conn a b -> conn b a.
Hypothesis conn_trans : forall a b c, conn a b -> conn b c -> conn a c.

Definition Inv (m : mem) : Prop := forall i, i < n -> par m i < n /\ conn i (par m i) /\ (par m i <> i -> below m i (par m i)).
Lemma rank_bound (m : mem) : exists R, forall i, i < n -> rk m i <= R.
Proof.
  clear. induction n as [|k [R IH]]; [exists 0; lia|]. exists (Nat.max R (rk m k)). intros i Hi. destruct (Nat.eq_dec i k) as [-> |]; [lia|]. specialize (IH i). lia.
Qed.
(** Induction upwards along the order. *)
Lemma up_ind (m : mem) (P : nat -> Prop) : (forall i, i < n -> (forall j, j < n -> below m i j -> P j) -> P i) -> forall i, i < n -> P i.
Proof.
  intros H. destruct (rank_bound m) as [R HR]. assert (G : forall k i, i < n -> (R - rk m i) * n + i < k -> P i).
  { induction k as [|k IH]; intros i Hi Hk; [destruct (Nat.nlt_0_r _ Hk)|]. apply H; auto. intros j Hj Hb. apply IH; auto. pose proof (HR i Hi). pose proof (HR j Hj). unfold below in Hb. destruct Hb as [Hb|[Hb1 Hb2]]; [|rewrite Hb1 in *; nia].
    assert (S (R - rk m j) <= R - rk m i) by lia. assert ((S (R - rk m j)) * n <= (R - rk m i) * n) by (apply Nat.mul_le_mono_r; auto). nia. }
  intros i Hi. eapply G; eauto.
Qed.
Lemma reach_exists m : Inv m -> forall a, a < n -> exists r, reach m a r /\ r < n /\ (r = a \/ below m a r) /\ conn a r.
Proof.
  intros HI. apply (up_ind m). intros i Hi IH. destruct (HI i Hi) as (H1 & H2 & H3). destruct (Nat.eq_dec (par m i) i) as [E|E].
  - exists i. split; [constructor; auto|]. auto.
  - destruct (IH _ H1 (H3 E)) as (r & R1 & R2 & R3 & R4). exists r. split; [apply reach_up; auto|]. split; auto. split; [|eapply conn_trans; eauto].
    right. destruct R3 as [-> |R3]; auto. eapply below_trans; eauto.
Qed.
Lemma joined_refl m a : Inv m -> a < n -> joined m a a.
Proof. intros HI Ha. destruct (reach_exists m HI a Ha) as (r & R & _). exists r. auto. Qed.
Lemma joined_par m a : Inv m -> a < n -> joined m a (par m a).
Proof.
  intros HI Ha. destruct (Nat.eq_dec (par m a) a) as [E|E]; [rewrite E; apply joined_refl; auto|].
  destruct (reach_exists m HI (par m a)) as (r & R & _); [apply HI; auto|]. exists r. split; auto. apply reach_up; auto.
Qed.
Lemma joined_conn m a b : Inv m -> a < n -> b < n -> joined m a b -> conn a b.
Proof.
  intros HI Ha Hb (r & R1 & R2). destruct (reach_exists m HI a Ha) as (ra & A1 & _ & _ & A2). destruct (reach_exists m HI b Hb) as (rb & B1 & _ & _ & B2).
  rewrite (reach_det _ _ _ A1 _ R1) in A2. rewrite (reach_det _ _ _ B1 _ R2) in B2. eapply conn_trans; [exact A2|]. apply conn_sym. auto.
Qed.

(** How memory may change between two observations. *)
Definition ev (m m' : mem) : Prop :=
  (forall i, i < n -> par m i <> i -> rk m' i = rk m i /\ par m' i <> i) /\ (forall i, i < n -> rk m i <= rk m' i) /\
  (forall a b, a < n -> b < n -> joined m a b -> joined m' a b).
Lemma ev_refl m : ev m m. Proof. repeat split; auto. Qed.
Lemma ev_trans m1 m2 m3 : ev m1 m2 -> ev m2 m3 -> ev m1 m3.
Proof.
  intros (A1 & A2 & A3) (B1 & B2 & B3). split; [|split].
  - intros i Hi Hp. destruct (A1 i Hi Hp) as [E1 E2]. destruct (B1 i Hi E2) as [E3 E4]. split; auto. congruence.
  - intros i Hi. specialize (A2 i Hi). specialize (B2 i Hi). lia.
  - intros. auto.
Qed.
Lemma ev_below m m' i j : ev m m' -> i < n -> j < n -> par m i <> i -> below m i j -> below m' i j.
Proof. intros (A1 & A2 & _) Hi Hj Hp. destruct (A1 i Hi Hp) as [E _]. specialize (A2 j Hj). unfold below. rewrite E. intros [H|[H1 H2]]; lia. Qed.
Lemma ev_root m m' i : ev m m' -> i < n -> par m' i = i -> par m i = i.
Proof. intros (A1 & _) Hi H. destruct (Nat.eq_dec (par m i) i); auto. destruct (A1 i Hi n0). contradiction. Qed.

Lemma upd_same m i w : upd m i w i = w. Proof. unfold upd. rewrite Nat.eqb_refl. auto. Qed.
Lemma upd_other m i w j : j <> i -> upd m i w j = m j. Proof. intros H. unfold upd. rewrite (proj2 (Nat.eqb_neq j i)); auto. Qed.
(** Setting the parent of [x] to [y] above it, when [x] is a root or already in the set of [y]. *)
Lemma write_parent m x y : Inv m -> x < n -> y < n -> below m x y -> conn x y -> (par m x = x \/ joined m x y) ->
  let m' := upd m x (rk m x, y) in Inv m' /\ ev m m' /\ joined m' x y.
Proof.
  intros HI Hx Hy HB HC HJ m'. assert (NE : y <> x) by (intros ->; apply (below_irrefl m x); auto).
  assert (Ex : m' x = (rk m x, y)) by (apply upd_same). assert (Eo : forall j, j <> x -> m' j = m j) by (intros; apply upd_other; auto). clearbody m'.
  assert (RK : forall j, rk m' j = rk m j). { intros j. unfold rk at 1. destruct (Nat.eq_dec j x) as [-> |]; [rewrite Ex; auto|rewrite Eo by auto; auto]. }
  assert (BW : forall i j, below m' i j <-> below m i j) by (intros; unfold below; rewrite !RK; tauto).
  assert (PX : par m' x = y) by (unfold par; rewrite Ex; auto). assert (PO : forall j, j <> x -> par m' j = par m j) by (intros j Hj; unfold par; rewrite Eo; auto).
  assert (HI' : Inv m').
  { intros i Hi. destruct (Nat.eq_dec i x) as [-> |Hne]; [rewrite PX, BW; auto|rewrite PO by auto; rewrite BW; apply HI; auto]. }
  destruct (reach_exists m HI y Hy) as (ry & RY & RYn & RY2 & _).
  assert (G : forall a, a < n -> forall r, reach m a r -> reach m' a (if Nat.eq_dec r x then ry else r)).
  { apply (up_ind m (fun a => forall r, reach m a r -> reach m' a (if Nat.eq_dec r x then ry else r))). intros a Ha IH r HR. destruct (Nat.eq_dec a x) as [-> |Hne].
    - assert (R' : reach m' y ry). { specialize (IH y Hy HB ry RY). destruct (Nat.eq_dec ry x); auto. }
      assert (RX : reach m' x ry) by (apply reach_up; rewrite PX; auto). destruct (Nat.eq_dec r x) as [-> |Hr]; auto.
      destruct HJ as [HJ|(r' & J1 & J2)].
      + destruct Hr. apply (reach_det m x); auto. constructor; auto.
      + rewrite (reach_det _ _ _ HR _ J1), (reach_det _ _ _ J2 _ RY). auto.
    - inversion HR as [a' E|a' r' E HR']; subst.
      + destruct (Nat.eq_dec r x); [contradiction|]. constructor. rewrite PO; auto.
      + apply reach_up; [rewrite PO; auto|]. rewrite PO by auto. apply IH; auto; apply HI; auto. }
  split; auto. split.
  - split; [|split].
    + intros i Hi Hp. rewrite RK. split; auto. destruct (Nat.eq_dec i x) as [-> |]; [rewrite PX; auto|rewrite PO; auto].
    + intros. rewrite RK. auto.
    + intros a b Ha Hb (r & R1 & R2). exists (if Nat.eq_dec r x then ry else r). auto.
  - rewrite <- PX. apply joined_par; auto.
Qed.
(** Raising the rank of a root. *)
Lemma write_rank m x : Inv m -> x < n -> par m x = x -> let m' := upd m x (S (rk m x), x) in Inv m' /\ ev m m'.
Proof.
  intros HI Hx HP m'. assert (Ex : m' x = (S (rk m x), x)) by (apply upd_same). assert (Eo : forall j, j <> x -> m' j = m j) by (intros; apply upd_other; auto). clearbody m'.
  assert (PP : forall j, par m' j = par m j). { intros j. unfold par at 1. destruct (Nat.eq_dec j x) as [-> |]; [rewrite Ex; auto|rewrite Eo by auto; auto]. }
  assert (RX : rk m' x = S (rk m x)) by (unfold rk at 1; rewrite Ex; auto). assert (RO : forall j, j <> x -> rk m' j = rk m j) by (intros j Hj; unfold rk; rewrite Eo; auto).
  assert (RG : forall j, rk m j <= rk m' j) by (intros j; destruct (Nat.eq_dec j x) as [-> |]; [lia|rewrite RO; auto]).
  assert (G : forall a r, reach m a r -> reach m' a r) by (induction 1; [constructor; rewrite PP; auto|apply reach_up; rewrite PP; auto]).
  split; [|split; [|split]].
  - intros i Hi. rewrite PP. destruct (HI i Hi) as (A1 & A2 & A3). split; auto. split; auto. intros Hne. assert (i <> x) by congruence. specialize (A3 Hne). unfold below in *. rewrite (RO i) by auto. pose proof (RG (par m i)).
    destruct A3 as [?|[? ?]]; lia.
  - intros i Hi Hne. rewrite PP. split; auto. apply RO. congruence.
  - auto.
  - intros a b _ _ (r & R1 & R2). exists r. auto.
Qed.

(** [safe N Q m p]: for [N] steps, whatever the environment does between them, [p] only makes allowed changes, and if it returns, [Q] holds. *)
Fixpoint safe {A} (N : nat) (Q : A -> mem -> Prop) (m : mem) (p : prog A) : Prop :=
  match N with
  | 0 => True
  | S N => forall m', Inv m' -> ev m m' ->
      match p with
      | Ret a => Q a m'
      | Read i k => safe N Q m' (k (m' i))
      | Cas weak i old new k => (m' i = old -> Inv (upd m' i new) /\ ev m' (upd m' i new) /\ safe N Q (upd m' i new) (k true)) /\ safe N Q m' (k false)
      | CallFind id k => safe N Q m' (bind (find_body id) k)
      | CallSame a b k => safe N Q m' (bind (same_body a b) k)
      | CallUnite a b k => safe N Q m' (bind (unite_body a b) k)
      end
  end.
Lemma safe_ev {A} N (Q : A -> mem -> Prop) m m' p : safe N Q m p -> ev m m' -> safe N Q m' p.
Proof. destruct N; simpl; auto. intros H E m'' HI E'. apply H; auto. eapply ev_trans; eauto. Qed.
Lemma safe_down {A} N : forall (Q : A -> mem -> Prop) m p, safe (S N) Q m p -> safe N Q m p.
Proof.
  induction N as [|N IH]; intros Q m p H; [exact I|]. intros m' HI E. specialize (H m' HI E). destruct p; auto.
  destruct H as [H1 H2]. split; [|apply IH; auto]. intros E1. destruct (H1 E1) as (A1 & A2 & A3). auto.
Qed.
Lemma bind_bind {A B C} (p : prog A) (f : A -> prog B) (g : B -> prog C) : bind (bind p f) g = bind p (fun a => bind (f a) g).
Proof. induction p; simpl; auto; f_equal; apply functional_extensionality; auto. Qed.
Lemma bind_ret {A} (p : prog A) : bind p Ret = p.
Proof. induction p; simpl; auto; f_equal; apply functional_extensionality; auto. Qed.
Lemma safe_bind {A B} N : forall (P : A -> mem -> Prop) (Q : B -> mem -> Prop) m p f, Inv m -> safe N P m p ->
  (forall a m' N', N' <= N -> Inv m' -> ev m m' -> P a m' -> safe N' Q m' (f a)) -> safe N Q m (bind p f).
Proof.
  induction N as [|N IH]; intros P Q m p f HI HP HF; [exact I|].
  assert (HF' : forall m', ev m m' -> forall a m'' N', N' <= N -> Inv m'' -> ev m' m'' -> P a m'' -> safe N' Q m'' (f a)).
  { intros m' E a m'' N' HN HI'' E' HP''. apply HF; auto. eapply ev_trans; eauto. }
  destruct p as [a|i k|weak i old new k|id k|a b k|a b k]; cbn [bind].
  - apply HF; auto; [apply ev_refl|]. apply (HP m HI (ev_refl m)).
  - intros m' HI' E. specialize (HP m' HI' E). exact (IH P Q m' _ f HI' HP (HF' m' E)).
  - intros m' HI' E. destruct (HP m' HI' E) as [H1 H2]. split; [|exact (IH P Q m' _ f HI' H2 (HF' m' E))]. intros E1. destruct (H1 E1) as (A1 & A2 & A3). split; auto. split; auto. apply (IH P); auto. apply HF'. eapply ev_trans; eauto.
  - intros m' HI' E. specialize (HP m' HI' E). rewrite <- bind_bind. exact (IH P Q m' _ f HI' HP (HF' m' E)).
  - intros m' HI' E. specialize (HP m' HI' E). rewrite <- bind_bind. exact (IH P Q m' _ f HI' HP (HF' m' E)).
  - intros m' HI' E. specialize (HP m' HI' E). rewrite <- bind_bind. exact (IH P Q m' _ f HI' HP (HF' m' E)).
Qed.
Lemma safe_weaken {A} N (P Q : A -> mem -> Prop) m p : Inv m -> safe N P m p -> (forall a m', Inv m' -> ev m m' -> P a m' -> Q a m') -> (forall a m' m'', Q a m' -> Inv m'' -> ev m' m'' -> Q a m'') -> safe N Q m p.
Proof. intros HI HP HQ HM. rewrite <- (bind_ret p). eapply safe_bind; eauto. intros a m' N' _ HI' E HPa. destruct N'; [exact I|]. intros m'' HI'' E''. eapply HM; eauto. Qed.

(** find returns a node that is in the set of the argument and was the root of that set at some moment during the call. *)
Definition found (m0 : mem) (id r : nat) (m : mem) : Prop :=
  r < n /\ exists mr, Inv mr /\ ev m0 mr /\ ev mr m /\ par mr r = r /\ joined mr id r.
Lemma found_ev m0 id r m m' : found m0 id r m -> ev m m' -> found m0 id r m'.
Proof. intros (H & mr & A1 & A2 & A3 & A4 & A5) E. split; auto. exists mr. split; auto. split; auto. split; [exact (ev_trans _ _ _ A3 E)|]. auto. Qed.
Lemma ev_joined m m' a b : ev m m' -> a < n -> b < n -> joined m a b -> joined m' a b.
Proof. intros (_ & _ & H). auto. Qed.
Lemma safe_find N : forall id m0 m, Inv m -> ev m0 m -> id < n -> safe N (found m0 id) m (CallFind id Ret).
Proof.
  induction N as [N IH] using lt_wf_ind. intros id m0 m HI E0 Hid. destruct N as [|N]; [exact I|]. intros m1 HI1 E1. cbn [bind find_body]. destruct N as [|N]; [exact I|].
  intros m2 HI2 E2. cbn [bind]. assert (E02 : ev m0 m2) by eauto using ev_trans. change (parent_of (m2 id)) with (par m2 id). destruct (Nat.eqb_spec id (par m2 id)) as [EQ|NE].
  - cbn [bind]. destruct N; [exact I|]. intros m3 HI3 E3. split; auto. exists m2. split; auto. split; auto. split; auto. split; [auto|]. apply joined_refl; auto.
  - cbn [bind]. destruct N as [|N]; [exact I|]. intros m3 HI3 E3. cbn [bind]. set (value := m3 id). set (p := parent_of value).
    assert (NR : par m3 id <> id) by (destruct E3 as (A & _); apply A; auto). change (par m3 id) with p in NR.
    destruct (HI3 id Hid) as (Hp & Cp & Bp). change (par m3 id) with p in Hp, Cp, Bp.
    destruct N as [|N]; [exact I|]. intros m4 HI4 E4. cbn [bind]. set (q := parent_of (m4 p)). destruct (HI4 p Hp) as (Hq & Cq & Bq). change (par m4 p) with q in Hq, Cq, Bq.
    assert (J4 : joined m4 id q).
    { apply (joined_trans m4 id p q); [|exact (joined_par m4 p HI4 Hp)]. apply (ev_joined m3 m4 id p); auto. exact (joined_par m3 id HI3 Hid). }
    assert (E04 : ev m0 m4) by eauto using ev_trans. cbv zeta.
    assert (TAIL : forall N' m5, N' <= N -> Inv m5 -> ev m4 m5 -> safe N' (found m0 id) m5 (CallFind q Ret)).
    { intros N' m5 HN HI5 E5. apply safe_weaken with (P := found m5 q); auto.
      - apply IH; auto; [lia|apply ev_refl].
      - intros r m6 HI6 E6 (Hr & mr & A1 & A2 & A3 & A4 & A5). split; auto. exists mr. split; auto. split; [eauto using ev_trans|]. split; auto. split; auto. eapply joined_trans; [|exact A5].
        eapply ev_joined; [|exact Hid|exact Hq|exact J4]. eauto using ev_trans.
      - intros r m6 m7 H _ E. eapply found_ev; eauto. }
    destruct (word_eqb value (rank_of value, q)) eqn:W.
    + apply TAIL; auto. apply ev_refl.
    + cbn [bind]. destruct N as [|N]; [exact I|]. intros m5 HI5 E5. cbn [bind]. assert (E45 := E5). split.
      * intros EV. assert (NPQ : p <> q). { intros PQ. unfold word_eqb in W. cbn [fst snd] in W. rewrite Nat.eqb_refl in W. change (snd value) with p in W. rewrite PQ, Nat.eqb_refl in W. discriminate. }
        assert (B1 : below m5 id p). { destruct (HI5 id Hid) as (_ & _ & B). assert (EP : par m5 id = p) by (unfold par, p; rewrite EV; auto). rewrite EP in B. apply B. auto. }
        assert (B2 : below m5 p q). { apply (ev_below m4); auto. }
        destruct (write_parent m5 id q HI5 Hid Hq) as (W1 & W2 & _).
        { eapply below_trans; eauto. } { eapply conn_trans; eauto. } { right. eapply ev_joined; eauto. }
        assert (EW : (rank_of value, q) = (rk m5 id, q)) by (unfold rk; rewrite EV; auto). rewrite EW. split; auto. split; auto. apply TAIL; auto. eapply ev_trans; eauto.
      * apply TAIL; auto.
Qed.
Lemma call_find {A} N (Q : A -> mem -> Prop) m id f : Inv m -> id < n ->
  (forall r m' N', N' <= N -> Inv m' -> ev m m' -> found m id r m' -> safe N' Q m' (f r)) -> safe N Q m (CallFind id f).
Proof.
  intros HI Hid HF. change (CallFind id f) with (bind (CallFind id Ret) f). apply safe_bind with (P := found m id); auto. apply safe_find; auto. apply ev_refl.
Qed.
(** Was [same] false, the two elements were in different sets at some moment during the call. *)
Definition tested (m0 : mem) (a b : nat) (res : bool) (m : mem) : Prop :=
  if res then joined m a b else exists mt, Inv mt /\ ev m0 mt /\ ev mt m /\ ~ joined mt a b.
Lemma found_joined m0 id r m : id < n -> found m0 id r m -> r < n /\ joined m id r.
Proof. intros Hid (Hr & mr & A1 & A2 & A3 & A4 & A5). split; auto. eapply ev_joined; eauto. Qed.
Lemma safe_same N : forall a b m0 m, Inv m -> ev m0 m -> a < n -> b < n -> safe N (tested m0 a b) m (CallSame a b Ret).
Proof.
  induction N as [N IH] using lt_wf_ind. intros a b m0 m HI E0 Ha Hb. destruct N as [|N]; [exact I|]. intros m1 HI1 E1. unfold same_body. cbn [bind].
  apply call_find; auto. intros a' m2 N2 L2 HI2 E2 Fa. cbn [bind]. apply call_find; auto. intros b' m3 N3 L3 HI3 E3 Fb.
  destruct (found_joined _ _ _ _ Ha Fa) as [Ha' Ja]. destruct (found_joined _ _ _ _ Hb Fb) as [Hb' Jb]. assert (Ja3 : joined m3 a a') by (eapply ev_joined; eauto).
  destruct (Nat.eqb_spec a' b') as [EQ|NE]; cbn [bind].
  - subst b'. destruct N3; [exact I|]. intros m4 HI4 E4. simpl. eapply ev_joined; eauto. eapply joined_trans; [exact Ja3|]. apply joined_sym. auto.
  - destruct N3 as [|N3]; [exact I|]. intros m4 HI4 E4. change (parent_of (m4 a')) with (par m4 a'). destruct (Nat.eqb_spec (par m4 a') a') as [RT|NR]; cbn [bind].
    + destruct N3 as [|N3]; [exact I|]. intros m5 HI5 E5. simpl. destruct Fb as (_ & mb & B1 & B2 & B3 & B4 & B5). exists mb. split; auto. split; [eauto using ev_trans|]. split; [eauto using ev_trans|].
      intros J. assert (RA : par mb a' = a') by (apply (ev_root mb m4); auto; eauto using ev_trans).
      assert (JA : joined mb a a') by (eapply ev_joined; [exact B2| | |]; eauto).
      assert (JJ : joined mb a' b') by exact (joined_trans _ _ _ _ (joined_sym _ _ _ JA) (joined_trans _ _ _ _ J B5)).
      destruct JJ as (r & R1 & R2). apply NE. rewrite (reach_det _ _ _ (reach_root _ _ RA) _ R1), (reach_det _ _ _ (reach_root _ _ B4) _ R2). auto.
    + assert (E04 : ev m0 m4) by eauto using ev_trans.
      apply safe_weaken with (P := tested m4 a' b'); auto.
      * apply IH; auto; [lia|apply ev_refl].
      * intros [|] m5 HI5 E5; simpl.
        -- intros J. eapply joined_trans; [|eapply joined_trans; [exact J|]].
           ++ eapply ev_joined; [|exact Ha|exact Ha'|exact Ja3]. eauto using ev_trans.
           ++ apply joined_sym. eapply ev_joined; [|exact Hb|exact Hb'|exact Jb]. eauto using ev_trans.
        -- intros (mt & A1 & A2 & A3 & A4). exists mt. split; auto. split; [eauto using ev_trans|]. split; auto. intros J. apply A4.
           eapply joined_trans; [apply joined_sym|eapply joined_trans; [exact J|]].
           ++ eapply ev_joined; [|exact Ha|exact Ha'|exact Ja3]. eauto using ev_trans.
           ++ eapply ev_joined; [|exact Hb|exact Hb'|exact Jb]. eauto using ev_trans.
      * intros [|] m5 m6 H HI6 E6; simpl in *; [eapply ev_joined; eauto|]. destruct H as (mt & A1 & A2 & A3 & A4). exists mt. split; auto. split; auto. split; auto. exact (ev_trans _ _ _ A3 E6).
Qed.
Lemma safe_unite N : forall a b m, Inv m -> a < n -> b < n -> conn a b -> safe N (fun _ m' => joined m' a b) m (CallUnite a b Ret).
Proof.
  induction N as [N IH] using lt_wf_ind. intros a b m HI Ha Hb HC. destruct N as [|N]; [exact I|]. intros m1 HI1 E1. unfold unite_body. cbn [bind].
  apply call_find; auto. intros a' m2 N2 L2 HI2 E2 Fa. cbn [bind]. apply call_find; auto. intros b' m3 N3 L3 HI3 E3 Fb.
  destruct (found_joined _ _ _ _ Ha Fa) as [Ha' Ja]. destruct (found_joined _ _ _ _ Hb Fb) as [Hb' Jb]. assert (Ja3 : joined m3 a a') by (eapply ev_joined; eauto).
  assert (C' : conn a' b').
  { exact (conn_trans _ _ _ (conn_sym _ _ (joined_conn m3 a a' HI3 Ha Ha' Ja3)) (conn_trans _ _ _ HC (joined_conn m3 b b' HI3 Hb Hb' Jb))). }
  assert (LIFT : forall m', ev m3 m' -> joined m' a' b' -> joined m' a b).
  { intros m' E J. exact (joined_trans _ _ _ _ (ev_joined _ _ a a' E Ha Ha' Ja3) (joined_trans _ _ _ _ J (joined_sym _ _ _ (ev_joined _ _ b b' E Hb Hb' Jb)))). }
  destruct (Nat.eqb_spec a' b') as [EQ|NE]; cbn [bind].
  - destruct N3; [exact I|]. intros m4 HI4 E4. apply LIFT; auto. subst. apply joined_refl; auto.
  - destruct N3 as [|N3]; [exact I|]. intros m4 HI4 E4. destruct N3 as [|N3]; [exact I|]. intros m5 HI5 E5.
    set (r1 := rank_of (m4 a')). set (r2 := rank_of (m5 b')). cbv zeta.
    (* the two orders of the arguments are treated alike *)
    assert (G : forall s1 x s2 y, x < n -> y < n -> conn x y -> (forall m', ev m3 m' -> joined m' x y -> joined m' a b) -> s2 <= rk m5 y -> (s1 < s2 \/ (s1 = s2 /\ y < x)) ->
       safe N3 (fun _ m' => joined m' a b) m5 (bind (Cas false x (s1, x) (s1, y) (fun ok => if ok then (if Nat.eqb s1 s2 then Cas true y (s2, y) (S s2, y) (fun _ => Ret y) else Ret y) else CallUnite x y Ret)) Ret)).
    { intros s1 x s2 y Hx Hy Cxy LF HS HO. cbn [bind]. destruct N3 as [|N3']; [exact I|]. intros m6 HI6 E6. split.
      - intros EX. assert (R6 : rk m6 x = s1) by (unfold rk; rewrite EX; auto). assert (P6 : par m6 x = x) by (unfold par; rewrite EX; auto).
        assert (RY : s2 <= rk m6 y) by (destruct E6 as (_ & A & _); specialize (A y Hy); lia).
        destruct (write_parent m6 x y HI6 Hx Hy) as (W1 & W2 & W3); auto.
        { unfold below. rewrite R6. destruct HO as [HO|[HO1 HO2]]; lia. }
        rewrite R6 in W1, W2, W3. split; auto. split; auto. set (m7 := upd m6 x (s1, y)) in *.
        assert (J7 : joined m7 a b) by (apply LF; auto; eauto using ev_trans).
        assert (RET : forall N' m8, Inv m8 -> ev m7 m8 -> safe N' (fun (_ : nat) m' => joined m' a b) m8 (Ret y)).
        { intros N' m8 HI8 E8. destruct N'; [exact I|]. intros m9 HI9 E9. eapply ev_joined; [|exact Ha|exact Hb|exact J7]. eauto using ev_trans. }
        destruct (Nat.eqb s1 s2); cbn [bind]; [|apply RET; auto; apply ev_refl]. destruct N3' as [|N3']; [exact I|]. intros m8 HI8 E8. split; [|apply RET; auto].
        intros EY. destruct (write_rank m8 y HI8 Hy) as [V1 V2]; [unfold par; rewrite EY; auto|]. assert (EW : (S (rk m8 y), y) = (S s2, y)) by (unfold rk; rewrite EY; auto). rewrite EW in V1, V2.
        split; auto. split; auto. apply RET; auto. eapply ev_trans; eauto.
      - cbn [bind]. apply safe_weaken with (P := fun _ m' => joined m' x y); auto.
        + apply IH; auto. lia.
        + intros _ m7 HI7 E7 J. apply LF; auto. eauto using ev_trans.
        + intros _ m7 m8 J HI8 E8. eapply ev_joined; eauto. }
    destruct (Nat.ltb r2 r1 || (Nat.eqb r1 r2 && Nat.ltb a' b')) eqn:SW.
    + apply G; auto.
      * intros m' E J. apply LIFT; auto. apply joined_sym; auto.
      * destruct E5 as (_ & A & _). apply A; auto.
      * apply orb_true_iff in SW as [SW|SW]; [apply Nat.ltb_lt in SW; auto|]. apply andb_true_iff in SW as [S1 S2]. apply Nat.eqb_eq in S1. apply Nat.ltb_lt in S2. auto.
    + apply G; auto. apply orb_false_iff in SW as [S1 S2]. apply Nat.ltb_ge in S1. apply andb_false_iff in S2. destruct (Nat.eq_dec r1 r2) as [EQ|]; [|lia].
      right. split; auto. destruct S2 as [S2|S2]; [apply Nat.eqb_neq in S2; contradiction|]. apply Nat.ltb_ge in S2. lia.
Qed.

(** Soundness for interleaved threads. *)
Definition threads_safe {A} (Qs : list (A -> mem -> Prop)) (m : mem) (ps : list (prog A)) : Prop := Inv m /\ Forall2 (fun Q p => forall N, safe N Q m p) Qs ps.
Lemma tstep_safe {A} (Q : A -> mem -> Prop) m p m' p' : Inv m -> (forall N, safe N Q m p) -> tstep m p m' p' -> Inv m' /\ ev m m' /\ forall N, safe N Q m' p'.
Proof.
  intros HI HS T. destruct T.
  - split; auto. split; [apply ev_refl|]. intros N. apply (HS (S N) m HI (ev_refl m)).
  - destruct (proj1 (HS 1 m HI (ev_refl m)) H) as (A1 & A2 & _). split; auto. split; auto. intros N. destruct (HS (S N) m HI (ev_refl m)) as [B _]. apply (B H).
  - split; auto. split; [apply ev_refl|]. intros N. apply (HS (S N) m HI (ev_refl m)).
  - split; auto. split; [apply ev_refl|]. intros N. apply (HS (S N) m HI (ev_refl m)).
  - split; auto. split; [apply ev_refl|]. intros N. apply (HS (S N) m HI (ev_refl m)).
  - split; auto. split; [apply ev_refl|]. intros N. apply (HS (S N) m HI (ev_refl m)).
Qed.
Lemma pstep_safe {A} (Qs : list (A -> mem -> Prop)) s s' : threads_safe Qs (fst s) (snd s) -> pstep s s' -> threads_safe Qs (fst s') (snd s') /\ ev (fst s) (fst s').
Proof.
  intros [HI HF] P. destruct P as [m l1 p l2 m' p' T]. cbn [fst snd] in *. apply Forall2_app_inv_r in HF as (Q1 & Q2 & F1 & F2 & ->). inversion F2 as [|Q ? Q2' ? HQ F2' ]; subst.
  destruct (tstep_safe Q m p m' p' HI HQ T) as (HI' & E & HS). split; auto. split; auto.
  assert (MONO : forall (Qs : list (A -> mem -> Prop)) ps, Forall2 (fun Q p => forall N, safe N Q m p) Qs ps -> Forall2 (fun Q p => forall N, safe N Q m' p) Qs ps).
  { intros Qs ps F. induction F; constructor; auto. intros N. eapply safe_ev; eauto. }
  apply Forall2_app; auto.
Qed.
Lemma star_safe {A} (Qs : list (A -> mem -> Prop)) s s' : star pstep s s' -> threads_safe Qs (fst s) (snd s) -> threads_safe Qs (fst s') (snd s') /\ ev (fst s) (fst s').
Proof.
  induction 1 as [s|s s1 s2 H ST IH]; intros HS; [split; auto; apply ev_refl|]. destruct (pstep_safe Qs _ _ HS H) as [H1 H2]. destruct (IH H1) as [H3 H4]. split; auto. eapply ev_trans; eauto.
Qed.
End Fixed.
