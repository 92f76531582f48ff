(** Every execution of the lock-free union-find ends: memory can change only finitely often, and between two changes every
    thread has finitely many steps. *)
From Coq Require Import FunctionalExtensionality Wf_nat.
From Verif Require Import DsetSpec DsetProofs DsetProps DsetProofs2.

Section Ends.
Variables (n : nat) (conn : nat -> nat -> Prop).
Notation Inv := (Inv n conn).
Notation ev := (ev n).
(** What a successful compare-exchange does: it moves a parent up, or raises a rank. *)
Definition up (m : mem) (i : nat) (w : word) : Prop :=
  i < n /\ ((rank_of w = rk m i /\ parent_of w < n /\ below m (par m i) (parent_of w)) \/ (parent_of w = par m i /\ rk m i < rank_of w)).
Definition key (m : mem) (p : nat) : nat := (n - rk m p) * n + p.
Definition share (m : mem) (i : nat) : nat := (n - rk m i) + key m (par m i).
Definition left_over (m : mem) : nat := list_sum (map (share m) (seq 0 n)).
Lemma sum_less (f g : nat -> nat) i l : (forall j, In j l -> f j <= g j) -> In i l -> f i < g i -> list_sum (map f l) < list_sum (map g l).
Proof.
  intros H Hi L. assert (Q : forall l, (forall j, In j l -> f j <= g j) -> list_sum (map f l) <= list_sum (map g l)).
  { clear. induction l as [|a l IH]; simpl; intros H; auto. pose proof (H a (or_introl eq_refl)). assert (list_sum (map f l) <= list_sum (map g l)) by (apply IH; auto). lia. }
  induction l as [|a l IH]; [destruct Hi|]. simpl. pose proof (H a (or_introl eq_refl)). destruct Hi as [->|Hi].
  - assert (list_sum (map f l) <= list_sum (map g l)) by (apply Q; intros; apply H; right; auto). lia.
  - assert (list_sum (map f l) < list_sum (map g l)) by (apply IH; auto; intros; apply H; right; auto). lia.
Qed.
Lemma key_below m p q : p < n -> q < n -> rk m q <= n -> below m p q -> key m q < key m p.
Proof.
  intros Hp Hq Rq [B|[B1 B2]]; unfold key; [|rewrite B1; lia]. assert (L : S (n - rk m q) <= n - rk m p) by lia. assert ((S (n - rk m q)) * n <= (n - rk m p) * n) by (apply Nat.mul_le_mono_r; auto). simpl in *. lia.
Qed.
Lemma up_less m i w : Inv m -> (forall j, j < n -> rk (upd m i w) j <= n) -> up m i w -> left_over (upd m i w) < left_over m.
Proof.
  intros HI HR [Hi U]. unfold left_over. set (m' := upd m i w) in *. assert (RO : forall j, j <> i -> m' j = m j) by (intros; apply upd_other; auto). assert (RS : m' i = w) by apply upd_same.
  apply sum_less with (i := i); [|apply in_seq; lia|].
  - intros j Hj. apply in_seq in Hj. unfold share. destruct U as [(U1 & U2 & U3)|(U1 & U2)].
    + assert (RK : forall k, rk m' k = rk m k) by (intros k; unfold rk; destruct (Nat.eq_dec k i) as [->|]; [rewrite RS; exact U1|rewrite RO; auto]).
      assert (KK : forall k, key m' k = key m k) by (intros k; unfold key; rewrite RK; auto). rewrite RK, KK. destruct (Nat.eq_dec j i) as [->|Ne].
      * unfold par at 1. rewrite RS. pose proof (key_below m (par m i) (parent_of w)) as K. destruct (HI i Hi) as (P & _). assert (rk m (parent_of w) <= n) by (rewrite <- RK; apply HR; auto). specialize (K P U2 H U3). lia.
      * unfold par at 1. rewrite RO by auto. auto.
    + assert (RK : forall k, rk m k <= rk m' k) by (intros k; unfold rk; destruct (Nat.eq_dec k i) as [->|]; [rewrite RS; unfold rk in U2; lia|rewrite RO; auto]).
      assert (PK : par m' j = par m j) by (unfold par; destruct (Nat.eq_dec j i) as [->|]; [rewrite RS; exact U1|rewrite RO; auto]). rewrite PK.
      unfold key. pose proof (RK j). pose proof (RK (par m j)). assert ((n - rk m' (par m j)) * n <= (n - rk m (par m j)) * n) by (apply Nat.mul_le_mono_r; lia). lia.
  - unfold share. destruct U as [(U1 & U2 & U3)|(U1 & U2)].
    + assert (RK : forall k, rk m' k = rk m k) by (intros k; unfold rk; destruct (Nat.eq_dec k i) as [->|]; [rewrite RS; exact U1|rewrite RO; auto]).
      assert (KK : forall k, key m' k = key m k) by (intros k; unfold key; rewrite RK; auto). rewrite RK, KK. unfold par at 1. rewrite RS.
      pose proof (key_below m (par m i) (parent_of w)) as K. destruct (HI i Hi) as (P & _). assert (rk m (parent_of w) <= n) by (rewrite <- RK; apply HR; auto). specialize (K P U2 H U3). lia.
    + assert (RK : forall k, rk m k <= rk m' k) by (intros k; unfold rk; destruct (Nat.eq_dec k i) as [->|]; [rewrite RS; unfold rk in U2; lia|rewrite RO; auto]).
      assert (PK : par m' i = par m i) by (unfold par; rewrite RS; exact U1). rewrite PK. assert (L : rk m i < rk m' i) by (unfold rk at 2; rewrite RS; auto). pose proof (HR i Hi).
      unfold key. pose proof (RK (par m i)). assert ((n - rk m' (par m i)) * n <= (n - rk m (par m i)) * n) by (apply Nat.mul_le_mono_r; lia). lia.
Qed.

(** Ending as long as memory stays the same. *)
Inductive bt {A} (m : mem) (Q : A -> Prop) : prog A -> Prop :=
| bt_ret a : Q a -> bt m Q (Ret a)
| bt_read i k : bt m Q (k (m i)) -> bt m Q (Read i k)
| bt_cas weak i old new k : (m i <> old \/ weak = true -> bt m Q (k false)) -> bt m Q (Cas weak i old new k)
| bt_cfind id k : bt m Q (bind (find_body id) k) -> bt m Q (CallFind id k)
| bt_csame a b k : bt m Q (bind (same_body a b) k) -> bt m Q (CallSame a b k)
| bt_cunite a b k : bt m Q (bind (unite_body a b) k) -> bt m Q (CallUnite a b k).
Lemma bt_bind {A B} m (P : A -> Prop) (Q : B -> Prop) p f : bt m P p -> (forall a, P a -> bt m Q (f a)) -> bt m Q (bind p f).
Proof.
  intros H HF. induction H as [a H|i k H IH|weak i old new k H IH|id k H IH|a b k H IH|a b k H IH]; cbn [bind]; auto; constructor; auto; rewrite <- bind_bind; auto.
Qed.
Lemma bt_find {A} m (Q : A -> Prop) f : Inv m -> (forall r, r < n -> par m r = r -> bt m Q (f r)) -> forall id, id < n -> bt m Q (CallFind id f).
Proof.
  intros HI HF. apply (up_ind n m). intros id Hid IH. destruct (HI id Hid) as (P1 & _ & P3). apply bt_cfind. unfold find_body. cbn [bind]. apply bt_read. destruct (Nat.eqb_spec id (parent_of (m id))) as [E|E]; cbn [bind].
  - apply HF; auto.
  - apply bt_read. cbn [bind]. apply bt_read. cbv zeta. cbn [bind]. change (parent_of (m id)) with (par m id) in *. change (parent_of (m (par m id))) with (par m (par m id)).
    destruct (HI _ P1) as (R1 & _ & R3). assert (B : below m id (par m (par m id))).
    { assert (below m id (par m id)) by (apply P3; auto). destruct (Nat.eq_dec (par m (par m id)) (par m id)) as [->|Ne]; auto. eapply below_trans; eauto. }
    destruct (word_eqb _ _); cbn [bind]; [apply IH; auto|]. apply bt_cas. intros _. apply IH; auto.
Qed.
Lemma bt_same {A} m (Q : A -> Prop) f : Inv m -> (forall x, bt m Q (f x)) -> forall a b, a < n -> b < n -> bt m Q (CallSame a b f).
Proof.
  intros HI HF a b Ha Hb. apply bt_csame. unfold same_body. cbn [bind]. apply bt_find; auto. intros a' Ha' Ra. cbn [bind]. apply bt_find; auto. intros b' Hb' Rb. destruct (Nat.eqb a' b'); cbn [bind]; auto.
  apply bt_read. unfold par in Ra. rewrite Ra, Nat.eqb_refl. cbn [bind]. auto.
Qed.
Lemma bt_unite {A} m (Q : A -> Prop) f : Inv m -> (forall x, bt m Q (f x)) -> forall a b, a < n -> b < n -> bt m Q (CallUnite a b f).
Proof.
  intros HI HF a b Ha Hb. apply bt_cunite. unfold unite_body. cbn [bind]. apply bt_find; auto. intros a' Ha' Ra. cbn [bind]. apply bt_find; auto. intros b' Hb' Rb. destruct (Nat.eqb a' b'); cbn [bind]; auto.
  apply bt_read. cbn [bind]. apply bt_read. cbv zeta. unfold par in Ra, Rb.
  destruct (Nat.ltb (rank_of (m b')) (rank_of (m a')) || _); cbn [bind]; apply bt_cas; intros [C|C]; try discriminate; exfalso; apply C; [rewrite (surjective_pairing (m b'))|rewrite (surjective_pairing (m a'))]; unfold rank_of, parent_of in *; simpl; congruence.
Qed.

(** Ending between any two changes of memory, whatever the other threads do; and every change goes up. *)
Fixpoint tsafe {A} (N : nat) (Q : A -> Prop) (m : mem) (p : prog A) : Prop :=
  match N with
  | 0 => True
  | S N => forall m', Inv m' -> ev m m' -> bt m' Q p /\
      match p with
      | Ret a => Q a
      | Read i k => tsafe N Q m' (k (m' i))
      | Cas weak i old new k => (m' i = old -> up m' i new /\ (Inv (upd m' i new) -> ev m' (upd m' i new) -> tsafe N Q (upd m' i new) (k true))) /\ (m' i <> old \/ weak = true -> tsafe N Q m' (k false))
      | CallFind id k => tsafe N Q m' (bind (find_body id) k)
      | CallSame a b k => tsafe N Q m' (bind (same_body a b) k)
      | CallUnite a b k => tsafe N Q m' (bind (unite_body a b) k)
      end
  end.
Lemma tsafe_ev {A} N (Q : A -> Prop) m m' p : tsafe N Q m p -> ev m m' -> tsafe N Q m' p.
Proof. destruct N; simpl; auto. intros H E m'' HI E'. apply H; auto. eapply ev_trans; eauto. Qed.
Lemma tsafe_bind {A B} N : forall (P : A -> Prop) (Q : B -> Prop) m p f, Inv m -> tsafe N P m p -> (forall a m' N', N' <= N -> Inv m' -> ev m m' -> P a -> tsafe N' Q m' (f a)) -> tsafe N Q m (bind p f).
Proof.
  induction N as [|N IH]; intros P Q m p f HI HP HF; [exact I|].
  assert (HF' : forall m', ev m m' -> forall a m'' N', N' <= N -> Inv m'' -> ev m' m'' -> P a -> tsafe N' Q m'' (f a)) by (intros m' E a m'' N' HN HI'' E' Pa; apply HF; auto; eapply ev_trans; eauto).
  assert (HB : forall m', Inv m' -> ev m m' -> bt m' Q (bind p f)).
  { intros m' HI' E. destruct (HP m' HI' E) as [K _]. apply bt_bind with (P := P); auto. intros a Pa. apply (HF a m' (S N)); auto. apply ev_refl. }
  destruct p as [a|i k|weak i old new k|id k|a b k|a b k]; cbn [bind] in *.
  - apply HF; auto; [apply ev_refl|]. apply (HP m HI (ev_refl n m)).
  - intros m' HI' E. split; auto. destruct (HP m' HI' E) as [_ K]. exact (IH P Q m' _ f HI' K (HF' m' E)).
  - intros m' HI' E. split; auto. destruct (HP m' HI' E) as [_ [H1 H2]]. split; [|intros C; exact (IH P Q m' _ f HI' (H2 C) (HF' m' E))]. intros C. destruct (H1 C) as [U K]. split; auto. intros A2 A3. exact (IH P Q (upd m' i new) _ f A2 (K A2 A3) (HF' _ (ev_trans n _ _ _ E A3))).
  - intros m' HI' E. split; auto. destruct (HP m' HI' E) as [_ K]. rewrite <- bind_bind. exact (IH P Q m' _ f HI' K (HF' m' E)).
  - intros m' HI' E. split; auto. destruct (HP m' HI' E) as [_ K]. rewrite <- bind_bind. exact (IH P Q m' _ f HI' K (HF' m' E)).
  - intros m' HI' E. split; auto. destruct (HP m' HI' E) as [_ K]. rewrite <- bind_bind. exact (IH P Q m' _ f HI' K (HF' m' E)).
Qed.
Lemma tsafe_ret {A} N (Q : A -> Prop) m a : Q a -> tsafe N Q m (Ret a).
Proof. destruct N; simpl; auto. intros. split; auto. constructor. auto. Qed.
Lemma bt_find0 m id : Inv m -> id < n -> bt m (fun r => r < n) (CallFind id Ret).
Proof. intros. apply bt_find; auto. intros. constructor. auto. Qed.
Lemma tsafe_find N : forall id m, id < n -> tsafe N (fun r => r < n) m (CallFind id Ret).
Proof.
  induction N as [N IH] using lt_wf_ind. intros id m Hid. destruct N as [|N]; [exact I|]. intros m1 HI1 E1. split; [apply bt_find0; auto|]. cbn [bind find_body].
  assert (K : forall m v, Inv m -> v < n -> forall w, bt m (fun r => r < n) (Read v (fun w2 => bind (let new_parent := parent_of w2 in let new_value := (rank_of w, new_parent) in
     if word_eqb w new_value then CallFind new_parent Ret else Cas true id w new_value (fun _ => CallFind new_parent Ret)) Ret))).
  { intros m' v HI' Hv w. apply bt_read. cbv zeta. assert (parent_of (m' v) < n) by (apply (HI' v Hv)). destruct (word_eqb _ _); cbn [bind]; [apply bt_find0; auto|]. apply bt_cas. intros _. apply bt_find0; auto. }
  assert (K2 : forall m, Inv m -> bt m (fun r => r < n) (bind (Read id (fun value => Read (parent_of value) (fun w2 => let new_parent := parent_of w2 in let new_value := (rank_of value, new_parent) in
     if word_eqb value new_value then CallFind new_parent Ret else Cas true id value new_value (fun _ => CallFind new_parent Ret)))) Ret)).
  { intros m' HI'. cbn [bind]. apply bt_read. cbn [bind]. apply K; auto. apply (HI' id Hid). }
  destruct N as [|N]; [exact I|]. intros m2 HI2 E2. split.
  { apply bt_read. destruct (Nat.eqb id (parent_of (m2 id))); [constructor; auto|]. apply K2. auto. }
  destruct (Nat.eqb id (parent_of (m2 id))); [apply tsafe_ret; auto|]. destruct N as [|N]; [exact I|]. intros m3 HI3 E3. split; [apply K2; auto|]. cbn [bind].
  assert (Hp : parent_of (m3 id) < n) by (apply (HI3 id Hid)). destruct N as [|N]; [exact I|]. intros m4 HI4 E4. split; [apply K; auto|]. cbn [bind]. assert (Hq : parent_of (m4 (parent_of (m3 id))) < n) by (apply (HI4 _ Hp)).
  set (v := m3 id) in *. set (q := parent_of (m4 (parent_of v))) in *. cbv zeta. destruct (word_eqb v (rank_of v, q)) eqn:EW; cbn [bind]; [apply IH; auto; lia|].
  destruct N as [|N]; [exact I|]. intros m5 HI5 E5. split; [apply bt_cas; intros _; apply bt_find0; auto|]. split; [|intros _; apply IH; auto; lia]. intros A1. split; [|intros; apply IH; auto; lia].
  split; auto. left. split; [unfold rk; rewrite A1; reflexivity|]. split; auto. unfold par at 1. rewrite A1. cbn [parent_of snd].
  assert (NQ : q <> parent_of v). { intros Q. rewrite Q in EW. destruct v as [r p]. unfold word_eqb in EW. cbn in EW. rewrite !Nat.eqb_refl in EW. discriminate. }
  apply (ev_below n m4 m5); auto. apply (HI4 _ Hp). auto.
Qed.
Lemma tcall_find {A} N (Q : A -> Prop) m id f : Inv m -> id < n -> (forall r m' N', N' <= N -> Inv m' -> ev m m' -> r < n -> tsafe N' Q m' (f r)) -> tsafe N Q m (CallFind id f).
Proof. intros HI Hid HF. change (CallFind id f) with (bind (CallFind id Ret) f). apply tsafe_bind with (P := fun r => r < n); auto. apply tsafe_find; auto. Qed.
Lemma bt_same0 m a b : Inv m -> a < n -> b < n -> bt m (fun _ => True) (CallSame a b Ret).
Proof. intros. apply bt_same; auto. intros. constructor. auto. Qed.
Lemma bt_unite0 m a b : Inv m -> a < n -> b < n -> bt m (fun _ => True) (CallUnite a b Ret).
Proof. intros. apply bt_unite; auto. intros. constructor. auto. Qed.
Lemma tsafe_same N : forall a b m, Inv m -> a < n -> b < n -> tsafe N (fun _ => True) m (CallSame a b Ret).
Proof.
  induction N as [N IH] using lt_wf_ind. intros a b m HI Ha Hb. destruct N as [|N]; [exact I|]. intros m1 HI1 E1. split; [apply bt_same0; auto|]. unfold same_body. cbn [bind].
  apply tcall_find; auto. intros a' m2 N2 L2 HI2 _ Ha'. cbn [bind]. apply tcall_find; auto. intros b' m3 N3 L3 HI3 _ Hb'. destruct (Nat.eqb a' b'); cbn [bind]; [apply tsafe_ret; auto|].
  destruct N3 as [|N3]; [exact I|]. intros m4 HI4 _. split.
  - apply bt_read. destruct (Nat.eqb (parent_of (m4 a')) a'); cbn [bind]; [constructor; auto|apply bt_same0; auto].
  - destruct (Nat.eqb (parent_of (m4 a')) a'); cbn [bind]; [apply tsafe_ret; auto|]. apply IH; auto. lia.
Qed.
Lemma tsafe_unite N : forall a b m, Inv m -> a < n -> b < n -> tsafe N (fun _ => True) m (CallUnite a b Ret).
Proof.
  induction N as [N IH] using lt_wf_ind. intros a b m HI Ha Hb. destruct N as [|N]; [exact I|]. intros m1 HI1 E1. split; [apply bt_unite0; auto|]. unfold unite_body. cbn [bind].
  apply tcall_find; auto. intros a' m2 N2 L2 HI2 _ Ha'. cbn [bind]. apply tcall_find; auto. intros b' m3 N3 L3 HI3 _ Hb'. destruct (Nat.eqb_spec a' b') as [EQ|NE]; cbn [bind]; [apply tsafe_ret; auto|].
  set (last := fun s1 x s2 y => bind (Cas false x (s1, x) (s1, y) (fun ok => if ok then (if Nat.eqb s1 s2 then Cas true y (s2, y) (S s2, y) (fun _ => Ret y) else Ret y) else CallUnite x y Ret)) Ret : prog nat).
  assert (BL : forall m s1 x s2 y, Inv m -> x < n -> y < n -> bt m (fun _ => True) (last s1 x s2 y)).
  { intros m' s1 x s2 y HI' Hx Hy. unfold last. cbn [bind]. apply bt_cas. intros _. apply bt_unite0; auto. }
  set (rest := fun w1 w2 => bind (let r1 := rank_of w1 in let r2 := rank_of w2 in
     let '(r1, id1, r2, id2) := if Nat.ltb r2 r1 || (Nat.eqb r1 r2 && Nat.ltb a' b') then (r2, b', r1, a') else (r1, a', r2, b') in
     Cas false id1 (r1, id1) (r1, id2) (fun ok => if ok then (if Nat.eqb r1 r2 then Cas true id2 (r2, id2) (S r2, id2) (fun _ => Ret id2) else Ret id2) else CallUnite id1 id2 Ret)) Ret : prog nat).
  assert (BR : forall m w1 w2, Inv m -> bt m (fun _ => True) (rest w1 w2)).
  { intros m' w1 w2 HI'. unfold rest. cbv zeta. destruct (Nat.ltb _ _ || _); [apply (BL m' (rank_of w2) b' (rank_of w1) a')|apply (BL m' (rank_of w1) a' (rank_of w2) b')]; auto. }
  destruct N3 as [|N3]; [exact I|]. intros m4 HI4 E4. split; [apply bt_read; cbn [bind]; apply bt_read; apply BR; auto|]. cbn [bind].
  destruct N3 as [|N3]; [exact I|]. intros m5 HI5 E5. split; [apply bt_read; apply BR; auto|].
  set (r1 := rank_of (m4 a')). set (r2 := rank_of (m5 b')). cbv zeta.
  assert (G : forall s1 x s2 y, x < n -> y < n -> x <> y -> s1 < s2 \/ (s1 = s2 /\ y < x) -> s2 <= rk m5 y -> tsafe N3 (fun _ => True) m5 (last s1 x s2 y)).
  { intros s1 x s2 y Hx Hy Nxy O HS. unfold last. cbn [bind]. destruct N3 as [|N3']; [exact I|]. intros m6 HI6 E6. split; [apply (BL m6 s1 x s2 y); auto|]. split; [|intros _; apply IH; auto; lia].
    intros A1. split.
    - split; auto. left. split; [unfold rk; rewrite A1; reflexivity|]. split; auto. unfold par. rewrite A1. cbn [parent_of snd]. unfold below. unfold rk at 1 3. rewrite A1. cbn [rank_of fst]. destruct E6 as (_ & E6 & _). specialize (E6 y Hy). lia.
    - intros A2 A3. destruct (Nat.eqb_spec s1 s2) as [->|]; cbn [bind]; [|apply tsafe_ret; auto].
      destruct N3' as [|N3']; [exact I|]. intros m8 HI8 E8. split; [apply bt_cas; intros _; constructor; auto|]. split; [|intros _; apply tsafe_ret; auto]. intros B1. split; [|intros; apply tsafe_ret; auto].
      split; auto. right. split; [unfold par; rewrite B1; reflexivity|unfold rk; rewrite B1; simpl; lia]. }
  assert (R4 : r1 <= rk m5 a') by (destruct E5 as (_ & E5 & _); apply E5; auto).
  destruct (Nat.ltb r2 r1 || (Nat.eqb r1 r2 && Nat.ltb a' b')) eqn:EB; [apply (G r2 b' r1 a')|apply (G r1 a' r2 b')]; auto.
  - apply orb_true_iff in EB as [EB|EB]; [apply Nat.ltb_lt in EB; auto|]. apply andb_true_iff in EB as [EB1 EB2]. apply Nat.eqb_eq in EB1. apply Nat.ltb_lt in EB2. auto.
  - apply orb_false_iff in EB as [EB1 EB]. apply Nat.ltb_ge in EB1. destruct (Nat.eq_dec r1 r2) as [E|E]; [|lia]. right. split; auto. apply andb_false_iff in EB as [EB|EB]; [apply Nat.eqb_neq in EB; congruence|]. apply Nat.ltb_ge in EB. lia.
Qed.
Lemma tsafe_ops ops : Forall (op_ok n) ops -> forall N m, Inv m -> tsafe N (fun _ => True) m (ops_prog ops).
Proof.
  induction 1 as [|o ops Ho _ IH]; intros N m HI; simpl; [apply tsafe_ret; auto|].
  assert (T : forall m' N' e, Inv m' -> tsafe N' (fun _ => True) m' (bind (ops_prog ops) (fun l => Ret (e :: l)))).
  { intros m' N' e HI'. apply tsafe_bind with (P := fun _ => True); auto. intros. apply tsafe_ret. auto. }
  destruct o as [a|a b|a b]; simpl in Ho.
  - apply tcall_find; auto.
  - change (tsafe N (fun _ => True) m (bind (CallSame a b Ret) (fun r => bind (ops_prog ops) (fun l => Ret ((OSame a b, RBool r) :: l))))). apply tsafe_bind with (P := fun _ => True); auto. apply tsafe_same; tauto.
  - change (tsafe N (fun _ => True) m (bind (CallUnite a b Ret) (fun r => bind (ops_prog ops) (fun l => Ret ((OUnite a b, RDone) :: l))))). apply tsafe_bind with (P := fun _ => True); auto. apply tsafe_unite; tauto.
Qed.

(** Threads together. *)
Inductive bstep {A} (m : mem) : prog A -> prog A -> Prop :=
| bs_read i k : bstep m (Read i k) (k (m i))
| bs_fail weak i old new k : m i <> old \/ weak = true -> bstep m (Cas weak i old new k) (k false)
| bs_find id k : bstep m (CallFind id k) (bind (find_body id) k)
| bs_same a b k : bstep m (CallSame a b k) (bind (same_body a b) k)
| bs_unite a b k : bstep m (CallUnite a b k) (bind (unite_body a b) k).
Lemma bt_acc {A} m (Q : A -> Prop) p : bt m Q p -> Acc (fun p' p => bstep m p p') p.
Proof.
  induction 1 as [a H|i k H IH|weak i old new k H IH|id k H IH|a b k H IH|a b k H IH]; constructor; intros p' S'; inversion S'; subst; auto.
Qed.
Inductive lstep {A} (m : mem) : list (prog A) -> list (prog A) -> Prop :=
| ls_head p p' ps : bstep m p p' -> lstep m (p :: ps) (p' :: ps)
| ls_tail p ps ps' : lstep m ps ps' -> lstep m (p :: ps) (p :: ps').
Lemma lstep_mid {A} m l1 (p p' : prog A) l2 : bstep m p p' -> lstep m (l1 ++ p :: l2) (l1 ++ p' :: l2).
Proof. intros H. induction l1; simpl; constructor; auto. Qed.
Lemma list_acc {A} m (ps : list (prog A)) : Forall (Acc (fun p' p => bstep m p p')) ps -> Acc (fun l' l => lstep m l l') ps.
Proof.
  induction 1 as [|p ps Hp _ IH]; [constructor; intros l' H; inversion H|].
  revert ps IH. induction Hp as [p _ IHp]. intros ps HL. induction HL as [ps HL' IHL]. constructor. intros l' H. inversion H; subst.
  - apply IHp; auto. constructor. exact HL'.
  - apply IHL. auto.
Qed.
Definition J {A} (Qs : list (A -> mem -> Prop)) (s : mem * list (prog A)) : Prop :=
  threads_safe n conn Qs (fst s) (snd s) /\ (exists l, rthreads n conn (fst s, l) (snd s)) /\ Forall (fun p => forall N, tsafe N (fun _ => True) (fst s) p) (snd s).
Lemma J_step {A} (Qs : list (A -> mem -> Prop)) s s' : J Qs s -> pstep s s' ->
  J Qs s' /\ ((fst s' = fst s /\ lstep (fst s) (snd s) (snd s')) \/ left_over (fst s') < left_over (fst s)).
Proof.
  intros (TS & R & F) ST. assert (R' : exists l, rthreads n conn (fst s', l) (snd s')) by (apply (star_rank n conn Qs s s'); auto; eapply star_step; [exact ST|constructor]).
  destruct (pstep_safe n conn Qs _ _ TS ST) as [TS1 E]. pose proof (proj1 TS) as HI. pose proof (proj1 TS1) as HI1.
  assert (RB : forall j, j < n -> rk (fst s') j <= n).
  { destruct R' as (l & HW & _). intros j Hj. pose proof (W_log n _ l HW j Hj). pose proof (Nat.pow_gt_lin_r 2 (rk (fst s') j)). lia. }
  destruct ST as [m l1 p l2 m' p' T]. cbn [fst snd] in *. apply Forall_app in F as [F1 F2]. inversion F2 as [|? ? Fp F3]; subst.
  assert (X : (forall N, tsafe N (fun _ => True) m' p') /\ ((m' = m /\ bstep m p p') \/ left_over m' < left_over m)).
  { destruct T as [m i k|m weak i old new k C|m weak i old new k C|m id k|m a b k|m a b k].
    2:{ split.
        - intros N. destruct (Fp (S N) m HI (ev_refl n m)) as [_ [H1 _]]. destruct (H1 C) as [_ K]. apply K; auto.
        - right. destruct (Fp 1 m HI (ev_refl n m)) as [_ [H1 _]]. destruct (H1 C) as [U _]. apply up_less; auto. }
    2:{ split; [|left; split; auto; constructor; auto]. intros N. destruct (Fp (S N) m HI (ev_refl n m)) as [_ [_ H2]]. apply H2; auto. }
    all: split; [intros N; apply (Fp (S N) m HI (ev_refl n m))|left; split; auto; constructor]. }
  destruct X as [X1 X2]. split.
  - split; auto. split; auto. apply Forall_app. split; [|constructor; [exact X1|]]; eapply Forall_impl; try eassumption; intros q Hq N; exact (tsafe_ev N _ _ _ q (Hq N) E).
  - destruct X2 as [[-> X2]|X2]; auto. left. split; auto. apply lstep_mid. auto.
Qed.
Lemma J_acc {A} (Qs : list (A -> mem -> Prop)) : forall k s, left_over (fst s) = k -> J Qs s -> Acc (fun s' s => pstep s s') s.
Proof.
  induction k as [k IH] using lt_wf_ind. intros [m ps] Hk HJ. cbn [fst] in Hk.
  assert (L : Acc (fun l' l => lstep m l l') ps).
  { apply list_acc. destruct HJ as (TS & _ & F). cbn [fst snd] in *. eapply Forall_impl; [|exact F]. intros p Hp. destruct (Hp 1 m (proj1 TS) (ev_refl n m)) as [B _]. eapply bt_acc; eauto. }
  induction L as [ps _ IHL]. constructor. intros [m' ps'] ST. destruct (J_step Qs _ _ HJ ST) as [HJ' [[E L']|L']]; cbn [fst snd] in *.
  - subst m'. apply IHL; auto.
  - apply (IH (left_over m')); auto. lia.
Qed.
End Ends.
(** A well-founded start has no infinite execution. *)
Lemma acc_no_run {S} (R : S -> S -> Prop) s : Acc (fun s' s => R s s') s -> forall f, f 0 = s -> ~ forall k, R (f k) (f (1 + k)).
Proof.
  induction 1 as [s _ IH]. intros f E H. apply (IH (f 1)) with (f := fun k => f (1 + k)); auto. rewrite <- E. apply (H 0).
Qed.
