(** How large ranks become in the lock-free union-find: a ghost records the node below which every non-root was first linked. *)
From Coq Require Import FunctionalExtensionality Wf_nat.
From Verif Require Import DsetSpec DsetProofs DsetProps.

Definition gmem := (mem * (nat -> nat))%type.
Definition gupd (g : gmem) (i : nat) (w : word) : gmem :=
  (upd (fst g) i w, if Nat.eqb (par (fst g) i) i then fun j => if Nat.eqb j i then parent_of w else snd g j else snd g).

Section Ranks.
Variables (n : nat) (conn : nat -> nat -> Prop).
Notation Inv := (Inv n conn).
Notation ev := (ev n).
(** Every rank below that of a node was passed on by a node of its own that is no root any more. *)
Definition W (g : gmem) : Prop := forall x k, x < n -> k < rk (fst g) x -> exists y, y < n /\ par (fst g) y <> y /\ rk (fst g) y = k /\ snd g y = x.
Definition gev (g g' : gmem) : Prop := ev (fst g) (fst g') /\ forall i, i < n -> par (fst g) i <> i -> snd g' i = snd g i.
Lemma gev_refl g : gev g g. Proof. split; auto. apply ev_refl. Qed.
Lemma gev_trans g1 g2 g3 : gev g1 g2 -> gev g2 g3 -> gev g1 g3.
Proof. intros [A1 A2] [B1 B2]. split; [eapply ev_trans; eauto|]. intros i Hi Hp. rewrite B2, A2; auto. destruct A1 as (A & _). apply A; auto. Qed.
Lemma gev_upd g i w : ev (fst g) (fst (gupd g i w)) -> gev g (gupd g i w).
Proof. intros E. split; auto. intros j Hj Hp. simpl. destruct (Nat.eqb_spec (par (fst g) i) i) as [R|R]; auto. destruct (Nat.eqb_spec j i); auto. congruence. Qed.
(** Writing without changing the rank. *)
Lemma W_same g i w : rank_of w = rk (fst g) i -> ev (fst g) (fst (gupd g i w)) -> W g -> W (gupd g i w).
Proof.
  intros R E H x k Hx Hk. destruct (gev_upd g i w E) as [_ L]. cbn [fst] in *.
  assert (RK : forall j, rk (fst (gupd g i w)) j = rk (fst g) j) by (intros j; unfold rk at 1; simpl; unfold upd; destruct (Nat.eqb_spec j i) as [->|]; auto).
  rewrite RK in Hk. destruct (H x k Hx Hk) as (y & Hy & P & Q & K). exists y. split; auto. destruct E as (E & _). split; [apply E; auto|]. split; [rewrite RK; auto|]. rewrite L; auto.
Qed.
(** Raising the rank of a root with a fresh witness. *)
Lemma W_raise g y x s : x < n -> par (fst g) x <> x -> rk (fst g) x = s -> snd g x = y -> fst g y = (s, y) -> ev (fst g) (fst (gupd g y (S s, y))) -> W g -> W (gupd g y (S s, y)).
Proof.
  intros Hx NX RX LX EY E H z k Hz Hk. destruct (gev_upd g y _ E) as [_ L]. assert (PY : par (fst g) y = y) by (unfold par; rewrite EY; auto).
  assert (RO : forall j, j <> y -> rk (fst (gupd g y (S s, y))) j = rk (fst g) j) by (intros j Hj; unfold rk; simpl; rewrite upd_other; auto).
  assert (K : forall w, w < n -> par (fst g) w <> w -> par (fst (gupd g y (S s, y))) w <> w /\ rk (fst (gupd g y (S s, y))) w = rk (fst g) w /\ snd (gupd g y (S s, y)) w = snd g w).
  { intros w Hw P. split; [destruct E as (E & _); apply E; auto|]. split; [apply RO; congruence|apply L; auto]. }
  destruct (Nat.eq_dec z y) as [->|Ne].
  - assert (RY : rk (fst (gupd g y (S s, y))) y = S s) by (unfold rk; simpl; rewrite upd_same; auto). rewrite RY in Hk. destruct (Nat.eq_dec k s) as [->|].
    + exists x. destruct (K x Hx NX) as (K1 & K2 & K3). split; auto. split; auto. split; congruence.
    + destruct (H y k Hz) as (w & Hw & P & Q & M); [unfold rk; rewrite EY; simpl; lia|]. destruct (K w Hw P) as (K1 & K2 & K3). exists w. split; auto. split; auto. split; congruence.
  - rewrite RO in Hk by auto. destruct (H z k Hz Hk) as (w & Hw & P & Q & M). destruct (K w Hw P) as (K1 & K2 & K3). exists w. split; auto. split; auto. split; congruence.
Qed.

Fixpoint rsafe {A} (N : nat) (Q : A -> Prop) (g : gmem) (p : prog A) : Prop :=
  match N with
  | 0 => True
  | S N => forall g', Inv (fst g') -> W g' -> gev g g' ->
      match p with
      | Ret a => Q a
      | Read i k => rsafe N Q g' (k (fst g' i))
      | Cas weak i old new k => (fst g' i = old -> Inv (upd (fst g') i new) -> ev (fst g') (upd (fst g') i new) -> W (gupd g' i new) /\ rsafe N Q (gupd g' i new) (k true)) /\ rsafe N Q g' (k false)
      | CallFind id k => rsafe N Q g' (bind (find_body id) k)
      | CallSame a b k => rsafe N Q g' (bind (same_body a b) k)
      | CallUnite a b k => rsafe N Q g' (bind (unite_body a b) k)
      end
  end.
Lemma rsafe_ev {A} N (Q : A -> Prop) g g' p : rsafe N Q g p -> gev g g' -> rsafe N Q g' p.
Proof. destruct N; simpl; auto. intros H E g'' HI HW E'. apply H; auto. eapply gev_trans; eauto. Qed.
Lemma rsafe_down {A} N : forall (Q : A -> Prop) g p, rsafe (S N) Q g p -> rsafe N Q g p.
Proof.
  induction N as [|N IH]; intros Q g p H; [exact I|]. intros g' HI HW E. specialize (H g' HI HW E). destruct p; try (apply IH; exact H); auto.
  destruct H as [H1 H2]. split; [|apply IH; auto]. intros A1 A2 A3. destruct (H1 A1 A2 A3) as (B1 & B2). auto.
Qed.
Lemma rsafe_bind {A B} N : forall (P : A -> Prop) (Q : B -> Prop) g p f, Inv (fst g) -> W g -> rsafe N P g p -> (forall a g' N', N' <= N -> Inv (fst g') -> W g' -> gev g g' -> P a -> rsafe N' Q g' (f a)) -> rsafe N Q g (bind p f).
Proof.
  induction N as [|N IH]; intros P Q g p f HI HW HP HF; [exact I|].
  assert (HF' : forall g', gev g g' -> forall a g'' N', N' <= N -> Inv (fst g'') -> W g'' -> gev g' g'' -> P a -> rsafe N' Q g'' (f a)) by (intros g' E a g'' N' HN HI'' HW'' E' Pa; apply HF; auto; eapply gev_trans; eauto).
  destruct p as [a|i k|weak i old new k|id k|a b k|a b k]; cbn [bind].
  - apply HF; auto; [apply gev_refl|]. apply (HP g HI HW (gev_refl g)).
  - intros g' HI' HW' E. specialize (HP g' HI' HW' E). exact (IH P Q g' _ f HI' HW' HP (HF' g' E)).
  - intros g' HI' HW' E. destruct (HP g' HI' HW' E) as [H1 H2]. split; [|exact (IH P Q g' _ f HI' HW' H2 (HF' g' E))]. intros A1 A2 A3. destruct (H1 A1 A2 A3) as (B1 & B2). split; auto. apply (IH P); auto. apply HF'. eapply gev_trans; [exact E|]. apply gev_upd. exact A3.
  - intros g' HI' HW' E. specialize (HP g' HI' HW' E). rewrite <- bind_bind. exact (IH P Q g' _ f HI' HW' HP (HF' g' E)).
  - intros g' HI' HW' E. specialize (HP g' HI' HW' E). rewrite <- bind_bind. exact (IH P Q g' _ f HI' HW' HP (HF' g' E)).
  - intros g' HI' HW' E. specialize (HP g' HI' HW' E). rewrite <- bind_bind. exact (IH P Q g' _ f HI' HW' HP (HF' g' E)).
Qed.
Lemma rsafe_ret {A} N (Q : A -> Prop) g a : Q a -> rsafe N Q g (Ret a).
Proof. destruct N; simpl; auto. Qed.
Lemma rsafe_find N : forall id g, id < n -> rsafe N (fun r => r < n) g (CallFind id Ret).
Proof.
  induction N as [N IH] using lt_wf_ind. intros id g Hid. destruct N as [|N]; [exact I|]. intros g1 _ _ _. cbn [bind find_body]. destruct N as [|N]; [exact I|].
  intros g2 HI2 _ _. cbn [bind]. destruct (Nat.eqb id (parent_of (fst g2 id))); [apply rsafe_ret; auto|]. cbn [bind]. destruct N as [|N]; [exact I|]. intros g3 HI3 _ _. cbn [bind].
  assert (Hp : parent_of (fst g3 id) < n) by (apply (HI3 id Hid)). destruct N as [|N]; [exact I|]. intros g4 HI4 _ _. cbn [bind]. assert (Hq : parent_of (fst g4 (parent_of (fst g3 id))) < n) by (apply (HI4 _ Hp)).
  set (v := fst g3 id) in *. set (q := parent_of (fst g4 (parent_of v))) in *. cbv zeta. destruct (word_eqb v (rank_of v, q)); cbn [bind]; [apply IH; auto; lia|].
  destruct N as [|N]; [exact I|]. intros g5 HI5 HW5 _. split; [|apply IH; auto; lia]. intros A1 A2 A3. split; [|apply IH; auto; lia]. apply W_same; auto. unfold rk. rewrite A1. reflexivity.
Qed.
Lemma rcall_find {A} N (Q : A -> Prop) g id f : Inv (fst g) -> W g -> id < n -> (forall r g' N', N' <= N -> Inv (fst g') -> W g' -> gev g g' -> r < n -> rsafe N' Q g' (f r)) -> rsafe N Q g (CallFind id f).
Proof. intros HI HW Hid HF. change (CallFind id f) with (bind (CallFind id Ret) f). apply rsafe_bind with (P := fun r => r < n); auto. apply rsafe_find; auto. Qed.
Lemma rsafe_same N : forall a b g, Inv (fst g) -> W g -> a < n -> b < n -> rsafe N (fun _ => True) g (CallSame a b Ret).
Proof.
  induction N as [N IH] using lt_wf_ind. intros a b g HI HW Ha Hb. destruct N as [|N]; [exact I|]. intros g1 HI1 HW1 _. unfold same_body. cbn [bind].
  apply rcall_find; auto. intros a' g2 N2 L2 HI2 HW2 _ Ha'. cbn [bind]. apply rcall_find; auto. intros b' g3 N3 L3 HI3 HW3 _ Hb'. destruct (Nat.eqb a' b'); cbn [bind]; [apply rsafe_ret; auto|].
  destruct N3 as [|N3]; [exact I|]. intros g4 HI4 HW4 _. destruct (Nat.eqb (parent_of (fst g4 a')) a'); cbn [bind]; [apply rsafe_ret; auto|]. apply IH; auto. lia.
Qed.
Lemma rsafe_unite N : forall a b g, Inv (fst g) -> W g -> a < n -> b < n -> rsafe N (fun _ => True) g (CallUnite a b Ret).
Proof.
  induction N as [N IH] using lt_wf_ind. intros a b g HI HW Ha Hb. destruct N as [|N]; [exact I|]. intros g1 HI1 HW1 _. unfold unite_body. cbn [bind].
  apply rcall_find; auto. intros a' g2 N2 L2 HI2 HW2 _ Ha'. cbn [bind]. apply rcall_find; auto. intros b' g3 N3 L3 HI3 HW3 _ Hb'. destruct (Nat.eqb_spec a' b') as [EQ|NE]; cbn [bind]; [apply rsafe_ret; auto|].
  destruct N3 as [|N3]; [exact I|]. intros g4 HI4 HW4 E4. destruct N3 as [|N3]; [exact I|]. intros g5 HI5 HW5 E5. set (r1 := rank_of (fst g4 a')). set (r2 := rank_of (fst g5 b')). cbv zeta.
  assert (G : forall s1 x s2 y, x < n -> y < n -> x <> y ->
       rsafe N3 (fun _ => True) g5 (bind (Cas false x (s1, x) (s1, y) (fun ok => if ok then (if Nat.eqb s1 s2 then Cas true y (s2, y) (S s2, y) (fun _ => Ret y) else Ret y) else CallUnite x y Ret)) Ret)).
  { intros s1 x s2 y Hx Hy Nxy. cbn [bind]. destruct N3 as [|N3']; [exact I|]. intros g6 HI6 HW6 E6. split; [|apply IH; auto; lia].
    intros A1 A2 A3. split; [apply W_same; auto; unfold rk; rewrite A1; reflexivity|]. destruct (Nat.eqb_spec s1 s2) as [->|]; cbn [bind]; [|apply rsafe_ret; auto].
    destruct N3' as [|N3']; [exact I|]. intros g8 HI8 HW8 [E8 L8]. split; [|apply rsafe_ret; auto]. intros B1 B2 B3. split; [|apply rsafe_ret; auto].
    assert (P6 : par (fst g6) x = x) by (unfold par; rewrite A1; reflexivity). set (g7 := gupd g6 x (s2, y)) in *.
    assert (P7 : par (fst g7) x <> x) by (unfold par, g7; simpl; rewrite upd_same; simpl; auto). assert (R7 : rk (fst g7) x = s2) by (unfold rk, g7; simpl; rewrite upd_same; reflexivity).
    assert (K7 : snd g7 x = y) by (unfold g7; simpl; rewrite P6, !Nat.eqb_refl; reflexivity). destruct E8 as (E8 & _). destruct (E8 x Hx P7) as [R8 P8].
    apply (W_raise g8 y x s2); auto; [congruence|]. rewrite L8; auto. }
  destruct (Nat.ltb r2 r1 || (Nat.eqb r1 r2 && Nat.ltb a' b')); apply G; auto.
Qed.
Lemma rsafe_ops ops : Forall (op_ok n) ops -> forall N g, Inv (fst g) -> W g -> rsafe N (fun _ => True) g (ops_prog ops).
Proof.
  induction 1 as [|o ops Ho _ IH]; intros N g HI HW; simpl; [apply rsafe_ret; auto|]. destruct o as [a|a b|a b]; simpl in Ho.
  - apply rcall_find; auto. intros r g' N' _ HI' HW' _ _. apply rsafe_bind with (P := fun _ => True); auto. intros. apply rsafe_ret. auto.
  - change (rsafe N (fun _ => True) g (bind (CallSame a b Ret) (fun r => bind (ops_prog ops) (fun l => Ret ((OSame a b, RBool r) :: l))))). apply rsafe_bind with (P := fun _ => True); auto; [apply rsafe_same; tauto|].
    intros r g' N' _ HI' HW' _ _. apply rsafe_bind with (P := fun _ => True); auto. intros. apply rsafe_ret. auto.
  - change (rsafe N (fun _ => True) g (bind (CallUnite a b Ret) (fun r => bind (ops_prog ops) (fun l => Ret ((OUnite a b, RDone) :: l))))). apply rsafe_bind with (P := fun _ => True); auto; [apply rsafe_unite; tauto|].
    intros r g' N' _ HI' HW' _ _. apply rsafe_bind with (P := fun _ => True); auto. intros. apply rsafe_ret. auto.
Qed.
Definition rthreads {A} (g : gmem) (ps : list (prog A)) : Prop := W g /\ Forall (fun p => forall N, rsafe N (fun _ => True) g p) ps.
Lemma tstep_rank {A} l m (p : prog A) m' p' : Inv m -> W (m, l) -> (forall N, rsafe N (fun _ => True) (m, l) p) -> tstep m p m' p' -> Inv m' -> ev m m' ->
  exists l', W (m', l') /\ gev (m, l) (m', l') /\ forall N, rsafe N (fun _ => True) (m', l') p'.
Proof.
  intros HI HW HS T HI' E. destruct T as [m i k|m weak i old new k C|m weak i old new k C|m id k|m a b k|m a b k].
  2:{ assert (X : forall N, W (gupd (m, l) i new) /\ rsafe N (fun _ => True) (gupd (m, l) i new) (k true)) by (intros N; apply (HS (S N) (m, l) HI HW (gev_refl _)); auto).
      exists (snd (gupd (m, l) i new)). split; [apply (X 0)|]. split; [exact (gev_upd (m, l) i new E)|]. intros N. apply (X N). }
  all: exists l; split; [exact HW|]; split; [apply gev_refl|]; intros N; apply (HS (S N) (m, l) HI HW (gev_refl _)).
Qed.
Lemma star_rank {A} (Qs : list (A -> mem -> Prop)) s s' : star pstep s s' -> threads_safe n conn Qs (fst s) (snd s) -> (exists l, rthreads (fst s, l) (snd s)) -> exists l, rthreads (fst s', l) (snd s').
Proof.
  induction 1 as [s|s s1 s2 H _ IH]; intros TS R; auto. destruct (pstep_safe n conn Qs _ _ TS H) as [TS1 E]. apply IH; auto. destruct R as (l & HW & F).
  destruct TS as [HI _]. destruct TS1 as [HI1 _]. destruct H as [m l1 p l2 m' p' T]. cbn [fst snd] in *. apply Forall_app in F as [F1 F2]. inversion F2 as [|? ? Fp F3]; subst.
  destruct (tstep_rank l m p m' p' HI HW Fp T HI1 E) as (l' & HW' & G & S'). exists l'. split; auto.
  apply Forall_app. split; [|constructor; [exact S'|]]; eapply Forall_impl; try eassumption; intros q Hq N; exact (rsafe_ev N _ _ _ q (Hq N) G).
Qed.
(** Counting: nodes of rank at least k + 1 are matched by distinct nodes of rank k. *)
Definition least (m : mem) (k : nat) : list nat := filter (fun x => k <=? rk m x) (seq 0 n).
Lemma W_halves m l k : W (m, l) -> 2 * length (least m (S k)) <= length (least m k).
Proof.
  intros HW. set (eqk := filter (fun x => rk m x =? k) (seq 0 n)).
  assert (L : length (least m (S k)) <= length eqk).
  { rewrite <- (map_length l eqk). apply NoDup_incl_length; [apply NoDup_filter, seq_NoDup|]. intros x Hx. apply filter_In in Hx as [Hx Hk]. apply in_seq in Hx. apply Nat.leb_le in Hk.
    destruct (HW x k) as (y & Hy & _ & R & K); [lia|exact Hk|]. apply in_map_iff. exists y. split; auto. apply filter_In. split; [apply in_seq; lia|]. apply Nat.eqb_eq. exact R. }
  assert (S0 : length (least m k) = length eqk + length (least m (S k))); [|lia].
  unfold least, eqk. generalize (seq 0 n). clear. induction l as [|x l IH]; auto. cbn [filter]. destruct (Nat.leb_spec k (rk m x)), (Nat.eqb_spec (rk m x) k), (Nat.leb_spec (S k) (rk m x)); cbn [length]; lia.
Qed.
Lemma W_log m l : W (m, l) -> forall x, x < n -> 2 ^ rk m x <= n.
Proof.
  intros HW x Hx. assert (G : forall k, 2 ^ k * length (least m k) <= n).
  { induction k as [|k IH].
    - rewrite Nat.pow_0_r, Nat.mul_1_l. rewrite <- (seq_length n 0). apply NoDup_incl_length; [apply NoDup_filter, seq_NoDup|]. intros y Hy. apply filter_In in Hy as [Hy _]. exact Hy.
    - pose proof (W_halves m l k HW). rewrite Nat.pow_succ_r'. nia. }
  specialize (G (rk m x)). assert (1 <= length (least m (rk m x))); [|nia]. assert (I : In x (least m (rk m x))) by (apply filter_In; split; [apply in_seq; lia|apply Nat.leb_le; auto]). destruct (least m (rk m x)); [destruct I|simpl; lia].
Qed.
End Ranks.
