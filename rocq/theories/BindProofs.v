(** Lemmas about attribute lookup, for any tables. *)
From Coq Require Import List String Bool Lia PeanoNat.
From Verif Require Import BindModel BindSpec.
Import ListNotations.
Local Open Scope string_scope.

Lemma mem_In a l : mem a l = true <-> In a l.
Proof.
  unfold mem. rewrite existsb_exists. split.
  - intros [x [I E]]. apply String.eqb_eq in E. now subst.
  - intro I. exists a. split; [exact I|apply String.eqb_refl].
Qed.

Section Fails.
Variables (cpp : list cppclass) (st : state) (self : list pyclass).

(** Every error an access may end with. *)
Fixpoint fails (fuel : nat) (from : list pyclass) (k : access) (a : string) : list outcome :=
  match fuel with
  | O => [TooDeep]
  | S f =>
    let inside (rest : list pyclass) (us : list use) : list outcome :=
      flat_map (fun u =>
        match u with
        | Cpp n => if cpp_has cpp c_names self n then [] else [NoBinding n]
        | SetCpp n => if cpp_has cpp c_rw self n then [] else [NoBinding n]
        | Own b => fails f self Get b
        | SetOwn b => fails f self Put b
        | Super b => fails f rest Get b
        | Try b => filter (fun o => match o with NotImplemented | TooDeep => true | _ => false end)
                          (fails f self Get b)
        | Unavailable => [NotImplemented]
        end) us in
    match k with
    | Get =>
      if String.eqb a "plot" && derives_compute self && negb (called st) then [NotComputed]
      else match locate from a with
           | Some (p, m, rest) =>
             match m_kind m with
             | Computed => if called st then inside rest (m_uses m) else [NotComputed]
             | Method => if mem a (fields st self) then [] else inside rest (m_uses m)
             | _ => inside rest (m_uses m)
             end
           | None => if mem a (fields st self) || builtin a then [] else [NoAttribute a]
           end
    | Put =>
      match locate from a with
      | Some (p, m, rest) =>
        match m_kind m with
        | Method => []
        | _ => match setter p a with Some s => inside rest (m_uses s) | None => [NoSetter a] end
        end
      | None => []
      end
    end
  end.

(** What [eval] ends with is one of them. *)
Lemma eval_fails fuel : forall from k a o, eval cpp fuel st self from k a = o -> o <> Value ->
  In o (fails fuel from k a).
Proof.
  induction fuel as [|f IH]; intros from k a o E N; [simpl in *; auto|].
  assert (G : forall rest us,
    (fix go (us : list use) : outcome :=
         match us with
         | [] => Value
         | u :: r =>
           match (match u with
                  | Cpp n => if cpp_has cpp c_names self n then Value else NoBinding n
                  | SetCpp n => if cpp_has cpp c_rw self n then Value else NoBinding n
                  | Own b => eval cpp f st self self Get b
                  | SetOwn b => eval cpp f st self self Put b
                  | Super b => eval cpp f st self rest Get b
                  | Try b => match eval cpp f st self self Get b with
                             | NotImplemented => NotImplemented
                             | TooDeep => TooDeep
                             | _ => Value
                             end
                  | Unavailable => NotImplemented
                  end) with
           | Value => go r
           | e => e
           end
         end) us = o ->
    In o (flat_map (fun u =>
        match u with
        | Cpp n => if cpp_has cpp c_names self n then [] else [NoBinding n]
        | SetCpp n => if cpp_has cpp c_rw self n then [] else [NoBinding n]
        | Own b => fails f self Get b
        | SetOwn b => fails f self Put b
        | Super b => fails f rest Get b
        | Try b => filter (fun o => match o with NotImplemented | TooDeep => true | _ => false end)
                          (fails f self Get b)
        | Unavailable => [NotImplemented]
        end) us)).
  { intros rest us. induction us as [|u r IHr]; intro H; [congruence|].
    cbn [flat_map]. apply in_or_app.
    destruct u as [n|n|b|b|b|b|].
    - destruct (cpp_has cpp c_names self n); [right; now apply IHr|left; left; exact H].
    - destruct (cpp_has cpp c_rw self n); [right; now apply IHr|left; left; exact H].
    - destruct (eval cpp f st self self Get b) eqn:E1; [right; now apply IHr|..];
        left; apply IH; congruence.
    - destruct (eval cpp f st self self Put b) eqn:E1; [right; now apply IHr|..];
        left; apply IH; congruence.
    - destruct (eval cpp f st self rest Get b) eqn:E1; [right; now apply IHr|..];
        left; apply IH; congruence.
    - destruct (eval cpp f st self self Get b) eqn:E1; try (right; now apply IHr);
        left; apply filter_In; (split; [apply IH; congruence|rewrite <- H; reflexivity]).
    - left; left; exact H. }
  cbn [eval fails] in *.
  destruct k.
  - destruct (String.eqb a "plot" && derives_compute self && negb (called st)); [now left|].
    destruct (locate from a) as [[[p m] rest]|].
    + destruct (m_kind m).
      * now apply G.
      * destruct (called st); [now apply G|now left].
      * now apply G.
      * destruct (mem a (fields st self)); [congruence|now apply G].
    + destruct (mem a (fields st self) || builtin a); [congruence|now left].
  - destruct (locate from a) as [[[p m] rest]|]; [|congruence].
    destruct (m_kind m); try congruence; (destruct (setter p a); [now apply G|now left]).
Qed.

(** A body none of whose accesses can fail gives a value; what [eval] cannot answer is TooDeep. *)
Lemma eval_value fuel from k a : fails fuel from k a = [] -> eval cpp fuel st self from k a = Value.
Proof.
  intro E. destruct (eval cpp fuel st self from k a) eqn:X; auto;
    apply eval_fails in X; try discriminate; rewrite E in X; destruct X.
Qed.

(** More fuel changes nothing once there was enough. *)
Lemma fails_mono fuel : forall g from k a, fuel <= g -> ~ In TooDeep (fails fuel from k a) ->
  fails g from k a = fails fuel from k a.
Proof.
  induction fuel as [|f IH]; intros g from k a L N; [simpl in N; tauto|].
  destruct g as [|g]; [lia|].
  assert (G : forall rest us,
    ~ In TooDeep (flat_map (fun u =>
        match u with
        | Cpp n => if cpp_has cpp c_names self n then [] else [NoBinding n]
        | SetCpp n => if cpp_has cpp c_rw self n then [] else [NoBinding n]
        | Own b => fails f self Get b
        | SetOwn b => fails f self Put b
        | Super b => fails f rest Get b
        | Try b => filter (fun o => match o with NotImplemented | TooDeep => true | _ => false end)
                          (fails f self Get b)
        | Unavailable => [NotImplemented]
        end) us) ->
    flat_map (fun u =>
        match u with
        | Cpp n => if cpp_has cpp c_names self n then [] else [NoBinding n]
        | SetCpp n => if cpp_has cpp c_rw self n then [] else [NoBinding n]
        | Own b => fails g self Get b
        | SetOwn b => fails g self Put b
        | Super b => fails g rest Get b
        | Try b => filter (fun o => match o with NotImplemented | TooDeep => true | _ => false end)
                          (fails g self Get b)
        | Unavailable => [NotImplemented]
        end) us =
    flat_map (fun u =>
        match u with
        | Cpp n => if cpp_has cpp c_names self n then [] else [NoBinding n]
        | SetCpp n => if cpp_has cpp c_rw self n then [] else [NoBinding n]
        | Own b => fails f self Get b
        | SetOwn b => fails f self Put b
        | Super b => fails f rest Get b
        | Try b => filter (fun o => match o with NotImplemented | TooDeep => true | _ => false end)
                          (fails f self Get b)
        | Unavailable => [NotImplemented]
        end) us).
  { intros rest us. induction us as [|u r IHr]; intro H; [reflexivity|].
    cbn [flat_map] in *. rewrite in_app_iff in H.
    rewrite IHr by tauto. f_equal.
    destruct u as [n|n|b|b|b|b|]; auto; try (apply IH; [lia|tauto]).
    f_equal. apply IH; [lia|]. intro T. apply H. left. apply filter_In. now split. }
  cbn [fails] in *.
  destruct k.
  - destruct (String.eqb a "plot" && derives_compute self && negb (called st)); [reflexivity|].
    destruct (locate from a) as [[[p m] rest]|]; [|reflexivity].
    destruct (m_kind m).
    + now apply G.
    + destruct (called st); [now apply G|reflexivity].
    + now apply G.
    + destruct (mem a (fields st self)); [reflexivity|now apply G].
  - destruct (locate from a) as [[[p m] rest]|]; [|reflexivity].
    destruct (m_kind m); try reflexivity; (destruct (setter p a); [now apply G|reflexivity]).
Qed.

(** The list is complete for [Failing]. *)
Lemma in_fails fuel : forall from k a o, Failing cpp st self from k a o -> ~ In TooDeep (fails fuel from k a) ->
  In o (fails fuel from k a).
Proof.
  induction fuel as [|f IH]; intros from k a o F N; [simpl in N; tauto|].
  assert (G : forall rest us u, In u us -> FailingUse cpp st self rest u o ->
    ~ In TooDeep (flat_map (fun u =>
        match u with
        | Cpp n => if cpp_has cpp c_names self n then [] else [NoBinding n]
        | SetCpp n => if cpp_has cpp c_rw self n then [] else [NoBinding n]
        | Own b => fails f self Get b
        | SetOwn b => fails f self Put b
        | Super b => fails f rest Get b
        | Try b => filter (fun o => match o with NotImplemented | TooDeep => true | _ => false end)
                          (fails f self Get b)
        | Unavailable => [NotImplemented]
        end) us) ->
    In o (flat_map (fun u =>
        match u with
        | Cpp n => if cpp_has cpp c_names self n then [] else [NoBinding n]
        | SetCpp n => if cpp_has cpp c_rw self n then [] else [NoBinding n]
        | Own b => fails f self Get b
        | SetOwn b => fails f self Put b
        | Super b => fails f rest Get b
        | Try b => filter (fun o => match o with NotImplemented | TooDeep => true | _ => false end)
                          (fails f self Get b)
        | Unavailable => [NotImplemented]
        end) us)).
  { intros rest us u I U T. apply in_flat_map. exists u. split; [exact I|].
    assert (T' : forall l, l = (match u with
        | Cpp n => if cpp_has cpp c_names self n then [] else [NoBinding n]
        | SetCpp n => if cpp_has cpp c_rw self n then [] else [NoBinding n]
        | Own b => fails f self Get b
        | SetOwn b => fails f self Put b
        | Super b => fails f rest Get b
        | Try b => filter (fun o => match o with NotImplemented | TooDeep => true | _ => false end)
                          (fails f self Get b)
        | Unavailable => [NotImplemented]
        end) -> ~ In TooDeep l).
    { intros l -> C. apply T. apply in_flat_map. exists u. now split. }
    specialize (T' _ eq_refl).
    inversion U; subst; try (rewrite H; now left); try (now left); try (apply IH; assumption).
    apply filter_In. split; [|reflexivity]. apply IH; [assumption|].
    intro C. apply T'. apply filter_In. now split. }
  inversion F; subst; cbn [fails] in *.
  - rewrite H, H0 in *. simpl in *. now left.
  - rewrite H, H0, H1 in *. destruct (String.eqb a "plot" && derives_compute self && negb false); now left.
  - rewrite H0 in *.
    assert (P : String.eqb a "plot" && derives_compute self && negb (called st) = false).
    { apply not_true_is_false. intro C. apply H. rewrite !andb_true_iff, negb_true_iff, String.eqb_eq in C. tauto. }
    assert (M : mem a (fields st self) = false).
    { destruct (mem a (fields st self)) eqn:M; auto. apply mem_In in M. contradiction. }
    rewrite P, M, H2. now left.
  - rewrite H, H1 in *. destruct (m_kind m); try contradiction; now left.
  - rewrite H0 in *.
    assert (P : String.eqb a "plot" && derives_compute self && negb (called st) = false).
    { apply not_true_is_false. intro C. apply H. rewrite !andb_true_iff, negb_true_iff, String.eqb_eq in C. tauto. }
    rewrite P in *.
    destruct (m_kind m) eqn:K.
    + eapply G; eassumption.
    + rewrite H1 in * by auto. eapply G; eassumption.
    + eapply G; eassumption.
    + destruct (mem a (fields st self)) eqn:M; [apply mem_In in M; tauto|]. eapply G; eassumption.
  - rewrite H, H1 in *. destruct (m_kind m); try contradiction; eapply G; eassumption.
Qed.
End Fails.

Scheme Failing_mut := Induction for Failing Sort Prop
  with FailingUse_mut := Induction for FailingUse Sort Prop.

(** The state enters only through the flag and the attributes that are there: more attributes, fewer errors. *)
Section Mono.
Variables (cpp : list cppclass) (self : list pyclass) (st st' : state).
Hypotheses (C : called st = called st') (I : incl (late st) (late st')).

Lemma fields_incl : incl (fields st self) (fields st' self).
Proof.
  unfold fields. intros a H. apply in_app_or in H. apply in_or_app. destruct H; [now left|right; now apply I].
Qed.

Lemma failing_mono : forall from k a o, Failing cpp st' self from k a o -> Failing cpp st self from k a o.
Proof.
  apply (Failing_mut cpp st' self (fun from k a o _ => Failing cpp st self from k a o)
                     (fun rest u o _ => FailingUse cpp st self rest u o)); intros.
  - apply fail_plot; [assumption|congruence].
  - eapply fail_guard; eauto; congruence.
  - apply fail_missing; [now rewrite C|assumption| |assumption]. intro X. apply n0. now apply fields_incl.
  - eapply fail_readonly; eauto.
  - apply (fail_inside cpp st self from a p m rest u o); try assumption.
    + rewrite C. assumption.
    + intro K. rewrite C. auto.
    + intros [K X]. apply n0. split; [assumption|now apply fields_incl].
  - eapply fail_setter; eauto.
  - now constructor.
  - now constructor.
  - now constructor.
  - now constructor.
  - now constructor.
  - now constructor.
  - constructor.
Qed.

Lemma fails_state fuel : forall from k a o, In o (fails cpp st' self fuel from k a) ->
  In o (fails cpp st self fuel from k a).
Proof.
  induction fuel as [|f IH]; intros from k a o H; [exact H|].
  assert (G : forall rest us,
    In o (flat_map (fun u =>
        match u with
        | Cpp n => if cpp_has cpp c_names self n then [] else [NoBinding n]
        | SetCpp n => if cpp_has cpp c_rw self n then [] else [NoBinding n]
        | Own b => fails cpp st' self f self Get b
        | SetOwn b => fails cpp st' self f self Put b
        | Super b => fails cpp st' self f rest Get b
        | Try b => filter (fun o => match o with NotImplemented | TooDeep => true | _ => false end)
                          (fails cpp st' self f self Get b)
        | Unavailable => [NotImplemented]
        end) us) ->
    In o (flat_map (fun u =>
        match u with
        | Cpp n => if cpp_has cpp c_names self n then [] else [NoBinding n]
        | SetCpp n => if cpp_has cpp c_rw self n then [] else [NoBinding n]
        | Own b => fails cpp st self f self Get b
        | SetOwn b => fails cpp st self f self Put b
        | Super b => fails cpp st self f rest Get b
        | Try b => filter (fun o => match o with NotImplemented | TooDeep => true | _ => false end)
                          (fails cpp st self f self Get b)
        | Unavailable => [NotImplemented]
        end) us)).
  { intros rest us. rewrite !in_flat_map. intros [u [I1 I2]]. exists u. split; [exact I1|].
    destruct u; auto. apply filter_In in I2. apply filter_In. split; [now apply IH|tauto]. }
  cbn [fails] in *. rewrite C in *.
  assert (M : mem a (fields st self) = true -> mem a (fields st' self) = true)
    by (rewrite !mem_In; apply fields_incl).
  destruct k.
  - destruct (String.eqb a "plot" && derives_compute self && negb (called st')); [exact H|].
    destruct (locate from a) as [[[p m] rest]|].
    + destruct (m_kind m).
      * now apply G.
      * destruct (called st'); [now apply G|exact H].
      * now apply G.
      * destruct (mem a (fields st self)); [rewrite M in H by reflexivity; destruct H|].
        destruct (mem a (fields st' self)); [destruct H|now apply G].
    + destruct (mem a (fields st self)); [rewrite M in H by reflexivity; destruct H|].
      destruct (mem a (fields st' self)); [destruct H|exact H].
  - destruct (locate from a) as [[[p m] rest]|]; [|exact H].
    destruct (m_kind m); auto; (destruct (setter p a); [now apply G|exact H]).
Qed.
End Mono.

(** The states a program reaches. *)
Section Runs.
Variable ch : list pyclass.

Lemma run_called prog : returned prog -> called (run ch prog) = true.
Proof.
  unfold run, returned. generalize (St false []). induction prog as [|o r IH]; intros st I; [destruct I|].
  simpl in *. destruct I as [->|I]; [|now apply IH].
  assert (K : forall l s, called s = true -> called (fold_left (step ch) l s) = true).
  { clear. induction l as [|o l IH]; intros s H; [exact H|]. simpl. apply IH. destruct o; simpl; auto. now rewrite H. }
  now apply K.
Qed.

Lemma run_not_called prog : ~ returned prog -> existsb p_early ch = false -> called (run ch prog) = false.
Proof.
  unfold run, returned. intros N E. assert (H : called (St false []) = false) by reflexivity. revert H.
  generalize (St false []). induction prog as [|o r IH]; intros st H; [exact H|].
  simpl in *. apply IH; [tauto|]. destruct o; simpl; [tauto| |exact H]. now rewrite H, E.
Qed.

Lemma run_late prog : (existsb p_early ch = true -> late_of ch = []) ->
  called (run ch prog) = true -> incl (late_of ch) (late (run ch prog)).
Proof.
  intro E. unfold run.
  assert (H : called (St false []) = true -> incl (late_of ch) (late (St false []))) by discriminate. revert H.
  generalize (St false []). induction prog as [|o r IH]; intros st H; [exact H|].
  simpl. apply IH. destruct o; simpl.
  - intros _ a I. exact I.
  - intro Cl. destruct (existsb p_early ch) eqn:X.
    + rewrite E by reflexivity. intros a [].
    + rewrite orb_false_r in Cl. intros a I. apply filter_In. split; [exact I|].
      apply orb_true_iff. left. apply mem_In. now apply H.
  - exact H.
Qed.
End Runs.

(** The two states in which the tables have to be checked. *)
Definition before : state := St false [].
Definition after (c : string) : state := St true (late_of (order c)).

Definition pair_mem (c a : string) (l : list (string * string)) : bool :=
  existsb (fun q => String.eqb (fst q) c && String.eqb (snd q) a) l.

Lemma pair_mem_In c a l : pair_mem c a l = true <-> In (c, a) l.
Proof.
  unfold pair_mem. rewrite existsb_exists. split.
  - intros [[x y] [I E]]. simpl in E. apply andb_true_iff in E. destruct E as [E1 E2].
    apply String.eqb_eq in E1, E2. now subst.
  - intro I. exists (c, a). split; [exact I|]. simpl. now rewrite !String.eqb_refl.
Qed.

Definition depth : nat := 12.
Notation fails_in st c k a := (fails freud_cpp st (order c) depth (order c) k a).

Definition ok_get (called : bool) (c a : string) (o : outcome) : bool :=
  match o with
  | NotComputed => negb called
  | NotImplemented => mem a asking && mem c no_default
  | NoBinding _ => pair_mem c a unbound
  | _ => false
  end.

Definition ok_put (c a : string) (o : outcome) : bool :=
  match o with
  | NoSetter b => String.eqb a b && negb (pair_mem c a writable)
  | _ => false
  end.

Definition check (c : string) : bool :=
  forallb (fun a => forallb (ok_get false c a) (fails_in before c Get a)
                    && forallb (ok_get true c a) (fails_in (after c) c Get a)
                    && forallb (ok_put c a) (fails_in before c Put a)
                    && forallb (ok_put c a) (fails_in (after c) c Put a)) (dir (order c)) &&
  implb (existsb p_early (order c)) (match late_of (order c) with [] => true | _ => false end).

Lemma checked : forallb check concrete = true.
Proof. vm_compute. reflexivity. Qed.

Lemma check_of c : In c concrete -> check c = true.
Proof. intro I. pose proof checked as K. rewrite forallb_forall in K. now apply K. Qed.

Lemma early_of c : In c concrete -> existsb p_early (order c) = true -> late_of (order c) = [].
Proof.
  intros I E. pose proof (check_of c I) as K. unfold check in K. apply andb_true_iff in K. destruct K as [_ K].
  rewrite E in K. simpl in K. destruct (late_of (order c)); [reflexivity|discriminate].
Qed.

Lemma reached c prog : In c concrete ->
  forall from k a o, Failing freud_cpp (run (order c) prog) (order c) from k a o ->
  Failing freud_cpp (if called (run (order c) prog) then after c else before) (order c) from k a o.
Proof.
  intros I from k a o F. destruct (called (run (order c) prog)) eqn:X.
  - eapply failing_mono; [| |exact F]; [now rewrite X|].
    simpl. apply run_late; [now apply early_of|exact X].
  - eapply failing_mono; [| |exact F]; [now rewrite X|]. intros b [].
Qed.

Lemma fails_get (b : bool) c a : In c concrete -> In a (dir (order c)) ->
  forall o, In o (fails_in (if b then after c else before) c Get a) -> ok_get b c a o = true.
Proof.
  intros I D o H. pose proof (check_of c I) as K. unfold check in K. apply andb_true_iff in K. destruct K as [K _].
  rewrite forallb_forall in K. specialize (K a D). rewrite !andb_true_iff, !forallb_forall in K.
  destruct K as [[[K1 K2] _] _]. destruct b; [exact (K2 o H)|exact (K1 o H)].
Qed.

Lemma fails_put (b : bool) c a : In c concrete -> In a (dir (order c)) ->
  forall o, In o (fails_in (if b then after c else before) c Put a) -> ok_put c a o = true.
Proof.
  intros I D o H. pose proof (check_of c I) as K. unfold check in K. apply andb_true_iff in K. destruct K as [K _].
  rewrite forallb_forall in K. specialize (K a D). rewrite !andb_true_iff, !forallb_forall in K.
  destruct K as [[_ K1] K2]. destruct b; [exact (K2 o H)|exact (K1 o H)].
Qed.

(** Every way an access of a freud object can fail, after any program. *)
Lemma failing_get c prog a o : In c concrete -> In a (dir (order c)) ->
  Failing freud_cpp (run (order c) prog) (order c) (order c) Get a o ->
  ok_get (called (run (order c) prog)) c a o = true.
Proof.
  intros I D F. apply reached in F; [|exact I].
  set (b := called (run (order c) prog)) in *.
  apply (fails_get b c a I D). apply in_fails; [exact F|].
  intro T. apply (fails_get b c a I D) in T. destruct b; discriminate T.
Qed.

Lemma failing_put c prog a o : In c concrete -> In a (dir (order c)) ->
  Failing freud_cpp (run (order c) prog) (order c) (order c) Put a o -> ok_put c a o = true.
Proof.
  intros I D F. apply reached in F; [|exact I].
  set (b := called (run (order c) prog)) in *.
  apply (fails_put b c a I D). apply in_fails; [exact F|].
  intro T. apply (fails_put b c a I D) in T. discriminate T.
Qed.

(** An error of [eval] is a failure, given enough fuel. *)
Lemma eval_failing cpp st self fuel : forall from k a o, eval cpp fuel st self from k a = o -> o <> Value ->
  o <> TooDeep -> Failing cpp st self from k a o.
Proof.
  induction fuel as [|f IH]; intros from k a o E N T; [simpl in *; congruence|].
  assert (G : forall rest us,
    (fix go (us : list use) : outcome :=
         match us with
         | [] => Value
         | u :: r =>
           match (match u with
                  | Cpp n => if cpp_has cpp c_names self n then Value else NoBinding n
                  | SetCpp n => if cpp_has cpp c_rw self n then Value else NoBinding n
                  | Own b => eval cpp f st self self Get b
                  | SetOwn b => eval cpp f st self self Put b
                  | Super b => eval cpp f st self rest Get b
                  | Try b => match eval cpp f st self self Get b with
                             | NotImplemented => NotImplemented
                             | TooDeep => TooDeep
                             | _ => Value
                             end
                  | Unavailable => NotImplemented
                  end) with
           | Value => go r
           | e => e
           end
         end) us = o -> exists u, In u us /\ FailingUse cpp st self rest u o).
  { intros rest us. induction us as [|u r IHr]; intro H; [congruence|].
    assert (S : forall P : use -> Prop, (exists v, In v r /\ P v) -> exists v, In v (u :: r) /\ P v)
      by (intros P [v [I1 I2]]; exists v; split; [now right|exact I2]).
    destruct u as [n|n|b|b|b|b|].
    - destruct (cpp_has cpp c_names self n) eqn:X; [apply S, IHr, H|].
      eexists; split; [now left|]. rewrite <- H. now constructor.
    - destruct (cpp_has cpp c_rw self n) eqn:X; [apply S, IHr, H|].
      eexists; split; [now left|]. rewrite <- H. now constructor.
    - destruct (eval cpp f st self self Get b) eqn:E1; [apply S, IHr, H|..];
        (eexists; split; [now left|]; constructor; apply IH; congruence).
    - destruct (eval cpp f st self self Put b) eqn:E1; [apply S, IHr, H|..];
        (eexists; split; [now left|]; constructor; apply IH; congruence).
    - destruct (eval cpp f st self rest Get b) eqn:E1; [apply S, IHr, H|..];
        (eexists; split; [now left|]; constructor; apply IH; congruence).
    - destruct (eval cpp f st self self Get b) eqn:E1; try (apply S, IHr, H); try congruence.
      eexists; split; [now left|]. rewrite <- H. constructor. apply IH; congruence.
    - eexists; split; [now left|]. rewrite <- H. constructor. }
  cbn [eval] in E.
  destruct k.
  - destruct (String.eqb a "plot" && derives_compute self && negb (called st)) eqn:P.
    { rewrite !andb_true_iff, negb_true_iff, String.eqb_eq in P. destruct P as [[-> P1] P2]. subst o.
      now apply fail_plot. }
    assert (P' : ~ (a = "plot" /\ derives_compute self = true /\ called st = false)).
    { intros [-> [P1 P2]]. rewrite P1, P2 in P. discriminate. }
    destruct (locate from a) as [[[p m] rest]|] eqn:L.
    + destruct (m_kind m) eqn:K.
      * apply G in E. destruct E as [u [I U]].
        eapply fail_inside; eauto; [congruence|intros [X _]; congruence].
      * destruct (called st) eqn:X.
        { apply G in E. destruct E as [u [I U]].
          apply (fail_inside cpp st self from a p m rest u o); try assumption;
            [rewrite X; exact P'|intros _; exact X|intros [Y _]; congruence]. }
        subst o. eapply fail_guard; eauto.
      * apply G in E. destruct E as [u [I U]].
        eapply fail_inside; eauto; [congruence|intros [X _]; congruence].
      * destruct (mem a (fields st self)) eqn:M; [congruence|].
        apply G in E. destruct E as [u [I U]].
        eapply fail_inside; eauto; [congruence|]. intros [_ X]. apply mem_In in X. congruence.
    + destruct (mem a (fields st self)) eqn:M; [simpl in E; congruence|].
      destruct (builtin a) eqn:B; [simpl in E; congruence|]. simpl in E. subst o.
      apply fail_missing; auto. intro X. apply mem_In in X. congruence.
  - destruct (locate from a) as [[[p m] rest]|] eqn:L; [|congruence].
    destruct (m_kind m) eqn:K; try congruence;
      (destruct (setter p a) as [s|] eqn:Z;
       [apply G in E; destruct E as [u [I U]]; eapply fail_setter; eauto; congruence
       |subst o; eapply fail_readonly; eauto; congruence]).
Qed.

(** Python's recursion limit is far away. *)
Lemma not_deep (b : bool) c k a : In c concrete -> In a (dir (order c)) ->
  ~ In TooDeep (fails_in (if b then after c else before) c k a).
Proof.
  intros I D T. destruct k; [apply (fails_get b) in T|apply (fails_put b) in T]; auto; destruct b; discriminate T.
Qed.

Lemma enough_any cpp st st' self d g from k a :
  called st = called st' -> incl (late st) (late st') -> d <= g ->
  ~ In TooDeep (fails cpp st self d from k a) -> eval cpp g st' self from k a <> TooDeep.
Proof.
  intros C I L N E. apply eval_fails in E; [|discriminate].
  apply (fails_state cpp self st st' C I) in E.
  rewrite (fails_mono _ _ _ d) in E; auto.
Qed.

Lemma limit : depth <= recursion_limit.
Proof. apply Nat.leb_le. vm_compute. reflexivity. Qed.

Lemma enough_st c st k a : In c concrete -> In a (dir (order c)) ->
  (called st = true -> incl (late_of (order c)) (late st)) ->
  eval freud_cpp recursion_limit st (order c) (order c) k a <> TooDeep.
Proof.
  intros I D L. destruct (called st) eqn:X.
  - assert (H1 : called (after c) = called st) by (rewrite X; reflexivity).
    assert (H2 : incl (late (after c)) (late st)) by exact (L eq_refl).
    exact (enough_any freud_cpp (after c) st (order c) depth recursion_limit (order c) k a H1 H2 limit
                      (not_deep true c k a I D)).
  - assert (H1 : called before = called st) by (rewrite X; reflexivity).
    assert (H2 : incl (late before) (late st)) by (intros b []).
    exact (enough_any freud_cpp before st (order c) depth recursion_limit (order c) k a H1 H2 limit
                      (not_deep false c k a I D)).
Qed.

Lemma enough c prog k a : In c concrete -> In a (dir (order c)) ->
  eval freud_cpp recursion_limit (run (order c) prog) (order c) (order c) k a <> TooDeep.
Proof.
  intros I D. exact (enough_st c (run (order c) prog) k a I D (run_late (order c) prog (early_of c I))).
Qed.
