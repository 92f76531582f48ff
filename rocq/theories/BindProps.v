(** C80: the attributes of freud's objects reach the compiled code, except five. *)
From Coq Require Import List String Bool Lia PeanoNat.
From Verif Require Import BindModel BindSpec BindProofs.
Import ListNotations.
Local Open Scope string_scope.

Lemma get_eq c st a : get c st a = eval freud_cpp recursion_limit st (order c) (order c) Get a.
Proof. reflexivity. Qed.
Lemma put_eq c st a : put c st a = eval freud_cpp recursion_limit st (order c) (order c) Put a.
Proof. reflexivity. Qed.
Lemma limit_S : exists f, recursion_limit = S f.
Proof. exists (pred recursion_limit). reflexivity. Qed.

(** Reads and calls.  After any program, whichever way the code run by an attribute goes, it meets no missing
    binding, no missing attribute and no property without setter: the only errors are the guard's, before a compute
    call has returned, and that of default neighbours a class does not have. *)
Theorem C80_reads c prog a : In c concrete -> In a (dir (order c)) -> ~ In (c, a) unbound ->
  forall o, Failing freud_cpp (run (order c) prog) (order c) (order c) Get a o ->
    (o = NotComputed /\ ~ returned prog) \/ (o = NotImplemented /\ In a asking /\ In c no_default).
Proof.
  intros I D U o F. pose proof (failing_get c prog a o I D F) as K. unfold ok_get in K. destruct o; try discriminate.
  - left. split; [reflexivity|]. intro R. rewrite (run_called _ prog R) in K. discriminate.
  - apply pair_mem_In in K. contradiction.
  - right. apply andb_true_iff in K. destruct K as [K1 K2]. apply mem_In in K1, K2. auto.
Qed.

Lemma get_failing c prog a : In c concrete -> In a (dir (order c)) ->
  get c (run (order c) prog) a <> Value ->
  Failing freud_cpp (run (order c) prog) (order c) (order c) Get a (get c (run (order c) prog) a).
Proof.
  intros I D. rewrite get_eq. intro N.
  exact (eval_failing freud_cpp (run (order c) prog) (order c) recursion_limit (order c) Get a _ eq_refl N
                      (enough c prog Get a I D)).
Qed.

(** Once a compute call has returned, every attribute gives a value. *)
Theorem C80_served c prog a : In c concrete -> In a (dir (order c)) -> ~ In (c, a) unbound ->
  returned prog -> ~ (In a asking /\ In c no_default) -> get c (run (order c) prog) a = Value.
Proof.
  intros I D U R N. destruct (get c (run (order c) prog) a) eqn:E; [reflexivity|..]; exfalso;
    (assert (X : get c (run (order c) prog) a <> Value) by congruence;
     apply (get_failing c prog a I D) in X; apply (C80_reads c prog a I D U) in X;
     destruct X as [[_ X]|[_ X]]; [exact (X R)|exact (N X)]).
Qed.

(** Results are withheld until then (MSD, which marks itself computed early, excepted: C60). *)
Theorem C80_withheld c prog a : In c concrete -> result c a -> ~ returned prog ->
  existsb p_early (order c) = false -> get c (run (order c) prog) a = NotComputed.
Proof.
  intros I [p [m [rest [L K]]]] N E. pose proof (run_not_called (order c) prog N E) as F.
  rewrite get_eq. destruct limit_S as [f ->]. generalize dependent (run (order c) prog). intros st F.
  cbn [eval]. rewrite L, K, F.
  destruct (String.eqb a "plot" && derives_compute (order c) && negb false); reflexivity.
Qed.

(** Assignments: the properties listed as writable can be assigned, all others refuse with AttributeError, and no
    assignment meets a missing binding. *)
Definition put_check (c : string) : bool :=
  forallb (fun a => match locate (order c) a with
                    | Some (p, m, _) =>
                      match m_kind m, setter p a with
                      | Method, _ => true
                      | _, None => negb (pair_mem c a writable)
                      | _, Some _ => pair_mem c a writable
                      end
                    | None => true
                    end) (dir (order c)).

Lemma put_checked : forallb put_check concrete = true.
Proof. vm_compute. reflexivity. Qed.

Theorem C80_writes c prog a : In c concrete -> In a (dir (order c)) ->
  (forall o, Failing freud_cpp (run (order c) prog) (order c) (order c) Put a o -> o = NoSetter a) /\
  (property c a -> (put c (run (order c) prog) a = Value <-> In (c, a) writable)).
Proof.
  intros I D.
  assert (W : forall o, Failing freud_cpp (run (order c) prog) (order c) (order c) Put a o ->
                        o = NoSetter a /\ ~ In (c, a) writable).
  { intros o F. pose proof (failing_put c prog a o I D F) as K. unfold ok_put in K. destruct o; try discriminate.
    apply andb_true_iff in K. destruct K as [K1 K2]. apply String.eqb_eq in K1. subst. split; [reflexivity|].
    rewrite <- pair_mem_In. intro X. rewrite X in K2. discriminate. }
  split; [intros o F; now apply W|]. intros [p [m [rest [L P]]]].
  assert (V : put c (run (order c) prog) a <> Value ->
    Failing freud_cpp (run (order c) prog) (order c) (order c) Put a (put c (run (order c) prog) a)).
  { rewrite put_eq. intro N.
    exact (eval_failing freud_cpp (run (order c) prog) (order c) recursion_limit (order c) Put a _ eq_refl N
                        (enough c prog Put a I D)). }
  split.
  - intro E. pose proof put_checked as Q. rewrite forallb_forall in Q. specialize (Q c I). unfold put_check in Q.
    rewrite forallb_forall in Q. specialize (Q a D). rewrite L in Q.
    assert (S : setter p a <> None).
    { intro S. revert E. rewrite put_eq. destruct limit_S as [f ->]. generalize (run (order c) prog) as st.
      intro st. cbn [eval]. rewrite L. destruct P as [P|P]; rewrite P, S; discriminate. }
    destruct (setter p a); [|congruence]. destruct P as [P|P]; rewrite P in Q; now apply pair_mem_In.
  - intro J. destruct (put c (run (order c) prog) a) eqn:E; [reflexivity|..]; exfalso;
      (assert (X := V ltac:(discriminate)); apply W in X; destruct X as [_ X]; contradiction).
Qed.

(** Five attributes never give a value: the error is AttributeError, before and after compute, so hasattr is
    False for them. *)
Definition broken_check (q : string * string) : bool :=
  match locate (order (fst q)) (snd q) with
  | Some (_, m, _) =>
    match m_kind m, m_uses m with
    | Getter, [Cpp n] | Computed, [Cpp n] => negb (cpp_has freud_cpp c_names (order (fst q)) n)
    | _, _ => false
    end && negb (String.eqb (snd q) "plot")
  | None => false
  end.

Lemma broken_checked : forallb broken_check unbound = true.
Proof. vm_compute. reflexivity. Qed.

Theorem C80_unbound_refuted c a prog : In (c, a) unbound ->
  attribute_error (get c (run (order c) prog) a) /\
  (returned prog -> exists n, get c (run (order c) prog) a = NoBinding n).
Proof.
  intro U. pose proof broken_checked as Q. rewrite forallb_forall in Q. specialize (Q _ U). unfold broken_check in Q.
  cbn [fst snd] in Q.
  destruct (locate (order c) a) as [[[p m] rest]|] eqn:L; [|discriminate].
  apply andb_true_iff in Q. destruct Q as [Q P]. apply negb_true_iff in P.
  assert (N : exists n, (m_kind m = Getter \/ m_kind m = Computed) /\ m_uses m = [Cpp n] /\
                        cpp_has freud_cpp c_names (order c) n = false).
  { destruct (m_kind m); try discriminate; destruct (m_uses m) as [|[n|n|b|b|b|b|] [|]]; try discriminate;
      exists n; apply negb_true_iff in Q; auto. }
  destruct N as [n [K [E B]]].
  assert (G : forall st, get c st a = NoBinding n \/ (called st = false /\ get c st a = NotComputed)).
  { intro st. rewrite get_eq. destruct limit_S as [f ->]. cbn [eval].
    rewrite P. cbn [andb]. rewrite L, E, B.
    destruct K as [K|K]; rewrite K; [now left|]. destruct (called st); [now left|right; auto]. }
  destruct (G (run (order c) prog)) as [H|[F H]]; rewrite H; unfold attribute_error.
  - split; [right; left; eauto|intros _; eauto].
  - split; [now left|]. intro R. rewrite (run_called _ _ R) in F. discriminate.
Qed.

(** Non-trivial instances: an attribute that goes through super() and a guarded property, before and after a
    compute call that raised half-way; the caught error of _repr_png_; an assignment. *)
Example C80_case :
  In "PMFTXY" concrete /\ In "bin_counts" (dir (order "PMFTXY")) /\ ~ In ("PMFTXY", "bin_counts") unbound /\
  result "PMFTXY" "bin_counts" /\
  get "PMFTXY" (run (order "PMFTXY") [Raises []]) "bin_counts" = NotComputed /\
  get "PMFTXY" (run (order "PMFTXY") [Raises []; Returns]) "bin_counts" = Value /\
  get "PMFTXY" (run (order "PMFTXY") []) "_repr_png_" = Value /\
  get "DiffractionPattern" (run (order "DiffractionPattern") [Raises ["_N_points"]; Returns; Raises []]) "k_vectors"
    = Value /\
  get "LinkCell" (run (order "LinkCell") []) "cell_width" = NoBinding "getCellWidth" /\
  put "Box" (run (order "Box") []) "Lx" = Value /\ put "Box" (run (order "Box") []) "volume" = NoSetter "volume".
Proof.
  repeat match goal with |- _ /\ _ => split end; try (vm_compute; reflexivity).
  - apply mem_In. vm_compute. reflexivity.
  - apply mem_In. vm_compute. reflexivity.
  - rewrite <- pair_mem_In. vm_compute. discriminate.
  - unfold result. do 3 eexists. split; reflexivity.
Qed.

Print Assumptions C80_reads.
Print Assumptions C80_served.
Print Assumptions C80_withheld.
Print Assumptions C80_writes.
Print Assumptions C80_unbound_refuted.
