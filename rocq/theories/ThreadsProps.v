(** C63: the number of threads and the context manager NumThreads. *)
From Coq Require Import ZArith List Lia Bool.
From Verif Require Import ThreadsModel ThreadsSpec.
Import ListNotations.
Local Open Scope Z_scope.

Lemma cpp_set_spec hw n cs : cpp_set hw n cs = [if n =? 0 then hw else n].
Proof. unfold cpp_set. now rewrite skipn_app, skipn_all, Nat.sub_diag. Qed.

Lemma names_set hw a n s : names a n ->
  set_num_threads hw a s = (mkT (AInt n) [if n =? 0 then hw else n], Normal).
Proof.
  intros []; cbn [set_num_threads].
  - cbn [to_unsigned]. cbn. now rewrite cpp_set_spec.
  - rewrite (proj2 (Z.ltb_lt z 0)) by assumption. cbn. now rewrite cpp_set_spec.
  - cbn. now rewrite cpp_set_spec.
  - rewrite (proj2 (Z.ltb_ge z 0)) by lia. unfold to_unsigned.
    rewrite (proj2 (Z.leb_le 0 z)), (proj2 (Z.ltb_lt z (2 ^ 32))) by lia. cbn [andb]. now rewrite cpp_set_spec.
Qed.

Lemma names_range a n : names a n -> 0 <= n < 2 ^ 32.
Proof. intros []; lia. Qed.

Lemma means_if hw n : 0 <= n -> means hw n (if n =? 0 then hw else n).
Proof. intros H. unfold means. destruct (Z.eqb_spec n 0); lia. Qed.

Lemma means_fun hw n p q : means hw n p -> means hw n q -> p = q.
Proof. unfold means. lia. Qed.

(** set_num_threads: every argument that names a number of threads is accepted, get_num_threads then reports that
    number and TBB uses what it means; every other argument raises and leaves TBB as it was. *)
Theorem C63_set hw a n s : names a n ->
  exists s', set_num_threads hw a s = (s', Normal) /\ get_num_threads s' = AInt n /\ means hw n (active hw s').
Proof.
  intros H. eexists. split; [exact (names_set hw a n s H)|]. split; [reflexivity|].
  apply means_if. apply names_range in H. lia.
Qed.

Theorem C63_set_rejected hw a s : ~ fine a ->
  exists s', set_num_threads hw a s = (s', Raised) /\ active hw s' = active hw s.
Proof.
  intros H. destruct a as [|z|[] t|t]; cbn [set_num_threads].
  - destruct H. exists 0. constructor.
  - destruct (Z.ltb_spec z 0); [destruct H; exists 0; now constructor|].
    unfold to_unsigned. destruct (Z.leb_spec 0 z); [|lia]. destruct (Z.ltb_spec z (2 ^ 32)); cbn [andb].
    + destruct H. exists z. now constructor.
    + now eexists.
  - destruct H. exists 0. constructor.
  - cbn. now eexists.
  - now eexists.
Qed.

Example C63_set_example : names (AInt 3) 3 /\ names (AInt (-2)) 0 /\ means 8 0 8 /\ ~ fine (AInt (2 ^ 32)).
Proof.
  repeat split; try (constructor; lia); unfold means; try lia.
  intros [n H]. inversion H; lia.
Qed.

(** A rejected number is nevertheless reported by get_num_threads, and stays there: the module variable is assigned
    before the value is handed to C++.  Here TBB keeps using 4 threads. *)
Theorem C63_rejected_value_reported_refuted :
  exists p s, exec 8 p start [] = (s, [], Normal) /\ get_num_threads s = AInt (2 ^ 32) /\ active 8 s = 4.
Proof. exists (Seq (Set_ (AInt 4)) (Try (Set_ (AInt (2 ^ 32))) Skip)). eexists. repeat split. Qed.

(** ** The with statement *)
Lemma enter_names hw a n s m : mN m = a -> names a n ->
  manager_enter hw m s = (mkT (AInt n) [if n =? 0 then hw else n], Normal).
Proof. intros <-. apply names_set. Qed.

Lemma exit_int hw n s m : restore_N m = AInt n -> 0 <= n < 2 ^ 32 ->
  manager_exit hw m s = (mkT (AInt n) [if n =? 0 then hw else n], Normal).
Proof. intros H Hn. unfold manager_exit. rewrite H. apply names_set. now constructor. Qed.

(** with NumThreads(a): body, with any body at all (calls of set_num_threads with good or bad arguments, further
    contexts, exceptions): the body runs with the number asked for; afterwards the number reported and the
    parallelism TBB uses are those from before, and the statement ends as the body ended. *)
Theorem C63_with_restores hw a n body s h : in_order hw s -> names a n ->
  exists s1 s2 s3 h' o,
    exec hw (With (New a) body) s h = (s3, h', o) /\
    get_num_threads s1 = AInt n /\ means hw n (active hw s1) /\
    exec hw body s1 h = (s2, h', o) /\
    get_num_threads s3 = get_num_threads s /\ active hw s3 = active hw s.
Proof.
  intros (k & Hk & Hr & Hm) Ha. cbn [exec meval].
  rewrite (enter_names hw a n s (manager_init a s) eq_refl Ha).
  destruct (exec hw body _ h) as [[s2 h'] o] eqn:E.
  rewrite (exit_int hw k s2 (manager_init a s) Hk Hr).
  exists (mkT (AInt n) [if n =? 0 then hw else n]), s2. do 3 eexists. split; [reflexivity|]. split; [reflexivity|].
  split; [apply means_if; apply names_range in Ha; lia|]. split; [exact E|].
  split; [now rewrite Hk|]. eapply means_fun; [apply means_if; lia|exact Hm].
Qed.

(** A context whose body leaves by an exception, after the body itself asked for an impossible number. *)
Example C63_with_restores_example :
  exists s h', exec 8 (Try (With (New (AInt 2)) (Seq (Set_ (AInt 3)) (Set_ (AInt (2 ^ 32))))) Skip) start [] = (s, h', Normal)
    /\ get_num_threads s = AInt 0 /\ active 8 s = 8.
Proof. do 2 eexists. repeat split. Qed.
Example C63_in_order_start : in_order 8 start.
Proof. exists 0. repeat split; try lia. left. split; reflexivity. Qed.

(** Entering with an unacceptable number: the statement raises, the body is skipped, __exit__ is never called, and
    get_num_threads goes on reporting the unacceptable number after the statement. *)
Theorem C63_with_rejected_refuted :
  exists body s h', exec 8 (Try (With (New (AInt (2 ^ 32))) body) Skip) start [] = (s, h', Normal)
    /\ get_num_threads s <> get_num_threads start.
Proof. exists Skip. do 2 eexists. split; [reflexivity|]. discriminate. Qed.

(** ** Managers kept in a variable *)
(** In general what comes back is the number that was reported when the manager was constructed. *)
Theorem C63_with_construction hw x m n k body s h :
  lookup x h = Some m -> restore_N m = AInt k -> 0 <= k < 2 ^ 32 -> names (mN m) n ->
  exists s' h' o, exec hw (With (Var x) body) s h = (s', h', o) /\ get_num_threads s' = AInt k /\ means hw k (active hw s').
Proof.
  intros Hx Hm Hk Hn. cbn [exec meval]. rewrite Hx, (enter_names hw _ n s m eq_refl Hn).
  destruct (exec hw body _ h) as [[s2 h'] o] eqn:E. rewrite (exit_int hw k s2 m Hm Hk).
  do 3 eexists. split; [reflexivity|]. split; [reflexivity|]. apply means_if. lia.
Qed.
Example C63_with_construction_example :
  lookup 0 [(0%nat, mkM (AInt 5) (AInt 2))] = Some (mkM (AInt 5) (AInt 2)) /\ 0 <= 5 < 2 ^ 32 /\ names (AInt 2) 2.
Proof. repeat split; try lia. constructor; lia. Qed.

(** So a manager constructed before a change of the setting undoes that change: after
    m = NumThreads(2); set_num_threads(4); with m: pass   the setting is not 4. *)
Theorem C63_prebuilt_manager_refuted :
  exists s s' h, exec 8 (Seq (Assign 0 (New (AInt 2))) (Set_ (AInt 4))) start [] = (s, h, Normal) /\
    exec 8 (With (Var 0) Skip) s h = (s', h, Normal) /\
    in_order 8 s /\ get_num_threads s = AInt 4 /\ active 8 s = 4 /\ get_num_threads s' = AInt 0 /\ active 8 s' = 8.
Proof.
  do 3 eexists. split; [reflexivity|]. split; [reflexivity|]. repeat split.
  exists 4. repeat split; try lia. right. split; [lia|reflexivity].
Qed.

(** ** Every program *)
Definition fine_heap (h : heap) : Prop :=
  forall x m, lookup x h = Some m -> fine (mN m) /\ exists k, restore_N m = AInt k /\ 0 <= k < 2 ^ 32.

Lemma in_order_set hw n : 0 <= n < 2 ^ 32 -> in_order hw (mkT (AInt n) [if n =? 0 then hw else n]).
Proof. intros H. exists n. split; [reflexivity|]. split; [exact H|]. apply means_if. lia. Qed.

Lemma fine_set hw a s : fine a -> exists s', set_num_threads hw a s = (s', Normal) /\ in_order hw s'.
Proof.
  intros [n H]. eexists. split; [exact (names_set hw a n s H)|]. apply in_order_set. eauto using names_range.
Qed.

Lemma meval_fine hw e s h m : in_order hw s -> fine_heap h -> fine_expr e -> meval e s h = Some m ->
  fine (mN m) /\ exists k, restore_N m = AInt k /\ 0 <= k < 2 ^ 32.
Proof.
  intros (k & Hk & Hr & _) Hh He. destruct e; cbn; intros E.
  - injection E as <-. split; [exact He|]. exists k. now split.
  - eapply Hh; eassumption.
Qed.

(** Whatever a program does -- nested contexts, stored managers entered and left in any order, exceptions caught or
    not -- as long as every number it asks for is acceptable, the number reported and the parallelism TBB uses agree
    at the end. *)
Theorem C63_agreement hw p : fine_program p -> forall s h s' h' o, in_order hw s -> fine_heap h ->
  exec hw p s h = (s', h', o) -> in_order hw s' /\ fine_heap h'.
Proof.
  induction p as [| |a|x e|p IHp q IHq|p IHp q IHq|e p IHp|x|x]; cbn [fine_program exec]; intros Hf s h s' h' o Hs Hh.
  - intros [= <- <- <-]. auto.
  - intros [= <- <- <-]. auto.
  - destruct (fine_set hw a s Hf) as (s1 & -> & H1). intros [= <- <- <-]. auto.
  - destruct (meval e s h) as [m|] eqn:E; intros [= <- <- <-]; [|auto]. split; [exact Hs|].
    intros y m' Hy. cbn in Hy. destruct (Nat.eqb y x); [injection Hy as <-; eauto using meval_fine|eapply Hh; eassumption].
  - destruct Hf as [Hp Hq]. destruct (exec hw p s h) as [[s1 h1] []] eqn:E.
    + destruct (IHp Hp _ _ _ _ _ Hs Hh E). eauto.
    + intros [= <- <- <-]. eauto.
  - destruct Hf as [Hp Hq]. destruct (exec hw p s h) as [[s1 h1] []] eqn:E.
    + intros [= <- <- <-]. eauto.
    + destruct (IHp Hp _ _ _ _ _ Hs Hh E). eauto.
  - destruct Hf as [He Hp]. destruct (meval e s h) as [m|] eqn:E; [|intros [= <- <- <-]; auto].
    destruct (meval_fine hw e s h m Hs Hh He E) as (Hm & k & Hk & Hr).
    unfold manager_enter. destruct (fine_set hw (mN m) s Hm) as (s1 & -> & H1).
    destruct (exec hw p s1 h) as [[s2 h2] o2] eqn:E2. destruct (IHp Hp _ _ _ _ _ H1 Hh E2) as [H2 Hh2].
    rewrite (exit_int hw k s2 m Hk Hr). intros [= <- <- <-]. split; [|assumption]. now apply in_order_set.
  - destruct (lookup x h) as [m|] eqn:E; [|intros [= <- <- <-]; auto].
    unfold manager_enter. destruct (fine_set hw (mN m) s (proj1 (Hh _ _ E))) as (s1 & -> & H1).
    intros [= <- <- <-]. auto.
  - destruct (lookup x h) as [m|] eqn:E; [|intros [= <- <- <-]; auto].
    destruct (Hh _ _ E) as (_ & k & Hk & Hr). rewrite (exit_int hw k s m Hk Hr). intros [= <- <- <-].
    split; [|assumption]. now apply in_order_set.
Qed.

Example C63_agreement_example : fine_program (With (New (AInt 2)) (Seq (Assign 0 (New ANone)) (Try (With (Var 0) Raise) (Set_ (AInt 7)))))
  /\ fine_heap [].
Proof.
  split; [|discriminate]. cbn. repeat split; [exists 2; constructor; lia|exists 0; constructor|exists 7; constructor; lia].
Qed.

(** Nested contexts: any depth, each level restored. *)
Theorem C63_nested hw : forall ns s h, in_order hw s -> Forall fine ns ->
  exists s', exec hw (fold_right (fun a p => With (New a) p) Skip ns) s h = (s', h, Normal) /\
    get_num_threads s' = get_num_threads s /\ active hw s' = active hw s.
Proof.
  induction ns as [|a ns IH]; intros s h Hs Hf; cbn [fold_right].
  - exists s. cbn. auto.
  - inversion Hf as [|? ? [n Hn] Hf']; subst.
    destruct (C63_with_restores hw a n (fold_right (fun a p => With (New a) p) Skip ns) s h Hs Hn)
      as (s1 & s2 & s3 & h' & o & E & G1 & M1 & E2 & G3 & A3).
    assert (H1 : in_order hw s1) by (exists n; eauto using names_range).
    destruct (IH s1 h H1 Hf') as (s2' & E2' & _). rewrite E2 in E2'. injection E2' as <- <- <-.
    exists s3. auto.
Qed.
Example C63_nested_example : Forall fine [AInt 1; ANone; AInt 5].
Proof. repeat constructor; eexists; constructor; lia. Qed.

Print Assumptions C63_set.
Print Assumptions C63_set_rejected.
Print Assumptions C63_with_restores.
Print Assumptions C63_with_construction.
Print Assumptions C63_agreement.
Print Assumptions C63_nested.
