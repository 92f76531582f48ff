(** Proofs about the shell iterator of LinkCell. *)
From Verif Require Import LinkCellModel NListProofs AABBProofs2 LinkCellSpec.
Open Scope Z_scope.

Inductive trace : shell -> list shell -> shell -> Prop :=
| tr_nil s : trace s [] s
| tr_cons s l s' : trace (sh_next s) l s' -> trace s (s :: l) s'.
Lemma trace_app s l s' l' s'' : trace s l s' -> trace s' l' s'' -> trace s (l ++ l') s''.
Proof. induction 1; simpl; auto. intros. apply tr_cons; auto. Qed.
Lemma trace_cat s l s' l' s'' L : trace s l s' -> trace s' l' s'' -> L = l ++ l' -> trace s L s''.
Proof. intros. subst. eapply trace_app; eauto. Qed.
Lemma trace_iter s l s' : trace s l s' -> Nat.iter (length l) sh_next s = s' /\
  (forall k d, (k < length l)%nat -> nth k l d = Nat.iter k sh_next s).
Proof.
  induction 1 as [s|s l s' T (IH1 & IH2)]; [split; auto; simpl; lia|].
  assert (E : forall k x, Nat.iter k sh_next (sh_next x) = sh_next (Nat.iter k sh_next x)).
  { intros k x. symmetry. induction k; simpl in *; congruence. }
  split.
  - simpl. rewrite <- E. auto.
  - intros [|k] d H; simpl in *; auto. rewrite IH2 by lia. apply E.
Qed.

Lemma trace_row (f : nat -> shell) e : forall k i, (0 < k)%nat -> (forall m, (i <= m < i + k - 1)%nat -> sh_next (f m) = f (S m)) ->
  sh_next (f (i + k - 1)%nat) = e -> trace (f i) (map f (seq i k)) e.
Proof.
  induction k as [|k IH]; intros i Hk Hs He; [lia|]. simpl. apply tr_cons. destruct k.
  - simpl. replace (i + 1 - 1)%nat with i in He by lia. rewrite He. apply tr_nil.
  - rewrite Hs by lia. apply IH; [lia| |].
    + intros m Hm. apply Hs. lia.
    + replace (S i + S k - 1)%nat with (i + S (S k) - 1)%nat by lia. auto.
Qed.
Definition grid {T} (f : nat -> nat -> T) (a b : nat) : list T := flat_map (fun j => map (fun i => f i j) (seq 0 a)) (seq 0 b).
Lemma trace_grid (f : nat -> nat -> shell) a b e : (0 < a)%nat -> (0 < b)%nat ->
  (forall i j, (i < a)%nat -> (j < b)%nat -> sh_next (f i j) = if (S i <? a)%nat then f (S i) j else if (S j <? b)%nat then f 0%nat (S j) else e) ->
  trace (f 0%nat 0%nat) (grid f a b) e.
Proof.
  intros Ha Hb Hs. unfold grid.
  assert (G : forall m j, (0 < m)%nat -> (j + m = b)%nat -> trace (f 0%nat j) (flat_map (fun j => map (fun i => f i j) (seq 0 a)) (seq j m)) e).
  { induction m as [|m IH]; intros j Hm Hj; [lia|]. simpl. eapply trace_app.
    - apply (trace_row (fun i => f i j) (if (S j <? b)%nat then f 0%nat (S j) else e) a 0%nat); auto.
      + intros i Hi. rewrite Hs by lia. rewrite (proj2 (Nat.ltb_lt _ _)) by lia. auto.
      + rewrite Hs by lia. rewrite (proj2 (Nat.ltb_ge (S (0 + a - 1)) a)) by lia. auto.
    - destruct m.
      + simpl. rewrite (proj2 (Nat.ltb_ge (S j) b)) by lia. apply tr_nil.
      + rewrite (proj2 (Nat.ltb_lt (S j) b)) by lia. apply IH; lia. }
  apply G; auto.
Qed.
Lemma in_grid {T} (f : nat -> nat -> T) a b x : In x (grid f a b) <-> exists i j, (i < a)%nat /\ (j < b)%nat /\ x = f i j.
Proof.
  unfold grid. rewrite in_flat_map. split.
  - intros (j & Hj & H). apply in_map_iff in H as (i & <- & Hi). apply in_seq in Hi, Hj. exists i, j. repeat split; auto; lia.
  - intros (i & j & Hi & Hj & ->). exists j. split; [apply in_seq; lia|]. apply in_map_iff. exists i. split; auto. apply in_seq; lia.
Qed.
Lemma grid_nodup {T} (f : nat -> nat -> T) a b : (forall i j i' j', (i < a)%nat -> (j < b)%nat -> (i' < a)%nat -> (j' < b)%nat -> f i j = f i' j' -> i = i' /\ j = j') ->
  NoDup (grid f a b).
Proof.
  intros Hf. unfold grid. apply NoDup_flat_map; [apply seq_NoDup| |].
  - intros j Hj. apply in_seq in Hj. apply NoDup_map_in; [|apply seq_NoDup]. intros x y Hx Hy E. apply in_seq in Hx, Hy. apply Hf in E; lia.
  - intros j j' x Hj Hj' Hx Hx'. apply in_seq in Hj, Hj'. apply in_map_iff in Hx as (i & <- & Hi), Hx' as (i' & E & Hi').
    apply in_seq in Hi, Hi'. apply Hf in E; lia.
Qed.
Lemma map_grid {T U} (g : T -> U) (f : nat -> nat -> T) a b : map g (grid f a b) = grid (fun i j => g (f i j)) a b.
Proof. unfold grid. rewrite flat_map_concat_map, concat_map, map_map, flat_map_concat_map. f_equal. apply map_ext. intros. apply map_map. Qed.

Local Notation zn := Z.of_nat.
Definition st0 (N : Z) (d : bool) (i j : nat) : shell := Sh N 0 (- N + zn i) N (if d then 0 else 1 - N + zn j) d.
Definition st1 (N : Z) (d : bool) (i j : nat) : shell := Sh N 1 N (N - zn i) (if d then 0 else 1 - N + zn j) d.
Definition st2 (N : Z) (d : bool) (i j : nat) : shell := Sh N 2 (N - zn i) (- N) (if d then 0 else 1 - N + zn j) d.
Definition st3 (N : Z) (d : bool) (i j : nat) : shell := Sh N 3 (- N) (- N + zn i) (if d then 0 else 1 - N + zn j) d.
Definition st4 (N : Z) (d : bool) (i j : nat) : shell := Sh N 4 (- N + zn i) (- N + zn j) (- N) d.
Definition st5 (N : Z) (d : bool) (i j : nat) : shell := Sh N 5 (- N + zn i) (- N + zn j) N d.
Definition wa (N : Z) : nat := Z.to_nat (2 * N).
Definition wb (N : Z) (d : bool) : nat := if d then 1%nat else Z.to_nat (2 * N - 1).
Definition shell_states (N : Z) (d : bool) : list shell :=
  if N =? 0 then [sh_reset 0 d]
  else grid (st0 N d) (wa N) (wb N d) ++ grid (st1 N d) (wa N) (wb N d) ++ grid (st2 N d) (wa N) (wb N d) ++
       grid (st3 N d) (wa N) (wb N d) ++
       (if d then [] else grid (st4 N d) (S (wa N)) (S (wa N)) ++ grid (st5 N d) (S (wa N)) (S (wa N))).

Ltac zb := repeat match goal with
  | |- context [ ?a <=? ?b ] => first [rewrite (proj2 (Z.leb_le a b)) by lia | rewrite (proj2 (Z.leb_gt a b)) by lia]
  | |- context [ ?a <? ?b ] => first [rewrite (proj2 (Z.ltb_lt a b)) by lia | rewrite (proj2 (Z.ltb_ge a b)) by lia]
  | |- context [ (?a <? ?b)%nat ] => first [rewrite (proj2 (Nat.ltb_lt a b)) by lia | rewrite (proj2 (Nat.ltb_ge a b)) by lia]
  end.
Ltac stage := intros i j Hi Hj; unfold wa, wb in *;
  unfold sh_next, sh_next_z, st0, st1, st2, st3, st4, st5, b2z; cbn [sh_range sh_stage sh_x sh_y sh_z sh_2d Z.add];
  match goal with
  | |- context [ (S i <? ?a)%nat ] => destruct (Nat.ltb_spec (S i) a)
  end;
  match goal with
  | |- context [ (S j <? ?b)%nat ] => destruct (Nat.ltb_spec (S j) b)
  | _ => idtac
  end; zb; cbv beta iota; try (f_equal; lia).

Lemma shell_trace N d : 0 <= N -> trace (sh_reset N d) (shell_states N d) (sh_reset (N + 1) d).
Proof.
  intros HN. unfold shell_states. destruct (Z.eqb_spec N 0) as [->|HN0].
  { apply tr_cons. unfold sh_reset at 1. simpl. apply tr_nil. }
  assert (E0 : sh_reset N d = st0 N d 0 0).
  { unfold sh_reset, st0. rewrite (proj2 (Z.eqb_neq _ _)) by auto. destruct d; f_equal; lia. }
  rewrite E0.
  assert (A : (0 < wa N)%nat) by (unfold wa; lia).
  assert (B : (0 < wb N d)%nat) by (unfold wb; destruct d; lia).
  assert (C : (0 < S (wa N))%nat) by lia.
  eapply trace_app; [apply (trace_grid _ _ _ (st1 N d 0 0) A B)|].
  { destruct d; stage. }
  eapply trace_app; [apply (trace_grid _ _ _ (st2 N d 0 0) A B)|].
  { destruct d; stage. }
  eapply trace_app; [apply (trace_grid _ _ _ (st3 N d 0 0) A B)|].
  { destruct d; stage. }
  destruct d.
  - rewrite app_nil_r. apply trace_grid; auto. stage.
  - eapply trace_app; [apply (trace_grid _ _ _ (st4 N false 0 0) A B)|].
    { stage. }
    eapply trace_app; [apply (trace_grid _ _ _ (st5 N false 0 0) C C)|].
    { stage. }
    apply trace_grid; auto. stage.
Qed.

Lemma shell_range N d s : 0 <= N -> In s (shell_states N d) -> sh_range s = N /\ sh_2d s = d.
Proof.
  intros HN. unfold shell_states. destruct (Z.eqb_spec N 0) as [->|HN0]; [intros [<-|[]]; auto|].
  rewrite !in_app_iff, !in_grid. intros H.
  assert (G : In s (if d then [] else grid (st4 N d) (S (wa N)) (S (wa N)) ++ grid (st5 N d) (S (wa N)) (S (wa N))) -> sh_range s = N /\ sh_2d s = d).
  { destruct d; [intros []|]. rewrite in_app_iff, !in_grid. intros [(i & j & _ & _ & ->)|(i & j & _ & _ & ->)]; auto. }
  destruct H as [(i & j & _ & _ & ->)|[(i & j & _ & _ & ->)|[(i & j & _ & _ & ->)|[(i & j & _ & _ & ->)|H]]]]; auto.
Qed.

Lemma tri_eq (a b c a' b' c' : Z) : (a, b, c) = (a', b', c') -> a = a' /\ b = b' /\ c = c'.
Proof. intros E. injection E; auto. Qed.
Ltac peq := solve [split; [lia|split; [lia|]]; repeat match goal with |- (_, _) = (_, _) => f_equal end; lia].
Lemma shell_in N d p : 0 <= N -> (In p (map sh_pos (shell_states N d)) <-> cheb p = N /\ offset_ok d p).
Proof.
  intros HN. destruct p as [[x y] z]. unfold cheb, offset_ok. cbn [snd]. unfold shell_states. destruct (Z.eqb_spec N 0) as [->|HN0].
  { simpl. unfold sh_pos, sh_reset. simpl. split.
    - intros [E|[]]. injection E as <- <- <-. auto.
    - intros [H _]. left. f_equal; [f_equal|]; lia. }
  rewrite !map_app, !in_app_iff, !map_grid, !in_grid.
  unfold st0, st1, st2, st3, st4, st5, sh_pos. cbn [sh_x sh_y sh_z].
  destruct d.
  - cbn [map In]. unfold wa, wb. split.
    + intros [(i & j & Hi & Hj & E)|[(i & j & Hi & Hj & E)|[(i & j & Hi & Hj & E)|[(i & j & Hi & Hj & E)|[]]]]]; apply tri_eq in E as (-> & -> & ->); split; auto; lia.
    + intros [H Hz]. specialize (Hz eq_refl). subst z.
      destruct (Z.eq_dec y N), (Z.eq_dec x N), (Z.eq_dec y (- N)), (Z.eq_dec x (- N)); try lia.
      all: first
        [ left; exists (Z.to_nat (x + N)), 0%nat; peq
        | right; left; exists (Z.to_nat (N - y)), 0%nat; peq
        | right; right; left; exists (Z.to_nat (N - x)), 0%nat; peq
        | right; right; right; left; exists (Z.to_nat (y + N)), 0%nat; peq ].
  - rewrite !map_app, !in_app_iff, !map_grid, !in_grid. cbn [sh_pos sh_x sh_y sh_z]. unfold wa, wb. split.
    + intros [(i & j & Hi & Hj & E)|[(i & j & Hi & Hj & E)|[(i & j & Hi & Hj & E)|[(i & j & Hi & Hj & E)|[(i & j & Hi & Hj & E)|(i & j & Hi & Hj & E)]]]]];
      apply tri_eq in E as (-> & -> & ->); (split; [lia|discriminate]).
    + intros [H _]. 
      destruct (Z.eq_dec z N); [|destruct (Z.eq_dec z (- N)); [|destruct (Z.eq_dec y N), (Z.eq_dec x N), (Z.eq_dec y (- N)), (Z.eq_dec x (- N)); try lia]].
      all: first
        [ left; exists (Z.to_nat (x + N)), (Z.to_nat (z + N - 1)); peq
        | right; left; exists (Z.to_nat (N - y)), (Z.to_nat (z + N - 1)); peq
        | right; right; left; exists (Z.to_nat (N - x)), (Z.to_nat (z + N - 1)); peq
        | right; right; right; left; exists (Z.to_nat (y + N)), (Z.to_nat (z + N - 1)); peq
        | right; right; right; right; left; exists (Z.to_nat (x + N)), (Z.to_nat (y + N)); peq
        | right; right; right; right; right; exists (Z.to_nat (x + N)), (Z.to_nat (y + N)); peq ].
Qed.

Lemma shell_nodup N d : 0 <= N -> NoDup (map sh_pos (shell_states N d)).
Proof.
  intros HN. unfold shell_states. destruct (Z.eqb_spec N 0) as [->|HN0].
  { simpl. constructor; auto. constructor. }
  rewrite !map_app, !map_grid.
  unfold st0, st1, st2, st3, sh_pos. cbn [sh_x sh_y sh_z].
  repeat apply NoDup_app_intro.
  1-4: apply grid_nodup; intros i j i' j'; unfold wa, wb; intros; destruct d;
    match goal with E : (_, _, _) = _ |- _ => apply tri_eq in E; lia end.
  { destruct d; [constructor|]. rewrite map_app, !map_grid. unfold st4, st5. cbn [sh_x sh_y sh_z].
    apply NoDup_app_intro.
    1-2: apply grid_nodup; intros i j i' j'; unfold wa, wb; intros;
      match goal with E : (_, _, _) = _ |- _ => apply tri_eq in E; lia end.
    intros p. rewrite !in_grid. intros (i & j & Hi & Hj & ->) (i' & j' & Hi' & Hj' & E). apply tri_eq in E. lia. }
  all: intros p; rewrite ?in_app_iff, !in_grid; intros (i & j & Hi & Hj & ->); unfold wa, wb in *.
  all: destruct d; cbn [map In]; rewrite ?map_app, ?in_app_iff, ?map_grid, ?in_grid; unfold st4, st5; cbn [sh_x sh_y sh_z].
  all: intros H; repeat (destruct H as [H|H]); try contradiction; destruct H as (i' & j' & Hi' & Hj' & E); apply tri_eq in E; lia.
Qed.

(** The cube of shells 0..M-1. *)
Definition cube_states (M : nat) (d : bool) : list shell := flat_map (fun N => shell_states (Z.of_nat N) d) (seq 0 M).
Lemma cube_S M d : cube_states (S M) d = cube_states M d ++ shell_states (Z.of_nat M) d.
Proof. unfold cube_states. rewrite seq_S, flat_map_app. simpl. rewrite app_nil_r. reflexivity. Qed.
Lemma cube_trace M d : trace (sh_reset 0 d) (cube_states M d) (sh_reset (Z.of_nat M) d).
Proof.
  induction M; [apply tr_nil|]. rewrite cube_S. eapply trace_app; [apply IHM|].
  replace (Z.of_nat (S M)) with (Z.of_nat M + 1) by lia. apply shell_trace. lia.
Qed.
Lemma cube_range M d s : In s (cube_states M d) -> 0 <= sh_range s < Z.of_nat M /\ cheb (sh_pos s) = sh_range s /\ sh_2d s = d.
Proof.
  unfold cube_states. rewrite in_flat_map. intros (N & HN & Hs). apply in_seq in HN.
  destruct (shell_range (Z.of_nat N) d s ltac:(lia) Hs) as [E1 E2]. rewrite E1. split; [lia|]. split; auto.
  apply (shell_in (Z.of_nat N) d (sh_pos s)); [lia|]. apply in_map. auto.
Qed.
Lemma cube_in M d p : In p (map sh_pos (cube_states M d)) <-> cheb p < Z.of_nat M /\ offset_ok d p.
Proof.
  assert (C0 : 0 <= cheb p) by (destruct p as [[? ?] ?]; simpl; lia).
  rewrite in_map_iff. split.
  - intros (s & <- & Hs). unfold cube_states in Hs. apply in_flat_map in Hs as (N & HN & Hs). apply in_seq in HN.
    apply (in_map sh_pos) in Hs. apply shell_in in Hs; lia || tauto || idtac. destruct Hs as [-> ?]. split; auto. lia.
  - intros [Hc Ho]. assert (H : In p (map sh_pos (shell_states (cheb p) d))) by (apply shell_in; auto).
    apply in_map_iff in H as (s & E & Hs). exists s. split; auto. unfold cube_states. apply in_flat_map.
    exists (Z.to_nat (cheb p)). split; [apply in_seq; lia|]. rewrite Z2Nat.id by lia. auto.
Qed.
Lemma cube_nodup M d : NoDup (map sh_pos (cube_states M d)).
Proof.
  induction M; [constructor|]. rewrite cube_S, map_app. apply NoDup_app_intro; auto; [apply shell_nodup; lia|].
  intros p H1 H2. apply cube_in in H1. apply shell_in in H2; lia.
Qed.
