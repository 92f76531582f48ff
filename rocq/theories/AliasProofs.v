(** Ownership of arrays: every array freud may overwrite belongs to exactly one object. *)
From Coq Require Import List Bool Arith Lia.
Import ListNotations.
From Verif Require Import AliasModel AliasSpec.

Section P.
  Context {V : Type}.
  Variable L : lib V.
  Notation world := (world V). Notation obj := (obj V). Notation op := (op V). Notation cell := (cell V).

  Definition val (m : list cell) (a : nat) : option V := option_map fst (nth_error m a).

  Inductive tag := TUser | TAcc (o : nat) | TNl (o : nat) | TFixed.

  Definition owned (m : list cell) (tg : nat -> tag) (t : tag) (l : list nat) : Prop :=
    forall a, In a l -> a < length m /\ tg a = t.

  Definition good (m : list cell) (tg : nat -> tag) (o : nat) (x : obj) : Prop :=
    match x with
    | Acc c outs h s _ =>
        length outs = acc_n L c /\ NoDup outs /\ owned m tg (TAcc o) outs /\
        (s = false -> forall j a, nth_error outs j = Some a -> val m a = Some (acc_out L c j h))
    | Shot c outs _ _ => owned m tg TFixed outs
    | NL arrs segs _ => length arrs = 4 /\ NoDup arrs /\ owned m tg (TNl o) arrs /\ owned m tg TFixed segs
    | NQ p _ => owned m tg TUser [p]
    | QR _ q => owned m tg TFixed [q]
    end.

  Definition flags (m : list cell) (tg : nat -> tag) : Prop :=
    forall a c, nth_error m a = Some c -> (snd c = true <-> tg a = TUser).

  Definition Inv (w : world) (tg : nat -> tag) : Prop :=
    (forall o x, nth_error (objs w) o = Some x -> good (mem w) tg o x) /\ flags (mem w) tg.

  (** Lists. *)
  Lemma store_length : forall (m : list cell) a v, length (store m a v) = length m.
  Proof.
    induction m as [|[u b] m IH]; intros [|a] v; cbn; auto.
  Qed.

  Lemma store_same : forall (m : list cell) a v u b,
    nth_error m a = Some (u, b) -> nth_error (store m a v) a = Some (v, b).
  Proof.
    induction m as [|[u b] m IH]; intros [|a] v u' b' H; cbn in *; try discriminate.
    - injection H as -> ->. reflexivity.
    - eapply IH; eauto.
  Qed.

  Lemma store_other : forall (m : list cell) a v b, b <> a -> nth_error (store m a v) b = nth_error m b.
  Proof.
    induction m as [|[u w] m IH]; intros [|a] v [|b] H; cbn; auto; try lia.
    all: apply IH; lia.
  Qed.

  Lemma store_flag : forall (m : list cell) a v b c,
    nth_error (store m a v) b = Some c -> exists u, nth_error m b = Some (u, snd c).
  Proof.
    intros m a v b c H. destruct (Nat.eq_dec b a) as [->|E].
    - destruct (nth_error m a) as [[u w]|] eqn:F.
      + rewrite (store_same m a v u w F) in H. injection H as <-. now exists u.
      + apply nth_error_None in F. rewrite <- (store_length m a v) in F. apply nth_error_None in F. congruence.
    - rewrite store_other in H by auto. exists (fst c). now destruct c.
  Qed.

  Lemma store_all_length : forall l (m : list cell), length (store_all m l) = length m.
  Proof.
    induction l as [|[a v] l IH]; intros m; cbn; auto. now rewrite IH, store_length.
  Qed.

  Lemma store_all_other : forall l (m : list cell) b, ~ In b (map fst l) -> nth_error (store_all m l) b = nth_error m b.
  Proof.
    induction l as [|[a v] l IH]; intros m b H; cbn in *; auto.
    rewrite IH by tauto. apply store_other. intros ->. tauto.
  Qed.

  Lemma store_all_flag : forall l (m : list cell) b c,
    nth_error (store_all m l) b = Some c -> exists u, nth_error m b = Some (u, snd c).
  Proof.
    induction l as [|[a v] l IH]; intros m b c H; cbn in *.
    - exists (fst c). now destruct c.
    - destruct (IH _ _ _ H) as [u Hu]. destruct (store_flag _ _ _ _ _ Hu) as [u' Hu']. now exists u'.
  Qed.

  Lemma store_all_same : forall outs vs (m : list cell) j a v,
    NoDup outs -> (forall b, In b outs -> b < length m) ->
    nth_error outs j = Some a -> nth_error vs j = Some v ->
    val (store_all m (combine outs vs)) a = Some v.
  Proof.
    induction outs as [|b outs IH]; intros vs m j a v ND Hl Hj Hv; [destruct j; discriminate|].
    inversion ND as [|? ? Hnot ND']; subst.
    destruct vs as [|v0 vs]; [destruct j; discriminate|].
    destruct j as [|j]; cbn in *.
    - injection Hj as ->. injection Hv as ->. unfold val.
      rewrite store_all_other.
      + destruct (nth_error m a) as [[u w]|] eqn:F.
        * now rewrite (store_same m a v u w F).
        * apply nth_error_None in F. specialize (Hl a (or_introl eq_refl)). lia.
      + intros Hin. apply Hnot. clear -Hin. revert vs Hin.
        induction outs as [|c outs IH]; intros [|u vs] H; cbn in *; try tauto.
        destruct H as [->|H]; auto. right. eauto.
    - apply (IH vs (store m b v0) j); auto. intros c Hc. rewrite store_length. auto.
  Qed.

  Lemma combine_fst_in : forall (A B : Type) (l : list A) (l' : list B) a, In a (map fst (combine l l')) -> In a l.
  Proof.
    induction l as [|c l IH]; intros [|u l'] a H; cbn in *; try tauto.
    destruct H as [->|H]; auto. right. eauto.
  Qed.

  Lemma set_obj_length : forall (l : list obj) o x, length (set_obj l o x) = length l.
  Proof. induction l as [|y l IH]; intros [|o] x; cbn; auto. Qed.

  Lemma set_obj_same : forall (l : list obj) o x y, nth_error l o = Some y -> nth_error (set_obj l o x) o = Some x.
  Proof. induction l as [|z l IH]; intros [|o] x y H; cbn in *; try discriminate; eauto. Qed.

  Lemma set_obj_other : forall (l : list obj) o x o', o' <> o -> nth_error (set_obj l o x) o' = nth_error l o'.
  Proof. induction l as [|z l IH]; intros [|o] x [|o'] H; cbn; auto; lia. Qed.

  Lemma set_obj_case : forall (l : list obj) o x o' y,
    nth_error (set_obj l o x) o' = Some y -> (o' = o /\ y = x) \/ (o' <> o /\ nth_error l o' = Some y).
  Proof.
    intros l o x o' y H. destruct (Nat.eq_dec o' o) as [->|E].
    - left. split; auto. destruct (nth_error l o) eqn:F.
      + rewrite (set_obj_same l o x o0 F) in H. congruence.
      + apply nth_error_None in F. rewrite <- (set_obj_length l o x) in F. apply nth_error_None in F. congruence.
    - right. split; auto. now rewrite set_obj_other in H by auto.
  Qed.

  Lemma app_obj_case : forall (l : list obj) x o' y,
    nth_error (l ++ [x]) o' = Some y -> (o' = length l /\ y = x) \/ (o' < length l /\ nth_error l o' = Some y).
  Proof.
    intros l x o' y H. destruct (lt_eq_lt_dec o' (length l)) as [[E|E]|E].
    - right. rewrite nth_error_app1 in H by auto. auto.
    - left. subst. rewrite nth_error_app2, Nat.sub_diag in H by lia. cbn in H. split; congruence.
    - rewrite nth_error_app2 in H by lia. destruct (o' - length l) as [|[|k]] eqn:F; cbn in H; try discriminate. lia.
  Qed.

  Lemma table_length : forall n (f : nat -> V), length (table n f) = n.
  Proof. intros. unfold table. now rewrite map_length, seq_length. Qed.

  Lemma table_nth : forall n (f : nat -> V) j, j < n -> nth_error (table n f) j = Some (f j).
  Proof.
    intros n f j H. unfold table. erewrite map_nth_error; [reflexivity|].
    rewrite nth_error_nth' with (d := 0) by (now rewrite seq_length). now rewrite seq_nth.
  Qed.

  (** Allocation. *)
  Definition grow (m : list cell) (vs : list V) (b : bool) : list cell := m ++ map (fun v => (v, b)) vs.

  Lemma grow_length : forall m vs b, length (grow m vs b) = length m + length vs.
  Proof. intros. unfold grow. now rewrite app_length, map_length. Qed.

  Lemma grow_old : forall m vs b a, a < length m -> nth_error (grow m vs b) a = nth_error m a.
  Proof. intros. unfold grow. now rewrite nth_error_app1. Qed.

  Lemma grow_new : forall m vs b j v, nth_error vs j = Some v -> nth_error (grow m vs b) (length m + j) = Some (v, b).
  Proof.
    intros m vs b j v H. unfold grow. rewrite nth_error_app2 by lia.
    replace (length m + j - length m) with j by lia. now erewrite map_nth_error by eauto.
  Qed.

  Lemma grow_case : forall m vs b a c, nth_error (grow m vs b) a = Some c ->
    nth_error m a = Some c \/ (length m <= a /\ snd c = b).
  Proof.
    intros m vs b a c H. unfold grow in H. destruct (lt_dec a (length m)).
    - rewrite nth_error_app1 in H by auto. auto.
    - right. split; [lia|]. rewrite nth_error_app2 in H by lia.
      apply nth_error_In in H. apply in_map_iff in H as [v [<- _]]. reflexivity.
  Qed.

  Lemma seq_nth_error : forall s n j, j < n -> nth_error (seq s n) j = Some (s + j).
  Proof.
    intros s n j H. rewrite nth_error_nth' with (d := 0) by (now rewrite seq_length). now rewrite seq_nth.
  Qed.

  Definition retag (n : nat) (t : tag) (tg : nat -> tag) : nat -> tag := fun a => if a <? n then tg a else t.

  Lemma retag_old : forall n t tg a, a < n -> retag n t tg a = tg a.
  Proof. intros. unfold retag. destruct (Nat.ltb_spec a n); auto; lia. Qed.
  Lemma retag_new : forall n t tg a, n <= a -> retag n t tg a = t.
  Proof. intros. unfold retag. destruct (Nat.ltb_spec a n); auto; lia. Qed.

  (** A memory and tags that agree on the old part. *)
  Definition ext (m m' : list cell) (tg tg' : nat -> tag) : Prop :=
    length m <= length m' /\
    (forall a, a < length m -> nth_error m' a = nth_error m a) /\ (forall a, a < length m -> tg' a = tg a).

  Lemma ext_refl : forall m tg, ext m m tg tg.
  Proof. intros. repeat split; auto. Qed.

  Lemma ext_trans : forall m1 m2 m3 t1 t2 t3, ext m1 m2 t1 t2 -> ext m2 m3 t2 t3 -> ext m1 m3 t1 t3.
  Proof.
    intros m1 m2 m3 t1 t2 t3 [A1 [B1 C1]] [A2 [B2 C2]]. repeat split; [lia| |].
    - intros a H. rewrite B2, B1; auto; lia.
    - intros a H. rewrite C2, C1; auto; lia.
  Qed.

  Lemma ext_grow : forall m vs b t tg, ext m (grow m vs b) tg (retag (length m) t tg).
  Proof.
    intros. repeat split.
    - rewrite grow_length. lia.
    - intros. now apply grow_old.
    - intros. now apply retag_old.
  Qed.

  Lemma flags_grow : forall m vs b t tg, flags m tg -> (b = true <-> t = TUser) ->
    flags (grow m vs b) (retag (length m) t tg).
  Proof.
    intros m vs b t tg H E a c Hc. destruct (grow_case _ _ _ _ _ Hc) as [Ho|[Hn Hb]].
    - rewrite retag_old by (apply nth_error_Some; congruence). now apply H.
    - rewrite retag_new by auto. now rewrite Hb.
  Qed.

  Lemma owned_ext : forall m m' tg tg' t l, ext m m' tg tg' -> owned m tg t l -> owned m' tg' t l.
  Proof.
    intros m m' tg tg' t l [A [B C]] H a Ha. destruct (H a Ha) as [Hl Ht]. split; [lia|]. now rewrite C.
  Qed.

  Lemma good_ext : forall m m' tg tg' o x, ext m m' tg tg' -> good m tg o x -> good m' tg' o x.
  Proof.
    intros m m' tg tg' o x E. pose proof E as [A [B C]].
    destruct x as [c outs h s k|c outs n k|arrs segs u|p b|q n]; cbn.
    - intros [H1 [H2 [H3 H4]]]. refine (conj H1 (conj H2 (conj _ _))).
      + eapply owned_ext; eauto.
      + intros Hs j a Hj. unfold val. rewrite B by (apply (H3 a (nth_error_In _ _ Hj))). now apply H4.
    - apply owned_ext; auto.
    - intros [H1 [H2 [H3 H4]]]. refine (conj H1 (conj H2 (conj _ _))); eapply owned_ext; eauto.
    - apply owned_ext; auto.
    - apply owned_ext; auto.
  Qed.

  Lemma owned_new : forall m vs b t tg n, n = length vs -> owned (grow m vs b) (retag (length m) t tg) t (seq (length m) n).
  Proof.
    intros m vs b t tg n -> a Ha. apply in_seq in Ha. rewrite grow_length. split; [lia|]. apply retag_new. lia.
  Qed.

  Lemma contents_length : forall (m : list cell) l, (forall a, In a l -> a < length m) -> length (contents m l) = length l.
  Proof.
    induction l as [|a l IH]; intros H; cbn; auto.
    destruct (nth_error m a) eqn:F.
    - cbn. f_equal. apply IH. intros. apply H. now right.
    - apply nth_error_None in F. specialize (H a (or_introl eq_refl)). lia.
  Qed.

  Lemma contents_nth : forall (m : list cell) l j a, (forall a, In a l -> a < length m) ->
    nth_error l j = Some a -> nth_error (contents m l) j = val m a.
  Proof.
    induction l as [|b l IH]; intros [|j] a H Hj; cbn in *; try discriminate.
    - injection Hj as ->. unfold val. destruct (nth_error m a) eqn:F; auto.
      apply nth_error_None in F. specialize (H a (or_introl eq_refl)). lia.
    - destruct (nth_error m b) eqn:F.
      + cbn. apply IH; auto.
      + apply nth_error_None in F. specialize (H b (or_introl eq_refl)). lia.
  Qed.

  (** The arrays an object may overwrite, and the arrays a statement overwrites. *)
  Definition mut (x : obj) : list nat :=
    match x with Acc _ outs _ _ _ => outs | NL arrs _ _ => arrs | _ => [] end.

  Definition written (w : world) (p : op) : list nat :=
    match p with
    | UserWrite a _ => match nth_error (mem w) a with Some (_, true) => [a] | _ => [] end
    | AccRead o => match nth_error (objs w) o with Some (Acc _ outs _ true true) => outs | _ => [] end
    | NLSort o _ => match nth_error (objs w) o with Some (NL arrs _ _) => arrs | _ => [] end
    | _ => []
    end.

  Lemma step_length : forall w p, length (mem w) <= length (mem (fst (step L w p))).
  Proof.
    intros [m os] p. destruct p; cbn -[table]; unfold alloc;
      repeat match goal with
             | |- context [match ?x with _ => _ end] => is_var x; destruct x; cbn -[table]
             | |- context [match ?x with _ => _ end] => destruct x; cbn -[table]
             end; rewrite ?app_length, ?store_length, ?store_all_length; lia.
  Qed.

  Lemma step_frame : forall w p a, a < length (mem w) -> ~ In a (written w p) ->
    nth_error (mem (fst (step L w p))) a = nth_error (mem w) a.
  Proof.
    intros [m os] p a Ha. destruct p; cbn -[table]; unfold alloc;
      repeat match goal with
             | |- context [match ?x with _ => _ end] => is_var x; destruct x; cbn -[table]
             | |- context [match ?x with _ => _ end] => destruct x eqn:?; cbn -[table]
             end; intros Hw; cbn -[table] in *;
      rewrite ?nth_error_app1 by (rewrite ?app_length; lia); try reflexivity;
      try (apply store_other; intros ->; apply Hw; now left);
      try (apply store_all_other; intros Hc; apply Hw; eapply combine_fst_in; exact Hc).
  Qed.

  Lemma step_mut : forall w p o x a, nth_error (objs (fst (step L w p))) o = Some x -> In a (mut x) ->
    a < length (mem w) -> exists y, nth_error (objs w) o = Some y /\ In a (mut y).
  Proof.
    intros [m os] p o x a. destruct p; cbn -[table]; unfold alloc;
      repeat match goal with
             | |- context [match ?x with _ => _ end] => is_var x; destruct x; cbn -[table]
             | |- context [match ?x with _ => _ end] => destruct x eqn:?; cbn -[table]
             end; intros Ho Hin Hlt; cbn -[table] in *; try (exists x; split; assumption);
      repeat match goal with
             | H : nth_error (_ ++ [_]) _ = Some _ |- _ => apply app_obj_case in H; destruct H as [[? ->]|[? H]]
             | H : nth_error (set_obj _ _ _) _ = Some _ |- _ => apply set_obj_case in H; destruct H as [[? ->]|[? H]]
             end; subst; cbn -[table] in *; try (exists x; split; assumption);
      rewrite ?in_seq, ?app_length in Hin; try lia; try contradiction; eauto.
  Qed.

  Lemma inv_grow : forall m os tg vs b t, Inv (World m os) tg -> (b = true <-> t = TUser) ->
    Inv (World (grow m vs b) os) (retag (length m) t tg).
  Proof.
    intros m os tg vs b t [G F] E. split; cbn in *.
    - intros o x Ho. eapply good_ext; [apply ext_grow|]. now apply G.
    - now apply flags_grow.
  Qed.

  Lemma inv_add : forall m os tg x, Inv (World m os) tg -> good m tg (length os) x -> Inv (World m (os ++ [x])) tg.
  Proof.
    intros m os tg x [G F] E. split; cbn in *; auto.
    intros o y Ho. apply app_obj_case in Ho. destruct Ho as [[-> ->]|[_ Ho]]; auto.
  Qed.

  Lemma inv_set : forall m os tg o x, Inv (World m os) tg -> good m tg o x -> Inv (World m (set_obj os o x)) tg.
  Proof.
    intros m os tg o x [G F] E. split; cbn in *; auto.
    intros o' y Ho. apply set_obj_case in Ho. destruct Ho as [[-> ->]|[_ Ho]]; auto.
  Qed.

  (** Overwriting arrays with one tag leaves the objects alone whose arrays have another tag. *)
  Lemma flags_store : forall m tg l, flags m tg -> flags (store_all m l) tg.
  Proof.
    intros m tg l F a c H. destruct (store_all_flag _ _ _ _ H) as [u Hu]. apply (F a (u, snd c) Hu).
  Qed.

  Lemma good_store : forall m tg l o x t, good m tg o x -> (forall a, In a (map fst l) -> tg a = t) -> t <> TAcc o ->
    good (store_all m l) tg o x.
  Proof.
    intros m tg l o x t G Hl Ht.
    assert (O : forall u k, owned m tg u k -> owned (store_all m l) tg u k).
    { intros u k H a Ha. rewrite store_all_length. now apply H. }
    destruct x as [c outs h s k|c outs n k|arrs segs u|p b|q n]; cbn in *; auto.
    - destruct G as [G1 [G2 [G3 G4]]]. refine (conj G1 (conj G2 (conj (O _ _ G3) _))).
      intros Hs j a Hj. unfold val. rewrite store_all_other; [now apply G4|].
      intros Hin. apply Hl in Hin. destruct (G3 a (nth_error_In _ _ Hj)) as [_ E]. congruence.
    - destruct G as [G1 [G2 [G3 G4]]]. exact (conj G1 (conj G2 (conj (O _ _ G3) (O _ _ G4)))).
  Qed.

  Definition tags (w : world) (tg tg' : nat -> tag) : Prop := forall a, a < length (mem w) -> tg' a = tg a.

  Lemma step_inv : forall w p tg, Inv w tg -> exists tg', Inv (fst (step L w p)) tg' /\ tags w tg tg'.
  Proof.
    intros [m os] p tg I. pose proof I as [G F]. cbn in G, F.
    assert (Same : exists tg', Inv (World m os) tg' /\ tags (World m os) tg tg') by (exists tg; split; [exact I|now intros a _]).
    assert (R : forall t, tags (World m os) tg (retag (length m) t tg)) by (intros t a Ha; now apply retag_old).
    assert (R2 : forall (m' : list cell) t t', length m <= length m' ->
              tags (World m os) tg (retag (length m') t' (retag (length m) t tg))).
    { intros m' t t' H a Ha. cbn in Ha. rewrite !retag_old by lia. reflexivity. }
    destruct p; cbn -[table alloc]; unfold alloc; cbn -[table].
    - (* UserNew *)
      exists (retag (length m) TUser tg). split; [|apply R]. apply (inv_grow m os tg [v] true); tauto.
    - (* UserWrite *)
      destruct (nth_error m a) as [[u [|]]|] eqn:E; cbn; auto.
      exists tg. split; [|now intros b _].
      assert (T : tg a = TUser) by (apply (F a (u, true) E); reflexivity).
      change (store m a v) with (store_all m [(a, v)]). split; cbn -[store_all].
      + intros o x Ho. apply (good_store m tg _ o x TUser); auto.
        * cbn. intros b [<-|[]]. exact T.
        * discriminate.
      + now apply flags_store.
    - (* MkAcc *)
      exists (retag (length m) (TAcc (length os)) tg). split; [|apply R].
      apply inv_add; [apply (inv_grow m os tg _ false); [exact I|split; discriminate]|].
      cbn -[table]. refine (conj _ (conj _ (conj _ _))).
      + now rewrite seq_length, table_length.
      + apply seq_NoDup.
      + apply (owned_new m _ false). reflexivity.
      + discriminate.
    - (* AccCompute *)
      destruct (nth_error os o) as [[c outs h s k|c outs n k|arrs segs u|q b|q n]|] eqn:E; cbn -[table]; auto.
      pose proof (G o _ E) as GA. cbn in GA. destruct GA as [G1 [G2 [G3 G4]]].
      destruct reset; cbn -[table].
      + assert (A : forall h s k, (s = true) ->
                  Inv (World (m ++ map (fun v => (v, false)) (table (acc_n L c) (acc_zero L c)))
                         (set_obj os o (Acc c (seq (length m) (length (table (acc_n L c) (acc_zero L c)))) h s k)))
                    (retag (length m) (TAcc o) tg)).
        { intros h' s' k' ->. apply inv_set; [apply (inv_grow m os tg _ false); [exact I|split; discriminate]|].
          cbn -[table]. refine (conj _ (conj _ (conj _ _))).
          - now rewrite seq_length, table_length.
          - apply seq_NoDup.
          - apply (owned_new m _ false). reflexivity.
          - discriminate. }
        destruct ok; cbn -[table]; exists (retag (length m) (TAcc o) tg); (split; [|apply R]); now apply A.
      + destruct ok; cbn -[table]; exists tg; (split; [|now intros a _]); (apply inv_set; [exact I|]); cbn.
        * refine (conj G1 (conj G2 (conj G3 _))). discriminate.
        * exact (conj G1 (conj G2 (conj G3 G4))).
    - (* AccRead *)
      destruct (nth_error os o) as [[c outs h s [|]|c outs n k|arrs segs u|q b|q n]|] eqn:E; cbn -[table]; auto.
      pose proof (G o _ E) as GA. cbn in GA. destruct GA as [G1 [G2 [G3 G4]]].
      exists tg. split; [|now intros a _]. destruct s.
      + split; cbn -[table]; [|now apply flags_store].
        intros o' x Ho. apply set_obj_case in Ho. destruct Ho as [[-> ->]|[Hne Ho]].
        * cbn -[table]. refine (conj G1 (conj G2 (conj _ _))).
          { intros a Ha. rewrite store_all_length. now apply G3. }
          intros _ j a Hj. eapply store_all_same; eauto.
          { intros b Hb. now apply G3. }
          apply table_nth. rewrite <- G1. apply nth_error_Some. congruence.
        * apply (good_store m tg _ o' x (TAcc o)); auto; [|congruence].
          intros a Ha. apply G3. eapply combine_fst_in; eauto.
      + apply inv_set; [exact I|]. cbn. exact (conj G1 (conj G2 (conj G3 G4))).
    - (* MkShot *)
      exists tg. split; [|now intros a _]. apply inv_add; [exact I|]. cbn. intros a [].
    - (* ShotCompute *)
      destruct (nth_error os o) as [[c outs h s k|c outs n k|arrs segs u|q b|q n]|] eqn:E; cbn -[table]; auto.
      destruct ok; cbn -[table]; auto.
      destruct nl as [k'|]; cbn -[table].
      + destruct (nth_error os k') as [[c' outs' h s k''|c' outs' n' k''|arrs segs u|q b|q n']|]; cbn -[table]; auto.
        exists (retag (length m) TFixed tg). split; [|apply R].
        apply inv_set; [apply (inv_grow m os tg _ false); [exact I|split; discriminate]|].
        cbn -[table]. apply (owned_new m _ false). reflexivity.
      + set (m1 := m ++ map (fun v => (v, false)) (table 4 (nl_default L (contents m inputs)))).
        set (vs := table 4 (nl_default L (contents m inputs))) in *.
        change m1 with (grow m vs false).
        set (t1 := retag (length m) (TNl (length os)) tg).
        assert (I1 : Inv (World (grow m vs false) os) t1) by (apply inv_grow; [exact I|split; discriminate]).
        set (vs2 := table 2 (nl_seg L (contents (grow m vs false) (seq (length m) (length vs))))).
        set (m2 := grow (grow m vs false) vs2 false).
        change (grow m vs false ++ map (fun v => (v, false)) vs2) with m2.
        set (t2 := retag (length (grow m vs false)) TFixed t1).
        assert (I2 : Inv (World m2 os) t2) by (apply inv_grow; [exact I1|split; discriminate]).
        set (vs3 := table (shot_n L c) _).
        set (t3 := retag (length m2) TFixed t2).
        assert (I3 : Inv (World (grow m2 vs3 false) os) t3) by (apply inv_grow; [exact I2|split; discriminate]).
        assert (E12 : ext (grow m vs false) m2 t1 t2) by apply ext_grow.
        assert (E23 : ext m2 (grow m2 vs3 false) t2 t3) by apply ext_grow.
        exists t3. split.
        * apply (inv_add _ (set_obj os o _)); [apply inv_set; [exact I3|]|].
          { cbn -[table]. apply owned_new. reflexivity. }
          rewrite set_obj_length. cbn [good]. refine (conj _ (conj (seq_NoDup _ _) (conj _ _))).
          { now rewrite seq_length. }
          { eapply owned_ext; [exact (ext_trans _ _ _ _ _ _ E12 E23)|]. apply owned_new. reflexivity. }
          { eapply owned_ext; [exact E23|]. apply owned_new. reflexivity. }
        * intros a Ha. cbn in Ha. unfold t3, t2, t1, m2. rewrite !retag_old; auto; rewrite ?grow_length; lia.
    - (* ShotRead *)
      destruct (nth_error os o) as [[c outs h s k|c outs n [|]|arrs segs u|q b|q n]|] eqn:E; cbn; auto.
    - destruct (nth_error os o) as [[c outs h s k|c outs [n|] [|]|arrs segs u|q b|q n]|] eqn:E; cbn; auto.
    - (* MkNL *)
      set (vs := table 4 (nl_default L (contents m inputs))).
      set (m1 := grow m vs false). change (m ++ map (fun v => (v, false)) vs) with m1.
      set (t1 := retag (length m) (TNl (length os)) tg).
      assert (I1 : Inv (World m1 os) t1) by (apply inv_grow; [exact I|split; discriminate]).
      set (vs2 := table 2 (nl_seg L _)).
      set (t2 := retag (length m1) TFixed t1).
      assert (I2 : Inv (World (grow m1 vs2 false) os) t2) by (apply inv_grow; [exact I1|split; discriminate]).
      assert (E12 : ext m1 (grow m1 vs2 false) t1 t2) by apply ext_grow.
      exists t2. split.
      + apply inv_add; [exact I2|]. cbn [good]. refine (conj _ (conj (seq_NoDup _ _) (conj _ _))).
        * now rewrite seq_length.
        * eapply owned_ext; [exact E12|]. apply owned_new. reflexivity.
        * apply owned_new. reflexivity.
      + apply R2. unfold m1. rewrite grow_length. lia.
    - destruct (nth_error os o) as [[c outs h s k|c outs n k|arrs segs u|q b|q n]|] eqn:E; cbn; auto.
    - (* NLSegRead *)
      destruct (nth_error os o) as [[c outs h s k|c outs n k|arrs segs [|]|q b|q n]|] eqn:E; cbn -[table]; auto.
      pose proof (G o _ E) as GA. cbn in GA. destruct GA as [G1 [G2 [G3 G4]]].
      exists (retag (length m) TFixed tg). split; [|apply R].
      apply inv_set; [apply (inv_grow m os tg _ false); [exact I|split; discriminate]|].
      cbn [good]. refine (conj G1 (conj G2 (conj _ _))).
      + eapply owned_ext; [apply (ext_grow m _ false)|exact G3].
      + apply (owned_new m _ false). reflexivity.
    - (* NLSort *)
      destruct (nth_error os o) as [[c outs h s k|c outs n k|arrs segs u|q b|q n]|] eqn:E; cbn -[table]; auto.
      pose proof (G o _ E) as GA. cbn in GA. destruct GA as [G1 [G2 [G3 G4]]].
      exists tg. split; [|now intros a _]. split; cbn -[table]; [|now apply flags_store].
      intros o' x Ho. apply (good_store m tg _ o' x (TNl o)); auto; [|discriminate].
      intros a Ha. apply G3. eapply combine_fst_in; eauto.
    - (* NLFilter *)
      destruct (nth_error os o) as [[c outs h s k|c outs n k|arrs segs u|q b|q n]|] eqn:E; cbn -[table]; auto.
      destruct (nth_error m mask) as [[v b]|]; cbn -[table]; auto.
      pose proof (G o _ E) as GA. cbn in GA. destruct GA as [G1 [G2 [G3 G4]]].
      exists (retag (length m) (TNl o) tg). split; [|apply R].
      apply inv_set; [apply (inv_grow m os tg _ false); [exact I|split; discriminate]|].
      cbn [good]. refine (conj _ (conj (seq_NoDup _ _) (conj _ _))).
      + now rewrite seq_length.
      + apply (owned_new m _ false). reflexivity.
      + eapply owned_ext; [apply (ext_grow m _ false)|exact G4].
    - (* NLCopy *)
      destruct (nth_error os o) as [[c outs h s k|c outs n k|arrs segs u|q b|q n]|] eqn:E; cbn -[table]; auto.
      pose proof (G o _ E) as GA. cbn in GA. destruct GA as [G1 [G2 [G3 G4]]].
      set (vs := contents m arrs).
      assert (Hv : length vs = 4) by (unfold vs; rewrite contents_length; [exact G1|intros a Ha; now apply G3]).
      set (m1 := grow m vs false). change (m ++ map (fun v => (v, false)) vs) with m1.
      set (t1 := retag (length m) (TNl (length os)) tg).
      assert (I1 : Inv (World m1 os) t1) by (apply inv_grow; [exact I|split; discriminate]).
      set (vs2 := contents m segs).
      set (t2 := retag (length m1) TFixed t1).
      assert (I2 : Inv (World (grow m1 vs2 false) os) t2) by (apply inv_grow; [exact I1|split; discriminate]).
      assert (E12 : ext m1 (grow m1 vs2 false) t1 t2) by apply ext_grow.
      exists t2. split.
      + apply inv_add; [exact I2|]. cbn [good]. refine (conj _ (conj (seq_NoDup _ _) (conj _ _))).
        * now rewrite seq_length.
        * eapply owned_ext; [exact E12|]. apply owned_new. reflexivity.
        * apply owned_new. reflexivity.
      + apply R2. unfold m1. rewrite grow_length. lia.
    - (* NLCopyInto *)
      destruct (nth_error os o) as [[c outs h s k|c outs n k|arrs0 segs0 u0|q b|q n]|] eqn:E; cbn -[table]; auto.
      destruct (nth_error os from) as [[c outs h s k|c outs n k|arrs segs u|q b|q n]|] eqn:E'; cbn -[table]; auto.
      pose proof (G from _ E') as GA. cbn in GA. destruct GA as [G1 [G2 [G3 G4]]].
      set (vs := contents m arrs).
      assert (Hv : length vs = 4) by (unfold vs; rewrite contents_length; [exact G1|intros a Ha; now apply G3]).
      set (m1 := grow m vs false). change (m ++ map (fun v => (v, false)) vs) with m1.
      set (t1 := retag (length m) (TNl o) tg).
      assert (I1 : Inv (World m1 os) t1) by (apply inv_grow; [exact I|split; discriminate]).
      set (vs2 := contents m segs).
      set (t2 := retag (length m1) TFixed t1).
      assert (I2 : Inv (World (grow m1 vs2 false) os) t2) by (apply inv_grow; [exact I1|split; discriminate]).
      assert (E12 : ext m1 (grow m1 vs2 false) t1 t2) by apply ext_grow.
      exists t2. split.
      + apply inv_set; [exact I2|]. cbn [good]. refine (conj _ (conj (seq_NoDup _ _) (conj _ _))).
        * now rewrite seq_length.
        * eapply owned_ext; [exact E12|]. apply owned_new. reflexivity.
        * apply owned_new. reflexivity.
      + apply R2. unfold m1. rewrite grow_length. lia.
    - (* MkNQ *)
      destruct (nth_error m a) as [[v b]|]; cbn; auto.
      exists (retag (length m) TUser tg). split; [|apply R].
      apply inv_add; [apply (inv_grow m os tg [v] true); tauto|].
      cbn. apply (owned_new m [v] true TUser tg 1). reflexivity.
    - destruct (nth_error os o) as [[c outs h s k|c outs n k|arrs segs u|q b|q n]|] eqn:E; cbn; auto.
    - (* Query *)
      destruct (nth_error os o) as [[c outs h s k|c outs n k|arrs segs u|q b|q n]|] eqn:E; cbn; auto.
      destruct (nth_error m a) as [[v b']|]; cbn; auto.
      exists (retag (length m) TFixed tg). split; [|apply R].
      apply inv_add; [apply (inv_grow m os tg [v] false); [exact I|split; discriminate]|].
      cbn. apply (owned_new m [v] false TFixed tg 1). reflexivity.
    - (* QREval *)
      destruct (nth_error os o) as [[c outs h s k|c outs n k|arrs segs u|q b|q n]|] eqn:E; cbn -[table]; auto.
      destruct (nth_error os q) as [[c outs h s k|c outs n' k|arrs segs u|q' b|q' n']|]; cbn -[table]; auto.
      destruct (nth_error m n) as [[vq bq]|]; cbn -[table]; auto.
      destruct (nth_error m q') as [[vp bp]|]; cbn -[table]; auto.
      set (vs := table 4 (nq_query L vp b vq)).
      set (m1 := grow m vs false). change (m ++ map (fun v => (v, false)) vs) with m1.
      set (t1 := retag (length m) (TNl (length os)) tg).
      assert (I1 : Inv (World m1 os) t1) by (apply inv_grow; [exact I|split; discriminate]).
      set (vs2 := table 2 (nl_seg L _)).
      set (t2 := retag (length m1) TFixed t1).
      assert (I2 : Inv (World (grow m1 vs2 false) os) t2) by (apply inv_grow; [exact I1|split; discriminate]).
      assert (E12 : ext m1 (grow m1 vs2 false) t1 t2) by apply ext_grow.
      exists t2. split.
      + apply inv_add; [exact I2|]. cbn [good]. refine (conj _ (conj (seq_NoDup _ _) (conj _ _))).
        * now rewrite seq_length.
        * eapply owned_ext; [exact E12|]. apply owned_new. reflexivity.
        * apply owned_new. reflexivity.
      + apply R2. unfold m1. rewrite grow_length. lia.
  Qed.

  Lemma run_cons : forall w p ps, run L w (p :: ps) = run L (fst (step L w p)) ps.
  Proof. reflexivity. Qed.

  Lemma run_app : forall ps qs w, run L w (ps ++ qs) = run L (run L w ps) qs.
  Proof. intros. unfold run. apply fold_left_app. Qed.

  Lemma run_inv : forall ps w tg, Inv w tg -> exists tg', Inv (run L w ps) tg' /\ tags w tg tg'.
  Proof.
    induction ps as [|p ps IH]; intros w tg I.
    - exists tg. split; auto. now intros a _.
    - destruct (step_inv w p tg I) as [t1 [I1 T1]]. destruct (IH _ _ I1) as [t2 [I2 T2]].
      exists t2. split; auto. intros a Ha. rewrite T2, T1; auto.
      eapply Nat.lt_le_trans; [exact Ha|apply step_length].
  Qed.

  Lemma reachable_inv : forall w, reachable L w -> exists tg, Inv w tg.
  Proof.
    intros w [ps ->]. destruct (run_inv ps start (fun _ => TFixed)) as [tg [I _]].
    - split; cbn.
      + intros [|o] x H; discriminate.
      + intros [|a] c H; discriminate.
    - now exists tg.
  Qed.
End P.
