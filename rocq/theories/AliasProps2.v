(** C74, continued: segments and neighbor_counts are those of the list as it is now. *)
From Coq Require Import List Bool Arith Lia.
Import ListNotations.
From Verif Require Import AliasModel AliasSpec AliasProofs AliasProofs2.

Section C74.
  Context {V : Type}.
  Variable L : lib V.
  Notation world := (world V). Notation op := (op V). Notation obj := (obj V). Notation cell := (cell V).

  Lemma contents_ext (m m' : list cell) l : (forall a, In a l -> option_map fst (nth_error m' a) = option_map fst (nth_error m a)) -> contents m' l = contents m l.
  Proof.
    induction l as [|a l IH]; intros H; auto. unfold contents in *. cbn [flat_map]. rewrite IH by (intros; apply H; now right). f_equal.
    specialize (H a (or_introl eq_refl)). destruct (nth_error m' a) as [[? ?]|], (nth_error m a) as [[? ?]|]; cbn in *; congruence.
  Qed.
  Lemma contents_app (m x : list cell) l : (forall a, In a l -> a < length m) -> contents (m ++ x) l = contents m l.
  Proof. intros H. apply contents_ext. intros a Ha. rewrite nth_error_app1; auto. Qed.
  Lemma contents_new (m x : list cell) vs b : contents (m ++ map (fun v => (v, b)) vs ++ x) (seq (length m) (length vs)) = vs.
  Proof.
    revert m. induction vs as [|v vs IH]; intros m; auto. cbn [map length seq]. unfold contents. cbn [flat_map]. rewrite nth_error_app2, Nat.sub_diag by lia. cbn [app nth_error fst]. f_equal.
    specialize (IH (m ++ [(v, b)])). rewrite app_length in IH. cbn [length] in IH. rewrite Nat.add_1_r in IH. rewrite <- app_assoc in IH. exact IH.
  Qed.
  Lemma contents_grow (m : list cell) vs b : contents (m ++ map (fun v => (v, b)) vs) (seq (length m) (length vs)) = vs.
  Proof. rewrite <- (app_nil_r (map _ vs)). apply contents_new. Qed.

  (** Two sets of arrays allocated one after the other. *)
  Lemma fresh_two (m : list cell) vs vs' b x :
    let m1 := m ++ map (fun v => (v, b)) vs in let m2 := m1 ++ map (fun v => (v, b)) vs' in
    contents (m2 ++ x) (seq (length m) (length vs)) = vs /\ contents (m2 ++ x) (seq (length m1) (length vs')) = vs' /\ contents m1 (seq (length m) (length vs)) = vs.
  Proof.
    intros m1 m2. split; [|split].
    - unfold m2, m1. rewrite <- !app_assoc. apply contents_new.
    - unfold m2. rewrite <- app_assoc. apply contents_new.
    - apply contents_grow.
  Qed.

  Lemma same_list {A} (l l' : list A) : (forall j, nth_error l j = nth_error l' j) -> l = l'.
  Proof.
    revert l'. induction l as [|x l IH]; intros [|y l'] H; auto; try (specialize (H 0); discriminate). f_equal; [specialize (H 0); cbn in H; congruence|]. apply IH. intros j. exact (H (S j)).
  Qed.

  Definition current (w : world) (arrs segs : list nat) : Prop := contents (mem w) segs = table 2 (nl_seg L (contents (mem w) arrs)).
  Definition Seg (w : world) : Prop := forall o arrs segs, nth_error (objs w) o = Some (NL arrs segs true) -> current w arrs segs.

  Lemma nl_inj (a b a' b' : list nat) (u u' : bool) : @eq obj (NL a' b' u') (NL a b u) -> a = a' /\ b = b' /\ u = u'.
  Proof. intros H. injection H as -> -> ->. auto. Qed.
  Lemma nl_case w p tg o arrs segs : Inv L w tg -> nth_error (objs (fst (step L w p))) o = Some (NL arrs segs true) ->
    nth_error (objs w) o = Some (NL arrs segs true) \/ current (fst (step L w p)) arrs segs \/
    exists o0 arrs0 segs0, nth_error (objs w) o0 = Some (NL arrs0 segs0 true) /\
      contents (mem (fst (step L w p))) arrs = contents (mem w) arrs0 /\ contents (mem (fst (step L w p))) segs = contents (mem w) segs0.
  Proof.
    intros I. destruct w as [m os]. destruct I as [G _]. cbn in G. unfold current.
    Local Ltac one := intros Hx; first [apply set_obj_case in Hx as [[-> Hx]|[_ Hx]]; [first [discriminate Hx|idtac]|left; exact Hx] | left; exact Hx].
    destruct p; cbn -[table seq map app length]; unfold alloc.
    - auto.
    - destruct (nth_error m a) as [[? []]|]; cbn; auto.
    - cbn -[table seq map app length]. intros Hx. apply app_obj_case in Hx as [[-> Hx]|[_ Hx]]; [discriminate|auto].
    - destruct (nth_error os o0) as [[]|] eqn:E; cbn -[table seq map app length]; auto. destruct reset, ok; cbn -[table seq map app length]; one.
    - destruct (nth_error os o0) as [[? ? ? ? []| | | |]|] eqn:E; cbn -[table seq map app length]; auto. one.
    - intros Hx. apply app_obj_case in Hx as [[-> Hx]|[_ Hx]]; [discriminate|auto].
    - destruct (nth_error os o0) as [[| c outs nl0 called | | |]|] eqn:E; cbn -[table seq map app length]; auto. destruct ok; cbn -[table seq map app length]; auto. destruct nl as [k|].
      + destruct (nth_error os k) as [[]|]; cbn -[table seq map app length]; auto. one.
      + cbn -[table seq map app length]. intros Hx. apply app_obj_case in Hx as [[_ Hx]|[_ Hx]]; [|revert Hx; one]. apply nl_inj in Hx as (<- & <- & _). right; left.
        match goal with |- contents ((_ ++ map _ ?v2) ++ map _ ?v3) _ = _ => destruct (fresh_two m (table 4 (nl_default L (contents m inputs))) v2 false (map (fun v => (v, false)) v3)) as (A & B & C) end.
        cbv zeta in A, B, C. rewrite !table_length in *. rewrite A. rewrite C in *. exact B.
    - destruct (nth_error os o0) as [[? ? ? ? []|? ? ? []| | |]|]; cbn; auto.
    - destruct (nth_error os o0) as [[? ? ? ? []|? ? [] []| | |]|]; cbn; auto.
    - intros Hx. apply app_obj_case in Hx as [[_ Hx]|[_ Hx]]; [|auto]. apply nl_inj in Hx as (<- & <- & _). right; left.
      match goal with |- contents (_ ++ map _ ?v2) _ = _ => destruct (fresh_two m (table 4 (nl_default L (contents m inputs))) v2 false []) as (A & B & C) end.
      cbv zeta in A, B, C. rewrite app_nil_r in A, B. rewrite !table_length in *. rewrite A. rewrite C in *. exact B.
    - destruct (nth_error os o0) as [[]|]; cbn; auto.
    - destruct (nth_error os o0) as [[| |a0 s0 []| |]|] eqn:E; cbn -[table seq map app length]; auto. intros Hx. apply set_obj_case in Hx as [[-> Hx]|[_ Hx]]; [|auto]. apply nl_inj in Hx as (<- & <- & _). right; left.
      assert (B := contents_grow m (table 2 (nl_seg L (contents m a0))) false). rewrite B. f_equal. f_equal. symmetry. apply contents_app. destruct (G _ _ E) as (_ & _ & O & _). intros a Ha. now apply O.
    - destruct (nth_error os o0) as [[]|]; cbn -[table seq map app length]; auto.
    - destruct (nth_error os o0) as [[| |a0 s0 u0| |]|] eqn:E; cbn -[table seq map app length]; auto. destruct (nth_error m mask) as [[? ?]|]; cbn -[table seq map app length]; auto. one.
    - destruct (nth_error os o0) as [[| |a0 s0 u0| |]|] eqn:E; cbn -[table seq map app length]; auto. intros Hx. apply app_obj_case in Hx as [[_ Hx]|[_ Hx]]; [|auto]. apply nl_inj in Hx as (<- & <- & <-). right; right.
      exists o0, a0, s0. split; auto. destruct (fresh_two m (contents m a0) (contents m s0) false []) as (A & B & _). rewrite app_nil_r in A, B. split; auto.
    - destruct (nth_error os o0) as [[| |a0 s0 u0| |]|] eqn:E; cbn -[table seq map app length]; auto. destruct (nth_error os from) as [[| |a1 s1 u1| |]|] eqn:E1; cbn -[table seq map app length]; auto.
      intros Hx. apply set_obj_case in Hx as [[_ Hx]|[_ Hx]]; [|auto]. apply nl_inj in Hx as (<- & <- & <-). right; right.
      exists from, a1, s1. split; auto. destruct (fresh_two m (contents m a1) (contents m s1) false []) as (A & B & _). rewrite app_nil_r in A, B. split; auto.
    - destruct (nth_error m a) as [[? ?]|]; cbn; auto. intros Hx. apply app_obj_case in Hx as [[_ Hx]|[_ Hx]]; [discriminate|auto].
    - destruct (nth_error os o0) as [[]|]; cbn; auto.
    - destruct (nth_error os o0) as [[]|]; cbn; auto. destruct (nth_error m a) as [[? ?]|]; cbn; auto. intros Hx. apply app_obj_case in Hx as [[_ Hx]|[_ Hx]]; [discriminate|auto].
    - destruct (nth_error os o0) as [[| | | |k q]|]; cbn -[table seq map app length]; auto. destruct (nth_error os k) as [[| | |p built|]|]; cbn -[table seq map app length]; auto. destruct (nth_error m q) as [[vq ?]|]; cbn -[table seq map app length]; auto. destruct (nth_error m p) as [[vp ?]|]; cbn -[table seq map app length]; auto.
      intros Hx. apply app_obj_case in Hx as [[_ Hx]|[_ Hx]]; [|auto]. apply nl_inj in Hx as (<- & <- & _). right; left.
      match goal with |- contents (_ ++ map _ ?v2) _ = _ => destruct (fresh_two m (table 4 (nq_query L vp built vq)) v2 false []) as (A & B & C) end.
      cbv zeta in A, B, C. rewrite app_nil_r in A, B. rewrite !table_length in *. rewrite A. rewrite C in *. exact B.
  Qed.

  Lemma same_values w p tg o arrs segs u : Inv L w tg -> nth_error (objs w) o = Some (NL arrs segs u) ->
    contents (mem (fst (step L w p))) segs = contents (mem w) segs /\ (~ sorts o p -> contents (mem (fst (step L w p))) arrs = contents (mem w) arrs).
  Proof.
    intros I E. pose proof I as [G _]. destruct (G o _ E) as (_ & _ & Oa & Os). split.
    - apply contents_ext. intros a Ha. destruct (Os a Ha) as [Hl Ht]. apply (frozen_step L w p a (fixed_frozen L w tg a I Hl Ht)).
    - intros NS. apply contents_ext. intros a Ha. destruct (Oa a Ha) as [Hl Ht]. apply (held_step L w p o a); auto. split; [|split].
      + apply (tag_readonly L _ tg a I Hl). congruence.
      + intros o' x Ho' Hin. destruct (tag_mut L _ tg a o' x I Ho' Hin) as [_ [F|F]]; congruence.
      + now exists arrs, segs, u.
  Qed.

  (** Sorting a list leaves its segments and counts as they are (both orders compare the query point first:
      locality/NeighborBond.h:80-115). *)
  Definition sort_keeps_segments : Prop := forall k c, table 2 (nl_seg L (table 4 (nl_sort L k c))) = table 2 (nl_seg L c).

  Lemma seg_step w p tg : sort_keeps_segments -> Inv L w tg -> Seg w -> Seg (fst (step L w p)).
  Proof.
    intros SK I S o arrs segs E. destruct (nl_case w p tg o arrs segs I E) as [E0|[C|(o0 & a0 & s0 & E0 & Ca & Cs)]]; auto.
    - destruct (same_values w p tg o arrs segs true I E0) as [Vs Va]. unfold current. rewrite Vs.
      assert (D : sorts o p \/ ~ sorts o p) by (destruct p; try (right; intros [k F]; discriminate); destruct (Nat.eq_dec o0 o) as [->|N]; [left; eexists; reflexivity|right; intros [k F]; congruence]).
      destruct D as [[k ->]|N]; [|rewrite Va by auto; apply (S o); auto].
      rewrite (S o arrs segs E0), <- (SK k). do 2 f_equal. destruct I as [G _]. destruct (G o _ E0) as (L4 & ND & Oa & _). cbn -[table] in *. rewrite E0. cbn -[table].
      symmetry. set (vs := table 4 (nl_sort L k (contents (mem w) arrs))). set (m' := store_all (mem w) (combine arrs vs)).
      assert (Hlt : forall a, In a arrs -> a < length m') by (intros a Ha; unfold m'; rewrite store_all_length; now apply Oa).
      assert (Lc := contents_length m' arrs Hlt).
      assert (Lv : length vs = 4) by apply table_length.
      apply same_list. intros j. destruct (lt_dec j 4) as [Hj|Hj].
      + destruct (nth_error arrs j) as [a|] eqn:Ea; [|apply nth_error_None in Ea; lia]. rewrite (contents_nth m' arrs j a Hlt Ea).
        destruct (nth_error vs j) as [v|] eqn:Ev; [|apply nth_error_None in Ev; lia]. unfold m'. apply (store_all_same arrs vs (mem w) j a v); auto. intros b Hb. now apply Oa.
      + transitivity (@None V); [|symmetry]; apply nth_error_None; lia.
    - unfold current. rewrite Ca, Cs. apply (S o0); auto.
  Qed.

  Lemma seg_reachable w : sort_keeps_segments -> reachable L w -> Seg w.
  Proof.
    intros SK [ps ->]. assert (H : forall ps w tg, Inv L w tg -> Seg w -> Seg (run L w ps)).
    { induction ps0 as [|p ps0 IH]; intros w tg I S; auto. destruct (step_inv L w p tg I) as [tg' [I' _]]. rewrite run_cons. apply (IH _ tg'); auto. eapply seg_step; eauto. }
    destruct (reachable_inv L start (ex_intro _ [] eq_refl)) as [tg I]. apply (H ps start tg I). intros o arrs segs E. destruct o; discriminate.
  Qed.

  (** After any program - sorting, filtering, copying, overwriting - segments and neighbor_counts are those of the
      bonds the list has now. *)
Theorem C74_current : forall (w : world) (o : nat) l s,
    reachable L w -> sort_keeps_segments -> snd (step L w (NLRead o)) = Arrays l -> snd (step L w (NLSegRead o)) = Arrays s ->
    let w' := fst (step L w (NLSegRead o)) in
    contents (mem w') s = table 2 (nl_seg L (contents (mem w) l)) /\ contents (mem w') l = contents (mem w) l.
  Proof.
    intros w o l s Hr SK Hl Hs w'. destruct (reachable_inv L w Hr) as [tg I]. assert (S := seg_reachable w SK Hr).
    assert (exists segs u, nth_error (objs w) o = Some (NL l segs u)) as [segs [u Ho]].
    { revert Hl. cbn. destruct (nth_error (objs w) o) as [[c outs h t k|c outs n k|arrs segs u|q b|q n]|] eqn:E; cbn; try discriminate. intros Hl. injection Hl as <-. eauto. }
    destruct (same_values w (NLSegRead o) tg o l segs u I Ho) as [_ Va]. assert (NS : ~ sorts (V := V) o (NLSegRead o)) by (intros [k F]; discriminate). fold w' in Va. rewrite (Va NS). split; auto.
    assert (S' := seg_step w (NLSegRead o) tg SK I S). rewrite <- (Va NS). apply (S' o). revert Hs. cbn -[table]. rewrite Ho. destruct u; cbn -[table].
    - intros Hs. injection Hs as <-. auto.
    - intros Hs. injection Hs as <-. eapply set_obj_same; eauto.
  Qed.
End C74.

(** A library in which sorting changes the list but not its segments, and a program that filters after reading them. *)
Definition sample_lib : lib nat :=
  Lib nat (fun _ => 0) (fun _ _ => 0) (fun _ _ _ => 0) (fun _ => 0) (fun _ _ _ => 0)
    (fun _ c j => nth (3 - j) c 0) (fun v c j => v + nth j c 0) (fun c j => nth 0 c 0 + nth 1 c 0 + nth 2 c 0 + nth 3 c 0) (fun c j => j + nth 0 c 0) (fun _ _ _ _ => 0).
Example C74_current_case :
  sort_keeps_segments sample_lib /\
  let w := run sample_lib start [UserNew 5; MkNL [0]; NLSegRead 0; NLSort 0 true; NLFilter 0 0] in
  snd (step sample_lib w (NLRead 0)) = Arrays [7; 8; 9; 10] /\ snd (step sample_lib w (NLSegRead 0)) = Arrays [11; 12] /\
  contents (mem w) [7; 8; 9; 10] = [13; 12; 11; 10] /\ contents (mem (fst (step sample_lib w (NLSegRead 0)))) [11; 12] = [46; 46] /\ contents (mem w) [5; 6] = [26; 26].
Proof.
  split.
  - intros k c. unfold table. cbn [seq map nl_seg nl_sort sample_lib]. cbn [nth Nat.sub]. f_equal; [lia|f_equal; lia].
  - vm_compute. repeat split.
Qed.
Print Assumptions C74_current.
