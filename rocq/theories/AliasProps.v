(** C74: the arrays a program holds, over every program. *)
From Coq Require Import List Bool Arith Lia.
Import ListNotations.
From Verif Require Import AliasModel AliasSpec AliasProofs AliasProofs2.

Section C74.
  Context {V : Type}.
  Variable L : lib V.
  Notation world := (world V). Notation op := (op V).

  (** No statement of freud changes an array of the caller's; only the caller's own assignment to that array does. *)
Theorem C74_inputs : forall (w : world) (a : nat) (v : V) (ps : list op),
    reachable L w -> nth_error (mem w) a = Some (v, true) -> (forall p, In p ps -> ~ assigns a p) ->
    value (run L w ps) a = Some v.
  Proof.
    intros w a v ps Hr Ha Hp. destruct (reachable_inv L w Hr) as [tg I].
    unfold value. rewrite (writable_run L ps w a tg I); auto.
    - now rewrite Ha.
    - now exists v.
  Qed.

  (** The results of the classes that start from nothing in each compute are permanent. *)
Theorem C74_results : forall (w : world) (o j a : nat),
    reachable L w -> gives L w (ShotRead o) j a -> permanent L w a.
  Proof.
    intros w o j a Hr [l [Hl Hj]] ps. destruct (reachable_inv L w Hr) as [tg I]. pose proof I as [G _].
    apply frozen_run. cbn in Hl.
    destruct (nth_error (objs w) o) as [[c outs h s k|c outs n [|]|arrs segs u|q b|q n]|] eqn:E; cbn in Hl; try discriminate.
    injection Hl as <-. specialize (G o _ E). cbn in G. destruct (G a (nth_error_In _ _ Hj)) as [H1 H2].
    eapply fixed_frozen; eauto.
  Qed.

  (** So are segments and neighbor_counts of a list. *)
Theorem C74_segments : forall (w : world) (o j a : nat),
    reachable L w -> gives L w (NLSegRead o) j a -> permanent L (fst (step L w (NLSegRead o))) a.
  Proof.
    intros w o j a Hr [l [Hl Hj]] ps. destruct (reachable_inv L w Hr) as [tg I].
    destruct (step_inv L w (NLSegRead o) tg I) as [tg' [I' _]]. pose proof I' as [G _].
    apply frozen_run.
    assert (O : exists arrs u, nth_error (objs (fst (step L w (NLSegRead o)))) o = Some (NL arrs l u)).
    { revert Hl. cbn -[table].
      destruct (nth_error (objs w) o) as [[c outs h s k|c outs n k|arrs segs [|]|q b|q n]|] eqn:E; cbn -[table];
        try discriminate; intros Hl; injection Hl as <-.
      - exists arrs, true. exact E.
      - exists arrs, true. eapply set_obj_same; eauto. }
    destruct O as [arrs [u E]]. specialize (G o _ E). cbn in G. destruct G as [_ [_ [_ G]]].
    destruct (G a (nth_error_In _ _ Hj)) as [H1 H2]. eapply fixed_frozen; eauto.
  Qed.

  (** Accumulating classes: reading a property gives the function of the frames added since the last reset. *)
Theorem C74_accumulated : forall (ps : list op) (o j a : nat) c outs h s k,
    let w := run L start ps in
    nth_error (objs w) o = Some (Acc c outs h s k) -> gives L w (AccRead o) j a ->
    value (fst (step L w (AccRead o))) a = Some (acc_out L c j (added L start ps o [])).
  Proof.
    intros ps o j a c outs h s k w Ho [l [Hl Hj]].
    assert (Hh : h = added L start ps o []).
    { pose proof (hist_run L ps start o) as H. unfold hist_of at 1 in H. fold w in H. rewrite Ho in H.
      rewrite H. f_equal. unfold hist_of. cbn. now destruct o. }
    destruct (reachable_inv L w (ex_intro _ ps eq_refl)) as [tg I].
    destruct (step_inv L w (AccRead o) tg I) as [tg' [[G _] _]].
    revert Hl G. cbn -[table]. rewrite Ho. destruct k; cbn -[table]; [|discriminate].
    intros Hl G. injection Hl as <-.
    specialize (G o (Acc c outs h false true)).
    rewrite (set_obj_same (objs w) o _ _ Ho) in G. specialize (G eq_refl). cbn -[table] in G.
    destruct G as [_ [_ [_ G]]]. rewrite <- Hh. exact (G eq_refl j a Hj).
  Qed.

  Lemma read_clean : forall (w : world) (o j a : nat),
    reachable L w -> gives L w (AccRead o) j a -> clean (fst (step L w (AccRead o))) o a.
  Proof.
    intros w o j a Hr [l [Hl Hj]]. destruct (reachable_inv L w Hr) as [tg I].
    destruct (step_inv L w (AccRead o) tg I) as [tg' [I' _]].
    assert (O : exists c h, nth_error (objs (fst (step L w (AccRead o)))) o = Some (Acc c l h false true)).
    { revert Hl. cbn -[table].
      destruct (nth_error (objs w) o) as [[c outs h s [|]|c outs n k|arrs segs u|q b|q n]|] eqn:E; cbn -[table];
        try discriminate. intros Hl; injection Hl as <-. exists c, h. eapply set_obj_same; eauto. }
    destruct O as [c [h Ho]]. pose proof I' as [G _]. pose proof (G o _ Ho) as Go. cbn in Go.
    destruct Go as [_ [_ [Go _]]]. destruct (Go a (nth_error_In _ _ Hj)) as [H1 H2].
    refine (conj _ (conj _ _)).
    - apply (tag_readonly L _ tg' a I' H1). congruence.
    - intros o' x Ho' Hin. destruct (tag_mut L _ tg' a o' x I' Ho' Hin) as [_ [E|E]]; congruence.
    - exists c, l, h, false, true. auto.
  Qed.

  (** These arrays keep their values while nothing is accumulated into the object without reset, and for ever once
      the object has been computed with reset, whether that call succeeds or raises. *)
Theorem C74_snapshots : forall (w : world) (o j a : nat) (ps : list op),
    reachable L w -> gives L w (AccRead o) j a -> (forall p, In p ps -> ~ accumulates o p) ->
    let w1 := fst (step L w (AccRead o)) in
    value (run L w1 ps) a = value w1 a /\
    forall ins nl ok qs, value (run L w1 (ps ++ AccCompute o true ins nl ok :: qs)) a = value w1 a.
  Proof.
    intros w o j a ps Hr Hg Hp w1. pose proof (read_clean w o j a Hr Hg) as C. fold w1 in C.
    destruct (clean_run L ps w1 o a C Hp) as [C' Hv]. split; auto.
    intros ins nl ok qs. rewrite run_app, run_cons.
    destruct (clean_reset L _ o a ins nl ok C') as [Fz Hv']. rewrite frozen_run by exact Fz. congruence.
  Qed.

  (** Accumulating without reset leaves the held array alone until the next property is read, which overwrites it:
      these arrays are not snapshots. *)
Theorem C74_accumulate_refuted : forall (w : world) (o j a : nat) ins nl c outs h s k,
    reachable L w -> nth_error (objs w) o = Some (Acc c outs h s k) -> gives L w (AccRead o) j a ->
    let w1 := fst (step L w (AccRead o)) in
    let w2 := fst (step L w1 (AccCompute o false ins nl true)) in
    let w3 := fst (step L w2 (AccRead o)) in
    value w1 a = Some (acc_out L c j h) /\ value w2 a = value w1 a /\
    gives L w2 (AccRead o) j a /\
    value w3 a = Some (acc_out L c j (h ++ [contents (mem w1) ins ++ nl_contents w1 nl])).
  Proof.
    intros w o j a ins nl c outs h s k Hr Ho [l [Hl Hj]] w1 w2 w3.
    destruct (reachable_inv L w Hr) as [tg I].
    destruct (step_inv L w (AccRead o) tg I) as [tg1 [I1 _]]. fold w1 in I1.
    destruct (step_inv L w1 (AccCompute o false ins nl true) tg1 I1) as [tg2 [I2 _]]. fold w2 in I2.
    destruct (step_inv L w2 (AccRead o) tg2 I2) as [tg3 [I3 _]]. fold w3 in I3.
    assert (k = true /\ l = outs) as [-> ->].
    { revert Hl. cbn -[table]. rewrite Ho. destruct k; cbn -[table]; [|discriminate]. intros Hl. now injection Hl as <-. }
    assert (O1 : nth_error (objs w1) o = Some (Acc c outs h false true)).
    { unfold w1. cbn -[table]. rewrite Ho. cbn -[table]. eapply set_obj_same; eauto. }
    set (f := contents (mem w1) ins ++ nl_contents w1 nl).
    assert (O2 : nth_error (objs w2) o = Some (Acc c outs (h ++ [f]) true true)).
    { unfold w2. cbn -[table]. rewrite O1. cbn -[table]. eapply set_obj_same; eauto. }
    assert (M2 : mem w2 = mem w1) by (unfold w2; cbn -[table]; rewrite O1; reflexivity).
    assert (O3 : nth_error (objs w3) o = Some (Acc c outs (h ++ [f]) false true)).
    { unfold w3. cbn -[table]. rewrite O2. cbn -[table]. eapply set_obj_same; eauto. }
    destruct I1 as [G1 _], I3 as [G3 _].
    pose proof (G1 o _ O1) as A1. pose proof (G3 o _ O3) as A3. cbn in A1, A3.
    destruct A1 as [_ [_ [_ A1]]], A3 as [_ [_ [_ A3]]].
    refine (conj (A1 eq_refl j a Hj) (conj _ (conj _ (A3 eq_refl j a Hj)))).
    - unfold value. now rewrite M2.
    - exists outs. split; auto. cbn -[table]. rewrite O2. reflexivity.
  Qed.

  (** Arrays of a neighbour list: only sort of that list changes them; filtering it, or copying another list into it,
      makes them permanent. *)
Theorem C74_nlist : forall (w : world) (o j a : nat) (ps : list op),
    reachable L w -> gives L w (NLRead o) j a -> (forall p, In p ps -> ~ sorts o p) ->
    value (run L w ps) a = value w a /\
    forall p qs, (exists mask, p = NLFilter o mask) \/ (exists k, p = NLCopyInto o k) ->
      snd (step L (run L w ps) p) = Done -> value (run L w (ps ++ p :: qs)) a = value w a.
  Proof.
    intros w o j a ps Hr [l [Hl Hj]] Hp. destruct (reachable_inv L w Hr) as [tg I]. pose proof I as [G _].
    assert (exists segs u, nth_error (objs w) o = Some (NL l segs u)) as [segs [u Ho]].
    { revert Hl. cbn. destruct (nth_error (objs w) o) as [[c outs h s k|c outs n k|arrs segs u|q b|q n]|] eqn:E; cbn;
        try discriminate. intros Hl. injection Hl as <-. eauto. }
    pose proof (G o _ Ho) as Go. cbn in Go. destruct Go as [_ [_ [Go _]]].
    destruct (Go a (nth_error_In _ _ Hj)) as [H1 H2].
    assert (H : held w o a).
    { refine (conj _ (conj _ _)).
      - apply (tag_readonly L _ tg a I H1). congruence.
      - intros o' x Ho' Hin. destruct (tag_mut L _ tg a o' x I Ho' Hin) as [_ [E|E]]; congruence.
      - now exists l, segs, u. }
    destruct (held_run L ps w o a H Hp) as [H' Hv]. split; auto.
    intros p qs Hpc Hd. rewrite run_app, run_cons.
    assert (NS : ~ sorts (V := V) o p) by (intros [k ->]; destruct Hpc as [[m E]|[m E]]; discriminate).
    destruct (held_step L _ p o a H' NS) as [H'' Hv'']. rewrite frozen_run; [congruence|].
    destruct H' as [R [_ [arrs [sg [u' Ho']]]]]. pose proof (readonly_lt _ _ R) as Hl'.
    destruct H'' as [R'' [U'' _]]. split; auto. intros o' x Hx Hin.
    assert (o' = o) by (eapply U''; eauto). subst o'. revert Hd Hx.
    destruct Hpc as [[m ->]|[m ->]]; cbn -[table]; rewrite Ho'; unfold alloc.
    - destruct (nth_error (mem (run L w ps)) m) as [[v b]|]; cbn -[table]; [|discriminate]. intros _ Hx.
      rewrite (set_obj_same _ _ _ _ Ho') in Hx. injection Hx as <-. cbn in Hin. lia.
    - destruct (nth_error (objs (run L w ps)) m) as [[c outs h s k|c outs n k|arrs1 segs1 u1|q b|q n]|]; cbn -[table];
        try discriminate. intros _ Hx.
      rewrite (set_obj_same _ _ _ _ Ho') in Hx. injection Hx as <-. cbn in Hin. apply in_seq in Hin. lia.
  Qed.

  (** sort changes the arrays handed out before: they hold the sorted list afterwards. *)
Theorem C74_sort_refuted : forall (w : world) (o : nat) k l,
    reachable L w -> snd (step L w (NLRead o)) = Arrays l ->
    forall j a, nth_error l j = Some a ->
    value (fst (step L w (NLSort o k))) a = Some (nl_sort L k (contents (mem w) l) j).
  Proof.
    intros w o k l Hr Hl j a Hj. destruct (reachable_inv L w Hr) as [tg [G _]].
    assert (exists segs u, nth_error (objs w) o = Some (NL l segs u)) as [segs [u Ho]].
    { revert Hl. cbn. destruct (nth_error (objs w) o) as [[c outs h s k'|c outs n k'|arrs segs u|q b|q n]|] eqn:E; cbn;
        try discriminate. intros Hl. injection Hl as <-. eauto. }
    pose proof (G o _ Ho) as Go. cbn in Go. destruct Go as [G1 [G2 [Go _]]].
    cbn -[table]. rewrite Ho. unfold value. cbn -[table].
    apply (store_all_same l (table 4 (nl_sort L k (contents (mem w) l))) (mem w) j a); auto.
    - intros b Hb. now apply Go.
    - apply table_nth. rewrite <- G1. apply nth_error_Some. congruence.
  Qed.

  (** A copy of a list has the same values in arrays of its own. *)
Theorem C74_copy : forall (w : world) (o : nat) l,
    reachable L w -> snd (step L w (NLRead o)) = Arrays l ->
    let w1 := fst (step L w (NLCopy o)) in
    exists o' l', snd (step L w (NLCopy o)) = Object o' /\ o' <> o /\ snd (step L w1 (NLRead o')) = Arrays l' /\
      snd (step L w1 (NLRead o)) = Arrays l /\ length l' = length l /\
      forall j a a', nth_error l j = Some a -> nth_error l' j = Some a' ->
        value w1 a' = value w a /\ value w1 a = value w a /\ ~ In a' l.
  Proof.
    intros w o l Hr Hl w1. destruct (reachable_inv L w Hr) as [tg [G _]].
    assert (exists segs u, nth_error (objs w) o = Some (NL l segs u)) as [segs [u Ho]].
    { revert Hl. cbn. destruct (nth_error (objs w) o) as [[c outs h s k'|c outs n k'|arrs segs u|q b|q n]|] eqn:E; cbn;
        try discriminate. intros Hl. injection Hl as <-. eauto. }
    pose proof (G o _ Ho) as Go. cbn in Go. destruct Go as [G1 [G2 [Go Gs]]].
    assert (Lo : o < length (objs w)) by (apply nth_error_Some; congruence).
    assert (CL : length (contents (mem w) l) = length l) by (apply contents_length; intros b Hb; now apply Go).
    exists (length (objs w)), (seq (length (mem w)) (length (contents (mem w) l))).
    unfold w1. cbn -[table nth_error]. rewrite Ho. cbn -[table nth_error].
    rewrite nth_error_app2, Nat.sub_diag by lia. cbn -[table nth_error].
    rewrite nth_error_app1, Ho by lia. cbn.
    refine (conj eq_refl (conj _ (conj eq_refl (conj eq_refl (conj _ _))))).
    - lia.
    - now rewrite seq_length.
    - intros j a a' Hj Hj'.
      assert (Hjl : j < length l) by (apply nth_error_Some; congruence).
      rewrite CL in Hj'. rewrite seq_nth_error in Hj' by auto. injection Hj' as <-.
      destruct (Go a (nth_error_In _ _ Hj)) as [Ha _].
      unfold value. cbn.
      assert (GV : forall b, b < length (mem w) + length l ->
                nth_error ((mem w ++ map (fun v => (v, false)) (contents (mem w) l)) ++
                           map (fun v => (v, false)) (contents (mem w) segs)) b =
                nth_error (grow (mem w) (contents (mem w) l) false) b).
      { intros b Hb. rewrite nth_error_app1; [reflexivity|]. rewrite app_length, map_length. lia. }
      refine (conj _ (conj _ _)).
      + rewrite GV by lia. pose proof (contents_nth (mem w) l j a (fun b Hb => proj1 (Go b Hb)) Hj) as HC.
        destruct (nth_error (mem w) a) as [[v b]|] eqn:Ev.
        * unfold val in HC. rewrite Ev in HC. cbn in HC. now rewrite (grow_new _ _ false j v HC).
        * apply nth_error_None in Ev. lia.
      + rewrite GV by lia. rewrite grow_old by lia. reflexivity.
      + intros Hin. destruct (Go _ Hin) as [Hlt _]. lia.
  Qed.

  (** A query object and a query result use the values the caller's arrays had when they were made. *)
Theorem C74_points : forall (w : world) (a o : nat) va ps1 b q vb ps2,
    reachable L w -> value w a = Some va -> snd (step L w (MkNQ a)) = Object o ->
    let w1 := fst (step L w (MkNQ a)) in
    let w2 := run L w1 ps1 in
    value w2 b = Some vb -> snd (step L w2 (Query o b)) = Object q ->
    let w3 := fst (step L w2 (Query o b)) in
    let w4 := run L w3 ps2 in
    exists p, gives L w1 (NQPoints o) 0 p /\ p <> a /\
      ((forall s, In s (ps1 ++ ps2) -> ~ assigns p s) ->
       value w4 p = Some va /\
       exists k l, snd (step L w4 (QREval q)) = Object k /\
         snd (step L (fst (step L w4 (QREval q))) (NLRead k)) = Arrays l /\
         forall j, j < 4 -> exists c, nth_error l j = Some c /\
           value (fst (step L w4 (QREval q))) c = Some (nq_query L va va vb j)).
  Proof.
    intros w a o va ps1 b q vb ps2 Hr Ha Ho w1 w2 Hb Hq w3 w4.
    destruct (reachable_inv L w Hr) as [tg I].
    destruct (step_inv L w (MkNQ a) tg I) as [tg1 [I1 _]]. fold w1 in I1.
    unfold value in Ha. destruct (nth_error (mem w) a) as [[va' fa]|] eqn:Ea; [|discriminate]. cbn in Ha. injection Ha as ->.
    assert (Hal : a < length (mem w)) by (apply nth_error_Some; congruence).
    set (p := length (mem w)).
    assert (W1 : w1 = World (mem w ++ [(va, true)]) (objs w ++ [NQ p va])).
    { unfold w1. cbn. rewrite Ea. reflexivity. }
    assert (Oo : o = length (objs w)) by (revert Ho; cbn; rewrite Ea; cbn; congruence). subst o.
    assert (O1 : nth_error (objs w1) (length (objs w)) = Some (NQ p va)).
    { rewrite W1. cbn. rewrite nth_error_app2, Nat.sub_diag by lia. reflexivity. }
    assert (P1 : nth_error (mem w1) p = Some (va, true)).
    { rewrite W1. cbn. unfold p. rewrite nth_error_app2, Nat.sub_diag by lia. reflexivity. }
    exists p. refine (conj _ (conj _ _)).
    { exists [p]. split; auto. cbn. now rewrite O1. }
    { unfold p. lia. }
    intros Hp.
    assert (O2 : nth_error (objs w2) (length (objs w)) = Some (NQ p va)) by (apply run_const; cbn; auto).
    assert (P2 : nth_error (mem w2) p = Some (va, true)).
    { unfold w2. rewrite (writable_run L ps1 w1 p tg1 I1); auto.
      - now exists va.
      - intros s Hs. apply Hp. apply in_or_app. now left. }
    destruct (run_inv L ps1 w1 tg1 I1) as [tg2 [I2 _]]. fold w2 in I2.
    destruct (step_inv L w2 (Query (length (objs w)) b) tg2 I2) as [tg3 [I3 _]]. fold w3 in I3.
    unfold value in Hb. destruct (nth_error (mem w2) b) as [[vb' fb]|] eqn:Eb; [|discriminate]. cbn in Hb. injection Hb as ->.
    set (r := length (mem w2)).
    assert (W3 : w3 = World (mem w2 ++ [(vb, false)]) (objs w2 ++ [QR (length (objs w)) r])).
    { unfold w3. cbn. rewrite O2, Eb. reflexivity. }
    assert (Oq : q = length (objs w2)) by (revert Hq; cbn; rewrite O2, Eb; cbn; congruence). subst q.
    assert (Lo : length (objs w) < length (objs w2)) by (apply nth_error_Some; congruence).
    assert (O3 : nth_error (objs w3) (length (objs w)) = Some (NQ p va)).
    { rewrite W3. cbn. rewrite nth_error_app1 by auto. exact O2. }
    assert (Q3 : nth_error (objs w3) (length (objs w2)) = Some (QR (length (objs w)) r)).
    { rewrite W3. cbn. rewrite nth_error_app2, Nat.sub_diag by lia. reflexivity. }
    assert (Lp : p < length (mem w2)) by (apply nth_error_Some; congruence).
    assert (P3 : nth_error (mem w3) p = Some (va, true)).
    { rewrite W3. cbn. rewrite nth_error_app1 by auto. exact P2. }
    assert (R3 : nth_error (mem w3) r = Some (vb, false)).
    { rewrite W3. cbn. unfold r. rewrite nth_error_app2, Nat.sub_diag by lia. reflexivity. }
    assert (P4 : nth_error (mem w4) p = Some (va, true)).
    { unfold w4. rewrite (writable_run L ps2 w3 p tg3 I3); auto.
      - now exists va.
      - intros s Hs. apply Hp. apply in_or_app. now right. }
    assert (R4 : value w4 r = Some vb).
    { unfold w4. rewrite frozen_run; [unfold value; now rewrite R3|].
      pose proof I3 as [G3 _]. pose proof (G3 _ _ Q3) as Gq. cbn in Gq.
      destruct (Gq r (or_introl eq_refl)) as [Hr1 Hr2]. eapply fixed_frozen; eauto. }
    assert (O4 : nth_error (objs w4) (length (objs w)) = Some (NQ p va)) by (apply run_const; cbn; auto).
    assert (Q4 : nth_error (objs w4) (length (objs w2)) = Some (QR (length (objs w)) r)) by (apply run_const; cbn; auto).
    split; [unfold value; now rewrite P4|].
    unfold value in R4. destruct (nth_error (mem w4) r) as [[vr fr]|] eqn:Er; [|discriminate]. cbn in R4. injection R4 as ->.
    set (vs := table 4 (nq_query L va va vb)).
    exists (length (objs w4)), (seq (length (mem w4)) (length vs)).
    cbn -[table nth_error seq]. rewrite Q4, O4, Er, P4. cbn -[table nth_error seq].
    rewrite nth_error_app2, Nat.sub_diag by lia. cbn -[table seq].
    refine (conj eq_refl (conj eq_refl _)).
    intros j Hj. exists (length (mem w4) + j). fold vs.
    assert (LV : length vs = 4) by (unfold vs; apply table_length).
    split; [apply seq_nth_error; lia|].
    unfold value. cbn -[table seq]. rewrite nth_error_app1.
    - change (mem w4 ++ map (fun v => (v, false)) vs) with (grow (mem w4) vs false).
      rewrite (grow_new _ _ false j (nq_query L va va vb j)); [reflexivity|]. now apply table_nth.
    - rewrite app_length, map_length. lia.
  Qed.

  (** The list given to compute is the list the object returns, not a copy: filtering it afterwards leaves the results
      of the old bonds next to the filtered list. *)
Theorem C74_given_list_refuted : forall (w : world) (o k : nat) ins mask,
    reachable L w -> snd (step L w (ShotCompute o ins (Some k) true)) = Done ->
    let w1 := fst (step L w (ShotCompute o ins (Some k) true)) in
    snd (step L w1 (ShotNl o)) = Object k /\
    (snd (step L w1 (NLFilter k mask)) = Done ->
     let w2 := fst (step L w1 (NLFilter k mask)) in
     snd (step L w2 (ShotNl o)) = Object k /\
     exists res old new vm,
       snd (step L w1 (ShotRead o)) = Arrays res /\ snd (step L w2 (ShotRead o)) = Arrays res /\
       (forall a, In a res -> value w2 a = value w1 a) /\
       snd (step L w1 (NLRead k)) = Arrays old /\ snd (step L w2 (NLRead k)) = Arrays new /\
       value w1 mask = Some vm /\
       forall j, j < 4 -> exists a, nth_error new j = Some a /\
         value w2 a = Some (nl_filter L vm (contents (mem w1) old) j)).
  Proof.
    intros w o k ins mask Hr Hd w1. revert Hd. unfold w1. clear w1. cbn -[table nth_error].
    destruct (nth_error (objs w) o) as [[c outs h s k'|c outs n k'|arrs segs u|q b|q n]|] eqn:Eo; cbn -[table nth_error]; try discriminate.
    destruct (nth_error (objs w) k) as [[c' outs' h' s' k''|c' outs' n' k''|arrs segs u|q b|q n']|] eqn:Ek; cbn -[table nth_error]; try discriminate.
    intros _.
    assert (NE : k <> o) by congruence.
    rewrite (set_obj_same _ _ _ _ Eo). cbn -[table nth_error]. split; auto.
    rewrite (set_obj_other _ o _ k NE), Ek. cbn -[table nth_error].
    set (vs := table (shot_n L c) _). set (m1 := mem w ++ map (fun v => (v, false)) vs).
    destruct (nth_error m1 mask) as [[vm fm]|] eqn:Em; cbn -[table nth_error]; [|discriminate].
    intros _.
    set (os1 := set_obj (objs w) o (Shot c (seq (length (mem w)) (length vs)) (Some k) true)).
    assert (Ok1 : nth_error os1 k = Some (NL arrs segs u)) by (unfold os1; rewrite set_obj_other by exact NE; exact Ek).
    assert (Oo1 : nth_error os1 o = Some (Shot c (seq (length (mem w)) (length vs)) (Some k) true))
      by (unfold os1; eapply set_obj_same; eauto).
    rewrite (set_obj_other os1 k _ o (fun e => NE (eq_sym e))), Oo1. cbn -[table nth_error]. split; auto.
    exists (seq (length (mem w)) (length vs)), arrs.
    set (ns := table 4 (nl_filter L vm (contents m1 arrs))).
    exists (seq (length m1) (length ns)), vm.
    rewrite (set_obj_same _ _ _ _ Ok1). cbn -[table nth_error seq].
    refine (conj eq_refl (conj eq_refl (conj _ (conj eq_refl (conj eq_refl (conj _ _)))))).
    - intros a Ha. apply in_seq in Ha. unfold value. cbn -[table nth_error].
      rewrite nth_error_app1; [reflexivity|]. unfold m1. rewrite app_length, map_length. lia.
    - unfold value. cbn -[nth_error]. now rewrite Em.
    - intros j Hj. exists (length m1 + j). split.
      + apply seq_nth_error. unfold ns. now rewrite table_length.
      + unfold value. cbn -[table nth_error]. fold (grow m1 ns false).
        rewrite (grow_new m1 ns false j (nl_filter L vm (contents m1 arrs) j)); [reflexivity|]. now apply table_nth.
  Qed.

  (** nq.points is the array the query object works on, and the caller may assign to it: a later query then reads the
      new points with the tree of the old ones. *)
Theorem C74_points_view_refuted : forall (w : world) (a : nat) va vnew b vb,
    reachable L w -> value w a = Some va -> value w b = Some vb ->
    let o := length (objs w) in
    let w1 := fst (step L w (MkNQ a)) in
    exists p, gives L w1 (NQPoints o) 0 p /\
      let w2 := fst (step L w1 (UserWrite p vnew)) in
      snd (step L w1 (UserWrite p vnew)) = Done /\
      let w3 := fst (step L w2 (Query o b)) in
      let w4 := fst (step L w3 (QREval (S o))) in
      exists l, snd (step L w4 (NLRead (S (S o)))) = Arrays l /\
        forall j, j < 4 -> exists c, nth_error l j = Some c /\ value w4 c = Some (nq_query L vnew va vb j).
  Proof.
    intros w a va vnew b vb Hr Ha Hb o w1.
    unfold value in Ha, Hb. destruct (nth_error (mem w) a) as [[va' fa]|] eqn:Ea; [|discriminate]. cbn in Ha. injection Ha as ->.
    destruct (nth_error (mem w) b) as [[vb' fb]|] eqn:Eb; [|discriminate]. cbn in Hb. injection Hb as ->.
    assert (Lb : b < length (mem w)) by (apply nth_error_Some; congruence).
    set (p := length (mem w)).
    assert (W1 : w1 = World (mem w ++ [(va, true)]) (objs w ++ [NQ p va])) by (unfold w1; cbn; rewrite Ea; reflexivity).
    assert (O1 : nth_error (objs w ++ [NQ p va]) o = Some (NQ p va))
      by (unfold o; rewrite nth_error_app2, Nat.sub_diag by lia; reflexivity).
    assert (P1 : nth_error (mem w ++ [(va, true)]) p = Some (va, true))
      by (unfold p; rewrite nth_error_app2, Nat.sub_diag by lia; reflexivity).
    clearbody w1. subst w1. exists p. split.
    { exists [p]. split; auto. cbn. now rewrite O1. }
    cbn -[table nth_error seq store]. rewrite P1. cbn -[table nth_error seq store]. split; auto.
    rewrite O1.
    assert (Eb2 : nth_error (store (mem w ++ [(va, true)]) p vnew) b = Some (vb, fb)).
    { rewrite store_other by (unfold p; lia). rewrite nth_error_app1 by auto. exact Eb. }
    rewrite Eb2. cbn -[table nth_error seq store].
    set (m2 := store (mem w ++ [(va, true)]) p vnew) in *. set (r := length m2).
    assert (Lm : length m2 = S (length (mem w))) by (unfold m2; rewrite store_length, app_length; cbn; lia).
    assert (Q : nth_error ((objs w ++ [NQ p va]) ++ [QR o r]) (S o) = Some (QR o r)).
    { rewrite nth_error_app2 by (rewrite app_length; cbn; unfold o; lia).
      rewrite app_length. cbn [length]. replace (S o - (length (objs w) + 1)) with 0 by (unfold o; lia). reflexivity. }
    rewrite Q. rewrite nth_error_app1 by (rewrite app_length; cbn; unfold o; lia). rewrite O1.
    assert (R : nth_error (m2 ++ [(vb, false)]) r = Some (vb, false))
      by (unfold r; rewrite nth_error_app2, Nat.sub_diag by lia; reflexivity).
    rewrite R. rewrite nth_error_app1 by (unfold p; lia).
    assert (P2 : nth_error m2 p = Some (vnew, true)) by (unfold m2; eapply store_same; exact P1).
    rewrite P2. cbn -[table nth_error seq].
    set (vs := table 4 (nq_query L vnew va vb)).
    set (m3 := m2 ++ [(vb, false)]).
    exists (seq (length m3) (length vs)).
    assert (N : forall y, nth_error (((objs w ++ [NQ p va]) ++ [QR o r]) ++ [y]) (S (S o)) = Some y).
    { intros y. assert (E : S (S o) = length ((objs w ++ [NQ p va]) ++ [QR o r])).
      { rewrite !app_length. cbn. unfold o. lia. }
      rewrite E, nth_error_app2, Nat.sub_diag by lia. reflexivity. }
    rewrite N.
    cbn -[table seq]. split; auto. intros j Hj. exists (length m3 + j). split.
    - apply seq_nth_error. unfold vs. now rewrite table_length.
    - unfold value. cbn -[table seq]. rewrite nth_error_app1.
      + fold (grow m3 vs false). rewrite (grow_new m3 vs false j (nq_query L vnew va vb j)); [reflexivity|]. now apply table_nth.
      + rewrite app_length, map_length. unfold vs at 1. rewrite table_length. lia.
  Qed.
End C74.

(** A concrete library: arrays of numbers, accumulated sums, filters that drop the first entry. *)
Definition ex_sum (l : list (list nat)) : nat := list_sum (concat l).
Definition ex_lib : lib (list nat) :=
  Lib (list nat) (fun _ => 2) (fun _ j => [j]) (fun _ j h => [j; ex_sum (map (@concat nat) h)])
    (fun _ => 1) (fun _ _ l => [ex_sum l])
    (fun _ l j => rev (nth j l [])) (fun _ l j => tl (nth j l [])) (fun l j => [length (nth j l [])])
    (fun l j => concat l) (fun p t q j => p ++ t ++ q).

(** The accumulated array read after the first frame is permanent across a reset, but not across an accumulation. *)
Definition ex_prog : list (op (list nat)) :=
  [UserNew [1; 2]; UserNew [5]; MkAcc 0; AccCompute 0 true [0] None true].

Example C74_ex_accumulate :
  let w := run ex_lib start ex_prog in
  reachable ex_lib w /\ gives ex_lib w (AccRead 0) 1 5 /\
  let w1 := fst (step ex_lib w (AccRead 0)) in
  value w1 5 = Some [1; 3] /\
  value (run ex_lib w1 [AccCompute 0 false [1] None true]) 5 = Some [1; 3] /\
  value (run ex_lib w1 [AccCompute 0 false [1] None true; AccRead 0]) 5 = Some [1; 8] /\
  value (run ex_lib w1 [AccCompute 0 true [1] None true; AccRead 0]) 5 = Some [1; 3].
Proof.
  split; [now exists ex_prog|]. split; [exists [4; 5]; split; reflexivity|]. repeat split; reflexivity.
Qed.

(** A list, a copy of it, an object computed with it, a filter and a sort. *)
Definition ex_prog2 : list (op (list nat)) :=
  [UserNew [1; 2]; UserNew [5]; MkNL [0; 1]; MkShot 0; ShotCompute 1 [0] (Some 0) true; NLCopy 0].

Example C74_ex_list :
  let w := run ex_lib start ex_prog2 in
  reachable ex_lib w /\ gives ex_lib w (NLRead 0) 0 2 /\ gives ex_lib w (ShotRead 1) 0 8 /\
  gives ex_lib w (NLRead 2) 0 9 /\ snd (step ex_lib w (ShotNl 1)) = Object 0 /\
  value w 2 = Some [1; 2; 5] /\ value w 9 = Some [1; 2; 5] /\ value w 8 = Some [35] /\
  (let w1 := run ex_lib w [NLSort 0 true] in value w1 2 = Some [5; 2; 1] /\ value w1 9 = Some [1; 2; 5]) /\
  (let w1 := run ex_lib w [NLFilter 0 1; NLSort 0 true] in
   value w1 2 = Some [1; 2; 5] /\ value w1 8 = Some [35] /\ gives ex_lib w1 (NLRead 0) 0 15 /\ value w1 15 = Some [5; 2]) /\
  gives ex_lib w (NLSegRead 0) 0 6.
Proof.
  split; [now exists ex_prog2|].
  split; [exists [2; 3; 4; 5]; split; reflexivity|]. split; [exists [8]; split; reflexivity|].
  split; [exists [9; 10; 11; 12]; split; reflexivity|].
  split; [reflexivity|]. split; [reflexivity|]. split; [reflexivity|]. split; [reflexivity|].
  split; [split; reflexivity|]. split.
  - split; [reflexivity|]. split; [reflexivity|]. split; [|reflexivity]. exists [15; 16; 17; 18]. split; reflexivity.
  - exists [6; 7]. split; reflexivity.
Qed.

(** A query object keeps the points it was made from. *)
Example C74_ex_points :
  let w := run ex_lib start [UserNew [1; 2]; UserNew [5]] in
  reachable ex_lib w /\ value w 0 = Some [1; 2] /\ snd (step ex_lib w (MkNQ 0)) = Object 0 /\
  let w1 := fst (step ex_lib w (MkNQ 0)) in
  let w2 := run ex_lib w1 [UserWrite 0 [7; 7]; UserWrite 1 [6]] in
  value w2 0 = Some [7; 7] /\ value w2 1 = Some [6] /\ snd (step ex_lib w2 (Query 0 1)) = Object 1 /\
  let w3 := run ex_lib (fst (step ex_lib w2 (Query 0 1))) [UserWrite 1 [9]] in
  let w4 := fst (step ex_lib w3 (QREval 1)) in
  gives ex_lib w4 (NLRead 2) 0 4 /\ value w4 4 = Some [1; 2; 1; 2; 6].
Proof.
  split; [now eexists|]. repeat (split; [reflexivity|]). split; [|reflexivity].
  exists [4; 5; 6; 7]. split; reflexivity.
Qed.

Print Assumptions C74_inputs.
Print Assumptions C74_results.
Print Assumptions C74_segments.
Print Assumptions C74_accumulated.
Print Assumptions C74_snapshots.
Print Assumptions C74_accumulate_refuted.
Print Assumptions C74_nlist.
Print Assumptions C74_sort_refuted.
Print Assumptions C74_copy.
Print Assumptions C74_points.
Print Assumptions C74_given_list_refuted.
Print Assumptions C74_points_view_refuted.
