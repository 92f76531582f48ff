(** From ownership to the life of one array. *)
From Coq Require Import List Bool Arith Lia.
Import ListNotations.
From Verif Require Import AliasModel AliasSpec AliasProofs.

Section P.
  Context {V : Type}.
  Variable L : lib V.
  Notation world := (world V). Notation obj := (obj V). Notation op := (op V). Notation cell := (cell V).

  Definition readonly (w : world) (a : nat) : Prop := exists v, nth_error (mem w) a = Some (v, false).

  Lemma written_case : forall (w : world) p a, In a (written w p) ->
    (exists v, nth_error (mem w) a = Some (v, true) /\ assigns a p) \/
    (exists o c outs h, p = AccRead o /\ nth_error (objs w) o = Some (Acc c outs h true true) /\ In a outs) \/
    (exists o k arrs segs u, p = NLSort o k /\ nth_error (objs w) o = Some (NL arrs segs u) /\ In a arrs).
  Proof.
    intros w p a H. destruct p; cbn in H; try contradiction.
    - destruct (nth_error (mem w) a0) as [[u [|]]|] eqn:E; cbn in H; try contradiction.
      destruct H as [<-|[]]. left. exists u. split; auto. now exists v.
    - right; left. destruct (nth_error (objs w) o) as [[c outs h [|] [|]|c outs n k|arrs segs u|q b|q n]|] eqn:E;
        try contradiction. exists o, c, outs, h. auto.
    - right; right. destruct (nth_error (objs w) o) as [[c outs h s k|c outs n k|arrs segs u|q b|q n]|] eqn:E;
        try contradiction. exists o, by_distance, arrs, segs, u. auto.
  Qed.

  Lemma readonly_lt : forall w a, readonly w a -> a < length (mem w).
  Proof. intros w a [v H]. apply nth_error_Some. congruence. Qed.

  Lemma readonly_step : forall w p a, readonly w a -> readonly (fst (step L w p)) a.
  Proof.
    intros w p a H. pose proof (readonly_lt w a H) as Hl.
    destruct (in_dec Nat.eq_dec a (written w p)) as [Hin|Hn].
    - destruct H as [v Hv].
      destruct (written_case w p a Hin) as [[u [Hu _]]|[[o [c [outs [h [-> [Ho Ha]]]]]]|[o [k [arrs [segs [u [-> [Ho Ha]]]]]]]]].
      + congruence.
      + cbn -[table]. rewrite Ho. cbn -[table]. unfold readonly. cbn -[table].
        destruct (nth_error (store_all (mem w) (combine outs (table (acc_n L c) (fun j => acc_out L c j h)))) a)
          as [[u b]|] eqn:E.
        * destruct (store_all_flag _ _ _ _ E) as [u' Hu']. cbn in Hu'. exists u.
          rewrite Hv in Hu'. injection Hu' as _ <-. reflexivity.
        * apply nth_error_None in E. rewrite store_all_length in E. lia.
      + cbn -[table]. rewrite Ho. unfold readonly. cbn -[table].
        destruct (nth_error (store_all (mem w) (combine arrs (table 4 (nl_sort L k (contents (mem w) arrs))))) a)
          as [[u' b]|] eqn:E.
        * destruct (store_all_flag _ _ _ _ E) as [u'' Hu'']. cbn in Hu''. exists u'.
          rewrite Hv in Hu''. injection Hu'' as _ <-. reflexivity.
        * apply nth_error_None in E. rewrite store_all_length in E. lia.
    - destruct H as [v Hv]. exists v. now rewrite (step_frame L w p a Hl Hn).
  Qed.

  (** An array nobody will ever overwrite. *)
  Definition frozen (w : world) (a : nat) : Prop :=
    readonly w a /\ forall o x, nth_error (objs w) o = Some x -> ~ In a (mut x).

  Lemma frozen_step : forall w p a, frozen w a ->
    frozen (fst (step L w p)) a /\ value (fst (step L w p)) a = value w a.
  Proof.
    intros w p a [H1 H2]. pose proof (readonly_lt w a H1) as Hl. split; [split|].
    - now apply readonly_step.
    - intros o x Ho Hin. destruct (step_mut L w p o x a Ho Hin Hl) as [y [Hy Hiy]]. exact (H2 o y Hy Hiy).
    - unfold value. rewrite step_frame; auto. intros Hin.
      destruct (written_case w p a Hin) as [[u [Hu _]]|[[o [c [outs [h [-> [Ho Ha]]]]]]|[o [k [arrs [segs [u [-> [Ho Ha]]]]]]]]].
      + destruct H1 as [v Hv]. congruence.
      + exact (H2 o _ Ho Ha).
      + exact (H2 o _ Ho Ha).
  Qed.

  Lemma frozen_run : forall ps w a, frozen w a -> value (run L w ps) a = value w a.
  Proof.
    induction ps as [|p ps IH]; intros w a H; [reflexivity|].
    destruct (frozen_step w p a H) as [H1 H2]. rewrite run_cons, IH by exact H1. exact H2.
  Qed.

  (** Arrays by tag. *)
  Lemma tag_readonly : forall w tg a, Inv L w tg -> a < length (mem w) -> tg a <> TUser -> readonly w a.
  Proof.
    intros w tg a [_ F] Hl Ht. destruct (nth_error (mem w) a) as [[v [|]]|] eqn:E.
    - exfalso. apply Ht. apply (F a _ E). reflexivity.
    - now exists v.
    - apply nth_error_None in E. lia.
  Qed.

  Lemma tag_mut : forall w tg a o x, Inv L w tg -> nth_error (objs w) o = Some x -> In a (mut x) ->
    a < length (mem w) /\ (tg a = TAcc o \/ tg a = TNl o).
  Proof.
    intros w tg a o x [G _] Ho Hin. specialize (G o x Ho). destruct x; cbn in *; try contradiction.
    - destruct G as [_ [_ [G _]]]. destruct (G a Hin). auto.
    - destruct G as [_ [_ [G _]]]. destruct (G a Hin). auto.
  Qed.

  Lemma fixed_frozen : forall w tg a, Inv L w tg -> a < length (mem w) -> tg a = TFixed -> frozen w a.
  Proof.
    intros w tg a I Hl Ht. split.
    - apply (tag_readonly w tg a I Hl). congruence.
    - intros o x Ho Hin. destruct (tag_mut w tg a o x I Ho Hin) as [_ [E|E]]; congruence.
  Qed.

  (** What a statement does to an accumulating object. *)
  Lemma step_acc : forall w p o c outs h s k, nth_error (objs w) o = Some (Acc c outs h s k) ->
    exists outs' h' s' k', nth_error (objs (fst (step L w p))) o = Some (Acc c outs' h' s' k') /\
      ((outs' = outs /\ h' = h /\ s' = s /\ k' = k) \/
       (p = AccRead o /\ outs' = outs /\ h' = h /\ s' = false /\ k' = k) \/
       (exists ins nl ok, p = AccCompute o true ins nl ok /\ (forall a, In a outs' -> length (mem w) <= a)) \/
       (accumulates o p /\ outs' = outs)).
  Proof.
    intros [m os] p o c outs h s k Ho. cbn in Ho.
    assert (Lo : o < length os) by (apply nth_error_Some; congruence).
    destruct p; cbn -[table]; unfold alloc;
      try (repeat match goal with
             | |- context [match ?x with _ => _ end] => is_var x; destruct x; cbn -[table]
             | |- context [match ?x with _ => _ end] => destruct x eqn:?; cbn -[table]
             end;
           exists outs, h, s, k; (split;
             [rewrite ?nth_error_app1 by (rewrite ?set_obj_length; exact Lo);
              first [exact Ho | rewrite set_obj_other by congruence; exact Ho]
             |left; auto]); fail).
    - (* AccCompute *)
      destruct (Nat.eq_dec o0 o) as [->|E].
      + rewrite Ho. destruct reset; cbn -[table].
        * destruct ok; cbn -[table]; erewrite set_obj_same by eauto; do 4 eexists; (split; [reflexivity|]);
            right; right; left; do 3 eexists; (split; [reflexivity|]); intros a Ha; apply in_seq in Ha; lia.
        * destruct ok; cbn -[table]; erewrite set_obj_same by eauto; do 4 eexists; (split; [reflexivity|]).
          { right; right; right. split; auto. do 2 eexists. reflexivity. }
          { left; auto. }
      + exists outs, h, s, k. split; [|left; auto].
        destruct (nth_error os o0) as [[c' outs' h' s' k'|c' outs' n k'|arrs segs u|q b|q n]|] eqn:E0; cbn; auto.
        destruct reset, ok; cbn -[table]; rewrite set_obj_other; auto.
    - (* AccRead *)
      destruct (Nat.eq_dec o0 o) as [->|E].
      + rewrite Ho. destruct k; cbn -[table].
        * erewrite set_obj_same by eauto. exists outs, h, false, true. split; auto. right; left. auto.
        * exists outs, h, s, false. split; auto.
      + exists outs, h, s, k. split; [|left; auto].
        destruct (nth_error os o0) as [[c' outs' h' s' [|]|c' outs' n k'|arrs segs u|q b|q n]|] eqn:E0; cbn; auto.
        rewrite set_obj_other; auto.
  Qed.

  (** An array of accumulating object [o], up to date. *)
  Definition clean (w : world) (o a : nat) : Prop :=
    readonly w a /\ (forall o' x, nth_error (objs w) o' = Some x -> In a (mut x) -> o' = o) /\
    exists c outs h s k, nth_error (objs w) o = Some (Acc c outs h s k) /\ (In a outs -> s = false).

  Lemma clean_step : forall w p o a, clean w o a -> ~ accumulates o p ->
    clean (fst (step L w p)) o a /\ value (fst (step L w p)) a = value w a.
  Proof.
    intros w p o a [H1 [H2 [c [outs [h [s [k [Ho Hs]]]]]]]] Hp. pose proof (readonly_lt w a H1) as Hl.
    split; [refine (conj _ (conj _ _))|].
    - now apply readonly_step.
    - intros o' x Ho' Hin. destruct (step_mut L w p o' x a Ho' Hin Hl) as [y [Hy Hiy]]. eauto.
    - destruct (step_acc w p o c outs h s k Ho) as [outs' [h' [s' [k' [Ho' D]]]]].
      exists c, outs', h', s', k'. split; auto. intros Hin.
      destruct D as [[-> [-> [-> ->]]]|[[_ [-> [-> [-> ->]]]]|[[i [n [ok [-> Hnew]]]]|[Hc _]]]]; auto.
      + specialize (Hnew a Hin). lia.
      + contradiction.
    - unfold value. rewrite step_frame; auto. intros Hin.
      destruct (written_case w p a Hin) as [[u [Hu _]]|[[o' [c' [outs' [h' [-> [Ho' Ha]]]]]]|[o' [k' [arrs [segs [u [-> [Ho' Ha]]]]]]]]].
      + destruct H1 as [v Hv]. congruence.
      + assert (o' = o) by (apply (H2 o' _ Ho'); exact Ha). subst o'. rewrite Ho in Ho'. injection Ho' as -> -> -> -> ->.
        discriminate (Hs Ha).
      + assert (o' = o) by (apply (H2 o' _ Ho'); exact Ha). subst o'. congruence.
  Qed.

  Lemma clean_run : forall ps w o a, clean w o a -> (forall p, In p ps -> ~ accumulates o p) ->
    clean (run L w ps) o a /\ value (run L w ps) a = value w a.
  Proof.
    induction ps as [|p ps IH]; intros w o a H Hp; [now split|].
    destruct (clean_step w p o a H (Hp p (or_introl eq_refl))) as [H1 H2].
    rewrite run_cons. destruct (IH _ o a H1 (fun q Hq => Hp q (or_intror Hq))) as [H3 H4].
    split; auto. congruence.
  Qed.

  Lemma clean_reset : forall w o a ins nl ok, clean w o a ->
    frozen (fst (step L w (AccCompute o true ins nl ok))) a /\
    value (fst (step L w (AccCompute o true ins nl ok))) a = value w a.
  Proof.
    intros w o a ins nl ok C.
    assert (NA : ~ accumulates (V := V) o (AccCompute o true ins nl ok)) by (intros [i [n E]]; discriminate).
    destruct (clean_step w _ o a C NA) as [C' Hv]. split; auto.
    destruct C as [H1 [H2 [c [outs [h [s [k [Ho Hs]]]]]]]]. pose proof (readonly_lt w a H1) as Hl.
    destruct C' as [H1' [H2' _]]. split; auto. intros o' x Ho' Hin.
    assert (o' = o) by (eapply H2'; eauto). subst o'.
    destruct (step_acc w (AccCompute o true ins nl ok) o c outs h s k Ho) as [outs' [h' [s' [k' [Ho'' D]]]]].
    rewrite Ho'' in Ho'. injection Ho' as <-. cbn in Hin.
    revert Ho''. cbn -[table]. rewrite Ho. unfold alloc.
    destruct ok; cbn -[table]; erewrite set_obj_same by eauto; intros E; injection E as <- _ _ _;
      apply in_seq in Hin; lia.
  Qed.

  (** Histories. *)
  Definition hist_of (w : world) (o : nat) : list (list V) :=
    match nth_error (objs w) o with Some (Acc _ _ h _ _) => h | _ => [] end.

  Lemma hist_set_other : forall (m : list cell) os o o' x, o' <> o ->
    hist_of (World m (set_obj os o x)) o' = hist_of (World m os) o'.
  Proof. intros. unfold hist_of. cbn. now rewrite set_obj_other. Qed.

  Lemma hist_mem : forall (m m' : list cell) os o, hist_of (World m os) o = hist_of (World m' os) o.
  Proof. reflexivity. Qed.

  Lemma hist_set : forall (m : list cell) os o o' x y, nth_error os o = Some y ->
    match x, y with
    | Acc _ _ h _ _, Acc _ _ h' _ _ => h = h'
    | Acc _ _ h _ _, _ => h = []
    | _, Acc _ _ h _ _ => False
    | _, _ => True end ->
    hist_of (World m (set_obj os o x)) o' = hist_of (World m os) o'.
  Proof.
    intros m os o o' x y Hy H. destruct (Nat.eq_dec o' o) as [->|E]; [|now apply hist_set_other].
    unfold hist_of. cbn. erewrite set_obj_same by eauto. rewrite Hy. destruct x, y; auto; contradiction.
  Qed.

  Lemma hist_add : forall (m : list cell) os o x,
    match x with Acc _ _ h _ _ => h = [] | _ => True end ->
    hist_of (World m (os ++ [x])) o = hist_of (World m os) o.
  Proof.
    intros m os o x H. unfold hist_of. cbn. destruct (lt_eq_lt_dec o (length os)) as [[E|E]|E].
    - now rewrite nth_error_app1.
    - subst. rewrite nth_error_app2, Nat.sub_diag by lia. cbn.
      replace (nth_error os (length os)) with (@None obj) by (symmetry; apply nth_error_None; lia).
      destruct x; auto.
    - rewrite nth_error_app2 by lia. replace (nth_error os o) with (@None obj) by (symmetry; apply nth_error_None; lia).
      destruct (o - length os) as [|[|n]] eqn:F; auto. lia.
  Qed.

  Lemma hist_step : forall w p o,
    hist_of (fst (step L w p)) o =
      match p with
      | AccCompute o' reset ins nl _ =>
          if Nat.eqb o' o
          then (if reset then [] else hist_of w o) ++
               (if succeeds L w p then [contents (mem w) ins ++ nl_contents w nl] else [])
          else hist_of w o
      | _ => hist_of w o
      end.
  Proof.
    intros [m os] p o. destruct p; cbn -[table hist_of]; unfold alloc;
      try (repeat match goal with
             | |- context [match ?x with _ => _ end] => is_var x; destruct x; cbn -[table hist_of]
             | |- context [match ?x with _ => _ end] => destruct x eqn:?; cbn -[table hist_of]
             end;
           rewrite ?hist_add by (cbn; auto);
           first [reflexivity | erewrite hist_set by (try eassumption; cbn; auto); reflexivity]; fail).
    - (* AccCompute *)
      destruct (Nat.eqb_spec o0 o) as [->|E].
      + unfold succeeds. cbn -[table hist_of].
        destruct (nth_error os o) as [[c outs h s k|c outs n k|arrs segs u|q b|q n]|] eqn:Eo; cbn -[table hist_of];
          try (unfold hist_of; cbn; rewrite Eo; destruct reset; reflexivity).
        destruct reset, ok; cbn -[table hist_of]; unfold hist_of; cbn -[table]; rewrite ?Eo; erewrite set_obj_same by eauto;
          cbn; rewrite ?app_nil_r; reflexivity.
      + destruct (nth_error os o0) as [[c outs h s k|c outs n k|arrs segs u|q b|q n]|] eqn:Eo; cbn -[table hist_of];
          try reflexivity.
        destruct reset, ok; cbn -[table hist_of]; rewrite hist_set_other by auto; reflexivity.
  Qed.

  Lemma hist_run : forall ps w o, hist_of (run L w ps) o = added L w ps o (hist_of w o).
  Proof.
    induction ps as [|p ps IH]; intros w o; [reflexivity|].
    rewrite run_cons, IH, hist_step. cbn [added]. destruct p; reflexivity.
  Qed.

  (** Arrays of a neighbour list. *)
  Definition held (w : world) (o a : nat) : Prop :=
    readonly w a /\ (forall o' x, nth_error (objs w) o' = Some x -> In a (mut x) -> o' = o) /\
    exists arrs segs u, nth_error (objs w) o = Some (NL arrs segs u).

  Lemma step_nl : forall w p o arrs segs u, nth_error (objs w) o = Some (NL arrs segs u) ->
    exists arrs' segs' u', nth_error (objs (fst (step L w p))) o = Some (NL arrs' segs' u').
  Proof.
    intros [m os] p o arrs segs u Ho. cbn in Ho.
    assert (Lo : o < length os) by (apply nth_error_Some; congruence).
    destruct p; cbn -[table]; unfold alloc;
      repeat match goal with
             | |- context [match ?x with _ => _ end] => is_var x; destruct x; cbn -[table]
             | |- context [match ?x with _ => _ end] => destruct x eqn:?; cbn -[table]
             end;
      rewrite ?nth_error_app1 by (rewrite ?set_obj_length; exact Lo);
      first [ do 3 eexists; exact Ho
            | match goal with |- context [set_obj os ?o0 _] =>
                destruct (Nat.eq_dec o o0) as [->|?];
                [erewrite set_obj_same by eauto; first [do 3 eexists; reflexivity | congruence]
                |rewrite set_obj_other by auto; do 3 eexists; exact Ho] end ].
  Qed.

  Lemma held_step : forall w p o a, held w o a -> ~ sorts o p ->
    held (fst (step L w p)) o a /\ value (fst (step L w p)) a = value w a.
  Proof.
    intros w p o a [H1 [H2 [arrs [segs [u Ho]]]]] Hp. pose proof (readonly_lt w a H1) as Hl.
    split; [refine (conj _ (conj _ _))|].
    - now apply readonly_step.
    - intros o' x Ho' Hin. destruct (step_mut L w p o' x a Ho' Hin Hl) as [y [Hy Hiy]]. eauto.
    - eapply step_nl; eauto.
    - unfold value. rewrite step_frame; auto. intros Hin.
      destruct (written_case w p a Hin) as [[u' [Hu _]]|[[o' [c' [outs' [h' [-> [Ho' Ha]]]]]]|[o' [k' [arrs' [segs' [u' [-> [Ho' Ha]]]]]]]]].
      + destruct H1 as [v Hv]. congruence.
      + assert (o' = o) by (apply (H2 o' _ Ho'); exact Ha). subst o'. congruence.
      + assert (o' = o) by (apply (H2 o' _ Ho'); exact Ha). subst o'. apply Hp. now exists k'.
  Qed.

  Lemma held_run : forall ps w o a, held w o a -> (forall p, In p ps -> ~ sorts o p) ->
    held (run L w ps) o a /\ value (run L w ps) a = value w a.
  Proof.
    induction ps as [|p ps IH]; intros w o a H Hp; [now split|].
    destruct (held_step w p o a H (Hp p (or_introl eq_refl))) as [H1 H2].
    rewrite run_cons. destruct (IH _ o a H1 (fun q Hq => Hp q (or_intror Hq))) as [H3 H4].
    split; auto. congruence.
  Qed.

  Lemma run_length : forall ps w, length (mem w) <= length (mem (run L w ps)).
  Proof.
    induction ps as [|p ps IH]; intros w; [reflexivity|]. rewrite run_cons.
    eapply Nat.le_trans; [apply (step_length L w p)|apply IH].
  Qed.

  (** The caller's arrays. *)
  Definition writable (w : world) (a : nat) : Prop := exists v, nth_error (mem w) a = Some (v, true).

  Lemma writable_step : forall w p a tg, Inv L w tg -> writable w a -> ~ assigns a p ->
    nth_error (mem (fst (step L w p))) a = nth_error (mem w) a.
  Proof.
    intros w p a tg I [v Hv] Hp.
    assert (Hl : a < length (mem w)) by (apply nth_error_Some; congruence).
    apply step_frame; auto. intros Hin.
    destruct (written_case w p a Hin) as [[u [_ Ha]]|[[o [c [outs [h [-> [Ho Ha]]]]]]|[o [k [arrs [segs [u [-> [Ho Ha]]]]]]]]].
    - contradiction.
    - destruct (tag_mut w tg a o _ I Ho Ha) as [_ E]. destruct I as [_ F].
      pose proof (proj1 (F a _ Hv) eq_refl). destruct E; congruence.
    - destruct (tag_mut w tg a o _ I Ho Ha) as [_ E]. destruct I as [_ F].
      pose proof (proj1 (F a _ Hv) eq_refl). destruct E; congruence.
  Qed.

  Lemma writable_run : forall ps w a tg, Inv L w tg -> writable w a -> (forall p, In p ps -> ~ assigns a p) ->
    nth_error (mem (run L w ps)) a = nth_error (mem w) a.
  Proof.
    induction ps as [|p ps IH]; intros w a tg I H Hp; [reflexivity|].
    pose proof (writable_step w p a tg I H (Hp p (or_introl eq_refl))) as E.
    destruct (step_inv L w p tg I) as [tg' [I' _]]. rewrite run_cons.
    rewrite (IH _ a tg' I'); auto.
    - destruct H as [v Hv]. exists v. congruence.
    - intros q Hq. apply Hp. now right.
  Qed.

  (** NeighborQuery objects and query results do not change. *)
  Lemma step_const : forall w p o x, nth_error (objs w) o = Some x ->
    match x with NQ _ _ | QR _ _ => True | _ => False end ->
    nth_error (objs (fst (step L w p))) o = Some x.
  Proof.
    intros [m os] p o x Ho Hx. cbn in Ho.
    assert (Lo : o < length os) by (apply nth_error_Some; congruence).
    destruct p; cbn -[table]; unfold alloc;
      repeat match goal with
             | |- context [match ?x with _ => _ end] => is_var x; destruct x; cbn -[table]
             | |- context [match ?x with _ => _ end] => destruct x eqn:?; cbn -[table]
             end;
      rewrite ?nth_error_app1 by (rewrite ?set_obj_length; exact Lo);
      first [ exact Ho | contradiction
            | match goal with |- context [set_obj os ?o0 _] =>
                destruct (Nat.eq_dec o o0) as [->|?];
                [match goal with H : nth_error os _ = Some _ |- _ =>
                   rewrite Ho in H; injection H as H; subst x; contradiction end
                |rewrite set_obj_other by auto; exact Ho] end ].
  Qed.

  Lemma run_const : forall ps w o x, nth_error (objs w) o = Some x ->
    match x with NQ _ _ | QR _ _ => True | _ => False end ->
    nth_error (objs (run L w ps)) o = Some x.
  Proof.
    induction ps as [|p ps IH]; intros w o x Ho Hx; auto. rewrite run_cons. apply IH; auto. now apply step_const.
  Qed.
End P.
