(** C60: results are unavailable before compute. *)
From Coq Require Import List String Bool Lia.
From Verif Require Import ComputeModel ComputeSpec.
Import ListNotations.

Section Histories.
Context {D P : Type} (fresh : D) (update : P -> D -> D).
Notation run := (run D P fresh update).
Notation step := (step D P fresh update).

Lemma run_snoc c ps p : run c (ps ++ [p]) = step c (run c ps) p.
Proof. unfold ComputeModel.run. now rewrite fold_left_app. Qed.

(** [flag_spec]: what the attribute _called_compute is after the operations. *)
Lemma flag_late c ps : marks_early c = false ->
  (flag (run c ps) = Some true /\ computed ps) \/ (flag (run c ps) = flag (init D fresh c) /\ ~ computed ps).
Proof.
  intros Hc. induction ps as [|p ps IH] using rev_ind.
  - right. split; [reflexivity|]. intros (k & [] & _).
  - assert (Hmono : computed ps -> computed (ps ++ [p])) by (intros (k & H & Hs); exists k; rewrite in_app_iff; auto).
    assert (Hlast : computed (ps ++ [p]) -> computed ps \/ exists k, p = Compute k /\ succeeds k).
    { intros (k & H & Hs). apply in_app_iff in H. destruct H as [H|[H|[]]]; [left; exists k; auto|right; eauto]. }
    rewrite run_snoc. destruct p as [k|k]; cbn [ComputeModel.step].
    + unfold compute, body. rewrite Hc. unfold succeeds in *. destruct (cfail k) eqn:E; cbn.
      * left. split; [reflexivity|]. exists k. rewrite in_app_iff. cbn. auto.
      * destruct IH as [[-> H]|[-> H]]; [left; auto|right; split; [auto|]].
        intros H'. destruct (Hlast H') as [H''|(k' & [= <-] & Hs)]; [auto|congruence].
      * destruct IH as [[IH H]|[IH H]]; [left|right].
        -- split; [|auto]. destruct (erases c && creset k)%bool; exact IH.
        -- split; [destruct (erases c && creset k)%bool; exact IH|].
           intros H'. destruct (Hlast H') as [H''|(k' & [= <-] & Hs)]; [auto|congruence].
    + assert (Hf : flag (fst (compute_unbound D P fresh update c k (run c ps))) = flag (run c ps)).
      { unfold compute_unbound, body. rewrite Hc. destruct (cfail k), (erases c && creset k)%bool; reflexivity. }
      assert (Hn : computed (ps ++ [Unbound k]) -> computed ps).
      { intros H'. destruct (Hlast H') as [H''|(k' & [=] & Hs)]. exact H''. }
      rewrite Hf. destruct IH as [[IH H]|[IH H]]; [left|right]; (split; [assumption|now auto]).
Qed.

(** For every class except MSD, after every sequence of calls of compute, successful or not: reading a result raises
    AttributeError exactly when no obj.compute(...) has succeeded, and otherwise evaluates the property on the
    results held. *)
Theorem C60_guard c ps : marks_early c = false ->
  (forall A (prop : D -> res A), computed ps -> read D prop (run c ps) = prop (data (run c ps))) /\
  (forall A (prop : D -> res A), ~ computed ps -> read D prop (run c ps) = Err AttributeError).
Proof.
  intros Hc. unfold read, guard. destruct (flag_late c ps Hc) as [[-> H]|[-> H]]; split; intros A prop H'.
  - reflexivity.
  - contradiction.
  - contradiction.
  - unfold init. cbn. now destruct (sets_flag c).
Qed.

(** The same for plot, and for hasattr (which ContinuousCoordination uses to see whether a Voronoi object has been
    computed, order.py:974). *)
Theorem C60_plot c ps : marks_early c = false -> has_plot c = true ->
  (computed ps -> get_plot D c (run c ps) = Ok tt) /\ (~ computed ps -> get_plot D c (run c ps) = Err AttributeError).
Proof.
  intros Hc Hp. unfold get_plot, guard. rewrite Hp. destruct (flag_late c ps Hc) as [[-> H]|[-> H]]; split; intros H';
    try contradiction; try reflexivity. unfold init. cbn. now destruct (sets_flag c).
Qed.

Theorem C60_hasattr c ps (A : Type) (value : D -> A) : marks_early c = false ->
  (computed ps -> hasattr (read D (fun d => Ok (value d)) (run c ps)) = Ok true) /\
  (~ computed ps -> hasattr (read D (fun d => Ok (value d)) (run c ps)) = Ok false).
Proof.
  intros Hc. destruct (C60_guard c ps Hc) as [H1 H2].
  split; intros H; [rewrite H1|rewrite H2]; auto.
Qed.

(** ** What the results are *)
Lemma since_snoc (ps : list (op P)) p :
  since_erasure (ps ++ [p]) = if erasing p then [p] else since_erasure ps ++ [p].
Proof.
  induction ps as [|q ps IH]; cbn [app since_erasure existsb].
  - now destruct (erasing p).
  - rewrite existsb_app. cbn [existsb]. rewrite orb_false_r.
    destruct (erasing p) eqn:E.
    + rewrite orb_true_r. exact IH.
    + rewrite orb_false_r. destruct (existsb erasing ps); [exact IH|reflexivity].
Qed.

Lemma erasing_spec (k : call P) p : the_call p = k -> erasing p = (creset k && match cfail k with Before => false | _ => true end)%bool.
Proof. intros <-. reflexivity. Qed.

(** Every class: the object holds what the successful calls since the last erasing call make, one after the other,
    of the fresh results; a class without a reset argument holds what all its successful calls make. *)
Theorem C60_results c ps :
  data (run c ps) = fold_left (fun d a => update a d) (relevant (erases c) ps) fresh.
Proof.
  induction ps as [|p ps IH] using rev_ind.
  - now destruct (erases c).
  - rewrite run_snoc.
    assert (Hd : data (step c (run c ps) p) =
        match cfail (the_call p) with
        | Before => data (run c ps)
        | After => if (erases c && creset (the_call p))%bool then fresh else data (run c ps)
        | Never => update (cargs (the_call p)) (if (erases c && creset (the_call p))%bool then fresh else data (run c ps))
        end).
    { destruct p as [k|k]; cbn [ComputeModel.step the_call]; unfold compute, compute_unbound, body;
        destruct (cfail k), (erases c && creset k)%bool, (marks_early c); reflexivity. }
    rewrite Hd, IH. unfold relevant. destruct (erases c); cbn [andb].
    + rewrite since_snoc, (erasing_spec (the_call p) p eq_refl).
      destruct (cfail (the_call p)) eqn:E, (creset (the_call p)); cbn [andb flat_map];
        rewrite ?flat_map_app, ?fold_left_app; cbn [flat_map]; unfold contributes; rewrite ?E; cbn [app fold_left]; reflexivity.
    + rewrite flat_map_app, fold_left_app. cbn [flat_map]. rewrite app_nil_r.
      assert (Hp : contributes p = match cfail (the_call p) with Never => [cargs (the_call p)] | _ => [] end) by reflexivity.
      rewrite Hp. destruct (cfail (the_call p)); reflexivity.
Qed.

(** A failing call changes no result of a class without reset, nor of any class when reset=False is passed or when
    the call fails before erasing. *)
Theorem C60_failed_call_keeps c ps p : ~ succeeds (the_call p) ->
  erases c = false \/ erasing p = false -> data (run c (ps ++ [p])) = data (run c ps).
Proof.
  intros Hs He. rewrite !C60_results. unfold relevant, succeeds in *.
  assert (Hc : contributes p = []) by (unfold contributes; destruct (cfail (the_call p)); congruence).
  destruct (erases c).
  - destruct He as [He|He]; [discriminate|]. rewrite since_snoc, He, flat_map_app, fold_left_app. cbn [flat_map].
    now rewrite Hc.
  - rewrite flat_map_app, fold_left_app. cbn [flat_map]. now rewrite Hc.
Qed.
End Histories.

(** ** The classes of freud *)
Theorem C60_every_class c : In c classes -> cname c <> "msd.MSD"%string -> marks_early c = false.
Proof.
  intros H Hn. cbn in H.
  repeat (destruct H as [<-|H]; [first [reflexivity|exfalso; apply Hn; reflexivity]|]). destruct H.
Qed.

Definition rdf_class := nth 6 classes (mkClass "" false false false false).
Definition msd_class := nth 23 classes (mkClass "" false false false false).
Definition voronoi_class := nth 20 classes (mkClass "" false false false false).
Example C60_class_example : cname rdf_class = "density.RDF"%string /\ In rdf_class classes /\ marks_early rdf_class = false
  /\ cname msd_class = "msd.MSD"%string /\ cname voronoi_class = "locality.Voronoi"%string /\ In voronoi_class classes
  /\ has_plot voronoi_class = true.
Proof. repeat split; cbn; tauto. Qed.

(** A new Voronoi object; then a failing call; then a successful one. *)
Example C60_guard_example :
  let ps := [Compute (mkCall true After 1)] in
  let qs := ps ++ [Compute (mkCall true Never 5)] in
  ~ computed ps /\ computed qs /\
  read nat (fun d => Ok d) (run nat nat 0 (fun a _ => a) voronoi_class ps) = Err AttributeError /\
  read nat (fun d => Ok d) (run nat nat 0 (fun a _ => a) voronoi_class qs) = Ok 5.
Proof.
  cbn. repeat split.
  - intros (k & [E|[]] & Hs). injection E as <-. discriminate Hs.
  - exists (mkCall true Never 5). split; [right; left; reflexivity|reflexivity].
Qed.

(** ** Deviations *)
(** A failing compute destroys earlier results of the classes that accumulate: they erase before they look at their
    arguments.  Here an RDF holding two frames is asked for a third with bad arguments (reset has its default, True):
    the call raises, and the results, still readable, are those of an object that never saw a frame. *)
Theorem C60_failed_call_erases_refuted : forall c, In c classes -> erases c = true ->
  exists (ps : list (op nat)) k, ~ succeeds k /\ computed ps /\
    data (run (list nat) nat [] (fun a d => d ++ [a]) c ps) = [1; 2] /\
    read (list nat) (fun d => Ok d) (run (list nat) nat [] (fun a d => d ++ [a]) c (ps ++ [Compute k])) = Ok [].
Proof.
  intros c _ Hc.
  exists [Compute (mkCall true Never 1); Compute (mkCall false Never 2)], (mkCall true After 3).
  split; [discriminate|]. split; [exists (mkCall true Never 1); split; [now left|reflexivity]|].
  unfold run. cbn. unfold compute, body. cbn. rewrite Hc. cbn. destruct (marks_early c); split; reflexivity.
Qed.
Example C60_failed_call_erases_example : In rdf_class classes /\ erases rdf_class = true.
Proof. split; [cbn; tauto|reflexivity]. Qed.

(** MSD marks itself before it validates: after a first compute that raised, reading msd does not raise
    AttributeError; numpy.concatenate of an empty list raises ValueError instead, which hasattr does not catch. *)
Definition msd_value (d : list nat) : res (list nat) := match d with [] => Err OtherError | _ => Ok d end.
Theorem C60_msd_refuted : exists (ps : list (op nat)),
  ~ computed ps /\
  read (list nat) msd_value (run (list nat) nat [] (fun a d => d ++ [a]) msd_class ps) = Err OtherError /\
  hasattr (read (list nat) msd_value (run (list nat) nat [] (fun a d => d ++ [a]) msd_class ps)) = Err OtherError.
Proof.
  exists [Compute (mkCall true After 0)]. split; [|split; reflexivity].
  intros (k & [E|[]] & Hs). injection E as <-. discriminate Hs.
Qed.

(** For MSD the exact rule: a result can be read once compute has been called in any way that got past the binding
    of its arguments. *)
Theorem C60_msd_rule (D P : Type) (fresh : D) (update : P -> D -> D) c (ps : list (op P)) :
  marks_early c = true ->
  ((exists p, In p ps /\ cfail (the_call p) <> Before) -> forall A (prop : D -> res A),
     read D prop (run D P fresh update c ps) = prop (data (run D P fresh update c ps))) /\
  ((forall p, In p ps -> cfail (the_call p) = Before) -> forall A (prop : D -> res A),
     read D prop (run D P fresh update c ps) = Err AttributeError).
Proof.
  intros Hc.
  assert (H : (flag (run D P fresh update c ps) = Some true /\ exists p, In p ps /\ cfail (the_call p) <> Before) \/
              (flag (run D P fresh update c ps) = flag (init D fresh c) /\ forall p, In p ps -> cfail (the_call p) = Before)).
  { induction ps as [|p ps IH] using rev_ind.
    - right. split; [reflexivity|intros p []].
    - rewrite run_snoc. destruct (cfail (the_call p)) eqn:E.
      2: { assert (Hf : flag (step D P fresh update c (run D P fresh update c ps) p) = flag (run D P fresh update c ps)).
           { destruct p as [k|k]; cbn in *; unfold compute, compute_unbound, body; rewrite E; reflexivity. }
           destruct IH as [[IH (q & Hq & Hb)]|[IH H]]; [left|right].
           - split; [congruence|]. exists q. rewrite in_app_iff. auto.
           - split; [congruence|]. intros q Hq. apply in_app_iff in Hq. destruct Hq as [Hq|[<-|[]]]; auto. }
      1, 2: left; (split; [|exists p; rewrite in_app_iff, E; cbn; split; [auto|discriminate]]);
        destruct p as [k|k]; cbn in *; unfold compute, compute_unbound, body; rewrite E, Hc;
        destruct (erases c && creset k)%bool; reflexivity. }
  unfold read, guard. destruct H as [[Hf (p & Hp & Hb)]|[Hf H]]; rewrite Hf; split.
  - reflexivity.
  - intros Hall. exfalso. apply Hb. auto.
  - intros (p & Hp & Hb) A prop. exfalso. apply Hb. auto.
  - intros _ A prop. unfold init. cbn. now destruct (sets_flag c).
Qed.
Example C60_msd_rule_example : marks_early msd_class = true. Proof. reflexivity. Qed.

(** The guard follows the attribute lookup, not the computation: RDF.compute(rdf, system) runs the computation and
    leaves the results in the object, yet reading them raises AttributeError. *)
Theorem C60_unbound_refuted : exists ps,
  data (run nat nat 0 (fun a _ => a) rdf_class ps) = 7 /\
  read nat (fun d => Ok d) (run nat nat 0 (fun a _ => a) rdf_class ps) = Err AttributeError.
Proof. exists [Unbound (mkCall true Never 7)]. split; reflexivity. Qed.

(** ** The k-grid of DiffractionPattern *)
(** Written lazily under the same flag: whenever a result may be read, the grid has been written, in every history of
    failing and successful calls. *)
Theorem C60_diffraction_grid calls : dflag (dp_run calls) = Some true -> grid (dp_run calls) = true.
Proof.
  induction calls as [|f calls IH] using rev_ind; [discriminate|].
  unfold dp_run in *. rewrite fold_left_app. cbn [fold_left]. unfold dp_compute. destruct f; [exact IH|].
  destruct (dflag (fold_left _ calls dp_init)) as [[]|] eqn:E; cbn; auto.
Qed.
Example C60_diffraction_grid_example : dflag (dp_run [true; false; true]) = Some true. Proof. reflexivity. Qed.

Print Assumptions C60_guard.
Print Assumptions C60_plot.
Print Assumptions C60_hasattr.
Print Assumptions C60_results.
Print Assumptions C60_failed_call_keeps.
Print Assumptions C60_every_class.
Print Assumptions C60_failed_call_erases_refuted.
Print Assumptions C60_msd_refuted.
Print Assumptions C60_msd_rule.
Print Assumptions C60_diffraction_grid.
