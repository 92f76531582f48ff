(** The loop over all cells, sorting, and the resulting objects. *)
From Verif Require Import RBase Vec MArrayProofs NListProofs NListProofs2 ParProofs.
From Coq Require Import Reals ZArith List Lra Lia Bool Arith Permutation.
From Verif Require Import VoronoiModel VoronoiProofs VoronoiSpec.
Import ListNotations.
Local Open Scope R_scope.

(** ** Sorting exists *)
Section Sort.
Context {A : Type} (lt : A -> A -> bool).
Hypothesis asym : forall x y, lt x y = true -> lt y x = false.
Hypothesis trans : forall x y z, lt y x = false -> lt z y = false -> lt z x = false.
Fixpoint ins (x : A) (l : list A) : list A := match l with [] => [x] | y :: l => if lt y x then y :: ins x l else x :: y :: l end.
Lemma ins_perm x l : Permutation (x :: l) (ins x l).
Proof. induction l as [|y l IH]; simpl; [auto|]. destruct (lt y x); [|auto]. rewrite perm_swap. auto. Qed.
Lemma ins_sorted x l : ForallOrdPairs (fun x y => lt y x = false) l -> ForallOrdPairs (fun x y => lt y x = false) (ins x l).
Proof.
  induction l as [|y l IH]; intros H; simpl; [repeat constructor|]. inversion H as [|? ? Hy Hl]; subst. destruct (lt y x) eqn:E.
  - constructor; [|auto]. rewrite Forall_forall in *. intros z Z. apply (Permutation_in _ (Permutation_sym (ins_perm x l))) in Z. destruct Z as [<-|Z]; auto.
  - constructor; [|exact H]. constructor; [exact E|]. rewrite Forall_forall in Hy |- *. intros z Z. apply (trans x y z); auto.
Qed.
Lemma sort_exists l : exists l', sorted_by lt l l'.
Proof.
  induction l as [|x l (l' & P & S)]; [exists []; split; constructor|]. exists (ins x l'). split; [|apply ins_sorted; exact S]. rewrite P. apply ins_perm.
Qed.
End Sort.
Lemma fop_nth {A} (R0 : A -> A -> Prop) d l : ForallOrdPairs R0 l -> forall i j, (i < j < length l)%nat -> R0 (nth i l d) (nth j l d).
Proof.
  induction 1 as [|x l H _ IH]; intros i j L; [simpl in L; lia|]. destruct j as [|j]; [lia|]. destruct i as [|i]; simpl.
  - rewrite Forall_forall in H. apply H, nth_In. simpl in L; lia.
  - apply IH. simpl in L; lia.
Qed.
Lemma angle_sort l : exists l', sorted_by angle_lt l l'.
Proof.
  apply sort_exists; unfold angle_lt; intros *; rewrite ?Rltb_true, ?Rltb_false; lra.
Qed.
Lemma weight_asym x y : less_id_ref_weight x y = true -> less_id_ref_weight y x = false.
Proof.
  unfold less_id_ref_weight. rewrite (Nat.eqb_sym (bq y)), (Nat.eqb_sym (bp y)). destruct (Nat.eqb_spec (bq x) (bq y)); cbn [negb].
  - destruct (Nat.eqb_spec (bp x) (bp y)); cbn [negb].
    + rewrite Rltb_true, Rltb_false; lra.
    + rewrite Nat.ltb_lt, Nat.ltb_ge; lia.
  - rewrite Nat.ltb_lt, Nat.ltb_ge; lia.
Qed.
Lemma weight_lex x y : less_id_ref_weight y x = false <-> lex_le x y.
Proof.
  unfold less_id_ref_weight, lex_le. destruct (Nat.eqb_spec (bq y) (bq x)); cbn [negb].
  - destruct (Nat.eqb_spec (bp y) (bp x)); cbn [negb].
    + rewrite Rltb_false. split; [intros; right; split; [lia|right; split; [lia|assumption]]|]. intros [H|[_ [H|[_ H]]]]; try lia; exact H.
    + rewrite Nat.ltb_ge. lia.
  - rewrite Nat.ltb_ge. lia.
Qed.
Lemma weight_trans x y z : less_id_ref_weight y x = false -> less_id_ref_weight z y = false -> less_id_ref_weight z x = false.
Proof.
  rewrite !weight_lex. unfold lex_le. intros [A|[A [B|[B C]]]] [A'|[A' [B'|[B' C']]]]; try (left; lia); right; split; try lia; try (left; lia). right. split; [lia|lra].
Qed.
Lemma bond_sort l : exists l', sort_result less_id_ref_weight l l'.
Proof.
  destruct (sort_exists less_id_ref_weight weight_asym weight_trans l) as (l' & P & S). exists l'. split; [exact P|]. intros i j L. exact (fop_nth _ bond0 l' S i j L).
Qed.
Lemma sort_lex l l' : sort_result less_id_ref_weight l l' -> forall i j, (i < j < length l')%nat -> lex_le (nth i l' bond0) (nth j l' bond0).
Proof. intros [_ H] i j L. apply weight_lex. auto. Qed.

(** ** The loop over the cells *)
Definition poly_of (is2d : bool) (sys : vec3) (c : scell) (poly : list vec3) : Prop :=
  exists srt, (let rel := map (fun v => vsub (if is2d then V3 (vx v) (vy v) 0 else v) (sc_pos c)) (filter (fun v => negb (is2d && Rltb (vz v) 0)) (sc_verts c)) in
     if is2d then sorted_by angle_lt rel srt else srt = rel) /\ poly = map (fun r => vadd r sys) srt.
Lemma wr_inv {T} (l : list T) i x l' : wr l i x = Some l' -> (i < length l)%nat /\ l' = upd l i x.
Proof. unfold wr. destruct (Nat.ltb_spec i (length l)); [|discriminate]. intros [= <-]. auto. Qed.
Lemma vor_loop_frame is2d points : forall cells polys vols bonds polys' vols' bonds',
  vor_loop is2d points (map encode cells) polys vols bonds polys' vols' bonds' ->
  length polys' = length polys /\ length vols' = length vols /\ forall k, ~ In k (map sc_pid cells) -> nth k polys' [] = nth k polys [] /\ nth k vols' 0 = nth k vols 0.
Proof.
  induction cells as [|c cells IH]; intros *; cbn [map vor_loop].
  - intros (-> & -> & ->). auto.
  - intros (rel & srt & sys & bs & p1 & v1 & _ & _ & _ & W1 & W2 & _ & L). apply wr_inv in W1 as [L1 ->]. apply wr_inv in W2 as [L2 ->]. destruct (IH _ _ _ _ _ _ L) as (A & B & C). rewrite !upd_length in *.
    repeat split; auto; intros; (destruct (C k) as [C1 C2]; [intros X; apply H; right; exact X|]); [rewrite C1|rewrite C2]; apply nth_upd_other; intros ->; apply H; left; reflexivity.
Qed.
Lemma vor_loop_spec b points : (b_2d b = true -> forall p, In p points -> vz p = 0) -> forall cells polys vols bonds polys' vols' bonds',
  (forall c, In c cells -> cell_ok b points c) -> NoDup (map sc_pid cells) ->
  vor_loop (b_2d b) points (map encode cells) polys vols bonds polys' vols' bonds' ->
  bonds' = bonds ++ flat_map (cell_bonds (b_2d b)) cells /\
  forall c, In c cells -> nth (sc_pid c) vols' 0 = sc_vol c /\ exists sys, nth_error points (sc_pid c) = Some sys /\ poly_of (b_2d b) sys c (nth (sc_pid c) polys' []).
Proof.
  intros Z. induction cells as [|c cells IH]; intros * Ok D; cbn [map vor_loop].
  - intros (-> & -> & ->). rewrite app_nil_r. split; [reflexivity|intros ? []].
  - intros (rel & srt & sys & bs & p1 & v1 & R0 & S & E & W1 & W2 & F & L). apply wr_inv in W1 as [L1 ->]. apply wr_inv in W2 as [L2 ->].
    inversion D as [|? ? Hn D']; subst. assert (Okc := Ok c (or_introl eq_refl)). cbn [encode vc_pid vc_pos vc_verts vc_vol] in *.
    rewrite (cell_faces b points c Z Okc) in F. injection F as <-. rewrite rel_flat in R0. injection R0 as <-.
    destruct (IH _ _ _ _ _ _ (fun c' H => Ok c' (or_intror H)) D' L) as (B & C). destruct (vor_loop_frame _ _ _ _ _ _ _ _ _ L) as (_ & _ & Fr).
    split; [rewrite B, <- app_assoc; reflexivity|]. intros c' [<-|I]; [|auto]. destruct (Fr _ Hn) as [F1 F2]. rewrite F1, F2, !nth_upd_same by assumption.
    split; [reflexivity|]. exists sys. split; [exact E|]. exists srt. split; [exact S|reflexivity].
Qed.
Lemma vor_loop_exists b points : (b_2d b = true -> forall p, In p points -> vz p = 0) -> forall cells polys vols bonds,
  (forall c, In c cells -> cell_ok b points c) -> length polys = length points -> length vols = length points ->
  exists polys' vols' bonds', vor_loop (b_2d b) points (map encode cells) polys vols bonds polys' vols' bonds'.
Proof.
  intros Z. induction cells as [|c cells IH]; intros * Ok L1 L2; cbn [map vor_loop]; [exists polys, vols, bonds; auto|].
  assert (Okc := Ok c (or_introl eq_refl)). assert (Okc' := Okc). destruct Okc' as [(p & _ & _ & _ & P & _) _ _].
  assert (Lp : (sc_pid c < length points)%nat) by (apply nth_error_Some; rewrite P; discriminate).
  set (rel := map (fun v => vsub (if b_2d b then V3 (vx v) (vy v) 0 else v) (sc_pos c)) (filter (fun v => negb (b_2d b && Rltb (vz v) 0)) (sc_verts c))).
  assert (S : exists srt, if b_2d b then sorted_by angle_lt rel srt else srt = rel) by (destruct (b_2d b); [apply angle_sort|exists rel; reflexivity]).
  destruct S as (srt & S). destruct (IH (upd polys (sc_pid c) (map (fun r => vadd r p) srt)) (upd vols (sc_pid c) (sc_vol c)) (bonds ++ cell_bonds (b_2d b) c)) as (p' & v' & b' & H);
    [intros; apply Ok; right; assumption|rewrite upd_length; assumption|rewrite upd_length; assumption|].
  exists p', v', b', rel, srt, p, (cell_bonds (b_2d b) c), (upd polys (sc_pid c) (map (fun r => vadd r p) srt)), (upd vols (sc_pid c) (sc_vol c)).
  cbn [encode vc_pid vc_pos vc_verts vc_vol]. rewrite rel_flat, (cell_faces b points c Z Okc), !wr_some by lia. repeat split; auto.
Qed.
