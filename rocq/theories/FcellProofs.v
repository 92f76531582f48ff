(** Proofs about the cell list and the search over shells of cells: the integer part. *)
From Coq Require Import Psatz Wf_nat.
From Verif Require Import LinkCellModel NListProofs AABBProofs2 MArrayProofs LinkCellProofs LinkCellProofs2 LinkCellProofs3 FcellSpec.
Open Scope Z_scope.

Section List.
Variable conv : Z -> option Z.
Definition fpt_cell (b : fbox) (dim : Z * Z * Z) (points : list fvec) (c : Z) (j : nat) : bool :=
  match fget_cell conv b dim (nth j points fv0) with Some c' => c' =? c | None => false end.
Definition fcontents (b : fbox) (dim : Z * Z * Z) (points : list fvec) (c : Z) : list nat :=
  filter (fpt_cell b dim points c) (seq 0 (length points)).

Lemma fold_flink_none b dim points l : fold_left (flink_one conv b dim points) l None = None.
Proof. induction l; simpl; auto. Qed.
Lemma fcell_list_spec b dim points cl :
  (forall j c, (j < length points)%nat -> fget_cell conv b dim (nth j points fv0) = Some c -> 0 <= c < num_cells dim) ->
  fcell_list conv b dim points = Some cl ->
  (forall j, (j < length points)%nat -> exists c, fget_cell conv b dim (nth j points fv0) = Some c) /\
  (forall c, 0 <= c < num_cells dim -> chain cl (length points + Z.to_nat c) (fcontents b dim points c)).
Proof.
  intros Hr. unfold fcell_list, fcontents. set (n := length points) in *. set (nc := Z.to_nat (num_cells dim)).
  assert (G : forall m cl0 cl, (m <= n)%nat -> length cl0 = (n + nc)%nat ->
    (forall j, (m <= j < n)%nat -> exists c, fget_cell conv b dim (nth j points fv0) = Some c) ->
    (forall c, 0 <= c < num_cells dim -> chain cl0 (n + Z.to_nat c) (filter (fpt_cell b dim points c) (seq m (n - m)))) ->
    fold_left (flink_one conv b dim points) (rev (seq 0 m)) (Some cl0) = Some cl ->
    (forall j, (j < n)%nat -> exists c, fget_cell conv b dim (nth j points fv0) = Some c) /\
    (forall c, 0 <= c < num_cells dim -> chain cl (n + Z.to_nat c) (filter (fpt_cell b dim points c) (seq 0 n)))).
  { induction m as [|m IH]; intros cl0 cl' Hm Hl Hd Hc Hf.
    - simpl in Hf. injection Hf as <-. rewrite Nat.sub_0_r in Hc. split; auto. intros; apply Hd; lia.
    - rewrite seq_S, rev_unit in Hf. cbn [fold_left] in Hf. unfold flink_one in Hf at 2. fold n in Hf.
      simpl (0 + m)%nat in Hf.
      destruct (fget_cell conv b dim (nth m points fv0)) as [c|] eqn:Ec; [|rewrite fold_flink_none in Hf; discriminate].
      assert (Rc : 0 <= c < num_cells dim) by (apply (Hr m); auto; lia).
      destruct (nth_error cl0 (n + Z.to_nat c)) as [h|] eqn:Eh; [|rewrite fold_flink_none in Hf; discriminate].
      rewrite wr_some in Hf by lia. rewrite wr_some in Hf by (rewrite upd_length; unfold nc in *; lia).
      apply IH in Hf; auto; [lia|rewrite !upd_length; auto| |].
      + intros j Hj. destruct (Nat.eq_dec j m); [subst; eauto|apply Hd; lia].
      + intros c' Rc'. replace (n - m)%nat with (S (n - S m)) by lia. cbn [seq filter].
        assert (P : fpt_cell b dim points c' m = (c =? c')) by (unfold fpt_cell; rewrite Ec; auto). rewrite P.
        specialize (Hc c' Rc'). assert (NI : forall k, (k <= m \/ n <= k)%nat -> ~ In k (filter (fpt_cell b dim points c') (seq (S m) (n - S m)))).
        { intros k Hk H. apply filter_In in H as [H _]. apply in_seq in H. lia. }
        destruct (Z.eqb_spec c c') as [->|N].
        * cbn [chain]. split; [apply upd_same; rewrite upd_length; unfold nc in *; lia|].
          destruct (filter (fpt_cell b dim points c') (seq (S m) (n - S m))) as [|j l] eqn:El.
          -- cbn [chain] in *. rewrite Hc in Eh. injection Eh as <-. rewrite upd_other by lia. apply upd_same. lia.
          -- cbn [chain] in *. destruct Hc as [E C]. rewrite E in Eh. injection Eh as <-. split.
             ++ rewrite upd_other by lia. apply upd_same. lia.
             ++ assert (Hj : In j (filter (fpt_cell b dim points c') (seq (S m) (n - S m)))) by (rewrite El; left; auto).
                apply filter_In in Hj as [Hj _]. apply in_seq in Hj.
                apply chain_upd; [lia| |apply chain_upd; [lia| |auto]].
                ** intros H. apply (NI (n + Z.to_nat c')%nat ltac:(lia)). right; auto.
                ** intros H. apply (NI m ltac:(lia)). right; auto.
        * apply chain_upd; [lia|apply NI; lia|]. apply chain_upd; [lia|apply NI; lia|auto]. }
  intros Hf. apply (G n (repeat None (n + nc))); auto.
  - apply repeat_length.
  - intros; lia.
  - intros c Hc. rewrite Nat.sub_diag. simpl. apply nth_error_repeat_some. unfold nc. lia.
Qed.
Lemma fcell_list_defined b dim points :
  (forall j, (j < length points)%nat -> exists c, fget_cell conv b dim (nth j points fv0) = Some c /\ 0 <= c < num_cells dim) ->
  exists cl, fcell_list conv b dim points = Some cl.
Proof.
  intros H. unfold fcell_list. set (n := length points) in *. set (nc := Z.to_nat (num_cells dim)).
  assert (G : forall l cl0, (forall i, In i l -> (i < n)%nat) -> length cl0 = (n + nc)%nat -> exists cl, fold_left (flink_one conv b dim points) l (Some cl0) = Some cl).
  { induction l as [|i l IH]; intros cl0 Hl HL; cbn [fold_left]; [eauto|]. unfold flink_one at 2. fold n. destruct (H i) as (c & -> & Rc); [apply Hl; left; auto|].
    assert (Hi : (i < n)%nat) by (apply Hl; left; auto). destruct (nth_error cl0 (n + Z.to_nat c)) as [h|] eqn:E; [|apply nth_error_None in E; unfold nc in *; lia].
    rewrite wr_some by lia. rewrite wr_some by (rewrite upd_length; unfold nc in *; lia). apply IH; [intros; apply Hl; right; auto|rewrite !upd_length; auto]. }
  apply G; [|apply repeat_length]. intros i Hi. apply in_rev, in_seq in Hi. lia.
Qed.
End List.

Section Ball.
Variables (lc : flinkcell) (pc : Z * Z * Z) (q : fvec) (qi : nat) (r_max r_min : f32) (excl : bool).
Let step := fl_step lc pc q qi r_max r_min excl.
Let idx (p : Z * Z * Z) : Z := cell_index (fl_dim lc) (add3 pc p).
Definition fl_emit (j : nat) : list fbond :=
  if excl && Nat.eqb qi j then [] else
  let d := fwrap (fl_box lc) (fvsub (nth j (fl_points lc) fv0) q) in
  if Bltb (fnorm2 d) (fmul r_max r_max) && Bleb (fmul r_min r_min) (fnorm2 d) then [FBond qi j (Bsqrt mode_NE (fnorm2 d)) d] else [].

Lemma fdrain_cell sh seen rest : forall l k, chain (fl_list lc) k l -> fdrained step (LB None sh seen) rest ->
  fdrained step (LB (Some k) sh seen) (flat_map fl_emit l ++ rest).
Proof.
  induction l as [|j l IH]; intros k C D; cbn [chain flat_map app] in *.
  - apply fdr_move with (LB None sh seen); auto. unfold step, fl_step. cbn [lb_cur]. rewrite C. auto.
  - destruct C as [E C]. specialize (IH j C D). rewrite <- app_assoc.
    assert (S : step (LB (Some k) sh seen) =
      let s' := LB (Some j) sh seen in
      if excl && Nat.eqb qi j then FMove s' else
      let d := fwrap (fl_box lc) (fvsub (nth j (fl_points lc) fv0) q) in
      if Bltb (fnorm2 d) (fmul r_max r_max) && Bleb (fmul r_min r_min) (fnorm2 d) then FOut (FBond qi j (Bsqrt mode_NE (fnorm2 d)) d) s' else FMove s').
    { unfold step, fl_step. cbn [lb_cur lb_shell lb_seen]. rewrite E. reflexivity. }
    cbv zeta in S. unfold fl_emit at 1. cbv zeta. destruct (excl && Nat.eqb qi j).
    + eapply fdr_move; [exact S|auto].
    + destruct (Bltb _ _ && Bleb _ _).
      * eapply fdr_out; [exact S|auto].
      * eapply fdr_move; [exact S|auto].
Qed.
Fixpoint fnew_cells (seen : list Z) (l : list shell) : list Z :=
  match l with
  | [] => []
  | s :: l => let i := idx (sh_pos s) in if existsb (Z.eqb i) seen then fnew_cells seen l else i :: fnew_cells (i :: seen) l
  end.
Lemma fnew_cells_spec : forall l seen, NoDup (fnew_cells seen l) /\
  (forall c, In c (fnew_cells seen l) <-> ~ In c seen /\ exists s, In s l /\ idx (sh_pos s) = c).
Proof.
  induction l as [|s l IH]; intros seen; cbn [fnew_cells].
  - split; [constructor|]. intros c. split; [intros []|intros [_ (s & [] & _)]].
  - assert (EX : forall i, existsb (Z.eqb i) seen = true <-> In i seen).
    { intros i. rewrite existsb_exists. split; [intros (y & H & E); apply Z.eqb_eq in E; subst; auto|intros H; exists i; split; auto; apply Z.eqb_refl]. }
    cbv zeta. destruct (existsb (Z.eqb (idx (sh_pos s))) seen) eqn:E.
    + apply EX in E. destruct (IH seen) as [N I]. split; auto. intros c. rewrite I. split; intros [H (s' & Hs & Ec)]; split; auto.
      * exists s'. split; auto. right; auto.
      * destruct Hs as [->|Hs]; [subst c; contradiction|eauto].
    + assert (E' : ~ In (idx (sh_pos s)) seen) by (rewrite <- EX, E; discriminate). destruct (IH (idx (sh_pos s) :: seen)) as [N I]. split.
      * constructor; auto. rewrite I. intros [H _]. apply H. left; auto.
      * intros c. cbn [In]. rewrite I. split.
        -- intros [<-|[H (s' & Hs & Ec)]]; [split; auto; exists s; auto|]. split; [intros H1; apply H; right; auto|]. eauto.
        -- intros [H (s' & [<-|Hs] & Ec)]; auto. destruct (Z.eq_dec (idx (sh_pos s)) c); auto. right. split; eauto.
           intros [H1|H1]; auto.
Qed.
Definition fout (k : Z) : bool := Bltb r_max (fmul (lit (k - fextra_width lc r_max) 0) (fl_width lc)).
Variable cont : Z -> list nat.
Hypothesis Hcont : forall p, chain (fl_list lc) (length (fl_points lc) + Z.to_nat (idx p)) (cont (idx p)).

Lemma fdrain_shells : forall l s e seen, trace (sh_next s) l e -> (forall x, In x l -> fout (sh_range x) = false) -> fout (sh_range e) = true ->
  fdrained step (LB None s seen) (flat_map (fun c => flat_map fl_emit (cont c)) (fnew_cells seen l)).
Proof.
  induction l as [|x l IH]; intros s e seen T Hin Hout; inversion T; subst.
  - apply fdr_done. unfold step, fl_step. cbn [lb_cur lb_shell]. unfold fout in Hout. rewrite Hout. auto.
  - assert (S : step (LB None s seen) = if existsb (Z.eqb (idx (sh_pos (sh_next s)))) seen then FMove (LB None (sh_next s) seen)
       else FMove (LB (Some (length (fl_points lc) + Z.to_nat (idx (sh_pos (sh_next s))))%nat) (sh_next s) (idx (sh_pos (sh_next s)) :: seen))).
    { unfold step, fl_step. cbn [lb_cur lb_shell lb_seen]. assert (O : fout (sh_range (sh_next s)) = false) by (apply Hin; left; auto). unfold fout in O. rewrite O. auto. }
    cbn [fnew_cells]. cbv zeta. destruct (existsb _ seen).
    + eapply fdr_move; [exact S|]. eapply IH; eauto. intros; apply Hin; right; auto.
    + eapply fdr_move; [exact S|]. cbn [flat_map]. apply fdrain_cell; [apply Hcont|]. eapply IH; eauto. intros; apply Hin; right; auto.
Qed.
End Ball.

Lemma fdrained_det {S} (step : S -> fevent S) s l l' : fdrained step s l -> fdrained step s l' -> l = l'.
Proof.
  intros D. revert l'. induction D as [s E|s s' l E D IH|s x s' l E D IH]; intros l' D'; inversion D'; subst; try congruence.
  - rewrite E in H. injection H as <-. auto.
  - rewrite E in H. injection H as <- <-. f_equal. auto.
Qed.
(** The first shell out of reach. *)
Lemma first_out (f : Z -> bool) K : 0 <= K -> f 0 = false -> f K = true -> exists M : nat, (0 < M)%nat /\ f (Z.of_nat M) = true /\ forall k, 0 <= k < Z.of_nat M -> f k = false.
Proof.
  intros HK H0 H1. destruct (dec_inh_nat_subset_has_unique_least_element (fun n => f (Z.of_nat n) = true)) as (M & [HM HL] & _).
  - intros n. destruct (f (Z.of_nat n)); auto.
  - exists (Z.to_nat K). rewrite Z2Nat.id; auto.
  - exists M. split; [destruct M; [simpl in HM; congruence|lia]|]. split; auto. intros k Hk. destruct (f k) eqn:E; auto.
    specialize (HL (Z.to_nat k)). rewrite Z2Nat.id in HL by lia. specialize (HL E). lia.
Qed.
(** Complete description of the ball query. *)
Lemma fl_cells conv lc q qi r_max r_min excl pc K :
  let b := fl_box lc in let points := fl_points lc in
  dim_pos (fl_dim lc) -> in_dim (fl_dim lc) pc ->
  (forall j c, (j < length points)%nat -> fget_cell conv b (fl_dim lc) (nth j points fv0) = Some c -> 0 <= c < num_cells (fl_dim lc)) ->
  fcell_list conv b (fl_dim lc) points = Some (fl_list lc) ->
  0 <= K -> fout lc r_max 0 = false -> fout lc r_max K = true ->
  exists (M : nat) cells l, (0 < M)%nat /\ NoDup cells /\ (forall k, 0 <= k < Z.of_nat M -> fout lc r_max k = false) /\ fout lc r_max (Z.of_nat M) = true /\
    (forall c, In c cells <-> exists p, cheb p < Z.of_nat M /\ offset_ok (f2d b) p /\ cell_index (fl_dim lc) (add3 pc p) = c) /\
    fdrained (fl_step lc pc q qi r_max r_min excl) (fl_start lc pc) l /\
    l = flat_map (fun c => flat_map (fl_emit lc q qi r_max r_min excl) (fcontents conv b (fl_dim lc) points c)) cells.
Proof.
  intros b points HD Hin Hr HL HK H0 H1. apply fcell_list_spec in HL as [_ HL]; auto.
  destruct (first_out (fout lc r_max) K HK H0 H1) as (M & HM & OM & OL).
  set (d := f2d b). pose proof (cube_trace M d) as T.
  assert (HS : exists l, cube_states M d = sh_reset 0 d :: l).
  { unfold cube_states. destruct M as [|m]; [lia|]. cbn [seq flat_map]. exists (flat_map (fun N => shell_states (Z.of_nat N) d) (seq 1 m)). reflexivity. }
  destruct HS as [l HS]. rewrite HS in T.
  assert (T' : trace (sh_next (sh_reset 0 d)) l (sh_reset (Z.of_nat M) d)) by (inversion T; auto).
  set (c0 := cell_index (fl_dim lc) (add3 pc (0, 0, 0))).
  destruct (fnew_cells_spec lc pc l [c0]) as [ND NI].
  exists M, (c0 :: fnew_cells lc pc [c0] l). eexists. split; [auto|]. split.
  { constructor; auto. rewrite NI. intros [H _]. apply H. left; auto. }
  split; auto. split; auto. split.
  { intros c. cbn [In]. rewrite NI. split.
    - intros [<-|[_ (s & Hs & <-)]].
      + exists (0, 0, 0). split; [simpl; lia|]. split; [intros _; auto|auto].
      + assert (Hs' : In (sh_pos s) (map sh_pos (cube_states M d))) by (apply in_map; rewrite HS; right; auto).
        apply cube_in in Hs' as [? ?]. exists (sh_pos s). auto.
    - intros (p & Hp & Ho & <-). assert (H : In p (map sh_pos (cube_states M d))) by (apply cube_in; auto).
      apply in_map_iff in H as (s & E & Hs). rewrite HS in Hs. destruct Hs as [<-|Hs].
      + left. subst p. reflexivity.
      + destruct (Z.eq_dec c0 (cell_index (fl_dim lc) (add3 pc p))); auto. right. split; [intros [?|[]]; auto|]. exists s. split; auto. rewrite E. auto. }
  split; [|reflexivity].
  unfold fl_start. fold b points. fold d. cbn [flat_map].
  assert (P0 : sh_pos (sh_reset 0 d) = (0, 0, 0)) by reflexivity. rewrite P0. fold c0.
  assert (E0 : coord_to_index (fl_dim lc) pc = c0) by (unfold c0; rewrite add3_0, cell_index_in; auto). rewrite E0.
  apply fdrain_cell.
  - apply HL. unfold c0. apply cell_index_range. auto.
  - eapply fdrain_shells; [|exact T'| |].
    + intros p. apply HL. apply cell_index_range; auto.
    + intros s Hs. assert (Hs' : In s (cube_states M d)) by (rewrite HS; right; auto). apply cube_range in Hs' as [Hr' _]. apply OL. auto.
    + assert (ER : sh_range (sh_reset (Z.of_nat M) d) = Z.of_nat M) by (unfold sh_reset; destruct (_ =? 0); auto). rewrite ER. auto.
Qed.
