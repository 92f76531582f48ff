(** Proofs about the Steinhardt model: averages, reductions, whole calls. *)
From Verif Require Import RBase HistSpec HistProofs ParProofs MatchEnvProofs LocalDescProps HexProps AccumProofs SteinProofs.
From Coq Require Import Permutation Reals ZArith List Lra Lia Bool Classical.
From Verif Require Import HarmProofs SteinSpec.
Import ListNotations.
Local Open Scope R_scope.
Add Ring cplx_ring_inst : cplx_ring.

Lemma oadd_laws : sum_laws (Some c0) oadd.
Proof.
  repeat split; unfold oadd.
  - intros [x|] [y|] [z|]; try reflexivity. f_equal. ring.
  - intros [x|] [y|]; try reflexivity. f_equal. ring.
  - intros [x|]; try reflexivity. f_equal. ring.
Qed.
Lemma tsum_some {A} (g : A -> cplx) l : tsum (Some c0) oadd (map (fun x => Some (g x)) l) = Some (csuml g l).
Proof. unfold tsum. induction l as [|x l IH]; simpl; [reflexivity|]. rewrite IH. reflexivity. Qed.
Lemma tsum_none l : In None l -> tsum (Some c0) oadd l = None.
Proof. unfold tsum. induction l as [|x l IH]; simpl; [contradiction|]. intros [->|H]; [reflexivity|]. rewrite IH by exact H. destruct x; reflexivity. Qed.

(** * The averaged rows *)
Definition odiv (x : option cplx) (t : R) : option cplx := match x with Some z => c_div z t | None => None end.
Lemma ave_fold l rows bs : (forall nb, In nb bs -> length (nth (bp nb) rows []) = (2 * l + 1)%nat /\ (bp nb < length rows)%nat) -> forall f n,
  fold_left (fun acc nb => match acc, nth_error rows (bp nb) with
                                 | Some (sum, n), Some r => Some (map (fun p => oadd (fst p) (snd p)) (combine sum r), S n)
                                 | _, _ => None end) bs (Some (map f (seq 0 (2 * l + 1)), n)) =
  Some (map (fun k => oadd (f k) (tsum (Some c0) oadd (map (fun nb => nth k (nth (bp nb) rows []) None) bs))) (seq 0 (2 * l + 1)), (n + length bs)%nat).
Proof.
  destruct oadd_laws as (A & C & U). induction bs as [|nb bs IH]; intros H f n.
  - cbn [fold_left map length]. f_equal. f_equal; [|lia]. apply map_ext. intros k. cbn [tsum fold_right]. rewrite C, U. reflexivity.
  - destruct (H nb (or_introl eq_refl)) as [L B]. cbn [fold_left]. rewrite (nth_error_g _ _ [] B).
    replace (map (fun p => oadd (fst p) (snd p)) (combine (map f (seq 0 (2 * l + 1))) (nth (bp nb) rows []))) with (map (fun k => oadd (f k) (nth k (nth (bp nb) rows []) None)) (seq 0 (2 * l + 1))).
    + rewrite IH by (intros; apply H; right; assumption). f_equal. f_equal; [|simpl; lia]. apply map_ext. intros k. cbn [map tsum fold_right]. rewrite A. reflexivity.
    + set (r := nth (bp nb) rows []) in *. apply (nth_ext _ _ None None).
      * rewrite !map_length, combine_length, map_length, seq_length, L. lia.
      * intros k Hk. rewrite map_length, seq_length in Hk. rewrite (nth_map_lt _ _ _ O) by (rewrite seq_length; exact Hk). rewrite seq_nth by exact Hk.
        rewrite (nth_map_lt _ _ _ (None, None)) by (rewrite combine_length, map_length, seq_length, L; lia). rewrite combine_nth by (rewrite map_length, seq_length, L; reflexivity). cbn [fst snd].
        rewrite (nth_map_lt _ _ _ O) by (rewrite seq_length; exact Hk). rewrite seq_nth by exact Hk. reflexivity.
Qed.
Lemma ave_row l rows bs i : (forall nb, In nb bs -> length (nth (bp nb) rows []) = (2 * l + 1)%nat /\ (bp nb < length rows)%nat) -> length (nth i rows []) = (2 * l + 1)%nat -> (i < length rows)%nat ->
  st_ave_row l rows bs i = Some (map (fun k => odiv (oadd (tsum (Some c0) oadd (map (fun nb => nth k (nth (bp nb) rows []) None) bs)) (nth k (nth i rows []) None)) (INR (S (length bs)))) (seq 0 (2 * l + 1))).
Proof.
  intros H L B. unfold st_ave_row. rewrite (repeat_seq (Some c0)), ave_fold by exact H. rewrite (nth_error_g _ _ [] B). f_equal. set (r := nth i rows []) in *. destruct oadd_laws as (A & C & U).
  apply (nth_ext _ _ None None); [rewrite !map_length, combine_length, map_length, seq_length, L; lia|].
  intros k Hk. rewrite map_length, combine_length, map_length, seq_length, L, Nat.min_id in Hk.
  rewrite (nth_map_lt _ _ _ (None, None)) by (rewrite combine_length, map_length, seq_length, L; lia). rewrite combine_nth by (rewrite map_length, seq_length, L; reflexivity). cbn [fst snd].
  rewrite !(nth_map_lt _ _ _ O) by (rewrite seq_length; exact Hk). rewrite seq_nth by exact Hk. rewrite U. reflexivity.
Qed.
Lemma S_INR_nz n : INR (S n) <> 0. Proof. apply not_0_INR. lia. Qed.
Lemma csuml_ext {A} (f g : A -> cplx) l : (forall x, In x l -> f x = g x) -> csuml f l = csuml g l.
Proof. induction l as [|x l IH]; simpl; intros H; auto. rewrite IH, H by auto. reflexivity. Qed.
Lemma tsum_ext_some {A} (h : A -> option cplx) (g : A -> cplx) l : (forall x, In x l -> h x = Some (g x)) -> tsum (Some c0) oadd (map h l) = Some (csuml g l).
Proof. intros H. rewrite <- tsum_some. f_equal. apply map_ext_in. exact H. Qed.
(** All rows involved are values, or one of them is not. *)
Lemma ave_row_cell l weighted f rows i : hbonds_ok (length (si_pts f)) (si_bonds f) -> (i < length (si_pts f))%nat -> length rows = length (si_pts f) ->
  (forall j, (j < length (si_pts f))%nat -> (has_mean weighted f j -> nth j rows [] = rowval l (q_point l weighted f j)) /\ (~ has_mean weighted f j -> nth j rows [] = norow l)) ->
  exists r, st_ave_row l rows (si_bonds f i) i = Some r /\ (shell_ok weighted f i -> r = rowval l (q_shell l weighted f i)) /\ (~ shell_ok weighted f i -> r = norow l).
Proof.
  intros HB Hi L R. assert (LN : forall j, (j < length (si_pts f))%nat -> length (nth j rows []) = (2 * l + 1)%nat).
  { intros j Hj. destruct (R j Hj) as [R1 R2]. destruct (classic (has_mean weighted f j)) as [M|M]; [rewrite R1 by exact M; apply rowval_len|rewrite R2 by exact M; apply norow_len]. }
  assert (HB' : forall nb, In nb (si_bonds f i) -> (bp nb < length (si_pts f))%nat) by (intros nb Hnb; exact (HB i nb Hi Hnb)).
  eexists. split; [apply ave_row; [intros nb Hnb; split; [apply LN; auto|rewrite L; auto]|apply LN; exact Hi|rewrite L; exact Hi]|]. split.
  - intros [OI ON]. unfold rowval. apply map_seq_ext. intros k Hk. rewrite (tsum_ext_some _ (fun nb => q_point l weighted f (bp nb) (m_of l k))).
    2:{ intros nb Hnb. rewrite (proj1 (R _ (HB' nb Hnb)) (ON nb Hnb)). apply nth_rowval. exact Hk. }
    rewrite (proj1 (R i Hi) OI), nth_rowval by exact Hk. cbn [oadd odiv]. rewrite c_div_some by apply S_INR_nz. unfold q_shell. f_equal. f_equal. ring.
  - intros N. unfold norow. apply map_seq_ext. intros k Hk. destruct (classic (has_mean weighted f i)) as [M|M].
    + assert (NB : exists nb, In nb (si_bonds f i) /\ ~ has_mean weighted f (bp nb)).
      { apply NNPP. intros X. apply N. split; [exact M|]. intros nb Hnb. apply NNPP. intros Y. apply X. exists nb. auto. }
      destruct NB as (nb & I & NM). rewrite tsum_none; [reflexivity|]. apply in_map_iff. exists nb. split; [|exact I]. rewrite (proj2 (R _ (HB' nb I)) NM). apply nth_norow. exact Hk.
    + rewrite (proj2 (R i Hi) M), nth_norow by exact Hk. match goal with |- odiv (oadd ?x None) _ = _ => destruct x; reflexivity end.
Qed.

(** * The mean over all points *)
Lemma st_local_add np row (a : marray (option cplx)) : st_local np row a = add_row oadd (map (fun x => odiv x (INR np)) row) a.
Proof.
  unfold st_local, add_row. f_equal. generalize (ma_data a). induction row as [|x row IH]; intros d; destruct d as [|y d]; try reflexivity. cbn [combine map fst snd]. f_equal. apply IH.
Qed.
Lemma run_local_ext {A} (zero : A) g h ev : (forall i a, In i (map snd ev) -> g i a = h i a) -> forall ls, run_local zero g ev ls = run_local zero h ev ls.
Proof.
  unfold run_local. induction ev as [|e ev IH]; intros H ls; [reflexivity|]. cbn [fold_left].
  assert (U : forall t l, local_update zero (g (snd e)) t l = local_update zero (h (snd e)) t l).
  { intros t l. induction l as [|[t' a] l IHl]; cbn [local_update]; [rewrite H by (left; reflexivity); reflexivity|]. rewrite IHl, (H (snd e) a) by (left; reflexivity). reflexivity. }
  rewrite U. apply IH. intros; apply H; right; assumption.
Qed.
Lemma csuml_scale {A} t (g : A -> cplx) l : csuml (fun x => cscale t (g x)) l = cscale t (csuml g l).
Proof. induction l as [|x l IH]; simpl; [unfold cscale, c0; simpl; f_equal; ring|]. rewrite IH. unfold cscale, cadd; simpl. f_equal; ring. Qed.
Lemma sys_spec l np (row : nat -> option (list (option cplx))) (val : nat -> list (option cplx)) q (ok : nat -> Prop) ev ev3 ls :
  (forall i, (i < np)%nat -> row i = Some (val i) /\ (ok i -> val i = rowval l (q i)) /\ (~ ok i -> val i = norow l)) -> all_shaped (2 * l + 1) ls ->
  execution 0 np ev -> execution 0 (2 * l + 1) ev3 ->
  let ls1 := st_accumulate l np row ev (map (fun p => (fst p, ma_reset (Some c0) (snd p))) ls) in
  all_shaped (2 * l + 1) ls1 /\ exists sys, ts_reduce_into (Some c0) oadd (map snd ls1) ev3 (st_zero l) = Some sys /\
    ((forall i, (i < np)%nat -> ok i) -> ma_data sys = rowval l (q_all q np)) /\ (~ (forall i, (i < np)%nat -> ok i) -> ma_data sys = norow l).
Proof.
  intros H SH EV EV3. cbv zeta. unfold st_accumulate. set (ls0 := map _ ls). assert (P := execution_perm _ _ _ EV).
  rewrite (run_local_ext _ _ (fun i => add_row oadd (map (fun x => odiv x (INR np)) (val i)))).
  2:{ intros i a Hi. apply (Permutation_in _ P) in Hi. unfold range in Hi. apply in_seq in Hi. rewrite (proj1 (H i ltac:(lia))). apply st_local_add. }
  assert (LV : forall i, (i < np)%nat -> length (val i) = (2 * l + 1)%nat).
  { intros i Hi. destruct (H i Hi) as (_ & R1 & R2). destruct (classic (ok i)) as [M|M]; [rewrite R1 by exact M; apply rowval_len|rewrite R2 by exact M; apply norow_len]. }
  destruct (AccumProofs.accumulate (Some c0) oadd oadd_laws (2 * l + 1) (fun i => map (fun x => odiv x (INR np)) (val i)) np ev ev3 ls) as (S1 & sys & E & L & D); [intros i Hi; rewrite map_length; apply LV; exact Hi|assumption|assumption|assumption|].
  split; [exact S1|]. exists sys. split; [exact E|]. split.
  - intros ALL. apply (nth_ext _ _ (Some c0) (Some c0)); [rewrite rowval_len; exact L|]. intros k Hk. rewrite L in Hk. rewrite D, nth_rowval by exact Hk.
    rewrite (tsum_ext_some _ (fun i => cscale (/ INR np) (q i (m_of l k)))).
    2:{ intros i Hi. apply in_seq in Hi. destruct (H i ltac:(lia)) as (_ & R1 & _). rewrite R1 by (apply ALL; lia). rewrite (nth_map_lt _ _ _ None) by (rewrite rowval_len; exact Hk). rewrite nth_rowval by exact Hk. cbn [odiv]. apply c_div_some. apply not_0_INR. lia. }
    unfold q_all. rewrite csuml_scale. reflexivity.
  - intros N. assert (X : exists i, (i < np)%nat /\ ~ ok i) by (apply NNPP; intros X; apply N; intros i Hi; apply NNPP; intros Y; apply X; exists i; auto). destruct X as (i & Hi & NO).
    apply (nth_ext _ _ (Some c0) (Some c0)); [rewrite norow_len; exact L|]. intros k Hk. rewrite L in Hk. rewrite D, nth_norow by exact Hk. apply tsum_none. apply in_map_iff. exists i. split; [|apply in_seq; lia].
    destruct (H i Hi) as (_ & _ & R2). rewrite R2 by exact NO. rewrite (nth_map_lt _ _ _ None) by (rewrite norow_len; exact Hk). rewrite nth_norow by exact Hk. reflexivity.
Qed.
