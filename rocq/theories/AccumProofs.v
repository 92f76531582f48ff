(** Rows added to thread-local arrays and reduced: the result is the sum of the rows, whatever the earlier contents and the schedule. *)
From Verif Require Import HistSpec ParProofs MArrayProofs HistProofs HistProofs2 HistProps MatchEnvProofs.
From Coq Require Import Permutation ZArith List Lia.
Import ListNotations.

Section accum.
Context {T : Type} (zero : T) (op : T -> T -> T) (LW : sum_laws zero op) (n : nat).
Definition add_row (row : list T) (a : marray T) : marray T := MArray (ma_shape a) (ma_size a) (map (fun p => op (fst p) (snd p)) (combine (ma_data a) row)).
Definition zarr : marray T := ma_make zero [Z.of_nat n].
Definition shaped (a : marray T) : Prop := well_formed a /\ ma_shape a = [Z.of_nat n].
Definition tsum (l : list T) : T := fold_right op zero l.
Lemma fold_tsum l : sum_of zero op l = tsum l.
Proof.
  destruct LW as (A & C & U). assert (G : forall l x, fold_left op l x = op x (tsum l)).
  { clear l. induction l as [|y l IH]; intros x; cbn [fold_left tsum fold_right]; [rewrite C, U; reflexivity|]. rewrite IH, A. reflexivity. }
  unfold sum_of. rewrite G, U. reflexivity.
Qed.
Lemma tsum_perm l l' : Permutation l l' -> tsum l = tsum l'.
Proof. destruct LW as (A & C & U). induction 1; simpl; auto; [congruence| |congruence]. rewrite !A, (C y x). reflexivity. Qed.
Lemma shaped_size a : shaped a -> ma_size a = Z.of_nat n.
Proof. intros ((_ & S & _) & H). rewrite S, H. unfold size_of; simpl. lia. Qed.
Lemma shaped_len a : shaped a -> length (ma_data a) = n.
Proof. intros H. assert (S := shaped_size a H). destruct H as ((_ & _ & L) & _). rewrite L, S. lia. Qed.
Lemma zarr_ok : shaped zarr.
Proof. split; [apply ma_make_wf; repeat constructor; lia|reflexivity]. Qed.
Lemma add_row_ok r a : length r = n -> shaped a -> shaped (add_row r a) /\ forall k, (k < n)%nat -> nth k (ma_data (add_row r a)) zero = op (nth k (ma_data a) zero) (nth k r zero).
Proof.
  intros R H. assert (L := shaped_len a H). destruct H as ((V & S & L') & E). split.
  - split; [|exact E]. split; [exact V|]. split; [exact S|]. unfold add_row; simpl. rewrite map_length, combine_length, R. lia.
  - intros k Hk. unfold add_row; simpl. rewrite (nth_map_lt _ _ _ (zero, zero)) by (rewrite combine_length, R; lia). rewrite combine_nth by lia. reflexivity.
Qed.
Definition entry (k : nat) (ls : locals (marray T)) : T := tsum (map (fun e => nth k (ma_data (snd e)) zero) ls).
Definition all_shaped (ls : locals (marray T)) : Prop := Forall (fun e => shaped (snd e)) ls.
Lemma update_row r t ls : length r = n -> all_shaped ls -> all_shaped (local_update zarr (add_row r) t ls) /\
  forall k, (k < n)%nat -> entry k (local_update zarr (add_row r) t ls) = op (entry k ls) (nth k r zero).
Proof.
  intros R. destruct LW as (A & C & U). induction ls as [|[t' a] ls IH]; intros F; cbn [local_update].
  - destruct (add_row_ok r zarr R zarr_ok) as [G N]. split; [apply Forall_cons; [exact G|apply Forall_nil]|].
    intros k Hk. unfold entry. cbn [map snd tsum fold_right]. rewrite N by exact Hk. unfold zarr; cbn [ma_make ma_data]. rewrite nth_repeat. rewrite !U, (C _ zero), !U. reflexivity.
  - apply Forall_cons_iff in F as [Ha F]. destruct (Nat.eqb t t').
    + destruct (add_row_ok r a R Ha) as [G N]. split; [constructor; [exact G|exact F]|]. intros k Hk. unfold entry. cbn [map snd tsum fold_right]. rewrite N by exact Hk. rewrite <- !A. f_equal. apply C.
    + destruct (IH F) as [G N]. split; [constructor; [exact Ha|exact G]|]. intros k Hk. specialize (N k Hk). unfold entry in *. cbn [map snd tsum fold_right]. unfold tsum in N. rewrite N, A. reflexivity.
Qed.
Lemma run_rows row ev : (forall i, In i (map snd ev) -> length (row i) = n) -> forall ls, all_shaped ls -> all_shaped (run_local zarr (fun i => add_row (row i)) ev ls) /\
  forall k, (k < n)%nat -> entry k (run_local zarr (fun i => add_row (row i)) ev ls) = op (entry k ls) (tsum (map (fun i => nth k (row i) zero) (map snd ev))).
Proof.
  destruct LW as (A & C & U). induction ev as [|e ev IH]; intros R ls F.
  - split; [exact F|]. intros k _. simpl. rewrite C, U. reflexivity.
  - cbn [run_local fold_left]. destruct (update_row (row (snd e)) (fst e) ls (R _ (or_introl eq_refl)) F) as [G N]. destruct (IH (fun i Hi => R i (or_intror Hi)) _ G) as [G2 N2]. split; [exact G2|].
    intros k Hk. etransitivity; [exact (N2 k Hk)|]. rewrite N by exact Hk. cbn [map tsum fold_right]. rewrite A. reflexivity.
Qed.
Lemma reset_rows ls : all_shaped ls -> all_shaped (map (fun p => (fst p, ma_reset zero (snd p))) ls) /\ forall k, entry k (map (fun p => (fst p, ma_reset zero (snd p))) ls) = zero.
Proof.
  intros F. destruct LW as (A & C & U). split.
  - apply Forall_forall. intros e He. apply in_map_iff in He as ([t a] & <- & He). unfold all_shaped in F. rewrite Forall_forall in F. destruct (F _ He) as [W S]. simpl in *. split; [apply ma_reset_wf; exact W|exact S].
  - intros k. unfold entry. rewrite map_map. cbn [snd]. induction ls as [|[t a] ls IH]; [reflexivity|]. apply Forall_cons_iff in F as [_ F]. cbn [map tsum fold_right snd].
    rewrite ma_reset_nth. unfold tsum in IH. rewrite IH by exact F. apply U.
Qed.
Lemma accumulate row N ev ev3 ls : (forall i, (i < N)%nat -> length (row i) = n) -> all_shaped ls -> execution 0 N ev -> execution 0 n ev3 ->
  let ls1 := run_local zarr (fun i => add_row (row i)) ev (map (fun p => (fst p, ma_reset zero (snd p))) ls) in
  all_shaped ls1 /\ exists r, ts_reduce_into zero op (map snd ls1) ev3 zarr = Some r /\ length (ma_data r) = n /\
    forall k, (k < n)%nat -> nth k (ma_data r) zero = tsum (map (fun i => nth k (row i) zero) (seq 0 N)).
Proof.
  intros R F EV EV3. cbv zeta. destruct (reset_rows _ F) as [F0 Z0]. set (ls0 := map _ ls) in *. apply execution_perm in EV.
  assert (R' : forall i, In i (map snd ev) -> length (row i) = n) by (intros i Hi; apply R; apply (Permutation_in _ EV) in Hi; unfold range in Hi; apply in_seq in Hi; lia).
  destruct (run_rows row ev R' ls0 F0) as [F1 N1]. split; [exact F1|]. set (ls1 := run_local _ _ ev ls0) in *.
  assert (Sz : ma_size zarr = Z.of_nat n) by (apply shaped_size, zarr_ok).
  destruct (ts_reduce_spec zero op LW (map snd ls1) ev3 zarr (proj1 zarr_ok)) as (r & E & Wr & Sr & Dr).
  { apply Forall_forall. intros a Ha. apply in_map_iff in Ha as (e & <- & He). unfold all_shaped in F1. rewrite Forall_forall in F1. specialize (F1 e He). split; [exact (proj1 F1)|]. rewrite (shaped_size _ F1), Sz. reflexivity. }
  { rewrite Sz, Nat2Z.id. exact EV3. }
  exists r. split; [exact E|]. assert (SH : shaped r) by (split; [exact Wr|rewrite Sr; reflexivity]). split; [apply shaped_len; exact SH|]. destruct LW as (A & C & U).
  intros k Hk. rewrite Dr by (rewrite Sz, Nat2Z.id; exact Hk).
  transitivity (entry k ls1).
  - destruct ls1 as [|e l] eqn:EL; [reflexivity|]. cbn [map]. rewrite fold_tsum. unfold zarr; cbn [ma_make ma_data]. rewrite nth_repeat, U. unfold entry. cbn [map]. rewrite map_map. reflexivity.
  - rewrite N1, Z0, U by exact Hk. apply tsum_perm. apply Permutation_map. unfold range in EV. rewrite Nat.sub_0_r in EV. exact EV.
Qed.
End accum.
