(** C71: continuous coordination numbers. *)
From Verif Require Import RBase Vec MArrayProofs NListProofs NListProofs2 ParProofs VoronoiProofs VoronoiProps.
From Coq Require Import Reals ZArith List Lra Lia Bool Arith Permutation.
From Verif Require Import CoordModel CoordProofs CoordSpec.
Import ListNotations.
Local Open Scope R_scope.

(** ** One row per query point, from the bonds of that point, whatever the schedule *)
Lemma counts_nth nl i : (i < nl_nq nl)%nat -> nth_error (spec_counts (nl_nq nl) (nl_bonds nl)) i = Some (length (of_point i (nl_bonds nl))).
Proof.
  intros H. rewrite (nth_error_nth' _ 0%nat) by (unfold spec_counts; rewrite map_range_length; exact H). unfold spec_counts. rewrite nth_map_range by exact H. reflexivity.
Qed.
Theorem C71_rows powers clog cexp is2d vols nl ev : nl_inv nl -> length vols = nl_nq nl -> execution 0 (nl_nq nl) ev ->
  exists nl', nl_inv nl' /\ nl_bonds nl' = nl_bonds nl /\
  cc_compute powers clog cexp is2d vols nl ev =
    Some (map (fun i => cc_row powers clog cexp is2d (nth i vols 0) (length (of_point i (nl_bonds nl))) (of_point i (nl_bonds nl))) (range 0 (nl_nq nl)), nl').
Proof.
  intros I Lv Ex. destruct (update_total nl I) as (nl' & U). destruct (update_inv nl nl' I U) as (B & Q & Pn & Up & Sg & Ct).
  exists nl'. assert (I' : nl_inv nl') by (split; [rewrite B, Q, Pn; apply I|intros _; rewrite B, Q; auto]). split; [exact I'|]. split; [exact B|].
  unfold cc_compute, get_counts. rewrite U. cbn [option_map]. rewrite Ct, Q. set (row := fun i => cc_row powers clog cexp is2d (nth i vols 0) (length (of_point i (nl_bonds nl))) (of_point i (nl_bonds nl))).
  assert (W : forall (ev0 : list (nat * nat)) (arr : list (list ext)), (forall e, In e ev0 -> (snd e < nl_nq nl)%nat) -> length arr = nl_nq nl ->
    fold_left (fun arr e => match arr, iterate nl' (snd e), nth_error vols (snd e), nth_error (spec_counts (nl_nq nl) (nl_bonds nl)) (snd e) with
       | Some arr, Some nbs, Some vol, Some n => wr arr (snd e) (cc_row powers clog cexp is2d vol n nbs) | _, _, _, _ => None end) ev0 (Some arr) = Some (fold_left (fun a e => upd a (snd e) (row (snd e))) ev0 arr)).
  { induction ev0 as [|e ev0 IH]; intros arr H La; [reflexivity|]. cbn [fold_left]. assert (He := H e (or_introl eq_refl)).
    rewrite iterate_spec by (rewrite B; apply I). rewrite B, (nth_error_nth' vols 0) by lia. rewrite counts_nth by exact He. rewrite wr_some by lia. apply IH; [intros; apply H; right; assumption|rewrite upd_length; exact La]. }
  assert (R0 : forall e, In e ev -> (snd e < nl_nq nl)%nat).
  { intros e He. apply execution_perm in Ex. assert (X : In (snd e) (range 0 (nl_nq nl))) by (apply (Permutation_in _ Ex), in_map; exact He). unfold range in X. apply in_seq in X. lia. }
  rewrite W by (auto; apply repeat_length). cbn [option_map]. rewrite (par_write row (nl_nq nl)) by (auto; apply repeat_length). reflexivity.
Qed.
(** The documented columns: powers in the given order, then log, then exp. *)
Theorem C71_value powers clog cexp is2d vols nl ev rows nl' i : nl_inv nl -> length vols = nl_nq nl -> execution 0 (nl_nq nl) ev ->
  cc_compute powers clog cexp is2d vols nl ev = Some (rows, nl') -> (i < nl_nq nl)%nat ->
  let own := of_point i (nl_bonds nl) in
  0 < nth i vols 0 -> own <> [] -> (forall b, In b own -> 0 < bw b /\ 0 < bd b) -> (clog = true -> length own <> 1%nat) ->
  length rows = nl_nq nl /\ nth_error rows i = Some (map Fin (cn_all powers clog cexp (fractions is2d (nth i vols 0) own))) /\ length (nth i rows []) = cc_number powers clog cexp.
Proof.
  cbv zeta. intros I Lv Ex Cp Hi V N P L. destruct (C71_rows powers clog cexp is2d vols nl ev I Lv Ex) as (nl2 & _ & _ & E). rewrite E in Cp. injection Cp as <- <-.
  split; [apply map_range_length|]. assert (R0 := cc_row_value powers clog cexp is2d (nth i vols 0) (of_point i (nl_bonds nl)) V N P L).
  rewrite (nth_error_nth' _ []) by (rewrite map_range_length; exact Hi). rewrite nth_map_range by exact Hi. rewrite R0. split; [reflexivity|].
  rewrite map_length. unfold cn_all, cc_number. rewrite !app_length, map_length. destruct clog, cexp; simpl; lia.
Qed.
(** ** Degenerate points *)
(** Without neighbours: NaN for powers below 2, infinity from 2 on, 0 for log and exp. *)
Theorem C71_isolated powers clog cexp is2d vol : cc_row powers clog cexp is2d vol 0 [] =
  map (fun m => if Rltb m 2 then NaN else PInf) powers ++ (if clog then [Fin 0] else []) ++ (if cexp then [Fin 0] else []).
Proof.
  unfold cc_row. cbn [map]. f_equal; [|f_equal].
  - apply map_ext. intros m. unfold esum. cbn [map fold_left INR]. unfold epow. destruct (Reqb_spec (2 - m) 0) as [E|E].
    + simpl. destruct (Reqb_spec 0 0); [|contradiction]. unfold eof_sign. destruct (Rltb_spec 0 1); [|lra]. destruct (Rltb_spec m 2); [lra|reflexivity].
    + destruct (Rltb_spec 0 0); [lra|]. destruct (Rltb_spec 0 (2 - m)); destruct (Rltb_spec m 2); try lra; simpl.
      * destruct (Reqb_spec 0 0); [|contradiction]. unfold eof_sign. destruct (Rltb_spec 0 0); [lra|]. reflexivity.
      * destruct (Rltb_spec 0 0); [lra|reflexivity].
  - destruct clog; [|reflexivity]. simpl. destruct (Rltb_spec 0 0); [lra|]. reflexivity.
Qed.
(** With one neighbour the log number divides by log 1 = 0. *)
Theorem C71_single is2d vol nb : 0 < vol -> 0 < bw nb -> 0 < bd nb ->
  cc_row [] true false is2d vol 1 [nb] = [eof_sign (- ln (pyramid is2d vol (bw nb) (bd nb)))] /\ (pyramid is2d vol (bw nb) (bd nb) = 1 -> cc_row [] true false is2d vol 1 [nb] = [NaN]).
Proof.
  intros V W D. assert (P : 0 < pyramid is2d vol (bw nb) (bd nb)). { unfold pyramid. apply Rdiv_lt_0_compat; [|exact V]. apply Rdiv_lt_0_compat; [apply Rmult_lt_0_compat; lra|destruct is2d; lra]. }
  assert (E : cc_row [] true false is2d vol 1 [nb] = [eof_sign (- ln (pyramid is2d vol (bw nb) (bd nb)))]).
  { unfold cc_row. cbn [map app]. rewrite cc_frac_fin by exact V. unfold esum. cbn [fold_left INR]. rewrite !eln_pos by lra. rewrite ln_1. simpl. destruct (Reqb_spec 0 0); [|contradiction]. rewrite Rplus_0_l. reflexivity. }
  split; [exact E|]. intros F. rewrite E, F, ln_1. unfold eof_sign. destruct (Rltb_spec 0 (- 0)); [lra|]. destruct (Rltb_spec (- 0) 0); [lra|]. reflexivity.
Qed.
(** ** Bounds: the numbers are extremal exactly for equal facets *)
Definition shares (fs : list R) : Prop := fs <> [] /\ (forall f, In f fs -> 0 < f) /\ rsum fs = 1.
Lemma len_pos fs : fs <> [] -> 0 < len fs. Proof. intros N. apply lt_0_INR. destruct fs; [contradiction|simpl; lia]. Qed.
Lemma scaled fs : shares fs -> rsum (map (Rmult (len fs)) fs) = INR (length (map (Rmult (len fs)) fs)).
Proof. intros (N & P & S). assert (X := rsum_scale (len fs) (fun f => f) fs). cbn beta in X. change (map (fun x : R => len fs * x) fs) with (map (Rmult (len fs)) fs) in X. rewrite X, map_id, S, map_length. unfold len. ring. Qed.
Lemma scaled_pos fs : shares fs -> forall x, In x (map (Rmult (len fs)) fs) -> 0 < x.
Proof. intros (N & P & S) x I. apply in_map_iff in I as (f & <- & I). apply Rmult_lt_0_compat; [apply len_pos; exact N|auto]. Qed.
Lemma scaled_one fs : shares fs -> (forall x, In x (map (Rmult (len fs)) fs) -> x = 1) <-> all_equal_share fs.
Proof.
  intros (N & P & S). assert (Q := len_pos fs N). unfold all_equal_share. split.
  - intros H f I. specialize (H (len fs * f) (in_map _ _ _ I)). apply (Rmult_eq_reg_l (len fs)); [|lra]. rewrite H. field. lra.
  - intros H x I. apply in_map_iff in I as (f & <- & I). rewrite (H f I). field. lra.
Qed.
Lemma power_sum m fs : shares fs -> rsum (map (fun x => Rpower x m) (map (Rmult (len fs)) fs)) = Rpower (len fs) m * rsum (map (fun f => Rpower f m) fs).
Proof.
  intros (N & P & S). rewrite map_map, <- (rsum_scale (Rpower (len fs) m)). apply rsum_map_ext. intros f I. symmetry. apply Rpower_mult_distr; [apply len_pos; exact N|auto].
Qed.
Lemma power_form m fs : shares fs -> let s := rsum (map (fun x => Rpower x m) (map (Rmult (len fs)) fs)) in 0 < s /\ cn_power m fs = len fs * len fs / s.
Proof.
  intros Sh. cbv zeta. rewrite (power_sum m fs Sh). destruct Sh as (N & P & S). assert (Q := len_pos fs N).
  assert (A : 0 < rsum (map (fun f => Rpower f m) fs)) by (apply rsum_pos; [exact N|intros; apply exp_pos]). assert (B : 0 < Rpower (len fs) m) by apply exp_pos.
  split; [apply Rmult_lt_0_compat; assumption|]. unfold cn_power. assert (E : Rpower (len fs) (2 - m) = len fs * len fs / Rpower (len fs) m).
  { apply (Rmult_eq_reg_r (Rpower (len fs) m)); [|lra]. rewrite <- Rpower_plus. replace (2 - m + m) with (INR 2) by (simpl; ring). rewrite Rpower_pow by exact Q. field. lra. }
  rewrite E. field. lra.
Qed.
Lemma frac_le n s : 0 < n -> n <= s -> n * n / s <= n. Proof. intros A B. apply (Rmult_le_reg_r s); [lra|]. unfold Rdiv. rewrite Rmult_assoc, Rinv_l by lra. nra. Qed.
Lemma frac_ge n s : 0 < s <= n -> n <= n * n / s. Proof. intros [A B]. apply (Rmult_le_reg_r s); [lra|]. unfold Rdiv. rewrite Rmult_assoc, Rinv_l by lra. nra. Qed.
Lemma frac_eq n s : 0 < n -> 0 < s -> n * n / s = n -> s = n.
Proof. intros A B E. apply (Rmult_eq_reg_l n); [|lra]. replace (n * s) with (n * n / s * s) by (rewrite E; ring). field. lra. Qed.
Theorem C71_power_bounds m fs : shares fs ->
  0 < cn_power m fs /\ ((m <= 0 \/ 1 <= m) -> cn_power m fs <= len fs) /\ (0 <= m <= 1 -> len fs <= cn_power m fs) /\
  (all_equal_share fs -> cn_power m fs = len fs) /\ (m <> 0 -> m <> 1 -> cn_power m fs = len fs -> all_equal_share fs).
Proof.
  intros Sh. assert (Q := len_pos fs (proj1 Sh)). destruct (power_form m fs Sh) as [Ps ->]. set (z := map (Rmult (len fs)) fs) in *. assert (Sz := scaled fs Sh). assert (Pz := scaled_pos fs Sh). assert (Oz := scaled_one fs Sh). fold z in Sz, Pz, Oz.
  assert (Lz : INR (length z) = len fs) by (unfold z; rewrite map_length; reflexivity). rewrite Lz in Sz.
  assert (Up : m <= 0 \/ 1 <= m -> len fs <= rsum (map (fun x => Rpower x m) z) /\ (m <> 0 -> m <> 1 -> rsum (map (fun x => Rpower x m) z) = len fs -> forall x, In x z -> x = 1)).
  { intros M. destruct (sum_tangent (fun x => Rpower x m) m z) as [A B]; [intros; apply pow_tangent_above; auto|rewrite Lz; exact Sz|]. rewrite Lz in *. split; [exact A|]. intros M0 M1 E. apply B; [|exact E]. intros; apply pow_tangent_above; auto. }
  assert (Dn : 0 <= m <= 1 -> rsum (map (fun x => Rpower x m) z) <= len fs /\ (m <> 0 -> m <> 1 -> rsum (map (fun x => Rpower x m) z) = len fs -> forall x, In x z -> x = 1)).
  { intros M. assert (E0 : rsum (map (fun x => 2 - Rpower x m) z) = 2 * len fs - rsum (map (fun x => Rpower x m) z)).
    { rewrite (rsum_map_ext _ (fun x => 2 + (-1) * Rpower x m)) by (intros; ring). rewrite (rsum_plus (fun _ => 2) (fun x => (-1) * Rpower x m)), rsum_const, (rsum_scale (-1) (fun x => Rpower x m)), Lz. ring. }
    destruct (sum_tangent (fun x => 2 - Rpower x m) (- m) z) as [A B]; [intros x I; destruct (pow_tangent_below m x M (Pz x I)); lra|rewrite Lz; exact Sz|]. rewrite Lz, E0 in *. split; [lra|]. intros M0 M1 E. apply B; [|lra]. intros x I X. destruct (pow_tangent_below m x M (Pz x I)) as [_ H]. assert (H' := H ltac:(lra) X). lra. }
  repeat split.
  - apply Rdiv_lt_0_compat; [apply Rmult_lt_0_compat; exact Q|exact Ps].
  - intros M. apply frac_le; [exact Q|apply Up; exact M].
  - intros M. apply frac_ge. split; [exact Ps|apply Dn; exact M].
  - intros E. pose proof (proj2 Oz E) as E1. clear E. rename E1 into E. rewrite (rsum_map_ext _ (fun _ => 1)) by (intros x I; rewrite (E x I); unfold Rpower; rewrite ln_1, Rmult_0_r; apply exp_0). rewrite rsum_const, Lz. field. lra.
  - intros M0 M1 E. apply frac_eq in E; [|exact Q|exact Ps]. apply (proj1 Oz). destruct (Rle_or_lt m 0) as [M|M]; [apply (Up (or_introl M)); auto|]. destruct (Rle_or_lt 1 m) as [M'|M']; [apply (Up (or_intror M')); auto|]. apply Dn; auto. lra.
Qed.
Theorem C71_log_bounds fs : shares fs -> (2 <= length fs)%nat -> len fs <= cn_log fs /\ (cn_log fs = len fs <-> all_equal_share fs).
Proof.
  intros Sh L. assert (Q := len_pos fs (proj1 Sh)). assert (Sz := scaled fs Sh). assert (Pz := scaled_pos fs Sh). assert (Oz := scaled_one fs Sh). set (z := map (Rmult (len fs)) fs) in *.
  assert (Lz : INR (length z) = len fs) by (unfold z; rewrite map_length; reflexivity). rewrite Lz in Sz.
  assert (K : 0 < ln (len fs)). { rewrite <- ln_1. apply ln_increasing; [lra|]. unfold len. apply (lt_INR 1). lia. }
  assert (E0 : rsum (map (fun x => 1 - ln x) z) = len fs - len fs * ln (len fs) - rsum (map ln fs)).
  { unfold z. rewrite map_map. rewrite (rsum_map_ext _ (fun f => (1 - ln (len fs)) + (-1) * ln f)).
    - rewrite (rsum_plus (fun _ => 1 - ln (len fs)) (fun f => (-1) * ln f)), rsum_const, (rsum_scale (-1) ln). unfold len. ring.
    - intros f I. rewrite ln_mult by (auto; apply Sh; exact I). ring. }
  destruct (sum_tangent (fun x => 1 - ln x) (-1) z) as [A B]; [intros x I; destruct (ln_tangent x (Pz x I)); lra|rewrite Lz; exact Sz|]. rewrite Lz, E0 in *.
  assert (F : cn_log fs * ln (len fs) = - rsum (map ln fs)) by (unfold cn_log; field; lra). split.
  - apply (Rmult_le_reg_r (ln (len fs))); [exact K|]. rewrite F. lra.
  - rewrite <- Oz. split.
    + intros E. apply B; [intros x I X; destruct (ln_tangent x (Pz x I)) as [_ H]; specialize (H X); lra|]. rewrite E in F. lra.
    + intros H. apply (Rmult_eq_reg_r (ln (len fs))); [|lra]. rewrite F. rewrite (rsum_map_ext (fun x => 1 - ln x) (fun _ => 1)) in E0 by (intros x I; rewrite (H x I), ln_1; ring). rewrite rsum_const, Lz in E0. lra.
Qed.
Theorem C71_exp_bounds fs : shares fs -> len fs <= cn_exp fs /\ (cn_exp fs = len fs <-> all_equal_share fs).
Proof.
  intros Sh. assert (Q := len_pos fs (proj1 Sh)). assert (Sz := scaled fs Sh). assert (Oz := scaled_one fs Sh). set (z := map (Rmult (len fs)) fs) in *.
  assert (Lz : INR (length z) = len fs) by (unfold z; rewrite map_length; reflexivity). rewrite Lz in Sz.
  assert (E0 : rsum (map (fun x => exp (1 / len fs * (x - 1))) z) = cn_exp fs).
  { unfold z, cn_exp. rewrite map_map. apply rsum_map_ext. intros f I. f_equal. field. lra. }
  destruct (sum_tangent (fun x => exp (1 / len fs * (x - 1))) (1 / len fs) z) as [A B]; [intros x I; apply exp_tangent|rewrite Lz; exact Sz|]. rewrite Lz, E0 in *. split; [exact A|]. rewrite <- Oz. split.
  - intros E. apply B; [|exact E]. intros x I X. apply exp_tangent. intros H. apply Rmult_integral in H as [H|H]; [|lra]. apply (Rmult_eq_compat_r (len fs)) in H. replace (1 / len fs * len fs) with 1 in H by (field; lra). lra.
  - intros H. rewrite <- E0, (rsum_map_ext _ (fun _ => 1)), rsum_const, Lz by (intros x I; rewrite (H x I), Rminus_diag_eq, Rmult_0_r by reflexivity; apply exp_0). ring.
Qed.
(** The power formula printed in the documentation is a different number: for equal facets it gives N^3, not N. *)
Theorem C71_documented_power_refuted m fs : shares fs -> all_equal_share fs -> (2 <= length fs)%nat ->
  cn_power m fs = len fs /\ cn_power_doc m fs = len fs * len fs * len fs /\ cn_power_doc m fs <> cn_power m fs.
Proof.
  intros Sh E L. assert (Q := len_pos fs (proj1 Sh)). assert (A : cn_power m fs = len fs) by (apply C71_power_bounds; assumption).
  assert (T : 2 <= len fs) by (unfold len; apply (le_INR 2); exact L).
  assert (B : cn_power_doc m fs = len fs * len fs * len fs).
  { unfold cn_power_doc. rewrite (rsum_map_ext _ (fun _ => Rpower (len fs) m)).
    - rewrite rsum_const. fold (len fs). replace (Rpower (len fs) (2 - m) * (len fs * Rpower (len fs) m)) with (len fs * (Rpower (len fs) (2 - m) * Rpower (len fs) m)) by ring. rewrite <- Rpower_plus. replace (2 - m + m) with (INR 2) by (simpl; ring). rewrite Rpower_pow by exact Q. simpl. ring.
    - intros f I. rewrite (E f I). unfold Rdiv. rewrite Rmult_1_l. unfold Rpower. rewrite ln_Rinv by exact Q. rewrite <- exp_Ropp. f_equal. ring. }
  split; [exact A|]. split; [exact B|]. rewrite A, B. nra.
Qed.
(** ** Invariances *)
Lemma eadd_comm a b : eadd a b = eadd b a. Proof. destruct a, b; simpl; try reflexivity. f_equal. ring. Qed.
Lemma eadd_assoc a b c : eadd a (eadd b c) = eadd (eadd a b) c. Proof. destruct a, b, c; simpl; try reflexivity. f_equal. ring. Qed.
Lemma esum_perm l l' : Permutation l l' -> esum l = esum l'.
Proof.
  unfold esum. intros P. assert (G : forall l a, fold_left eadd l a = eadd a (fold_left eadd l (Fin 0))).
  { induction l0 as [|x l0 IH]; intros a; cbn [fold_left]; [destruct a; simpl; try reflexivity; f_equal; ring|]. rewrite IH, (IH (eadd (Fin 0) x)). rewrite eadd_assoc. f_equal. destruct a, x; simpl; try reflexivity; f_equal; ring. }
  assert (C : forall x l0, fold_left eadd (x :: l0) (Fin 0) = eadd x (fold_left eadd l0 (Fin 0))) by (intros; cbn [fold_left]; rewrite G; f_equal; destruct x; simpl; try reflexivity; f_equal; ring).
  induction P; [reflexivity| | |congruence].
  - rewrite !C, IHP. reflexivity.
  - rewrite !C, !eadd_assoc. f_equal. apply eadd_comm.
Qed.
(** The order of the neighbours does not matter. *)
Theorem C71_order powers clog cexp is2d vol n nbs nbs' : Permutation nbs nbs' -> cc_row powers clog cexp is2d vol n nbs = cc_row powers clog cexp is2d vol n nbs'.
Proof.
  intros P. unfold cc_row. assert (Q : Permutation (map (cc_frac is2d vol) nbs) (map (cc_frac is2d vol) nbs')) by (apply Permutation_map; exact P). f_equal; [|f_equal].
  - apply map_ext. intros m. f_equal. apply esum_perm, Permutation_map. exact Q.
  - destruct clog; [|reflexivity]. rewrite (esum_perm _ _ (Permutation_map eln Q)). reflexivity.
  - destruct cexp; [|reflexivity]. rewrite (esum_perm _ _ (Permutation_map (fun v => eexp (eadd v (eneg (ediv (Fin 1) (Fin (INR n)))))) Q)). reflexivity.
Qed.
(** Coordination numbers have no unit of length: scaling the whole system changes nothing. *)
Definition scale_bond (is2d : bool) (s : R) (b : bond) : bond := Bond (bq b) (bp b) (s * bd b) ((if is2d then s else s * s) * bw b) (vscale s (bv b)).
Theorem C71_scale powers clog cexp is2d vol n nbs s : 0 < s -> 0 < vol ->
  cc_row powers clog cexp is2d ((if is2d then s * s else s * s * s) * vol) n (map (scale_bond is2d s) nbs) = cc_row powers clog cexp is2d vol n nbs.
Proof.
  intros S V. unfold cc_row. replace (map (cc_frac is2d ((if is2d then s * s else s * s * s) * vol)) (map (scale_bond is2d s) nbs)) with (map (cc_frac is2d vol) nbs); [reflexivity|].
  rewrite map_map. apply map_ext. intros b. rewrite !cc_frac_fin; [|destruct is2d; repeat apply Rmult_lt_0_compat; assumption|exact V]. f_equal. unfold pyramid, scale_bond. simpl. destruct is2d; field; lra.
Qed.
Lemma cn_all_perm powers clog cexp fs fs' : Permutation fs fs' -> cn_all powers clog cexp fs = cn_all powers clog cexp fs'.
Proof.
  intros P. unfold cn_all. assert (L : len fs = len fs') by (unfold len; rewrite (Permutation_length P); reflexivity). f_equal; [|f_equal].
  - apply map_ext. intros m. unfold cn_power. rewrite L, (rsum_perm _ _ (Permutation_map (fun f => Rpower f m) P)). reflexivity.
  - unfold cn_log. rewrite L, (rsum_perm _ _ (Permutation_map ln P)). reflexivity.
  - unfold cn_exp. rewrite L, (rsum_perm _ _ (Permutation_map (fun f => exp (f - 1 / len fs')) P)). reflexivity.
Qed.
(** ** From the system to the numbers *)
(** The facets a tessellation reports: positive measures, at least two per cell, their pyramids fill the cell. *)
Definition facets_ok (is2d : bool) (c : scell) : Prop := pyramids_fill is2d c /\ (2 <= length (cell_bonds is2d c))%nat /\ forall f, In f (sc_faces c) -> kept is2d c f = true -> 0 < f_area f.
Theorem C71_system powers clog cexp b points cells a h ev0 ev r : voro_ok b points cells -> (forall c, In c cells -> facets_ok (b_2d b) c) ->
  execution 0 (bond_count b cells) ev0 -> execution 0 (length points) ev -> cc_system powers clog cexp b points (map encode cells) a h ev0 ev r ->
  exists rows, r = Some (CCDone rows) /\ length rows = length points /\
  forall c, In c cells -> let fs := fractions (b_2d b) (sc_vol c) (cell_bonds (b_2d b) c) in
    shares fs /\ length fs = length (filter (kept (b_2d b) c) (sc_faces c)) /\ nth_error rows (sc_pid c) = Some (map Fin (cn_all powers clog cexp fs)).
Proof.
  intros Ok Fa E0 E1 (h' & v' & Cp & ->). assert (B := C70_bonds _ _ _ _ _ _ _ _ Ok E0 Cp). cbv zeta in B. destruct B as (Hn & Pm & Nq & Np & Vb & Up & _ & _).
  assert (PP := C70_per_point _ _ _ _ _ _ _ _ Ok E0 Cp). assert (Po := C70_polytopes _ _ _ _ _ _ _ _ Ok Cp). destruct Po as (_ & Lv & _ & _ & Po).
  assert (T : vo_2d v' = b_2d b) by (destruct Cp as (? & ? & ? & ? & _ & _ & E); injection E as _ ->; reflexivity).
  assert (A : vo_addr v' = a) by (destruct Cp as (? & ? & ? & ? & _ & _ & E); injection E as _ ->; reflexivity). cbn [vor_new vo_addr] in Hn.
  set (nl := h' (vo_addr v')) in *. assert (I : nl_inv nl) by (split; [rewrite Nq, Np; exact Vb|rewrite Up; discriminate]).
  unfold cc_py. rewrite Hn, T, <- A. fold nl. destruct (C71_rows powers clog cexp (b_2d b) (vo_vol v') nl ev I ltac:(rewrite Nq; exact Lv) ltac:(rewrite Nq; exact E1)) as (nl' & _ & _ & E). rewrite E. cbn [option_map fst].
  eexists. split; [reflexivity|]. split; [rewrite map_range_length; exact Nq|]. intros c Ic. cbv zeta. destruct (Fa c Ic) as ((V & Vs) & L2 & Ar). destruct (Po c Ic) as (p & Ep & Vc & _). destruct (PP c Ic) as (Pc & _).
  assert (Pos : forall x, In x (cell_bonds (b_2d b) c) -> 0 < bw x /\ 0 < bd x).
  { intros x X. split.
    - unfold cell_bonds in X. apply in_map_iff in X as (f & <- & X). apply filter_In in X as [X1 X2]. cbn [face_bond bw]. apply Ar; assumption.
    - destruct (cell_bond_vectors b points cells x Ok) as (? & ? & ? & ? & ? & _ & _ & _ & _ & _ & D); [apply in_flat_map; exists c; auto|exact D]. }
  assert (Ne : cell_bonds (b_2d b) c <> []) by (destruct (cell_bonds (b_2d b) c); [simpl in L2; lia|discriminate]).
  split; [|split].
  - repeat split.
    + unfold fractions. intros H. apply map_eq_nil in H. contradiction.
    + intros f If. unfold fractions in If. apply in_map_iff in If as (x & <- & X). destruct (Pos x X). unfold pyramid. apply Rdiv_lt_0_compat; [|exact V]. apply Rdiv_lt_0_compat; [apply Rmult_lt_0_compat; lra|destruct (b_2d b); lra].
    + unfold fractions, pyramid. rewrite (rsum_map_ext _ (fun x => / sc_vol c * (bw x * (bd x / 2) / (if b_2d b then 2 else 3)))) by (intros; unfold Rdiv; ring). rewrite rsum_scale, <- Vs. apply Rinv_l. lra.
  - unfold fractions, cell_bonds. rewrite !map_length. reflexivity.
  - assert (Hi : (sc_pid c < nl_nq nl)%nat) by (rewrite Nq; apply nth_error_Some; rewrite Ep; discriminate).
    rewrite (nth_error_nth' _ []) by (rewrite map_range_length; exact Hi). rewrite nth_map_range by exact Hi. f_equal. rewrite (C71_order _ _ _ _ _ _ _ _ Pc), (Permutation_length Pc), Vc. apply cc_row_value; auto. intros _ H. lia.
Qed.
(** ** Arguments *)
Theorem C71_arguments powers clog cexp have v h ev :
  cc_py powers clog cexp false None h ev = Some CCValueError /\
  (cc_py powers clog cexp have (Some v) h ev = Some CCRuntimeError <-> vo_computed v = false) /\ (* the system is ignored *)
  cc_py powers clog cexp true (Some v) h ev = cc_py powers clog cexp false (Some v) h ev /\ cc_powers None = [2] /\
  cc_number powers clog cexp = (length powers + (if clog then 1 else 0) + (if cexp then 1 else 0))%nat.
Proof.
  repeat split.
  - unfold cc_py, vor_nlist. destruct (vo_computed v); [|reflexivity]. intros H. destruct (cc_compute _ _ _ _ _ _ _); discriminate.
  - unfold cc_py, vor_nlist. intros ->. reflexivity.
Qed.
(** The unit cube and the unit square. *)
Example C71_ex is2d : voro_ok (ex_box is2d) [v0] [ex_cell] /\ facets_ok is2d ex_cell /\ all_equal_share (fractions is2d (sc_vol ex_cell) (cell_bonds is2d ex_cell)) /\
  len (fractions is2d (sc_vol ex_cell) (cell_bonds is2d ex_cell)) = (if is2d then 4 else 6).
Proof.
  split; [apply ex_ok|]. assert (C : length (cell_bonds is2d ex_cell) = (if is2d then 4 else 6)%nat).
  { destruct ex_count as [C3 C2]. unfold bond_count in *. simpl flat_map in *. rewrite app_nil_r in *. destruct is2d; assumption. }
  assert (F : forall x, In x (cell_bonds is2d ex_cell) -> bw x = 1 /\ bd x = 1).
  { intros x X. unfold cell_bonds in X. apply in_map_iff in X as (f & <- & X). apply filter_In in X as [X _]. cbn [sc_faces ex_cell] in X.
    assert (G : forall i j k vs, i * i + j * j + k * k = 1 -> bw (face_bond ex_cell (ex_face (V3 i j k) vs)) = 1 /\ bd (face_bond ex_cell (ex_face (V3 i j k) vs)) = 1).
    { intros i j k vs N. split; [reflexivity|]. unfold face_bond, norm. simpl. rewrite <- sqrt_1. f_equal. unfold dot; simpl. lra. }
    repeat (destruct X as [<-|X]; [apply G; lra|]). destruct X. }
  assert (Fr : forall x, In x (fractions is2d (sc_vol ex_cell) (cell_bonds is2d ex_cell)) -> x = 1 / (if is2d then 4 else 6)).
  { intros x X. unfold fractions in X. apply in_map_iff in X as (y & <- & X). destruct (F y X) as [-> ->]. unfold pyramid. simpl. destruct is2d; field. }
  assert (L : len (fractions is2d (sc_vol ex_cell) (cell_bonds is2d ex_cell)) = (if is2d then 4 else 6)) by (unfold len, fractions; rewrite map_length, C; destruct is2d; simpl; ring).
  repeat split.
  - simpl. lra.
  - rewrite (rsum_map_ext _ (fun _ => 1 / (if is2d then 4 else 6))) by (intros x X; destruct (F x X) as [-> ->]; destruct is2d; field). rewrite rsum_const, C. simpl. destruct is2d; simpl; field.
  - rewrite C. destruct is2d; lia.
  - intros f I _. simpl in I. repeat (destruct I as [<-|I]; [simpl; lra|]). destruct I.
  - intros x X. rewrite L. apply Fr. exact X.
  - exact L.
Qed.
Print Assumptions C71_system.
