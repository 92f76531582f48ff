(** Tangent inequalities and the extended arithmetic. *)
From Verif Require Import RBase Vec.
From Coq Require Import Reals ZArith List Lra Lia Bool Arith Permutation.
From Verif Require Import CoordModel CoordSpec.
Import ListNotations.
Local Open Scope R_scope.

(** ** Tangents of powers, logarithm and exponential *)
Lemma ln_tangent x : 0 < x -> ln x <= x - 1 /\ (x <> 1 -> ln x < x - 1).
Proof.
  intros P. assert (S : x <> 1 -> ln x < x - 1).
  { intros N. assert (L : ln x <> 0) by (intros E; apply N; rewrite <- (exp_ln x P), E; apply exp_0). assert (H := exp_ineq1 (ln x) L). rewrite exp_ln in H by exact P. lra. }
  split; [|exact S]. destruct (Req_dec x 1) as [->|N]; [rewrite ln_1; lra|]. specialize (S N). lra.
Qed.
Lemma exp_tangent x : 1 + x <= exp x /\ (x <> 0 -> 1 + x < exp x).
Proof. split; [apply exp_ineq1_le|intros; apply exp_ineq1; assumption]. Qed.
Lemma ln_concave t y : 0 <= t <= 1 -> 0 < y -> t * ln y <= ln (1 + t * (y - 1)) /\ (0 < t < 1 -> y <> 1 -> t * ln y < ln (1 + t * (y - 1))).
Proof.
  intros T P. set (A := 1 + t * (y - 1)). assert (PA : 0 < A) by (unfold A; nra).
  assert (L1 : ln (y / A) = ln y - ln A) by (unfold Rdiv; rewrite ln_mult, ln_Rinv by (auto; apply Rinv_0_lt_compat; auto); ring).
  assert (L2 : ln (1 / A) = - ln A) by (unfold Rdiv; rewrite Rmult_1_l, ln_Rinv by auto; ring).
  assert (Q1 : 0 < y / A) by (apply Rdiv_lt_0_compat; auto). assert (Q2 : 0 < 1 / A) by (apply Rdiv_lt_0_compat; lra).
  assert (E : t * (y / A - 1) + (1 - t) * (1 / A - 1) = 0) by (unfold A in *; field; lra).
  destruct (ln_tangent _ Q1) as [T1 S1]. destruct (ln_tangent _ Q2) as [T2 S2]. rewrite L1 in T1, S1. rewrite L2 in T2, S2.
  split.
  - assert (U1 : t * (ln y - ln A) <= t * (y / A - 1)) by (apply Rmult_le_compat_l; lra). assert (U2 : (1 - t) * (- ln A) <= (1 - t) * (1 / A - 1)) by (apply Rmult_le_compat_l; lra). lra.
  - intros T' N. assert (NA : 1 / A <> 1). { intros H. assert (A = 1) by (replace A with (1 / (1 / A)) by (field; lra); rewrite H; field). unfold A in H0. assert (t * (y - 1) = 0) by lra. apply Rmult_integral in H1. lra. }
    assert (U1 : t * (ln y - ln A) <= t * (y / A - 1)) by (apply Rmult_le_compat_l; lra). assert (U2 : (1 - t) * (- ln A) < (1 - t) * (1 / A - 1)) by (apply Rmult_lt_compat_l; [lra|apply S2; exact NA]). lra.
Qed.
Lemma pow_tangent_below m x : 0 <= m <= 1 -> 0 < x -> Rpower x m <= 1 + m * (x - 1) /\ (0 < m < 1 -> x <> 1 -> Rpower x m < 1 + m * (x - 1)).
Proof.
  intros M P. assert (PA : 0 < 1 + m * (x - 1)) by nra. destruct (ln_concave m x M P) as [A B]. unfold Rpower. rewrite <- (exp_ln (1 + m * (x - 1))) by exact PA. split.
  - destruct A as [A|A]; [left; apply exp_increasing; exact A|right; rewrite A; reflexivity].
  - intros; apply exp_increasing; auto.
Qed.
Lemma pow_tangent_above m x : m <= 0 \/ 1 <= m -> 0 < x -> 1 + m * (x - 1) <= Rpower x m /\ (m <> 0 -> m <> 1 -> x <> 1 -> 1 + m * (x - 1) < Rpower x m).
Proof.
  intros [M|M] P.
  - destruct (ln_tangent x P) as [A B]. destruct (exp_tangent (m * ln x)) as [C D]. unfold Rpower. split; [nra|]. intros N _ X. specialize (B X). nra.
  - assert (Y : 0 < Rpower x m) by apply exp_pos. assert (T : 0 <= 1 / m <= 1). { split; [apply Rlt_le, Rdiv_lt_0_compat; lra|]. apply (Rmult_le_reg_l m); [lra|]. unfold Rdiv. rewrite Rmult_1_l, Rinv_r by lra. lra. }
    destruct (pow_tangent_below (1 / m) (Rpower x m) T Y) as [A B].
    assert (E : Rpower (Rpower x m) (1 / m) = x) by (rewrite Rpower_mult; replace (m * (1 / m)) with 1 by (field; lra); apply Rpower_1; exact P). rewrite E in A, B.
    assert (K : m * (1 + 1 / m * (Rpower x m - 1)) = m + (Rpower x m - 1)) by (field; lra). split.
    + apply (Rmult_le_compat_l m) in A; [|lra]. lra.
    + intros _ M1 X. assert (T' : 0 < 1 / m < 1). { split; [apply Rdiv_lt_0_compat; lra|]. apply (Rmult_lt_reg_l m); [lra|]. unfold Rdiv. rewrite Rmult_1_l, Rinv_r by lra. lra. }
      assert (X' : Rpower x m <> 1). { intros H. apply X. rewrite <- E, H. unfold Rpower. rewrite ln_1, Rmult_0_r. apply exp_0. }
      specialize (B T' X'). apply (Rmult_lt_compat_l m) in B; lra.
Qed.

(** ** Sums *)
Lemma rsum_map_ext {A} (f g : A -> R) l : (forall x, In x l -> f x = g x) -> rsum (map f l) = rsum (map g l).
Proof. induction l as [|x l IH]; intros H; simpl; [reflexivity|]. rewrite (H x), IH; auto; [intros; apply H; right; assumption|left; reflexivity]. Qed.
Lemma rsum_scale {A} (c : R) (f : A -> R) l : rsum (map (fun x => c * f x) l) = c * rsum (map f l).
Proof. induction l as [|x l IH]; simpl; [ring|]. rewrite IH. ring. Qed.
Lemma rsum_plus {A} (f g : A -> R) l : rsum (map (fun x => f x + g x) l) = rsum (map f l) + rsum (map g l).
Proof. induction l as [|x l IH]; simpl; [ring|]. rewrite IH. ring. Qed.
Lemma rsum_const {A} (c : R) (l : list A) : rsum (map (fun _ => c) l) = INR (length l) * c.
Proof. induction l as [|x l IH]; [simpl; ring|]. transitivity (c + rsum (map (fun _ : A => c) l)); [reflexivity|]. cbn [length]. rewrite IH, S_INR. ring. Qed.
Lemma rsum_pos {A} (f : A -> R) l : l <> [] -> (forall x, In x l -> 0 < f x) -> 0 < rsum (map f l).
Proof.
  destruct l as [|x l]; [contradiction|]. intros _ H. simpl. assert (0 <= rsum (map f l)). { assert (H' : forall y, In y l -> 0 < f y) by (intros; apply H; right; assumption). clear H. induction l as [|y l IH]; simpl; [lra|]. assert (0 < f y) by (apply H'; left; reflexivity). assert (0 <= rsum (map f l)) by (apply IH; intros; apply H'; right; assumption). unfold rsum in *. lra. }
  assert (0 < f x) by (apply H; left; reflexivity). unfold rsum in *. lra.
Qed.
(** A function above a line through (1,1), summed over numbers of mean 1. *)
Lemma sum_tangent (g : R -> R) k (fs : list R) : (forall x, In x fs -> 1 + k * (x - 1) <= g x) -> rsum fs = INR (length fs) ->
  INR (length fs) <= rsum (map g fs) /\ ((forall x, In x fs -> x <> 1 -> 1 + k * (x - 1) < g x) -> rsum (map g fs) = INR (length fs) -> forall x, In x fs -> x = 1).
Proof.
  intros T S. assert (L : rsum (map (fun x => 1 + k * (x - 1)) fs) = INR (length fs)).
  { rewrite (rsum_map_ext _ (fun x => (1 - k) + k * x)) by (intros; ring). rewrite rsum_plus, rsum_const, rsum_scale. replace (rsum (map (fun x => x) fs)) with (INR (length fs)) by (rewrite map_id; auto). ring. }
  assert (G : forall l, (forall x, In x l -> In x fs) -> 0 <= rsum (map (fun x => g x - (1 + k * (x - 1))) l)).
  { induction l as [|x l IH]; intros H; simpl; [lra|]. assert (A := T x (H x (or_introl eq_refl))). assert (B := IH (fun y Y => H y (or_intror Y))). unfold rsum in *. lra. }
  assert (D : rsum (map g fs) - INR (length fs) = rsum (map (fun x => g x - (1 + k * (x - 1))) fs)).
  { rewrite <- L. rewrite (rsum_map_ext (fun x => g x - (1 + k * (x - 1))) (fun x => g x + (-1) * (1 + k * (x - 1)))) by (intros; ring). rewrite (rsum_plus g (fun x => (-1) * (1 + k * (x - 1)))), (rsum_scale (-1) (fun x => 1 + k * (x - 1))). ring. }
  split; [assert (H := G fs (fun x H => H)); lra|]. intros St E. rewrite E in D.
  assert (Z : forall l, (forall x, In x l -> In x fs) -> rsum (map (fun x => g x - (1 + k * (x - 1))) l) = 0 -> forall x, In x l -> x = 1).
  { induction l as [|y l IH]; intros H Z0 x I; [destruct I|]. simpl in Z0. assert (A := T y (H y (or_introl eq_refl))). assert (B := G l (fun y Y => H y (or_intror Y))). unfold rsum in *.
    destruct I as [<-|I]; [|apply IH; auto; [intros; apply H; right; assumption|lra]]. destruct (Req_dec y 1) as [|N]; [assumption|]. assert (C := St y (H y (or_introl eq_refl)) N). lra. }
  apply Z; auto. lra.
Qed.
(** ** Extended arithmetic on finite values *)
Lemma esum_fin l : forall a, fold_left eadd (map Fin l) (Fin a) = Fin (a + rsum l).
Proof. induction l as [|x l IH]; intros a; simpl; [f_equal; ring|]. rewrite IH. f_equal. unfold rsum. ring. Qed.
Lemma esum_map {A} (f : A -> ext) (g : A -> R) l : (forall x, In x l -> f x = Fin (g x)) -> esum (map f l) = Fin (rsum (map g l)).
Proof.
  intros H. unfold esum. replace (map f l) with (map Fin (map g l)); [rewrite esum_fin; f_equal; ring|]. rewrite map_map. apply map_ext_in. intros; symmetry; apply H; assumption.
Qed.
Lemma epow_pos x m : 0 < x -> epow (Fin x) m = Fin (Rpower x m).
Proof.
  intros P. unfold epow. destruct (Reqb_spec m 0) as [->|N]; [rewrite Rpower_O by exact P; reflexivity|]. destruct (Rltb_spec 0 x); [reflexivity|lra].
Qed.
Lemma eln_pos x : 0 < x -> eln (Fin x) = Fin (ln x). Proof. intros P. simpl. destruct (Rltb_spec 0 x); [reflexivity|lra]. Qed.
Lemma ediv_fin x y : y <> 0 -> ediv (Fin x) (Fin y) = Fin (x / y). Proof. intros P. simpl. destruct (Reqb_spec y 0); [contradiction|reflexivity]. Qed.
Lemma cc_frac_fin is2d vol nb : 0 < vol -> cc_frac is2d vol nb = Fin (pyramid is2d vol (bw nb) (bd nb)).
Proof.
  intros P. unfold cc_frac, pyramid. rewrite ediv_fin by (destruct is2d; lra). simpl. f_equal. destruct is2d; field; lra.
Qed.
(** One row. *)
Definition row_log_ok (clog : bool) (n : nat) : Prop := clog = true -> n <> 1%nat.
Lemma cc_row_value powers clog cexp is2d vol nbs : 0 < vol -> nbs <> [] -> (forall b, In b nbs -> 0 < bw b /\ 0 < bd b) -> row_log_ok clog (length nbs) ->
  cc_row powers clog cexp is2d vol (length nbs) nbs = map Fin (cn_all powers clog cexp (fractions is2d vol nbs)).
Proof.
  intros V N P L. unfold cc_row, cn_all. set (fs := fractions is2d vol nbs). assert (Lf : length fs = length nbs) by (unfold fs, fractions; apply map_length).
  assert (F : map (cc_frac is2d vol) nbs = map Fin fs) by (unfold fs, fractions; rewrite map_map; apply map_ext; intros; apply cc_frac_fin; exact V). rewrite F.
  assert (Pf : forall f, In f fs -> 0 < f).
  { intros f I. unfold fs, fractions in I. apply in_map_iff in I as (b & <- & I). destruct (P b I) as [W D]. unfold pyramid. apply Rdiv_lt_0_compat; [|exact V]. apply Rdiv_lt_0_compat; [apply Rmult_lt_0_compat; lra|destruct is2d; lra]. }
  assert (Nf : fs <> []) by (intros E; apply N; apply length_zero_iff_nil; rewrite <- Lf, E; reflexivity).
  assert (Pn : 0 < INR (length nbs)) by (apply lt_0_INR; destruct nbs; [contradiction|simpl; lia]). rewrite !map_app. f_equal; [rewrite map_map|f_equal].
  - apply map_ext. intros m. rewrite map_map, (esum_map _ (fun f => Rpower f m)) by (intros; apply epow_pos; auto). rewrite epow_pos by exact Pn.
    assert (0 < rsum (map (fun f => Rpower f m) fs)) by (apply rsum_pos; [exact Nf|intros; apply exp_pos]). rewrite ediv_fin by lra. unfold cn_power, len. rewrite Lf. reflexivity.
  - destruct clog; [|reflexivity]. cbn [map]. f_equal. rewrite map_map, (esum_map _ ln) by (intros; apply eln_pos; auto). cbn [eneg]. rewrite eln_pos by exact Pn.
    assert (1 < INR (length nbs)). { specialize (L eq_refl). apply (lt_INR 1). destruct nbs as [|? [|? ?]]; simpl in *; [contradiction|congruence|lia]. }
    assert (0 < ln (INR (length nbs))) by (rewrite <- ln_1; apply ln_increasing; lra). rewrite ediv_fin by lra. f_equal. unfold cn_log, len. rewrite Lf. field. lra.
  - destruct cexp; [|reflexivity]. cbn [map]. f_equal. rewrite ediv_fin by lra. cbn [eneg]. rewrite map_map, (esum_map _ (fun f => exp (f - 1 / INR (length nbs)))) by (intros; reflexivity). unfold cn_exp, len. rewrite Lf. reflexivity.
Qed.
