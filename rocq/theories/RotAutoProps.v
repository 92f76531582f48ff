(** C69: rotational autocorrelation. *)
From Verif Require Import RBase Vec MatchEnvProofs ParProofs LocalDescProps HexProps.
From Coq Require Import Reals ZArith List Lra Lia Bool Arith Permutation.
From Verif Require Import RotAutoModel RotAutoProofs RotAutoProofs2 CplxSum RotAutoSpec.
Import ListNotations.
Local Open Scope R_scope.
Add Ring cplx_ring_inst : cplx_ring.

(** ** Arguments *)
Theorem C69_accept z l : ra_make z = Some l <-> (0 <= z /\ Z.Even z)%Z /\ l = Z.to_nat z.
Proof.
  unfold ra_make. destruct (Z.eqb_spec (z mod 2) 0) as [E|E]; destruct (Z.ltb_spec z 0) as [L|L]; cbn [negb orb]; (split; [intros H; try discriminate|intros [[H1 H2] H3]; try lia]).
  - injection H as <-. repeat split; auto. exists (z / 2)%Z. rewrite (Z.div_mod z 2) at 1 by lia. lia.
  - subst l. reflexivity.
  - exfalso. destruct H2 as [k ->]. rewrite Z.mul_comm, Z.mod_mul in E by lia. lia.
Qed.
(** "Must be a positive, even integer": zero is accepted. *)
Theorem C69_positive_refuted : ra_make 0 = Some 0%nat. Proof. reflexivity. Qed.
Theorem C69_reject l refs qs ev : ra_compute l refs qs ev = RARaised <-> length refs <> length qs.
Proof. unfold ra_compute. destruct (Nat.eqb_spec (length refs) (length qs)); cbn [negb]; split; intros; try discriminate; auto; contradiction. Qed.
(** No index leaves its array and no unsigned difference wraps. *)
Theorem C69_in_range l a b k : (a <= l)%nat -> (b <= l)%nat -> In k (seq (ra_first l a b) (S (min a b) - ra_first l a b)) ->
  (k <= a /\ k <= b /\ a + b <= l + k /\ length (ra_table l) = S l /\ k <= l /\ l + k - a - b <= l /\ length (ra_units (ra_table l) l) = length (ra_pairs l))%nat.
Proof.
  intros Ha Hb Hk. apply in_seq in Hk. unfold ra_first in Hk. repeat split.
  1,2,5,6: destruct (Nat.ltb_spec (a + b) l); lia.
  - destruct (Nat.ltb_spec (a + b) l); lia.
  - unfold ra_table. rewrite map_length, seq_length. reflexivity.
  - unfold ra_units. apply map_length.
Qed.

(** ** Values *)
Lemma sq4 a b c d : 0 <= a * a + b * b + c * c + d * d.
Proof. assert (A := Rle_0_sqr a). assert (B := Rle_0_sqr b). assert (C := Rle_0_sqr c). assert (D := Rle_0_sqr d). unfold Rsqr in *. lra. Qed.
Lemma sq4_0 a b c d : a * a + b * b + c * c + d * d = 0 -> a = 0 /\ b = 0 /\ c = 0 /\ d = 0.
Proof. intros H. assert (A := Rle_0_sqr a). assert (B := Rle_0_sqr b). assert (C := Rle_0_sqr c). assert (D := Rle_0_sqr d). unfold Rsqr in *. repeat split; apply Rsqr_0_uniq; unfold Rsqr; lra. Qed.
Lemma qdot_bound a b : unitq a -> unitq b -> -1 <= qdot a b <= 1.
Proof.
  unfold unitq, qnorm2, qdot, dot. destruct a as [s [x y z]], b as [s' [x' y' z']]; simpl. intros A B.
  assert (P := sq4 (s - s') (x - x') (y - y') (z - z')). assert (Q := sq4 (s + s') (x + x') (y + y') (z + z')). lra.
Qed.
Definition corr (l : nat) (ref q : quat) : R := cheb (qdot ref q) 1 l / INR (l + 1).
Lemma corr_value l ref q : (l <= 8)%nat -> unitq ref -> unitq q -> ra_value l ref q = Some (corr l ref q, 0).
Proof. intros H A B. rewrite ra_exact by exact H. unfold unitq in *. rewrite A, B, Rmult_1_r. reflexivity. Qed.
Lemma l1_pos l : 0 < INR (l + 1). Proof. apply lt_0_INR. lia. Qed.
Lemma INR_l1 l : INR (S l) = INR (l + 1). Proof. f_equal. lia. Qed.
Lemma corr_character l ref q t : Nat.even l = true -> cos t = qdot ref q -> character l t (corr l ref q).
Proof.
  intros E H. unfold corr. rewrite <- H. assert (P := l1_pos l). split; intros S0.
  - assert (C : cos t = 1 \/ cos t = -1) by (assert (Q := sin2_cos2 t); unfold Rsqr in Q; rewrite S0 in Q; assert (Z : (cos t - 1) * (cos t + 1) = 0) by lra; apply Rmult_integral in Z as [Z|Z]; [left|right]; lra).
    destruct C as [-> | ->]; [|replace (cheb (-1) 1 l) with (cheb (- (1)) 1 l) by (f_equal; lra); rewrite cheb_neg, even_pow by exact E]; rewrite cheb_one, INR_l1; field; lra.
  - rewrite <- cheb_sin, INR_l1. field. split; lra.
Qed.
Lemma corr_bound l ref q : Nat.even l = true -> unitq ref -> unitq q -> -1 <= corr l ref q <= 1 /\ ((2 <= l)%nat -> corr l ref q = 1 -> q = ref \/ q = qneg ref) /\ (q = ref \/ q = qneg ref -> corr l ref q = 1).
Proof.
  intros E A B. assert (D := qdot_bound _ _ A B). set (t := acos (qdot ref q)). assert (T : cos t = qdot ref q) by (apply cos_acos; lra). assert (C := corr_character l ref q t E T). destruct C as [C0 C1]. assert (P := l1_pos l).
  assert (Q : forall q0, q0 = ref \/ q0 = qneg ref -> qdot ref q0 = 1 \/ qdot ref q0 = -1).
  { clear - A. unfold unitq, qnorm2, qdot, dot, qneg, qscale, vscale in *. destruct ref as [s [x y z]]; simpl in *. intros q0 [->| ->]; simpl; [left|right]; lra. }
  destruct (Req_dec (sin t) 0) as [S0|S0].
  - rewrite (C0 S0). split; [lra|]. split; [|auto]. intros _ _. assert (X : qdot ref q = 1 \/ qdot ref q = -1). { rewrite <- T. assert (W := sin2_cos2 t). unfold Rsqr in W. rewrite S0 in W. assert (Z : (cos t - 1) * (cos t + 1) = 0) by lra. apply Rmult_integral in Z as [Z|Z]; [left|right]; lra. }
    clear - A B X. unfold unitq, qnorm2, qdot, dot, qneg, qscale, vscale in *. destruct ref as [s [x y z]], q as [s' [x' y' z']]; simpl in *.
    destruct X as [X|X]; [left|right].
    + assert (Z : (s - s') * (s - s') + (x - x') * (x - x') + (y - y') * (y - y') + (z - z') * (z - z') = 0) by lra. apply sq4_0 in Z as (? & ? & ? & ?). f_equal; [lra|f_equal; lra].
    + assert (Z : (s + s') * (s + s') + (x + x') * (x + x') + (y + y') * (y + y') + (z + z') * (z + z') = 0) by lra. apply sq4_0 in Z as (? & ? & ? & ?). f_equal; [lra|f_equal; lra].
  - assert (AB : forall k, Rabs (sin (INR (S l) * t)) <= k * (INR (S l) * Rabs (sin t)) -> Rabs (corr l ref q) <= k).
    { intros k Hk. rewrite (C1 S0). unfold Rdiv. rewrite Rabs_mult, Rabs_inv, Rabs_mult, (Rabs_pos_eq (INR (S l))) by apply pos_INR. assert (PS := Rabs_pos_lt _ S0). rewrite INR_l1 in *. apply Rmult_le_reg_r with (INR (l + 1) * Rabs (sin t)); [nra|]. rewrite Rmult_assoc, Rinv_l by nra. lra. }
    split; [|split].
    + assert (X := AB 1 ltac:(rewrite Rmult_1_l; apply sin_mult_bound)). apply Rabs_le_inv in X. lra.
    + intros L2 V. exfalso. rewrite (C1 S0) in V. assert (ST := sin_mult_strict t (S l) ltac:(lia) S0). assert (X : sin (INR (S l) * t) = INR (S l) * sin t). { assert (NZ : INR (S l) * sin t <> 0) by (apply Rmult_integral_contrapositive_currified; [rewrite INR_l1; lra|exact S0]). replace (sin (INR (S l) * t)) with (sin (INR (S l) * t) / (INR (S l) * sin t) * (INR (S l) * sin t)) by (field; split; [exact S0|rewrite INR_l1; lra]). rewrite V. ring. }
      rewrite X, Rabs_mult, (Rabs_pos_eq (INR (S l))) in ST by apply pos_INR. lra.
    + intros X. exfalso. apply S0. destruct (Q q X) as [Y|Y]; unfold t; rewrite Y; [rewrite acos_1; apply sin_0|replace (acos (-1)) with (acos (- (1))) by (f_equal; lra); rewrite acos_opp, acos_1, Rminus_0_r; apply sin_PI].
Qed.
Lemma ra_array l refs qs ev n : execution 0 n ev -> n = length qs ->
  fold_left (fun arr e => put arr (snd e) (ra_value l (nth (snd e) refs qid) (nth (snd e) qs qid))) ev (repeat (Some c0) n) = map (fun i => ra_value l (nth i refs qid) (nth i qs qid)) (seq 0 n).
Proof.
  intros E _. set (val := fun i => ra_value l (nth i refs qid) (nth i qs qid)). apply execution_perm in E.
  assert (IN : forall e, In e ev -> (snd e < n)%nat). { intros e He. assert (X : In (snd e) (map snd ev)) by (apply in_map; exact He). apply (Permutation_in _ E) in X. unfold range in X. apply in_seq in X. lia. }
  assert (F : forall (evs : list (nat * nat)) arr, fold_left (fun arr e => put arr (snd e) (val (snd e))) evs arr = fold_left (fun rows j => put rows j (val j)) (map snd evs) arr).
  { induction evs as [|e evs IH]; intros arr; [reflexivity|]. cbn [fold_left map]. apply IH. }
  change (fold_left (fun arr e => put arr (snd e) (val (snd e))) ev (repeat (Some c0) n) = map val (seq 0 n)). rewrite F. destruct (put_all val (map snd ev) None (repeat (Some c0) n)) as [L N].
  { intros j Hj. apply in_map_iff in Hj as (e & <- & He). rewrite repeat_length. apply IN; exact He. }
  rewrite repeat_length in L. apply nth_ext with None None; [rewrite L, map_length, seq_length; reflexivity|]. rewrite L. intros i Hi. rewrite N.
  assert (X : existsb (Nat.eqb i) (map snd ev) = true). { apply existsb_exists. exists i. split; [|apply Nat.eqb_refl]. apply (Permutation_in _ (Permutation_sym E)). unfold range. apply in_seq. lia. }
  rewrite X. rewrite (nth_indep _ None (val 0%nat)) by (rewrite map_length, seq_length; exact Hi). rewrite map_nth, seq_nth by exact Hi. reflexivity.
Qed.
Lemma ra_mean_vals vs : ra_mean (map (fun v => Some (v, 0)) vs) = if (length vs =? 0)%nat then None else Some (mean vs).
Proof.
  unfold ra_mean. assert (X : forall x, fold_left (fun s z => match s, z with Some x, Some c => Some (x + fst c) | _, _ => None end) (map (fun v => Some (v, 0)) vs) (Some x) = Some (x + fold_right Rplus 0 vs)).
  { induction vs as [|v vs IH]; intros x; cbn [map fold_left fold_right fst]; [f_equal; ring|]. rewrite IH. f_equal. ring. }
  rewrite X, map_length, Rplus_0_l. reflexivity.
Qed.
(** For even l <= 8 the value of each particle is real and is sin((l+1)t)/((l+1) sin t), where t is half the angle of the rotation between its two orientations; the order is the mean. *)
Theorem C69_value l refs qs ev : Nat.even l = true -> (l <= 8)%nat -> length refs = length qs -> unitqs refs -> unitqs qs -> execution 0 (length qs) ev ->
  exists vs, ra_compute l refs qs ev = RADone (map (fun v => Some (v, 0)) vs) (if (length qs =? 0)%nat then None else Some (mean vs)) /\ length vs = length qs /\
    forall i, (i < length qs)%nat -> forall t, cos t = qdot (nth i refs qid) (nth i qs qid) -> character l t (nth i vs 0).
Proof.
  intros EV L8 LE U1 U2 EX. exists (map (fun i => corr l (nth i refs qid) (nth i qs qid)) (seq 0 (length qs))). split; [|split].
  - unfold ra_compute. rewrite LE, Nat.eqb_refl. cbn [negb]. rewrite (ra_array l refs qs ev _ EX eq_refl).
    replace (map (fun i => ra_value l (nth i refs qid) (nth i qs qid)) (seq 0 (length qs))) with (map (fun v => Some (v, 0)) (map (fun i => corr l (nth i refs qid) (nth i qs qid)) (seq 0 (length qs)))).
    + rewrite ra_mean_vals, map_length, seq_length. reflexivity.
    + rewrite map_map. apply map_ext_in. intros i Hi. apply in_seq in Hi. symmetry. apply corr_value; [exact L8|apply U1, nth_In; lia|apply U2, nth_In; lia].
  - rewrite map_length, seq_length. reflexivity.
  - intros i Hi t T. rewrite (nth_indep _ 0 (corr l (nth 0 refs qid) (nth 0 qs qid))) by (rewrite map_length, seq_length; exact Hi). rewrite (map_nth (fun i => corr l (nth i refs qid) (nth i qs qid))), seq_nth by exact Hi. apply corr_character; assumption.
Qed.
Lemma mean_le vs : (forall v, In v vs -> v <= 1) -> vs <> [] -> mean vs <= 1 /\ (mean vs = 1 <-> forall v, In v vs -> v = 1).
Proof.
  intros H NE. unfold mean. assert (N : 0 < INR (length vs)) by (apply lt_0_INR; destruct vs; [contradiction|simpl; lia]).
  assert (X : fold_right Rplus 0 vs <= INR (length vs) /\ (fold_right Rplus 0 vs = INR (length vs) <-> forall v, In v vs -> v = 1)).
  { clear - H. induction vs as [|v vs IH]; [cbn; split; [lra|split; [intros _ ? []|reflexivity]]|]. cbn [fold_right length]. rewrite S_INR. destruct IH as [A B]; [intros; apply H; right; auto|]. assert (V := H v (or_introl eq_refl)). split; [lra|]. split.
    - intros E w [<-|Hw]; [lra|]. apply B; [lra|exact Hw].
    - intros E. rewrite (E v (or_introl eq_refl)). assert (Q : fold_right Rplus 0 vs = INR (length vs)) by (apply B; intros; apply E; right; auto). lra. }
  destruct X as [A B]. split.
  - apply Rmult_le_reg_r with (INR (length vs)); [exact N|]. unfold Rdiv. rewrite Rmult_assoc, Rinv_l by lra. lra.
  - rewrite <- B. split; intros E; [|rewrite E; field; lra]. replace (fold_right Rplus 0 vs) with (fold_right Rplus 0 vs / INR (length vs) * INR (length vs)) by (field; lra). rewrite E. ring.
Qed.
(** Values lie in [-1, 1] and the order is at most 1; for l >= 2 a value is 1 exactly when the two orientations are the same rotation (equal or opposite quaternions), and the order is 1 exactly when all are. *)
Theorem C69_bounds l refs qs ev arr order : Nat.even l = true -> (l <= 8)%nat -> length refs = length qs -> unitqs refs -> unitqs qs -> execution 0 (length qs) ev -> ra_compute l refs qs ev = RADone arr (Some order) ->
  (forall i, (i < length qs)%nat -> exists v, nth i arr None = Some (v, 0) /\ -1 <= v <= 1 /\ ((2 <= l)%nat -> (v = 1 <-> nth i qs qid = nth i refs qid \/ nth i qs qid = qneg (nth i refs qid)))) /\
  order <= 1 /\ ((2 <= l)%nat -> (order = 1 <-> forall i, (i < length qs)%nat -> nth i qs qid = nth i refs qid \/ nth i qs qid = qneg (nth i refs qid))).
Proof.
  intros EV L8 LE U1 U2 EX D. unfold ra_compute in D. rewrite LE, Nat.eqb_refl in D. cbn [negb] in D. rewrite (ra_array l refs qs ev _ EX eq_refl) in D.
  replace (map (fun i => ra_value l (nth i refs qid) (nth i qs qid)) (seq 0 (length qs))) with (map (fun v => Some (v, 0)) (map (fun i => corr l (nth i refs qid) (nth i qs qid)) (seq 0 (length qs)))) in D.
  2:{ rewrite map_map. apply map_ext_in. intros i Hi. apply in_seq in Hi. symmetry. apply corr_value; [exact L8|apply U1, nth_In; lia|apply U2, nth_In; lia]. }
  rewrite ra_mean_vals in D. set (vs := map (fun i => corr l (nth i refs qid) (nth i qs qid)) (seq 0 (length qs))) in *. assert (LV : length vs = length qs) by (unfold vs; rewrite map_length, seq_length; reflexivity).
  destruct (Nat.eqb_spec (length vs) 0) as [Z|Z]; [discriminate|]. injection D as <- <-.
  assert (NV : forall i, (i < length qs)%nat -> nth i vs 0 = corr l (nth i refs qid) (nth i qs qid)). { intros i Hi. unfold vs. rewrite (nth_indep _ 0 (corr l (nth 0 refs qid) (nth 0 qs qid))) by (rewrite map_length, seq_length; exact Hi). rewrite (map_nth (fun i => corr l (nth i refs qid) (nth i qs qid))), seq_nth by exact Hi. reflexivity. }
  assert (CB : forall i, (i < length qs)%nat -> -1 <= corr l (nth i refs qid) (nth i qs qid) <= 1 /\ ((2 <= l)%nat -> (corr l (nth i refs qid) (nth i qs qid) = 1 <-> nth i qs qid = nth i refs qid \/ nth i qs qid = qneg (nth i refs qid)))).
  { intros i Hi. destruct (corr_bound l (nth i refs qid) (nth i qs qid) EV) as (A & B & C); [apply U1, nth_In; lia|apply U2, nth_In; lia|]. split; [exact A|]. intros L2. split; auto. }
  assert (IV : forall v, In v vs <-> exists i, (i < length qs)%nat /\ v = corr l (nth i refs qid) (nth i qs qid)). { intros v. unfold vs. rewrite in_map_iff. split; intros (i & A & B); exists i; [apply in_seq in B; split; [lia|auto]|split; [auto|apply in_seq; lia]]. }
  split; [|split].
  - intros i Hi. exists (nth i vs 0). split; [|rewrite NV by exact Hi; apply CB, Hi]. rewrite (nth_indep _ None (Some (0, 0))) by (rewrite map_length; lia). rewrite (map_nth (fun v => Some (v, 0))). reflexivity.
  - apply mean_le; [intros v Hv; apply IV in Hv as (i & Hi & ->); apply CB, Hi|destruct vs; [simpl in Z; lia|discriminate]].
  - intros L2. rewrite (proj2 (mean_le vs ltac:(intros v Hv; apply IV in Hv as (i & Hi & ->); apply CB, Hi) ltac:(destruct vs; [simpl in Z; lia|discriminate]))). split.
    + intros H i Hi. apply (proj2 (CB i Hi) L2). apply H, IV. eauto.
    + intros H v Hv. apply IV in Hv as (i & Hi & ->). apply (proj2 (CB i Hi) L2). auto.
Qed.
(** ** Symmetries: swapping the frames, rotating all particles in both frames, relabelling the body frame, and opposite quaternions change nothing. *)
Lemma qdot_left g a b : qdot (qmul g a) (qmul g b) = qnorm2 g * qdot a b.
Proof. unfold qdot, qmul, qnorm2, dot, cross, vadd, vscale. destruct g as [s [x y z]], a as [sa [xa ya za]], b as [sb [xb yb zb]]; simpl. ring. Qed.
Lemma qdot_right g a b : qdot (qmul a g) (qmul b g) = qnorm2 g * qdot a b.
Proof. unfold qdot, qmul, qnorm2, dot, cross, vadd, vscale. destruct g as [s [x y z]], a as [sa [xa ya za]], b as [sb [xb yb zb]]; simpl. ring. Qed.
Lemma qnorm_mul g a : qnorm2 (qmul g a) = qnorm2 g * qnorm2 a.
Proof. unfold qmul, qnorm2, dot, cross, vadd, vscale. destruct g as [s [x y z]], a as [sa [xa ya za]]; simpl. ring. Qed.
Lemma qdot_sym a b : qdot a b = qdot b a. Proof. unfold qdot, dot. ring. Qed.
Theorem C69_symmetric l ref q g : (l <= 8)%nat -> unitq g ->
  ra_value l q ref = ra_value l ref q /\ ra_value l (qmul g ref) (qmul g q) = ra_value l ref q /\ ra_value l (qmul ref g) (qmul q g) = ra_value l ref q /\
  (Nat.even l = true -> ra_value l ref (qneg q) = ra_value l ref q /\ ra_value l (qneg ref) q = ra_value l ref q) /\
  forall a b, ra_value l (qscale a ref) (qscale b q) = option_map (cscale ((a * b) ^ l)) (ra_value l ref q).
Proof.
  intros L8 G. unfold unitq in G. rewrite !ra_exact by exact L8. repeat split.
  - rewrite qdot_sym, (Rmult_comm (qnorm2 q)). reflexivity.
  - rewrite qdot_left, !qnorm_mul, G, !Rmult_1_l. reflexivity.
  - rewrite qdot_right, !qnorm_mul, G, !Rmult_1_l, !Rmult_1_r. reflexivity.
  - replace (qdot ref (qneg q)) with (- qdot ref q) by (unfold qneg, qdot, qscale, dot, vscale; destruct ref as [s [x y z]], q as [s' [x' y' z']]; simpl; ring).
    replace (qnorm2 (qneg q)) with (qnorm2 q) by (unfold qneg, qnorm2, qscale, dot, vscale; destruct q as [s' [x' y' z']]; simpl; ring). rewrite cheb_neg, even_pow, Rmult_1_l by assumption. reflexivity.
  - replace (qdot (qneg ref) q) with (- qdot ref q) by (unfold qneg, qdot, qscale, dot, vscale; destruct ref as [s [x y z]], q as [s' [x' y' z']]; simpl; ring).
    replace (qnorm2 (qneg ref)) with (qnorm2 ref) by (unfold qneg, qnorm2, qscale, dot, vscale; destruct ref as [s' [x' y' z']]; simpl; ring). rewrite cheb_neg, even_pow, Rmult_1_l by assumption. reflexivity.
  - intros a b. rewrite ra_exact by exact L8. replace (qdot (qscale a ref) (qscale b q)) with (a * b * qdot ref q) by (unfold qdot, qscale, dot, vscale; destruct ref as [s [x y z]], q as [s' [x' y' z']]; simpl; ring).
    replace (qnorm2 (qscale a ref) * qnorm2 (qscale b q)) with (a * b * (a * b) * (qnorm2 ref * qnorm2 q)) by (unfold qnorm2, qscale, dot, vscale; destruct ref as [s [x y z]], q as [s' [x' y' z']]; simpl; ring). rewrite cheb_scale. cbn [option_map]. f_equal. unfold cr, cscale; simpl. f_equal; [unfold Rdiv; ring|ring].
Qed.
(** ** Overflow: for every even l >= 10 perfectly correlated orientations do not give 1. *)
Lemma ra_same l q : (10 <= l)%nat -> unitq q -> ra_value l q q = None \/ exists v, ra_value l q q = Some (v, 0) /\ v < 1.
Proof.
  intros H U. destruct (le_lt_dec l 33) as [L|L]; [right|left; apply ra_large; lia]. destruct (ra_overflow l q ltac:(lia) U) as (v & E & V). exists v. split; assumption.
Qed.
Theorem C69_overflow_refuted l : (10 <= l)%nat -> Nat.even l = true -> ra_make (Z.of_nat l) = Some l /\
  forall qs ev, qs <> [] -> unitqs qs -> execution 0 (length qs) ev -> exists arr o, ra_compute l qs qs ev = RADone arr o /\ match o with Some v => v < 1 /\ (l <= 33)%nat | None => (34 <= l)%nat end.
Proof.
  intros H E. split; [apply C69_accept; split; [split; [lia|]|rewrite Nat2Z.id; reflexivity]; apply Nat.even_spec in E as (k & ->); exists (Z.of_nat k); lia|].
  intros qs ev NE U EX. unfold ra_compute. rewrite Nat.eqb_refl. cbn [negb]. rewrite (ra_array l qs qs ev _ EX eq_refl). eexists _, _. split; [reflexivity|].
  destruct (le_lt_dec l 33) as [L|L].
  - assert (X : exists vs, map (fun i => ra_value l (nth i qs qid) (nth i qs qid)) (seq 0 (length qs)) = map (fun v => Some (v, 0)) vs /\ length vs = length (seq 0 (length qs)) /\ forall v, In v vs -> v < 1).
    { assert (IN : forall i, In i (seq 0 (length qs)) -> (i < length qs)%nat) by (intros i Hi; apply in_seq in Hi; lia). induction (seq 0 (length qs)) as [|i is IH]; [exists []; split; [reflexivity|split; [reflexivity|intros ? []]]|].
      destruct IH as (vs & A & B & C); [intros; apply IN; right; auto|]. destruct (ra_overflow l (nth i qs qid) ltac:(lia)) as (v & V & VL); [apply U, nth_In, IN; left; reflexivity|]. exists (v :: vs). cbn [map length]. rewrite A, B, V. split; [reflexivity|]. split; [reflexivity|]. intros w [<-|Hw]; auto. }
    destruct X as (vs & -> & LV & V). rewrite seq_length in LV. rewrite ra_mean_vals. destruct vs as [|v0 vs]; [destruct qs; [contradiction|discriminate]|]. cbn [length Nat.eqb]. split; [|exact L].
    destruct (mean_le (v0 :: vs) ltac:(intros v Hv; apply Rlt_le, V, Hv) ltac:(discriminate)) as [A B]. destruct (Rle_lt_or_eq_dec _ _ A) as [Q|Q]; [exact Q|]. exfalso. assert (Z := proj1 B Q v0 (or_introl eq_refl)). assert (Z' := V v0 (or_introl eq_refl)). lra.
  - destruct qs as [|q qs]; [contradiction|]. unfold ra_mean. rewrite map_length, seq_length. cbn [length seq map]. rewrite ra_large by lia. cbn [fold_left].
    assert (X : forall zs : list (option cplx), fold_left (fun s z => match s, z with Some x, Some c => Some (x + fst c) | _, _ => None end) zs None = None) by (induction zs; auto). rewrite X. lia.
Qed.
(** ** Example: two orientations a quarter turn apart about z, l = 2: the value is 1/3. *)
Definition ex_quarter : quat := q_axis_angle (V3 0 0 1) (PI / 2).
Example C69_ex : unitq qid /\ unitq ex_quarter /\ ra_compute 2 [qid; qid] [ex_quarter; qid] [(0, 1); (1, 0)]%nat = RADone [Some (1 / 3, 0); Some (1, 0)] (Some (2 / 3)).
Proof.
  assert (C : cos (PI / 2 / 2) * cos (PI / 2 / 2) = 1 / 2). { replace (PI / 2 / 2) with (PI / 4) by field. rewrite cos_PI4. assert (S2 : sqrt 2 * sqrt 2 = 2) by (apply sqrt_sqrt; lra). field_simplify; [|apply sqrt2_neq_0]. replace (sqrt 2 ^ 2) with 2 by (simpl; lra). field. }
  assert (U1 : unitq qid) by (unfold unitq, qnorm2, dot; simpl; ring). assert (U2 : unitq ex_quarter). { unfold unitq, qnorm2, ex_quarter, q_axis_angle, dot, vscale; simpl. assert (Q := sin2_cos2 (PI / 2 / 2)). unfold Rsqr in Q. lra. }
  split; [exact U1|]. split; [exact U2|]. unfold ra_compute. cbn [length Nat.eqb negb fold_left snd nth repeat put]. rewrite !corr_value by (auto; lia).
  assert (V : corr 2 qid ex_quarter = 1 / 3). { unfold corr. replace (qdot qid ex_quarter) with (cos (PI / 2 / 2)) by (unfold qdot, qid, ex_quarter, q_axis_angle, dot, vscale; simpl; ring). rewrite cheb_SS, cheb_1, cheb_0. replace (INR (2 + 1)) with 3 by (simpl; ring). replace (2 * cos (PI / 2 / 2) * (2 * cos (PI / 2 / 2)) - 1 * 1) with (4 * (cos (PI / 2 / 2) * cos (PI / 2 / 2)) - 1) by ring. rewrite C. field. }
  assert (W : corr 2 qid qid = 1). { unfold corr. replace (qdot qid qid) with 1 by (unfold qdot, qid, dot; simpl; ring). rewrite cheb_one. simpl. field. }
  rewrite V, W. f_equal. unfold ra_mean; simpl. f_equal. field.
Qed.
Print Assumptions C69_bounds.
Print Assumptions C69_overflow_refuted.
