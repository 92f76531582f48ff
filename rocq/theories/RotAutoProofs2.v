(** Lemmas for C69: closed form for l <= 8, overflow beyond. *)
From Verif Require Import RBase Vec MatchEnvProofs ParProofs.
From Coq Require Import Reals ZArith List Lra Lia Bool Arith Binomial.
From Verif Require Import RotAutoModel RotAutoSpec RotAutoProofs HexSpec CplxSum.
Import ListNotations.
Local Open Scope R_scope.
Add Ring cplx_ring_inst : cplx_ring.

Lemma ra_read_fact l i : (i <= l)%nat -> ra_read (ra_table l) i = ra_fact i.
Proof. intros H. unfold ra_read, ra_table. rewrite (nth_indep _ 0%Z (ra_fact 0)) by (rewrite map_length, seq_length; lia). rewrite map_nth, seq_nth by lia. reflexivity. Qed.
Lemma gf_0 l : gf (ra_table l) 0 = 1. Proof. unfold gf. rewrite ra_read_fact by lia. reflexivity. Qed.
Lemma ra_fact_range i : (0 <= ra_fact i < 2 ^ 32)%Z.
Proof. destruct i; [simpl; lia|]. cbn [ra_fact]. apply Z.mod_pos_bound. reflexivity. Qed.
Lemma ra_fact_small i : (i <= 12)%nat -> ra_fact i = Z.of_nat (fact i).
Proof.
  assert (X : forallb (fun i => Z.eqb (ra_fact i) (fold_right (fun j a => Z.of_nat (S j) * a) 1 (rev (seq 0 i)))%Z) (seq 0 13) = true) by (vm_compute; reflexivity).
  intros H. rewrite forallb_forall in X. specialize (X i ltac:(apply in_seq; lia)). apply Z.eqb_eq in X. rewrite X. clear. induction i as [|i IH]; [reflexivity|].
  rewrite seq_S, rev_app_distr. cbn [rev app fold_right]. rewrite IH. rewrite <- Nat2Z.inj_mul. f_equal.
Qed.
Lemma gf_small l i : (l <= 12)%nat -> (i <= l)%nat -> gf (ra_table l) i = INR (fact i).
Proof. intros H1 H2. unfold gf. rewrite ra_read_fact, ra_fact_small by lia. rewrite <- INR_IZR_INZ. reflexivity. Qed.
Lemma pref_eq l a : (a <= l)%nat -> ra_pref (ra_table l) l a (l - a) = IZR (u32m ((ra_fact a * ra_fact (l - a)) * (ra_fact a * ra_fact (l - a)))) / INR (l + 1).
Proof.
  intros H. unfold ra_pref. replace (l - (l - a))%nat with a by lia. rewrite !ra_read_fact by lia. do 2 f_equal. unfold u32m. rewrite (Z.mul_mod_idemp_l _ (ra_fact a)) by lia.
  rewrite <- (Z.mul_mod_idemp_l (_ * ra_fact (l - a))%Z (ra_fact a)) by lia. rewrite (Z.mul_mod_idemp_l _ (ra_fact (l - a))) by lia. rewrite (Z.mul_mod_idemp_l _ (ra_fact a)) by lia. f_equal. ring.
Qed.
Lemma pref_small l a : (l <= 8)%nat -> (a <= l)%nat -> ra_pref (ra_table l) l a (l - a) = (INR (fact a) * INR (fact (l - a))) * (INR (fact a) * INR (fact (l - a))) / INR (l + 1).
Proof.
  intros H Ha. rewrite pref_eq by exact Ha. f_equal. unfold u32m. rewrite Z.mod_small.
  - rewrite !mult_IZR, !ra_fact_small, <- !INR_IZR_INZ by lia. reflexivity.
  - assert (X : forallb (fun l => forallb (fun a => (ra_fact a * ra_fact (l - a) * (ra_fact a * ra_fact (l - a)) <? 2 ^ 32)%Z) (seq 0 (S l))) (seq 0 9) = true) by (vm_compute; reflexivity).
    rewrite forallb_forall in X. specialize (X l ltac:(apply in_seq; lia)). rewrite forallb_forall in X. specialize (X a ltac:(apply in_seq; lia)). apply Z.ltb_lt in X.
    assert (A := ra_fact_range a). assert (B := ra_fact_range (l - a)). split; [|exact X]. apply Z.mul_nonneg_nonneg; apply Z.mul_nonneg_nonneg; lia.
Qed.
Lemma ci_conj : cmul (0, 1) (cconj (0, 1)) = cone. Proof. unfold cmul, cconj, cone; simpl; f_equal; ring. Qed.
Lemma harm_tt l xi zeta a : (l <= 8)%nat -> (a <= l)%nat ->
  cmul (cr (ra_pref (ra_table l) l a (l - a))) (cmul (cconj (cmul (cr (/ (gf (ra_table l) a * gf (ra_table l) (l - a)))) (cmul (cpow (0, 1) (l - a)) (cpow (cconj (0, 1)) a)))) (harmc (ra_table l) l xi zeta a (l - a))) =
  cmul (cr (/ INR (l + 1))) (tt (cmul (0, 1) (cconj zeta)) (cmul (cconj (0, 1)) zeta) (cmul (cconj xi) (cneg xi)) (S (min a (l - a))) a (l - a)).
Proof.
  intros H Ha. set (b := (l - a)%nat). rewrite !cconj_mul, cconj_cr, !cpow_conj, cconj_conj. unfold harmc, ra_first. replace (a + b <? l)%nat with false by (symmetry; apply Nat.ltb_ge; unfold b; lia). replace (a + b - l)%nat with 0%nat by (unfold b; lia). rewrite Nat.sub_0_r.
  unfold tt. rewrite <- !csum_mul. apply csum_ext. intros k Hk. assert (Ka : (k <= a)%nat) by lia. assert (Kb : (k <= b)%nat) by lia. cbn [Nat.add]. rewrite !bb_form by lia. unfold term. replace (l + k - a - b)%nat with k by (unfold b; lia).
  rewrite !cpow_cmul. unfold b at 1. rewrite pref_small by lia. fold b. rewrite !gf_small by (unfold b in *; lia).
  replace (cpow (cconj (0, 1)) b) with (cmul (cpow (cconj (0, 1)) k) (cpow (cconj (0, 1)) (b - k))) by (rewrite <- cpow_add; f_equal; lia). replace (cpow (0, 1) a) with (cmul (cpow (0, 1) k) (cpow (0, 1) (a - k))) by (rewrite <- cpow_add; f_equal; lia).
  assert (U : cmul (cpow (0, 1) k) (cpow (cconj (0, 1)) k) = cone) by (rewrite <- cpow_cmul, ci_conj; apply cpow_c1).
  set (N := / INR (l + 1)). replace (INR (fact a) * INR (fact b) * (INR (fact a) * INR (fact b)) / INR (l + 1)) with (N * ((INR (fact a) * INR (fact b)) * (INR (fact a) * INR (fact b)))) by (unfold N, Rdiv; ring).
  unfold C. assert (F := INR_fact_neq_0). assert (KK : N * (INR (fact a) * INR (fact b) * (INR (fact a) * INR (fact b))) * / (INR (fact a) * INR (fact b)) * / (INR (fact k) * INR (fact k) * INR (fact (a - k)) * INR (fact (b - k))) =
     N * (INR (fact a) / (INR (fact k) * INR (fact (a - k)))) * (INR (fact b) / (INR (fact k) * INR (fact (b - k))))) by (field; repeat split; apply F).
  set (X1 := cpow (0, 1) k) in *. set (X2 := cpow (cconj (0, 1)) k) in *.
  transitivity (cmul (cmul (cmul (cmul (cr (N * (INR (fact a) * INR (fact b) * (INR (fact a) * INR (fact b))))) (cr (/ (INR (fact a) * INR (fact b))))) (cr (/ (INR (fact k) * INR (fact k) * INR (fact (a - k)) * INR (fact (b - k)))))) (cmul X1 X2))
    (cmul (cmul (cmul (cpow (0, 1) (a - k)) (cpow (cconj zeta) (a - k))) (cmul (cpow (cconj (0, 1)) (b - k)) (cpow zeta (b - k)))) (cmul (cpow (cconj xi) k) (cpow (cneg xi) k)))); [ring|].
  rewrite U, <- !cr_mul, KK, !cr_mul. ring.
Qed.
Lemma rel_scalar ref q : qs (rel ref q) = qdot ref q.
Proof. unfold rel, qmul, qconj, qdot, dot; destruct ref as [s [x y z]], q as [s' [x' y' z']]; simpl. ring. Qed.
Lemma rel_norm ref q : qnorm2 (rel ref q) = qnorm2 ref * qnorm2 q.
Proof. unfold rel, qmul, qconj, qnorm2, dot, cross, vadd, vscale; destruct ref as [s [x y z]], q as [s' [x' y' z']]; simpl. ring. Qed.
(** For l <= 8 the value is the Chebyshev polynomial of the second kind, divided by l + 1. *)
Lemma ra_exact l ref q : (l <= 8)%nat -> ra_value l ref q = Some (cr (cheb (qdot ref q) (qnorm2 ref * qnorm2 q) l / INR (l + 1))).
Proof.
  intros H. assert (F := INR_fact_neq_0). rewrite ra_value_sum; [|intros i Hi; rewrite gf_small by lia; apply F|apply gf_0]. f_equal. set (xi := xi_of (rel ref q)). set (zeta := zeta_of (rel ref q)).
  set (W := cmul (0, 1) (cconj zeta)). set (V := cmul (cconj (0, 1)) zeta). set (M := cmul (cconj xi) (cneg xi)).
  transitivity (csum (S l) (fun a => cmul (cr (/ INR (l + 1))) (tt W V M (S l) a (l - a)))).
  - apply csum_ext. intros a Ha. rewrite harm_tt by lia. fold W V M. f_equal. apply tt_stable; lia.
  - rewrite csum_mul. change (csum (S l) (fun k => tt W V M (S l) k (l - k))) with (TT W V M (S l) l). rewrite (TT_cheb W V M (S l) (qdot ref q) (qnorm2 ref * qnorm2 q)); [rewrite <- cr_mul; f_equal; unfold Rdiv; ring|lia| |].
    + rewrite <- rel_scalar. unfold W, V, zeta, zeta_of, cmul, cadd, cconj, cr; simpl. f_equal; ring.
    + rewrite <- rel_norm. unfold W, V, M, zeta, xi, zeta_of, xi_of, cmul, csub, cneg, cadd, cconj, cr, qnorm2, dot; simpl. f_equal; ring.
Qed.

(** * The polynomial *)
Lemma cheb_sin t l : sin t * cheb (cos t) 1 l = sin (INR (S l) * t).
Proof.
  enough (X : sin t * cheb (cos t) 1 l = sin (INR (S l) * t) /\ sin t * cheb (cos t) 1 (S l) = sin (INR (S (S l)) * t)) by apply X. induction l as [|l [A B]].
  - rewrite cheb_0, cheb_1. split; [replace (INR 1 * t) with t by (simpl; ring); ring|]. replace (INR 2 * t) with (2 * t) by (simpl; ring). rewrite sin_2a. ring.
  - split; [exact B|]. rewrite cheb_SS. replace (sin t * (2 * cos t * cheb (cos t) 1 (S l) - 1 * cheb (cos t) 1 l)) with (2 * cos t * (sin t * cheb (cos t) 1 (S l)) - sin t * cheb (cos t) 1 l) by ring. rewrite A, B.
    rewrite (S_INR (S (S l))), (S_INR (S l)). set (n := INR (S l)). replace ((n + 1 + 1) * t) with ((n + 1) * t + t) by ring. replace (n * t) with ((n + 1) * t - t) by ring. rewrite sin_plus, sin_minus. ring.
Qed.
Lemma cheb_one l : cheb 1 1 l = INR (S l).
Proof.
  enough (X : cheb 1 1 l = INR (S l) /\ cheb 1 1 (S l) = INR (S (S l))) by apply X. induction l as [|l [A B]]; [split; simpl; [reflexivity|unfold cheb; simpl; ring]|]. split; [exact B|]. rewrite cheb_SS, A, B. rewrite !S_INR. ring.
Qed.
Lemma cheb_neg s n l : cheb (- s) n l = (-1) ^ l * cheb s n l.
Proof.
  enough (X : cheb (- s) n l = (-1) ^ l * cheb s n l /\ cheb (- s) n (S l) = (-1) ^ S l * cheb s n (S l)) by apply X. induction l as [|l [A B]]; [split; unfold cheb; simpl; ring|]. split; [exact B|]. rewrite !cheb_SS, A, B. simpl. ring.
Qed.
Lemma cheb_scale s n k l : cheb (k * s) (k * k * n) l = k ^ l * cheb s n l.
Proof.
  enough (X : cheb (k * s) (k * k * n) l = k ^ l * cheb s n l /\ cheb (k * s) (k * k * n) (S l) = k ^ S l * cheb s n (S l)) by apply X. induction l as [|l [A B]]; [split; unfold cheb; simpl; ring|]. split; [exact B|]. rewrite !cheb_SS, A, B. simpl. ring.
Qed.
Lemma even_pow l : Nat.even l = true -> (-1) ^ l = 1.
Proof. intros H. apply Nat.even_spec in H as (k & ->). rewrite pow_mult. replace ((-1) ^ 2) with 1 by ring. apply pow1. Qed.
Lemma sin_mult_bound t n : Rabs (sin (INR n * t)) <= INR n * Rabs (sin t).
Proof.
  induction n as [|n IH]; [simpl; rewrite Rmult_0_l, sin_0, Rabs_R0; lra|]. rewrite S_INR. replace ((INR n + 1) * t) with (INR n * t + t) by ring. rewrite sin_plus. eapply Rle_trans; [apply Rabs_triang|]. rewrite !Rabs_mult.
  assert (C1 : Rabs (cos t) <= 1) by (apply Rabs_le, COS_bound). assert (C2 : Rabs (cos (INR n * t)) <= 1) by (apply Rabs_le, COS_bound). assert (P := Rabs_pos (sin t)). assert (P2 := Rabs_pos (sin (INR n * t))). assert (P3 := Rabs_pos (cos t)). assert (N := pos_INR n).
  assert (Rabs (sin (INR n * t)) * Rabs (cos t) <= INR n * Rabs (sin t)) by nra. nra.
Qed.
Lemma sin_mult_strict t n : (2 <= n)%nat -> sin t <> 0 -> Rabs (sin (INR n * t)) < INR n * Rabs (sin t).
Proof.
  intros Hn S0. destruct n as [|n]; [lia|]. assert (B := sin_mult_bound t n). rewrite S_INR. replace ((INR n + 1) * t) with (INR n * t + t) by ring. rewrite sin_plus. eapply Rle_lt_trans; [apply Rabs_triang|]. rewrite !Rabs_mult.
  assert (P : 0 < Rabs (sin t)) by (apply Rabs_pos_lt, S0). assert (C1 : Rabs (cos t) < 1). { apply Rabs_def1; assert (Q := sin2_cos2 t); unfold Rsqr in Q; assert (0 < sin t * sin t) by nra; nra. }
  assert (C2 : Rabs (cos (INR n * t)) <= 1) by (apply Rabs_le, COS_bound). assert (P2 := Rabs_pos (sin (INR n * t))). assert (P3 := Rabs_pos (cos t)). assert (N : 1 <= INR n) by (replace 1 with (INR 1) by reflexivity; apply le_INR; lia).
  assert (X : Rabs (sin (INR n * t)) * Rabs (cos t) < INR n * Rabs (sin t)). { apply Rle_lt_trans with (INR n * Rabs (sin t) * Rabs (cos t)); [apply Rmult_le_compat_r; assumption|]. assert (0 < INR n * Rabs (sin t)) by nra. nra. }
  assert (Y : Rabs (cos (INR n * t)) * Rabs (sin t) <= Rabs (sin t)) by nra. lra.
Qed.

(** * Overflow *)
Lemma fold_none {A} (f : A -> option cplx) ks s : s = None \/ (exists k, In k ks /\ f k = None) -> fold_left (fun s k => oadd s (f k)) ks s = None.
Proof.
  revert s. induction ks as [|k ks IH]; intros s H; cbn [fold_left].
  - destruct H as [H|(k & [] & _)]. exact H.
  - apply IH. destruct H as [->|(k' & [<-|Hk] & E)]; [left; reflexivity|left; rewrite E; destruct s; reflexivity|right; eauto].
Qed.
Lemma ra_fact_zero i : (34 <= i)%nat -> ra_fact i = 0%Z.
Proof.
  intros H. replace i with ((i - 34) + 34)%nat by lia. induction (i - 34)%nat as [|n IH]; [vm_compute; reflexivity|]. cbn [Nat.add ra_fact]. rewrite IH, Z.mul_0_r. reflexivity.
Qed.
Lemma ra_large l ref q : (34 <= l)%nat -> ra_value l ref q = None.
Proof.
  intros H. unfold ra_value. cbv zeta. set (t := ra_table l). set (qq := qmul (qconj ref) q).
  rewrite (fold_counter (fun s u p => oadd s (option_map (cscale (ra_pref t l (fst p) (snd p))) (omul u (ra_harm t l (vx (qv qq), vy (qv qq)) (vz (qv qq), qs qq) (fst p) (snd p))))) (ra_units t l) None (fun p => option_map cconj (ra_harm t l c0 (0, 1) (fst p) (snd p)))).
  - cbn [fst]. apply (fold_none (fun p => option_map (cscale (ra_pref t l (fst p) (snd p))) (omul (option_map cconj (ra_harm t l c0 (0, 1) (fst p) (snd p))) (ra_harm t l (vx (qv qq), vy (qv qq)) (vz (qv qq), qs qq) (fst p) (snd p))))).
    right. exists (0%nat, l). split; [apply ra_pairs_in; cbn [fst snd]; lia|]. cbn [fst snd]. replace (ra_harm t l c0 (0, 1) 0 l) with (@None cplx); [reflexivity|]. symmetry. unfold ra_harm. apply fold_none. right. exists 0%nat. split.
    + unfold ra_first. destruct (Nat.ltb_spec (0 + l) l); [lia|]. replace (0 + l - l)%nat with 0%nat by lia. rewrite Nat.min_0_l. left. reflexivity.
    + unfold ra_term, c_div. match goal with |- context [Reqb ?a 0] => replace a with 0 end; [destruct (Reqb_spec 0 0); [reflexivity|lra]|]. unfold t at 4. rewrite !Nat.sub_0_r. rewrite (ra_read_fact l l) by lia. rewrite ra_fact_zero by exact H. ring.
  - intros j p Hp. cbn [Nat.add]. unfold ra_units. set (f := fun p0 : nat * nat => option_map cconj (ra_harm t l c0 (0, 1) (fst p0) (snd p0))). assert (N : nth_error (map f (ra_pairs l)) j = Some (f p)) by (apply map_nth_error, Hp). apply nth_error_nth. exact N.
Qed.
Lemma ra_fact_nonzero i : (i <= 33)%nat -> ra_fact i <> 0%Z.
Proof.
  assert (X : forallb (fun i => negb (ra_fact i =? 0)%Z) (seq 0 34) = true) by (vm_compute; reflexivity). intros H E. rewrite forallb_forall in X. specialize (X i ltac:(apply in_seq; lia)). rewrite E in X. discriminate.
Qed.
Lemma ra_fact_big l : (9 <= l <= 33)%nat -> (2 ^ 16 <= ra_fact l)%Z.
Proof.
  assert (X : forallb (fun i => (2 ^ 16 <=? ra_fact i)%Z) (seq 9 25) = true) by (vm_compute; reflexivity). intros H. rewrite forallb_forall in X. specialize (X l ltac:(apply in_seq; lia)). apply Z.leb_le in X. exact X.
Qed.
Lemma rel_self q : qnorm2 q = 1 -> rel q q = qid.
Proof.
  intros H. unfold rel, qmul, qconj, qid, qnorm2, dot, cross, vadd, vscale in *; destruct q as [s [x y z]]; simpl in *. f_equal; [lra|f_equal; ring].
Qed.
Lemma csum_bound n r c : (forall a, (a < n)%nat -> r a <= c) -> exists v, csum n (fun a => cr (r a)) = cr v /\ v <= INR n * c.
Proof.
  induction n as [|n IH]; intros H; [exists 0; split; [reflexivity|simpl; lra]|]. destruct IH as (v & E & L); [auto|]. exists (v + r n). split; [cbn [csum]; rewrite E, <- cr_add; reflexivity|]. rewrite S_INR. assert (Q := H n ltac:(lia)). lra.
Qed.
Lemma ra_overflow l q : (9 <= l <= 33)%nat -> qnorm2 q = 1 -> exists v, ra_value l q q = Some (cr v) /\ v < 1.
Proof.
  intros H U. set (t := ra_table l). assert (G : forall i, (i <= l)%nat -> gf t i <> 0). { intros i Hi. unfold gf, t. rewrite ra_read_fact by exact Hi. apply not_0_IZR, ra_fact_nonzero. lia. }
  rewrite (ra_value_sum l q q); [|exact G|apply gf_0]. fold t. rewrite (rel_self q U). change (xi_of qid) with c0. change (zeta_of qid) with ((0, 1) : cplx).
  set (r := fun a => ra_pref t l a (l - a) / ((gf t a * gf t (l - a)) * (gf t a * gf t (l - a)))).
  assert (E : csum (S l) (fun a => cmul (cr (ra_pref t l a (l - a))) (cmul (cconj (cmul (cr (/ (gf t a * gf t (l - a)))) (cmul (cpow (0, 1) (l - a)) (cpow (cconj (0, 1)) a)))) (harmc t l c0 (0, 1) a (l - a)))) = csum (S l) (fun a => cr (r a))).
  { apply csum_ext. intros a Ha. rewrite unit_harm by (auto using gf_0; try (unfold t; apply gf_0); lia). replace (a + (l - a) =? l)%nat with true by (symmetry; apply Nat.eqb_eq; lia). rewrite !cconj_mul, cconj_cr, !cpow_conj, cconj_conj. set (g := / (gf t a * gf t (l - a))).
    transitivity (cmul (cmul (cr (ra_pref t l a (l - a))) (cmul (cr g) (cr g))) (cmul (cmul (cpow (0, 1) (l - a)) (cpow (cconj (0, 1)) (l - a))) (cmul (cpow (0, 1) a) (cpow (cconj (0, 1)) a)))); [ring|].
    rewrite <- !cpow_cmul, ci_conj, !cpow_c1, <- !cr_mul. replace (cr (r a)) with (cmul (cr (r a)) (cmul cone cone)) by ring. f_equal. f_equal. unfold r, g. field. split; apply G; lia. }
  rewrite E. assert (N : 0 < INR (l + 1)) by (apply lt_0_INR; lia).
  assert (B : forall a, (a <= l)%nat -> r a <= / INR (l + 1)).
  { intros a Ha. unfold r, t. rewrite pref_eq by exact Ha. set (P := (ra_fact a * ra_fact (l - a))%Z). replace (gf (ra_table l) a * gf (ra_table l) (l - a)) with (IZR P) by (unfold P, gf; rewrite mult_IZR, !ra_read_fact by lia; reflexivity).
    assert (P0 : (0 < P)%Z) by (unfold P; assert (A1 := ra_fact_range a); assert (A2 := ra_fact_range (l - a)); assert (A3 := ra_fact_nonzero a ltac:(lia)); assert (A4 := ra_fact_nonzero (l - a) ltac:(lia)); nia).
    assert (M : (u32m (P * P) <= P * P)%Z) by (apply Z.mod_le; [nia|reflexivity]). apply IZR_le in M. rewrite mult_IZR in M. apply IZR_lt in P0.
    apply Rmult_le_reg_r with (IZR P * IZR P); [nra|]. unfold Rdiv. rewrite Rmult_assoc, Rinv_l by nra. assert (0 < / INR (l + 1)) by (apply Rinv_0_lt_compat, N). nra. }
  assert (S0 : r 0%nat < / INR (l + 1)).
  { unfold r, t. rewrite pref_eq by lia. rewrite Nat.sub_0_r. set (P := ra_fact l). change (ra_fact 0) with 1%Z. rewrite gf_0. replace (gf (ra_table l) l) with (IZR P) by (unfold P, gf; rewrite ra_read_fact by lia; reflexivity).
    assert (P0 := ra_fact_big l H). fold P in P0. assert (M : (u32m ((1 * P) * (1 * P)) < P * P)%Z) by (apply Z.lt_le_trans with (2 ^ 32)%Z; [apply Z.mod_pos_bound; reflexivity|nia]). apply IZR_lt in M. rewrite (mult_IZR P P) in M. assert (P1 : 0 < IZR P) by (apply IZR_lt; lia).
    apply Rmult_lt_reg_r with (IZR P * IZR P); [nra|]. replace (IZR (u32m (1 * P * (1 * P))) / INR (l + 1) / (1 * IZR P * (1 * IZR P)) * (IZR P * IZR P)) with (IZR (u32m (1 * P * (1 * P))) * / INR (l + 1)) by (field; lra). rewrite Rmult_comm. apply Rmult_lt_compat_l; [apply Rinv_0_lt_compat, N|exact M]. }
  rewrite csum_first. destruct (csum_bound l (fun k => r (S k)) (/ INR (l + 1))) as (v & -> & L); [intros a Ha; apply B; lia|]. exists (r 0%nat + v). split; [rewrite cr_add; reflexivity|].
  apply Rlt_le_trans with (/ INR (l + 1) + INR l * / INR (l + 1)); [lra|]. right. rewrite plus_INR. simpl (INR 1). field. rewrite plus_INR in N. simpl in N. lra.
Qed.
