(** C68: the third-order Steinhardt invariants are rotation invariant, real and bounded. *)
From Coq Require Import Permutation Reals ZArith List Lra Lia Bool Classical.
From Verif Require Import RBase Vec FilterProps HarmProofs SteinProofs SteinProofs2 SteinProofs3 SteinProofs4 SteinProofs5 SteinProps SteinSpec WignerProofs WignerProofs2 WignerRot3 WignerRot4 WignerProps WignerModel WignerSpec CplxSum.
Import ListNotations.
Local Open Scope R_scope.
Add Ring cplx_ring_inst : cplx_ring.

(** The sum of which the code keeps the real part. *)
Definition third_c (w : Z -> Z -> R) (q : Z -> cplx) (pairs : list (Z * Z)) : cplx :=
  fold_right (fun p a => cadd (cmul (cr (w (fst p) (snd p))) (cmul (cmul (q (fst p)) (q (snd p))) (q (- fst p - snd p)%Z))) a) c0 pairs.
Definition norm2 (l : nat) (q : nat -> cplx) : R := nsum (2 * l + 1) (fun k => modulus2 (q k)).
Lemma third_c_tri l w q pairs : third_c w q pairs = tri l w q q q pairs.
Proof. unfold third_c, tri. induction pairs as [|p ps IH]; [reflexivity|]. cbn [fold_right csuml]. rewrite IH. reflexivity. Qed.
Lemma at_m_ext l q q' w pairs : enumerates l pairs -> (forall k, q k = q' k) -> third_c w (at_m l q) pairs = third_c w (at_m l q') pairs.
Proof. intros _ H. unfold third_c, at_m. induction pairs as [|p ps IH]; [reflexivity|]. cbn [fold_right]. rewrite IH, !H. reflexivity. Qed.
Lemma third_c_perm w q ps ps' : Permutation ps ps' -> third_c w q ps = third_c w q ps'.
Proof. unfold third_c. induction 1 as [|x a b P IH|x y a|a b d P1 I1 P2 I2]; cbn [fold_right]; [reflexivity|rewrite IH; reflexivity|ring|congruence]. Qed.
Lemma third_real w q pairs : third w q pairs = fst (third_c w q pairs).
Proof. rewrite (third_c_tri 0). apply third_tri. Qed.
Lemma third_c_comb {A} l (vec : A -> vec3) T q pairs : enumerates l pairs -> (forall k, q k = comb l vec T k) -> third_c (wigner l) (at_m l q) pairs = kerns l vec T.
Proof.
  intros EN H. rewrite (third_c_perm _ _ pairs (m_pairs (Z.of_nat l))) by (apply (enum_perm l); [exact EN|apply m_pairs_enum]). rewrite (at_m_ext l q (comb l vec T)) by (apply m_pairs_enum || exact H). rewrite (third_c_tri l). apply tri_comb.
Qed.
Lemma third_c_swap l q pairs : Nat.odd l = true -> enumerates l pairs -> third_c (wigner l) q pairs = c0.
Proof.
  intros O EN. assert (E : third_c (wigner l) q pairs = third_c (wigner l) q (map swap pairs)) by (apply third_c_perm, (enum_perm l); [exact EN|apply swap_enum, EN]).
  assert (X : third_c (wigner l) q (map swap pairs) = cneg (third_c (wigner l) q pairs)).
  { clear EN E. unfold third_c. induction pairs as [|p ps IH]; [unfold cneg, c0; simpl; f_equal; ring|]. cbn [map fold_right]. rewrite IH. unfold swap at 1 2 3 4 5 6; cbn [fst snd]. rewrite (wigner_swap l (fst p) (snd p)).
    replace (parity (Z.of_nat l)) with (-1). 2:{ unfold parity. rewrite <- Z.negb_odd. apply Nat.odd_spec in O as (k & ->). rewrite Nat2Z.inj_add, Nat2Z.inj_mul, Z.odd_add, Z.odd_mul. reflexivity. }
    replace (- snd p - fst p)%Z with (- fst p - snd p)%Z by lia. replace (-1 * wigner l (fst p) (snd p)) with (- wigner l (fst p) (snd p)) by ring. rewrite cr_neg. ring. }
  rewrite X in E. destruct (third_c (wigner l) q pairs) as [x y]. unfold cneg in E; cbn [fst snd] in E. injection E as E1 E2. unfold c0. f_equal; lra.
Qed.

(** ** Reality: the code drops no imaginary part. *)
Theorem C68_real l c f pairs : enumerates l pairs -> (forall i, snd (third_c (wigner l) (at_m l (q_used c l f i)) pairs) = 0) /\
  snd (third_c (wigner l) (at_m l (q_all (q_used c l f) (length (si_pts f)))) pairs) = 0.
Proof.
  intros EN. destruct (Nat.even l) eqn:E.
  - split; [intros i; rewrite (third_c_comb l (tvec f) (used_terms c f i)) by (exact EN || apply used_comb)|rewrite (third_c_comb l (tvec f) (all_terms c f)) by (exact EN || apply all_comb)]; apply kerns_real, E.
  - assert (O : Nat.odd l = true) by (unfold Nat.odd; rewrite E; reflexivity). split; [intros i|]; rewrite third_c_swap by assumption; reflexivity.
Qed.
(** ** Invariance: any change that keeps the lengths of the bond vectors and the angles between them keeps the invariants, for every l. *)
Lemma terms_congruent f f' T : congruent_calls f f' -> (forall x, In x T -> good f (snd x)) -> forall x y : R * tok, In x T -> In y T -> dot (bdir (tvec f (snd x))) (bdir (tvec f (snd y))) = dot (bdir (tvec f' (snd x))) (bdir (tvec f' (snd y))).
Proof.
  intros (_ & _ & D & NZ) G x y Hx Hy. destruct (G x Hx) as [G1 G2]. destruct (G y Hy) as [G3 G4]. apply bdir_dot; unfold tvec; auto.
Qed.
Theorem C68_rotation l c f f' pairs : congruent_calls f f' -> hbonds_ok (length (si_pts f)) (si_bonds f) -> enumerates l pairs ->
  (forall i, (i < length (si_pts f))%nat -> third (wigner l) (at_m l (q_used c l f i)) pairs = third (wigner l) (at_m l (q_used c l f' i)) pairs) /\
  third (wigner l) (at_m l (q_all (q_used c l f) (length (si_pts f)))) pairs = third (wigner l) (at_m l (q_all (q_used c l f') (length (si_pts f')))) pairs.
Proof.
  intros C HB EN. destruct (Nat.even l) eqn:E.
  - destruct (congruent_terms c f f' C) as (U & A & _). split; [intros i Hi|]; rewrite !third_real.
    + rewrite (third_c_comb l (tvec f) (used_terms c f i)) by (exact EN || apply used_comb). rewrite (third_c_comb l (tvec f') (used_terms c f' i)) by (exact EN || apply used_comb). rewrite <- U. f_equal.
      apply kerns_congruent; [exact E|]. apply (terms_congruent f f' _ C). intros x. apply used_good; assumption.
    + rewrite (third_c_comb l (tvec f) (all_terms c f)) by (exact EN || apply all_comb). rewrite (third_c_comb l (tvec f') (all_terms c f')) by (exact EN || apply all_comb). rewrite <- A. f_equal.
      apply kerns_congruent; [exact E|]. apply (terms_congruent f f' _ C). intros x. apply all_good; assumption.
  - assert (O : Nat.odd l = true) by (unfold Nat.odd; rewrite E; reflexivity). split; [intros i Hi|]; rewrite (proj1 (C67_odd_zero l _ pairs O EN)), (proj1 (C67_odd_zero l _ pairs O EN)); reflexivity.
Qed.
Lemma norms_congruent l c f f' : congruent_calls f f' -> hbonds_ok (length (si_pts f)) (si_bonds f) ->
  (forall i, (i < length (si_pts f))%nat -> norm2 l (q_used c l f i) = norm2 l (q_used c l f' i)) /\ norm2 l (q_all (q_used c l f) (length (si_pts f))) = norm2 l (q_all (q_used c l f') (length (si_pts f'))).
Proof.
  intros C HB. destruct (congruent_terms c f f' C) as (U & A & _). unfold norm2. split; [intros i Hi|].
  - rewrite (nsum_ext _ _ (fun k => modulus2 (comb l (tvec f) (used_terms c f i) k))) by (intros k; rewrite used_comb; reflexivity). rewrite comb_norm.
    rewrite (nsum_ext _ (fun k => modulus2 (q_used c l f' i k)) (fun k => modulus2 (comb l (tvec f') (used_terms c f' i) k))) by (intros k; rewrite used_comb; reflexivity). rewrite comb_norm, <- U. f_equal.
    apply legs_congruent; [exact C|]. intros x. apply used_good; assumption.
  - rewrite (nsum_ext _ _ (fun k => modulus2 (comb l (tvec f) (all_terms c f) k))) by (intros k; rewrite all_comb; reflexivity). rewrite comb_norm.
    rewrite (nsum_ext _ (fun k => modulus2 (q_all (q_used c l f') (length (si_pts f')) k)) (fun k => modulus2 (comb l (tvec f') (all_terms c f') k))) by (intros k; rewrite all_comb; reflexivity). rewrite comb_norm, <- A. f_equal.
    apply legs_congruent; [exact C|]. intros x. apply all_good; assumption.
Qed.

(** ** Size *)
Lemma cauchy {A} (f g : A -> R) xs : rsuml (fun x => f x * g x) xs * rsuml (fun x => f x * g x) xs <= rsuml (fun x => f x * f x) xs * rsuml (fun x => g x * g x) xs.
Proof.
  assert (P : forall (h : A -> R) ys, 0 <= rsuml (fun x => h x * h x) ys) by (intros h ys; induction ys as [|y ys IH]; cbn [rsuml]; [lra|]; nra).
  induction xs as [|x xs IH]; cbn [rsuml]; [lra|]. assert (PA := P f xs). assert (PB := P g xs). revert PA PB IH. generalize (rsuml (fun x => f x * f x) xs) (rsuml (fun x => g x * g x) xs) (rsuml (fun x => f x * g x) xs) (f x) (g x). clear. intros a b s u v PA PB IH.
  assert (K : 2 * (u * v) * s <= u * u * b + v * v * a).
  { assert (N : 0 <= u * u * b + v * v * a) by (assert (0 <= u * u) by nra; assert (0 <= v * v) by nra; nra). apply Rsqr_incr_0_var; [|exact N]. unfold Rsqr.
    assert (X : 0 <= (u * u * b - v * v * a) * (u * u * b - v * v * a)) by apply Rle_0_sqr. assert (Y : 0 <= (u * v) * (u * v) * (a * b - s * s)) by (apply Rmult_le_pos; [apply Rle_0_sqr|lra]). lra. }
  lra.
Qed.
Lemma rsuml_map {A B} (h : B -> A) (g : A -> R) xs : rsuml g (map h xs) = rsuml (fun x => g (h x)) xs.
Proof. induction xs as [|x xs IH]; cbn [map rsuml]; [reflexivity|]. rewrite IH. reflexivity. Qed.
Lemma rsuml_flat {A B} (h : B -> list A) (g : A -> R) xs : rsuml g (flat_map h xs) = rsuml (fun x => rsuml g (h x)) xs.
Proof.
  assert (AP : forall a b, rsuml g (a ++ b) = rsuml g a + rsuml g b) by (intros a b; induction a as [|x a IH]; cbn [app rsuml]; [lra|]; rewrite IH; lra).
  induction xs as [|x xs IH]; cbn [flat_map rsuml]; [reflexivity|]. rewrite AP, IH. reflexivity.
Qed.
Lemma rsuml_nonneg {A} (g : A -> R) xs : (forall x, 0 <= g x) -> 0 <= rsuml g xs.
Proof. intros H. induction xs as [|x xs IH]; cbn [rsuml]; [lra|]. assert (Hx := H x). lra. Qed.
Lemma rsuml_app {A} (g : A -> R) a b : rsuml g (a ++ b) = rsuml g a + rsuml g b.
Proof. induction a as [|x a IH]; cbn [app rsuml]; [lra|]; rewrite IH; lra. Qed.
Lemma subrange g a b a' b' : (forall x, 0 <= g x) -> (a' <= a)%Z -> (a <= b + 1)%Z -> (b <= b')%Z -> rsuml g (zrange a b) <= rsuml g (zrange a' b').
Proof.
  intros P H1 H2 H3. rewrite (zrange_app a' (a - 1) b') by lia. replace (a - 1 + 1)%Z with a by lia. rewrite (zrange_app a b b') by lia. rewrite !rsuml_app.
  assert (X := rsuml_nonneg g (zrange a' (a - 1)) P). assert (Y := rsuml_nonneg g (zrange (b + 1) b') P). lra.
Qed.
Lemma modulus_pos z : 0 <= modulus2 z. Proof. unfold modulus2. destruct z. cbn [fst snd]. nra. Qed.
Lemma modulus_mul a b : modulus2 (cmul a b) = modulus2 a * modulus2 b. Proof. destruct a, b. unfold modulus2, cmul; simpl; ring. Qed.
Lemma norm2_range l q : norm2 l q = rsuml (fun m => modulus2 (at_m l q m)) (zrange (- Z.of_nat l) (Z.of_nat l)).
Proof.
  unfold norm2, zrange. rewrite rsuml_map. replace (Z.to_nat (Z.of_nat l - - Z.of_nat l + 1)) with (2 * l + 1)%nat by lia.
  assert (X : forall n, nsum n (fun k => modulus2 (q k)) = rsuml (fun k => modulus2 (q k)) (seq 0 n)).
  { induction n as [|n IH]; [reflexivity|]. cbn [nsum]. rewrite seq_S, rsuml_app, IH. cbn [rsuml]. simpl. lra. }
  rewrite X. apply rsuml_ext. intros k _. unfold at_m. do 2 f_equal. lia.
Qed.
Lemma norm2_pos l q : 0 <= norm2 l q. Proof. rewrite norm2_range. apply rsuml_nonneg. intros m. apply modulus_pos. Qed.
Lemma rsuml_single g m a b : (forall x, 0 <= g x) -> (a <= m <= b)%Z -> g m <= rsuml g (zrange a b).
Proof.
  intros P H. apply Rle_trans with (rsuml g (zrange m m)); [|apply subrange; auto; lia]. unfold zrange. replace (Z.to_nat (m - m + 1)) with 1%nat by lia. simpl. rewrite Z.add_0_r. lra.
Qed.
Definition absum (w : Z -> Z -> R) (q : Z -> cplx) (pairs : list (Z * Z)) : R :=
  rsuml (fun p => Rabs (w (fst p) (snd p)) * sqrt (modulus2 (cmul (cmul (q (fst p)) (q (snd p))) (q (- fst p - snd p)%Z)))) pairs.
Lemma absum_bound l w q N : 0 <= N -> rsuml (fun p => w (fst p) (snd p) * w (fst p) (snd p)) (m_pairs (Z.of_nat l)) <= N * N -> absum w (at_m l q) (m_pairs (Z.of_nat l)) <= N * sqrt (norm2 l q) ^ 3.
Proof.
  intros HN HW. set (L := Z.of_nat l) in *. set (s := norm2 l q). assert (S0 : 0 <= s) by apply norm2_pos. unfold absum. set (z := fun p : Z * Z => modulus2 (cmul (cmul (at_m l q (fst p)) (at_m l q (snd p))) (at_m l q (- fst p - snd p)%Z))).
  assert (C := cauchy (fun p => Rabs (w (fst p) (snd p))) (fun p => sqrt (z p)) (m_pairs L)). set (X := rsuml (fun p => Rabs (w (fst p) (snd p)) * sqrt (z p)) (m_pairs L)) in *.
  assert (ZP : forall p, 0 <= z p) by (intros p; apply modulus_pos).
  rewrite (rsuml_ext (fun p => Rabs (w (fst p) (snd p)) * Rabs (w (fst p) (snd p))) (fun p => w (fst p) (snd p) * w (fst p) (snd p))) in C by (intros p _; rewrite <- Rabs_mult; apply Rabs_pos_eq; nra).
  rewrite (rsuml_ext (fun p => sqrt (z p) * sqrt (z p)) z) in C by (intros p _; apply sqrt_sqrt, ZP).
  assert (Z3 : rsuml z (m_pairs L) <= s * (s * s)).
  { unfold m_pairs. rewrite rsuml_flat. apply Rle_trans with (rsuml (fun m1 => modulus2 (at_m l q m1) * (s * s)) (zrange (- L) L)).
    - apply rsuml_le. intros m1 H1. apply in_zrange in H1. rewrite rsuml_map. cbn [fst snd]. apply Rle_trans with (rsuml (fun m2 => (modulus2 (at_m l q m1) * s) * modulus2 (at_m l q m2)) (zrange (Z.max (- L - m1) (- L)) (Z.min (L - m1) L))).
      + apply rsuml_le. intros m2 H2. apply in_zrange in H2. unfold z; cbn [fst snd]. rewrite !modulus_mul. assert (T : modulus2 (at_m l q (- m1 - m2)) <= s). { unfold s. rewrite norm2_range. apply (rsuml_single (fun m => modulus2 (at_m l q m))); [intros; apply modulus_pos|]. fold L. lia. }
        assert (P1 := modulus_pos (at_m l q m1)). assert (P2 := modulus_pos (at_m l q m2)). assert (0 <= modulus2 (at_m l q m1) * modulus2 (at_m l q m2)) by nra. nra.
      + rewrite rsuml_scale. assert (T : rsuml (fun m2 => modulus2 (at_m l q m2)) (zrange (Z.max (- L - m1) (- L)) (Z.min (L - m1) L)) <= s). { unfold s. rewrite norm2_range. apply subrange; [intros; apply modulus_pos|lia|lia|lia]. }
        assert (P1 := modulus_pos (at_m l q m1)). assert (0 <= modulus2 (at_m l q m1) * s) by nra. nra.
    - rewrite (rsuml_ext _ (fun m1 => (s * s) * modulus2 (at_m l q m1))) by (intros; ring). rewrite rsuml_scale. unfold s at 3. rewrite norm2_range. fold L. lra. }
  assert (ZZ := rsuml_nonneg z (m_pairs L) ZP). assert (SS : sqrt s * sqrt s = s) by (apply sqrt_sqrt, S0). assert (SP := sqrt_pos s).
  assert (RHS : 0 <= N * sqrt s ^ 3) by (apply Rmult_le_pos; [exact HN|apply pow_le, SP]).
  apply Rsqr_incr_0_var; [|exact RHS]. unfold Rsqr. eapply Rle_trans; [exact C|]. apply Rle_trans with (N * N * (s * (s * s))).
  - apply Rmult_le_compat; [apply rsuml_nonneg; intros; nra|exact ZZ|exact HW|exact Z3].
  - right. replace (N * sqrt s ^ 3 * (N * sqrt s ^ 3)) with (N * N * ((sqrt s * sqrt s) * (sqrt s * sqrt s) * (sqrt s * sqrt s))) by ring. rewrite SS. ring.
Qed.
Lemma re_modulus z : Rabs (fst z) <= sqrt (modulus2 z).
Proof. destruct z as [x y]. unfold modulus2; cbn [fst snd]. rewrite <- sqrt_Rsqr_abs. apply sqrt_le_1_alt. unfold Rsqr. nra. Qed.
Lemma size_absum w q pairs : third_size w q pairs <= absum w q pairs.
Proof.
  unfold third_size, absum. induction pairs as [|p ps IH]; cbn [fold_right rsuml]; [lra|]. apply Rplus_le_compat; [|exact IH]. rewrite Rabs_mult. apply Rmult_le_compat_l; [apply Rabs_pos|apply re_modulus].
Qed.
Lemma third_abs w q pairs : Rabs (third w q pairs) <= third_size w q pairs.
Proof.
  unfold third, third_size. induction pairs as [|p ps IH]; cbn [fold_right]; [rewrite Rabs_R0; lra|]. eapply Rle_trans; [apply Rabs_triang|]. apply Rplus_le_compat_l. exact IH.
Qed.
(** The coefficients have unit norm. *)
Definition norm_check (rows : list (list Z)) : bool := (fold_right (fun m a => m * m + a) 0 (concat rows) <=? (10 ^ 20 + 10 ^ 6) * (10 ^ 20 + 10 ^ 6))%Z.
Lemma norm_checked l rows : w3j_rows l = Some rows -> norm_check rows = true.
Proof. do 21 (destruct l as [|l]; [intros H; injection H as <-; vm_compute; reflexivity|]). discriminate. Qed.
Lemma table_norm l t w : get_wigner3j l = Some t -> table_ok l w t -> rsuml (fun p => w (fst p) (snd p) * w (fst p) (snd p)) (m_pairs (Z.of_nat l)) <= (1 + / 10 ^ 14) * (1 + / 10 ^ 14).
Proof.
  intros H T. destruct (the_rows l t H) as (rows & E & T'). assert (NC := norm_checked l rows E). unfold norm_check in NC. apply Z.leb_le in NC. rewrite (concat_rows (Z.of_nat l) rows) in NC by apply (checks l rows E).
  apply IZR_le in NC. replace (IZR ((10 ^ 20 + 10 ^ 6) * (10 ^ 20 + 10 ^ 6))) with ((10 ^ 20 + 10 ^ 6) * (10 ^ 20 + 10 ^ 6)) in NC by (rewrite mult_IZR, plus_IZR, (pow_IZR 10 20), (pow_IZR 10 6); reflexivity).
  rewrite (rsuml_ext _ (fun p => / (10 ^ 20 * 10 ^ 20) * IZR (entry (Z.of_nat l) rows (fst p) (snd p) * entry (Z.of_nat l) rows (fst p) (snd p)))).
  - rewrite rsuml_scale. assert (S : rsuml (fun p => IZR (entry (Z.of_nat l) rows (fst p) (snd p) * entry (Z.of_nat l) rows (fst p) (snd p))) (m_pairs (Z.of_nat l)) = IZR (fold_right (fun m a => (m * m + a)%Z) 0%Z (map (fun p => entry (Z.of_nat l) rows (fst p) (snd p)) (m_pairs (Z.of_nat l))))).
    { clear NC. induction (m_pairs (Z.of_nat l)) as [|p ps IH]; [reflexivity|]. cbn [rsuml map fold_right]. rewrite IH, plus_IZR. reflexivity. }
    rewrite S. replace ((1 + / 10 ^ 14) * (1 + / 10 ^ 14)) with (/ (10 ^ 20 * 10 ^ 20) * ((10 ^ 20 + 10 ^ 6) * (10 ^ 20 + 10 ^ 6))) by (field; lra). apply Rmult_le_compat_l; [apply Rlt_le, Rinv_0_lt_compat; lra|exact NC].
  - intros [m1 m2] Hp. apply in_m_pairs in Hp. cbn [fst snd]. rewrite (table_fun l w t (wtable l rows) T T' m1 m2 Hp). unfold wtable. rewrite mult_IZR. field.
Qed.
Lemma absum_le w w' k q pairs : (forall p, In p pairs -> Rabs (w (fst p) (snd p)) <= k * Rabs (w' (fst p) (snd p))) -> absum w q pairs <= k * absum w' q pairs.
Proof.
  intros H. unfold absum. rewrite <- rsuml_scale. apply rsuml_le. intros p Hp. rewrite <- Rmult_assoc. apply Rmult_le_compat_r; [apply sqrt_pos|]. apply H, Hp.
Qed.
(** The sum is at most (1 + 10^-14) (sum_m |q_lm|^2)^(3/2), so the normalised invariant lies in [-1 - 10^-14, 1 + 10^-14]. *)
Theorem C68_bound l t w q pairs : get_wigner3j l = Some t -> table_ok l w t -> enumerates l pairs ->
  Rabs (third w (at_m l q) pairs) <= (1 + / 10 ^ 14) * sqrt (norm2 l q) ^ 3 /\ forall v, w_value true l w q pairs = Some v -> Rabs v <= 1 + / 10 ^ 14.
Proof.
  intros H T EN. assert (B : Rabs (third w (at_m l q) pairs) <= (1 + / 10 ^ 14) * sqrt (norm2 l q) ^ 3).
  { rewrite (third_perm w _ pairs (m_pairs (Z.of_nat l))) by (apply (enum_perm l); [exact EN|apply m_pairs_enum]). eapply Rle_trans; [apply third_abs|]. eapply Rle_trans; [apply size_absum|].
    apply absum_bound; [|exact (table_norm l t w H T)]. assert (0 < / 10 ^ 14) by (apply Rinv_0_lt_compat; lra). lra. }
  split; [exact B|]. intros v V. unfold w_value in V. fold (norm2 l q) in V. destruct (Req_EM_T (norm2 l q) 0) as [Z|Z]; [discriminate|]. injection V as <-.
  assert (P : 0 < sqrt (norm2 l q) ^ 3) by (apply pow_lt, sqrt_lt_R0; assert (N := norm2_pos l q); lra). unfold Rdiv. rewrite Rabs_mult, (Rabs_pos_eq (/ _)) by (apply Rlt_le, Rinv_0_lt_compat, P).
  apply Rmult_le_reg_r with (sqrt (norm2 l q) ^ 3); [exact P|]. rewrite Rmult_assoc, Rinv_l by lra. lra.
Qed.
Lemma exact_close l t w q pairs : get_wigner3j l = Some t -> table_ok l w t -> enumerates l pairs -> Rabs (third w (at_m l q) pairs - third (wigner l) (at_m l q) pairs) <= / 2 ^ 50 * sqrt (norm2 l q) ^ 3.
Proof.
  intros H T EN. eapply Rle_trans; [apply (C67_error l t w _ pairs H T EN)|]. assert (L : (l <= 20)%nat) by (apply C67_domain; eauto). destruct (C67_table l L) as (t' & w' & H' & T' & A). rewrite H in H'. injection H' as <-.
  assert (S : third_size (wigner l) (at_m l q) pairs <= 2 * sqrt (norm2 l q) ^ 3).
  { eapply Rle_trans; [apply size_absum|]. unfold absum. rewrite (rsuml_perm _ pairs (m_pairs (Z.of_nat l))) by (apply (enum_perm l); [exact EN|apply m_pairs_enum]). fold (absum (wigner l) (at_m l q) (m_pairs (Z.of_nat l))).
    assert (I : 0 < / 2 ^ 51 < 1 / 100) by (split; [apply Rinv_0_lt_compat; lra|]; replace (1 / 100) with (/ 100) by lra; apply Rinv_lt_contravar; lra).
    eapply Rle_trans; [apply (absum_le _ w (3 / 2))|].
    - intros [m1 m2] Hp. apply in_m_pairs in Hp. cbn [fst snd]. rewrite (table_fun l w t w' T T' m1 m2 Hp). assert (D := A m1 m2 Hp). assert (TR := Rabs_triang (wigner l m1 m2 - w' m1 m2) (w' m1 m2)). replace (wigner l m1 m2 - w' m1 m2 + w' m1 m2) with (wigner l m1 m2) in TR by ring.
      rewrite (Rabs_minus_sym (wigner l m1 m2)) in TR. assert (P := Rabs_pos (wigner l m1 m2)). set (x := Rabs (wigner l m1 m2)) in *. assert (/ 2 ^ 51 * x <= 1 / 100 * x) by (apply Rmult_le_compat_r; lra). lra.
    - assert (AB := absum_bound l w q (1 + / 10 ^ 14)). assert (J : 0 < / 10 ^ 14 < 1 / 100) by (split; [apply Rinv_0_lt_compat; lra|]; replace (1 / 100) with (/ 100) by lra; apply Rinv_lt_contravar; lra).
      specialize (AB ltac:(lra) (table_norm l t w H T)). assert (P : 0 <= sqrt (norm2 l q) ^ 3) by (apply pow_le, sqrt_pos). set (X := absum w _ _) in *. set (Y := sqrt (norm2 l q) ^ 3) in *. assert ((1 + / 10 ^ 14) * Y <= (1 + 1 / 100) * Y) by (apply Rmult_le_compat_r; lra). lra. }
  replace (/ 2 ^ 50) with (/ 2 ^ 51 * 2) by (field). rewrite Rmult_assoc. apply Rmult_le_compat_l; [apply Rlt_le, Rinv_0_lt_compat; lra|exact S].
Qed.

(** ** The reported values *)
(** [close k a b]: both missing, or numbers at most k apart. *)
Definition close (k : R) (a b : option R) : Prop := match a, b with Some x, Some y => Rabs (x - y) <= k | None, None => True | _, _ => False end.
Definition slack (normalize : bool) (s : R) : R := / 2 ^ 49 * (if normalize then 1 else sqrt s ^ 3).
Lemma w_close nz l t w w' q q' pairs : get_wigner3j l = Some t -> table_ok l w t -> table_ok l w' t -> enumerates l pairs -> norm2 l q = norm2 l q' -> third (wigner l) (at_m l q) pairs = third (wigner l) (at_m l q') pairs ->
  close (slack nz (norm2 l q)) (w_value nz l w q pairs) (w_value nz l w' q' pairs).
Proof.
  intros H T T' EN N E. assert (A := exact_close l t w q pairs H T EN). assert (B := exact_close l t w' q' pairs H T' EN). rewrite <- E, <- N in B. set (S := sqrt (norm2 l q) ^ 3) in *.
  assert (D : Rabs (third w (at_m l q) pairs - third w' (at_m l q') pairs) <= / 2 ^ 49 * S).
  { replace (third w (at_m l q) pairs - third w' (at_m l q') pairs) with ((third w (at_m l q) pairs - third (wigner l) (at_m l q) pairs) - (third w' (at_m l q') pairs - third (wigner l) (at_m l q) pairs)) by ring.
    eapply Rle_trans; [apply Rabs_triang|]. rewrite Rabs_Ropp. replace (/ 2 ^ 49) with (/ 2 ^ 50 + / 2 ^ 50) by field. lra. }
  unfold w_value. fold (norm2 l q) (norm2 l q'). rewrite <- N. unfold slack. fold S. destruct nz; [|exact D]. destruct (Req_EM_T (norm2 l q) 0) as [Z|Z]; [exact I|]. unfold close. fold S.
  assert (P : 0 < S) by (apply pow_lt, sqrt_lt_R0; assert (X := norm2_pos l q); lra). rewrite Rmult_1_r. unfold Rdiv. rewrite <- Rmult_minus_distr_r, Rabs_mult, (Rabs_pos_eq (/ S)) by (apply Rlt_le, Rinv_0_lt_compat, P).
  apply Rmult_le_reg_r with S; [exact P|]. rewrite Rmult_assoc, Rinv_l by lra. lra.
Qed.
Theorem C68_results fsph c l h s s1 h' s' s1' f f' : fsph_ok fsph l -> sc_wl c = true ->
  Forall (st_ok l) h -> Forall (st_ok l) h' -> st_run fsph get_wigner3j c l stl_new h = STDone s -> st_run fsph get_wigner3j c l stl_new h' = STDone s' -> st_ok l f -> st_ok l f' -> congruent_calls f f' ->
  st_call fsph get_wigner3j c l s f = STDone s1 -> st_call fsph get_wigner3j c l s' f' = STDone s1' ->
  (forall i, (i < length (si_pts f))%nat -> close (slack (sc_normalize c) (norm2 l (q_used c l f i))) (nth i (st_get_particle_order c s1) None) (nth i (st_get_particle_order c s1') None)) /\
  close (slack (sc_normalize c) (norm2 l (q_all (q_used c l f) (length (si_pts f))))) (sl_order s1) (sl_order s1').
Proof.
  intros F W H1 H2 R1 R2 O1 O2 C D1 D2.
  assert (L : (l <= 20)%nat) by (destruct (le_lt_dec l 20) as [L|L]; [exact L|]; exfalso; assert (X := proj2 (proj1 (C67_compute fsph c l h s f F H1 R1 O1)) (conj W L)); congruence).
  apply C67_domain in L as (t & T). destruct (real_table l t T) as (w & TO).
  destruct (C62_wl fsph get_wigner3j c l h s s1 f F (fun _ => real_table l) H1 R1 O1 D1 t w _ W T TO (m_pairs_enum l)) as (_ & V & A & B).
  destruct (C62_wl fsph get_wigner3j c l h' s' s1' f' F (fun _ => real_table l) H2 R2 O2 D2 t w _ W T TO (m_pairs_enum l)) as (_ & V' & A' & B').
  destruct (C68_rotation l c f f' _ C (proj1 O1) (m_pairs_enum l)) as [Q QA]. destruct (norms_congruent l c f f' C (proj1 O1)) as [NN NA]. destruct (C62_rotation l c f f' C (proj1 O1)) as (_ & _ & OK). assert (LE := proj1 C). split.
  - intros i Hi. destruct (V i Hi) as [X Y]. destruct (V' i ltac:(rewrite <- LE; exact Hi)) as [X' Y']. destruct (classic (ok_used c f i)) as [K|K].
    + rewrite (X K), (X' (proj1 (OK i) K)). apply (w_close _ l t); auto. apply m_pairs_enum.
    + rewrite (Y K), Y' by (intros Z; apply K, OK, Z). exact I.
  - destruct (classic (forall i, (i < length (si_pts f))%nat -> ok_used c f i)) as [K|K].
    + rewrite (A K), A' by (intros i Hi; apply OK, K; rewrite LE; exact Hi). apply (w_close _ l t); auto. apply m_pairs_enum.
    + rewrite (B K), B'; [exact I|]. intros Z. apply K. intros i Hi. apply OK, Z. rewrite <- LE. exact Hi.
Qed.
(** ** Example: a pair of particles along x and the same pair along z; the invariant for l = 2 is not zero. *)
Definition ex_z : st_in := ex_st [v0; V3 0 0 1] pair_bonds.
Lemma hz0 : hvec ex_cube [v0; V3 0 0 1] 0 (Bond 0 1 1 1 (V3 1 0 0)) = V3 0 0 1.
Proof. unfold hvec; simpl. rewrite ex_small; unfold vsub; simpl; try lra. apply vec_eq; simpl; ring. Qed.
Lemma hz1 : hvec ex_cube [v0; V3 0 0 1] 1 (Bond 1 0 1 1 (V3 (-1) 0 0)) = V3 0 0 (-1).
Proof. unfold hvec; simpl. rewrite ex_small; unfold vsub; simpl; try lra. apply vec_eq; simpl; ring. Qed.
Lemma ex_congruent : congruent_calls ex_pair ex_z.
Proof.
  split; [reflexivity|]. split; [reflexivity|]. split.
  - intros [|[|i]] [|[|j]] a d Hi Hj Ha Hd; simpl in *; try contradiction; destruct Ha as [<-|[]]; destruct Hd as [<-|[]]; rewrite ?hv0, ?hv1, ?hz0, ?hz1; unfold dot; simpl; ring.
  - intros [|[|i]] a Hi H; simpl in *; try contradiction; destruct H as [<-|[]]; [rewrite hv0|rewrite hv1]; intros E; injection E; lra.
Qed.
Lemma wigner_200 : wigner 2 0 0 = - sqrt (2 / 35).
Proof.
  rewrite wigner_zsum. replace (sgn (0 + 0) * zsum 2 0 0)%Z with (-6)%Z by (vm_compute; reflexivity). replace (2 / 35) with (6 * 6 * G 2 0 0 (- 0 - 0)).
  - rewrite sqrt_mult_alt by lra. rewrite sqrt_square by lra. ring.
  - unfold G. change (Z.of_nat 2 + 0)%Z with 2%Z. change (Z.of_nat 2 - 0)%Z with 2%Z. change (Z.of_nat 2 + (- 0 - 0))%Z with 2%Z. change (Z.of_nat 2 - (- 0 - 0))%Z with 2%Z. change (Z.of_nat 2) with 2%Z. change (3 * 2 + 1)%Z with 7%Z.
    replace (F 7) with 5040 by (unfold F; rewrite INR_IZR_INZ; f_equal; vm_compute; reflexivity). replace (F 2) with 2 by (unfold F; rewrite INR_IZR_INZ; f_equal; vm_compute; reflexivity). field.
Qed.
Definition ex_conf : stconf := STC false true false false.
Lemma ex_q k : q_used ex_conf 2 ex_z 0 k = harm 2 k (V3 0 0 1).
Proof.
  unfold q_used, q_point, qmean, yterms; simpl. rewrite hz0, bdir_1 by (unfold dot; simpl; ring). unfold wsum; simpl. destruct (harm 2 k (V3 0 0 1)) as [x y]. unfold cscale, cadd, c0; simpl. f_equal; field.
Qed.
Lemma harm_z k : (k < 5)%nat -> harm 2 k (V3 0 0 1) = if (k =? 2)%nat then cr (sqrt (5 / (4 * PI))) else c0.
Proof.
  intros H. assert (D : k = 0%nat \/ k = 1%nat \/ k = 2%nat \/ k = 3%nat \/ k = 4%nat) by lia.
  unfold harm. destruct D as [->|[->|[->|[->| ->]]]]; simpl Nat.eqb; cbv iota; unfold harm_sum; simpl; unfold dp, raising, lowering; simpl; unfold cscale, cmul, cadd, cr, c0, c1; simpl.
  1,2,4,5: f_equal; field.
  replace ((1 + 1 + 1 + 1 + 1) / (4 * PI) * ((1 + 1) * (1 + 1))) with (2 * 2 * (5 / (4 * PI))) by (field; apply PI_neq0). rewrite sqrt_mult_alt by lra. rewrite sqrt_square by lra. f_equal; field.
Qed.
Example C68_ex : congruent_calls ex_pair ex_z /\ si_pts ex_pair <> si_pts ex_z /\ enumerates 2 (m_pairs 2) /\
  third (wigner 2) (at_m 2 (q_used ex_conf 2 ex_z 0)) (m_pairs 2) = - sqrt (2 / 35) * sqrt (5 / (4 * PI)) ^ 3 /\
  third (wigner 2) (at_m 2 (q_used ex_conf 2 ex_pair 0)) (m_pairs 2) = - sqrt (2 / 35) * sqrt (5 / (4 * PI)) ^ 3.
Proof.
  split; [exact ex_congruent|]. split; [intros E; injection E; lra|]. split; [exact (m_pairs_enum 2)|].
  assert (V : third (wigner 2) (at_m 2 (q_used ex_conf 2 ex_z 0)) (m_pairs 2) = - sqrt (2 / 35) * sqrt (5 / (4 * PI)) ^ 3).
  { assert (A : forall m, (-2 <= m <= 2)%Z -> at_m 2 (q_used ex_conf 2 ex_z 0) m = if (m =? 0)%Z then cr (sqrt (5 / (4 * PI))) else c0).
    { intros m Hm. unfold at_m. rewrite ex_q, harm_z by lia. destruct (Z.eqb_spec m 0), (Nat.eqb_spec (Z.to_nat (Z.of_nat 2 + m)) 2); try lia; reflexivity. }
    unfold third. change (m_pairs 2) with [(-2, 0); (-2, 1); (-2, 2); (-1, -1); (-1, 0); (-1, 1); (-1, 2); (0, -2); (0, -1); (0, 0); (0, 1); (0, 2); (1, -2); (1, -1); (1, 0); (1, 1); (2, -2); (2, -1); (2, 0)]%Z.
    cbn [fold_right fst snd]. rewrite !A by lia. simpl Z.eqb. cbv iota. rewrite wigner_200. unfold cmul, cr, c0; cbn [fst snd]. ring. }
  split; [exact V|]. rewrite <- V. apply (C68_rotation 2 ex_conf ex_pair ex_z (m_pairs 2) ex_congruent (proj1 ex_pair_ok) (m_pairs_enum 2)). simpl. lia.
Qed.
Print Assumptions C68_rotation.
Print Assumptions C68_results.
