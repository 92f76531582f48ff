(** Proofs about LocalDensity in single precision: one bond, and the sum. *)
From Coq Require Import Psatz.
From Flocq Require Import Core.
From Verif Require Import F32Proofs F32Proofs4 Vec FaabbProofs FaabbProofs2 FaabbProps FrdfProofs2 FrdfProofs3 FldSpec.
Open Scope R_scope.

Lemma bpow20 : bpow radix2 (-20) = / 1048576 /\ bpow radix2 20 = 1048576.
Proof. split; cbn; lra. Qed.
Lemma big : bpow radix2 127 >= bpow radix2 60 /\ bpow radix2 60 >= 2 ^ 60.
Proof. split; [apply Rle_ge, bpow_le; lia|cbn; lra]. Qed.
Lemma fits_small x : Rabs x <= 2 ^ 60 -> fits x.
Proof. intros H. destruct big. unfold fits. lra. Qed.

(** What is counted of a particle, also beyond the rim. *)
Definition inside (r D d : R) : R := Rmin 1 ((r + D / 2 - d) / D).
Definition frac_error (r D : R) : R := u * (3 * (r / D) + 8).
Section Bond.
Variable l : fldens.
Hypothesis H : handy_ld l.
Let r := val (fld_r l).
Let D := val (fld_D l).
Lemma ld_sizes : finite (fld_r l) = true /\ finite (fld_D l) = true /\ / 1048576 <= r <= 1048576 /\ / 1048576 <= D <= 1048576 /\ r <= 65536 * D.
Proof. destruct H as ((F1 & B1) & (F2 & B2) & B3), bpow20 as [E1 E2]. rewrite E1, E2 in *. repeat split; auto; try apply B1; try apply B2. Qed.
Lemma half_val : is (fld_half l) (D / 2).
Proof.
  destruct ld_sizes as (F1 & F2 & B1 & B2 & B3). destruct (is_lit_Z 2 ltac:(lia)) as [G1 G2].
  assert (FM : fmt (D / 2)) by (apply fmt_half; [apply fmt_val|]; fold D; apply Rle_trans with (bpow radix2 (-20)); [apply bpow_le; lia|rewrite (proj1 bpow20); lra]).
  destruct (is_div (fld_D l) (lit 2 0) F2) as [F V]; [rewrite G2; lra|rewrite G2; apply fits_small; fold D; rewrite Rabs_pos_eq; lra|].
  split; [exact F|]. unfold fld_half. rewrite V, G2. apply rnd_fmt, FM.
Qed.
Lemma fraction_val (d : f32) : finite d = true -> 0 <= val d <= r + D ->
  finite (fld_fraction l d) = true /\ Rabs (val (fld_fraction l d) - inside r D (val d)) <= frac_error r D.
Proof.
  intros Fd Hd. destruct ld_sizes as (F1 & F2 & B1 & B2 & B3). destruct half_val as [Fh Vh]. assert (U : u = / 16777216) by reflexivity.
  set (k := r / D). assert (Ek : r = k * D) by (unfold k; field; lra). assert (K : 0 < k <= 65536) by (split; [apply Rdiv_lt_0_compat; lra|]; apply Rmult_le_reg_r with D; lra).
  destruct (is_sub (fld_r l) (fld_half l) F1 Fh) as [Ft Vt]. { rewrite Vh. fold r. apply fits_small. apply Rabs_le. lra. }
  destruct (rnd_minus (val (fld_r l)) (val (fld_half l)) (fmt_val _) (fmt_val _)) as (e1 & E1 & R1). rewrite R1, Vh in Vt. fold r in Vt. apply Rabs_le_inv in E1.
  assert (T : Rabs ((r - D / 2) * e1) <= u * (r + D / 2)). { rewrite Rabs_mult, Rmult_comm. apply Rmult_le_compat; try apply Rabs_pos; apply Rabs_le; lra. } apply Rabs_le_inv in T.
  assert (One := is_one). destruct One as [Fo Vo]. unfold fld_fraction, inside, frac_error. fold k.
  set (q := (r - D / 2 - val d) / D). assert (Eq : q * D = r - D / 2 - val d) by (unfold q; field; lra). assert (EI : (r + D / 2 - val d) / D = 1 + q) by (unfold q; field; lra). rewrite EI.
  rewrite Bltb_correct by auto. destruct (Rlt_bool_spec (val d) (val (fsub (fld_r l) (fld_half l)))) as [C|C].
  - split; [exact Fo|]. rewrite Vo. assert (Q : - (u * (k + 1 / 2)) <= q) by (apply Rmult_le_reg_r with D; [lra|]; rewrite Eq; nra). apply Rabs_le. unfold Rmin. destruct (Rle_dec 1 (1 + q)); nra.
  - assert (Q1 : q <= u * (k + 1 / 2)) by (apply Rmult_le_reg_r with D; [lra|]; rewrite Eq; nra). assert (Q2 : - (3 / 2) <= q) by (apply Rmult_le_reg_r with D; [lra|]; rewrite Eq; lra).
    destruct (is_add d (fld_half l) Fd Fh) as [Fs Vs]. { rewrite Vh. apply fits_small. apply Rabs_le. lra. }
    destruct (rnd_plus (val d) (val (fld_half l)) (fmt_val _) (fmt_val _)) as (e2 & E2 & R2). rewrite R2, Vh in Vs. apply Rabs_le_inv in E2.
    assert (S1 : Rabs (val (fadd d (fld_half l)) - (val d + D / 2)) <= u * (r + 3 / 2 * D)). { rewrite Vs. replace ((val d + D / 2) * (1 + e2) - (val d + D / 2)) with (e2 * (val d + D / 2)) by ring. rewrite Rabs_mult. apply Rmult_le_compat; try apply Rabs_pos; apply Rabs_le; lra. } apply Rabs_le_inv in S1.
    set (s := fadd d (fld_half l)) in *. destruct (is_sub (fld_r l) s F1 Fs) as [Fw Vw]. { fold r. apply fits_small. apply Rabs_le. nra. }
    destruct (rnd_minus (val (fld_r l)) (val s) (fmt_val _) (fmt_val _)) as (e3 & E3 & R3). rewrite R3 in Vw. fold r in Vw. apply Rabs_le_inv in E3. set (w := fsub (fld_r l) s) in *.
    assert (W0 : Rabs (r - val s) <= 1.6 * D + 0.01 * D). { apply Rabs_le. nra. }
    assert (W : Rabs (val w - q * D) <= u * (k + 3.2) * D). { rewrite Vw. replace ((r - val s) * (1 + e3) - q * D) with (- (val s - (val d + D / 2)) + e3 * (r - val s)) by (rewrite Eq; ring). eapply Rle_trans; [apply Rabs_triang|]. rewrite Rabs_Ropp, Rabs_mult.
      assert (Rabs e3 * Rabs (r - val s) <= u * (1.61 * D)) by (apply Rmult_le_compat; try apply Rabs_pos; [apply Rabs_le; lra|lra]). assert (Rabs (val s - (val d + D / 2)) <= u * (r + 3 / 2 * D)) by (apply Rabs_le; lra). nra. }
    set (q' := val w / D). assert (Eq' : q' * D = val w) by (unfold q'; field; lra). assert (W1 : Rabs (q' - q) <= u * (k + 3.2)). { apply Rmult_le_reg_r with D; [lra|]. rewrite <- (Rabs_pos_eq D) at 1 by lra. rewrite <- Rabs_mult. replace ((q' - q) * D) with (val w - q * D) by (rewrite <- Eq'; ring). exact W. } apply Rabs_le_inv in W1.
    assert (P150 : 0 < bpow radix2 (-150) <= u / 1000) by (split; [apply bpow_gt_0|]; apply Rle_trans with (bpow radix2 (-40)); [apply bpow_le; lia|cbn; unfold u; lra]).
    destruct (is_div w (fld_D l) Fw) as [Fy Vy]; [fold D; lra|fold D; fold q'; apply fits_small; apply Rabs_le; clear - W1 Q1 Q2 K U; rewrite U in *; lra|]. destruct (rnd_err (val w / val (fld_D l))) as (e4 & n4 & E4 & N4 & R4). rewrite R4 in Vy. fold D q' in Vy. apply Rabs_le_inv in E4, N4.
    set (y := fdiv w (fld_D l)) in *. assert (Y : Rabs (val y - q) <= u * (k + 5)). { rewrite Vy. apply Rabs_le. assert (Z : Rabs (q' * e4) <= 1.6 * u). { rewrite Rabs_mult. apply Rmult_le_compat; try apply Rabs_pos; apply Rabs_le; clear - W1 Q1 Q2 E4 K U; rewrite U in *; lra. } apply Rabs_le_inv in Z. clear - Z W1 Q1 Q2 N4 P150 K U. replace (q' * (1 + e4)) with (q' + q' * e4) by ring. rewrite U in *. lra. } apply Rabs_le_inv in Y.
    destruct (is_add fone y Fo Fy) as [Ff Vf]. { rewrite Vo. apply fits_small. apply Rabs_le. clear - Y Q1 Q2 K U. rewrite U in *. lra. }
    destruct (rnd_plus (val fone) (val y) (fmt_val _) (fmt_val _)) as (e5 & E5 & R5). rewrite R5, Vo in Vf. apply Rabs_le_inv in E5. split; [exact Ff|]. rewrite Vf.
    assert (X : Rabs ((1 + val y) * e5) <= 1.2 * u). { rewrite Rabs_mult. apply Rmult_le_compat; try apply Rabs_pos; apply Rabs_le; clear - Y Q1 Q2 E5 K U; rewrite U in *; lra. } apply Rabs_le_inv in X. apply Rabs_le. replace ((1 + val y) * (1 + e5)) with ((1 + val y) + (1 + val y) * e5) by ring. clear - X Y Q1 Q2 K U. rewrite U in *. unfold Rmin. destruct (Rle_dec 1 (1 + q)); lra.
Qed.
Lemma inside_range d : 0 <= d <= r + D -> - (1 / 2) <= inside r D d <= 1.
Proof.
  intros Hd. destruct ld_sizes as (_ & _ & B1 & B2 & B3). unfold inside. assert (X : (r + D / 2 - d) / D * D = r + D / 2 - d) by (field; lra). set (x := (r + D / 2 - d) / D) in *. assert (- (1 / 2) <= x) by (apply Rmult_le_reg_r with D; lra). unfold Rmin. destruct (Rle_dec 1 x); lra.
Qed.
(** The sum over the bonds, in any order. *)
Definition counted (ds : list f32) : f32 := fold_left (fun n d => fadd n (fld_fraction l d)) ds fzero.
Lemma point_eq is2d ds : fld_point l is2d ds = (counted ds, match ds with [] => fzero | _ => fdiv (counted ds) (fld_measure l is2d) end).
Proof.
  unfold fld_point, counted. assert (G : forall ds n0 a, snd (fold_left (fld_step l is2d) ds (n0, a)) = match ds with [] => a | _ => let n := fold_left (fun n d => fadd n (fld_fraction l d)) ds n0 in (n, fdiv n (fld_measure l is2d)) end).
  { induction ds0 as [|d ds0 IH]; intros n0 a; [reflexivity|]. cbn [fold_left]. unfold fld_step at 2. cbn [fst]. rewrite IH. destruct ds0; reflexivity. }
  rewrite G. destruct ds; reflexivity.
Qed.
Lemma sum_val ds : (Z.of_nat (length ds) <= 1048576)%Z -> Forall (fun d => finite d = true /\ 0 <= val d <= r + D) ds ->
  finite (counted ds) = true /\ let m := INR (length ds) in let S := rsum (map (fun d => inside r D (val d)) ds) in
  Rabs (val (counted ds) - S) * (1 - m * u) <= m * frac_error r D + u * m ^ 2 /\ Rabs S <= m.
Proof.
  unfold counted. rewrite <- fold_left_rev_right. intros L F. assert (FR : Forall (fun d => finite d = true /\ 0 <= val d <= r + D) (rev ds)) by (apply Forall_forall; intros x Hx; apply in_rev in Hx; revert x Hx; apply Forall_forall, F).
  rewrite <- rev_length in *. assert (PS : forall x x', Permutation x x' -> rsum (map (fun d => inside r D (val d)) x) = rsum (map (fun d => inside r D (val d)) x')) by (induction 1; simpl; lra).
  rewrite (PS ds (rev ds)) by apply Permutation_rev. clear PS F. revert L FR. generalize (rev ds). clear ds. intros ds L F. destruct ld_sizes as (F1 & F2 & B1 & B2 & B3). assert (U : u = / 16777216) by reflexivity.
  assert (FE : 0 <= frac_error r D <= 1 / 10). { unfold frac_error. set (k := r / D). assert (Ek : r = k * D) by (unfold k; field; lra). assert (K : 0 < k <= 65536) by (split; [apply Rdiv_lt_0_compat; lra|]; apply Rmult_le_reg_r with D; lra). clear - K U. rewrite U. lra. }
  induction ds as [|d ds IH].
  - split; [reflexivity|]. cbn -[val]. change (val fzero) with 0. replace (0 - 0) with 0 by ring. rewrite Rabs_R0. lra.
  - inversion F as [|? ? [Fd Hd] F']; subst. cbn [length] in L. destruct IH as (IF & IE & IS); [lia|assumption|]. cbn [fold_right map rsum length] in *. rewrite S_INR. set (n := fold_right _ fzero ds) in *. set (S := fold_right Rplus 0 (map (fun d => inside r D (val d)) ds)) in *. change (rsum (map (fun d => inside r D (val d)) ds)) with S in IE, IS.
    set (m := INR (length ds)) in *. assert (M : 0 <= m <= 1048575). { split; [apply pos_INR|]. unfold m. rewrite INR_IZR_INZ. apply IZR_le. lia. }
    destruct (fraction_val d Fd Hd) as [Ff Vf]. assert (IR := inside_range (val d) Hd). set (x := inside r D (val d)) in *. set (f := fld_fraction l d) in *. set (fe := frac_error r D) in *.
    set (E := Rabs (val n - S)) in *. assert (E0 : 0 <= E) by apply Rabs_pos. assert (EB : E <= m + 70000) by nra.
    assert (NB : Rabs (val n) <= 2 * m + 70000). { replace (val n) with ((val n - S) + S) by ring. eapply Rle_trans; [apply Rabs_triang|]. fold E. lra. }
    apply Rabs_le_inv in NB. apply Rabs_le_inv in Vf. assert (IS' := IS). apply Rabs_le_inv in IS'.
    destruct (is_add n f IF Ff) as [Fa Va]. { apply fits_small. apply Rabs_le. lra. }
    destruct (rnd_plus (val n) (val f) (fmt_val _) (fmt_val _)) as (e & He & Re). rewrite Re in Va. split; [exact Fa|]. cbv zeta. rewrite Va. split; [|eapply Rle_trans; [apply Rabs_triang|]; assert (Rabs x <= 1) by (apply Rabs_le; lra); lra].
    assert (ER : Rabs ((val n + val f) * (1 + e) - (x + S)) <= (E + fe) * (1 + u) + u * (m + 1)).
    { replace ((val n + val f) * (1 + e) - (x + S)) with (((val n - S) + (val f - x)) * (1 + e) + (x + S) * e) by ring. eapply Rle_trans; [apply Rabs_triang|]. rewrite !Rabs_mult. apply Rplus_le_compat.
      - apply Rmult_le_compat; try apply Rabs_pos; [eapply Rle_trans; [apply Rabs_triang|]; fold E; assert (Rabs (val f - x) <= fe) by (apply Rabs_le; lra); lra|]. apply Rabs_le_inv in He. apply Rabs_le. lra.
      - rewrite Rmult_comm. apply Rmult_le_compat; try apply Rabs_pos; [exact He|]. apply Rabs_le. lra. }
    assert (MU : 0 <= (m + 1) * u <= 1 / 10) by (clear - M U; rewrite U in *; lra). assert (U0 : 0 < u) by (rewrite U; lra).
    apply Rle_trans with (((E + fe) * (1 + u) + u * (m + 1)) * (1 - (m + 1) * u)); [apply Rmult_le_compat_r; [lra|exact ER]|].
    assert (A0 : 0 <= (m + 1) * u * u) by (apply Rmult_le_pos; lra). assert (A1 : (1 + u) * (1 - (m + 1) * u) <= 1 - m * u) by (clear - A0; nra). assert (A2 : E * ((1 + u) * (1 - (m + 1) * u)) <= E * (1 - m * u)) by (apply Rmult_le_compat_l; lra).
    assert (M0 : 0 <= m * u) by (apply Rmult_le_pos; lra). assert (A3 : fe * ((1 + u) * (1 - (m + 1) * u)) <= fe * 1) by (apply Rmult_le_compat_l; lra). assert (A4 : u * (m + 1) * (1 - (m + 1) * u) <= u * (m + 1) * 1) by (apply Rmult_le_compat_l; lra).
    replace (((E + fe) * (1 + u) + u * (m + 1)) * (1 - (m + 1) * u)) with (E * ((1 + u) * (1 - (m + 1) * u)) + fe * ((1 + u) * (1 - (m + 1) * u)) + u * (m + 1) * (1 - (m + 1) * u)) by ring. clear - A2 A3 A4 IE M0. nra.
Qed.
End Bond.
