(** Proofs about distances in single precision: accuracy, self distance, bonds of LinkCell. *)
From Coq Require Import Psatz Permutation.
From Verif Require Import F32Proofs F32Proofs4 F32Props Vec FaabbProofs FaabbProofs2 FcellProofs4 FdistProofs FdistSpec.
Open Scope R_scope.

Lemma signed (w x : R) : exists t, Rabs t = Rabs x /\ Rabs (w - t) = Rabs (Rabs w - Rabs x).
Proof.
  destruct (Rle_dec 0 w) as [H|H].
  - exists (Rabs x). split; [apply Rabs_Rabsolu|]. rewrite (Rabs_pos_eq w) by auto. reflexivity.
  - exists (- Rabs x). split; [rewrite Rabs_Ropp; apply Rabs_Rabsolu|]. rewrite (Rabs_left w) by lra. replace (- w - Rabs x) with (- (w - - Rabs x)) by ring. rewrite Rabs_Ropp. reflexivity.
Qed.
Lemma norm_comp (a c : vec3) : Rabs (vx a) <= Rabs (vx c) -> Rabs (vy a) <= Rabs (vy c) -> Rabs (vz a) <= Rabs (vz c) -> norm a <= norm c.
Proof.
  intros X Y Z. unfold norm. apply sqrt_le_1_alt. unfold dot.
  assert (S : forall x y, Rabs x <= Rabs y -> x * x <= y * y). { intros x y H. apply Rsqr_le_abs_1 in H. unfold Rsqr in H. exact H. }
  assert (A := S _ _ X). assert (B := S _ _ Y). assert (C := S _ _ Z). lra.
Qed.
Lemma axis_form (b : fbox) (q p : fvec) i j k : (f2d b = true -> is (fvz (fL b)) 0) ->
  let d := (rv (fflat b p) - moved b q i j k)%V in
  vx d = val (fvx p) - (val (fvx q) + IZR i * val (fvx (fL b))) /\ vy d = val (fvy p) - (val (fvy q) + IZR j * val (fvy (fL b))) /\
  vz d = if f2d b then 0 else val (fvz p) - (val (fvz q) + IZR k * val (fvz (fL b))).
Proof.
  intros H. unfold moved, fflat, rv. destruct (f2d b); cbn [vsub vadd vx vy vz fvx fvy fvz]; (split; [ring|]; split; [ring|]); [|ring].
  destruct (H eq_refl) as [_ ->]. cbn [fzero B2R]. ring.
Qed.
(** The three axes of the wrapped difference. *)
Lemma wrapped_near b q p : plain_box b -> good_point b q -> good_point b p ->
  let w := fwrap b (fvsub p q) in
  fin3 w /\ Rabs (val (fvx w)) <= bpow radix2 62 /\ Rabs (val (fvy w)) <= bpow radix2 62 /\ Rabs (val (fvz w)) <= bpow radix2 62 /\
  exists i j k T, allowed b i j k /\ norm T = exact_distance b p q i j k /\ (forall i' j' k', allowed b i' j' k' -> exact_distance b p q i j k <= exact_distance b p q i' j' k') /\
    norm (rv w - T)%V <= 8 * u * (box_size b + spread q p).
Proof.
  intros PB (Qx & Qy & Qz & Q2) (Px & Py & Pz & P2) w. assert (PB' := PB). destruct PB as (Lx & Ly & Lz & _).
  assert (OV : ordinary_point (fvsub p q)) by (repeat split; apply half_sub; assumption).
  destruct (C65_wrap b (fvsub p q) PB' OV) as (Wx & Wy & Wz & W2). fold w in Wx, Wy, Wz, W2. cbn [fvsub fvx fvy fvz] in Wx, Wy, Wz.
  destruct (axis_near _ _ _ _ _ Lx Px Qx Wx) as (i & Ai & Mi & Ei & Fx & Bx). destruct (axis_near _ _ _ _ _ Ly Py Qy Wy) as (j & Aj & Mj & Ej & Fy & By).
  assert (HZ : finite (fvz w) = true /\ Rabs (val (fvz w)) <= bpow radix2 62 /\ exists k, (fpz b = false \/ f2d b = true -> k = 0%Z) /\
    let z k := if f2d b then 0 else val (fvz p) - (val (fvz q) + IZR k * val (fvz (fL b))) in
    (forall k', (fpz b = false \/ f2d b = true -> k' = 0%Z) -> Rabs (z k) <= Rabs (z k')) /\ Rabs (Rabs (val (fvz w)) - Rabs (z k)) <= 8 * u * (val (fvz (fL b)) + Rabs (val (fvz p) - val (fvz q)))).
  { destruct (f2d b) eqn:D.
    - destruct (Q2 eq_refl) as [Fq Vq]. destruct (P2 eq_refl) as [Fp Vp]. destruct Lz as [_ L0].
      assert (W0 : is (fvz w) 0).
      { destruct (fpx b) eqn:X; [apply W2; auto|]. destruct (fpy b) eqn:Y; [apply W2; auto|]. destruct (fpz b) eqn:Z; [apply W2; auto|].
        unfold w, fwrap. rewrite X, Y, Z. cbn [negb andb fvsub fvz]. apply sub_zeros; split; assumption. }
      destruct W0 as [Fw Vw]. split; [exact Fw|]. rewrite Vw, L0, Vq, Vp. split; [rewrite Rabs_R0; apply bpow_ge_0|]. exists 0%Z. split; [auto|]. cbv zeta. split; [intros; apply Rle_refl|].
      rewrite !Rminus_0_r, !Rabs_R0, Rminus_0_r, Rabs_R0. lra.
    - specialize (Wz eq_refl). destruct (axis_near _ _ _ _ _ Lz Pz Qz Wz) as (k & Ak & Mk & Ek & Fz & Bz). split; [exact Fz|]. split; [exact Bz|]. exists k.
      split; [intros [H|H]; [auto|discriminate]|]. cbv zeta. split; [|exact Ek]. intros k' H. apply Mk. auto. }
  destruct HZ as (Fz & Bz & k & Ak & Mk & Ek). cbv zeta in Mk, Ek.
  split; [split; [exact Fx|split; [exact Fy|exact Fz]]|]. split; [exact Bx|]. split; [exact By|]. split; [exact Bz|].
  assert (L2 : f2d b = true -> is (fvz (fL b)) 0) by (intros D; rewrite D in Lz; exact Lz).
  destruct (signed (val (fvx w)) (val (fvx p) - (val (fvx q) + IZR i * val (fvx (fL b))))) as (tx & Tx & Dx).
  destruct (signed (val (fvy w)) (val (fvy p) - (val (fvy q) + IZR j * val (fvy (fL b))))) as (ty & Ty & Dy).
  destruct (signed (val (fvz w)) (if f2d b then 0 else val (fvz p) - (val (fvz q) + IZR k * val (fvz (fL b))))) as (tz & Tz & Dz).
  rewrite <- Dx in Ei. rewrite <- Dy in Ej. rewrite <- Dz in Ek. clear Dx Dy Dz.
  exists i, j, k, (V3 tx ty tz). split; [split; [exact Ai|split; [exact Aj|exact Ak]]|].
  destruct (axis_form b q p i j k L2) as (Ax & Ay & Az). split; [|split].
  - unfold exact_distance. apply Rle_antisym; apply norm_comp; rewrite ?Ax, ?Ay, ?Az; cbn [vx vy vz]; rewrite ?Tx, ?Ty, ?Tz; apply Rle_refl.
  - intros i' j' k' (Ai' & Aj' & Ak'). destruct (axis_form b q p i' j' k' L2) as (Ax' & Ay' & Az'). unfold exact_distance.
    apply norm_comp; [rewrite Ax, Ax'; apply Mi; exact Ai'|rewrite Ay, Ay'; apply Mj; exact Aj'|rewrite Az, Az'; apply Mk; exact Ak'].
  - eapply Rle_trans; [apply norm_sum|]. unfold rv, vsub, box_size, spread. cbn [vx vy vz] in *.
    set (ux := Rabs (val (fvx p) - val (fvx q))) in *. set (uy := Rabs (val (fvy p) - val (fvy q))) in *. set (uz := Rabs (val (fvz p) - val (fvz q))) in *.
    replace (8 * u * (val (fvx (fL b)) + val (fvy (fL b)) + val (fvz (fL b)) + (ux + uy + uz))) with (8 * u * (val (fvx (fL b)) + ux) + 8 * u * (val (fvy (fL b)) + uy) + 8 * u * (val (fvz (fL b)) + uz)) by ring. lra.
Qed.
Lemma spread_pos q p : 0 <= spread q p.
Proof. unfold spread. assert (A := Rabs_pos (val (fvx p) - val (fvx q))). assert (B := Rabs_pos (val (fvy p) - val (fvy q))). assert (C := Rabs_pos (val (fvz p) - val (fvz q))). lra. Qed.
Lemma sqrt_finite (x : f32) : finite x = true -> 0 <= val x -> finite (Bsqrt mode_NE x) = true.
Proof.
  intros F P. destruct (Bsqrt_correct 24 128 _ _ mode_NE x) as (_ & W & _). rewrite W. destruct x as [s| | |s m e B]; try discriminate; auto. destruct s; auto. exfalso.
  cbn [B2R] in P. assert (N : @F2R radix2 {| Fnum := SpecFloat.cond_Zopp true (Z.pos m); Fexp := e |} < 0) by (apply F2R_lt_0; cbn; lia). lra.
Qed.
Lemma near_distance b q p : plain_box b -> good_point b q -> good_point b p ->
  exists D, nearest_distance b q p D /\ finite (fdistance b q p) = true /\ Rabs (val (fdistance b q p) - D) <= distance_error b q p D.
Proof.
  intros PB GQ GP. destruct (wrapped_near b q p PB GQ GP) as (Fw & Bx & By & Bz & i & j & k & T & A & NT & MN & E). cbv zeta in *.
  exists (exact_distance b p q i j k). split; [split; [exists i, j, k; split; [exact A|reflexivity]|exact MN]|].
  unfold fdistance. set (r := fwrap b (fvsub p q)) in *. rewrite <- NT. clear MN NT A. destruct (norm2_val r Fw Bx By Bz) as (F & P & Q). rewrite <- norm_sq in Q. split; [apply sqrt_finite; auto|].
  assert (K := root_val (fnorm2 r) (norm (rv r)) (norm_nonneg _) F P Q). assert (N := norm_diff (rv r) T). apply Rabs_le_inv in N.
  destruct (distance_val _ F P) as (e & n & Ee & Nn & ->). apply Rabs_le_inv in Ee. apply Rabs_le_inv in Nn.
  assert (ND := norm_nonneg T). assert (NR := norm_nonneg (rv r)). assert (S := size_pos b PB). assert (SP := spread_pos q p). assert (SQ := sqrt_pos (val (fnorm2 r))). assert (CS : 0 < cell_slack) by apply bpow_gt_0.
  destruct tiny_slack as [TS T70]. unfold distance_error. rewrite <- T70.
  set (w := sqrt (val (fnorm2 r))) in *. assert (W : w * (1 - u) <= w * (1 + e) <= w * (1 + u)) by (split; apply Rmult_le_compat_l; lra).
  set (z := w * (1 + e)) in *. set (m := norm (rv r - T)%V) in *. set (nr := norm (rv r)) in *. set (s := box_size b) in *. set (sp := spread q p) in *. set (D := norm T) in *.
  clearbody z w m nr s sp D. apply Rabs_le. unfold u in *. lra.
Qed.

(** * The same question the other way round *)
Lemma exact_flip b p q i j k : exact_distance b p q i j k = exact_distance b q p (- i) (- j) (- k).
Proof.
  unfold exact_distance. assert (E : norm (rv (fflat b p) - moved b q i j k)%V = norm (- (rv (fflat b p) - moved b q i j k))%V).
  { unfold norm. f_equal. unfold dot, vneg, vsub. cbn [vx vy vz]. ring. }
  rewrite E. f_equal. unfold moved, vneg, vsub, vadd. cbn [vx vy vz]. rewrite !opp_IZR. f_equal; ring.
Qed.
Lemma allowed_opp b i j k : allowed b i j k -> allowed b (- i) (- j) (- k).
Proof. intros (A & B & C). repeat split; intros H; [rewrite (A H)|rewrite (B H)|rewrite (C H)]; reflexivity. Qed.
Lemma nearest_flip b q p D : nearest_distance b q p D -> nearest_distance b p q D.
Proof.
  intros [(i & j & k & A & ->) M]. split; [exists (- i)%Z, (- j)%Z, (- k)%Z; split; [apply allowed_opp; exact A|apply exact_flip]|].
  intros i' j' k' A'. rewrite (exact_flip b q p). apply M. apply allowed_opp. exact A'.
Qed.
Lemma nearest_unique b q p D D' : nearest_distance b q p D -> nearest_distance b q p D' -> D = D'.
Proof. intros [(i & j & k & A & E) M] [(i' & j' & k' & A' & E') M']. apply Rle_antisym; [rewrite E'; apply M; exact A'|rewrite E; apply M'; exact A]. Qed.
Lemma spread_flip q p : spread p q = spread q p.
Proof. unfold spread. rewrite (Rabs_minus_sym (val (fvx q))), (Rabs_minus_sym (val (fvy q))), (Rabs_minus_sym (val (fvz q))). reflexivity. Qed.
Lemma sub_flip (x y : f32) : finite (fsub x y) = true -> finite (fsub y x) = true /\ val (fsub y x) = - val (fsub x y).
Proof.
  intros F. destruct (fsub_args _ _ F) as [Fx Fy]. destruct (fsub_val x y Fx Fy) as [I1 E1]. destruct (fsub_val y x Fy Fx) as [I2 E2].
  assert (O : rnd (val y - val x) = - rnd (val x - val y)) by (replace (val y - val x) with (- (val x - val y)) by ring; apply round_NE_opp).
  assert (G : finite (fsub y x) = true) by (apply I2; rewrite O, Rabs_Ropp; apply I1; exact F). split; [exact G|]. rewrite E1, E2 by assumption. exact O.
Qed.

(** * A point and itself *)
Lemma self_sub (x : f32) : finite x = true -> is (fsub x x) 0.
Proof. intros F. destruct (is_sub x x F F) as [G V]; [rewrite Rminus_diag_eq by reflexivity; apply fits_0|]. rewrite Rminus_diag_eq, rnd_0 in V by reflexivity. split; assumption. Qed.
Lemma is_inj (x y : f32) r : r <> 0 -> is x r -> is y r -> x = y.
Proof.
  intros N [Fx Vx] [Fy Vy]. assert (ST : forall x : f32, finite x = true -> val x <> 0 -> is_finite_strict x = true) by (intros [s| | |s m e B] F V; try discriminate; auto; exfalso; apply V; reflexivity).
  apply B2R_inj; [apply ST; [exact Fx|rewrite Vx; exact N]|apply ST; [exact Fy|rewrite Vy; exact N]|rewrite Vx, Vy; reflexivity].
Qed.
Lemma half_modulus (per : bool) (f : f32) : is f (/ 2) -> is (if per then fmodulus f fone else f) (/ 2).
Proof.
  intros H. destruct per; [|exact H]. assert (E : f = lit 1 (-1)).
  { apply (is_inj _ _ (/ 2)); [lra|exact H|]. destruct (is_lit 1 (-1)) as [F V]; [unfold fits; change (bpow radix2 (-1)) with (/ 2); rewrite Rabs_pos_eq by lra; assert (X := bpow_le radix2 0 127 ltac:(lia)); change (bpow radix2 0) with 1 in X; lra|].
    split; [exact F|]. rewrite V, Rmult_1_l. change (/ 2) with (bpow radix2 (-1)). apply rnd_fmt. apply fmt_bpow. lia. }
  subst f. assert (Q : B2SF (fmodulus (lit 1 (-1)) fone) = SpecFloat.S754_finite false 8388608 (-24)) by (vm_compute; reflexivity).
  split; [rewrite <- is_finite_SF_B2SF, Q; reflexivity|]. rewrite sf_val, Q. cbn [SF2R]. unfold F2R. cbn [Fnum Fexp SpecFloat.cond_Zopp]. change (bpow radix2 (-24)) with (/ 16777216). lra.
Qed.
Lemma fmt_half (L : f32) : ordinary_length L -> fmt (val L / 2).
Proof.
  intros HL. destruct (is_flo L HL) as [F V]. replace (val L / 2) with (- (- (val L / 2))) by ring. rewrite <- V. apply fmt_opp, fmt_val.
Qed.
Lemma centre_axis (per : bool) (L v t f : f32) : ordinary_length L -> is v 0 -> is t 0 -> f = fdiv (fsub (fsub v (flo L)) t) L ->
  is (fadd (flo L) (fmul (if per then fmodulus f fone else f) L)) 0.
Proof.
  intros HL Hv Ht ->. assert (Cv : ordinary_coord v) by (destruct Hv as [F V]; split; [exact F|rewrite V, Rabs_R0; apply bpow_ge_0]).
  destruct (delta_ok L v t HL Cv Ht) as [[Fd Vd] _]. destruct Hv as [_ Vv]. rewrite Vv in Vd. replace (0 - - (val L / 2)) with (val L / 2) in Vd by ring. rewrite rnd_fmt in Vd by (apply fmt_half; exact HL).
  set (d := fsub (fsub v (flo L)) t) in *. assert (HL' := HL). destruct HL as [FL [L0 L1]]. assert (P := bpow_gt_0 radix2 (-60)).
  assert (Q : val d / val L = / 2) by (rewrite Vd; field; lra). assert (One := bpow_le radix2 0 127 ltac:(lia)). change (bpow radix2 0) with 1 in One.
  assert (H2 : is (fdiv d L) (/ 2)).
  { destruct (is_div d L Fd) as [F V]; [lra|rewrite Q; unfold fits; rewrite Rabs_pos_eq by lra; lra|]. split; [exact F|]. rewrite V, Q. change (/ 2) with (bpow radix2 (-1)). apply rnd_fmt. apply fmt_bpow. lia. }
  destruct (half_modulus per _ H2) as [Fm Vm]. set (m := if per then _ else _) in *.
  assert (L2 : val m * val L = val L / 2) by (rewrite Vm; field). assert (B62 : bpow radix2 60 <= bpow radix2 127) by (apply bpow_le; lia).
  destruct (is_mul m L Fm FL) as [Fp Vp]; [rewrite L2; unfold fits; rewrite Rabs_pos_eq by lra; lra|]. rewrite L2, rnd_fmt in Vp by (apply fmt_half; exact HL').
  destruct (is_flo L HL') as [Fo Vo]. destruct (is_add (flo L) (fmul m L) Fo Fp) as [Fa Va]; [rewrite Vo, Vp; replace (- (val L / 2) + val L / 2) with 0 by ring; apply fits_0|].
  split; [exact Fa|]. rewrite Va, Vo, Vp. replace (- (val L / 2) + val L / 2) with 0 by ring. apply rnd_0.
Qed.
Lemma half_mul (x y : f32) : half_coord x -> half_coord y -> finite (fmul x y) = true /\ Rabs (val (fmul x y)) <= bpow radix2 118.
Proof.
  intros [Fx Bx] [Fy By]. assert (B : Rabs (val x * val y) <= bpow radix2 118) by (change 118%Z with (59 + 59)%Z; rewrite bpow_plus, Rabs_mult; apply Rmult_le_compat; auto using Rabs_pos).
  destruct (is_mul x y Fx Fy) as [F V]; [unfold fits; eapply Rle_trans; [exact B|]; apply bpow_le; lia|]. split; [exact F|]. rewrite V. apply rnd_abs; [lia|exact B].
Qed.
Lemma wrap_zero b v : sane_box b -> is (fvx v) 0 -> is (fvy v) 0 -> is (fvz v) 0 -> is (fvx (fwrap b v)) 0 /\ is (fvy (fwrap b v)) 0 /\ is (fvz (fwrap b v)) 0.
Proof.
  intros (Lx & Ly & Lz & Hxy & Hxz & Hyz) Vx Vy Vz. unfold fwrap. destruct (negb (fpx b) && negb (fpy b) && negb (fpz b)); [auto|].
  assert (FT : finite (fsub (fxz b) (fmul (fyz b) (fxy b))) = true).
  { destruct (half_mul _ _ Hyz Hxy) as [Fm Bm]. destruct Hxz as [Fz Bz]. apply (is_sub _ _ Fz Fm). unfold fits. unfold Rminus. eapply Rle_trans; [apply Rabs_triang|]. rewrite Rabs_Ropp.
    assert (A := bpow_le radix2 59 118 ltac:(lia)). assert (C : 2 * bpow radix2 118 <= bpow radix2 127) by (change 2 with (bpow radix2 1); rewrite <- bpow_plus; apply bpow_le; lia). lra. }
  assert (T : is (fadd (fmul (fsub (fxz b) (fmul (fyz b) (fxy b))) (fvz v)) (fmul (fxy b) (fvy v))) 0) by (apply add_zeros; apply mul_zero_r; try assumption; apply Hxy).
  assert (T2 : is (fmul (fyz b) (fvz v)) 0) by (apply mul_zero_r; [apply Hyz|exact Vz]).
  unfold ffractional. cbn [fvx fvy fvz]. unfold fabsolute. cbn [fvx fvy fvz].
  assert (X := centre_axis (fpx b) _ _ _ _ Lx Vx T eq_refl). assert (Y := centre_axis (fpy b) _ _ _ _ Ly Vy T2 eq_refl).
  assert (Z : is (fadd (flo (fvz (fL b))) (fmul (if fpz b then fmodulus (if f2d b then fzero else fdiv (fsub (fvz v) (flo (fvz (fL b)))) (fvz (fL b))) fone else (if f2d b then fzero else fdiv (fsub (fvz v) (flo (fvz (fL b)))) (fvz (fL b)))) (fvz (fL b)))) 0).
  { destruct (f2d b).
    - assert (F0 : is (flo (fvz (fL b))) 0).
      { destruct Lz as [FL VL]. destruct (is_lit_Z 2) as [F2 V2]; [cbn; lia|]. unfold flo, fopp.
        destruct (is_div (fvz (fL b)) (lit 2 0) FL) as [F3 W3]. { rewrite V2. lra. } { rewrite VL, V2. replace (0 / 2) with 0 by lra. apply fits_0. }
        rewrite VL, V2 in W3. replace (0 / 2) with 0 in W3 by lra. rewrite rnd_0 in W3. split; [now rewrite is_finite_Bopp|rewrite B2R_Bopp, W3; ring]. }
      assert (Ff : finite (if fpz b then fmodulus fzero fone else fzero) = true). { destruct (fpz b); vm_compute; reflexivity. }
      apply add_zeros; [exact F0|]. apply mul_zero_r; [exact Ff|exact Lz].
    - assert (C := centre_axis (fpz b) _ _ fzero _ Lz Vz (conj eq_refl eq_refl) eq_refl).
      assert (E : fsub (fsub (fvz v) (flo (fvz (fL b)))) fzero = fsub (fvz v) (flo (fvz (fL b)))).
      { assert (Cv : ordinary_coord (fvz v)) by (destruct Vz as [F V]; split; [exact F|rewrite V, Rabs_R0; apply bpow_ge_0]). destruct (delta_ok _ _ fzero Lz Cv (conj eq_refl eq_refl)) as [A1 B1].
        refine (is_inj _ _ _ _ A1 B1). destruct Vz as [_ V]. rewrite V. replace (0 - - (val (fvz (fL b)) / 2)) with (val (fvz (fL b)) / 2) by ring. rewrite rnd_fmt by (apply fmt_half; exact Lz). destruct Lz as [_ [L0 _]]. assert (P := bpow_gt_0 radix2 (-60)). lra. }
      rewrite E in C. exact C. }
  set (x := fadd (flo (fvx (fL b))) _) in *. set (y := fadd (flo (fvy (fL b))) _) in *. set (z := fadd (flo (fvz (fL b))) _) in *.
  split; [|split].
  - apply add_zeros; [exact X|]. apply add_zeros; [apply mul_zero_r; [apply Hxy|exact Y]|apply mul_zero_r; [apply Hxz|exact Z]].
  - apply add_zeros; [exact Y|]. apply mul_zero_r; [apply Hyz|exact Z].
  - destruct (f2d b); [split; reflexivity|exact Z].
Qed.
Lemma zero_norm v : is (fvx v) 0 -> is (fvy v) 0 -> is (fvz v) 0 -> is (Bsqrt mode_NE (fnorm2 v)) 0.
Proof.
  intros X Y Z. assert (N : is (fnorm2 v) 0) by (unfold fnorm2; apply add_zeros; [apply add_zeros|]; apply mul_zero_r; try assumption; [apply X|apply Y|apply Z]).
  destruct N as [F V]. split; [apply sqrt_finite; [exact F|rewrite V; lra]|]. destruct (Bsqrt_correct 24 128 _ _ mode_NE (fnorm2 v)) as [W _]. rewrite W, V, sqrt_0. apply rnd_0.
Qed.
