(** C91: LocalDensity in single precision. *)
From Coq Require Import Psatz.
From Flocq Require Import Core.
From Verif Require Import F32Proofs F32Proofs4 Vec FaabbProofs FaabbProofs2 FaabbProps FaabbProps2 FrdfProofs FrdfProofs2 FrdfProofs3 FrdfProps2 FldProofs FldProofs2 FldProofs3 FldSpec.
Open Scope R_scope.

(** Which arguments are refused. *)
Theorem C91_arguments r D : finite r = true -> finite D = true -> (fld_make r D = None <-> val r <= 0 \/ val D < 0).
Proof.
  intros Fr Fd. unfold fld_make. rewrite Bleb_correct, Bltb_correct by auto. change (val fzero) with 0.
  destruct (Rle_bool_spec (val r) 0); [split; auto|]. destruct (Rlt_bool_spec (val D) 0); [split; auto|]. split; [discriminate|lra].
Qed.
(** A query point has exactly one outcome, and it is an exception only if the box is not wide enough. *)
Theorem C91_defined l f i : handy_ld l -> ordinary_frame f -> (i < length (ff_queries f))%nat ->
  let c := val (fld_r l) + val (fld_D l) / 2 in let b := ff_box f in
  (exists res, fld_entry l f i res /\ forall res', fld_entry l f i res' -> res' = res) /\
  ((fpx b = true -> 2 * (c + 3 * u * c) < val (fvx (fL b))) -> (fpy b = true -> 2 * (c + 3 * u * c) < val (fvy (fL b))) -> (f2d b = false -> fpz b = true -> 2 * (c + 3 * u * c) < val (fvz (fL b))) -> ~ fld_entry l f i None) /\
  ((fpx b = true /\ val (fvx (fL b)) <= 2 * (c - 3 * u * c)) \/ (fpy b = true /\ val (fvy (fL b)) <= 2 * (c - 3 * u * c)) \/ (f2d b = false /\ fpz b = true /\ val (fvz (fL b)) <= 2 * (c - 3 * u * c)) -> fld_entry l f i None).
Proof.
  intros Hl OF Hi c b. destruct OF as (HN & PB & HP & _). destruct (radius_near l Hl) as (Fr & R1 & R2). fold c in R1, R2. destruct (ld_sizes l Hl) as (_ & _ & B1 & B2 & _). assert (U : u = / 16777216) by reflexivity.
  assert (C0 : 0 < c <= 2000000) by (unfold c; lra). assert (CR : c - 3 * u * c < val (fld_radius l) < c + 3 * u * c) by (rewrite U in *; lra). assert (AB : Rabs (val (fld_radius l)) <= bpow radix2 60). { apply Rle_trans with (2 ^ 60); [apply Rabs_le; rewrite U in *; lra|destruct big; lra]. }
  assert (Q := C78_refused (ff_box f) (ff_points f) (nth i (ff_queries f) fv0) i (fld_radius l) fzero (ff_excl f) true HN (points_fin _ HP) PB Fr AB eq_refl). change (val fzero) with 0 in Q.
  assert (EN : fld_entry l f i None <-> faabb_ball (ff_box f) (ff_points f) (nth i (ff_queries f) fv0) i (fld_radius l) fzero (ff_excl f) true None).
  { unfold fld_entry. split; [intros (bonds & B & E); destruct bonds; [discriminate|exact B]|intros B; exists None; split; [exact B|reflexivity]]. }
  fold b in Q, EN. split; [|split].
  - destruct (C78_defined (ff_box f) (ff_points f) (nth i (ff_queries f) fv0) i (fld_radius l) fzero (ff_excl f) true HN (points_fin _ HP)) as (res & B & UQ). eexists. split; [exists res; split; [exact B|reflexivity]|]. intros res' (r' & B' & ->). rewrite (UQ _ B'). reflexivity.
  - intros X Y Z E. apply EN in E. apply (proj1 Q) in E. destruct E as [E|[E|(_ & [[E1 E2]|[[E1 E2]|(E1 & E2 & E3)]])]]; try (rewrite U in *; lra); [specialize (X E1)|specialize (Y E1)|specialize (Z E1 E2)]; lra.
  - intros E. apply EN. apply (proj2 Q). right; right. split; [reflexivity|]. destruct E as [[E1 E2]|[[E1 E2]|(E1 & E2 & E3)]]; [left; split; [auto|lra]|right; left; split; [auto|lra]|right; right; repeat split; auto; lra].
Qed.
Lemma entry_bonds l f i n d : ordinary_frame f -> fld_entry l f i (Some (n, d)) -> exists images bonds, fimages (ff_box f) (fld_radius l) true = Some images /\
  Permutation bonds (brute_force (ff_box f) (ff_points f) (nth i (ff_queries f) fv0) i (fld_radius l) fzero (ff_excl f) images) /\
  n = counted l (map fb_d bonds) /\ d = match map fb_d bonds with [] => fzero | _ => fdiv n (fld_measure l (f2d (ff_box f))) end.
Proof.
  intros (HN & _ & HP & _) (res & B & E). destruct res as [bonds|]; [|discriminate]. cbn [option_map] in E. rewrite point_eq in E. inversion E as [[E1 E2]]. clear E.
  destruct (C78_ball _ _ _ _ _ _ _ _ _ HN (points_fin _ HP) B) as [[Q _]|(images & l' & _ & EI & Q & P)]; [discriminate|]. inversion Q; subst l'. exists images, bonds. repeat split; auto.
Qed.
(** The number of neighbours against the sum of the exact fractions over all images: no particle is lost or counted twice whatever its distance from the rim. *)
Theorem C91_number l f i S n d : handy_ld l -> ordinary_frame f -> (i < length (ff_queries f))%nat ->
  (forall t, In t (pairs_at f i) -> pair_size f t <= S) -> S <= 65536 * val (fld_D l) -> (Z.of_nat (close_number l f i) <= 1048576)%Z ->
  fld_entry l f i (Some (n, d)) ->
  finite n = true /\ Rabs (val n - exact_number l f i) <= ld_error (INR (close_number l f i)) (val (fld_r l)) (val (fld_D l)) S.
Proof.
  intros Hl OF Hi HS SD HK E. destruct (entry_bonds _ _ _ _ _ OF E) as (images & bonds & EI & P & -> & _). destruct (entry_val l f i S Hl OF Hi HS SD images bonds EI P HK) as (F & B & _). auto.
Qed.
(** The density: that number by the volume of the ball or the area of the disc of radius r_max. *)
Theorem C91_density l f i S n d : handy_ld l -> ordinary_frame f -> (i < length (ff_queries f))%nat ->
  (forall t, In t (pairs_at f i) -> pair_size f t <= S) -> S <= 65536 * val (fld_D l) -> (Z.of_nat (close_number l f i) <= 1048576)%Z ->
  fld_entry l f i (Some (n, d)) ->
  let K := INR (close_number l f i) in let V := ball (f2d (ff_box f)) (val (fld_r l)) in let E := ld_error K (val (fld_r l)) (val (fld_D l)) S in
  finite d = true /\ Rabs (val d - exact_number l f i / V) <= (E + 6 * u * (K + E)) / V + bpow radix2 (-150).
Proof.
  intros Hl OF Hi HS SD HK E K V ER. destruct (entry_bonds _ _ _ _ _ OF E) as (images & bonds & EI & P & -> & ->). destruct (entry_val l f i S Hl OF Hi HS SD images bonds EI P HK) as (F & B & X). fold K ER in B, X.
  destruct (ld_sizes l Hl) as (_ & _ & B1 & B2 & B3). assert (U : u = / 16777216) by reflexivity. destruct (ball_bp l Hl (f2d (ff_box f))) as [P1 P2]. fold V in P1, P2. assert (P0 := bpow_gt_0 radix2 (-59)). assert (P9 := bpow_gt_0 radix2 (-150)).
  set (x := exact_number l f i) in *. set (n := counted l (map fb_d bonds)) in *. assert (E0 : 0 <= ER) by (eapply Rle_trans; [apply Rabs_pos|exact B]). assert (IV : 0 < / V) by (apply Rinv_0_lt_compat; lra).
  assert (NB : Rabs (val n) <= K + ER). { replace (val n) with ((val n - x) + x) by ring. eapply Rle_trans; [apply Rabs_triang|]. rewrite (Rabs_pos_eq x) by lra. lra. }
  assert (D1 : Rabs (val n / V - x / V) <= ER / V). { replace (val n / V - x / V) with ((val n - x) * / V) by (unfold Rdiv; ring). rewrite Rabs_mult, (Rabs_pos_eq (/ V)) by lra. apply Rmult_le_compat_r; lra. }
  assert (SP : (ER + 6 * u * (K + ER)) / V = ER / V + 6 * u * ((K + ER) / V)) by (unfold Rdiv; ring). rewrite SP.
  assert (K0 : 0 <= K <= 1048576). { split; [apply pos_INR|]. unfold K. rewrite INR_IZR_INZ. apply IZR_le. exact HK. }
  destruct (map fb_d bonds) as [|d0 ds] eqn:EB.
  - split; [reflexivity|]. change (val fzero) with 0. assert (Z : val n = 0) by reflexivity. rewrite Z in D1. replace (0 / V) with 0 in D1 by (unfold Rdiv; ring). assert (0 <= (K + ER) / V) by (apply Rmult_le_pos; lra). rewrite U. lra.
  - assert (S1 : ER <= 3000000 \/ 3000000 < ER) by lra.
    assert (N22 : Rabs (val n) <= bpow radix2 22).
    { replace (bpow radix2 22) with 4194304 by (cbn; lra). destruct S1 as [S1|S1]; [lra|]. exfalso. revert S1. apply Rle_not_lt. unfold ER, ld_error.
      destruct (pairs_at f i) as [|t ts] eqn:EP. { unfold K, close_number. rewrite EP. cbn. lra. }
      assert (0 <= S). { apply Rle_trans with (pair_size f t); [|apply HS; left; reflexivity]. destruct t as [[a p] [[ci cj] ck]]. apply norm_nonneg. }
      assert (Q : (25 * val (fld_r l) + 8 * S) / val (fld_D l) <= 33 * 65536). { apply Rmult_le_reg_r with (val (fld_D l)); [lra|]. unfold Rdiv. rewrite Rmult_assoc, Rinv_l by lra. lra. }
      assert (Q0 : 0 <= (25 * val (fld_r l) + 8 * S) / val (fld_D l)) by (apply Rmult_le_pos; [lra|apply Rlt_le, Rinv_0_lt_compat; lra]).
      apply Rle_trans with (1048576 * u * (2 * 1048576 + 40 + 33 * 65536)); [|rewrite U; lra]. apply Rmult_le_compat; [apply Rmult_le_pos; [lra|rewrite U; lra]|lra|apply Rmult_le_compat_r; [rewrite U; lra|lra]|lra]. }
    destruct (density_val l Hl (f2d (ff_box f)) n F N22) as [Fd Vd]. fold V in Vd. split; [exact Fd|].
    set (dd := val (fdiv n (fld_measure l (f2d (ff_box f))))) in *. replace (dd - x / V) with ((dd - val n / V) + (val n / V - x / V)) by ring. eapply Rle_trans; [apply Rabs_triang|].
    assert (Rabs (val n) / V <= (K + ER) / V) by (apply Rmult_le_compat_r; lra). assert (6 * u * (Rabs (val n) / V) <= 6 * u * ((K + ER) / V)) by (apply Rmult_le_compat_l; [rewrite U; lra|lra]). lra.
Qed.
(** Where no particle is cut by the rim the number is exact, and does not depend on the order of the bonds; a float does not count beyond 2^24. *)
Theorem C91_count l f i S n d : handy_ld l -> ordinary_frame f -> (i < length (ff_queries f))%nat ->
  (forall t, In t (pairs_at f i) -> pair_size f t <= S) -> S <= 65536 * val (fld_D l) -> whole_only l f i S ->
  fld_entry l f i (Some (n, d)) -> finite n = true /\ val n = IZR (Z.min (Z.of_nat (close_number l f i)) 16777216).
Proof.
  intros Hl OF Hi HS SD W E. destruct (entry_bonds _ _ _ _ _ OF E) as (images & bonds & EI & P & -> & _). destruct (whole_bonds l f i S Hl OF Hi HS SD images bonds EI P W) as [L A]. rewrite <- L, <- (map_length fb_d). apply count_ones, A.
Qed.
(** * Where it goes wrong *)
Definition rim_frame (x y : f32) : fframe := FFrame edge_box [FV x y fzero] [fv0] false [(0, 0)]%nat.
Lemma one_thread : execution 0 1 [(0, 0)]%nat.
Proof. exists [(0, 1)]%nat. split; [constructor; lia|reflexivity]. Qed.
Lemma rim_frame_ordinary x y : finite x = true -> finite y = true -> Rabs (val x) <= 2 ^ 60 -> Rabs (val y) <= 2 ^ 60 -> ordinary_frame (rim_frame x y).
Proof.
  intros Fx Fy Bx By. destruct big as [_ Q]. split; [discriminate|]. split; [apply C78_inside_case|]. split; [constructor; [|constructor]; split; [|split]; [split; [exact Fx|cbn [fvx]; lra]|split; [exact Fy|cbn [fvy]; lra]|apply zero_coord]|]. split; [constructor; [|constructor]; repeat split; apply zero_coord|]. exact one_thread.
Qed.
Lemma rim_entry l x y v : finite x = true -> finite y = true -> Rabs (val x) <= 2 ^ 60 -> Rabs (val y) <= 2 ^ 60 ->
  fpoint_args_ok (fld_radius l) fzero = true -> fimage_check edge_box (fld_radius l) = false ->
  map fb_d (brute_force edge_box [FV x y fzero] fv0 0 (fld_radius l) fzero false (fv0 :: map (imv edge_box) (filter (allowed edge_box) ftriples))) = [v] ->
  exists n d, fld_entry l (rim_frame x y) 0 (Some (n, d)) /\ (n, d) = fld_point l false [v].
Proof.
  intros Fx Fy Bx By HA HC HB. destruct (rim_frame_ordinary x y Fx Fy Bx By) as (HN & _ & HP & _). cbn [ff_points rim_frame] in HN, HP.
  destruct (C78_defined edge_box [FV x y fzero] fv0 0 (fld_radius l) fzero false true HN (points_fin _ HP)) as (res & H & _).
  destruct (C78_ball _ _ _ _ _ _ _ _ _ HN (points_fin _ HP) H) as [[_ [E|[_ E]]]|(images & bs & _ & EI & -> & P)]; [congruence|congruence|]. apply images_eq in EI. rewrite EI in P. apply (Permutation_map fb_d) in P. rewrite HB in P. apply Permutation_sym, Permutation_length_1_inv in P.
  destruct (fld_point l false [v]) as [n d] eqn:EV. exists n, d. split; [|reflexivity]. exists (Some bs). split; [exact H|]. cbn [option_map ff_box rim_frame]. change (f2d edge_box) with false. rewrite P, EV. reflexivity.
Qed.
(** A neighbour at the rim can count negatively: less than nothing is found. *)
Definition neg_ld : fldens := FLD (lit 5 (-1)) (lit 10066330 (-25)).
Lemma lit_small m e : (Z.abs m < 2 ^ 24)%Z -> (-40 <= e <= 0)%Z -> is (lit m e) (IZR m * bpow radix2 e) /\ Rabs (val (lit m e)) <= 2 ^ 60.
Proof.
  intros Hm He. assert (B : Rabs (IZR m * bpow radix2 e) <= 16777216). { rewrite Rabs_mult, <- abs_IZR, (Rabs_pos_eq (bpow radix2 e)) by apply bpow_ge_0. rewrite <- (Rmult_1_r 16777216). apply Rmult_le_compat; [apply IZR_le; lia|apply bpow_ge_0|apply IZR_le; lia|]. change 1 with (bpow radix2 0). apply bpow_le. lia. }
  destruct (is_lit m e) as [F V]. { apply fits_small. lra. } rewrite rnd_fmt in V by (apply fmt_F2R; lia). split; [split; auto|]. rewrite V. lra.
Qed.
Theorem C91_negative_refuted : exists l f n d, handy_ld l /\ ordinary_frame f /\ fld_entry l f 0 (Some (n, d)) /\ val n < 0 /\ val d < 0.
Proof.
  destruct (lit_small 11114905 (-22) ltac:(lia) ltac:(lia)) as [[Fx Vx] Bx]. destruct (lit_small 56 (-16) ltac:(lia) ltac:(lia)) as [[Fy Vy] By].
  destruct (rim_entry neg_ld (lit 11114905 (-22)) (lit 56 (-16)) (Bsqrt mode_NE (fnorm2 (fvsub (FV (lit 11114905 (-22)) (lit 56 (-16)) fzero) (fvadd fv0 fv0)))) Fx Fy Bx By) as (n & d & E & V); [vm_compute; reflexivity|vm_compute; reflexivity| |].
  { match goal with |- ?a = [?b] => assert (Q : map B2SF a = map B2SF [b]) by (vm_compute; reflexivity) end. revert Q. generalize (map fb_d (brute_force edge_box [FV (lit 11114905 (-22)) (lit 56 (-16)) fzero] fv0 0 (fld_radius neg_ld) fzero false (fv0 :: map (imv edge_box) (filter (allowed edge_box) ftriples)))). intros [|a [|b bs]] Q; inversion Q as [Q1]. f_equal. apply B2SF_inj. exact Q1. }
  exists neg_ld, (rim_frame (lit 11114905 (-22)) (lit 56 (-16))), n, d. split; [|split; [apply rim_frame_ordinary; auto|split; [exact E|]]].
  - destruct (lit_small 5 (-1) ltac:(lia) ltac:(lia)) as [[F1 V1] _]. destruct (lit_small 10066330 (-25) ltac:(lia) ltac:(lia)) as [[F2 V2] _]. assert (Q20 := bpow20). destruct Q20 as [Q1 Q2]. replace (IZR 5 * bpow radix2 (-1)) with 2.5 in V1 by (cbn; lra). replace (IZR 10066330 * bpow radix2 (-25)) with (10066330 / 33554432) in V2 by (cbn; lra).
    unfold handy_ld, handy_length, neg_ld. cbn [fld_r fld_D]. rewrite Q1, Q2, V1, V2. repeat split; auto; lra.
  - assert (W : (B2SF n, B2SF d) = let p := fld_point neg_ld false [Bsqrt mode_NE (fnorm2 (fvsub (FV (lit 11114905 (-22)) (lit 56 (-16)) fzero) (fvadd fv0 fv0)))] in (B2SF (fst p), B2SF (snd p))) by (rewrite <- V; reflexivity). match type of W with _ = ?t => let v := eval vm_compute in t in assert (Wv : t = v) by (vm_compute; reflexivity); rewrite Wv in W; clear Wv end. assert (W1 := f_equal fst W). assert (W2 := f_equal snd W). cbn [fst snd] in W1, W2. rewrite <- !SF2R_B2SF, W1, W2. split; apply F2R_lt_0; reflexivity.
Qed.
(** Without a diameter, which is accepted, a neighbour whose computed distance is r_max makes both values NaN. *)
Definition zero_ld : fldens := FLD (lit 5 (-2)) fzero.
Theorem C91_zero_diameter_refuted : fld_make (lit 5 (-2)) fzero = Some zero_ld /\ exists f n d, ordinary_frame f /\ fld_entry zero_ld f 0 (Some (n, d)) /\ n = B754_nan /\ d = B754_nan.
Proof.
  split; [reflexivity|]. destruct (lit_small 10485759 (-23) ltac:(lia) ltac:(lia)) as [[Fx Vx] Bx]. destruct (lit_small 33 (-17) ltac:(lia) ltac:(lia)) as [[Fy Vy] By].
  destruct (rim_entry zero_ld (lit 10485759 (-23)) (lit 33 (-17)) (lit 5 (-2)) Fx Fy Bx By) as (n & d & E & V); [vm_compute; reflexivity|vm_compute; reflexivity| |].
  { match goal with |- ?a = [?b] => assert (Q : map B2SF a = map B2SF [b]) by (vm_compute; reflexivity) end. revert Q. generalize (map fb_d (brute_force edge_box [FV (lit 10485759 (-23)) (lit 33 (-17)) fzero] fv0 0 (fld_radius zero_ld) fzero false (fv0 :: map (imv edge_box) (filter (allowed edge_box) ftriples)))). intros [|a [|b bs]] Q; inversion Q as [Q1]. f_equal. apply B2SF_inj. exact Q1. }
  exists (rim_frame (lit 10485759 (-23)) (lit 33 (-17))), n, d. split; [apply rim_frame_ordinary; auto|]. split; [exact E|].
  assert (W : (B2SF n, B2SF d) = let p := fld_point zero_ld false [lit 5 (-2)] in (B2SF (fst p), B2SF (snd p))) by (rewrite <- V; reflexivity). match type of W with _ = ?t => let v := eval vm_compute in t in assert (Wv : t = v) by (vm_compute; reflexivity); rewrite Wv in W; clear Wv end. assert (W1 := f_equal fst W). assert (W2 := f_equal snd W). cbn [fst snd] in W1, W2. split; apply B2SF_inj; [rewrite W1|rewrite W2]; reflexivity.
Qed.
(** NaN as r_max or as the diameter is accepted. *)
Theorem C91_nan_refuted x : fld_make B754_nan fzero <> None /\ (fld_make x B754_nan = None <-> fld_make x fzero = None).
Proof. split; [discriminate|]. unfold fld_make. destruct (Bleb x fzero); [tauto|]. split; discriminate. Qed.
(** * Cases *)
Lemma small_handy m e : (Z.abs m < 2 ^ 24)%Z -> (-40 <= e <= 0)%Z -> / 1000 <= IZR m * bpow radix2 e <= 1000 -> handy_length (lit m e).
Proof. intros Hm He B. destruct (lit_small m e Hm He) as [[F V] _]. destruct bpow20 as [Q1 Q2]. unfold handy_length. rewrite V, Q1, Q2. split; [exact F|lra]. Qed.
Lemma at_pairs f i t : In t (pairs_at f i) -> In t (pairs f).
Proof. intros H. apply filter_In in H. apply H. Qed.
Lemma case_ordinary : ordinary_frame case_frame.
Proof. destruct case_val as [Fe Ve]. apply apart_frame; auto. rewrite Ve. split; [lra|]. apply Rle_trans with (bpow radix2 1); [cbn; lra|apply bpow_le; lia]. Qed.
Lemma case_entry l : handy_ld l -> val (fld_r l) + val (fld_D l) / 2 <= 9 / 2 -> exists n d, fld_entry l case_frame 0 (Some (n, d)).
Proof.
  intros H B. destruct (C91_defined l case_frame 0 H case_ordinary ltac:(cbn; lia)) as ((res & E & _) & N & _). destruct res as [[n d]|]; [exists n, d; exact E|]. exfalso. revert E. assert (V10 := proj2 (is_lit_Z 10 ltac:(lia))). destruct (ld_sizes l H) as (_ & _ & B1 & B2 & _). assert (U : u = / 16777216) by reflexivity.
  apply N; intros; unfold case_frame, apart, edge_box, fmk_box; cbn [ff_box fL fvx fvy fvz]; rewrite V10, U; lra.
Qed.
(** Two particles at distance r_max: half of the neighbour counts. *)
Definition half_ld : fldens := FLD (lit 3 (-1)) (lit 1 0).
Example C91_case : handy_ld half_ld /\ ordinary_frame case_frame /\ (0 < length (ff_queries case_frame))%nat /\ (forall t, In t (pairs_at case_frame 0) -> pair_size case_frame t <= 30) /\ 30 <= 65536 * val (fld_D half_ld) /\ (Z.of_nat (close_number half_ld case_frame 0) <= 1048576)%Z /\ (exists n d, fld_entry half_ld case_frame 0 (Some (n, d))) /\ (1 / 2 <= exact_number half_ld case_frame 0).
Proof.
  destruct case_val as [Fe Ve]. assert (V1 := proj2 (is_lit_Z 1 ltac:(lia))). assert (HH : handy_ld half_ld). { unfold handy_ld, half_ld. cbn [fld_r fld_D]. rewrite Ve, V1. split; [|split]; [apply small_handy; [lia|lia|cbn; lra]|apply small_handy; [lia|lia|cbn; lra]|lra]. }
  split; [exact HH|]. split; [apply case_ordinary|]. split; [cbn; lia|]. split. { intros t Ht. apply (case_distance (lit 3 (-1)) t Ve), (at_pairs _ _ _ Ht). }
  split; [cbn [half_ld fld_D]; rewrite V1; lra|]. split.
  { assert (LE : (close_number half_ld case_frame 0 <= length (pairs_at case_frame 0))%nat). { unfold close_number. generalize (fun t => Rlt_bool (pair_distance case_frame t) (val (fld_r half_ld) + val (fld_D half_ld))). intros g. induction (pairs_at case_frame 0) as [|a bs IH]; [auto|]. cbn [filter]. destruct (g a); cbn [length]; lia. }
    assert (L27 : length (pairs_at case_frame 0) = 27%nat) by (vm_compute; reflexivity). lia. }
  split. { apply case_entry; [exact HH|]. cbn [half_ld fld_r fld_D]. rewrite Ve, V1. lra. }
  unfold exact_number. cbn [half_ld fld_r fld_D]. rewrite Ve, V1. assert (IN : In (0, 1, (0, 0, 0)%Z)%nat (pairs_at case_frame 0)). { unfold pairs_at. apply filter_In. split; [|reflexivity]. apply in_pairs. split; [cbn; lia|]. split; [cbn; lia|]. split; [vm_compute; auto 20|intros _; lia]. }
  assert (PD : pair_distance case_frame (0, 1, (0, 0, 0)%Z)%nat = 3 / 2). { unfold case_frame. rewrite apart_distance; [exact Ve|rewrite Ve; lra| |reflexivity]. apply at_pairs in IN. exact IN. }
  assert (P0 : forall x, 0 <= part (3 / 2) 1 x) by (intros; apply Rmax_l). assert (PH : part (3 / 2) 1 (3 / 2) = 1 / 2). { unfold part. replace ((3 / 2 + 1 / 2 - 3 / 2) / 1) with (1 / 2) by field. unfold Rmin, Rmax. destruct (Rle_dec 1 (1 / 2)); [lra|]. destruct (Rle_dec 0 (1 / 2)); lra. }
  apply in_split in IN as (l1 & l2 & ->). rewrite map_app, rsum_app. cbn [map]. rewrite rsum_cons, PD, PH. assert (G : forall ts, 0 <= rsum (map (fun t => part (3 / 2) 1 (pair_distance case_frame t)) ts)) by (induction ts; [apply Rle_refl|]; cbn [map]; rewrite rsum_cons; specialize (P0 (pair_distance case_frame a)); lra). assert (G1 := G l1). assert (G2 := G l2). lra.
Qed.
(** r_max 3: the neighbour is inside, its images are far away. *)
Definition whole_ld : fldens := FLD (lit 3 0) (lit 1 0).
Example C91_count_case : handy_ld whole_ld /\ ordinary_frame case_frame /\ (forall t, In t (pairs_at case_frame 0) -> pair_size case_frame t <= 30) /\ (30 <= 65536 * val (fld_D whole_ld)) /\ whole_only whole_ld case_frame 0 30 /\ (exists n d, fld_entry whole_ld case_frame 0 (Some (n, d))) /\ (1 <= close_number whole_ld case_frame 0)%nat.
Proof.
  destruct case_val as [Fe Ve]. assert (V1 := proj2 (is_lit_Z 1 ltac:(lia))). assert (V3' := proj2 (is_lit_Z 3 ltac:(lia))). assert (HH : handy_ld whole_ld). { unfold handy_ld, whole_ld. cbn [fld_r fld_D]. rewrite V3', V1. split; [|split]; [apply small_handy; [lia|lia|cbn; lra]|apply small_handy; [lia|lia|cbn; lra]|lra]. }
  split; [exact HH|]. split; [apply case_ordinary|]. split. { intros t Ht. apply (case_distance (lit 3 (-1)) t Ve), (at_pairs _ _ _ Ht). } split; [cbn [whole_ld fld_D]; rewrite V1; lra|]. split.
  { intros t Ht. cbn [whole_ld fld_r fld_D]. rewrite V3', V1. cbv zeta. destruct (case_distance (lit 3 (-1)) t Ve (at_pairs _ _ _ Ht)) as [DD _]. change (apart (lit 3 (-1))) with case_frame in DD. unfold u. destruct DD as [-> |DD]; lra. }
  split. { apply case_entry; [exact HH|]. cbn [whole_ld fld_r fld_D]. rewrite V3', V1. lra. }
  unfold close_number. cbn [whole_ld fld_r fld_D]. rewrite V3', V1. assert (IN : In (0, 1, (0, 0, 0)%Z)%nat (pairs_at case_frame 0)). { unfold pairs_at. apply filter_In. split; [|reflexivity]. apply in_pairs. split; [cbn; lia|]. split; [cbn; lia|]. split; [vm_compute; auto 20|intros _; lia]. }
  assert (PD : pair_distance case_frame (0, 1, (0, 0, 0)%Z)%nat = 3 / 2). { unfold case_frame. rewrite apart_distance; [exact Ve|rewrite Ve; lra| |reflexivity]. apply at_pairs in IN. exact IN. }
  assert (IF : In (0, 1, (0, 0, 0)%Z)%nat (filter (fun t => Rlt_bool (pair_distance case_frame t) (3 + 1)) (pairs_at case_frame 0))) by (apply filter_In; split; [exact IN|rewrite PD; apply Rlt_bool_true; lra]). destruct (filter _ _); [destruct IF|cbn [length]; lia].
Qed.

Print Assumptions C91_arguments.
Print Assumptions C91_defined.
Print Assumptions C91_number.
Print Assumptions C91_density.
Print Assumptions C91_count.
Print Assumptions C91_negative_refuted.
Print Assumptions C91_zero_diameter_refuted.
Print Assumptions C91_nan_refuted.
