(** Which wave vectors are sampled. *)
From Verif Require Import BoxProofs.
From Coq Require Import Lra Lia Permutation.
From Verif Require Import BoxSpec SfSpec.
Local Open Scope R_scope.

Lemma NoDup_flat_map {A B} (f : A -> list B) l : NoDup l -> (forall x, In x l -> NoDup (f x)) ->
  (forall x y z, In x l -> In y l -> In z (f x) -> In z (f y) -> x = y) -> NoDup (flat_map f l).
Proof.
  induction l as [|x l IH]; intros N F D; [constructor|]. inversion N; subst. cbn [flat_map].
  assert (G : NoDup (flat_map f l)). { apply IH; auto; [intros; apply F; right; assumption|intros a b z Ha Hb; apply D; right; assumption]. }
  assert (G1 := F x (or_introl eq_refl)). assert (G2 : forall z, In z (f x) -> ~ In z (flat_map f l)).
  { intros z Hz I. apply in_flat_map in I as (y & Hy & Iy). assert (x = y) by (apply (D x y z); auto; [left; reflexivity|right; assumption]). subst. contradiction. }
  clear -G G1 G2. induction (f x) as [|z t IHt]; [exact G|]. inversion G1; subst. simpl. constructor.
  - rewrite in_app_iff. intros [I|I]; [contradiction|]. apply (G2 z); [left; reflexivity|exact I].
  - apply IHt; auto. intros w Hw. apply G2. right. exact Hw.
Qed.
Lemma two_pi_pos : 0 < TWO_PI. Proof. unfold TWO_PI. assert (P := PI_RGT_0). lra. Qed.
Lemma scaled_test x y : x / TWO_PI / TWO_PI <= y / TWO_PI * (y / TWO_PI) <-> x <= y * y.
Proof.
  assert (P := two_pi_pos). replace (x / TWO_PI / TWO_PI) with (x * / (TWO_PI * TWO_PI)) by (field; lra). replace (y / TWO_PI * (y / TWO_PI)) with (y * y * / (TWO_PI * TWO_PI)) by (field; lra).
  assert (Q : 0 < / (TWO_PI * TWO_PI)) by (apply Rinv_0_lt_compat; nra). split; intros H; [apply (Rmult_le_reg_r _ _ _ Q H)|apply Rmult_le_compat_r; lra].
Qed.
Lemma scaled_test' x y : y / TWO_PI * (y / TWO_PI) <= x / TWO_PI / TWO_PI <-> y * y <= x.
Proof.
  assert (P := two_pi_pos). replace (x / TWO_PI / TWO_PI) with (x * / (TWO_PI * TWO_PI)) by (field; lra). replace (y / TWO_PI * (y / TWO_PI)) with (y * y * / (TWO_PI * TWO_PI)) by (field; lra).
  assert (Q : 0 < / (TWO_PI * TWO_PI)) by (apply Rinv_0_lt_compat; nra). split; intros H; [apply (Rmult_le_reg_r _ _ _ Q H)|apply Rmult_le_compat_r; lra].
Qed.

(** * The reciprocal vectors *)
Lemma lat0 b : lat b 0 = a1 b. Proof. reflexivity. Qed.
Lemma lat1 b : lat b 1 = a2 b. Proof. unfold lat, a2; simpl. f_equal; ring. Qed.
Lemma lat2 b : b_2d b = false -> lat b 2 = a3 b. Proof. unfold lat, a3; simpl. intros ->. f_equal; ring. Qed.
Definition rx (b : box) : vec3 := vscale TWO_PI (fst (fst (recip b))).
Definition ry (b : box) : vec3 := vscale TWO_PI (snd (fst (recip b))).
Definition rz (b : box) : vec3 := vscale TWO_PI (snd (recip b)).
Lemma recip_dual b : nonsingular b ->
  (dot (rx b) (a1 b) = TWO_PI /\ dot (rx b) (a2 b) = 0 /\ dot (ry b) (a1 b) = 0 /\ dot (ry b) (a2 b) = TWO_PI) /\
  (b_2d b = false -> dot (rx b) (a3 b) = 0 /\ dot (ry b) (a3 b) = 0 /\ dot (rz b) (a1 b) = 0 /\ dot (rz b) (a2 b) = 0 /\ dot (rz b) (a3 b) = TWO_PI) /\
  (b_2d b = true -> vz (rx b) = 0 /\ vz (ry b) = 0).
Proof.
  intros (X & Y & Z & Z2 & _). unfold rx, ry, rz, recip. rewrite lat0, lat1. destruct (b_2d b) eqn:D; cbn [fst snd].
  - split; [|split; [discriminate|intros _; simpl; split; ring]]. unfold dot, a1, a2; simpl. repeat split; field; auto.
  - rewrite lat2 by exact D. specialize (Z eq_refl). split; [|split; [intros _|discriminate]]; unfold dot, cross, a1, a2, a3; simpl; repeat split; field; auto.
Qed.
Definition kcomb (b : box) (m n l : nat) : vec3 := vadd (vadd (vscale (INR m) (rx b)) (vscale (INR n) (ry b))) (vscale (INR l) (if b_2d b then v0 else rz b)).
Lemma dot_kcomb b m n l v : dot (kcomb b m n l) v = INR m * dot (rx b) v + INR n * dot (ry b) v + INR l * (if b_2d b then 0 else dot (rz b) v).
Proof. unfold kcomb. destruct (b_2d b); unfold dot; simpl; ring. Qed.
Lemma kcomb_octant b m n l : nonsingular b -> in_octant b (kcomb b m n l).
Proof.
  intros N. destruct (recip_dual b N) as ((A & B & C & D) & E3 & E2). split.
  - exists m, n. rewrite !dot_kcomb, A, B, C, D. destruct (b_2d b) eqn:T; [|destruct (E3 eq_refl) as (_ & _ & F & G & _); rewrite F, G]; unfold TWO_PI; split; ring.
  - destruct (b_2d b) eqn:T.
    + destruct (E2 eq_refl) as [F G]. unfold kcomb. rewrite T. unfold vadd, vscale. cbn [vx vy vz]. rewrite F, G. cbn [v0 vz]. ring.
    + exists l. rewrite dot_kcomb, T. destruct (E3 eq_refl) as (F & G & _ & _ & H). rewrite F, G, H. unfold TWO_PI. ring.
Qed.
Lemma octant_kcomb b k : nonsingular b -> in_octant b k -> exists m n l, (b_2d b = true -> l = 0%nat) /\ k = kcomb b m n l.
Proof.
  intros N ((m & n & E1 & E2) & E3). assert (N' := N). destruct N as (X & Y & Z & Z2 & _). destruct (b_2d b) eqn:T.
  - exists m, n, 0%nat. split; [reflexivity|]. unfold kcomb. rewrite T. unfold rx, ry, recip. rewrite T, lat0, lat1. cbn [fst snd]. unfold dot, a1, a2 in *; simpl in *.
    apply vec_eq; simpl.
    + apply (Rmult_eq_reg_r (vx (b_L b))); [|exact X]. rewrite E3 in *. unfold TWO_PI. transitivity (2 * PI * INR m); [lra|]. field. auto.
    + rewrite E3 in *. apply (Rmult_eq_reg_r (vy (b_L b))); [|exact Y]. unfold TWO_PI. assert (EX : vx k = 2 * PI * INR m / vx (b_L b)) by (rewrite <- E1; field; auto). rewrite EX in E2. transitivity (2 * PI * INR n - 2 * PI * INR m / vx (b_L b) * (b_xy b * vy (b_L b))); [lra|]. field. auto.
    + rewrite E3. ring.
  - destruct E3 as [l E3]. exists m, n, l. split; [discriminate|]. specialize (Z eq_refl). unfold kcomb. rewrite T. unfold rx, ry, rz, recip. rewrite T, lat0, lat1, lat2 by exact T. cbn [fst snd]. unfold dot, cross, a1, a2, a3 in *; simpl in *.
    assert (EX : vx k = 2 * PI * INR m / vx (b_L b)). { apply (Rmult_eq_reg_r (vx (b_L b))); [|exact X]. transitivity (2 * PI * INR m); [lra|]. field. auto. }
    assert (EY : vy k = (2 * PI * INR n - vx k * (b_xy b * vy (b_L b))) / vy (b_L b)). { apply (Rmult_eq_reg_r (vy (b_L b))); [|exact Y]. transitivity (2 * PI * INR n - vx k * (b_xy b * vy (b_L b))); [lra|]. field. auto. }
    assert (EZ : vz k = (2 * PI * INR l - vx k * (b_xz b * vz (b_L b)) - vy k * (b_yz b * vz (b_L b))) / vz (b_L b)). { apply (Rmult_eq_reg_r (vz (b_L b))); [|exact Z]. transitivity (2 * PI * INR l - vx k * (b_xz b * vz (b_L b)) - vy k * (b_yz b * vz (b_L b))); [lra|]. field. auto. }
    unfold TWO_PI. apply vec_eq; simpl; rewrite ?EZ, ?EY, ?EX; field; auto.
Qed.
Lemma kcomb_inj b m n l m' n' l' : nonsingular b -> (b_2d b = true -> l = l') -> kcomb b m n l = kcomb b m' n' l' -> m = m' /\ n = n' /\ l = l'.
Proof.
  intros N L E. destruct (recip_dual b N) as ((A & B & C & D) & E3 & E2). assert (P := two_pi_pos).
  assert (G : forall v, dot (kcomb b m n l) v = dot (kcomb b m' n' l') v) by (intros v; rewrite E; reflexivity).
  assert (G1 := G (a1 b)). assert (G2 := G (a2 b)). assert (G3 := G (a3 b)). rewrite !dot_kcomb in G1, G2, G3. rewrite A, C in G1. rewrite B, D in G2. clear G E.
  destruct (b_2d b) eqn:T.
  - specialize (L eq_refl). subst l'. repeat split; apply INR_eq; apply (Rmult_eq_reg_r TWO_PI); lra.
  - destruct (E3 eq_refl) as (F1 & F2 & F3 & F4 & F5). rewrite F3 in G1. rewrite F4 in G2. rewrite F1, F2, F5 in G3. repeat split; apply INR_eq; apply (Rmult_eq_reg_r TWO_PI); lra.
Qed.
Lemma octant_reciprocal b k : in_octant b k -> reciprocal b k.
Proof.
  intros ((m & n & E1 & E2) & E3). split; [exists (Z.of_nat m), (Z.of_nat n); rewrite <- !INR_IZR_INZ; auto|]. destruct (b_2d b); [exact E3|]. destruct E3 as [l E3]. exists (Z.of_nat l). rewrite <- INR_IZR_INZ. exact E3.
Qed.

(** * One line of the scan *)
Lemma in_line cast keep all kmax kmin base last n k : In k (k_line cast keep all kmax kmin base last n) <->
  exists j, (fst (quad cast (dot last last) (-2 * dot base last) (dot base base - kmin * kmin) (dot base base - kmax * kmax) n) <= j <
             Nat.min (snd (quad cast (dot last last) (-2 * dot base last) (dot base base - kmin * kmin) (dot base base - kmax * kmax) n)) n)%nat /\
    k = vadd base (vscale (INR j) last) /\ dot k k <= kmax * kmax /\ kmin * kmin <= dot k k /\ all || keep j = true.
Proof.
  unfold k_line. destruct (quad _ _ _ _ _ _) as [lo hi]. cbn [fst snd]. rewrite in_flat_map. split.
  - intros (j & Hj & H). apply in_seq in Hj. exists j. destruct (_ && _) eqn:T in H; [|destruct H]. destruct H as [<-|[]]. apply andb_prop in T as [T T3]. apply andb_prop in T as [T1 T2]. apply Rleb_true in T1, T2. rewrite scaled_test in T1. rewrite scaled_test' in T2. split; [lia|]. auto.
  - intros (j & Hj & -> & H1 & H2 & H3). exists j. split; [apply in_seq; lia|]. rewrite H3, (proj2 (Rleb_true _ _)), (proj2 (Rleb_true _ _)); [left; reflexivity| |]; [rewrite scaled_test'|rewrite scaled_test]; assumption.
Qed.
Lemma vscale_inj v i j : v <> v0 -> vscale (INR i) v = vscale (INR j) v -> i = j.
Proof.
  intros N E. apply INR_eq. destruct v as [x y z]. unfold vscale in E; simpl in E. injection E as E1 E2 E3.
  destruct (Req_dec x 0) as [->|X]; [|apply (Rmult_eq_reg_r x); assumption]. destruct (Req_dec y 0) as [->|Y]; [|apply (Rmult_eq_reg_r y); assumption].
  destruct (Req_dec z 0) as [->|Z]; [contradict N; reflexivity|apply (Rmult_eq_reg_r z); assumption].
Qed.
Lemma line_nodup cast keep all kmax kmin base last n : last <> v0 -> NoDup (k_line cast keep all kmax kmin base last n).
Proof.
  intros N. unfold k_line. destruct (quad _ _ _ _ _ _) as [lo hi]. apply NoDup_flat_map.
  - apply seq_NoDup.
  - intros j _. destruct (_ && _); constructor; simpl; auto. constructor.
  - intros i j z _ _ Hi Hj. destruct (_ && _) in Hi; [|destruct Hi]. destruct (_ && _) in Hj; [|destruct Hj]. destruct Hi as [<-|[]]. destruct Hj as [E|[]]. apply (vscale_inj last); [exact N|].
    apply (f_equal (fun v => vsub v base)) in E. symmetry. unfold vsub, vadd, vscale in *; simpl in *. injection E as A B C. f_equal; lra.
Qed.
Definition grid_all (b : box) (k_max : R) (num : nat) : bool :=
  let '(b1, b2, b3) := recip b in if b_2d b then all_2d num (k_max / TWO_PI) (norm b1 * norm b2) else all_3d num (k_max / TWO_PI) (norm b1 * norm b2 * norm b3).
Lemma grid_all0 b k_max : grid_all b k_max 0 = true.
Proof. unfold grid_all. destruct (recip b) as [[b1 b2] b3]. destruct (b_2d b); unfold all_2d, all_3d; apply orb_true_r. Qed.
Definition nqx cast b kmax := ceil_u cast (kmax / TWO_PI / norm (fst (fst (recip b)))).
Definition nqy cast b kmax := ceil_u cast (kmax / TWO_PI / norm (snd (fst (recip b)))).
Definition nqz cast b kmax := ceil_u cast (kmax / TWO_PI / norm (snd (recip b))).
Lemma grid_eq cast keep b kmax kmin num : k_grid cast keep b kmax kmin num =
  if b_2d b then flat_map (fun m => k_line cast (keep m 0%nat) (grid_all b kmax num) kmax kmin (vscale (INR m) (rx b)) (ry b) (nqy cast b kmax)) (seq 0 (nqx cast b kmax))
  else flat_map (fun m => flat_map (fun n => k_line cast (keep m n) (grid_all b kmax num) kmax kmin (vadd (vscale (INR m) (rx b)) (vscale (INR n) (ry b))) (rz b) (nqz cast b kmax)) (seq 0 (nqy cast b kmax))) (seq 0 (nqx cast b kmax)).
Proof. unfold k_grid, grid_all, rx, ry, rz, nqx, nqy, nqz. destruct (recip b) as [[b1 b2] b3]. cbn [fst snd]. destruct (b_2d b); reflexivity. Qed.
Lemma kcomb2 b m j : b_2d b = true -> vadd (vscale (INR m) (rx b)) (vscale (INR j) (ry b)) = kcomb b m j 0.
Proof. intros D. unfold kcomb. rewrite D. apply vec_eq; unfold vadd, vscale; cbn [vx vy vz v0]; ring. Qed.
Lemma kcomb3 b m n j : b_2d b = false -> vadd (vadd (vscale (INR m) (rx b)) (vscale (INR n) (ry b))) (vscale (INR j) (rz b)) = kcomb b m n j.
Proof. intros D. unfold kcomb. rewrite D. reflexivity. Qed.
Lemma rvec_nonzero b : nonsingular b -> ry b <> v0 /\ (b_2d b = false -> rz b <> v0).
Proof.
  intros N. destruct (recip_dual b N) as ((A & B & C & D) & E3 & E2). assert (P := two_pi_pos). split.
  - intros E. rewrite E in D. unfold dot in D; simpl in D. lra.
  - intros T E. destruct (E3 T) as (_ & _ & _ & _ & F). rewrite E in F. unfold dot in F; simpl in F. lra.
Qed.
Lemma grid_in cast keep b kmax kmin num k : nonsingular b -> In k (k_grid cast keep b kmax kmin num) ->
  in_octant b k /\ kmin * kmin <= dot k k <= kmax * kmax.
Proof.
  intros N. rewrite grid_eq. destruct (b_2d b) eqn:D; rewrite in_flat_map; intros (m & _ & I).
  - apply in_line in I as (j & _ & -> & T1 & T2 & _). split; [rewrite kcomb2 by exact D; apply kcomb_octant; exact N|lra].
  - apply in_flat_map in I as (n & _ & I). apply in_line in I as (j & _ & -> & T1 & T2 & _). split; [rewrite kcomb3 by exact D; apply kcomb_octant; exact N|lra].
Qed.
Lemma grid_nodup cast keep b kmax kmin num : nonsingular b -> NoDup (k_grid cast keep b kmax kmin num).
Proof.
  intros N. destruct (rvec_nonzero b N) as [NY NZ]. rewrite grid_eq. destruct (b_2d b) eqn:D; apply NoDup_flat_map; try apply seq_NoDup.
  - intros m _. apply line_nodup. exact NY.
  - intros m m' k _ _ I I'. apply in_line in I as (j & _ & -> & _). apply in_line in I' as (j' & _ & E & _). rewrite !kcomb2 in E by exact D. apply kcomb_inj in E; [tauto|exact N|reflexivity].
  - intros m _. apply NoDup_flat_map; [apply seq_NoDup|intros; apply line_nodup; apply NZ; reflexivity|].
    intros n n' k _ _ I I'. apply in_line in I as (j & _ & -> & _). apply in_line in I' as (j' & _ & E & _). rewrite !kcomb3 in E by exact D. apply kcomb_inj in E; [tauto|exact N|congruence].
  - intros m m' k _ _ I I'. apply in_flat_map in I as (n & _ & I). apply in_flat_map in I' as (n' & _ & I'). apply in_line in I as (j & _ & -> & _). apply in_line in I' as (j' & _ & E & _). rewrite !kcomb3 in E by exact D. apply kcomb_inj in E; [tauto|exact N|congruence].
Qed.
Lemma norm_ge k x : 0 <= x -> x * x <= dot k k <-> x <= norm k.
Proof.
  intros X. unfold norm. split; intros H.
  - rewrite <- (sqrt_square x) by exact X. apply sqrt_le_1_alt. exact H.
  - assert (0 <= dot k k) by (unfold dot; nra). rewrite <- (sqrt_sqrt (dot k k)) by assumption. apply Rmult_le_compat; assumption.
Qed.
Lemma norm_le k x : 0 <= x -> dot k k <= x * x <-> norm k <= x.
Proof.
  intros X. assert (0 <= dot k k) by (unfold dot; nra). assert (Q := sqrt_pos (dot k k)). unfold norm. split; intros H0.
  - rewrite <- (sqrt_square x) by exact X. apply sqrt_le_1_alt. exact H0.
  - rewrite <- (sqrt_sqrt (dot k k)) by assumption. apply Rmult_le_compat; assumption.
Qed.
Lemma norm_lt k x : 0 <= x -> dot k k < x * x <-> norm k < x.
Proof. intros X. assert (G := norm_ge k x X). lra. Qed.

(** * Untilted boxes: the scan is complete *)
Definition line_hits base last n kmax kmin (all : bool) (keep : nat -> bool) k := exists j, (j < n)%nat /\ k = vadd base (vscale (INR j) last) /\ kmin * kmin <= dot k k < kmax * kmax /\ all || keep j = true.
Lemma line_orth cast keep all kmax kmin base last n k : cast_ok cast -> nan_to_zero cast -> 0 <= kmin <= kmax -> dot base last = 0 -> 0 < dot last last ->
  kmax * kmax <= dot last last * ((2 ^ 32 - 1) * (2 ^ 32 - 1)) ->
  (In k (k_line cast keep all kmax kmin base last n) <-> line_hits base last n kmax kmin all keep k).
Proof.
  intros CO NZ K O P F. rewrite in_line. unfold line_hits, quad. cbn [fst snd]. rewrite O. set (a := dot last last) in *. set (B := dot base base).
  assert (B0 : 0 <= B) by (unfold B, dot; nra).
  assert (DK : forall j, dot (vadd base (vscale (INR j) last)) (vadd base (vscale (INR j) last)) = B + INR j * INR j * a). { intros j. transitivity (B + 2 * INR j * dot base last + INR j * INR j * a); [unfold B, a, dot; simpl; ring|rewrite O; ring]. }
  set (lo := cast (option_map Zfloor _)). set (hi := cast (option_map Zceil _)).
  assert (DD : forall c, -2 * 0 / (2 * a) * (-2 * 0 / (2 * a)) - (B - c * c) / a = (c * c - B) / a) by (intros c; field; lra).
  assert (HB : - (-2 * 0 / (2 * a)) = 0) by (field; lra).
  assert (SGN : forall c, c * c - B < 0 <-> (c * c - B) / a < 0). { intros c. split; intros H. { apply (Rmult_lt_reg_r a); [exact P|]. unfold Rdiv. rewrite Rmult_assoc, Rinv_l by lra. lra. } { apply (Rmult_lt_compat_r a) in H; [|exact P]. unfold Rdiv in H. rewrite Rmult_assoc, Rinv_l in H by lra. lra. } }
  assert (SQ : forall c, B <= c * c -> sqrt ((c * c - B) / a) * sqrt ((c * c - B) / a) * a = c * c - B). { intros c H. rewrite sqrt_sqrt; [field; lra|]. destruct (Rlt_le_dec ((c * c - B) / a) 0) as [Q|Q]; [apply SGN in Q; lra|exact Q]. }
  assert (SB : forall c, 0 <= c <= kmax -> sqrt ((c * c - B) / a) <= 2 ^ 32 - 1). { intros c H. rewrite <- (sqrt_square (2 ^ 32 - 1)) by lra. apply sqrt_le_1_alt. apply (Rmult_le_reg_r a); [exact P|]. unfold Rdiv. rewrite Rmult_assoc, Rinv_l by lra. nra. }
  assert (HI : forall j, (j < hi)%nat <-> INR j * INR j * a + B < kmax * kmax).
  { intros j. unfold hi. rewrite DD, HB. destruct (Rltb_spec ((kmax * kmax - B) / a) 0) as [Q|Q]; cbn [option_map].
    - rewrite NZ. apply SGN in Q. split; [lia|]. intros H. exfalso. assert (0 <= INR j * INR j * a) by (assert (T := pos_INR j); apply Rmult_le_pos; [nra|lra]). lra.
    - assert (Q' : B <= kmax * kmax) by (destruct (Rle_lt_dec B (kmax * kmax)) as [T|T]; [exact T|]; assert ((kmax * kmax - B) / a < 0) by (apply SGN; lra); lra).
      rewrite Rplus_0_l. set (s := sqrt ((kmax * kmax - B) / a)). assert (S0 : 0 <= s) by apply sqrt_pos. assert (S1 := SB kmax ltac:(lra)). fold s in S1. assert (S2 := SQ kmax Q'). fold s in S2.
      assert (C0 : (0 <= Zceil s)%Z). { apply le_IZR. apply Rle_trans with s; [exact S0|apply Zceil_ub]. }
      assert (C1 : (Zceil s < 2 ^ 32)%Z). { assert (Zceil s <= 2 ^ 32 - 1)%Z; [|lia]. apply Zceil_glb. rewrite minus_IZR. change (IZR (2 ^ 32)) with (IZR 4294967296). simpl in S1. lra. }
      rewrite CO by lia. assert (J0 := pos_INR j).
      assert (W : (j < Z.to_nat (Zceil s))%nat <-> INR j < s).
      { split; intros H.
        - destruct (Rlt_le_dec (INR j) s) as [T|T]; [exact T|]. exfalso. assert (Zceil s <= Z.of_nat j)%Z; [|lia]. apply Zceil_glb. rewrite <- INR_IZR_INZ. exact T.
        - destruct (le_lt_dec (Z.to_nat (Zceil s)) j) as [T|T]; [|exact T]. exfalso. assert (IZR (Zceil s) <= INR j) by (rewrite INR_IZR_INZ; apply IZR_le; lia). assert (U := Zceil_ub s). lra. }
      rewrite W. split; intros H; [assert (INR j * INR j < s * s) by nra; nra|].
      destruct (Rlt_le_dec (INR j) s) as [T|T]; [exact T|]. assert (s * s <= INR j * INR j) by nra. nra. }
  assert (LO : forall j, kmin * kmin <= INR j * INR j * a + B -> (lo <= j)%nat).
  { intros j H. unfold lo. rewrite DD, HB. destruct (Rltb_spec ((kmin * kmin - B) / a) 0) as [Q|Q]; cbn [option_map]; [rewrite NZ; lia|].
    assert (Q' : B <= kmin * kmin) by (destruct (Rle_lt_dec B (kmin * kmin)) as [T|T]; [exact T|]; assert ((kmin * kmin - B) / a < 0) by (apply SGN; lra); lra).
    rewrite Rplus_0_l. set (s := sqrt ((kmin * kmin - B) / a)). assert (S0 : 0 <= s) by apply sqrt_pos. assert (S1 := SB kmin ltac:(lra)). fold s in S1. assert (S2 := SQ kmin Q'). fold s in S2.
    assert (J0 := pos_INR j). assert (SJ : s <= INR j). { destruct (Rle_lt_dec s (INR j)) as [T|T]; [exact T|]. assert (INR j * INR j < s * s) by nra. nra. }
    assert (U := Zfloor_lb s). assert (U' : (0 <= Zfloor s)%Z) by (apply Zfloor_lub; exact S0). assert (U2 : (Zfloor s < 2 ^ 32)%Z). { apply lt_IZR. change (IZR (2 ^ 32)) with (IZR 4294967296). simpl in S1. lra. }
    rewrite CO by lia. apply INR_le. rewrite (INR_IZR_INZ (Z.to_nat _)), Z2Nat.id by exact U'. lra. }
  split.
  - intros (j & Hj & -> & T1 & T2 & T3). rewrite DK in T1, T2. exists j. assert (H := proj1 (HI j) ltac:(lia)). split; [lia|]. split; [reflexivity|]. rewrite DK. split; [lra|exact T3].
  - intros (j & Hj & -> & T & T3). rewrite DK in T. exists j. rewrite DK. assert (L := LO j ltac:(lra)). assert (H := proj2 (HI j) ltac:(lra)). split; [lia|]. split; [reflexivity|]. split; [lra|]. split; [lra|exact T3].
Qed.

Lemma recip_untilted b : nonsingular b -> untilted b ->
  (fst (fst (recip b)) = V3 (/ vx (b_L b)) 0 0 /\ snd (fst (recip b)) = V3 0 (/ vy (b_L b)) 0 /\ (b_2d b = false -> snd (recip b) = V3 0 0 (/ vz (b_L b)))).
Proof.
  intros (X & Y & Z & Z2 & _) (A & B & C). unfold recip. rewrite lat0, lat1. destruct (b_2d b) eqn:D; cbn [fst snd].
  - unfold a1, a2; simpl. rewrite A. repeat split; [| |discriminate]; apply vec_eq; simpl; field; auto.
  - rewrite lat2 by exact D. specialize (Z eq_refl). unfold a1, a2, a3, dot, cross; simpl. rewrite A, B, C. split; [|split; [|intros _]]; apply vec_eq; simpl; field; auto.
Qed.

Lemma norm_axis x y z : 0 <= x -> 0 <= y -> 0 <= z -> (y = 0 -> z = 0 -> norm (V3 x y z) = x) /\ (x = 0 -> z = 0 -> norm (V3 x y z) = y) /\ (x = 0 -> y = 0 -> norm (V3 x y z) = z).
Proof.
  intros X Y Z. unfold norm, dot; cbn [vx vy vz]. repeat split; intros; subst.
  - replace (x * x + 0 * 0 + 0 * 0) with (x * x) by ring. apply sqrt_square; exact X.
  - replace (0 * 0 + y * y + 0 * 0) with (y * y) by ring. apply sqrt_square; exact Y.
  - replace (0 * 0 + 0 * 0 + z * z) with (z * z) by ring. apply sqrt_square; exact Z.
Qed.
Lemma ceil_bound cast kmax L j : cast_ok cast -> 0 < L -> 0 <= kmax -> kmax * L <= TWO_PI * (2 ^ 32 - 1) ->
  INR j * (TWO_PI * / L) < kmax -> (j < ceil_u cast (kmax / TWO_PI / / L))%nat.
Proof.
  intros CO P K F H. assert (T := two_pi_pos). unfold ceil_u. set (x := kmax / TWO_PI / / L).
  assert (EX : x = kmax * L / TWO_PI) by (unfold x; field; lra). assert (JX : INR j < x). { rewrite EX. apply (Rmult_lt_reg_r (TWO_PI * / L)); [apply Rmult_lt_0_compat; [lra|apply Rinv_0_lt_compat; lra]|]. replace (kmax * L / TWO_PI * (TWO_PI * / L)) with kmax by (field; lra). exact H. }
  assert (XB : x <= 2 ^ 32 - 1). { rewrite EX. apply (Rmult_le_reg_r TWO_PI); [exact T|]. unfold Rdiv. rewrite Rmult_assoc, Rinv_l by lra. lra. }
  assert (J0 := pos_INR j). assert (U := Zceil_ub x).
  assert (C0 : (0 <= Zceil x)%Z) by (apply le_IZR; lra).
  assert (C1 : (Zceil x <= 2 ^ 32 - 1)%Z). { apply Zceil_glb. rewrite minus_IZR. change (IZR (2 ^ 32)) with (IZR 4294967296). simpl in XB. lra. }
  rewrite CO by lia. apply INR_lt. rewrite (INR_IZR_INZ (Z.to_nat _)), Z2Nat.id by exact C0. lra.
Qed.
Definition fits (b : box) (k_max : R) : Prop :=
  k_max * vx (b_L b) <= TWO_PI * (2 ^ 32 - 1) /\ k_max * vy (b_L b) <= TWO_PI * (2 ^ 32 - 1) /\ (b_2d b = false -> k_max * vz (b_L b) <= TWO_PI * (2 ^ 32 - 1)).
Lemma scaled_sq_fits L kmax : 0 < L -> 0 <= kmax -> kmax * L <= TWO_PI * (2 ^ 32 - 1) -> kmax * kmax <= TWO_PI * / L * (TWO_PI * / L) * ((2 ^ 32 - 1) * (2 ^ 32 - 1)).
Proof.
  intros P K F. assert (T := two_pi_pos). assert (H : kmax <= TWO_PI * / L * (2 ^ 32 - 1)).
  { apply (Rmult_le_reg_r L); [exact P|]. replace (TWO_PI * / L * (2 ^ 32 - 1) * L) with (TWO_PI * (2 ^ 32 - 1)) by (field; lra). exact F. }
  replace (_ * _ * _) with ((TWO_PI * / L * (2 ^ 32 - 1)) * (TWO_PI * / L * (2 ^ 32 - 1))) by ring. apply Rmult_le_compat; assumption.
Qed.
Lemma sq_lt_reg x y : 0 <= y -> x * x < y * y -> x < y.
Proof. intros Y H. destruct (Rlt_le_dec x y) as [G|G]; [exact G|]. assert (y * y <= x * x) by (apply Rmult_le_compat; lra). lra. Qed.
Lemma grid_complete cast keep b kmax kmin k : cast_ok cast -> nan_to_zero cast -> BoxSpec.positive b -> untilted b -> 0 <= kmin <= kmax -> fits b kmax ->
  (In k (k_grid cast keep b kmax kmin 0) <-> in_octant b k /\ kmin <= norm k < kmax).
Proof.
  intros CO NZ (N & X & Y & Z) U K (FX & FY & FZ). assert (T := two_pi_pos).
  rewrite <- norm_ge, <- norm_lt by lra.
  destruct (recip_untilted b N U) as (E1 & E2 & E3).
  assert (RX : rx b = V3 (TWO_PI * / vx (b_L b)) 0 0) by (unfold rx; rewrite E1; apply vec_eq; simpl; ring).
  assert (RY : ry b = V3 0 (TWO_PI * / vy (b_L b)) 0) by (unfold ry; rewrite E2; apply vec_eq; simpl; ring).
  assert (IX : 0 < / vx (b_L b)) by (apply Rinv_0_lt_compat; exact X). assert (IY : 0 < / vy (b_L b)) by (apply Rinv_0_lt_compat; exact Y).
  assert (NX : nqx cast b kmax = ceil_u cast (kmax / TWO_PI / / vx (b_L b))). { unfold nqx. rewrite E1. rewrite (proj1 (norm_axis (/ vx (b_L b)) 0 0 ltac:(lra) ltac:(lra) ltac:(lra))) by reflexivity. reflexivity. }
  assert (NY : nqy cast b kmax = ceil_u cast (kmax / TWO_PI / / vy (b_L b))). { unfold nqy. rewrite E2. rewrite (proj1 (proj2 (norm_axis 0 (/ vy (b_L b)) 0 ltac:(lra) ltac:(lra) ltac:(lra)))) by reflexivity. reflexivity. }
  assert (PX : 0 < TWO_PI * / vx (b_L b)) by (apply Rmult_lt_0_compat; assumption). assert (PY : 0 < TWO_PI * / vy (b_L b)) by (apply Rmult_lt_0_compat; assumption).
  rewrite grid_eq, grid_all0, RX, RY. destruct (b_2d b) eqn:D.
  - assert (LH : forall m k, In k (k_line cast (keep m 0%nat) true kmax kmin (vscale (INR m) (V3 (TWO_PI * / vx (b_L b)) 0 0)) (V3 0 (TWO_PI * / vy (b_L b)) 0) (nqy cast b kmax)) <-> line_hits (vscale (INR m) (V3 (TWO_PI * / vx (b_L b)) 0 0)) (V3 0 (TWO_PI * / vy (b_L b)) 0) (nqy cast b kmax) kmax kmin true (keep m 0%nat) k).
    { intros m k'. apply line_orth; auto; unfold dot, vscale; cbn [vx vy vz]; [ring|nra|]. replace (0 * 0 + _ + 0 * 0) with (TWO_PI * / vy (b_L b) * (TWO_PI * / vy (b_L b))) by ring. apply scaled_sq_fits; auto; lra. }
    rewrite in_flat_map. split.
    + intros (m & Hm & I). apply LH in I as (j & Hj & -> & H & _). split; [|exact H]. rewrite <- RX, <- RY, kcomb2 by exact D. apply kcomb_octant; exact N.
    + intros (O & H). destruct (octant_kcomb b k N O) as (m & n & l & L0 & E). specialize (L0 D). subst l. rewrite <- kcomb2, RX, RY in E by exact D.
      assert (DK : dot k k = INR m * (TWO_PI * / vx (b_L b)) * (INR m * (TWO_PI * / vx (b_L b))) + INR n * (TWO_PI * / vy (b_L b)) * (INR n * (TWO_PI * / vy (b_L b)))) by (rewrite E; unfold dot; simpl; ring).
      exists m. split; [apply in_seq; split; [lia|]; rewrite NX; apply ceil_bound; auto; [lra|apply sq_lt_reg; [lra|]]; nra|]. apply LH. exists n. split; [rewrite NY; apply ceil_bound; auto; [lra|apply sq_lt_reg; [lra|]]; nra|]. auto.
  - assert (Z' := Z eq_refl). assert (FZ' := FZ eq_refl). assert (IZ : 0 < / vz (b_L b)) by (apply Rinv_0_lt_compat; exact Z').
    assert (RZ : rz b = V3 0 0 (TWO_PI * / vz (b_L b))) by (unfold rz; rewrite (E3 eq_refl); apply vec_eq; simpl; ring).
    assert (NQ : nqz cast b kmax = ceil_u cast (kmax / TWO_PI / / vz (b_L b))). { unfold nqz. rewrite (E3 eq_refl). rewrite (proj2 (proj2 (norm_axis 0 0 (/ vz (b_L b)) ltac:(lra) ltac:(lra) ltac:(lra)))) by reflexivity. reflexivity. }
    assert (PZ : 0 < TWO_PI * / vz (b_L b)) by (apply Rmult_lt_0_compat; assumption). rewrite RZ.
    set (base m n := vadd (vscale (INR m) (V3 (TWO_PI * / vx (b_L b)) 0 0)) (vscale (INR n) (V3 0 (TWO_PI * / vy (b_L b)) 0))).
    assert (LH : forall m n k, In k (k_line cast (keep m n) true kmax kmin (base m n) (V3 0 0 (TWO_PI * / vz (b_L b))) (nqz cast b kmax)) <-> line_hits (base m n) (V3 0 0 (TWO_PI * / vz (b_L b))) (nqz cast b kmax) kmax kmin true (keep m n) k).
    { intros m n k'. apply line_orth; auto; unfold base, dot, vadd, vscale; cbn [vx vy vz]; [ring|nra|]. replace (0 * 0 + 0 * 0 + _) with (TWO_PI * / vz (b_L b) * (TWO_PI * / vz (b_L b))) by ring. apply scaled_sq_fits; auto; lra. }
    rewrite in_flat_map. split.
    + intros (m & Hm & I). apply in_flat_map in I as (n & Hn & I). apply LH in I as (j & Hj & -> & H & _). split; [|exact H]. unfold base. rewrite <- RX, <- RY, <- RZ, kcomb3 by exact D. apply kcomb_octant; exact N.
    + intros (O & H). destruct (octant_kcomb b k N O) as (m & n & l & _ & E). rewrite <- kcomb3, RX, RY, RZ in E by exact D. fold (base m n) in E.
      assert (DK : dot k k = INR m * (TWO_PI * / vx (b_L b)) * (INR m * (TWO_PI * / vx (b_L b))) + INR n * (TWO_PI * / vy (b_L b)) * (INR n * (TWO_PI * / vy (b_L b))) + INR l * (TWO_PI * / vz (b_L b)) * (INR l * (TWO_PI * / vz (b_L b)))) by (rewrite E; unfold dot; simpl; ring).
      exists m. split; [apply in_seq; split; [lia|]; rewrite NX; apply ceil_bound; auto; [lra|apply sq_lt_reg; [lra|]]; nra|]. apply in_flat_map. exists n. split; [apply in_seq; split; [lia|]; rewrite NY; apply ceil_bound; auto; [lra|apply sq_lt_reg; [lra|]]; nra|].
      apply LH. exists l. split; [rewrite NQ; apply ceil_bound; auto; [lra|apply sq_lt_reg; [lra|]]; nra|]. auto.
Qed.
