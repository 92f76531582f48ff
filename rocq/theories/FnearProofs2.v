(** Proofs for C82: growth of the radius, the loop, what is delivered. *)
From Coq Require Import Psatz Sorting.Sorted Wellfounded.
From Verif Require Import NListProofs MArrayProofs F32Proofs Vec FaabbProofs FaabbProofs2 FaabbProps FnearSpec FnearProofs.
Open Scope R_scope.
Local Notation up := FaabbProofs.up.

(** ** Growth *)
Lemma visible_number r : visible r -> number r.
Proof. intros [->|[F _]] E; [discriminate|]. subst r. discriminate. Qed.
Lemma visible_pos r : visible r -> Bleb r fzero = false.
Proof.
  intros [->|[F L]]; auto. assert (P := bpow_gt_0 radix2 (-126)). destruct (Bleb r fzero) eqn:E; auto. apply leb_val in E; auto. change (val fzero) with 0 in E. lra.
Qed.
Lemma ulp_one : ulp radix2 fex 1 = bpow radix2 (-23).
Proof. change 1 with (bpow radix2 0). rewrite ulp_bpow. reflexivity. Qed.
Lemma grows_val s : grows s -> finite s = true -> 1 + bpow radix2 (-23) <= val s.
Proof.
  intros G F. destruct is_one as [F1 V1]. apply ltb_val in G; auto. rewrite V1 in G.
  assert (S := succ_le_lt radix2 fex 1 (val s) ltac:(rewrite <- V1; apply fmt_val) (fmt_val s) G). rewrite succ_eq_pos in S by lra. rewrite ulp_one in S. exact S.
Qed.
Lemma grows_inf s : grows s -> finite s = false -> s = B754_infinity false.
Proof. unfold grows. destruct s as [|[]| |]; intros G F; try discriminate; auto. Qed.
Lemma inf_mul s : grows s -> fmul (B754_infinity false) s = B754_infinity false.
Proof.
  intros G. destruct (finite s) eqn:F; [|rewrite (grows_inf s G F); reflexivity].
  assert (V := grows_val s G F). assert (P := bpow_gt_0 radix2 (-23)). destruct s as [[]| | |[] m e H]; try discriminate; try reflexivity.
Qed.
Lemma mul_cases (r s : f32) : finite r = true -> finite s = true -> 0 < val r -> 0 < val s ->
  (is (fmul r s) (rnd (val r * val s)) /\ rnd (val r * val s) < bpow radix2 128) \/ (fmul r s = B754_infinity false /\ bpow radix2 128 <= rnd (val r * val s)).
Proof.
  intros Fr Fs Pr Ps. assert (C := Bmult_correct 24 128 _ _ mode_NE r s). fold (fmul r s) in C. change (round radix2 (SpecFloat.fexp 24 128) (round_mode mode_NE) (val r * val s)) with (rnd (val r * val s)) in C.
  assert (P : 0 <= rnd (val r * val s)) by (apply rnd_ge_fmt; [apply fmt_0|apply Rmult_le_pos; lra]). rewrite Rabs_pos_eq in C by auto.
  assert (SG : forall x : f32, finite x = true -> 0 < val x -> Bsign x = false).
  { intros [[]| | |[] m e H] F V; simpl in *; auto; try lra; try discriminate. exfalso. assert (F2R (Float radix2 (Z.neg m) e) < 0) by (apply F2R_lt_0; simpl; lia). lra. }
  destruct (Rlt_bool_spec (rnd (val r * val s)) (bpow radix2 128)).
  - left. destruct C as (V & F & _). split; auto. split; auto. rewrite F, Fr, Fs. auto.
  - right. split; auto. apply sf_infinity. rewrite C, (SG r), (SG s) by auto. reflexivity.
Qed.
Lemma ulp_small x : bpow radix2 (-126) <= x -> ulp radix2 fex x <= x * bpow radix2 (-23).
Proof.
  intros H. assert (P := bpow_gt_0 radix2 (-126)). change fex with (FLT_exp (-149) 24). rewrite <- (Rabs_pos_eq x) at 2 by lra. apply (ulp_FLT_le radix2 (-149) 24 x). rewrite Rabs_pos_eq by lra. exact H.
Qed.
Lemma grow r s : visible r -> grows s -> visible (fmul r s) /\
  (fmul r s = B754_infinity false \/ (finite r = true /\ finite s = true /\ finite (fmul r s) = true /\ val r + bpow radix2 (-149) <= val (fmul r s))).
Proof.
  intros [->|[Fr Lr]] G.
  - rewrite inf_mul by auto. split; left; auto.
  - assert (P126 := bpow_gt_0 radix2 (-126)). destruct (finite s) eqn:Fs.
    + assert (VS := grows_val s G Fs). assert (P23 := bpow_gt_0 radix2 (-23)). destruct (mul_cases r s Fr Fs ltac:(lra) ltac:(lra)) as [[[Fm Vm] L]|[E L]]; [|rewrite E; split; left; auto].
      assert (U := ulp_small (val r) Lr). assert (S : val r + ulp radix2 fex (val r) <= rnd (val r * val s)).
      { rewrite <- succ_eq_pos by lra. apply rnd_ge_fmt; [apply generic_format_succ; [typeclasses eauto|apply fmt_val]|]. rewrite succ_eq_pos by lra.
        assert (val r * (1 + bpow radix2 (-23)) <= val r * val s) by (apply Rmult_le_compat_l; lra). lra. }
      assert (UB : bpow radix2 (-149) <= ulp radix2 fex (val r)).
      { rewrite ulp_neq_0 by lra. apply bpow_le. change fex with (FLT_exp (-149) 24). unfold cexp, FLT_exp. lia. }
      rewrite <- Vm in S. assert (P149 := bpow_gt_0 radix2 (-149)). split; [right; split; auto; lra|]. right. split; auto. split; auto. split; auto. lra.
    + rewrite (grows_inf s G Fs). assert (E : fmul r (B754_infinity false) = B754_infinity false).
      { destruct r as [[]| | |[] m e H]; try discriminate; try reflexivity; simpl in Lr; try lra. exfalso. assert (F2R (Float radix2 (Z.neg m) e) < 0) by (apply F2R_lt_0; simpl; lia). lra. }
      rewrite E. split; left; auto.
Qed.
Lemma min_number r m : number r -> number m -> number (std_min r m).
Proof. unfold std_min. destruct (Bltb m r); auto. Qed.

(** ** Sorting *)
Definition dle (x y : fbond) : Prop := val (fb_d x) <= val (fb_d y).
Lemma dle_trans : Relations_1.Transitive dle. Proof. unfold dle. intros x y z. lra. Qed.
Lemma sorted_nth l : StronglySorted dle l -> ascending l.
Proof.
  induction 1 as [|a l H IH F]; intros i j Hij; simpl in Hij; [lia|]. destruct j as [|j]; [lia|]. destruct i as [|i].
  - cbn [nth]. rewrite Forall_forall in F. apply F. apply nth_In. lia.
  - cbn [nth]. apply IH. lia.
Qed.
Lemma nth_sorted l : ascending l -> StronglySorted dle l.
Proof.
  induction l as [|a l IH]; intros H; [constructor|]. constructor.
  - apply IH. intros i j Hij. apply (H (S i) (S j)). simpl. lia.
  - apply Forall_forall. intros y Hy. apply (In_nth _ _ fbond0) in Hy as (n & Hn & <-). apply (H 0%nat (S n)). simpl. lia.
Qed.
Lemma fsort_sorted S s : Forall fine S -> fsort_result S s -> Permutation S s /\ StronglySorted dle s.
Proof.
  intros FS [P H]. split; auto. apply nth_sorted. intros i j Hij. specialize (H i j Hij). apply Rnot_lt_le. intros L. unfold fless in H.
  assert (FI : forall n, (n < length s)%nat -> finite (fb_d (nth n s fbond0)) = true).
  { intros n Hn. rewrite Forall_forall in FS. apply FS. eapply Permutation_in; [symmetry; exact P|]. apply nth_In. auto. }
  apply ltb_val in L; [congruence|apply FI; lia|apply FI; lia].
Qed.
Fixpoint insert_d (x : fbond) (l : list fbond) : list fbond :=
  match l with [] => [x] | y :: m => if Rle_dec (val (fb_d x)) (val (fb_d y)) then x :: l else y :: insert_d x m end.
Lemma insert_perm x l : Permutation (x :: l) (insert_d x l).
Proof. induction l as [|y l IH]; simpl; auto. destruct (Rle_dec _ _); auto. rewrite perm_swap. constructor. exact IH. Qed.
Lemma insert_sorted x l : StronglySorted dle l -> StronglySorted dle (insert_d x l).
Proof.
  induction 1 as [|y l H IH F]; simpl; [repeat constructor|]. destruct (Rle_dec (val (fb_d x)) (val (fb_d y))) as [L|L].
  - constructor; [constructor; auto|]. constructor; auto. eapply Forall_impl; [|exact F]. unfold dle. intros; lra.
  - constructor; auto. eapply Permutation_Forall; [apply insert_perm|]. constructor; auto. unfold dle. lra.
Qed.
Lemma fsort_exists S : Forall fine S -> exists s, fsort_result S s.
Proof.
  intros FS. assert (G : exists s, Permutation S s /\ StronglySorted dle s).
  { clear FS. induction S as [|x S (s & P & H)]; [exists []; split; constructor|]. exists (insert_d x s). split; [|apply insert_sorted; auto]. rewrite <- insert_perm. constructor. auto. }
  destruct G as (s & P & H). exists s. split; auto. intros i j Hij. assert (L := sorted_nth _ H i j Hij). unfold fless. destruct (Bltb _ _) eqn:E; auto.
  assert (FI : forall n, (n < length s)%nat -> finite (fb_d (nth n s fbond0)) = true).
  { intros n Hn. rewrite Forall_forall in FS. apply FS. eapply Permutation_in; [symmetry; exact P|]. apply nth_In. auto. }
  apply ltb_val in E; [lra|apply FI; lia|apply FI; lia].
Qed.
Lemma firstn_sorted n l : StronglySorted dle l -> StronglySorted dle (firstn n l) /\ forall x y, In x (firstn n l) -> In y (skipn n l) -> dle x y.
Proof.
  intros H. revert n. induction H as [|a l H IH F]; intros [|n]; simpl; try (split; [constructor|intros ? ? []]; fail).
  destruct (IH n) as [S C]. rewrite Forall_forall in F. split.
  - constructor; auto. apply Forall_forall. intros y Hy. apply F. rewrite <- (firstn_skipn n l). apply in_or_app. auto.
  - intros x y [->|Hx] Hy; [apply F; rewrite <- (firstn_skipn n l); apply in_or_app; auto|auto].
Qed.
(** The part before the first bond beyond r_max. *)
Lemma fwithin_split r l : exists l', l = fwithin r l ++ l' /\ (l' = [] \/ exists x, In x l' /\ hd_error l' = Some x /\ Bltb r (fb_d x) = true) /\ forall x, In x (fwithin r l) -> Bltb r (fb_d x) = false.
Proof.
  induction l as [|a l (l' & E & H & A)]; simpl; [exists []; split; [auto|split; [auto|intros x []]]|]. destruct (Bltb r (fb_d a)) eqn:B.
  - exists (a :: l). split; auto. split; [right; exists a; simpl; auto|intros x []].
  - exists l'. split; [simpl; f_equal; auto|]. split; auto. intros x [<-|Hx]; auto.
Qed.
Lemma sorted_app (l l' : list fbond) : StronglySorted dle (l ++ l') -> StronglySorted dle l /\ StronglySorted dle l' /\ forall x y, In x l -> In y l' -> dle x y.
Proof.
  induction l as [|a l IH]; simpl; intros H; [split; [constructor|split; auto; intros ? ? []]|]. inversion_clear H as [|? ? H' F]. destruct (IH H') as (A & B & C). rewrite Forall_forall in F.
  split; [constructor; auto; apply Forall_forall; intros y Hy; apply F; apply in_or_app; auto|]. split; auto. intros x y [<-|Hx] Hy; [apply F; apply in_or_app; auto|auto].
Qed.
Lemma sorted_hd x l : StronglySorted dle l -> hd_error l = Some x -> forall y, In y l -> dle x y.
Proof. intros H E y Hy. destruct l as [|a l]; [discriminate|]. injection E as <-. inversion_clear H as [|? ? ? F]. rewrite Forall_forall in F. destruct Hy as [<-|Hy]; [unfold dle; lra|auto]. Qed.

Section Loop.
Variables (b : fbox) (points : list fvec) (q : fvec) (qi k : nat) (r_max r_min scale : f32) (excl : bool).
Hypothesis HN : points <> [].
Hypothesis HF : Forall fin3 points.
Hypothesis Hs : grows scale.
Hypothesis Hm : number r_max.
Hypothesis Hk : (0 < k)%nat.
Local Notation dist := (cdist b points q).
Local Notation sq im j := (fnorm2 (csep b points q im j)).
Local Notation ball r found := (faabb_ball b points q qi (std_min r r_max) fzero excl false (Some found)).
Definition stopped (r : f32) : Prop := Bleb r_max (fmul r scale) = true \/ Bleb (fmax_plane b) (fmul r scale) = true.
Definition outcome (ext : bool) (r0 : f32) (s : list fbond) : Prop :=
  exists r S, visible r /\ (finite r = true -> finite r0 = true /\ val r0 <= val r) /\ hand b points q qi r_min excl (std_min r r_max) S /\ fsort_result S s /\ (number r_min -> (k <= length s)%nat \/ stopped r) /\
  (nearest_only b points q qi excl S \/
   (ext = false /\ (r = r0 \/ Bltb (fdiv (fmin_plane b) ftwo) r = false) /\ exists found, ball r found /\ S = filter (fun x => Bleb r_min (fb_d x)) found)).
Lemma search_outcome ext r res : fsearch b points q qi k r_max r_min scale excl ext r res -> visible r -> forall s, res = Some s -> outcome ext r s.
Proof.
  induction 1 as [ext r HB|ext r found cur m below s0 HB HC HL HS|ext r found cur m below s0 HB HC HL HT HS|ext r found cur m below res HB HC HL HT HR IH]; intros Hr s Es.
  - discriminate.
  - assert (s0 = s) by congruence. subst s0. clear Es. destruct (collect_spec b points q qi r_min excl HN HF ext _ found cur m below (min_number _ _ (visible_number _ Hr) Hm) HB HC) as (HH & X1 & X2).
    exists r. destruct ext.
    + destruct (X1 eq_refl) as (-> & _). simpl in HL. lia.
    + destruct (X2 eq_refl) as (-> & -> & E). cbn [map filter] in *. rewrite app_nil_r in *. exists cur. split; auto. split; [intros F; split; [auto|apply Rle_refl]|]. split; auto. split; auto. split; [left; destruct HS as [P _]; rewrite <- (Permutation_length P); auto|].
      right. split; auto. split; auto. exists found. auto.
  - assert (s0 = s) by congruence. subst s0. clear Es. destruct (collect_spec b points q qi r_min excl HN HF ext _ found cur m below (min_number _ _ (visible_number _ Hr) Hm) HB HC) as (HH & X1 & X2).
    exists r. eexists. split; auto. split; [intros F; split; [auto|apply Rle_refl]|]. split; [exact HH|]. split; [exact HS|]. destruct HS as [P _]. rewrite <- (Permutation_length P).
    assert (ST : Bleb r_max (fmul r scale) || Bleb (fmax_plane b) (fmul r scale) = true -> stopped r) by (intros E; apply orb_true_iff in E; exact E).
    apply orb_true_iff in HT. destruct ext.
    + destruct (X1 eq_refl) as (-> & NO & CNT). cbn [app] in *. split; [|left; exact NO]. intros NM. destruct HT as [HT|HT]; [right; auto|]. left. rewrite CNT by auto. apply Nat.leb_le in HT. exact HT.
    + destruct (X2 eq_refl) as (-> & -> & E). split; [intros _; right; destruct HT as [HT|HT]; [auto|apply Nat.leb_le in HT; simpl in HT; lia]|]. right. split; auto. split; auto. exists found. auto.
  - destruct (grow r scale Hr Hs) as [Hg HG]. destruct (IH Hg s Es) as (r' & S & V & LE & HH & HS & ST & OR). exists r', S. split; auto.
    split; [intros F; destruct (LE F) as [F1 L1]; destruct HG as [E|(Fr & _ & _ & L)]; [rewrite E in F1; discriminate|]; split; [auto|]; assert (P := bpow_gt_0 radix2 (-149)); lra|]. split; auto. split; auto. split; auto.
    destruct OR as [OR|(E & OR & FB)]; [left; auto|]. apply orb_false_iff in E as [-> E]. right. split; auto. split; auto. destruct OR as [->|OR]; auto.
Qed.
(** The inner ball query never raises. *)
Lemma inner_ball r : visible r -> Bleb r_max fzero = false -> exists found, ball r found.
Proof.
  intros V M. destruct (C78_defined b points q qi (std_min r r_max) fzero excl false HN HF) as (res & H & _).
  assert (A : Bleb (std_min r r_max) fzero = false) by (unfold std_min; destruct (Bltb r_max r); [auto|apply visible_pos; auto]).
  destruct (C78_ball _ _ _ _ _ _ _ _ _ HN HF H) as [[_ [E|[E1 E2]]]|(images & l & _ & EI & -> & P)]; [|discriminate|eauto].
  unfold fpoint_args_ok in E. rewrite A in E. discriminate.
Qed.
Lemma ball_fine r found cur m below ext : visible r -> ball r found -> fcollect ext qi r_min excl found = (cur, (m, below)) ->
  Forall fine cur /\ Forall fine (cur ++ filter (fun x => Bleb r_min (fb_d x)) (map snd m)).
Proof.
  intros V HB HC. destruct (collect_spec b points q qi r_min excl HN HF ext _ found cur m below (min_number _ _ (visible_number _ V) Hm) HB HC) as ((HH & _) & _).
  assert (A : Forall fine (cur ++ filter (fun x => Bleb r_min (fb_d x)) (map snd m))) by (apply Forall_forall; intros x Hx; apply (found_finite _ _ _ _ _ _ _ (proj1 (HH x Hx)))).
  split; auto. apply Forall_app in A. apply A.
Qed.
Lemma number_inf : Bleb r_max (B754_infinity false) = true.
Proof. destruct r_max as [[]|[]| |[] ? ? ?] eqn:E; auto. Qed.
(** The search ends. *)
Lemma search_ends : Bleb r_max fzero = false -> forall n r ext, visible r -> (finite r = true -> bpow radix2 128 <= val r + INR n * bpow radix2 (-149)) ->
  exists s, fsearch b points q qi k r_max r_min scale excl ext r (Some s).
Proof.
  intros M. induction n as [|n IH]; intros r ext V B.
  all: destruct (inner_ball r V M) as (found & HB); destruct (fcollect ext qi r_min excl found) as [cur [m below]] eqn:HC; destruct (ball_fine r found cur m below ext V HB HC) as [F1 F2].
  all: destruct (le_lt_dec k (length cur)) as [L|L]; [destruct (fsort_exists cur F1) as (s & HS); exists s; eapply fs_enough; eauto|].
  all: destruct (Bleb r_max (fmul r scale) || Bleb (fmax_plane b) (fmul r scale) || (k <=? length m - length below)%nat) eqn:HT; [destruct (fsort_exists _ F2) as (s & HS); exists s; eapply fs_stop; eauto|].
  all: destruct (grow r scale V Hs) as [V' [E|(Fr & Fs & Fm & G)]]; [exfalso; rewrite E, number_inf in HT; discriminate|].
  - exfalso. specialize (B Fr). change (INR 0) with 0 in B. assert (X := abs_B2R_lt_emax 24 128 r). apply Rabs_lt_inv in X. lra.
  - destruct (IH (fmul r scale) (ext || Bltb (fdiv (fmin_plane b) ftwo) (fmul r scale)) V') as (s & H); [|exists s; eapply fs_again; eauto].
    intros _. specialize (B Fr). rewrite S_INR in B. lra.
Qed.
Lemma enough_steps : exists n : nat, bpow radix2 128 <= INR n * bpow radix2 (-149).
Proof.
  exists (Z.to_nat (2 ^ 277)). rewrite INR_IZR_INZ, Z2Nat.id by (apply Z.pow_nonneg; lia). change (IZR (2 ^ 277)) with (bpow radix2 277). rewrite <- bpow_plus. apply Rle_refl.
Qed.
Lemma search_total r ext : Bleb r_max fzero = false -> visible r -> exists s, fsearch b points q qi k r_max r_min scale excl ext r (Some s).
Proof.
  intros M V. destruct enough_steps as (n & Hn). apply (search_ends M n r ext V). intros F. destruct V as [->|[_ L]]; [discriminate|]. assert (P := bpow_gt_0 radix2 (-126)). lra.
Qed.
Lemma search_no_raise r ext res : Bleb r_max fzero = false -> visible r -> fsearch b points q qi k r_max r_min scale excl ext r res -> res <> None.
Proof.
  intros M V H. revert V. induction H as [ext r HB|ext r found cur m below s0 HB HC HL HS|ext r found cur m below s0 HB HC HL HT HS|ext r found cur m below res HB HC HL HT HR IH]; intros V; try discriminate.
  - exfalso. destruct (inner_ball r V M) as (found & HB'). destruct (C78_defined b points q qi (std_min r r_max) fzero excl false HN HF) as (res & _ & U). assert (X := U _ HB). rewrite <- (U _ HB') in X. discriminate.
  - apply IH. apply grow; auto.
Qed.

(** ** What is delivered *)
Lemma delivered r0 s l : outcome false r0 s -> l = fdeliver k r_max s ->
  (length l <= k)%nat /\ StronglySorted dle l /\ (forall x, In x l -> Bltb r_max (fb_d x) = false) /\
  exists r S l', visible r /\ (finite r = true -> finite r0 = true /\ val r0 <= val r) /\ hand b points q qi r_min excl (std_min r r_max) S /\ Permutation S (l ++ l') /\
  (nearest_only b points q qi excl S \/
   ((r = r0 \/ Bltb (fdiv (fmin_plane b) ftwo) r = false) /\ exists found, ball r found /\ S = filter (fun x => Bleb r_min (fb_d x)) found)) /\
  forall im j, eligible b points qi excl im j -> nearest_cell b points q im j -> at_least (dist im j) r_min ->
    (exists y, In y l /\ fb_p y = j /\ val (fb_d y) = val (dist im j)) \/
    ((forall x, In x l -> val (fb_d x) <= val (dist im j)) /\
     ((length l < k)%nat -> (exists z, finite (fb_d z) = true /\ Bltb r_max (fb_d z) = true /\ val (fb_d z) <= val (dist im j)) \/
        (stopped r /\ Bltb (sq im j) (fmul (std_min r r_max) (std_min r r_max)) = false))).
Proof.
  intros (r & S & V & LE & HH & HS & ST & OR) ->. assert (HH' := HH). destruct HH' as [H1 H2].
  assert (FS : Forall fine S) by (apply Forall_forall; intros x Hx; apply (found_finite _ _ _ _ _ _ _ (proj1 (H1 x Hx)))).
  destruct (fsort_sorted S s FS HS) as [P SS]. destruct (firstn_sorted k s SS) as [S1 C1]. unfold fdeliver. destruct (fwithin_split r_max (firstn k s)) as (l' & El & Hl' & A).
  set (l := fwithin r_max (firstn k s)) in *. assert (LL : (length (l ++ l') <= k)%nat) by (rewrite <- El, firstn_length; lia). rewrite app_length in LL.
  rewrite El in S1. destruct (sorted_app _ _ S1) as (Sl & Sl' & Cl).
  split; [lia|]. split; auto. split; auto. exists r, S, (l' ++ skipn k s). split; auto. split; auto. split; auto.
  split; [rewrite P, app_assoc, <- El, firstn_skipn; reflexivity|]. split; [destruct OR as [OR|(_ & OR)]; auto|].
  intros im j EL NC AL.
  assert (ZL : forall z, In z (firstn k s) -> finite (fb_d z) = true).
  { intros z Hz. rewrite Forall_forall in FS. apply FS. eapply Permutation_in; [symmetry; exact P|]. rewrite <- (firstn_skipn k s). apply in_or_app. auto. }
  destruct (Bltb (sq im j) (fmul (std_min r r_max) (std_min r r_max))) eqn:E.
  - destruct (H2 im j EL NC AL E) as (y & Hy & Py & Vy). apply (Permutation_in _ P) in Hy. rewrite <- (firstn_skipn k s) in Hy. apply in_app_or in Hy as [Hy|Hy].
    + rewrite El in Hy. apply in_app_or in Hy as [Hy|Hy]; [left; eauto|]. right. rewrite <- Vy. split; [intros x Hx; apply Cl; auto|]. intros _. left. destruct Hl' as [->|(z & Hz & HD & BZ)]; [destruct Hy|].
      exists z. split; [apply ZL; rewrite El; apply in_or_app; auto|]. split; auto. apply (sorted_hd z l'); auto.
    + right. rewrite <- Vy. split; [intros x Hx; apply C1; auto; rewrite El; apply in_or_app; auto|]. intros Lk. left.
      assert (LK : length (firstn k s) = k) by (rewrite firstn_length; apply Nat.min_l; destruct (le_lt_dec k (length s)); auto; rewrite skipn_all2 in Hy by lia; destruct Hy).
      destruct Hl' as [->|(z & Hz & HD & BZ)]; [rewrite El, app_nil_r in LK; lia|]. assert (Iz : In z (firstn k s)) by (rewrite El; apply in_or_app; auto).
      exists z. split; [apply ZL; auto|]. split; auto. apply C1; auto.
  - right. assert (FAR : forall x, In x (firstn k s) -> val (fb_d x) <= val (dist im j)).
    { intros x Hx. apply (missed_far b points q qi excl (std_min r r_max)); auto; [apply min_number; auto; apply visible_number; auto|apply NC|]. apply H1. eapply Permutation_in; [symmetry; exact P|]. rewrite <- (firstn_skipn k s). apply in_or_app. auto. }
    split; [intros x Hx; apply FAR; rewrite El; apply in_or_app; auto|]. intros Lk. destruct Hl' as [->|(z & Hz & HD & BZ)].
    + right. rewrite app_nil_r in El. rewrite <- El, firstn_length in Lk. split; auto. destruct ST as [ST|ST]; auto; [|lia]. intros ->. unfold at_least in AL. destruct (dist im j); discriminate.
    + left. assert (Iz : In z (firstn k s)) by (rewrite El; apply in_or_app; auto). exists z. split; [apply ZL; auto|]. auto.
Qed.
(** Numbers: a pair missed by the last ball query is almost as far as its radius. *)
Lemma missed_distance r im j : finite r = true -> bpow radix2 (-60) <= val r -> finite (dist im j) = true -> Bltb (sq im j) (fmul r r) = false -> val r <= val (dist im j) * (1 + 3 * u).
Proof.
  intros Fr Lr F E. rewrite dist_finite in F. assert (P60 := bpow_gt_0 radix2 (-60)). assert (NR : number r) by (intros X; subst r; discriminate).
  destruct (missed b points q r im j NR F E) as [FM LM]. destruct (mul_cases r r Fr Fr ltac:(lra) ltac:(lra)) as [[[_ VM] _]|[X _]]; [|rewrite X in FM; discriminate].
  assert (R2 : bpow radix2 (-120) <= val r * val r) by (change (-120)%Z with (-60 + -60)%Z; rewrite bpow_plus; apply Rmult_le_compat; lra).
  assert (L126 : bpow radix2 (-126) <= bpow radix2 (-120)) by (apply bpow_le; lia). assert (L61 : bpow radix2 (-126) <= bpow radix2 (-61)) by (apply bpow_le; lia).
  assert (H61 : bpow radix2 (-61) = bpow radix2 (-60) / 2) by (change (-60)%Z with (1 + -61)%Z; rewrite bpow_plus; change (bpow radix2 1) with 2; field).
  assert (P120 := bpow_gt_0 radix2 (-120)). destruct (rnd_rel (val r * val r) ltac:(rewrite Rabs_pos_eq; lra)) as (e & He & V). rewrite V in VM. rewrite VM in LM. apply Rabs_le_inv in He.
  assert (U : 0 < u < / 1000) by (unfold u; lra).
  assert (SR : val r * (1 - u) <= sqrt (val (sq im j))).
  { rewrite <- (sqrt_square (val r * (1 - u))) by (apply Rmult_le_pos; lra). apply sqrt_le_1; [apply Rle_0_sqr|eapply Rle_trans; [|exact LM]; apply Rmult_le_pos; [apply Rle_0_sqr|lra]|].
    eapply Rle_trans; [|exact LM]. replace (val r * (1 - u) * (val r * (1 - u))) with (val r * val r * ((1 - u) * (1 - u))) by ring. apply Rmult_le_compat_l; [apply Rle_0_sqr|nra]. }
  assert (LS : bpow radix2 (-126) <= sqrt (val (sq im j))).
  { eapply Rle_trans; [exact L61|]. rewrite H61. eapply Rle_trans; [|exact SR]. assert (val r * (1 / 2) <= val r * (1 - u)) by (apply Rmult_le_compat_l; lra). lra. }
  unfold cdist. rewrite sqrt_val. destruct (rnd_rel (sqrt (val (sq im j))) ltac:(rewrite Rabs_pos_eq; [auto|apply sqrt_pos])) as (e' & He' & V'). rewrite V'. apply Rabs_le_inv in He'.
  set (w := sqrt (val (sq im j))) in *. assert (W0 : 0 <= w) by apply sqrt_pos. assert (W1 : w * (1 - u) <= w * (1 + e')) by (apply Rmult_le_compat_l; lra).
  set (z := w * (1 + e')) in *. assert (Z1 : val r * (1 - u) * (1 - u) <= z) by (eapply Rle_trans; [|exact W1]; apply Rmult_le_compat_r; lra).
  assert (Z2 : val r * (1 - u) * (1 - u) * (1 + 3 * u) <= z * (1 + 3 * u)) by (apply Rmult_le_compat_r; lra). eapply Rle_trans; [|exact Z2].
  replace (val r * (1 - u) * (1 - u) * (1 + 3 * u)) with (val r * (1 + u * (1 - 5 * u + 3 * u * u))) by ring. assert (0 <= val r * (u * (1 - 5 * u + 3 * u * u))); [|lra]. apply Rmult_le_pos; [lra|]. apply Rmult_le_pos; nra.
Qed.
Lemma mul_reach r X : finite r = true -> bpow radix2 (-126) <= val r -> finite scale = true -> Bleb X (fmul r scale) = true ->
  (finite X = true /\ val X <= val r * val scale * (1 + u)) \/ bpow radix2 60 <= val r * val scale \/ X = B754_infinity true.
Proof.
  intros Fr Lr Fs H. assert (P := bpow_gt_0 radix2 (-126)). assert (VS := grows_val scale Hs Fs). assert (P23 := bpow_gt_0 radix2 (-23)).
  assert (RS : bpow radix2 (-126) <= val r * val scale) by (assert (val r * 1 <= val r * val scale) by (apply Rmult_le_compat_l; lra); lra).
  destruct (mul_cases r scale Fr Fs ltac:(lra) ltac:(lra)) as [[[FM VM] _]|[_ L]].
  - destruct (finite X) eqn:FX.
    + left. split; auto. apply leb_val in H; auto. rewrite VM in H. destruct (rnd_rel (val r * val scale) ltac:(rewrite Rabs_pos_eq; lra)) as (e & He & V). rewrite V in H. apply Rabs_le_inv in He. eapply Rle_trans; [exact H|]. apply Rmult_le_compat_l; lra.
    + right. right. destruct X as [|[]| |]; try discriminate; auto; destruct (fmul r scale) as [[]|[]| |[] ? ? ?]; discriminate.
  - right. left. apply Rnot_lt_le. intros C. assert (K : rnd (val r * val scale) <= bpow radix2 60) by (apply rnd_le_fmt; [apply fmt_bpow; lia|lra]). assert (bpow radix2 60 < bpow radix2 128) by (apply bpow_lt; lia). lra.
Qed.
End Loop.
