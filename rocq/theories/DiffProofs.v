(** Sums, the Fourier transform of a histogram, and the inverse of the image transformation. *)
From Coq Require Import Psatz Permutation.
From Verif Require Import DiffSpec.
Local Open Scope R_scope.

(** * Sums *)
Lemma asum_ext n f g : (forall k, (k < n)%nat -> f k = g k) -> asum n f = asum n g.
Proof. induction n as [|n IH]; simpl; intros H; auto. rewrite IH, H by auto. reflexivity. Qed.
Lemma asum_add n f g : asum n (fun k => f k + g k) = asum n f + asum n g.
Proof. induction n as [|n IH]; simpl; [lra|]. rewrite IH. lra. Qed.
Lemma asum_0 n : asum n (fun _ => 0) = 0.
Proof. induction n as [|n IH]; simpl; [lra|]. rewrite IH. lra. Qed.
Lemma asum_scale n c f : asum n (fun k => c * f k) = c * asum n f.
Proof. induction n as [|n IH]; simpl; [lra|]. rewrite IH. lra. Qed.
Lemma asum_pick n k f : (k < n)%nat -> (forall i, (i < n)%nat -> i <> k -> f i = 0) -> asum n f = f k.
Proof.
  induction n as [|n IH]; intros Hk H; [lia|]. simpl. destruct (Nat.eq_dec k n) as [->|Hne].
  - rewrite (asum_ext n f (fun _ => 0)), asum_0 by (intros; apply H; lia). lra.
  - rewrite IH, (H n) by (try lia; intros; apply H; lia). lra.
Qed.
Lemma asum_pick2 n k f : (S k < n)%nat -> (forall i, (i < n)%nat -> i <> k -> i <> S k -> f i = 0) -> asum n f = f k + f (S k).
Proof.
  induction n as [|n IH]; intros Hk H; [lia|]. simpl. destruct (Nat.eq_dec (S k) n) as [<-|Hne].
  - rewrite (asum_pick (S k) k) by (try lia; intros; apply H; lia). reflexivity.
  - rewrite IH, (H n) by (try lia; intros; apply H; lia). lra.
Qed.
Lemma asum_le n f g : (forall k, (k < n)%nat -> f k <= g k) -> asum n f <= asum n g.
Proof. induction n as [|n IH]; simpl; intros H; [lra|]. apply Rplus_le_compat; auto. Qed.

(** * The transform of a histogram *)
Definition wfold {A} (f : A -> R) (l : list (A * R)) : R := fold_right (fun t acc => snd t * f (fst t) + acc) 0 l.
Lemma hist_sum n F xys ws : (forall x y, In (x, y) xys -> (bin_of n x < n)%nat /\ (bin_of n y < n)%nat) ->
  asum n (fun a => asum n (fun b => histogram n xys ws a b * F a b)) = wfold (fun t => F (bin_of n (fst t)) (bin_of n (snd t))) (combine xys ws).
Proof.
  revert ws. induction xys as [|[x y] xys IH]; intros ws H.
  - unfold histogram. simpl. rewrite (asum_ext n _ (fun _ => 0)); [apply asum_0|]. intros. rewrite (asum_ext n _ (fun _ => 0)); [apply asum_0|]. intros. ring.
  - destruct ws as [|w ws].
    + unfold histogram. simpl. rewrite (asum_ext n _ (fun _ => 0)); [apply asum_0|]. intros. rewrite (asum_ext n _ (fun _ => 0)); [apply asum_0|]. intros. ring.
    + change (wfold (fun t : R * R => F (bin_of n (fst t)) (bin_of n (snd t))) (combine ((x, y) :: xys) (w :: ws)))
        with (w * F (bin_of n x) (bin_of n y) + wfold (fun t : R * R => F (bin_of n (fst t)) (bin_of n (snd t))) (combine xys ws)).
      rewrite <- IH by (intros; apply H; right; auto). destruct (H x y (or_introl eq_refl)) as [Hx Hy].
      rewrite (asum_ext n _ (fun a => asum n (fun b => (if Nat.eqb (bin_of n x) a && Nat.eqb (bin_of n y) b then w else 0) * F a b) + asum n (fun b => histogram n xys ws a b * F a b))).
      2: { intros a _. rewrite <- asum_add. apply asum_ext. intros b _. unfold histogram. simpl. ring. }
      rewrite asum_add. f_equal. rewrite (asum_pick n (bin_of n x)); auto.
      * rewrite Nat.eqb_refl. simpl. rewrite (asum_pick n (bin_of n y)); auto.
        -- rewrite Nat.eqb_refl. reflexivity.
        -- intros b _ Hb. destruct (Nat.eqb_spec (bin_of n y) b); [congruence|]. ring.
      * intros a _ Ha. rewrite (asum_ext n _ (fun _ => 0)); [apply asum_0|]. intros b _. destruct (Nat.eqb_spec (bin_of n x) a); [congruence|]. simpl. ring.
Qed.

(** * Frequencies *)
Lemma shifted_freq n a : (0 < n)%nat -> (a < n)%nat -> (shifted n a < n)%nat /\ sfreq n (shifted n a) = INR a - INR (n / 2) /\
  exists z, INR (shifted n a) = INR a - INR (n / 2) + IZR z * INR n.
Proof.
  intros Hn Ha. pose proof (Nat.div_mod n 2 ltac:(lia)) as Hd. pose proof (Nat.mod_upper_bound n 2 ltac:(lia)) as Hm. set (h := (n / 2)%nat) in *.
  unfold shifted. fold h. split; [apply Nat.mod_upper_bound; lia|].
  assert (Hh : ((n + 1) / 2 = n - h)%nat).
  { symmetry. apply (Nat.div_unique _ _ _ (n + 1 - 2 * (n - h))); lia. }
  unfold sfreq. rewrite Hh. destruct (le_lt_dec h a) as [H|H].
  - assert (E : ((a + (n - h)) mod n = a - h)%nat).
    { replace (a + (n - h))%nat with (a - h + 1 * n)%nat by lia. rewrite Nat.mod_add by lia. apply Nat.mod_small. lia. }
    rewrite E. destruct (Nat.ltb_spec (a - h) (n - h)); [|lia]. rewrite minus_INR by lia. split; auto. exists 0%Z. simpl. ring.
  - assert (E : ((a + (n - h)) mod n = a + (n - h))%nat) by (apply Nat.mod_small; lia).
    rewrite E. destruct (Nat.ltb_spec (a + (n - h)) (n - h)); [lia|]. rewrite plus_INR, minus_INR by lia. split; [ring|]. exists 1%Z. simpl. ring.
Qed.
Lemma cos_Z x z : cos (x + 2 * PI * IZR z) = cos x.
Proof.
  destruct (Z.le_ge_cases 0 z) as [H|H].
  - rewrite <- (Z2Nat.id z) by lia. rewrite <- INR_IZR_INZ. replace (2 * PI * INR (Z.to_nat z)) with (2 * INR (Z.to_nat z) * PI) by ring. apply cos_period.
  - replace x with ((x + 2 * PI * IZR z) + 2 * INR (Z.to_nat (- z)) * PI) at 2; [symmetry; apply cos_period|].
    rewrite INR_IZR_INZ, Z2Nat.id, opp_IZR by lia. ring.
Qed.
Lemma sin_Z x z : sin (x + 2 * PI * IZR z) = sin x.
Proof.
  destruct (Z.le_ge_cases 0 z) as [H|H].
  - rewrite <- (Z2Nat.id z) by lia. rewrite <- INR_IZR_INZ. replace (2 * PI * INR (Z.to_nat z)) with (2 * INR (Z.to_nat z) * PI) by ring. apply sin_period.
  - replace x with ((x + 2 * PI * IZR z) + 2 * INR (Z.to_nat (- z)) * PI) at 2; [symmetry; apply sin_period|].
    rewrite INR_IZR_INZ, Z2Nat.id, opp_IZR by lia. ring.
Qed.

(** * Scattering *)
Lemma scatter_cons w x y l kx ky : scatter ((w, (x, y)) :: l) kx ky =
  (w * cos (kx * x + ky * y) + fold_right (fun t acc => fst t * cos (kx * fst (snd t) + ky * snd (snd t)) + acc) 0 l) * (w * cos (kx * x + ky * y) + fold_right (fun t acc => fst t * cos (kx * fst (snd t) + ky * snd (snd t)) + acc) 0 l) +
  (w * sin (kx * x + ky * y) + fold_right (fun t acc => fst t * sin (kx * fst (snd t) + ky * snd (snd t)) + acc) 0 l) * (w * sin (kx * x + ky * y) + fold_right (fun t acc => fst t * sin (kx * fst (snd t) + ky * snd (snd t)) + acc) 0 l).
Proof. reflexivity. Qed.
(** Changing all phases by the same amount, or any of them by whole turns, changes nothing. *)
Lemma scatter_phase (d : R) (l l' : list (R * (R * R))) kx ky kx' ky' :
  Forall2 (fun t t' => fst t = fst t' /\ exists z, kx' * fst (snd t') + ky' * snd (snd t') = kx * fst (snd t) + ky * snd (snd t) + d + 2 * PI * IZR z) l l' ->
  scatter l' kx' ky' = scatter l kx ky.
Proof.
  intros H. unfold scatter. cbv zeta.
  set (C := fold_right (fun t acc => fst t * cos (kx * fst (snd t) + ky * snd (snd t)) + acc) 0 l).
  set (S := fold_right (fun t acc => fst t * sin (kx * fst (snd t) + ky * snd (snd t)) + acc) 0 l).
  assert (E : fold_right (fun t acc => fst t * cos (kx' * fst (snd t) + ky' * snd (snd t)) + acc) 0 l' = C * cos d - S * sin d /\
              fold_right (fun t acc => fst t * sin (kx' * fst (snd t) + ky' * snd (snd t)) + acc) 0 l' = S * cos d + C * sin d).
  { unfold C, S. induction H as [|t t' l l' [Hw [z Hz]] H IH]; simpl; [split; ring|]. destruct IH as [-> ->]. rewrite Hz, cos_Z, sin_Z, (cos_plus _ d), (sin_plus _ d), <- Hw. split; ring. }
  destruct E as [-> ->]. pose proof (sin2_cos2 d) as Hd. unfold Rsqr in Hd.
  replace ((C * cos d - S * sin d) * (C * cos d - S * sin d) + (S * cos d + C * sin d) * (S * cos d + C * sin d)) with ((C * C + S * S) * (sin d * sin d + cos d * cos d)) by ring.
  rewrite Hd. ring.
Qed.
Lemma scatter_perm l l' kx ky : Permutation l l' -> scatter l kx ky = scatter l' kx ky.
Proof.
  intros H. unfold scatter. cbv zeta.
  assert (E : forall f : R * (R * R) -> R, fold_right (fun t acc => f t + acc) 0 l = fold_right (fun t acc => f t + acc) 0 l').
  { intros f. induction H; simpl; lra. }
  rewrite (E (fun t => fst t * cos (kx * fst (snd t) + ky * snd (snd t)))), (E (fun t => fst t * sin (kx * fst (snd t) + ky * snd (snd t)))). reflexivity.
Qed.
Lemma scatter_nonneg l kx ky : 0 <= scatter l kx ky.
Proof. unfold scatter. cbv zeta. match goal with |- 0 <= ?a * ?a + ?b * ?b => pose proof (Rle_0_sqr a); pose proof (Rle_0_sqr b) end. unfold Rsqr in *. lra. Qed.
Lemma scatter_0 l : scatter l 0 0 = fold_right (fun t acc => fst t + acc) 0 l * fold_right (fun t acc => fst t + acc) 0 l.
Proof.
  unfold scatter. cbv zeta.
  assert (E1 : fold_right (fun t acc => fst t * cos (0 * fst (snd t) + 0 * snd (snd t)) + acc) 0 l = fold_right (fun (t : R * (R * R)) acc => fst t + acc) 0 l).
  { induction l as [|t l IH]; simpl; auto. rewrite IH. replace (0 * fst (snd t) + 0 * snd (snd t)) with 0 by ring. rewrite cos_0. ring. }
  assert (E2 : fold_right (fun t acc => fst t * sin (0 * fst (snd t) + 0 * snd (snd t)) + acc) 0 l = 0).
  { clear E1. induction l as [|t l IH]; simpl; auto. rewrite IH. replace (0 * fst (snd t) + 0 * snd (snd t)) with 0 by ring. rewrite sin_0. ring. }
  rewrite E1, E2. ring.
Qed.
Lemma scatter_le l kx ky : (forall t, In t l -> 0 <= fst t) -> 0 <= fold_right (fun (t : R * (R * R)) acc => fst t + acc) 0 l /\ scatter l kx ky <= scatter l 0 0.
Proof.
  intros H. rewrite scatter_0. unfold scatter. cbv zeta. induction l as [|t l IH]; simpl; [lra|].
  destruct IH as [H0 IH]; [intros; apply H; right; auto|]. specialize (H t (or_introl eq_refl)).
  set (C := fold_right (fun t acc => fst t * cos (kx * fst (snd t) + ky * snd (snd t)) + acc) 0 l) in *.
  set (S := fold_right (fun t acc => fst t * sin (kx * fst (snd t) + ky * snd (snd t)) + acc) 0 l) in *.
  set (T := fold_right (fun (t : R * (R * R)) acc => fst t + acc) 0 l) in *. clearbody C S T. split; [lra|].
  set (x := kx * fst (snd t) + ky * snd (snd t)). pose proof (sin2_cos2 x) as Hx. unfold Rsqr in Hx.
  set (c := cos x) in *. set (s := sin x) in *. clearbody c s. set (w := fst t) in *. clearbody w.
  assert (Hc : C * c + S * s <= T).
  { destruct (Rle_dec (C * c + S * s) T) as [h|h]; auto. exfalso. assert (T < C * c + S * s) by lra.
    assert (T * T < (C * c + S * s) * (C * c + S * s)) by nra.
    assert ((C * c + S * s) * (C * c + S * s) <= (C * C + S * S) * (s * s + c * c)). { pose proof (Rle_0_sqr (C * s - S * c)) as Hq. unfold Rsqr in Hq. lra. }
    rewrite Hx in *. lra. }
  replace ((w * c + C) * (w * c + C) + (w * s + S) * (w * s + S)) with (w * w * (s * s + c * c) + 2 * w * (C * c + S * s) + (C * C + S * S)) by ring.
  rewrite Hx. assert (2 * w * (C * c + S * s) <= 2 * w * T) by (apply Rmult_le_compat_l; lra). lra.
Qed.

(** * Intensity *)
Definition cells (n : nat) (xys : list (R * R)) (ws : list R) : list (R * (R * R)) :=
  map (fun t => (snd t, (INR (bin_of n (fst (fst t))), INR (bin_of n (snd (fst t)))))) (combine xys ws).
Lemma intensity_scatter n sigma xys ws a b : (0 < n)%nat -> (a < n)%nat -> (b < n)%nat ->
  (forall x y, In (x, y) xys -> (bin_of n x < n)%nat /\ (bin_of n y < n)%nat) ->
  let m0 := INR a - INR (n / 2) in let m1 := INR b - INR (n / 2) in
  intensity n sigma (histogram n xys ws) a b = damping n sigma m0 m1 * scatter (cells n xys ws) (2 * PI * m0 / INR n) (2 * PI * m1 / INR n).
Proof.
  intros Hn Ha Hb Hin m0 m1. destruct (shifted_freq n a Hn Ha) as [_ [F0 [z0 Z0]]]. destruct (shifted_freq n b Hn Hb) as [_ [F1 [z1 Z1]]]. fold m0 in F0, Z0. fold m1 in F1, Z1.
  assert (Hnp : 0 < INR n) by (apply lt_0_INR; lia).
  unfold intensity, fft2. cbv zeta. rewrite !hist_sum by auto.
  set (j0 := shifted n a) in *. set (j1 := shifted n b) in *.
  set (k0 := 2 * PI * m0 / INR n). set (k1 := 2 * PI * m1 / INR n).
  assert (Ph : forall u v : nat, - 2 * PI * (INR u * INR j0 + INR v * INR j1) / INR n = - (k0 * INR u + k1 * INR v) + 2 * PI * IZR (- (Z.of_nat u * z0 + Z.of_nat v * z1))).
  { intros u v. rewrite Z0, Z1, opp_IZR, plus_IZR, !mult_IZR, <- !INR_IZR_INZ. unfold k0, k1. field. lra. }
  assert (Ec : wfold (fun t => cos (- 2 * PI * (INR (bin_of n (fst t)) * INR j0 + INR (bin_of n (snd t)) * INR j1) / INR n)) (combine xys ws) =
               fold_right (fun t acc => fst t * cos (k0 * fst (snd t) + k1 * snd (snd t)) + acc) 0 (cells n xys ws)).
  { unfold wfold, cells. induction (combine xys ws) as [|t l IH]; simpl; auto. rewrite IH, Ph, cos_Z, cos_neg. reflexivity. }
  assert (Es : wfold (fun t => sin (- 2 * PI * (INR (bin_of n (fst t)) * INR j0 + INR (bin_of n (snd t)) * INR j1) / INR n)) (combine xys ws) =
               - fold_right (fun t acc => fst t * sin (k0 * fst (snd t) + k1 * snd (snd t)) + acc) 0 (cells n xys ws)).
  { clear Ec. unfold wfold, cells. induction (combine xys ws) as [|t l IH]; simpl; [ring|].
 rewrite IH, Ph, sin_Z, sin_neg.
 ring. }
  rewrite Ec, Es. unfold scatter. cbv zeta.
  assert (Eg : gauss n sigma j0 j1 * gauss n sigma j0 j1 = damping n sigma m0 m1).
  { unfold gauss, damping. rewrite F0, F1, <- !exp_plus. f_equal. field. lra. }
  rewrite <- Eg. ring.
Qed.
Lemma damping_pos n sigma m0 m1 : 0 < damping n sigma m0 m1.
Proof. apply exp_pos. Qed.
Lemma damping_le n sigma m0 m1 : damping n sigma m0 m1 <= 1.
Proof.
  unfold damping. rewrite <- exp_0. set (c := 2 * PI * sigma / INR n). assert (0 <= c * c * (m0 * m0 + m1 * m1)).
  { pose proof (Rle_0_sqr c). pose proof (Rle_0_sqr m0). pose proof (Rle_0_sqr m1). unfold Rsqr in *. apply Rmult_le_pos; lra. }
  destruct (Req_dec (c * c * (m0 * m0 + m1 * m1)) 0) as [E|E]; [right; f_equal; lra|left; apply exp_increasing; lra].
Qed.
Lemma damping_0 n sigma : damping n sigma 0 0 = 1.
Proof. unfold damping. rewrite <- exp_0. f_equal. ring. Qed.

(** * Bilinear interpolation *)
Lemma tent_far x : 1 <= Rabs x -> tent x = 0.
Proof. intros H. unfold tent. apply Rmax_left. lra. Qed.
Lemma tent_0 : tent 0 = 1.
Proof. unfold tent. rewrite Rabs_R0, Rmax_right; lra. Qed.
Lemma tent_frac u : 0 <= u <= 1 -> tent u = 1 - u /\ tent (u - 1) = u.
Proof. intros H. unfold tent. rewrite (Rabs_pos_eq u), (Rabs_left1 (u - 1)) by lra. rewrite !Rmax_right by lra. lra. Qed.
Lemma tent_nonneg x : 0 <= tent x.
Proof. apply Rmax_l. Qed.
(** One row: linear interpolation at x of values f at 0, ..., n-1. *)
Lemma row_tent n x f : 0 <= x <= INR n - 1 -> let a := Z.to_nat (Zfloor x) in
  (a < n)%nat /\ 0 <= x - INR a < 1 /\ (1 - (x - INR a)) * f a + (x - INR a) * f (S a) = asum n (fun k => tent (x - INR k) * f k).
Proof.
  intros Hx a. pose proof (Zfloor_lb x) as L1. pose proof (Zfloor_ub x) as L2.
  assert (Hz : (0 <= Zfloor x)%Z) by (apply Zfloor_lub; simpl; lra).
  assert (Ea : INR a = IZR (Zfloor x)) by (unfold a; rewrite INR_IZR_INZ, Z2Nat.id by lia; reflexivity).
  assert (Han : (a < n)%nat). { apply INR_lt. lra. }
  split; auto. split; [lra|]. set (u := x - INR a). assert (Hu : 0 <= u < 1) by (unfold u; lra).
  assert (Far : forall i, i <> a -> i <> S a -> tent (x - INR i) * f i = 0).
  { intros i H1 H2. rewrite tent_far; [ring|]. destruct (Nat.lt_ge_cases i a) as [H|H].
    - assert (INR i + 1 <= INR a). { rewrite <- S_INR. apply le_INR. lia. } rewrite Rabs_pos_eq; unfold u in *; lra.
    - assert (INR a + 2 <= INR i). { replace (INR a + 2) with (INR (S (S a))) by (rewrite !S_INR; ring). apply le_INR. lia. } rewrite Rabs_left1; unfold u in *; lra. }
  destruct (tent_frac u ltac:(lra)) as [T0 T1].
  destruct (Nat.eq_dec (S a) n) as [E|E].
  - rewrite (asum_pick n a) by (auto; intros; apply Far; lia). fold u. rewrite T0.
    assert (u = 0). { unfold u. rewrite <- E, S_INR in Hx. unfold u in Hu. lra. } rewrite H. ring.
  - rewrite (asum_pick2 n a) by (try lia; intros; apply Far; auto). fold u. rewrite T0, S_INR. replace (x - (INR a + 1)) with (u - 1) by (unfold u; ring). rewrite T1. reflexivity.
Qed.
Lemma bilinear_tent n img x y : 0 <= x <= INR n - 1 -> 0 <= y <= INR n - 1 ->
  bilinear n img x y = asum n (fun a => asum n (fun b => tent (x - INR a) * tent (y - INR b) * img a b)).
Proof.
  intros Hx Hy. unfold bilinear. rewrite (proj2 (Rleb_true 0 x)), (proj2 (Rleb_true x _)), (proj2 (Rleb_true 0 y)), (proj2 (Rleb_true y _)) by lra. cbn [andb].
  set (a := Z.to_nat (Zfloor x)). set (b := Z.to_nat (Zfloor y)).
  rewrite (asum_ext n _ (fun a0 => tent (x - INR a0) * asum n (fun b0 => tent (y - INR b0) * img a0 b0))).
  2: { intros k _. rewrite <- asum_scale. apply asum_ext. intros. ring. }
  destruct (row_tent n x (fun k => asum n (fun b0 => tent (y - INR b0) * img k b0)) Hx) as [_ [_ <-]]. fold a.
  destruct (row_tent n y (img a) Hy) as [_ [_ <-]]. destruct (row_tent n y (img (S a)) Hy) as [_ [_ <-]]. fold b. ring.
Qed.
Lemma bilinear_out n img x y : ~ (0 <= x <= INR n - 1 /\ 0 <= y <= INR n - 1) -> bilinear n img x y = 0.
Proof.
  intros H. unfold bilinear. destruct (Rleb_spec 0 x), (Rleb_spec x (INR n - 1)), (Rleb_spec 0 y), (Rleb_spec y (INR n - 1)); simpl; auto. exfalso. apply H. lra.
Qed.
Lemma bilinear_at n img a b : (a < n)%nat -> (b < n)%nat -> bilinear n img (INR a) (INR b) = img a b.
Proof.
  intros Ha Hb. assert (F : forall k, (k < n)%nat -> 0 <= INR k <= INR n - 1).
  { intros k Hk. split; [apply pos_INR|]. assert (INR (S k) <= INR n) by (apply le_INR; lia). rewrite S_INR in H. lra. }
  rewrite bilinear_tent by auto. assert (G : forall i k, i <> k -> tent (INR k - INR i) = 0).
  { intros i k H. apply tent_far. destruct (Nat.lt_ge_cases i k) as [h|h].
    - assert (INR (S i) <= INR k) by (apply le_INR; lia). rewrite S_INR in *. rewrite Rabs_pos_eq; lra.
    - assert (INR (S k) <= INR i) by (apply le_INR; lia). rewrite S_INR in *. rewrite Rabs_left1; lra. }
  rewrite (asum_pick n a); auto.
  - rewrite (asum_pick n b); auto; [rewrite !Rminus_diag_eq, tent_0 by reflexivity; ring|]. intros i _ Hi. rewrite (G i b) by auto. ring.
  - intros i _ Hi. rewrite (asum_ext n _ (fun _ => 0)); [apply asum_0|]. intros. rewrite (G i a) by auto. ring.
Qed.
Lemma tent_total n x : 0 <= x <= INR n - 1 -> asum n (fun a => tent (x - INR a)) = 1.
Proof.
  intros H. destruct (row_tent n x (fun _ => 1) H) as [_ [_ E]]. transitivity (asum n (fun k => tent (x - INR k) * 1)); [apply asum_ext; intros; ring|]. rewrite <- E. ring.
Qed.
Lemma bilinear_bounds n img x y lo hi : lo <= 0 <= hi -> (forall a b, (a < n)%nat -> (b < n)%nat -> lo <= img a b <= hi) -> lo <= bilinear n img x y <= hi.
Proof.
  intros H0 H. assert (D : (0 <= x <= INR n - 1 /\ 0 <= y <= INR n - 1) \/ ~ (0 <= x <= INR n - 1 /\ 0 <= y <= INR n - 1)).
  { destruct (Rle_dec 0 x), (Rle_dec x (INR n - 1)), (Rle_dec 0 y), (Rle_dec y (INR n - 1)); try (right; lra). left; lra. }
  destruct D as [[Hx Hy]|D]; [|rewrite bilinear_out by auto; lra]. rewrite bilinear_tent by auto.
  assert (T : forall c, asum n (fun a => asum n (fun b => tent (x - INR a) * tent (y - INR b) * c)) = c).
  { intros c. transitivity (asum n (fun a => c * tent (x - INR a))).
    - apply asum_ext. intros. rewrite (asum_ext n _ (fun b => c * tent (x - INR k) * tent (y - INR b))) by (intros; ring). rewrite asum_scale, tent_total by auto. ring.
    - rewrite asum_scale, tent_total by auto. ring. }
  split; [rewrite <- (T lo)|rewrite <- (T hi)]; apply asum_le; intros; apply asum_le; intros; (apply Rmult_le_compat_l; [apply Rmult_le_pos; apply tent_nonneg|]); apply H; auto.
Qed.
