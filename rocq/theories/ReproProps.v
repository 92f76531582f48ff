(** C77: sums over particles in machine arithmetic: which results have the same bits whatever the threads do, and how far apart the others can be. *)
From Coq Require Import Lia Lra Psatz.
From Verif Require Import ParProofs F32Proofs F32Spec ReproProofs ReproSpec.
Local Open Scope R_scope.

(** Counts: whatever the schedules, the arrays left from earlier calls and the order of the reduction, an entry is the number of samples mod 2^32. *)
Theorem C77_counts (fs : list (nat * (nat -> nat -> list Z) * list (nat * nat))) c r :
  outcome 0%Z uadd fs c r -> Forall (fun x => (0 <= x < 2 ^ 32)%Z) (addends fs c) ->
  r = (fold_right Z.add 0 (addends fs c) mod 2 ^ 32)%Z.
Proof. intros H Hr. apply sums_counts; auto. apply outcome_sums. auto. Qed.

Lemma same_addends {T} (fs fs' : list (nat * (nat -> nat -> list T) * list (nat * nat))) c : same_work fs fs' -> addends fs c = addends fs' c.
Proof. unfold same_work, addends. revert fs'. induction fs as [|f fs IH]; intros [|f' fs'] E; simpl in *; try discriminate; auto. inversion E as [[E1 E2]]. rewrite E1, (IH fs'); auto. Qed.

(** Counts have the same bits in every run. *)
Theorem C77_count_bits (fs fs' : list (nat * (nat -> nat -> list Z) * list (nat * nat))) c r r' :
  same_work fs fs' -> Forall (fun x => (0 <= x < 2 ^ 32)%Z) (addends fs c) -> outcome 0%Z uadd fs c r -> outcome 0%Z uadd fs' c r' -> r = r'.
Proof. intros E Hr H H'. rewrite (C77_counts fs c r), (C77_counts fs' c r'), (same_addends fs fs' c) by (auto; rewrite <- (same_addends fs fs' c); auto). reflexivity. Qed.

Lemma ones_sum m n ev (c : nat) : fold_right Z.add 0%Z (addends (repeat (n, fun _ _ : nat => [1%Z], ev) m) c) = (Z.of_nat m * Z.of_nat n)%Z.
Proof.
  unfold addends. assert (Hn : forall k b, fold_right Z.add 0%Z (flat_map (fun _ : nat => [1%Z]) (seq b k)) = Z.of_nat k) by (induction k; intros b; cbn [seq flat_map fold_right app]; [auto|rewrite IHk; lia]).
  induction m as [|m IH]; auto. cbn [repeat flat_map]. rewrite zsum_app, IH. cbn [fst snd]. rewrite Hn. lia.
Qed.
Lemma ones_range m n ev (c : nat) : Forall (fun x => (0 <= x < 2 ^ 32)%Z) (addends (repeat (n, fun _ _ : nat => [1%Z], ev) m) c).
Proof.
  apply Forall_forall. intros x H. unfold addends in H. apply in_flat_map in H as [f [Hf H]]. apply repeat_spec in Hf. subst f. simpl in H. apply in_flat_map in H as [i [_ [<-|[]]]]. lia.
Qed.

(** The number itself is not what accumulated histograms hold: 65536 frames with 65536 samples each in one bin read 0 in every run. *)
Theorem C77_wrap_refuted : exists (fs : list (nat * (nat -> nat -> list Z) * list (nat * nat))),
  fold_right Z.add 0%Z (addends fs 0) = (2 ^ 32)%Z /\ Forall (fun x => x = 1%Z) (addends fs 0) /\ (exists r, outcome 0%Z uadd fs 0 r) /\ forall r, outcome 0%Z uadd fs 0 r -> r = 0%Z.
Proof.
  destruct (Z_of_nat_complete 65536 ltac:(lia)) as [k Hk]. symmetry in Hk.
  set (ev := map (fun i => (0%nat, i)) (range 0 k)). exists (repeat (k, fun _ _ => [1%Z], ev) k). assert (E : fold_right Z.add 0%Z (addends (repeat (k, fun _ _ : nat => [1%Z], ev) k) 0) = (2 ^ 32)%Z) by (rewrite ones_sum, Hk; reflexivity).
  split; [exact E|]. split; [|split].
  - apply Forall_forall. intros x H. unfold addends in H. apply in_flat_map in H as [f [Hf H]]. apply repeat_spec in Hf. subst f. simpl in H. apply in_flat_map in H as [i [_ [<-|[]]]]. auto.
  - eexists. exists [], (accumulate_frames 0%Z uadd (repeat (k, fun _ _ : nat => [1%Z], ev) k) []). split; [|split; [constructor|split; [apply Permutation_refl|reflexivity]]].
    apply Forall_forall. intros f Hf. apply repeat_spec in Hf. subst f. apply sequential_execution.
  - intros r H. rewrite (C77_counts _ _ _ H), E by apply ones_range. reflexivity.
Qed.

(** Floating point of any format: every run is within the classical bound of the exact sum. *)
Theorem C77_floats (prec emax : Z) {Hp : Prec_gt_0 prec} {He : Prec_lt_emax prec emax} (fs : list (nat * (nat -> nat -> list (binary_float prec emax)) * list (nat * nat))) c r :
  outcome (B754_zero false) fplus fs c r -> all_finite (addends fs c) ->
  let l := addends fs c in let m := length l in let u := roundoff prec in
  (1 + u) ^ m * size_sum l <= bpow radix2 (emax - 1) ->
  is_finite r = true /\ Rabs (B2R r - exact_sum l) <= ((1 + u) ^ m - 1) * size_sum l /\
  (INR m * u <= / 2 -> Rabs (B2R r - exact_sum l) <= 2 * INR m * u * size_sum l).
Proof.
  intros H Hf l m u Hb. destruct (sums_floats prec emax l r Hf Hb (outcome_sums _ _ _ _ _ H)) as [F E]. split; auto. split; auto. intros Hm. eapply Rle_trans; [exact E|].
  apply Rmult_le_compat_r; [apply ss_nonneg|]. apply pow_linear. exact Hm.
Qed.

(** Two runs of the same work differ by no more than twice that. *)
Theorem C77_runs (prec emax : Z) {Hp : Prec_gt_0 prec} {He : Prec_lt_emax prec emax} (fs fs' : list (nat * (nat -> nat -> list (binary_float prec emax)) * list (nat * nat))) c r r' :
  same_work fs fs' -> outcome (B754_zero false) fplus fs c r -> outcome (B754_zero false) fplus fs' c r' -> all_finite (addends fs c) ->
  let l := addends fs c in let m := length l in let u := roundoff prec in
  (1 + u) ^ m * size_sum l <= bpow radix2 (emax - 1) ->
  Rabs (B2R r - B2R r') <= 2 * (((1 + u) ^ m - 1) * size_sum l).
Proof.
  intros E H H' Hf l m u Hb. destruct (C77_floats prec emax fs c r H Hf Hb) as [_ [B _]]. pose proof (same_addends fs fs' c E) as Ea.
  assert (Hf' : all_finite (addends fs' c)) by (rewrite <- Ea; auto). destruct (C77_floats prec emax fs' c r' H' Hf') as [_ [B' _]]; [rewrite <- Ea; exact Hb|]. rewrite <- Ea in B'. fold l m u in B, B'.
  replace (B2R r - B2R r') with ((B2R r - exact_sum l) + - (B2R r' - exact_sum l)) by ring. eapply Rle_trans; [apply Rabs_triang|]. rewrite Rabs_Ropp. lra.
Qed.

(** Addends that are whole multiples ms of one power of two, of total size at most 2^prec of it: every run is exact. *)
Theorem C77_exact (prec emax : Z) {Hp : Prec_gt_0 prec} {He : Prec_lt_emax prec emax} (fs : list (nat * (nat -> nat -> list (binary_float prec emax)) * list (nat * nat))) c r (e : Z) (ms : list Z) :
  outcome (B754_zero false) fplus fs c r -> (3 - emax - prec <= e)%Z -> (prec + e <= emax - 1)%Z ->
  Forall2 (fun x m => is_finite x = true /\ B2R x = IZR m * bpow radix2 e) (addends fs c) ms ->
  (fold_right (fun m acc => Z.abs m + acc) 0 ms <= 2 ^ prec)%Z ->
  is_finite r = true /\ B2R r = exact_sum (addends fs c).
Proof.
  intros H H1 H2 Hl Hb. destruct (sums_exact prec emax e (addends fs c) ms r H1 H2 Hl Hb (outcome_sums _ _ _ _ _ H)) as [F V]. split; auto. rewrite V. clear - Hl.
  unfold exact_sum. induction Hl as [|x m l ms [_ Hx] Hl IH]; simpl; [ring|]. rewrite plus_IZR, Rmult_plus_distr_r, IH, Hx. reflexivity.
Qed.

(** Single precision holds no more than 2^24 unit contributions: further ones are lost. *)
Lemma ones_step (x : f32) : is x (bpow radix2 24) -> is (fplus x fone) (bpow radix2 24).
Proof.
  intros [F V]. assert (E : x = lit (2 ^ 24) 0).
  { destruct (is_lit_Z (2 ^ 24) ltac:(vm_compute; congruence)) as [F' V']. assert (V'' : val (lit (2 ^ 24) 0) = bpow radix2 24) by (rewrite V'; reflexivity).
    apply B2R_Bsign_inj; auto; [congruence|]. destruct x as [s|s| |s m e Hb]; try discriminate.
    - simpl in V. pose proof (bpow_gt_0 radix2 24). lra.
    - destruct s; [|reflexivity]. exfalso. pose proof (bpow_gt_0 radix2 24) as P. rewrite <- V in P. unfold B2R, F2R in P. simpl in P. pose proof (bpow_gt_0 radix2 e). pose proof (IZR_lt (Z.neg m) 0 ltac:(lia)). nra. }
  subst x. replace (fplus (lit (2 ^ 24) 0) fone) with (lit (2 ^ 24) 0) by (apply B2SF_inj; vm_compute; reflexivity). split; auto.
Qed.
Definition unit_work (n : nat) : list (nat * (nat -> nat -> list f32) * list (nat * nat)) := [(n, fun _ _ => [fone], map (fun i => (0%nat, i)) (range 0 n))].
Lemma unit_addends n c : addends (unit_work n) c = repeat fone n.
Proof. unfold addends, unit_work. simpl. rewrite app_nil_r. generalize 0%nat. induction n; intros b; simpl; [auto|rewrite IHn; auto]. Qed.
Lemma run_one_thread {T} (zero : T) add (w : nat -> nat -> list T) is' : forall a, exists a', accumulate zero add w (map (fun i => (0%nat, i)) is') [(0%nat, a)] = [(0%nat, a')] /\
  forall c, a' c = fold_left add (flat_map (fun i => w i c) is') (a c).
Proof.
  induction is' as [|i l IH]; intros a; [exists a; auto|]. destruct (IH (add_all add (w i) a)) as [a' [E V]]. exists a'. split; [exact E|].
  intros c. rewrite V. unfold add_all. simpl. rewrite fold_left_app. reflexivity.
Qed.
Lemma run_one_thread0 {T} (zero : T) add (w : nat -> nat -> list T) n : exists a', accumulate zero add w (map (fun i => (0%nat, i)) (range 0 (S n))) [] = [(0%nat, a')] /\
  forall c, a' c = fold_left add (flat_map (fun i => w i c) (range 0 (S n))) zero.
Proof.
  destruct (run_one_thread zero add w (range 1 (S n)) (add_all add (w 0%nat) (fun _ => zero))) as [a' [E V]]. exists a'. split.
  - unfold range in *. rewrite Nat.sub_0_r. simpl Nat.sub in E. rewrite Nat.sub_0_r in E. exact E.
  - intros c. rewrite V. unfold range. rewrite Nat.sub_0_r. simpl. rewrite Nat.sub_0_r, fold_left_app. reflexivity.
Qed.
Lemma ones_exact (k : nat) : Z.of_nat k = (2 ^ 24)%Z -> is (fold_left fplus (repeat fone k) fzero) (bpow radix2 24).
Proof.
  intros Hk. assert (S : sums fzero fplus (repeat fone k) (fold_left fplus (repeat fone k) fzero)) by (apply (sums_fold fzero fplus (repeat fone k) [] fzero); constructor).
  assert (G : Forall2 (gridded 24 128 0) (repeat fone k) (repeat 1%Z k)).
  { clear. induction k; simpl; constructor; auto. split; [reflexivity|]. rewrite (proj2 is_one). simpl. ring. }
  edestruct (sums_exact 24 128 0 (repeat fone k) (repeat 1%Z k)) as [F V]; [vm_compute; congruence|lia|exact G| |exact S|].
  - rewrite <- Hk. clear. induction k; [simpl; lia|]. cbn [repeat fold_right]. lia.
  - split; auto. rewrite V. simpl (bpow radix2 0). rewrite Rmult_1_r. change (bpow radix2 24) with (IZR (2 ^ 24)). f_equal. rewrite <- Hk. clear. induction k; [reflexivity|]. cbn [repeat fold_right]. lia.
Qed.
Theorem C77_counter_refuted n : (2 ^ 24 <= Z.of_nat n)%Z ->
  exact_sum (addends (unit_work n) 0) = INR n /\ exists r, outcome fzero fplus (unit_work n) 0 r /\ is r 16777216.
Proof.
  intros Hn. destruct (Z_of_nat_complete (2 ^ 24) ltac:(lia)) as [k Hk]. symmetry in Hk. assert (En : n = (k + (n - k))%nat) by lia. split.
  - rewrite unit_addends. clear. induction n as [|n IH]; [reflexivity|]. unfold exact_sum in *. cbn [repeat fold_right]. rewrite IH, (proj2 is_one), S_INR. ring.
  - destruct n as [|n]; [simpl in Hn; lia|]. destruct (run_one_thread0 fzero fplus (fun _ _ => [fone]) n) as [a [E V]].
    exists (reduced fzero fplus [(0%nat, a)] 0). split.
    + exists [], [(0%nat, a)]. split; [repeat constructor; apply sequential_execution|]. split; [constructor|]. split; [|reflexivity]. unfold accumulate_frames, unit_work. cbn [fold_left fst snd]. rewrite E. apply Permutation_refl.
    + unfold reduced. cbn [fold_left snd]. rewrite V. assert (Er : flat_map (fun _ : nat => [fone]) (range 0 (S n)) = repeat fone k ++ repeat fone (S n - k)).
      { rewrite <- repeat_app, <- En. unfold range. rewrite Nat.sub_0_r. generalize 0%nat (S n). intros b m. revert b. induction m; intros b; simpl; [auto|rewrite IHm; auto]. }
      rewrite Er, fold_left_app. assert (Ha : is (fold_left fplus (repeat fone (S n - k)) (fold_left fplus (repeat fone k) fzero)) (bpow radix2 24)).
      { pose proof (ones_exact k Hk) as Hx. revert Hx. generalize (fold_left fplus (repeat fone k) fzero). generalize (S n - k)%nat. intros m. induction m as [|m IH]; intros x Hx; auto. cbn [repeat fold_left]. apply IH, ones_step, Hx. }
      revert Ha. generalize (fold_left fplus (repeat fone (S n - k)) (fold_left fplus (repeat fone k) fzero)). intros x [F W].
      destruct (fplus_ok 24 128 fzero x eq_refl F) as [F1 V1]; [simpl B2R at 1; rewrite Rplus_0_l, W, Rabs_pos_eq by apply bpow_ge_0; apply bpow_le; lia|].
      split; auto. rewrite V1. simpl B2R at 1. rewrite Rplus_0_l, W, round_generic; [reflexivity|typeclasses eauto|apply generic_format_bpow; vm_compute; congruence].
Qed.

(** Each particle's tensor is computed by one iteration alone: the same bits in every run. *)
Theorem C77_particles (us : list fvec) ev i c : execution 0 (length us) ev ->
  particle_tensor us ev i c = option_map (fun u => nematic_q u c) (nth_error us i).
Proof.
  intros H. apply execution_perm in H. unfold particle_tensor.
  assert (G : forall (ev : list (nat * nat)) out, fold_left (fun (out : nat -> nat -> option f32) e => fun i c => if Nat.eqb i (snd e) then option_map (fun u => nematic_q u c) (nth_error us i) else out i c) ev out i c =
    if existsb (fun e => Nat.eqb i (snd e)) ev then option_map (fun u => nematic_q u c) (nth_error us i) else out i c).
  { clear. induction ev as [|e ev IH]; intros out; simpl; auto. rewrite IH. destruct (Nat.eqb i (snd e)); simpl; destruct (existsb _ ev); auto. }
  rewrite G. destruct (existsb _ ev) eqn:Ex; auto. destruct (nth_error us i) as [v|] eqn:En; auto. exfalso.
  assert (Hi : (i < length us)%nat) by (apply nth_error_Some; congruence). assert (Hin : In i (map snd ev)) by (eapply Permutation_in; [symmetry; exact H|]; unfold range; apply in_seq; lia).
  apply in_map_iff in Hin as [e [E Hin]]. assert (existsb (fun e => Nat.eqb i (snd e)) ev = true) by (apply existsb_exists; exists e; split; auto; subst; apply Nat.eqb_refl). congruence.
Qed.

(** The nematic tensor has other bits for other schedules: three orientations, entry (0, 0), one thread against two. *)
Definition three : list fvec := [FV fzero fone fzero; FV fone fzero fzero; FV fone fone fzero].
Theorem C77_nematic_refuted : exists ev ev', execution 0 3 ev /\ execution 0 3 ev' /\
  nematic_tensor three ev [] 0 <> nematic_tensor three ev' [] 0.
Proof.
  exists [(0, 0); (0, 1); (0, 2)]%nat, [(0, 0); (1, 1); (1, 2)]%nat. split; [apply (sequential_execution 0 3 0)|]. split.
  - exists [(0, 1); (1, 3)]%nat. split; [apply (split_node 0 1 3 [(0, 1)%nat] [(1, 3)%nat]); try lia; apply split_leaf; lia|]. apply Permutation_refl.
  - intros E. apply (f_equal B2SF) in E. vm_compute in E. discriminate.
Qed.

(** How far from the mean of the particle tensors it can be, whatever the schedule. *)
Theorem C77_nematic (us : list fvec) ev old c : execution 0 (length us) ev -> (1 <= length us)%nat -> (Z.of_nat (length us) <= 2 ^ 22)%Z ->
  Forall (fun v => finite (nematic_q v c) = true /\ Rabs (val (nematic_q v c)) <= 2) us ->
  let n := INR (length us) in let q := map (fun v => nematic_q v c) us in
  finite (nematic_tensor us ev old c) = true /\
  Rabs (val (nematic_tensor us ev old c) - exact_sum q / n) <= 2 * (n + 2) * u * (size_sum q / n) + bpow radix2 (-150).
Proof.
  intros Hev H1 H22 Hq n q.
  set (w := fun (i : nat) (c : nat) => match nth_error us i with Some u => [nematic_q u c] | None => [] end).
  assert (Ea : addends [(length us, w, ev)] c = q).
  { unfold addends, q. simpl. rewrite app_nil_r. unfold w. clear. assert (G : forall pre us', us = pre ++ us' -> flat_map (fun i => match nth_error us i with Some u => [nematic_q u c] | None => [] end) (seq (length pre) (length us')) = map (fun v => nematic_q v c) us').
    { intros pre us'. revert pre. induction us' as [|v us' IH]; intros pre E; simpl; auto. assert (Ev : nth_error us (length pre) = Some v) by (rewrite E, nth_error_app2, Nat.sub_diag by lia; reflexivity).
      rewrite Ev. simpl. f_equal. replace (S (length pre)) with (length (pre ++ [v])) by (rewrite app_length; simpl; lia). apply IH. rewrite <- app_assoc. auto. }
    apply (G [] us eq_refl). }
  set (zeroed := map (fun l : nat * (nat -> f32) => (fst l, fun _ : nat => fzero)) old).
  set (S0 := reduced fzero fadd (accumulate fzero fadd w ev zeroed) c).
  assert (Ho : outcome fzero fplus [(length us, w, ev)] c S0).
  { exists zeroed, (accumulate fzero fplus w ev zeroed). split; [repeat constructor; auto|]. split; [|split; [apply Permutation_refl|reflexivity]]. unfold zeroed. clear. induction old; constructor; simpl; auto. }
  assert (Hu : roundoff 24 = u) by (unfold roundoff, u; simpl; unfold Z.pow_pos; simpl; lra).
  assert (Hn1 : 1 <= n) by (apply (le_INR 1); auto). assert (Hn2 : n <= 4194304) by (unfold n; rewrite INR_IZR_INZ; apply IZR_le; exact H22). assert (Pu : u = / 16777216) by reflexivity.
  assert (Hlen : length q = length us) by apply map_length. assert (Hfin : all_finite q) by (unfold all_finite, q; clear - Hq; induction Hq as [|v us [A _] H IH]; constructor; auto).
  assert (Hsz : size_sum q <= 2 * n). { unfold q, n. clear - Hq. induction Hq as [|v us [_ A] H IH]; [unfold size_sum; simpl; lra|]. unfold size_sum in *. cbn [map fold_right length]. rewrite S_INR. lra. }
  assert (Hmu : n * u <= / 2) by (rewrite Pu; lra).
  assert (Hpow : (1 + roundoff 24) ^ length q <= 2). { assert (G := pow_linear 24 (length q)). rewrite Hu, Hlen in *. fold n in G. specialize (G Hmu). rewrite Pu in *. lra. }
  pose proof (ss_nonneg 24 128 q) as Hss. assert (Hbig : IZR 1099511627776 <= bpow radix2 127) by (change (IZR 1099511627776) with (bpow radix2 40); apply bpow_le; lia).
  assert (Hpre : (1 + roundoff 24) ^ length q * size_sum q <= bpow radix2 (128 - 1)).
  { eapply Rle_trans; [apply Rmult_le_compat; [pose proof (pow_ge1 24 (length q)); lra|exact Hss|exact Hpow|exact Hsz]|]. change (128 - 1)%Z with 127%Z. lra. }
  destruct (C77_floats 24 128 [(length us, w, ev)] c S0 Ho) as [F0 [B0 _]]; rewrite ?Ea; auto. rewrite Ea, Hu in B0. rewrite Hu in Hpow.
  unfold nematic_tensor. fold w zeroed S0. set (N := Z.of_nat (length us)) in *. assert (IN : is (lit N 0) n) by (unfold n; rewrite INR_IZR_INZ; apply is_lit_Z; unfold N in *; lia). destruct IN as [FN VN].
  destruct is_one as [F1 V1].
  assert (Hinv : 0 < / n <= 1) by (split; [apply Rinv_0_lt_compat; lra|rewrite <- Rinv_1; apply Rinv_le_contravar; lra]).
  assert (Hinv2 : bpow radix2 (-22) <= / n). { replace (bpow radix2 (-22)) with (/ 4194304) by (simpl; unfold Z.pow_pos; simpl; lra). apply Rinv_le_contravar; lra. }
  destruct (is_div fone (lit N 0) F1) as [Fi Vi]; [rewrite VN; lra|rewrite V1, VN; unfold fits; rewrite Rabs_pos_eq by (unfold Rdiv; lra); unfold Rdiv; lra|]. rewrite V1, VN in Vi.
  destruct (rnd_rel (1 / n)) as [d [Hd Ed]]; [rewrite Rabs_pos_eq by (unfold Rdiv; lra); unfold Rdiv; rewrite Rmult_1_l; eapply Rle_trans; [|exact Hinv2]; apply bpow_le; lia|]. rewrite Ed in Vi.
  set (I := fdiv fone (lit N 0)) in *.
  assert (HS : Rabs (val S0) <= 2 * size_sum q). { replace (val S0) with ((val S0 - exact_sum q) + exact_sum q) by ring. eapply Rle_trans; [apply Rabs_triang|]. pose proof (es_le 24 128 q). assert (((1 + u) ^ length q - 1) * size_sum q <= 1 * size_sum q) by (apply Rmult_le_compat_r; lra). lra. }
  assert (HI : Rabs (val I) <= 2). { rewrite Vi. unfold Rdiv. rewrite Rmult_1_l, Rabs_mult, (Rabs_pos_eq (/ n)) by lra. assert (Rabs (1 + d) <= 2) by (apply Rabs_le; apply Rabs_le_inv in Hd; rewrite Pu in Hd; lra). pose proof (Rabs_pos (1 + d)). nra. }
  destruct (is_mul S0 I F0 Fi) as [Fm Vm]; [unfold fits; rewrite Rabs_mult; pose proof (Rabs_pos (val S0)); pose proof (Rabs_pos (val I)); apply Rle_trans with (2 * size_sum q * 2); [apply Rmult_le_compat; auto|lra]|].
  split; auto. rewrite Vm. destruct (rnd_err (val S0 * val I)) as [e [h [He [Hh Er]]]]. rewrite Er, Vi.
  assert (Hun : 0 < n) by lra.
  replace (val S0 * (1 / n * (1 + d)) * (1 + e) + h - exact_sum q / n) with ((val S0 * ((1 + d) * (1 + e)) - exact_sum q) / n + h) by (field; lra).
  eapply Rle_trans; [apply Rabs_triang|]. apply Rplus_le_compat; auto.
  unfold Rdiv. rewrite Rabs_mult, (Rabs_pos_eq (/ n)) by lra. rewrite <- (Rmult_assoc (2 * (n + 2) * u) (size_sum q) (/ n)). apply Rmult_le_compat_r; [lra|].
  set (p := (1 + u) ^ length q) in *. set (Q := size_sum q) in *.
  assert (Hp2 : p * ((1 + u) * (1 + u)) - 1 <= 2 * (n + 2) * u).
  { assert (G := pow_linear 24 (length q + 2)). rewrite Hu, plus_INR, Hlen in G. fold n in G. rewrite pow_add in G. rewrite <- Hlen in G. fold p in G. simpl in G. rewrite Rmult_1_r in G. change (1 + 1) with 2 in G. rewrite <- Rmult_assoc. replace (2 * (n + 2) * u) with (2 * (n + 2) * u) by ring. rewrite <- Rmult_assoc in G. apply G. rewrite Pu. lra. }
  apply Rle_trans with ((p * ((1 + u) * (1 + u)) - 1) * Q); [|apply Rmult_le_compat_r; auto].
  replace (val S0 * ((1 + d) * (1 + e)) - exact_sum q) with ((val S0 - exact_sum q) + val S0 * (d + e + d * e)) by ring.
  assert (Hde : Rabs (d + e + d * e) <= u + u + u * u). { eapply Rle_trans; [apply Rabs_triang|]. apply Rplus_le_compat; [eapply Rle_trans; [apply Rabs_triang|lra]|]. rewrite Rabs_mult. apply Rmult_le_compat; auto using Rabs_pos. }
  assert (HSp : Rabs (val S0) <= p * Q). { replace (val S0) with ((val S0 - exact_sum q) + exact_sum q) by ring. eapply Rle_trans; [apply Rabs_triang|]. pose proof (es_le 24 128 q). fold Q in H. lra. }
  eapply Rle_trans; [apply Rabs_triang|]. rewrite Rabs_mult.
  assert (Rabs (val S0) * Rabs (d + e + d * e) <= p * Q * (u + u + u * u)) by (apply Rmult_le_compat; auto using Rabs_pos).
  replace ((p * ((1 + u) * (1 + u)) - 1) * Q) with ((p - 1) * Q + p * Q * (u + u + u * u)) by ring. lra.
Qed.

(** * Examples *)
Example three_ok : Forall (fun v => finite (nematic_q v 0) = true /\ Rabs (val (nematic_q v 0)) <= 2) three.
Proof.
  assert (G : forall x : f32, finite x = true -> SpecFloat.SFleb (B2SF (Babs x)) (B2SF (lit 2 0)) = true -> finite x = true /\ Rabs (val x) <= 2).
  { intros x F H. split; auto. change (SpecFloat.SFleb (B2SF (Babs x)) (B2SF (lit 2 0))) with (Bleb (Babs x) (lit 2 0)) in H. rewrite Bleb_correct, B2R_Babs in H by (rewrite ?is_finite_Babs; auto).
    destruct (is_lit_Z 2 ltac:(simpl; lia)) as [_ V]. rewrite V in H. destruct (Rle_bool_spec (Rabs (val x)) 2); auto; discriminate. }
  unfold three. apply Forall_cons; [|apply Forall_cons; [|apply Forall_cons; [|apply Forall_nil]]]; apply G; vm_compute; reflexivity.
Qed.
Example three_runs (old : locals (nat -> f32)) : finite (nematic_tensor three [(0, 0); (1, 1); (1, 2)]%nat old 0) = true.
Proof.
  apply C77_nematic; [|simpl; lia|simpl; lia|exact three_ok]. exists [(0, 1); (1, 3)]%nat. split; [apply (split_node 0 1 3 [(0, 1)%nat] [(1, 3)%nat]); try lia; apply split_leaf; lia|]. apply Permutation_refl.
Qed.
Example exact_halves : exists fs r, scheduled fs /\ outcome fzero fplus fs 0 r /\ addends fs 0 = [lit 1 (-1); lit 3 (-1); lit (-5) (-1)] /\ is r (-(1 / 2)).
Proof.
  set (fs := [(3%nat, fun i (_ : nat) => [nth i [lit 1 (-1); lit 3 (-1); lit (-5) (-1)] fzero], [(0, 2); (1, 0); (0, 1)]%nat)]).
  assert (Hs : scheduled fs). { repeat constructor. exists [(0, 3)%nat]. split; [apply split_leaf; lia|]. simpl. apply (perm_trans (perm_swap 0%nat 2%nat [1%nat])). apply perm_skip, perm_swap. }
  exists fs. eexists. split; [exact Hs|]. assert (Ho : outcome fzero fplus fs 0 (reduced fzero fplus (accumulate_frames fzero fplus fs []) 0)) by (exists [], (accumulate_frames fzero fplus fs []); split; [exact Hs|split; [constructor|split; [apply Permutation_refl|reflexivity]]]).
  split; [exact Ho|]. split; [reflexivity|]. assert (L : forall m, (Z.abs m <= 2 ^ 24)%Z -> finite (lit m (-1)) = true /\ val (lit m (-1)) = IZR m * bpow radix2 (-1)).
  { intros m Hm. assert (Fm : fmt (IZR m * bpow radix2 (-1))) by (apply (grid_format 24 128 (-1) m); [vm_compute; congruence|exact Hm]).
    destruct (is_lit m (-1)) as [F V]; [|rewrite (rnd_fmt _ Fm) in V; auto]. unfold fits. rewrite Rabs_mult, (Rabs_pos_eq (bpow radix2 (-1))) by apply bpow_ge_0. rewrite <- abs_IZR. apply Rle_trans with (bpow radix2 24 * 1); [|rewrite Rmult_1_r; apply bpow_le; lia]. apply Rmult_le_compat; [apply (IZR_le 0); lia|apply bpow_ge_0|apply (IZR_le _ (2 ^ 24)); exact Hm|apply (bpow_le radix2 (-1) 0); lia]. }
  destruct (C77_exact 24 128 fs 0 _ (-1) [1; 3; -5]%Z Ho) as [F V]; [lia|lia|repeat constructor; try apply L; simpl; lia|simpl; lia|]. split; auto. rewrite V. change (addends fs 0) with [lit 1 (-1); lit 3 (-1); lit (-5) (-1)]. unfold exact_sum. cbn [fold_right].
  rewrite (proj2 (L 1%Z ltac:(simpl; lia))), (proj2 (L 3%Z ltac:(simpl; lia))), (proj2 (L (-5)%Z ltac:(simpl; lia))). simpl (bpow radix2 (-1)). lra.
Qed.
Example counts_two_threads : outcome 0%Z uadd [(3%nat, fun _ _ => [1; 1]%Z, [(1, 2); (0, 0); (1, 1)]%nat)] 0 6%Z.
Proof.
  exists [(7%nat, fun _ => 0%Z)]. eexists. split; [repeat constructor; exists [(0, 3)%nat]; split; [apply split_leaf; lia|]; simpl; apply (perm_trans (perm_swap 0%nat 2%nat [1%nat])); apply perm_skip, perm_swap|].
  split; [repeat constructor|]. split; [apply Permutation_refl|]. reflexivity.
Qed.

Print Assumptions C77_counts.
Print Assumptions C77_count_bits.
Print Assumptions C77_wrap_refuted.
Print Assumptions C77_floats.
Print Assumptions C77_runs.
Print Assumptions C77_exact.
Print Assumptions C77_counter_refuted.
Print Assumptions C77_particles.
Print Assumptions C77_nematic_refuted.
Print Assumptions C77_nematic.
