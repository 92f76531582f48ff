(** Sums over schedules. *)
From Coq Require Import Psatz.
From Flocq Require Import Plus_error Relative.
From Verif Require Import ParProofs ReproSpec.

(** * Any schedule adds the addends in some order and bracketing *)
Section Sums.
Context {T : Type} (zero : T) (add : T -> T -> T).
Inductive sums : list T -> T -> Prop :=
| sums_nil : sums [] zero
| sums_one x : sums [x] x
| sums_app l l' s s' : sums l s -> sums l' s' -> sums (l ++ l') (add s s')
| sums_perm l l' s : Permutation l l' -> sums l s -> sums l' s.
Lemma sums_fold xs : forall l a, sums l a -> sums (l ++ xs) (fold_left add xs a).
Proof.
  induction xs as [|x xs IH]; intros l a H; simpl; [rewrite app_nil_r; auto|].
  change (x :: xs) with ([x] ++ xs). rewrite app_assoc. apply IH. apply sums_app; auto. apply sums_one.
Qed.
Definition tracked (c : nat) (ls : locals (nat -> T)) (l : list T) : Prop :=
  exists parts, Forall2 (fun p x => sums p (snd x c)) parts ls /\ Permutation (concat parts) l.
Lemma tracked_update c (w : nat -> nat -> list T) i t ls l : tracked c ls l -> tracked c (local_update (fun _ => zero) (add_all add (w i)) t ls) (l ++ w i c).
Proof.
  intros [parts [H P]]. revert l P. induction H as [|p x parts ls Hp H IH]; intros l P; simpl.
  - exists [w i c]. split; [|rewrite <- P; simpl; rewrite app_nil_r; auto]. constructor; [|constructor]. simpl. unfold add_all. apply (sums_fold (w i c) [] zero). constructor.
  - destruct x as [t' a]. simpl in *. destruct (Nat.eqb t t').
    + exists ((p ++ w i c) :: parts). split.
      * constructor; auto. simpl. unfold add_all. apply sums_fold. auto.
      * simpl. rewrite <- P, <- !app_assoc. apply Permutation_app_head. apply Permutation_app_comm.
    + destruct (IH (concat parts) (Permutation_refl _)) as [parts' [H' P']]. exists (p :: parts'). split.
      * constructor; auto.
      * simpl. rewrite <- P, P', app_assoc. reflexivity.
Qed.
Lemma tracked_run c (w : nat -> nat -> list T) ev : forall ls l, tracked c ls l -> tracked c (accumulate zero add w ev ls) (l ++ flat_map (fun e => w (snd e) c) ev).
Proof.
  unfold accumulate, run_local. induction ev as [|e ev IH]; intros ls l H; simpl; [rewrite app_nil_r; auto|].
  rewrite app_assoc. apply IH. apply tracked_update. auto.
Qed.
Lemma tracked_perm c ls l l' : Permutation l l' -> tracked c ls l -> tracked c ls l'.
Proof. intros P [parts [H Q]]. exists parts. split; auto. rewrite Q. auto. Qed.
Lemma flat_map_perm {A B} (f : A -> list B) l l' : Permutation l l' -> Permutation (flat_map f l) (flat_map f l').
Proof. induction 1; simpl; auto. - apply Permutation_app_head. auto. - rewrite !app_assoc. apply Permutation_app_tail. apply Permutation_app_comm. - etransitivity; eauto. Qed.
Lemma flat_map_snd (f : nat -> list T) (ev : list (nat * nat)) : flat_map (fun e => f (snd e)) ev = flat_map f (map snd ev).
Proof. induction ev as [|e ev IH]; simpl; auto. rewrite IH. auto. Qed.
Lemma tracked_frames c fs : scheduled fs -> forall ls l, tracked c ls l -> tracked c (accumulate_frames zero add fs ls) (l ++ addends fs c).
Proof.
  unfold accumulate_frames, addends. induction 1 as [|f fs Hf Hs IH]; intros ls l H; simpl; [rewrite app_nil_r; auto|].
  rewrite app_assoc. apply IH. eapply tracked_perm; [|apply tracked_run; exact H]. apply Permutation_app_head. rewrite (flat_map_snd (fun i => snd (fst f) i c)). apply flat_map_perm.
  apply execution_perm in Hf. unfold range in Hf. rewrite Nat.sub_0_r in Hf. auto.
Qed.
Lemma tracked_locals_perm c ls ls' l : Permutation ls ls' -> tracked c ls l -> tracked c ls' l.
Proof.
  intros P [parts [H Q]]. assert (E : exists parts', Forall2 (fun p x => sums p (snd x c)) parts' ls' /\ Permutation parts parts').
  { clear Q. revert parts H. induction P; intros parts H.
    - inversion H; subst. exists []. split; auto.
    - inversion H; subst. destruct (IHP _ H4) as [q [Hq Pq]]. exists (x0 :: q). split; [constructor; auto|auto].
    - inversion H as [|p1 x1 q1 y1 Hp1 Hq1]; subst. inversion Hq1 as [|p2 x2 q2 y2 Hp2 Hq2]; subst. exists (p2 :: p1 :: q2). split; [repeat constructor; auto|apply perm_swap].
    - destruct (IHP1 _ H) as [q [Hq Pq]]. destruct (IHP2 _ Hq) as [q' [Hq' Pq']]. exists q'. split; auto. etransitivity; eauto. }
  destruct E as [parts' [H' P']]. exists parts'. split; auto. rewrite <- Q. clear - P'. induction P'; simpl; auto.
  - apply Permutation_app_head. auto. - rewrite !app_assoc. apply Permutation_app_tail. apply Permutation_app_comm. - etransitivity; eauto.
Qed.
Lemma sums_reduced c ls l : tracked c ls l -> sums l (reduced zero add ls c).
Proof.
  intros [parts [H P]]. apply (sums_perm (concat parts)); auto. unfold reduced.
  assert (G : forall l0 a, sums l0 a -> sums (l0 ++ concat parts) (fold_left (fun r x => add r (snd x c)) ls a)).
  { clear P. induction H as [|p x parts ls Hp H IH]; intros l0 a Ha; simpl; [rewrite app_nil_r; auto|]. rewrite app_assoc. apply IH. apply sums_app; auto. }
  apply (G [] zero). constructor.
Qed.
Lemma outcome_sums fs c r : outcome zero add fs c r -> sums (addends fs c) r.
Proof.
  intros [old [ls [Hs [Ho [P ->]]]]]. apply sums_reduced. eapply tracked_locals_perm; [symmetry; exact P|].
  apply (tracked_frames c fs Hs old []). exists (map (fun _ => []) old). split.
  - clear P. induction Ho as [|x old Hx Ho IH]; simpl; constructor; auto. rewrite Hx. constructor.
  - clear. induction old; simpl; auto.
Qed.
End Sums.

(** * Counts *)
Section Counts.
Local Open Scope Z_scope.
Lemma zsum_perm l l' : Permutation l l' -> fold_right Z.add 0 l = fold_right Z.add 0 l'.
Proof. induction 1; simpl; lia. Qed.
Lemma zsum_app l l' : fold_right Z.add 0 (l ++ l') = fold_right Z.add 0 l + fold_right Z.add 0 l'.
Proof. induction l; simpl; lia. Qed.
Lemma sums_counts l s : Forall (fun x => 0 <= x < 2 ^ 32) l -> sums 0 uadd l s -> s = (fold_right Z.add 0 l) mod 2 ^ 32.
Proof.
  intros Hl H. induction H.
  - reflexivity.
  - inversion Hl; subst. simpl. rewrite Z.add_0_r, Z.mod_small; auto.
  - apply Forall_app in Hl as [Hl Hl']. rewrite IHsums1, IHsums2 by auto. unfold uadd. rewrite zsum_app. rewrite <- Zplus_mod. reflexivity.
  - rewrite IHsums by (rewrite Forall_forall in *; intros x Hx; apply Hl; eapply Permutation_in; eauto). rewrite (zsum_perm l l'); auto.
Qed.
End Counts.

(** * Floating point *)
Section Floats.
Local Open Scope R_scope.
Context (prec emax : Z) {Hp : Prec_gt_0 prec} {He : Prec_lt_emax prec emax}.
Notation F := (binary_float prec emax).
Notation fexp := (SpecFloat.fexp prec emax).
Notation rn := (round radix2 fexp ZnearestE).
Let u := roundoff prec.
Lemma u_pos : 0 < u. Proof. apply bpow_gt_0. Qed.
Lemma emin_small : (SpecFloat.emin prec emax <= emax - 1)%Z.
Proof. unfold SpecFloat.emin. red in Hp, He. lia. Qed.
Lemma rn_plus (x y : F) : exists e, Rabs e <= u /\ rn (B2R x + B2R y) = (B2R x + B2R y) * (1 + e).
Proof.
  destruct (FLT_plus_error_N_ex radix2 (SpecFloat.emin prec emax) prec (fun z => negb (Z.even z)) (B2R x) (B2R y) (generic_format_B2R _ _ x) (generic_format_B2R _ _ y)) as [e [H E]].
  exists e. split; [|exact E]. eapply Rle_trans; [exact H|].
  assert (Eu : u_ro radix2 prec = u). { unfold u_ro, u, roundoff. rewrite bpow_plus. simpl (bpow radix2 1). unfold Z.pow_pos; simpl. field. } rewrite Eu.
  pose proof u_pos. unfold Rdiv. rewrite <- (Rmult_1_r u) at 3. apply Rmult_le_compat_l; [lra|]. rewrite <- Rinv_1. apply Rinv_le_contravar; lra.
Qed.
Lemma rn_bound x k : (SpecFloat.emin prec emax <= k)%Z -> Rabs x <= bpow radix2 k -> Rabs (rn x) <= bpow radix2 k.
Proof. intros Hk H. apply abs_round_le_generic; auto; try typeclasses eauto. apply generic_format_bpow. unfold SpecFloat.fexp. red in Hp. apply Z.max_lub; lia. Qed.
Lemma fplus_ok (x y : F) : is_finite x = true -> is_finite y = true -> Rabs (B2R x + B2R y) <= bpow radix2 (emax - 1) ->
  is_finite (fplus x y) = true /\ B2R (fplus x y) = rn (B2R x + B2R y).
Proof.
  intros Hx Hy H. pose proof (Bplus_correct prec emax _ _ mode_NE x y Hx Hy) as C. change (round_mode mode_NE) with ZnearestE in C.
  rewrite Rlt_bool_true in C; [destruct C as [C1 [C2 _]]; auto|].
  eapply Rle_lt_trans; [apply (rn_bound _ (emax - 1)); auto; apply emin_small|]. apply bpow_lt. lia.
Qed.
Lemma es_app (l l' : list F) : exact_sum (l ++ l') = exact_sum l + exact_sum l'.
Proof. induction l as [|x l IH]; simpl; [ring|]. unfold exact_sum in *. simpl. rewrite IH. ring. Qed.
Lemma ss_app (l l' : list F) : size_sum (l ++ l') = size_sum l + size_sum l'.
Proof. induction l as [|x l IH]; simpl; [ring|]. unfold size_sum in *. simpl. rewrite IH. ring. Qed.
Lemma es_perm (l l' : list F) : Permutation l l' -> exact_sum l = exact_sum l'.
Proof. unfold exact_sum. induction 1; simpl; lra. Qed.
Lemma ss_perm (l l' : list F) : Permutation l l' -> size_sum l = size_sum l'.
Proof. unfold size_sum. induction 1; simpl; lra. Qed.
Lemma ss_nonneg (l : list F) : 0 <= size_sum l.
Proof. unfold size_sum. induction l as [|x l IH]; simpl; [lra|]. pose proof (Rabs_pos (B2R x)). lra. Qed.
Lemma es_le (l : list F) : Rabs (exact_sum l) <= size_sum l.
Proof. unfold exact_sum, size_sum. induction l as [|x l IH]; simpl; [rewrite Rabs_R0; lra|]. eapply Rle_trans; [apply Rabs_triang|]. lra. Qed.
Lemma pow_ge1 k : 1 <= (1 + u) ^ k.
Proof. pose proof u_pos. apply pow_R1_Rle. lra. Qed.
Lemma pow_mono j k : (j <= k)%nat -> (1 + u) ^ j <= (1 + u) ^ k.
Proof. intros H. apply Rle_pow; auto. pose proof u_pos. lra. Qed.
Lemma sums_floats (l : list F) s : all_finite l -> (1 + u) ^ length l * size_sum l <= bpow radix2 (emax - 1) -> sums (B754_zero false) fplus l s ->
  is_finite s = true /\ Rabs (B2R s - exact_sum l) <= ((1 + u) ^ length l - 1) * size_sum l.
Proof.
  intros Hl Hb H. pose proof u_pos as Hu. induction H as [| |l l' s s' H1 IH1 H2 IH2|l l' s P H IH].
  - split; auto. unfold exact_sum, size_sum. simpl. rewrite Rminus_0_r, Rabs_R0. lra.
  - inversion Hl; subst. split; auto. unfold exact_sum, size_sum. simpl. rewrite Rmult_1_r, !Rplus_0_r, Rminus_diag_eq, Rabs_R0 by auto. pose proof (Rabs_pos (B2R x)). nra.
  - apply Forall_app in Hl as [Hl Hl']. rewrite app_length, ss_app in Hb. rewrite app_length, ss_app, es_app. set (k := length l) in *. set (k' := length l') in *. set (A := size_sum l) in *. set (B := size_sum l') in *.
    assert (HA : 0 <= A) by apply ss_nonneg. assert (HB : 0 <= B) by apply ss_nonneg.
    pose proof (pow_ge1 k) as P1. pose proof (pow_ge1 k') as P2. pose proof (pow_mono k (k + k') ltac:(lia)) as M1. pose proof (pow_mono k' (k + k') ltac:(lia)) as M2.
    destruct (IH1 Hl) as [F1 E1]; [eapply Rle_trans; [|exact Hb]; apply Rmult_le_compat; lra|]. destruct (IH2 Hl') as [F2 E2]; [eapply Rle_trans; [|exact Hb]; apply Rmult_le_compat; lra|].
    assert (S1 : Rabs (B2R s) <= (1 + u) ^ k * A). { replace (B2R s) with ((B2R s - exact_sum l) + exact_sum l) by ring. eapply Rle_trans; [apply Rabs_triang|]. pose proof (es_le l). fold A in H. lra. }
    assert (S2 : Rabs (B2R s') <= (1 + u) ^ k' * B). { replace (B2R s') with ((B2R s' - exact_sum l') + exact_sum l') by ring. eapply Rle_trans; [apply Rabs_triang|]. pose proof (es_le l'). fold B in H. lra. }
    assert (Sb : Rabs (B2R s + B2R s') <= (1 + u) ^ (k + k') * (A + B)).
    { eapply Rle_trans; [apply Rabs_triang|]. rewrite Rmult_plus_distr_l. apply Rplus_le_compat; (eapply Rle_trans; [eassumption|apply Rmult_le_compat_r; auto]). }
    destruct (fplus_ok s s' F1 F2 ltac:(lra)) as [Ff Fv]. split; auto. rewrite Fv.
    destruct l as [|x0 l0] eqn:El; [|destruct l' as [|y0 l0'] eqn:El'].
    + (* nothing on the left *) assert (Z0 : B2R s = 0). { unfold k, A, exact_sum, size_sum in E1. simpl in E1. rewrite Rminus_0_r in E1. assert (Rabs (B2R s) <= 0) by lra. destruct (Req_dec (B2R s) 0); auto. pose proof (Rabs_pos_lt _ H0). lra. }
      rewrite Z0, Rplus_0_l. rewrite round_generic by (try typeclasses eauto; apply generic_format_B2R). unfold A, k, exact_sum at 1, size_sum at 1. simpl. rewrite !Rplus_0_l. exact E2.
    + assert (Z0 : B2R s' = 0). { unfold k', B, exact_sum, size_sum in E2. simpl in E2. rewrite Rminus_0_r in E2. assert (Rabs (B2R s') <= 0) by lra. destruct (Req_dec (B2R s') 0); auto. pose proof (Rabs_pos_lt _ H0). lra. }
      rewrite Z0, Rplus_0_r. rewrite round_generic by (try typeclasses eauto; apply generic_format_B2R). unfold B, k'. change (exact_sum (@nil F)) with 0. change (size_sum (@nil F)) with 0. simpl length. rewrite !Rplus_0_r, Nat.add_0_r. exact E1.
    + assert (K1 : (1 <= k)%nat) by (unfold k; simpl; lia). assert (K2 : (1 <= k')%nat) by (unfold k'; simpl; lia). clearbody k k' A B. clear El El' IH1 IH2 H1 H2 Hl Hl'. set (L := exact_sum (x0 :: l0)) in *. set (L' := exact_sum (y0 :: l0')) in *.
      destruct (rn_plus s s') as [e [Ee ->]].
      pose proof (pow_mono (S k) (k + k') ltac:(lia)) as N1. pose proof (pow_mono (S k') (k + k') ltac:(lia)) as N2. simpl in N1, N2.
      replace ((B2R s + B2R s') * (1 + e) - (L + L')) with ((B2R s - L) + (B2R s' - L') + (B2R s + B2R s') * e) by ring.
      eapply Rle_trans; [apply Rabs_triang|]. eapply Rle_trans; [apply Rplus_le_compat; [apply Rabs_triang|rewrite Rabs_mult; apply Rmult_le_compat; [apply Rabs_pos|apply Rabs_pos|apply Rabs_triang|exact Ee]]|].
      set (p := (1 + u) ^ k) in *. set (p' := (1 + u) ^ k') in *. set (P := (1 + u) ^ (k + k')) in *.
      assert (G1 : (p - 1) * A + p * A * u <= (P - 1) * A) by (replace ((p - 1) * A + p * A * u) with (((1 + u) * p - 1) * A) by ring; apply Rmult_le_compat_r; lra).
      assert (G2 : (p' - 1) * B + p' * B * u <= (P - 1) * B) by (replace ((p' - 1) * B + p' * B * u) with (((1 + u) * p' - 1) * B) by ring; apply Rmult_le_compat_r; lra).
      assert (G3 : (Rabs (B2R s) + Rabs (B2R s')) * u <= (p * A + p' * B) * u) by (apply Rmult_le_compat_r; lra). lra.
  - rewrite <- (ss_perm l l' P), <- (es_perm l l' P), <- (Permutation_length P) in *. apply IH; auto. unfold all_finite in *. rewrite Forall_forall in *. intros x Hx. apply Hl. eapply Permutation_in; eauto.
Qed.
Lemma pow_linear n : INR n * u <= / 2 -> (1 + u) ^ n - 1 <= 2 * INR n * u.
Proof.
  pose proof u_pos. induction n as [|n IH]; intros Hn; [simpl; lra|]. rewrite S_INR in *. simpl. pose proof (pos_INR n). assert (Hn' : INR n * u <= / 2) by nra. specialize (IH Hn'). pose proof (pow_ge1 n).
  assert ((1 + u) * (1 + u) ^ n <= (1 + u) * (1 + 2 * INR n * u)) by (apply Rmult_le_compat_l; lra). assert (u * (INR n * u) <= u * / 2) by (apply Rmult_le_compat_l; lra). nra.
Qed.
(** Exact when all addends are multiples of one power of two and their sizes add up to at most 2^prec of it. *)
Lemma grid_format e (m : Z) : (SpecFloat.emin prec emax <= e)%Z -> (Z.abs m <= 2 ^ prec)%Z -> generic_format radix2 fexp (IZR m * bpow radix2 e).
Proof.
  intros H Hm. red in Hp. destruct (Z.eq_dec (Z.abs m) (2 ^ prec)) as [E|E].
  - assert (G : generic_format radix2 fexp (bpow radix2 (prec + e))) by (apply generic_format_bpow; unfold SpecFloat.fexp; apply Z.max_lub; lia).
    assert (Hm' : IZR (2 ^ prec) = bpow radix2 prec) by (rewrite <- (IZR_Zpower radix2) by lia; reflexivity).
    destruct (Z.abs_spec m) as [[_ A]|[_ A]]; rewrite A in E.
    + rewrite E, Hm', <- bpow_plus. auto.
    + replace m with (- (2 ^ prec))%Z by lia. rewrite opp_IZR, Ropp_mult_distr_l_reverse, Hm', <- bpow_plus. apply generic_format_opp. auto.
  - apply generic_format_FLT. apply (FLT_spec radix2 (SpecFloat.emin prec emax) prec _ (Float radix2 m e)); simpl; auto. change (Z.pow_pos 2) with (fun p => Z.pow_pos 2 p). unfold Defs.F2R; simpl. lia.
Qed.
Definition gridded (e : Z) (x : F) (m : Z) : Prop := is_finite x = true /\ B2R x = IZR m * bpow radix2 e.
Lemma sums_exact e (l : list F) ms s : (SpecFloat.emin prec emax <= e)%Z -> (prec + e <= emax - 1)%Z -> Forall2 (gridded e) l ms -> (fold_right (fun m acc => Z.abs m + acc) 0 ms <= 2 ^ prec)%Z ->
  sums (B754_zero false) fplus l s -> gridded e s (fold_right Z.add 0%Z ms).
Proof.
  intros H1 H2 Hl Hb H. revert ms Hl Hb. induction H as [| |l l' s s' Ha IHa Hb' IHb|l l' s P H IH]; intros ms Hl Hb.
  - inversion Hl; subst. split; auto. simpl. ring.
  - inversion Hl as [|? m ? ms' Hx Hn]; subst. inversion Hn; subst. simpl. rewrite Z.add_0_r. auto.
  - apply Forall2_app_inv_l in Hl as [ms1 [ms2 [L1 [L2 ->]]]]. assert (Ea : forall a b, fold_right (fun m acc => Z.abs m + acc)%Z 0%Z (a ++ b) = (fold_right (fun m acc => Z.abs m + acc)%Z 0%Z a + fold_right (fun m acc => Z.abs m + acc)%Z 0%Z b)%Z) by (induction a; simpl; intros; rewrite ?IHa0; lia).
    assert (Pn : forall a, (0 <= fold_right (fun m acc => Z.abs m + acc) 0 a)%Z) by (induction a; simpl; lia). rewrite Ea in Hb. pose proof (Pn ms1). pose proof (Pn ms2).
    destruct (IHa ms1 L1 ltac:(lia)) as [F1 V1]. destruct (IHb ms2 L2 ltac:(lia)) as [F2 V2]. rewrite zsum_app.
    assert (Tr : forall a, (Z.abs (fold_right Z.add 0 a) <= fold_right (fun m acc => Z.abs m + acc) 0 a)%Z) by (induction a; simpl; lia). pose proof (Tr ms1). pose proof (Tr ms2).
    set (M := (fold_right Z.add 0 ms1 + fold_right Z.add 0 ms2)%Z) in *. assert (EM : B2R s + B2R s' = IZR M * bpow radix2 e) by (rewrite V1, V2; unfold M; rewrite plus_IZR; ring).
    assert (HM : (Z.abs M <= 2 ^ prec)%Z) by (unfold M; lia).
    assert (Hsz : Rabs (B2R s + B2R s') <= bpow radix2 (emax - 1)).
    { rewrite EM, Rabs_mult, (Rabs_pos_eq (bpow radix2 e)) by apply bpow_ge_0. rewrite <- abs_IZR. apply Rle_trans with (bpow radix2 (prec + e)); [|apply bpow_le; lia]. rewrite bpow_plus. apply Rmult_le_compat_r; [apply bpow_ge_0|]. rewrite <- IZR_Zpower by (red in Hp; lia). apply IZR_le. exact HM. }
    destruct (fplus_ok s s' F1 F2 Hsz) as [Ff Fv]. split; auto. rewrite Fv, EM. apply round_generic; [typeclasses eauto|]. apply grid_format; auto.
  - assert (E : exists ms', Forall2 (gridded e) l ms' /\ Permutation ms' ms).
    { clear - P Hl. apply Permutation_sym in P. revert ms Hl. induction P; intros ms Hl.
      - inversion Hl; subst. exists []. auto.
      - inversion Hl as [|? m ? ms' Hx Hr]; subst. destruct (IHP _ Hr) as [q [Hq Pq]]. exists (m :: q). split; auto.
      - inversion Hl as [|? m ? ms' Hx Hr]; subst. inversion Hr as [|? m' ? ms'' Hx' Hr']; subst. exists (m' :: m :: ms''). split; [apply Forall2_cons; auto|apply perm_swap].
      - destruct (IHP1 _ Hl) as [q [Hq Pq]]. destruct (IHP2 _ Hq) as [q' [Hq' Pq']]. exists q'. split; auto. etransitivity; eauto. }
    destruct E as [ms' [Hl' P']]. assert (EA : fold_right (fun m acc => Z.abs m + acc)%Z 0%Z ms' = fold_right (fun m acc => Z.abs m + acc)%Z 0%Z ms) by (clear - P'; induction P'; simpl; lia).
    rewrite <- (zsum_perm ms' ms) by auto. apply IH; auto. lia.
Qed.
End Floats.
