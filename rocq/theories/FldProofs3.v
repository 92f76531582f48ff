(** Proofs about LocalDensity in single precision: the pairs of a query point and the whole entry. *)
From Coq Require Import Psatz.
From Flocq Require Import Core.
From Verif Require Import F32Proofs F32Proofs4 Vec FaabbProofs FaabbProofs2 FaabbProps FrdfProofs FrdfProofs2 FrdfProofs3 FldSpec FldProofs FldProofs2.
Open Scope R_scope.

(** * Sums *)
Lemma rsum_app l l' : rsum (l ++ l') = rsum l + rsum l'.
Proof. induction l; cbn [app rsum fold_right] in *; [unfold rsum; cbn; ring|]. unfold rsum in *. cbn. lra. Qed.
Lemma rsum_cons x l : rsum (x :: l) = x + rsum l. Proof. reflexivity. Qed.
Lemma rsum_perm l l' : Permutation l l' -> rsum l = rsum l'.
Proof. induction 1; rewrite ?rsum_cons; lra. Qed.
Definition rs {A} (g : A -> R) (l : list A) : R := rsum (map g l).
Lemma rs_cons {A} (g : A -> R) x l : rs g (x :: l) = g x + rs g l. Proof. reflexivity. Qed.
Lemma rs_perm {A} (g : A -> R) l l' : Permutation l l' -> rs g l = rs g l'.
Proof. intros H. apply rsum_perm, Permutation_map, H. Qed.
Lemma rs_flat {A B} (g : B -> R) (h : A -> list B) l : rs g (flat_map h l) = rs (fun x => rs g (h x)) l.
Proof. induction l; [reflexivity|]. cbn [flat_map]. rewrite rs_cons, <- IHl. unfold rs. rewrite map_app, rsum_app. reflexivity. Qed.
Lemma rs_map {A B} (g : B -> R) (h : A -> B) l : rs g (map h l) = rs (fun x => g (h x)) l.
Proof. unfold rs. rewrite map_map. reflexivity. Qed.
Lemma rs_ext {A} (g h : A -> R) l : (forall x, In x l -> g x = h x) -> rs g l = rs h l.
Proof. intros H. unfold rs. f_equal. apply map_ext_in, H. Qed.
Lemma rs_plus {A} (g h : A -> R) l : rs (fun x => g x + h x) l = rs g l + rs h l.
Proof. induction l; [unfold rs, rsum; cbn; ring|]. rewrite !rs_cons. lra. Qed.
Lemma rs_zero {A} (l : list A) : rs (fun _ => 0) l = 0.
Proof. induction l; [reflexivity|]. rewrite rs_cons. lra. Qed.
Lemma rs_swap {A B} (g : A -> B -> R) l l' : rs (fun x => rs (g x) l') l = rs (fun y => rs (fun x => g x y) l) l'.
Proof. induction l; [symmetry; apply rs_zero|]. rewrite rs_cons, IHl, <- rs_plus. apply rs_ext. intros y _. reflexivity. Qed.
Lemma rs_prod {A B} (g : A * B -> R) l l' : rs g (list_prod l l') = rs (fun x => rs (fun y => g (x, y)) l') l.
Proof. induction l; [reflexivity|]. cbn [list_prod]. unfold rs at 1. rewrite map_app, rsum_app. change (rsum (map g (list_prod l l'))) with (rs g (list_prod l l')). rewrite IHl, rs_cons. f_equal. apply (rs_map g (fun y => (a, y)) l'). Qed.
Lemma rs_filter {A} (g : A -> R) (b : A -> bool) l : rs g (filter b l) = rs (fun x => if b x then g x else 0) l.
Proof. induction l; [reflexivity|]. cbn [filter]. rewrite rs_cons, <- IHl. destruct (b a); [apply rs_cons|lra]. Qed.
Lemma rs_one {A} (l : list A) : rs (fun _ => 1) l = INR (length l).
Proof. induction l; [reflexivity|]. rewrite rs_cons, IHl. cbn [length]. rewrite S_INR. lra. Qed.
Lemma rs_le {A} (g h : A -> R) l : (forall x, In x l -> g x <= h x) -> rs g l <= rs h l.
Proof. induction l; intros H; [apply Rle_refl|]. rewrite !rs_cons. apply Rplus_le_compat; [apply H; left; auto|apply IHl; intros; apply H; right; auto]. Qed.
Lemma rs_diff {A} (g h c : A -> R) l : (forall x, In x l -> Rabs (g x - h x) <= c x) -> Rabs (rs g l - rs h l) <= rs c l.
Proof.
  induction l; intros H; [unfold rs, rsum; cbn; rewrite Rminus_0_r, Rabs_R0; lra|]. rewrite !rs_cons. replace (g a + rs g l - (h a + rs h l)) with ((g a - h a) + (rs g l - rs h l)) by ring.
  eapply Rle_trans; [apply Rabs_triang|]. apply Rplus_le_compat; [apply H; left; auto|apply IHl; intros; apply H; right; auto].
Qed.
Lemma rs_scale {A} (k : R) (g : A -> R) l : rs (fun x => k * g x) l = k * rs g l.
Proof. induction l; [unfold rs, rsum; cbn; ring|]. rewrite !rs_cons. lra. Qed.

(** * The pairs of one query point *)
Definition pb (l : fldens) (f : fframe) (t : nat * nat * (Z * Z * Z)) : list fbond :=
  pair_bond (ff_box f) (ff_points f) (nth (fst (fst t)) (ff_queries f) fv0) (fst (fst t)) (fld_radius l) fzero (ff_excl f) (imc (ff_box f) (snd t)) (snd (fst t)).
Lemma seq_pick i n a : (a <= i < a + n)%nat -> forall g : nat -> R, rs (fun x => if Nat.eqb x i then g x else 0) (seq a n) = g i.
Proof.
  revert a. induction n; intros a H g; [lia|]. cbn [seq]. rewrite rs_cons. destruct (Nat.eqb_spec a i) as [->|N].
  - rewrite (rs_ext _ (fun _ => 0)); [rewrite rs_zero; ring|]. intros x Hx. apply in_seq in Hx. destruct (Nat.eqb_spec x i); [lia|auto].
  - rewrite IHn by lia. ring.
Qed.
Lemma rs_pairs f i g : (i < length (ff_queries f))%nat -> rs g (pairs_at f i) = rs (fun p => rs (fun t => if negb (ff_excl f && Nat.eqb i p) then g (i, p, t) else 0) (cells (ff_box f))) (seq 0 (length (ff_points f))).
Proof.
  intros Hi. unfold pairs_at, pairs. rewrite !rs_filter, !rs_prod. cbn [fst snd].
  rewrite (rs_ext _ (fun x => if Nat.eqb x i then rs (fun p => rs (fun t => if negb (ff_excl f && Nat.eqb x p) then g (x, p, t) else 0) (cells (ff_box f))) (seq 0 (length (ff_points f))) else 0)).
  - apply (seq_pick i (length (ff_queries f)) 0 ltac:(lia)).
  - intros x _. destruct (Nat.eqb x i) eqn:E; [reflexivity|]. rewrite (rs_ext _ (fun _ => 0)); [apply rs_zero|]. intros p _. rewrite (rs_ext _ (fun _ => 0)); [apply rs_zero|]. intros t _. destruct (negb _); reflexivity.
Qed.
Lemma rs_bonds l f i images bonds : (i < length (ff_queries f))%nat -> fimages (ff_box f) (fld_radius l) true = Some images ->
  Permutation bonds (brute_force (ff_box f) (ff_points f) (nth i (ff_queries f) fv0) i (fld_radius l) fzero (ff_excl f) images) ->
  forall g, rs g bonds = rs (fun t => rs g (pb l f t)) (pairs_at f i).
Proof.
  intros Hi EI P g. rewrite (rs_perm _ _ _ P). unfold brute_force. rewrite rs_flat, (rs_perm _ _ _ (images_perm _ _ _ _ EI)), rs_map, (rs_pairs f i _ Hi).
  rewrite (rs_ext _ (fun t => rs (fun p => rs g (pair_bond (ff_box f) (ff_points f) (nth i (ff_queries f) fv0) i (fld_radius l) fzero (ff_excl f) (imc (ff_box f) t) p)) (seq 0 (length (ff_points f))))) by (intros t _; apply rs_flat).
  rewrite rs_swap. apply rs_ext. intros p _. apply rs_ext. intros t _. unfold pb. cbn [fst snd]. destruct (negb (ff_excl f && Nat.eqb i p)) eqn:E; [reflexivity|]. apply Bool.negb_false_iff in E. unfold pair_bond. rewrite E. reflexivity.
Qed.
(** * One pair *)
Lemma part_lip r D x y : 0 < D -> Rabs (part r D x - part r D y) <= Rabs (x - y) / D.
Proof.
  intros HD. unfold part. set (a := (r + D / 2 - x) / D). set (b := (r + D / 2 - y) / D). assert (E : Rabs (x - y) / D = Rabs (b - a)).
  { unfold a, b. replace ((r + D / 2 - y) / D - (r + D / 2 - x) / D) with ((x - y) / D) by (field; lra). unfold Rdiv. rewrite Rabs_mult, (Rabs_pos_eq (/ D)); [reflexivity|]. apply Rlt_le, Rinv_0_lt_compat, HD. }
  rewrite E. unfold Rmax, Rmin. destruct (Rle_dec 1 a), (Rle_dec 1 b); destruct (Rle_dec 0 _); try destruct (Rle_dec 0 _); unfold Rabs; repeat destruct (Rcase_abs _); lra.
Qed.
Section Pairs.
Variables (l : fldens) (f : fframe) (i : nat) (S : R).
Hypothesis H : handy_ld l.
Hypothesis OF : ordinary_frame f.
Hypothesis Hi : (i < length (ff_queries f))%nat.
Let r := val (fld_r l).
Let D := val (fld_D l).
Hypothesis HS : forall t, In t (pairs_at f i) -> pair_size f t <= S.
Hypothesis SD : S <= 65536 * D.
Definition pair_err : R := u * (14 * (r / D) + 12 + 4 * (S / D)).
Lemma in_pairs_at t : In t (pairs_at f i) -> fst (fst t) = i /\ (snd (fst t) < length (ff_points f))%nat /\ In (snd t) (cells (ff_box f)) /\ ff_excl f && Nat.eqb i (snd (fst t)) = false.
Proof.
  intros Ht. unfold pairs_at in Ht. apply filter_In in Ht as [Ht E]. apply Nat.eqb_eq in E. unfold pairs in Ht. apply filter_In in Ht as [Ht X]. destruct t as [[a p] c]. cbn [fst snd] in *. subst a. apply in_prod_iff in Ht as [Ht C]. apply in_prod_iff in Ht as [_ P]. apply in_seq in P. apply Bool.negb_true_iff in X. repeat split; auto. lia.
Qed.
(** A bond is a pair whose distance is nearly that of the pair; a pair without bond does not count; no bond is far away. *)
Lemma pair_one t : In t (pairs_at f i) ->
  (pb l f t = [] /\ part r D (pair_distance f t) <= pair_err \/
   exists d v, pb l f t = [FBond i (snd (fst t)) d v] /\ finite d = true /\ 0 <= val d <= r + D /\ Rabs (inside r D (val d) - part r D (pair_distance f t)) <= pair_err /\ pair_distance f t < r + D) /\
  0 <= part r D (pair_distance f t) /\ (r + D <= pair_distance f t -> part r D (pair_distance f t) = 0) /\
  (pair_distance f t + u * (12 * r + 12 * D + 8 * S) <= r - D / 2 -> exists d v, pb l f t = [FBond i (snd (fst t)) d v] /\ Bltb d (fsub (fld_r l) (fld_half l)) = true).
Proof.
  intros Ht. assert (HSt := HS t Ht). destruct (in_pairs_at t Ht) as (E1 & E2 & E3 & E4). destruct t as [[a p] [[ci cj] ck]]. cbn [fst snd] in *. subst a.
  destruct OF as (HN & PB & HP & HQ & _). destruct (ld_sizes l H) as (_ & _ & B1 & B2 & B3). fold r D in B1, B2, B3.
  assert (Oq : ordinary_point (nth i (ff_queries f) fv0)) by (apply (proj1 (Forall_forall _ _) HQ); apply nth_In; auto).
  assert (PZ : forall x, 0 <= part r D x) by (intros; apply Rmax_l). assert (PF : forall x, r + D <= x -> part r D x = 0).
  { intros x Hx. unfold part. assert (X : (r + D / 2 - x) / D * D = r + D / 2 - x) by (field; lra). set (y := (r + D / 2 - x) / D) in *. assert (y <= 0) by (apply Rmult_le_reg_r with D; lra). unfold Rmin. destruct (Rle_dec 1 y); [lra|]. apply Rmax_left. lra. }
  cut ((pb l f (i, p, (ci, cj, ck)) = [] /\ part r D (pair_distance f (i, p, (ci, cj, ck))) <= pair_err \/
   exists d v, pb l f (i, p, (ci, cj, ck)) = [FBond i p d v] /\ finite d = true /\ 0 <= val d <= r + D /\ Rabs (inside r D (val d) - part r D (pair_distance f (i, p, (ci, cj, ck)))) <= pair_err /\ pair_distance f (i, p, (ci, cj, ck)) < r + D) /\
   (pair_distance f (i, p, (ci, cj, ck)) + u * (12 * r + 12 * D + 8 * S) <= r - D / 2 -> exists d v, pb l f (i, p, (ci, cj, ck)) = [FBond i p d v] /\ Bltb d (fsub (fld_r l) (fld_half l)) = true)).
  { intros [X Y]. split; [exact X|]. split; [apply PZ|]. split; [apply PF|exact Y]. }
  unfold pb, pair_bond. cbn [fst snd]. rewrite E4. unfold pair_distance, pair_size in *. set (q := nth i (ff_queries f) fv0) in *. set (b := ff_box f) in *.
  destruct (imc_val b ci cj ck PB E3) as [Oim Vim]. assert (Op : ordinary_point (fflat b (nth p (ff_points f) fv0))) by (apply flat_ordinary; apply (proj1 (Forall_forall _ _) HP); apply nth_In; auto).
  assert (Ofq := flat_ordinary b q Oq). assert (ES : moved b q ci cj ck = (rv (fflat b q) + rv (imc b (ci, cj, ck)))%V) by (unfold moved; rewrite Vim; reflexivity).
  unfold exact_distance. rewrite ES in *. set (im := imc b (ci, cj, ck)) in *. set (w := fvsub (fflat b (nth p (ff_points f) fv0)) (fvadd (fflat b q) im)) in *.
  destruct (pair_finite _ _ _ Op Ofq Oim) as (_ & Fr & Pr). fold w in Fr, Pr.
  assert (PD := FaabbProofs2.pair_distance _ _ _ Op Ofq Oim). fold w in PD. assert (Or := radius_ordinary l H).
  assert (PBe := pair_below _ _ _ Op Ofq Oim (fld_radius l) Or). assert (PAb := pair_above _ _ _ Op Ofq Oim (fld_radius l) Or). fold w in PBe, PAb.
  assert (N1 := norm_nonneg (rv (fflat b (nth p (ff_points f) fv0)) - (rv (fflat b q) + rv im))%V). assert (N2 := norm_nonneg (rv (fflat b q) + rv im)%V).
  set (x := norm (rv (fflat b (nth p (ff_points f) fv0)) - (rv (fflat b q) + rv im))%V) in *. set (s := norm (rv (fflat b q) + rv im)%V) in *.
  assert (FS := sqrt_fin0 _ Fr Pr). destruct (radius_val (fld_radius l) Or) as (Fm & _ & _ & M2).
  assert (BZ : Bleb (fmul fzero fzero) (fnorm2 w) = true). { destruct (mul_zero fzero fzero eq_refl is_zero) as [F0 V0]. rewrite Bleb_correct by auto. apply Rle_bool_true. rewrite V0. auto. }
  rewrite BZ, Bool.andb_true_r, Bltb_correct by auto. destruct (radius_near l H) as (_ & R1 & R2). fold r D in R1, R2. set (c := val (fld_radius l)) in *.
  assert (U : u = / 16777216) by reflexivity. assert (TY : 0 < bpow radix2 (-70) <= u * D / 1000). { split; [apply bpow_gt_0|]. apply Rle_trans with (u * / 1048576 / 1000); [|rewrite U in *; lra]. apply Rle_trans with (bpow radix2 (-60)); [apply bpow_le; lia|cbn; unfold u; lra]. }
  set (k := r / D). assert (Ek : r = k * D) by (unfold k; field; lra). assert (K : 0 < k <= 65536) by (split; [apply Rdiv_lt_0_compat; lra|]; apply Rmult_le_reg_r with D; lra).
  assert (S0 : 0 <= S) by lra. set (z := S / D). assert (Ez : S = z * D) by (unfold z; field; lra). assert (Z0 : 0 <= z <= 65536) by (split; apply Rmult_le_reg_r with D; lra).
  assert (C1 : (r + D / 2) * (1 - 2 * u) <= c <= (r + D / 2) * (1 + 2.1 * u)) by (rewrite U in *; lra).
  unfold pair_err. fold k z. destruct (Rlt_bool_spec (val (fnorm2 w)) (val (fmul (fld_radius l) (fld_radius l)))) as [C|C].
  - assert (XF : x < r + D).
    { apply Rnot_le_lt. intros Q. apply (Rlt_not_le _ _ C). apply PAb. unfold slack. assert (4 * u * s <= D / 60) by (rewrite U in *; lra). assert (8 * u * r <= D / 30) by (rewrite U in *; lra).
      apply Rle_trans with ((r + D) * (1 - 8 * u) - D / 50); [rewrite U in *; lra|]. apply Rle_trans with (x * (1 - 8 * u) - D / 50); [|rewrite U in *; lra]. apply Rplus_le_compat_r, Rmult_le_compat_r; [rewrite U; lra|exact Q]. }
    assert (SL : slack x s <= u * (8 * k + 9 + 4 * z) * D). { unfold slack. rewrite U in *. lra. }
    destruct (distance_val _ Fr Pr) as (e & n & He & Hn & Vd). set (d := val (Bsqrt mode_NE (fnorm2 w))) in *. assert (RT := sqrt_pos (val (fnorm2 w))).
    assert (RU : sqrt (val (fnorm2 w)) <= c * (1 + u)). { rewrite <- (sqrt_square (c * (1 + u))); [apply sqrt_le_1_alt; lra|]. rewrite U in *. lra. }
    apply Rabs_le_inv in He, Hn. assert (TT : tiny <= u * D / 1000) by (eapply Rle_trans; [|apply TY]; unfold tiny; apply bpow_le; lia).
    assert (DU : d <= (r + D / 2) * (1 + 5 * u)).
    { rewrite Vd. assert (Q : sqrt (val (fnorm2 w)) * (1 + e) <= c * (1 + u) * (1 + u)) by (apply Rmult_le_compat; try assumption; rewrite U in *; lra). clear - Q TT Hn C1 B1 B2 U. rewrite U in *. lra. }
    assert (D0 : 0 <= d).
    { unfold d. destruct (Bsqrt_correct 24 128 _ _ mode_NE (fnorm2 w)) as (V & _). rewrite V. rewrite <- rnd_0. apply rnd_le, sqrt_pos. }
    split; cycle 1.
    { intros IN. exists (Bsqrt mode_NE (fnorm2 w)), w. split; [reflexivity|]. destruct (half_val l H) as [Fh Vh]. fold D in Vh. destruct (ld_sizes l H) as (F1 & _).
      destruct (is_sub (fld_r l) (fld_half l) F1 Fh) as [Ft Vt]. { rewrite Vh. fold r. apply fits_small. apply Rabs_le. lra. }
      destruct (rnd_minus (val (fld_r l)) (val (fld_half l)) (fmt_val _) (fmt_val _)) as (e1 & E1 & G1). rewrite G1, Vh in Vt. fold r in Vt. apply Rabs_le_inv in E1.
      rewrite Bltb_correct by auto. fold d. apply Rlt_bool_true. rewrite Vt. apply Rabs_le_inv in PD. assert (Q : (r - D / 2) * (1 - u) <= (r - D / 2) * (1 + e1)). { apply Rmult_le_compat_l; [|lra]. eapply Rle_trans; [|exact IN]. apply Rplus_le_le_0_compat; [lra|]. rewrite U. lra. }
      eapply Rlt_le_trans; [|exact Q]. replace (u * (8 * k + 9 + 4 * z) * D) with (u * (8 * r + 9 * D + 4 * S)) in SL by (rewrite Ek, Ez; ring). clear - PD SL IN B1 B2 S0 U. rewrite U in *. lra. }
    right. exists (Bsqrt mode_NE (fnorm2 w)), w. split; [reflexivity|]. split; [exact FS|]. fold d. split; [split; [exact D0|rewrite U in *; lra]|]. split; [|exact XF].
    assert (L := part_lip r D d x ltac:(lra)). assert (L2 : Rabs (d - x) / D <= u * (8 * k + 9 + 4 * z)). { apply Rmult_le_reg_r with D; [lra|]. unfold Rdiv. rewrite Rmult_assoc, Rinv_l, Rmult_1_r by lra. lra. }
    assert (IP : Rabs (inside r D d - part r D d) <= u * (5 * k + 2.5)).
    { unfold inside, part. set (y := (r + D / 2 - d) / D). assert (Ey : y * D = r + D / 2 - d) by (unfold y; field; lra). assert (- (u * (5 * k + 2.5)) <= y) by (apply Rmult_le_reg_r with D; [lra|]; rewrite Ey, Ek in *; lra).
      unfold Rmax, Rmin. apply Rabs_le. destruct (Rle_dec 1 y); destruct (Rle_dec 0 _); rewrite U in *; lra. }
    replace (inside r D d - part r D x) with ((inside r D d - part r D d) + (part r D d - part r D x)) by ring. eapply Rle_trans; [apply Rabs_triang|]. rewrite U in *. lra.
  - split; cycle 1.
    { intros IN. exfalso. apply (Rle_not_lt _ _ C). apply PBe. unfold slack. clear - IN C1 B1 B2 N1 N2 HSt TY U. rewrite U in *. lra. }
    left. split; [reflexivity|]. destruct (Rle_lt_dec (r + D) x) as [X|X]; [rewrite (PF x X); rewrite U in *; lra|].
    assert (SL : slack x s <= u * (8 * k + 9 + 4 * z) * D). { unfold slack. rewrite U in *. lra. }
    assert (Q : c < x + slack x s). { apply Rnot_le_lt. intros Q. apply (Rle_not_lt _ _ C). apply PBe. exact Q. }
    unfold part. set (y := (r + D / 2 - x) / D). assert (Ey : y * D = r + D / 2 - x) by (unfold y; field; lra). assert (y <= u * (10 * k + 10 + 4 * z)) by (apply Rmult_le_reg_r with D; [lra|]; rewrite Ey, Ek in *; lra).
    unfold Rmax, Rmin. destruct (Rle_dec 1 y); destruct (Rle_dec 0 _); rewrite U in *; lra.
Qed.
(** * The entry *)
Lemma whole_bonds images bonds : fimages (ff_box f) (fld_radius l) true = Some images ->
  Permutation bonds (brute_force (ff_box f) (ff_points f) (nth i (ff_queries f) fv0) i (fld_radius l) fzero (ff_excl f) images) ->
  whole_only l f i S -> length bonds = close_number l f i /\ Forall (fun d => fld_fraction l d = fone) (map fb_d bonds).
Proof.
  intros EI P W. assert (RB := rs_bonds l f i images bonds Hi EI P).
  set (cut_out := fun x : fbond => if Bltb (fb_d x) (fsub (fld_r l) (fld_half l)) then 0 else 1).
  assert (LE : INR (length bonds) = INR (close_number l f i)).
  { unfold close_number. rewrite <- !rs_one, RB, rs_filter. apply rs_ext. intros t Ht. fold r D. destruct (pair_one t Ht) as (A & _ & _ & B). destruct (Rlt_bool_spec (pair_distance f t) (r + D)) as [X|X].
    - destruct (B (W t Ht X)) as (d & v & -> & _). unfold rs, rsum. cbn. ring.
    - destruct A as [[-> _]|(d & v & _ & _ & _ & _ & Q)]; [reflexivity|lra]. }
  split; [apply INR_eq, LE|].
  assert (Z : rs cut_out bonds = 0).
  { rewrite RB, <- (rs_zero (pairs_at f i)). apply rs_ext. intros t Ht. destruct (pair_one t Ht) as (A & _ & _ & B). destruct A as [[-> _]|(d & v & _ & _ & _ & _ & Q)]; [reflexivity|].
    destruct (B (W t Ht Q)) as (d' & v' & -> & E). unfold rs, rsum, cut_out. cbn [map fold_right fb_d]. rewrite E. ring. }
  assert (G : forall bs, rs cut_out bs = 0 -> Forall (fun d => fld_fraction l d = fone) (map fb_d bs)); [|exact (G bonds Z)].
  induction bs as [|x bs IH]; intros E; [constructor|]. rewrite rs_cons in E. assert (N : 0 <= rs cut_out bs) by (rewrite <- (rs_zero bs); apply rs_le; intros; unfold cut_out; destruct (Bltb _ _); lra).
  assert (E2 : cut_out x = 0) by (revert E; unfold cut_out at 1 3; destruct (Bltb _ _); lra). cbn [map]. constructor; [|apply IH; lra]. unfold fld_fraction. unfold cut_out in E2. destruct (Bltb (fb_d x) _); [reflexivity|lra].
Qed.
Lemma entry_val images bonds : fimages (ff_box f) (fld_radius l) true = Some images ->
  Permutation bonds (brute_force (ff_box f) (ff_points f) (nth i (ff_queries f) fv0) i (fld_radius l) fzero (ff_excl f) images) ->
  (Z.of_nat (close_number l f i) <= 1048576)%Z ->
  let n := counted l (map fb_d bonds) in
  finite n = true /\ Rabs (val n - exact_number l f i) <= ld_error (INR (close_number l f i)) r D S /\ 0 <= exact_number l f i <= INR (close_number l f i).
Proof.
  intros EI P HK. set (K := INR (close_number l f i)). assert (RB := rs_bonds l f i images bonds Hi EI P). destruct (ld_sizes l H) as (_ & _ & B1 & B2 & B3). fold r D in B1, B2, B3. assert (U : u = / 16777216) by reflexivity.
  set (near_t := fun t => if Rlt_bool (pair_distance f t) (r + D) then 1 else 0).
  assert (EK : K = rs near_t (pairs_at f i)). { unfold K, close_number. rewrite <- rs_one, rs_filter. reflexivity. }
  set (k := r / D). assert (Ek : r = k * D) by (unfold k; field; lra). assert (KK : 0 < k <= 65536) by (split; [apply Rdiv_lt_0_compat; lra|]; apply Rmult_le_reg_r with D; lra).
  assert (S0 : 0 <= S / D \/ pairs_at f i = []).
  { destruct (pairs_at f i) as [|t ts] eqn:E; [right; reflexivity|left]. assert (0 <= S). { apply Rle_trans with (pair_size f t); [|apply HS; rewrite ?E; left; reflexivity]. destruct t as [[a p] [[ci cj] ck]]. apply norm_nonneg. }
    apply Rmult_le_pos; [auto|apply Rlt_le, Rinv_0_lt_compat; lra]. }
  destruct S0 as [S1|E0].
  2:{ assert (BN : bonds = []). { assert (L := RB (fun _ => 1)). rewrite rs_one, E0 in L. unfold rs, rsum in L. cbn in L. destruct bonds; auto. cbn [length] in L. rewrite S_INR in L. assert (Q := pos_INR (length bonds)). lra. }
      rewrite BN. cbn [map]. unfold counted. cbn [fold_left]. unfold exact_number. rewrite E0. unfold rsum, K, ld_error, close_number. rewrite E0. cbn -[val]. split; [reflexivity|]. change (val fzero) with 0. rewrite Rminus_0_r, Rabs_R0. lra. }
  assert (S0 : 0 <= pair_err) by (unfold pair_err; fold k; rewrite U; lra).
  assert (FO : Forall (fun d => finite d = true /\ 0 <= val d <= r + D) (map fb_d bonds)).
  { apply Forall_forall. intros d Hd. apply in_map_iff in Hd as (x & <- & Hx). apply (Permutation_in _ P) in Hx. unfold brute_force in Hx. apply in_flat_map in Hx as (im & Him & Hx). apply in_flat_map in Hx as (p & Hp & Hx).
    apply (Permutation_in _ (images_perm _ _ _ _ EI)) in Him. apply in_map_iff in Him as (c & <- & Hc). destruct (ff_excl f && Nat.eqb i p) eqn:EX; [unfold pair_bond in Hx; rewrite EX in Hx; destruct Hx|].
    assert (IN : In (i, p, c) (pairs_at f i)). { unfold pairs_at, pairs. apply filter_In. split; [|cbn [fst]; apply Nat.eqb_refl]. apply filter_In. cbn [fst snd]. rewrite EX. split; [|reflexivity]. apply in_prod; auto. apply in_prod; auto. apply in_seq. lia. }
    destruct (pair_one _ IN) as ([[E _]|(d & v & E & F & B & _)] & _); change (In x (pb l f (i, p, c))) in Hx; rewrite E in Hx; [destruct Hx|]. destruct Hx as [<-|[]]. cbn [fb_d]. auto. }
  assert (LK : INR (length bonds) <= K).
  { rewrite <- rs_one, RB, EK. apply rs_le. intros t Ht. destruct (pair_one t Ht) as ([[E _]|(d & v & E & _ & _ & _ & X)] & _); rewrite E; unfold rs, rsum, near_t; cbn [map fold_right]; [destruct (Rlt_bool _ _); lra|]. rewrite Rlt_bool_true by exact X. lra. }
  assert (LZ : (Z.of_nat (length (map fb_d bonds)) <= 1048576)%Z). { rewrite map_length. unfold K in LK. apply INR_le in LK. lia. }
  destruct (sum_val l H (map fb_d bonds) LZ FO) as (F & E & _). fold r D in E. rewrite map_length in E. set (m := INR (length bonds)) in *. set (n := counted l (map fb_d bonds)) in *.
  set (T := rsum (map (fun d => inside r D (val d)) (map fb_d bonds))) in *.
  assert (ET : T = rs (fun t => rs (fun x => inside r D (val (fb_d x))) (pb l f t)) (pairs_at f i)). { unfold T. rewrite map_map. apply (RB (fun x => inside r D (val (fb_d x)))). }
  assert (DT : Rabs (T - exact_number l f i) <= pair_err * K).
  { rewrite ET, EK, <- rs_scale. apply rs_diff. intros t Ht. destruct (pair_one t Ht) as ([[E1 Q]|(d & v & E1 & _ & _ & Q & X)] & PZ & PF & _); rewrite E1; unfold rs, rsum, near_t; cbn [map fold_right fb_d].
    - destruct (Rlt_bool_spec (pair_distance f t) (r + D)) as [X|X]; fold r D; [apply Rabs_le; lra|]. rewrite (PF X). rewrite Rminus_0_r, Rabs_R0. lra.
    - rewrite Rlt_bool_true by exact X. rewrite Rplus_0_r. fold r D. lra. }
  split; [exact F|]. assert (K20 : 0 <= K <= 1048576). { split; [apply pos_INR|]. unfold K. rewrite INR_IZR_INZ. apply IZR_le. exact HK. }
  assert (M0 : 0 <= m) by apply pos_INR. split.
  - assert (EM : Rabs (val n - T) <= 1.07 * (K * frac_error r D + u * K ^ 2)).
    { assert (FE : 0 <= frac_error r D) by (unfold frac_error; fold k; rewrite U; lra). assert (A0 := Rabs_pos (val n - T)).
      assert (A1 : m * frac_error r D + u * m ^ 2 <= K * frac_error r D + u * K ^ 2). { apply Rplus_le_compat; [apply Rmult_le_compat_r; lra|]. apply Rmult_le_compat_l; [rewrite U; lra|]. apply pow_incr. lra. }
      assert (A2 : Rabs (val n - T) * (15 / 16) <= Rabs (val n - T) * (1 - m * u)) by (apply Rmult_le_compat_l; [lra|rewrite U; lra]). lra. }
    replace (val n - exact_number l f i) with ((val n - T) + (T - exact_number l f i)) by ring. eapply Rle_trans; [apply Rabs_triang|]. unfold ld_error, frac_error, pair_err in *. fold k in EM, DT, S0. replace ((25 * r + 8 * S) / D) with (25 * k + 8 * (S / D)) by (unfold k; field; lra).
    apply Rle_trans with (1.07 * (K * (u * (3 * k + 8)) + u * K ^ 2) + u * (14 * k + 12 + 4 * (S / D)) * K); [lra|].
    replace (1.07 * (K * (u * (3 * k + 8)) + u * K ^ 2) + u * (14 * k + 12 + 4 * (S / D)) * K) with (K * u * (1.07 * (3 * k + 8) + 1.07 * K + (14 * k + 12 + 4 * (S / D)))) by ring. apply Rmult_le_compat_l; [apply Rmult_le_pos; [lra|rewrite U; lra]|]. lra.
  - unfold exact_number. fold r D. change (rsum (map ?g ?x)) with (rs g x). split.
    + rewrite <- (rs_zero (pairs_at f i)). apply rs_le. intros t Ht. apply (pair_one t Ht).
    + rewrite EK. apply rs_le. intros t Ht. destruct (pair_one t Ht) as (_ & _ & PF & _). unfold near_t. destruct (Rlt_bool_spec (pair_distance f t) (r + D)) as [X|X]; [|rewrite (PF X); lra]. unfold part. apply Rmax_lub; [lra|apply Rmin_l].
Qed.
End Pairs.

(** A float counts to 2^24. *)
Lemma count_ones l ds : Forall (fun d => fld_fraction l d = fone) ds -> is (counted l ds) (IZR (Z.min (Z.of_nat (length ds)) 16777216)).
Proof.
  intros F. unfold counted. assert (G : forall ds, Forall (fun d => fld_fraction l d = fone) ds -> forall n a, is n (IZR (Z.min a 16777216)) -> (0 <= a)%Z -> is (fold_left (fun n d => fadd n (fld_fraction l d)) ds n) (IZR (Z.min (Z.of_nat (length ds) + a) 16777216))).
  { clear. induction ds as [|d ds IH]; intros F n a N A; [exact N|]. inversion F as [|? ? Fd F']; subst. cbn [fold_left length]. rewrite Fd. replace (Z.of_nat (Datatypes.S (length ds)) + a)%Z with (Z.of_nat (length ds) + (a + 1))%Z by lia. apply IH; [exact F'| |lia].
    destruct N as [Fn Vn]. destruct (Z.eq_dec (Z.min a 16777216) 16777216) as [M|M].
    - rewrite M in Vn. destruct (is_lit_Z 16777216 ltac:(lia)) as [F2 V2]. destruct is_one as [F1 V1]. assert (FT : fits (16777216 + 1)) by (apply fits_small; apply Rabs_le; lra). replace (Z.min (a + 1) 16777216) with 16777216%Z by lia.
      destruct (is_add n fone Fn F1) as [Fa Va]; [rewrite Vn, V1; exact FT|]. destruct (is_add (lit 16777216 0) fone F2 F1) as [Fb Vb]; [rewrite V2, V1; exact FT|]. split; [exact Fa|]. rewrite Va, Vn, V1. rewrite V2, V1 in Vb. rewrite <- Vb.
      replace (fadd (lit 16777216 0) fone) with (lit 16777216 0) by (apply B2SF_inj; vm_compute; reflexivity). exact V2.
    - destruct is_one as [F1 V1]. rewrite Z.min_l in Vn by lia. rewrite Z.min_l by lia. assert (B := IZR_le a 16777215 ltac:(lia)). assert (B0 := IZR_le 0 a A). destruct (is_add n fone Fn F1) as [Fa Va]. { rewrite Vn, V1. apply fits_small. apply Rabs_le. lra. }
      split; [exact Fa|]. rewrite Va, Vn, V1, plus_IZR. rewrite <- plus_IZR. apply rnd_fmt, fmt_IZR. lia. }
  rewrite <- (Z.add_0_r (Z.of_nat (length ds))). apply G; auto; [split; reflexivity|lia].
Qed.
