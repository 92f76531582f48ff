(** Lemmas for C69. *)
From Verif Require Import RBase Vec MatchEnvProofs ParProofs.
From Coq Require Import Reals ZArith List Lra Lia Bool Arith Binomial.
From Verif Require Import RotAutoModel RotAutoSpec HexSpec CplxSum.
Import ListNotations.
Local Open Scope R_scope.
Add Ring cplx_ring_inst : cplx_ring.

(** * Powers and sums of the code *)
Lemma cpow_snoc z n : cpow z (S n) = cmul (cpow z n) z.
Proof. simpl. ring. Qed.
Lemma ra_cpow_eq z p : ra_cpow z p = cpow z p.
Proof.
  destruct p as [|n]; [reflexivity|]. unfold ra_cpow.
  assert (X : forall m i, fold_left (fun v (_ : nat) => cmul v z) (seq i m) z = cpow z (S m)).
  { intros m. induction m as [|m IH]; intros i; [simpl; change (1, 0) with cone; ring|].
    rewrite seq_S, fold_left_app, IH. cbn [fold_left]. rewrite (cpow_snoc z (S m)). reflexivity. }
  apply X.
Qed.
Lemma fold_oadd {A} (f : A -> option cplx) g ks z : (forall k, In k ks -> f k = Some (g k)) ->
  fold_left (fun s k => oadd s (f k)) ks (Some z) = Some (cadd z (fold_right (fun k a => cadd (g k) a) c0 ks)).
Proof.
  revert z. induction ks as [|k ks IH]; intros z H; cbn [fold_left fold_right]; [f_equal; ring|].
  rewrite H by (left; reflexivity). cbn [oadd]. rewrite IH by (intros; apply H; right; auto). f_equal. ring.
Qed.
Lemma sum_csum g n i : fold_right (fun k a => cadd (g k) a) c0 (seq i n) = csum n (fun k => g (i + k)%nat).
Proof.
  revert i. induction n as [|n IH]; intros i; [reflexivity|]. cbn [seq fold_right]. rewrite IH, csum_first, Nat.add_0_r. f_equal. apply csum_ext. intros k _. f_equal. lia.
Qed.
Lemma fold_counter {S A B} (step : S -> B -> A -> S) (U : list B) (d : B) (u : A -> B) ps s i : (forall j p, nth_error ps j = Some p -> nth (i + j) U d = u p) ->
  fold_left (fun st p => (step (fst st) (nth (snd st) U d) p, Datatypes.S (snd st))) ps (s, i) = (fold_left (fun s p => step s (u p) p) ps s, (i + length ps)%nat).
Proof.
  revert s i. induction ps as [|p ps IH]; intros s i H; cbn [fold_left length fst snd]; [f_equal; lia|].
  assert (H0 := H 0%nat p eq_refl). rewrite Nat.add_0_r in H0. rewrite H0, IH; [f_equal; lia|]. intros j q Hj. rewrite <- (H (Datatypes.S j) q Hj). f_equal. lia.
Qed.
Lemma sum_flat g (n m : nat) (f : nat -> nat -> nat * nat) : fold_right (fun p a => cadd (g p) a) c0 (flat_map (fun a => map (f a) (seq 0 m)) (seq 0 n)) = csum n (fun a => csum m (fun b => g (f a b))).
Proof.
  assert (AP : forall x y : list (nat * nat), fold_right (fun p a => cadd (g p) a) c0 (x ++ y) = cadd (fold_right (fun p a => cadd (g p) a) c0 x) (fold_right (fun p a => cadd (g p) a) c0 y)).
  { intros x y. induction x as [|p x IH]; cbn [app fold_right]; [ring|]. rewrite IH. ring. }
  assert (MP : forall a ks, fold_right (fun p a => cadd (g p) a) c0 (map (f a) ks) = fold_right (fun b s => cadd (g (f a b)) s) c0 ks) by (intros a ks; induction ks as [|k ks IH]; cbn [map fold_right]; [reflexivity|]; rewrite IH; reflexivity).
  induction n as [|n IH]; [reflexivity|]. rewrite seq_S, flat_map_app, AP, IH. cbn [flat_map csum]. rewrite app_nil_r, MP. cbn [Nat.add]. f_equal. rewrite (sum_csum (fun b => g (f n b))). reflexivity.
Qed.

(** * The harmonics *)
Definition gf (t : list Z) (i : nat) : R := IZR (ra_read t i).
Definition term (t : list Z) (l : nat) (xi zeta : cplx) (a b k : nat) : cplx :=
  cmul (cr (/ (gf t k * gf t (l + k - a - b) * gf t (a - k) * gf t (b - k)))) (cmul (cmul (cmul (cpow (cconj xi) k) (cpow zeta (b - k))) (cpow (cconj zeta) (a - k))) (cpow (cneg xi) (l + k - a - b))).
Lemma ra_term_eq t l xi zeta a b k : (forall i, (i <= l)%nat -> gf t i <> 0) -> (a <= l)%nat -> (b <= l)%nat -> (k <= min a b)%nat -> ra_term t l xi zeta a b k = Some (term t l xi zeta a b k).
Proof.
  intros G Ha Hb Hk. unfold ra_term, c_div. fold (gf t k) (gf t (l + k - a - b)) (gf t (a - k)) (gf t (b - k)).
  assert (D : gf t k * gf t (l + k - a - b) * gf t (a - k) * gf t (b - k) <> 0) by (repeat apply Rmult_integral_contrapositive_currified; apply G; lia).
  destruct (Reqb_spec (gf t k * gf t (l + k - a - b) * gf t (a - k) * gf t (b - k)) 0) as [E|_]; [contradiction|]. apply (f_equal Some). unfold term. rewrite !ra_cpow_eq. replace (cscale (-1) xi) with (cneg xi) by (destruct xi; unfold cscale, cneg; simpl; f_equal; ring).
  set (z := cmul (cmul (cmul _ _) _) _). destruct z as [x y]. unfold cmul, cr; simpl. f_equal; field; repeat split; apply G; lia.
Qed.
Definition harmc (t : list Z) (l : nat) (xi zeta : cplx) (a b : nat) : cplx :=
  csum (S (min a b) - ra_first l a b) (fun k => term t l xi zeta a b (ra_first l a b + k)).
Lemma ra_harm_eq t l xi zeta a b : (forall i, (i <= l)%nat -> gf t i <> 0) -> (a <= l)%nat -> (b <= l)%nat -> ra_harm t l xi zeta a b = Some (harmc t l xi zeta a b).
Proof.
  intros G Ha Hb. unfold ra_harm. rewrite (fold_oadd _ (term t l xi zeta a b)).
  - f_equal. rewrite sum_csum. unfold harmc. ring.
  - intros k Hk. apply in_seq in Hk. apply ra_term_eq; auto. lia.
Qed.
Lemma cpow_c0 n : (0 < n)%nat -> cpow c0 n = c0. Proof. destruct n; [lia|]. intros _. simpl. ring. Qed.
(** The harmonics of the unit quaternion vanish unless a + b = l. *)
Lemma unit_harm t l zeta a b : (forall i, (i <= l)%nat -> gf t i <> 0) -> gf t 0 = 1 -> (a <= l)%nat -> (b <= l)%nat ->
  harmc t l c0 zeta a b = if (a + b =? l)%nat then cmul (cr (/ (gf t a * gf t b))) (cmul (cpow zeta b) (cpow (cconj zeta) a)) else c0.
Proof.
  intros G G0 Ha Hb. unfold harmc. assert (CC : cconj c0 = c0) by (unfold cconj, c0; simpl; f_equal; ring). assert (CN : cneg c0 = c0) by (unfold cneg, c0; simpl; f_equal; ring).
  destruct (Nat.eqb_spec (a + b) l) as [E|E].
  - unfold ra_first. destruct (Nat.ltb_spec (a + b) l); [lia|]. replace (a + b - l)%nat with 0%nat by lia. rewrite Nat.sub_0_r, csum_first. rewrite csum_zero.
    + change (0 + 0)%nat with 0%nat. unfold term. replace (l + 0 - a - b)%nat with 0%nat by lia. rewrite !Nat.sub_0_r, G0. change (cpow (cconj c0) 0) with cone. change (cpow (cneg c0) 0) with cone. replace (1 * 1 * gf t a * gf t b) with (gf t a * gf t b) by ring. ring.
    + intros k _. unfold term. rewrite CC, (cpow_c0 (0 + S k)) by lia. ring.
  - apply csum_zero. intros k Hk. unfold term. rewrite CC, CN. unfold ra_first in *. destruct (Nat.ltb_spec (a + b) l).
    + rewrite (cpow_c0 (l + (0 + k) - a - b)) by lia. ring.
    + rewrite (cpow_c0 (a + b - l + k)) by lia. ring.
Qed.
Lemma ra_pairs_in l p : In p (ra_pairs l) <-> (fst p <= l)%nat /\ (snd p <= l)%nat.
Proof.
  unfold ra_pairs. rewrite in_flat_map. split.
  - intros (a & Ha & H). apply in_map_iff in H as (b & <- & Hb). apply in_seq in Ha. apply in_seq in Hb. cbn [fst snd]. lia.
  - destruct p as [a b]. cbn [fst snd]. intros [Ha Hb]. exists a. split; [apply in_seq; lia|]. apply in_map_iff. exists b. split; [reflexivity|apply in_seq; lia].
Qed.
Definition rel (ref q : quat) : quat := qmul (qconj ref) q.
Definition xi_of (q : quat) : cplx := (vx (qv q), vy (qv q)).
Definition zeta_of (q : quat) : cplx := (vz (qv q), qs q).
Lemma ra_value_sum l ref q : let t := ra_table l in (forall i, (i <= l)%nat -> gf t i <> 0) -> gf t 0 = 1 ->
  ra_value l ref q = Some (csum (S l) (fun a => cmul (cr (ra_pref t l a (l - a))) (cmul (cconj (cmul (cr (/ (gf t a * gf t (l - a)))) (cmul (cpow (0, 1) (l - a)) (cpow (cconj (0, 1)) a)))) (harmc t l (xi_of (rel ref q)) (zeta_of (rel ref q)) a (l - a))))).
Proof.
  intros t G G0. unfold ra_value. cbv zeta. fold t. fold (rel ref q) (xi_of (rel ref q)) (zeta_of (rel ref q)).
  rewrite (fold_counter (fun s u p => oadd s (option_map (cscale (ra_pref t l (fst p) (snd p))) (omul u (ra_harm t l (xi_of (rel ref q)) (zeta_of (rel ref q)) (fst p) (snd p))))) (ra_units t l) None (fun p => option_map cconj (ra_harm t l c0 (0, 1) (fst p) (snd p)))).
  - cbn [fst]. rewrite (fold_oadd _ (fun p => cmul (cr (ra_pref t l (fst p) (snd p))) (cmul (cconj (harmc t l c0 (0, 1) (fst p) (snd p))) (harmc t l (xi_of (rel ref q)) (zeta_of (rel ref q)) (fst p) (snd p))))).
    + f_equal. unfold ra_pairs. rewrite (sum_flat _ (S l) (S l) (fun a b => (a, b))). replace (cadd c0 (csum (S l) (fun a => csum (S l) (fun b => cmul (cr (ra_pref t l (fst (a, b)) (snd (a, b)))) (cmul (cconj (harmc t l c0 (0, 1) (fst (a, b)) (snd (a, b)))) (harmc t l (xi_of (rel ref q)) (zeta_of (rel ref q)) (fst (a, b)) (snd (a, b)))))))) with (csum (S l) (fun a => csum (S l) (fun b => cmul (cr (ra_pref t l a b)) (cmul (cconj (harmc t l c0 (0, 1) a b)) (harmc t l (xi_of (rel ref q)) (zeta_of (rel ref q)) a b))))) by (cbn [fst snd]; ring).
      apply csum_ext. intros a Ha. rewrite (csum_ext (S l) _ (fun b => if (b =? l - a)%nat then cmul (cr (ra_pref t l a b)) (cmul (cconj (cmul (cr (/ (gf t a * gf t b))) (cmul (cpow (0, 1) b) (cpow (cconj (0, 1)) a)))) (harmc t l (xi_of (rel ref q)) (zeta_of (rel ref q)) a b)) else c0)).
      * rewrite csum_single by lia. reflexivity.
      * intros b Hb. rewrite unit_harm by (auto; lia). destruct (Nat.eqb_spec (a + b) l), (Nat.eqb_spec b (l - a)); try lia; [reflexivity|]. unfold cconj at 1, c0 at 1 2; cbn [fst snd]. rewrite Ropp_0. change (0, 0) with c0. ring.
    + intros [a b] Hp. apply ra_pairs_in in Hp. cbn [fst snd] in *. rewrite !ra_harm_eq by (auto; lia). cbn [omul option_map]. rewrite cscale_cr. reflexivity.
  - intros j p Hp. cbn [Nat.add]. unfold ra_units. set (f := fun p0 : nat * nat => option_map cconj (ra_harm t l c0 (0, 1) (fst p0) (snd p0))). assert (N : nth_error (map f (ra_pairs l)) j = Some (f p)) by (apply map_nth_error, Hp). apply nth_error_nth. exact N.
Qed.

(** * The sums t(a, b) = sum_k C(a,k) C(b,k) M^k W^(a-k) V^(b-k) *)
Fixpoint bb (W : cplx) (a k : nat) : cplx :=
  match a, k with O, O => cone | O, S _ => c0 | S a, O => cmul W (bb W a O) | S a, S k => cadd (cmul W (bb W a (S k))) (bb W a k) end.
Lemma bb_out W a k : (a < k)%nat -> bb W a k = c0.
Proof. revert k. induction a as [|a IH]; intros [|k] H; try lia; [reflexivity|]. cbn [bb]. rewrite !IH by lia. ring. Qed.
Lemma C_first n : C n 0 = 1. Proof. unfold C. rewrite Nat.sub_0_r. simpl fact. replace (INR 1) with 1 by reflexivity. field. apply INR_fact_neq_0. Qed.
Lemma C_diag n : C n n = 1. Proof. unfold C. rewrite Nat.sub_diag. simpl fact. replace (INR 1) with 1 by reflexivity. field. apply INR_fact_neq_0. Qed.
Lemma bb_form W a k : (k <= a)%nat -> bb W a k = cmul (cr (C a k)) (cpow W (a - k)).
Proof.
  revert k. induction a as [|a IH]; intros k H.
  - replace k with 0%nat by lia. cbn [bb]. unfold C. simpl. replace (1 / (1 * 1)) with 1 by field. change (1, 0) with cone. rewrite cr_1. ring.
  - destruct k as [|k]; cbn [bb].
    + rewrite IH by lia. rewrite !C_first. rewrite Nat.sub_0_r. cbn [Nat.sub cpow]. ring.
    + destruct (Nat.eq_dec k a) as [->|N].
      * rewrite bb_out by lia. rewrite IH by lia. rewrite !C_diag, !Nat.sub_diag. cbn [cpow]. change (1, 0) with cone. ring.
      * rewrite !IH by lia. rewrite <- (Binomial.pascal a k) by lia. cbn [Nat.sub]. replace (a - k)%nat with (S (a - S k)) by lia. cbn [cpow]. rewrite cr_add. ring.
Qed.
Definition tt (W V M : cplx) (n a b : nat) : cplx := csum n (fun k => cmul (cmul (bb W a k) (bb V b k)) (cpow M k)).
Lemma tt_stable W V M n m a b : (min a b < n)%nat -> (min a b < m)%nat -> tt W V M n a b = tt W V M m a b.
Proof.
  assert (X : forall n, (min a b < n)%nat -> tt W V M n a b = tt W V M (S (min a b)) a b).
  { intros k. induction k as [|k IH]; intros H; [lia|]. destruct (Nat.eq_dec k (min a b)) as [->|N]; [reflexivity|]. unfold tt in *. cbn [csum] in *. rewrite IH by lia. cbn [csum].
    assert (Z : cmul (bb W a k) (bb V b k) = c0). { destruct (Nat.min_spec a b) as [[? Q]|[? Q]]; rewrite Q in *; [rewrite (bb_out W a k) by lia|rewrite (bb_out V b k) by lia]; ring. }
    rewrite Z. ring. }
  intros H1 H2. rewrite (X n H1), (X m H2). reflexivity.
Qed.
Lemma tt_rec W V M n a b : (a < n)%nat -> tt W V M (S n) (S a) (S b) =
  cadd (cadd (cmul W (tt W V M (S n) a (S b))) (cmul V (tt W V M (S n) (S a) b))) (cmul (csub M (cmul W V)) (tt W V M (S n) a b)).
Proof.
  intros H. replace (cmul (csub M (cmul W V)) (tt W V M (S n) a b)) with (csub (cmul M (tt W V M n a b)) (cmul (cmul W V) (tt W V M (S n) a b))) by (rewrite (tt_stable W V M n (S n)) by lia; ring).
  unfold tt. rewrite !csum_first. cbn [cpow]. change (1, 0) with cone.
  assert (E : csum n (fun k => cmul (cmul (bb W (S a) (S k)) (bb V (S b) (S k))) (cmul M (cpow M k))) =
     cadd (cadd (cmul W (csum n (fun k => cmul (cmul (bb W a (S k)) (bb V (S b) (S k))) (cmul M (cpow M k))))) (cmul V (csum n (fun k => cmul (cmul (bb W (S a) (S k)) (bb V b (S k))) (cmul M (cpow M k))))))
          (csub (cmul M (csum n (fun k => cmul (cmul (bb W a k) (bb V b k)) (cpow M k)))) (cmul (cmul W V) (csum n (fun k => cmul (cmul (bb W a (S k)) (bb V b (S k))) (cmul M (cpow M k))))))).
  { rewrite <- !csum_mul. unfold csub. replace (cneg (csum n (fun k => cmul (cmul W V) (cmul (cmul (bb W a (S k)) (bb V b (S k))) (cmul M (cpow M k)))))) with (csum n (fun k => cneg (cmul (cmul W V) (cmul (cmul (bb W a (S k)) (bb V b (S k))) (cmul M (cpow M k)))))).
    - rewrite <- !csum_add. apply csum_ext. intros k _. cbn [bb]. ring.
    - clear. induction n as [|n IH]; cbn [csum]; [unfold cneg, c0; simpl; f_equal; ring|]. rewrite IH. ring. }
  etransitivity; [exact (f_equal2 cadd eq_refl E)|]. cbn [bb]. ring.
Qed.
Lemma tt_0r W V M n a : (0 < n)%nat -> tt W V M n (S a) 0 = cmul W (tt W V M n a 0).
Proof. intros H. rewrite (tt_stable W V M n 1 (S a) 0), (tt_stable W V M n 1 a 0) by lia. unfold tt. cbn [csum cpow bb]. ring. Qed.
Lemma tt_0l W V M n b : (0 < n)%nat -> tt W V M n 0 (S b) = cmul V (tt W V M n 0 b).
Proof. intros H. rewrite (tt_stable W V M n 1 0 (S b)), (tt_stable W V M n 1 0 b) by lia. unfold tt. cbn [csum cpow bb]. ring. Qed.
Definition TT (W V M : cplx) (n l : nat) : cplx := csum (S l) (fun a => tt W V M n a (l - a)).
Lemma TT_rec W V M n l : (S l < n)%nat -> TT W V M n (S (S l)) = cadd (cmul (cadd W V) (TT W V M n (S l))) (cmul (csub M (cmul W V)) (TT W V M n l)).
Proof.
  intros H. destruct n as [|n]; [lia|]. unfold TT. set (f := tt W V M (S n)).
  assert (A : csum (S (S (S l))) (fun a => f a (S (S l) - a)%nat) = cadd (cadd (cmul V (f 0%nat (S l))) (cmul W (f (S l) 0%nat))) (csum (S l) (fun a => f (S a) (S (l - a))))).
  { change (csum (S (S (S l))) (fun a => f a (S (S l) - a)%nat)) with (cadd (csum (S (S l)) (fun a => f a (S (S l) - a)%nat)) (f (S (S l)) (S (S l) - S (S l))%nat)). rewrite csum_first, Nat.sub_diag, Nat.sub_0_r. unfold f at 1 3. rewrite tt_0r, tt_0l by lia.
    fold f. rewrite (csum_ext (S l) (fun k => f (S k) (S (S l) - S k)%nat) (fun a => f (S a) (S (l - a)))) by (intros k Hk; f_equal; lia). ring. }
  assert (B : csum (S (S l)) (fun a => f a (S l - a)%nat) = cadd (csum (S l) (fun a => f a (S (l - a)))) (f (S l) 0%nat)).
  { change (csum (S (S l)) (fun a => f a (S l - a)%nat)) with (cadd (csum (S l) (fun a => f a (S l - a)%nat)) (f (S l) (S l - S l)%nat)). rewrite Nat.sub_diag. f_equal. apply csum_ext. intros k Hk. f_equal. lia. }
  assert (D : csum (S (S l)) (fun a => f a (S l - a)%nat) = cadd (f 0%nat (S l)) (csum (S l) (fun a => f (S a) (l - a)%nat))) by (rewrite csum_first, Nat.sub_0_r; reflexivity).
  rewrite A. replace (cmul (cadd W V) (csum (S (S l)) (fun a => f a (S l - a)%nat))) with (cadd (cmul W (csum (S (S l)) (fun a => f a (S l - a)%nat))) (cmul V (csum (S (S l)) (fun a => f a (S l - a)%nat)))) by ring.
  rewrite B at 1. rewrite D. rewrite (csum_ext (S l) (fun a => f (S a) (S (l - a))) (fun a => cadd (cadd (cmul W (f a (S (l - a)))) (cmul V (f (S a) (l - a)%nat))) (cmul (csub M (cmul W V)) (f a (l - a)%nat)))) by (intros k Hk; unfold f; apply tt_rec; lia).
  rewrite !csum_add, !csum_mul. ring.
Qed.
(** The value as a polynomial of the scalar part s and the squared norm n of the relative orientation. *)
Fixpoint cheb2 (s n : R) (l : nat) : R * R := match l with O => (1, 2 * s) | S l => let p := cheb2 s n l in (snd p, 2 * s * snd p - n * fst p) end.
Definition cheb (s n : R) (l : nat) : R := fst (cheb2 s n l).
Lemma cheb_0 s n : cheb s n 0 = 1. Proof. reflexivity. Qed.
Lemma cheb_1 s n : cheb s n 1 = 2 * s. Proof. reflexivity. Qed.
Lemma cheb_SS s n l : cheb s n (S (S l)) = 2 * s * cheb s n (S l) - n * cheb s n l. Proof. reflexivity. Qed.
Lemma TT_cheb W V M n s nn l : (l < n)%nat -> cadd W V = cr (2 * s) -> csub M (cmul W V) = cr (- nn) -> TT W V M n l = cr (cheb s nn l).
Proof.
  intros H E1 E2. enough (X : TT W V M n l = cr (cheb s nn l) /\ ((S l < n)%nat -> TT W V M n (S l) = cr (cheb s nn (S l)))) by apply X. induction l as [|l IH].
  - split.
    + rewrite cheb_0. unfold TT. cbn [csum Nat.sub]. rewrite (tt_stable W V M n 1) by (simpl; lia). unfold tt. cbn [csum bb cpow]. change (1, 0) with cone. rewrite cr_1. ring.
    + intros Hn. rewrite cheb_1. unfold TT. cbn [csum Nat.sub]. rewrite !(tt_stable W V M n 1) by (simpl; lia). unfold tt. cbn [csum bb cpow]. change (1, 0) with cone. rewrite <- E1. ring.
  - destruct (IH ltac:(lia)) as [A B]. split; [apply B; lia|]. intros Hn. rewrite TT_rec by lia. rewrite A, B by lia. rewrite E1, E2, cheb_SS, <- !cr_mul, <- cr_add. f_equal. ring.
Qed.
