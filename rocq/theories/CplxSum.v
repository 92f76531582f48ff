(** Finite sums of complex numbers, divided powers and roots of unity. *)
From Verif Require Import CorrModel HexSpec.
From Coq Require Import Reals List Lra Lia Ring Arith.
Local Open Scope R_scope.

Definition cone : cplx := (1, 0).
Definition cneg (z : cplx) : cplx := (- fst z, - snd z).
Definition csub (a b : cplx) : cplx := cadd a (cneg b).
Definition cr (x : R) : cplx := (x, 0).
Ltac cplx := intros; repeat match goal with z : cplx |- _ => destruct z end; unfold cr, csub, cneg, cadd, cmul, cscale, cconj, cone, c0; simpl; f_equal; ring.
Lemma cplx_ring : ring_theory c0 cone cadd cmul csub cneg (@eq cplx).
Proof. constructor; cplx. Qed.
Add Ring cplx_ring_inst : cplx_ring.
Lemma cscale_cr k z : cscale k z = cmul (cr k) z. Proof. cplx. Qed.
Lemma cr_add x y : cr (x + y) = cadd (cr x) (cr y). Proof. cplx. Qed.
Lemma cr_mul x y : cr (x * y) = cmul (cr x) (cr y). Proof. cplx. Qed.
Lemma cr_0 : cr 0 = c0. Proof. reflexivity. Qed.
Lemma cr_1 : cr 1 = cone. Proof. reflexivity. Qed.
Lemma cconj_add a b : cconj (cadd a b) = cadd (cconj a) (cconj b). Proof. cplx. Qed.
Lemma cconj_mul a b : cconj (cmul a b) = cmul (cconj a) (cconj b). Proof. cplx. Qed.
Lemma cconj_scale k a : cconj (cscale k a) = cscale k (cconj a). Proof. cplx. Qed.
Lemma cconj_cr x : cconj (cr x) = cr x. Proof. cplx. Qed.
Lemma cconj_conj a : cconj (cconj a) = a. Proof. cplx. Qed.
Lemma cmul_conj z : cmul z (cconj z) = cr (modulus2 z).
Proof. destruct z. unfold cmul, cconj, cr, modulus2; simpl. f_equal; ring. Qed.
Lemma cmul_integral a b : cmul a b = c0 -> a = c0 \/ b = c0.
Proof.
  intros H. assert (M : modulus2 a * modulus2 b = 0).
  { transitivity (modulus2 (cmul a b)); [destruct a, b; unfold modulus2, cmul; simpl; ring|]. rewrite H. unfold modulus2; simpl; ring. }
  assert (Z : forall z, modulus2 z = 0 -> z = c0).
  { intros [x y] E. unfold modulus2 in E; simpl in E. assert (A := Rle_0_sqr x). assert (B := Rle_0_sqr y). unfold Rsqr in *. unfold c0. f_equal; apply Rsqr_0_uniq; unfold Rsqr; lra. }
  apply Rmult_integral in M as [M|M]; [left|right]; apply Z; exact M.
Qed.
Lemma cr_cancel k a b : k <> 0 -> cmul (cr k) a = cmul (cr k) b -> a = b.
Proof.
  intros K E. transitivity (cmul (cr (/ k)) (cmul (cr k) a)).
  - replace (cmul (cr (/ k)) (cmul (cr k) a)) with (cmul (cmul (cr (/ k)) (cr k)) a) by ring. rewrite <- cr_mul, Rinv_l by exact K. rewrite cr_1. ring.
  - rewrite E. replace (cmul (cr (/ k)) (cmul (cr k) b)) with (cmul (cmul (cr (/ k)) (cr k)) b) by ring. rewrite <- cr_mul, Rinv_l by exact K. rewrite cr_1. ring.
Qed.

(** * Powers *)
Lemma cpow_add z m n : cpow z (m + n) = cmul (cpow z m) (cpow z n).
Proof. induction m as [|m IH]; simpl; [change (1, 0) with cone; ring|]. rewrite IH. ring. Qed.
Lemma cpow_cmul a b n : cpow (cmul a b) n = cmul (cpow a n) (cpow b n).
Proof. induction n as [|n IH]; simpl; [change (1, 0) with cone; ring|]. rewrite IH. ring. Qed.
Lemma cpow_pow z m n : cpow (cpow z m) n = cpow z (m * n).
Proof. induction n as [|n IH]; simpl; [rewrite Nat.mul_0_r; reflexivity|]. rewrite IH, Nat.mul_succ_r, Nat.add_comm, cpow_add. ring. Qed.
Lemma cpow_conj z n : cconj (cpow z n) = cpow (cconj z) n.
Proof. induction n as [|n IH]; simpl; [unfold cconj; simpl; f_equal; ring|]. rewrite cconj_mul, IH. reflexivity. Qed.
Lemma cpow_c1 n : cpow cone n = cone.
Proof. induction n as [|n IH]; simpl; [reflexivity|]. rewrite IH. ring. Qed.
Lemma cpow_cr x n : cpow (cr x) n = cr (x ^ n).
Proof. induction n as [|n IH]; simpl; [reflexivity|]. rewrite IH, cr_mul. reflexivity. Qed.

(** * Sums *)
Fixpoint csum (n : nat) (f : nat -> cplx) : cplx := match n with O => c0 | S n => cadd (csum n f) (f n) end.
Lemma csum_ext n f g : (forall k, (k < n)%nat -> f k = g k) -> csum n f = csum n g.
Proof. induction n as [|n IH]; simpl; intros H; auto. rewrite IH, H by auto. reflexivity. Qed.
Lemma csum_add n f g : csum n (fun k => cadd (f k) (g k)) = cadd (csum n f) (csum n g).
Proof. induction n as [|n IH]; simpl; [ring|]. rewrite IH. ring. Qed.
Lemma csum_mul n c f : csum n (fun k => cmul c (f k)) = cmul c (csum n f).
Proof. induction n as [|n IH]; simpl; [ring|]. rewrite IH. ring. Qed.
Lemma csum_mul_r n c f : csum n (fun k => cmul (f k) c) = cmul (csum n f) c.
Proof. induction n as [|n IH]; simpl; [ring|]. rewrite IH. ring. Qed.
Lemma csum_zero n f : (forall k, (k < n)%nat -> f k = c0) -> csum n f = c0.
Proof. induction n as [|n IH]; simpl; intros H; auto. rewrite IH, H by auto. ring. Qed.
Lemma csum_const n z : csum n (fun _ => z) = cmul (cr (INR n)) z.
Proof. induction n as [|n IH]; [simpl; rewrite cr_0; ring|]. cbn [csum]. rewrite IH, S_INR, cr_add, cr_1. ring. Qed.
Lemma csum_swap n m f : csum n (fun i => csum m (f i)) = csum m (fun j => csum n (fun i => f i j)).
Proof. induction n as [|n IH]; simpl; [rewrite csum_zero; auto|]. rewrite IH, csum_add. reflexivity. Qed.
Lemma csum_first n f : csum (S n) f = cadd (f O) (csum n (fun k => f (S k))).
Proof. induction n as [|n IH]; [simpl; ring|]. cbn [csum] in *. rewrite IH. ring. Qed.
Lemma csum_single n i f : (i < n)%nat -> csum n (fun k => if (k =? i)%nat then f k else c0) = f i.
Proof.
  induction n as [|n IH]; [lia|]. intros H. cbn [csum]. destruct (Nat.eq_dec i n) as [->|N].
  - rewrite Nat.eqb_refl, csum_zero; [ring|]. intros k Hk. destruct (Nat.eqb_spec k n); [lia|reflexivity].
  - rewrite IH by lia. destruct (Nat.eqb_spec n i); [lia|]. ring.
Qed.
Lemma csum_conj n f : cconj (csum n f) = csum n (fun k => cconj (f k)).
Proof. induction n as [|n IH]; simpl; [cplx|]. rewrite cconj_add, IH. reflexivity. Qed.
Lemma csum_cr n f : csum n (fun k => cr (f k)) = cr (fst (csum n (fun k => cr (f k)))).
Proof.
  assert (E : snd (csum n (fun k => cr (f k))) = 0) by (induction n as [|n IH]; simpl; [reflexivity|rewrite IH; ring]).
  destruct (csum n (fun k => cr (f k))) as [x y]. simpl in *. subst. reflexivity.
Qed.

(** * Divided powers z^n / n! *)
Definition dp (n : nat) (z : cplx) : cplx := cscale (/ INR (fact n)) (cpow z n).
Lemma fact_pos n : 0 < INR (fact n). Proof. apply INR_fact_lt_0. Qed.
Lemma dp_S n z : cmul (cr (INR (S n))) (dp (S n) z) = cmul z (dp n z).
Proof.
  unfold dp. rewrite !cscale_cr. cbn [cpow]. replace (cmul (cr (INR (S n))) (cmul (cr (/ INR (fact (S n)))) (cmul z (cpow z n)))) with (cmul (cmul (cr (INR (S n))) (cr (/ INR (fact (S n))))) (cmul z (cpow z n))) by ring.
  rewrite <- cr_mul. replace (INR (S n) * / INR (fact (S n))) with (/ INR (fact n)); [ring|].
  change (fact (S n)) with (S n * fact n)%nat. rewrite mult_INR. assert (P := fact_pos n). assert (Q : INR (S n) <> 0) by (apply not_0_INR; lia). field. split; [lra|exact Q].
Qed.
Lemma dp_fact n z : cmul (cr (INR (fact n))) (dp n z) = cpow z n.
Proof. unfold dp. rewrite cscale_cr. assert (P := fact_pos n). replace (cmul (cr (INR (fact n))) (cmul (cr (/ INR (fact n))) (cpow z n))) with (cmul (cmul (cr (INR (fact n))) (cr (/ INR (fact n)))) (cpow z n)) by ring. rewrite <- cr_mul, Rinv_r by lra. rewrite cr_1. ring. Qed.
Lemma dp_mul n a b : dp n (cmul a b) = cmul (dp n a) (cpow b n).
Proof. unfold dp. rewrite !cscale_cr, cpow_cmul. ring. Qed.
Lemma dp_conj n z : cconj (dp n z) = dp n (cconj z).
Proof. unfold dp. rewrite cconj_scale, cpow_conj. reflexivity. Qed.
Lemma dp_add n a b : dp n (cadd a b) = csum (S n) (fun k => cmul (dp k a) (dp (n - k) b)).
Proof.
  induction n as [|n IH]; [unfold dp; simpl; unfold cadd, cmul, cscale, c0; simpl; f_equal; field|].
  apply (cr_cancel (INR (S n))); [apply not_0_INR; lia|]. rewrite dp_S, IH.
  transitivity (cadd (csum (S n) (fun k => cmul (cr (INR (S k))) (cmul (dp (S k) a) (dp (n - k) b)))) (csum (S n) (fun k => cmul (cr (INR (S (n - k)))) (cmul (dp k a) (dp (S (n - k)) b))))).
  - replace (cmul (cadd a b) (csum (S n) (fun k => cmul (dp k a) (dp (n - k) b)))) with (cadd (cmul a (csum (S n) (fun k => cmul (dp k a) (dp (n - k) b)))) (cmul b (csum (S n) (fun k => cmul (dp k a) (dp (n - k) b))))) by ring.
    f_equal; rewrite <- csum_mul; apply csum_ext; intros k _.
    + replace (cmul (cr (INR (S k))) (cmul (dp (S k) a) (dp (n - k) b))) with (cmul (cmul (cr (INR (S k))) (dp (S k) a)) (dp (n - k) b)) by ring. rewrite dp_S. ring.
    + replace (cmul (cr (INR (S (n - k)))) (cmul (dp k a) (dp (S (n - k)) b))) with (cmul (dp k a) (cmul (cr (INR (S (n - k)))) (dp (S (n - k)) b))) by ring. rewrite dp_S. ring.
  - transitivity (cadd (csum (S (S n)) (fun k => cmul (cr (INR k)) (cmul (dp k a) (dp (S n - k) b)))) (csum (S (S n)) (fun k => cmul (cr (INR (S n - k))) (cmul (dp k a) (dp (S n - k) b))))).
    + f_equal.
      * set (F := fun k => cmul (cr (INR k)) (cmul (dp k a) (dp (S n - k) b))). rewrite (csum_first (S n) F).
        assert (Z : F O = c0) by (unfold F; change (INR 0) with 0; rewrite cr_0; ring). rewrite Z. transitivity (csum (S n) (fun k => F (S k))); [reflexivity|ring].
      * set (F := fun k => cmul (cr (INR (S n - k))) (cmul (dp k a) (dp (S n - k) b))). change (csum (S (S n)) F) with (cadd (csum (S n) F) (F (S n))).
        assert (Z : F (S n) = c0) by (unfold F; rewrite Nat.sub_diag; change (INR 0) with 0; rewrite cr_0; ring). rewrite Z.
        transitivity (csum (S n) F); [|ring]. apply csum_ext. intros k Hk. unfold F. replace (S n - k)%nat with (S (n - k)) by lia. reflexivity.
    + rewrite <- csum_add, <- csum_mul. apply csum_ext. intros k Hk.
      replace (cadd (cmul (cr (INR k)) (cmul (dp k a) (dp (S n - k) b))) (cmul (cr (INR (S n - k))) (cmul (dp k a) (dp (S n - k) b)))) with (cmul (cadd (cr (INR k)) (cr (INR (S n - k)))) (cmul (dp k a) (dp (S n - k) b))) by ring.
      rewrite <- cr_add, <- plus_INR. replace (k + (S n - k))%nat with (S n) by lia. reflexivity.
Qed.
Lemma dp_add3 n a b c : dp n (cadd (cadd a c) b) = csum (S n) (fun p => csum (S (n - p)) (fun q => cmul (cmul (dp p a) (dp q b)) (dp (n - p - q) c))).
Proof.
  replace (cadd (cadd a c) b) with (cadd a (cadd b c)) by ring. rewrite dp_add. apply csum_ext. intros p _. rewrite dp_add, <- csum_mul. apply csum_ext. intros q _. ring.
Qed.

(** * Roots of unity *)
Definition expi (t : R) : cplx := (cos t, sin t).
Lemma expi_add s t : cmul (expi s) (expi t) = expi (s + t).
Proof. unfold expi, cmul; simpl. rewrite cos_plus, sin_plus. f_equal; ring. Qed.
Lemma expi_pow t n : cpow (expi t) n = expi (INR n * t).
Proof. induction n as [|n IH]; [simpl; unfold expi; rewrite Rmult_0_l, cos_0, sin_0; reflexivity|]. cbn [cpow]. rewrite IH, expi_add, S_INR. f_equal. ring. Qed.
Lemma expi_conj t : cconj (expi t) = expi (- t).
Proof. unfold expi, cconj; simpl. rewrite cos_neg, sin_neg. reflexivity. Qed.
Lemma expi_unit t : cmul (expi t) (cconj (expi t)) = cone.
Proof. rewrite expi_conj, expi_add, Rplus_opp_r. unfold expi. rewrite cos_0, sin_0. reflexivity. Qed.
Lemma root_sum z N : cpow z N = cone -> z <> cone -> csum N (fun j => cpow z j) = c0.
Proof.
  intros P NE. assert (T : forall n, cmul (csub z cone) (csum n (fun j => cpow z j)) = csub (cpow z n) cone).
  { induction n as [|n IH]; simpl; [change (1, 0) with cone; ring|]. transitivity (cadd (cmul (csub z cone) (csum n (fun j => cpow z j))) (cmul (csub z cone) (cpow z n))); [ring|]. rewrite IH. ring. }
  specialize (T N). rewrite P in T. replace (csub cone cone) with c0 in T by ring. apply cmul_integral in T as [T|T]; [|exact T].
  exfalso. apply NE. transitivity (cadd (csub z cone) cone); [ring|]. rewrite T. ring.
Qed.
Definition root (N : nat) : cplx := expi (2 * PI / INR N).
Lemma root_pow N : (0 < N)%nat -> cpow (root N) N = cone.
Proof.
  intros H. unfold root. rewrite expi_pow. replace (INR N * (2 * PI / INR N)) with (2 * PI) by (field; apply not_0_INR; lia). unfold expi. rewrite cos_2PI, sin_2PI. reflexivity.
Qed.
Lemma root_proper N d : (0 < d < N)%nat -> cpow (root N) d <> cone.
Proof.
  intros H. assert (Pn : 0 < INR N) by (apply lt_0_INR; lia). assert (Pd : 0 < INR d) by (apply lt_0_INR; lia). assert (L : INR d < INR N) by (apply lt_INR; lia). assert (PP := PI_RGT_0).
  unfold root. rewrite expi_pow. set (t := INR d * (2 * PI / INR N)). assert (T : 0 < t / 2 < PI).
  { replace (t / 2) with (PI * (INR d / INR N)) by (unfold t; field; lra). assert (0 < INR d / INR N) by (apply Rdiv_lt_0_compat; lra). assert (INR d / INR N < 1) by (apply (Rmult_lt_reg_r (INR N)); [lra|]; unfold Rdiv; rewrite Rmult_assoc, Rinv_l by lra; lra). nra. }
  intros E. unfold expi, cone in E. injection E as C _. replace t with (2 * (t / 2)) in C by lra. rewrite cos_2a_sin in C. assert (0 < sin (t / 2)) by (apply sin_gt_0; lra). nra.
Qed.
Lemma root_unit N : cmul (cconj (root N)) (root N) = cone.
Proof. unfold root. rewrite <- (expi_unit (2 * PI / INR N)). ring. Qed.
(** the mean of conj(w)^a w^b over the N-th roots w of unity *)
Lemma root_orth N a b : (a < N)%nat -> (b < N)%nat -> csum N (fun j => cmul (cpow (cconj (cpow (root N) j)) a) (cpow (cpow (root N) j) b)) = if (a =? b)%nat then cr (INR N) else c0.
Proof.
  intros Ha Hb. assert (U : forall j n, cmul (cpow (cconj (cpow (root N) j)) n) (cpow (cpow (root N) j) n) = cone).
  { intros j n. rewrite <- cpow_cmul, cpow_conj, <- cpow_cmul, root_unit. rewrite !cpow_c1. reflexivity. }
  destruct (Nat.eqb_spec a b) as [<-|NE].
  - rewrite (csum_ext N _ (fun _ => cone)) by (intros; apply U). rewrite csum_const. ring.
  - destruct (Nat.lt_ge_cases a b) as [L|L].
    + rewrite (csum_ext N _ (fun j => cpow (cpow (root N) (b - a)) j)).
      * apply root_sum; [rewrite cpow_pow, Nat.mul_comm, <- cpow_pow, root_pow, cpow_c1 by lia; reflexivity|apply root_proper; lia].
      * intros j _. replace b with (a + (b - a))%nat at 1 by lia. rewrite cpow_add. transitivity (cmul cone (cpow (cpow (root N) j) (b - a))); [rewrite <- (U j a); ring|]. rewrite !cpow_pow, (Nat.mul_comm j). ring.
    + assert (E : csum N (fun j => cpow (cpow (root N) (a - b)) j) = c0) by (apply root_sum; [rewrite cpow_pow, Nat.mul_comm, <- cpow_pow, root_pow, cpow_c1 by lia; reflexivity|apply root_proper; lia]).
      apply (f_equal cconj) in E. rewrite csum_conj in E. transitivity (cconj c0); [|cplx]. rewrite <- E. apply csum_ext. intros j _.
      replace a with (b + (a - b))%nat at 1 by lia. rewrite cpow_add. transitivity (cmul cone (cpow (cconj (cpow (root N) j)) (a - b))); [rewrite <- (U j b); ring|].
      rewrite <- cpow_conj, !cpow_pow, (Nat.mul_comm j). ring.
Qed.
(** the coefficients of a polynomial are determined by its values on roots of unity *)
Lemma coef_unique N a b : (forall j, (j < N)%nat -> csum N (fun k => cmul (a k) (cpow (cpow (root N) j) k)) = csum N (fun k => cmul (b k) (cpow (cpow (root N) j) k))) -> forall k, (k < N)%nat -> a k = b k.
Proof.
  intros H k Hk. assert (X : forall c, cmul (cr (INR N)) (c k) = csum N (fun j => cmul (cpow (cconj (cpow (root N) j)) k) (csum N (fun i => cmul (c i) (cpow (cpow (root N) j) i))))).
  { intros c. rewrite (csum_ext N _ (fun j => csum N (fun i => cmul (c i) (cmul (cpow (cconj (cpow (root N) j)) k) (cpow (cpow (root N) j) i))))).
    - rewrite csum_swap. rewrite (csum_ext N _ (fun i => if (i =? k)%nat then cmul (cr (INR N)) (c i) else c0)).
      + rewrite csum_single by exact Hk. reflexivity.
      + intros i Hi. rewrite csum_mul, root_orth by assumption. rewrite (Nat.eqb_sym k i). destruct (i =? k)%nat; ring.
    - intros j _. rewrite <- csum_mul. apply csum_ext. intros i _. ring. }
  apply (cr_cancel (INR N)); [apply not_0_INR; lia|]. rewrite !X. apply csum_ext. intros j Hj. rewrite H by exact Hj. reflexivity.
Qed.
