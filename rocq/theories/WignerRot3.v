(** The trilinear invariant of three directions is unchanged by rotations and, for even l, by reflections. *)
From Coq Require Import Reals ZArith List Lra Lia Bool.
From Verif Require Import RBase Vec HarmProofs SteinProofs SteinSpec WignerProofs WignerProofs2 WignerRot WignerRot2 WignerModel WignerSpec CplxSum.
Local Open Scope R_scope.
Add Ring cplx_ring_inst : cplx_ring.

(** ** Sums over a symmetric window *)
Definition sumZ (N : nat) (f : Z -> cplx) : cplx := csum (2 * N + 1) (fun k => f (Z.of_nat k - Z.of_nat N)%Z).
Lemma sumZ_ext N f g : (forall m, (- Z.of_nat N <= m <= Z.of_nat N)%Z -> f m = g m) -> sumZ N f = sumZ N g.
Proof. intros H. apply csum_ext. intros k Hk. apply H. lia. Qed.
Lemma sumZ_add N f g : sumZ N (fun m => cadd (f m) (g m)) = cadd (sumZ N f) (sumZ N g). Proof. apply csum_add. Qed.
Lemma sumZ_mul N c f : sumZ N (fun m => cmul c (f m)) = cmul c (sumZ N f). Proof. apply csum_mul. Qed.
Lemma sumZ_zero N f : (forall m, (- Z.of_nat N <= m <= Z.of_nat N)%Z -> f m = c0) -> sumZ N f = c0.
Proof. intros H. apply csum_zero. intros k Hk. apply H. lia. Qed.
Lemma sumZ_up N f : f (- Z.of_nat N)%Z = c0 -> f (Z.of_nat N + 1)%Z = c0 -> sumZ N (fun m => f (m + 1)%Z) = sumZ N f.
Proof.
  intros A B. unfold sumZ. replace (2 * N + 1)%nat with (S (2 * N)) by lia. rewrite (csum_first (2 * N) (fun k => f (Z.of_nat k - Z.of_nat N)%Z)). cbn [csum].
  replace (Z.of_nat (2 * N) - Z.of_nat N + 1)%Z with (Z.of_nat N + 1)%Z by lia. rewrite B. replace (Z.of_nat 0 - Z.of_nat N)%Z with (- Z.of_nat N)%Z by lia. rewrite A.
  rewrite (csum_ext (2 * N) _ (fun k => f (Z.of_nat (S k) - Z.of_nat N)%Z)) by (intros k _; f_equal; lia). ring.
Qed.
Lemma sumZ_down N f : f (Z.of_nat N)%Z = c0 -> f (- Z.of_nat N - 1)%Z = c0 -> sumZ N (fun m => f (m - 1)%Z) = sumZ N f.
Proof.
  intros A B. rewrite <- (sumZ_up N (fun m => f (m - 1)%Z)).
  - apply sumZ_ext. intros m _. f_equal. lia.
  - exact B.
  - rewrite <- A. f_equal. lia.
Qed.
Lemma cder_sumZ N f t d : (forall m, cder (f m) t (d m)) -> cder (fun s => sumZ N (fun m => f m s)) t (sumZ N d).
Proof. intros H. apply (cder_csum (2 * N + 1) (fun k => f (Z.of_nat k - Z.of_nat N)%Z)). intros k _. apply H. Qed.
Lemma sumZ_conj N f : cconj (sumZ N f) = sumZ N (fun m => cconj (f m)). Proof. apply csum_conj. Qed.

(** ** The recurrences cancel *)
Section cancel.
Context (l : nat) (A B C : Z -> cplx).
Let L := Z.of_nat l.
Let N := S l.
Context (SA : forall m, ~ (- L <= m <= L)%Z -> A m = c0) (SB : forall m, ~ (- L <= m <= L)%Z -> B m = c0) (SC : forall m, ~ (- L <= m <= L)%Z -> C m = c0).
Definition ci (m1 m2 : Z) : cplx := cr (IZR (coef l m1 m2)).
Definition zi (z : Z) : cplx := cr (IZR z).
Lemma ci_out m1 m2 : ~ m_ok L m1 m2 -> ci m1 m2 = c0. Proof. intros H. unfold ci. rewrite coef_out by exact H. reflexivity. Qed.
Definition S2 (f : Z -> Z -> cplx) : cplx := sumZ N (fun m1 => sumZ N (fun m2 => f m1 m2)).
Lemma S2_ext f g : (forall m1 m2, f m1 m2 = g m1 m2) -> S2 f = S2 g. Proof. intros H. apply sumZ_ext. intros m1 _. apply sumZ_ext. intros m2 _. apply H. Qed.
Lemma S2_add f g : S2 (fun a b => cadd (f a b) (g a b)) = cadd (S2 f) (S2 g).
Proof. unfold S2. rewrite <- sumZ_add. apply sumZ_ext. intros m1 _. apply sumZ_add. Qed.
Lemma S2_mul c f : S2 (fun a b => cmul c (f a b)) = cmul c (S2 f).
Proof. unfold S2. rewrite <- sumZ_mul. apply sumZ_ext. intros m1 _. apply sumZ_mul. Qed.
Lemma S2_zero f : (forall m1 m2, f m1 m2 = c0) -> S2 f = c0. Proof. intros H. apply sumZ_zero. intros m1 _. apply sumZ_zero. intros m2 _. apply H. Qed.
Lemma S2_up1 f : (forall m1 m2, (m1 <= - L - 1 \/ L + 1 <= m1)%Z -> f m1 m2 = c0) -> S2 (fun a b => f (a + 1)%Z b) = S2 f.
Proof. intros H. unfold S2. apply (sumZ_up N (fun m1 => sumZ N (fun m2 => f m1 m2))); apply sumZ_zero; intros m2 _; apply H; unfold N, L; lia. Qed.
Lemma S2_up2 f : (forall m1 m2, (m2 <= - L - 1 \/ L + 1 <= m2)%Z -> f m1 m2 = c0) -> S2 (fun a b => f a (b + 1)%Z) = S2 f.
Proof. intros H. unfold S2. apply sumZ_ext. intros m1 _. apply (sumZ_up N (fun m2 => f m1 m2)); apply H; unfold N, L; lia. Qed.
Lemma S2_down1 f : (forall m1 m2, (m1 <= - L - 1 \/ L + 1 <= m1)%Z -> f m1 m2 = c0) -> S2 (fun a b => f (a - 1)%Z b) = S2 f.
Proof. intros H. unfold S2. apply (sumZ_down N (fun m1 => sumZ N (fun m2 => f m1 m2))); apply sumZ_zero; intros m2 _; apply H; unfold N, L; lia. Qed.
Lemma S2_down2 f : (forall m1 m2, (m2 <= - L - 1 \/ L + 1 <= m2)%Z -> f m1 m2 = c0) -> S2 (fun a b => f a (b - 1)%Z) = S2 f.
Proof. intros H. unfold S2. apply sumZ_ext. intros m1 _. apply (sumZ_down N (fun m2 => f m1 m2)); apply H; unfold N, L; lia. Qed.
Lemma raise_cancel : cadd (cadd
  (S2 (fun m1 m2 => cmul (ci m1 m2) (cmul (cmul (cmul (zi (L + m1)) (A (m1 - 1)%Z)) (B m2)) (C (- m1 - m2)%Z))))
  (S2 (fun m1 m2 => cmul (ci m1 m2) (cmul (cmul (A m1) (cmul (zi (L + m2)) (B (m2 - 1)%Z))) (C (- m1 - m2)%Z)))))
  (S2 (fun m1 m2 => cmul (ci m1 m2) (cmul (cmul (A m1) (B m2)) (cmul (zi (L + (- m1 - m2))) (C (- m1 - m2 - 1)%Z))))) = c0.
Proof.
  rewrite <- (S2_up1 (fun m1 m2 => cmul (ci m1 m2) (cmul (cmul (cmul (zi (L + m1)) (A (m1 - 1)%Z)) (B m2)) (C (- m1 - m2)%Z)))) by (intros m1 m2 H; rewrite ci_out by (unfold m_ok; lia); ring).
  rewrite <- (S2_up2 (fun m1 m2 => cmul (ci m1 m2) (cmul (cmul (A m1) (cmul (zi (L + m2)) (B (m2 - 1)%Z))) (C (- m1 - m2)%Z)))) by (intros m1 m2 H; rewrite ci_out by (unfold m_ok; lia); ring).
  rewrite <- !S2_add. apply S2_zero. intros n1 n2. replace (n1 + 1 - 1)%Z with n1 by lia. replace (n2 + 1 - 1)%Z with n2 by lia. replace (- (n1 + 1) - n2)%Z with (- n1 - n2 - 1)%Z by lia. replace (- n1 - (n2 + 1))%Z with (- n1 - n2 - 1)%Z by lia.
  assert (E : cadd (cadd (cmul (zi (L + (n1 + 1))) (ci (n1 + 1) n2)) (cmul (zi (L + (n2 + 1))) (ci n1 (n2 + 1)))) (cmul (zi (L + (- n1 - n2))) (ci n1 n2)) = c0).
  { unfold zi, ci. rewrite <- !cr_mul, <- !cr_add, <- !mult_IZR, <- !plus_IZR. assert (K := coef_raise l n1 n2). fold L in K. replace (_ + _ + _)%Z with 0%Z by (rewrite <- K; ring). reflexivity. }
  transitivity (cmul (cmul (cmul (A n1) (B n2)) (C (- n1 - n2 - 1)%Z)) c0); [rewrite <- E|]; ring.
Qed.
Lemma lower_cancel : cadd (cadd
  (S2 (fun m1 m2 => cmul (ci m1 m2) (cmul (cmul (cmul (zi (L - m1)) (A (m1 + 1)%Z)) (B m2)) (C (- m1 - m2)%Z))))
  (S2 (fun m1 m2 => cmul (ci m1 m2) (cmul (cmul (A m1) (cmul (zi (L - m2)) (B (m2 + 1)%Z))) (C (- m1 - m2)%Z)))))
  (S2 (fun m1 m2 => cmul (ci m1 m2) (cmul (cmul (A m1) (B m2)) (cmul (zi (L - (- m1 - m2))) (C (- m1 - m2 + 1)%Z))))) = c0.
Proof.
  rewrite <- (S2_down1 (fun m1 m2 => cmul (ci m1 m2) (cmul (cmul (cmul (zi (L - m1)) (A (m1 + 1)%Z)) (B m2)) (C (- m1 - m2)%Z)))) by (intros m1 m2 H; rewrite ci_out by (unfold m_ok; lia); ring).
  rewrite <- (S2_down2 (fun m1 m2 => cmul (ci m1 m2) (cmul (cmul (A m1) (cmul (zi (L - m2)) (B (m2 + 1)%Z))) (C (- m1 - m2)%Z)))) by (intros m1 m2 H; rewrite ci_out by (unfold m_ok; lia); ring).
  rewrite <- !S2_add. apply S2_zero. intros n1 n2. replace (n1 - 1 + 1)%Z with n1 by lia. replace (n2 - 1 + 1)%Z with n2 by lia. replace (- (n1 - 1) - n2)%Z with (- n1 - n2 + 1)%Z by lia. replace (- n1 - (n2 - 1))%Z with (- n1 - n2 + 1)%Z by lia.
  assert (E : cadd (cadd (cmul (zi (L - (n1 - 1))) (ci (n1 - 1) n2)) (cmul (zi (L - (n2 - 1))) (ci n1 (n2 - 1)))) (cmul (zi (L - (- n1 - n2))) (ci n1 n2)) = c0).
  { unfold zi, ci. rewrite <- !cr_mul, <- !cr_add, <- !mult_IZR, <- !plus_IZR. assert (K := coef_lower l n1 n2). fold L in K. replace (_ + _ + _)%Z with 0%Z by (rewrite <- K; ring). reflexivity. }
  transitivity (cmul (cmul (cmul (A n1) (B n2)) (C (- n1 - n2 + 1)%Z)) c0); [rewrite <- E|]; ring.
Qed.
End cancel.

(** ** The invariant of three directions *)
Definition hat (l : nat) (v : vec3) (m : Z) : cplx :=
  let L := Z.of_nat l in if ((- L <=? m) && (m <=? L))%Z%bool then cmul (cr (F (L + m) * F (L - m))) (harm_sum l (Z.to_nat (L + m)) v) else c0.
Definition kern (l : nat) (a b c : vec3) : cplx := S2 l (fun m1 m2 => cmul (ci l m1 m2) (cmul (cmul (hat l a m1) (hat l b m2)) (hat l c (- m1 - m2)%Z))).
Lemma hat_in l v m : (- Z.of_nat l <= m <= Z.of_nat l)%Z -> hat l v m = cmul (cr (F (Z.of_nat l + m) * F (Z.of_nat l - m))) (harm_sum l (Z.to_nat (Z.of_nat l + m)) v).
Proof. intros H. unfold hat. replace (- Z.of_nat l <=? m)%Z with true by lia. replace (m <=? Z.of_nat l)%Z with true by lia. reflexivity. Qed.
Lemma hat_out l v m : ~ (- Z.of_nat l <= m <= Z.of_nat l)%Z -> hat l v m = c0.
Proof. intros H. unfold hat. destruct (Z.leb_spec (- Z.of_nat l) m), (Z.leb_spec m (Z.of_nat l)); cbn [andb]; try reflexivity. lia. Qed.
Definition hat' (l : nat) (v : vec3) (m : Z) : cplx := cadd (cmul (zi (Z.of_nat l + m)) (hat l v (m - 1)%Z)) (cmul (zi (Z.of_nat l - m)) (hat l v (m + 1)%Z)).
Lemma hat_der l v t m : (- Z.of_nat l <= m <= Z.of_nat l)%Z -> cder (fun s => hat l (rx s v) m) t (cmul half_i (hat' l (rx t v) m)).
Proof.
  intros H. set (L := Z.of_nat l) in *. assert (HK : (Z.to_nat (L + m) < 2 * l + 1)%nat) by lia.
  eapply cder_eq; [intros s; symmetry; apply hat_in; exact H| |eapply cder_mul; [apply cder_const|apply harm_der; exact HK]].
  fold L. set (k := Z.to_nat (L + m)). set (u := rx t v). cbv beta. unfold hat'. fold L.
  assert (UP : cmul (cr (F (L + m) * F (L - m))) (cmul (cr (INR (S k))) (harm_sum l (S k) u)) = cmul (zi (L - m)) (hat l u (m + 1)%Z)).
  { destruct (Z.eq_dec m L) as [->|E].
    - rewrite harm_sum_out by lia. rewrite hat_out by lia. ring.
    - rewrite hat_in by lia. fold L. replace (Z.to_nat (L + (m + 1))) with (S k) by lia. replace (L + (m + 1))%Z with (L + m + 1)%Z by lia.
      rewrite (F_S (L + m)) by lia. replace (L - m)%Z with (L - (m + 1) + 1)%Z at 1 by lia. rewrite F_S by lia. replace (L - (m + 1) + 1)%Z with (L - m)%Z by lia.
      rewrite INR_IZR_INZ. replace (Z.of_nat (S k)) with (L + m + 1)%Z by lia. unfold zi. rewrite !cr_mul. ring. }
  assert (DOWN : cmul (cr (F (L + m) * F (L - m))) (match k with O => c0 | S j => cmul (cr (INR (2 * l - j))) (harm_sum l j u) end) = cmul (zi (L + m)) (hat l u (m - 1)%Z)).
  { destruct k as [|j] eqn:K.
    - replace (L + m)%Z with 0%Z by lia. unfold zi. rewrite cr_0. ring.
    - rewrite hat_in by lia. fold L. replace (Z.to_nat (L + (m - 1))) with j by lia. replace (L - (m - 1))%Z with (L - m + 1)%Z by lia. rewrite (F_S (L - m)) by lia.
      replace (L + m)%Z with (L + (m - 1) + 1)%Z at 1 by lia. rewrite F_S by lia. replace (L + (m - 1) + 1)%Z with (L + m)%Z by lia.
      rewrite INR_IZR_INZ. replace (Z.of_nat (2 * l - j)) with (L - m + 1)%Z by lia. unfold zi. rewrite !cr_mul. ring. }
  rewrite <- UP, <- DOWN. ring.
Qed.
Lemma kern_der l a b c t : cder (fun s => kern l (rx s a) (rx s b) (rx s c)) t c0.
Proof.
  set (A := hat l (rx t a)). set (B := hat l (rx t b)). set (C := hat l (rx t c)). set (A' := hat' l (rx t a)). set (B' := hat' l (rx t b)). set (C' := hat' l (rx t c)).
  set (D := fun m1 m2 => cmul half_i (cmul (ci l m1 m2) (cadd (cadd (cmul (cmul (A' m1) (B m2)) (C (- m1 - m2)%Z)) (cmul (cmul (A m1) (B' m2)) (C (- m1 - m2)%Z))) (cmul (cmul (A m1) (B m2)) (C' (- m1 - m2)%Z))))).
  assert (T : forall m1 m2, cder (fun s => cmul (ci l m1 m2) (cmul (cmul (hat l (rx s a) m1) (hat l (rx s b) m2)) (hat l (rx s c) (- m1 - m2)%Z))) t (D m1 m2)).
  { intros m1 m2. assert (DEC : m_ok (Z.of_nat l) m1 m2 \/ ~ m_ok (Z.of_nat l) m1 m2) by (unfold m_ok; lia). destruct DEC as [M|M].
    - eapply cder_eq; [intros s; reflexivity| |eapply cder_mul; [apply cder_const|eapply cder_mul; [eapply cder_mul|]; apply hat_der; unfold m_ok in M; lia]]. cbv beta. unfold D. fold A B C A' B' C'. ring.
    - eapply cder_eq; [| |apply (cder_const c0)]; [intros s; cbv beta|unfold D]; rewrite ci_out by exact M; ring. }
  replace c0 with (S2 l D); [unfold kern, S2; apply (cder_sumZ (S l) (fun m1 s => sumZ (S l) (fun m2 => cmul (ci l m1 m2) (cmul (cmul (hat l (rx s a) m1) (hat l (rx s b) m2)) (hat l (rx s c) (- m1 - m2)%Z))))); intros m1;
    apply (cder_sumZ (S l) (fun m2 s => cmul (ci l m1 m2) (cmul (cmul (hat l (rx s a) m1) (hat l (rx s b) m2)) (hat l (rx s c) (- m1 - m2)%Z)))); intros m2; apply T|].
  assert (R := raise_cancel l A B C). assert (W := lower_cancel l A B C).
  transitivity (cmul half_i (cadd c0 c0)); [|ring]. rewrite <- R at 1. rewrite <- W. unfold D. rewrite S2_mul. f_equal. rewrite <- !S2_add. apply S2_ext. intros m1 m2.
  unfold A', B', C', hat'. fold A B C. ring.
Qed.
Lemma zero_der (f : R -> R) : (forall t, derivable_pt_lim f t 0) -> forall t, f t = f 0.
Proof.
  intros H t. assert (pr : derivable f) by (intros x; exists 0; apply H). apply (null_derivative_1 f pr). intros x. apply derive_pt_eq. apply H.
Qed.
Lemma kern_rx l t a b c : kern l (rx t a) (rx t b) (rx t c) = kern l a b c.
Proof.
  assert (R0 : forall v, rx 0 v = v) by (intros [x y z]; unfold rx; cbn [vx vy vz]; rewrite sin_0, cos_0; f_equal; ring).
  transitivity (kern l (rx 0 a) (rx 0 b) (rx 0 c)); [|rewrite !R0; reflexivity].
  assert (X := zero_der (fun s => fst (kern l (rx s a) (rx s b) (rx s c))) (fun s => proj1 (kern_der l a b c s)) t).
  assert (Y := zero_der (fun s => snd (kern l (rx s a) (rx s b) (rx s c))) (fun s => proj2 (kern_der l a b c s)) t). cbv beta in X, Y.
  destruct (kern l (rx t a) (rx t b) (rx t c)), (kern l (rx 0 a) (rx 0 b) (rx 0 c)). cbn [fst snd] in *. congruence.
Qed.
Lemma kern_terms l a b c a' b' c' g : (forall m1 m2, m_ok (Z.of_nat l) m1 m2 -> cmul (cmul (hat l a' m1) (hat l b' m2)) (hat l c' (- m1 - m2)%Z) = cmul g (cmul (cmul (hat l a m1) (hat l b m2)) (hat l c (- m1 - m2)%Z))) ->
  kern l a' b' c' = cmul g (kern l a b c).
Proof.
  intros H. unfold kern. rewrite <- S2_mul. apply S2_ext. intros m1 m2. assert (DEC : m_ok (Z.of_nat l) m1 m2 \/ ~ m_ok (Z.of_nat l) m1 m2) by (unfold m_ok; lia). destruct DEC as [M|M].
  - rewrite H by exact M. ring.
  - rewrite ci_out by exact M. ring.
Qed.
Lemma kern_rz l t a b c : kern l (rz t a) (rz t b) (rz t c) = kern l a b c.
Proof.
  rewrite (kern_terms l a b c _ _ _ cone); [ring|]. intros m1 m2 M. unfold m_ok in M. set (L := Z.of_nat l) in *. rewrite !hat_in by lia. fold L. rewrite !harm_rz by lia.
  set (h := expi (t / 2)). set (k1 := Z.to_nat (L + m1)). set (k2 := Z.to_nat (L + m2)). set (k3 := Z.to_nat (L + (- m1 - m2))).
  assert (U : cmul (cmul (cmul (cpow h k1) (cpow h k2)) (cpow h k3)) (cmul (cmul (cpow (cconj h) (2 * l - k1)) (cpow (cconj h) (2 * l - k2))) (cpow (cconj h) (2 * l - k3))) = cone).
  { rewrite <- !cpow_add. replace (k1 + k2 + k3)%nat with (3 * l)%nat by lia. replace (2 * l - k1 + (2 * l - k2) + (2 * l - k3))%nat with (3 * l)%nat by lia. rewrite <- cpow_cmul. unfold h. rewrite expi_unit. apply cpow_c1. }
  rewrite <- U. ring.
Qed.
Lemma kern_inv l a b c : kern l (vscale (-1) a) (vscale (-1) b) (vscale (-1) c) = cmul (cr ((-1) ^ l * (-1) ^ l * (-1) ^ l)) (kern l a b c).
Proof. apply kern_terms. intros m1 m2 M. unfold m_ok in M. rewrite !hat_in by lia. rewrite !harm_inv by lia. rewrite !cr_mul. ring. Qed.
Lemma hat_my l v m : hat l (my v) m = cconj (hat l v m).
Proof. unfold hat. destruct (_ && _)%bool; [rewrite cconj_mul, cconj_cr, harm_my; reflexivity|]. unfold cconj, c0; simpl; f_equal; ring. Qed.
Lemma kern_my l a b c : kern l (my a) (my b) (my c) = cconj (kern l a b c).
Proof.
  unfold kern, S2. rewrite sumZ_conj. apply sumZ_ext. intros m1 _. rewrite sumZ_conj. apply sumZ_ext. intros m2 _. rewrite !hat_my. unfold ci. rewrite !cconj_mul, cconj_cr. reflexivity.
Qed.
