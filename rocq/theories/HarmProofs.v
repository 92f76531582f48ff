(** The addition theorem for spherical harmonics. *)
From Verif Require Import HarmSpec.
From Coq Require Import Reals Lra Lia Arith.
Local Open Scope R_scope.
Add Ring cplx_ring_inst : cplx_ring.

Lemma cconj_neg z : cconj (cneg z) = cneg (cconj z). Proof. cplx. Qed.
Lemma cr_neg x : cr (- x) = cneg (cr x). Proof. cplx. Qed.
(** The sums are the coefficients of a binary form. *)
Definition quad (a b c X Y : cplx) : cplx := cadd (cadd (cmul a (cmul X X)) (cmul c (cmul X Y))) (cmul b (cmul Y Y)).
Definition vform (v : vec3) (X Y : cplx) : cplx := quad (raising v) (lowering v) (cr (vz v)) X Y.
Lemma form_coefficients l v X Y : csum (2 * l + 1) (fun k => cmul (harm_sum l k v) (cmul (cpow X k) (cpow Y (2 * l - k)))) = dp l (vform v X Y).
Proof.
  unfold harm_sum. rewrite (csum_ext _ _ (fun k => csum (S l) (fun p => csum (S (l - p)) (fun q => if (k =? p + l - q)%nat then
    cmul (cmul (cmul (dp p (raising v)) (dp q (lowering v))) (dp (l - p - q) (cr (vz v)))) (cmul (cpow X k) (cpow Y (2 * l - k))) else c0)))).
  - rewrite csum_swap. unfold vform, quad. rewrite dp_add3. apply csum_ext. intros p Hp. rewrite csum_swap. apply csum_ext. intros q Hq.
    rewrite csum_single by lia. rewrite !dp_mul, !cpow_cmul.
    replace (p + l - q)%nat with (p + p + (l - p - q))%nat by lia. replace (2 * l - (p + p + (l - p - q)))%nat with (q + q + (l - p - q))%nat by lia. rewrite !cpow_add. ring.
  - intros k _. rewrite <- csum_mul_r. apply csum_ext. intros p _. rewrite <- csum_mul_r. apply csum_ext. intros q _. destruct (k =? p + l - q)%nat; ring.
Qed.

(** The form of a direction is a product of two linear forms. *)
Section direction.
Variables theta phi : R.
Let c := cr (cos (theta / 2)).
Let s := cr (sin (theta / 2)).
Let h := expi (phi / 2).
Let h' := cconj h.
Definition lin1 (X Y : cplx) := cadd (cmul (cmul c h) X) (cmul (cmul s h') Y).
Definition lin2 (X Y : cplx) := cadd (cmul (cneg (cmul s h)) X) (cmul (cmul c h') Y).
Lemma sph_x : vx (sphere theta phi) = 2 * (sin (theta / 2) * cos (theta / 2)) * cos phi.
Proof. unfold sphere; simpl. replace theta with (2 * (theta / 2)) at 1 by lra. rewrite sin_2a. ring. Qed.
Lemma sph_y : vy (sphere theta phi) = 2 * (sin (theta / 2) * cos (theta / 2)) * sin phi.
Proof. unfold sphere; simpl. replace theta with (2 * (theta / 2)) at 1 by lra. rewrite sin_2a. ring. Qed.
Lemma sph_z : vz (sphere theta phi) = cos (theta / 2) * cos (theta / 2) - sin (theta / 2) * sin (theta / 2).
Proof. unfold sphere; simpl. replace theta with (2 * (theta / 2)) at 1 by lra. rewrite cos_2a. reflexivity. Qed.
Lemma h_sq : cmul h h = expi phi. Proof. unfold h. rewrite expi_add. f_equal. lra. Qed.
Lemma h_unit : cmul h h' = cone. Proof. unfold h', h. apply expi_unit. Qed.
Lemma sph_raise : raising (sphere theta phi) = cneg (cmul (cmul s c) (cmul h h)).
Proof. rewrite h_sq. unfold raising. rewrite sph_x, sph_y. unfold cneg, cmul, s, c, cr, expi; simpl. f_equal; field. Qed.
Lemma sph_lower : lowering (sphere theta phi) = cmul (cmul s c) (cmul h' h').
Proof. unfold h'. rewrite <- cconj_mul, h_sq. unfold lowering. rewrite sph_x, sph_y. unfold cconj, cmul, s, c, cr, expi; simpl. f_equal; field. Qed.
Lemma sph_zz : cr (vz (sphere theta phi)) = csub (cmul c c) (cmul s s).
Proof. rewrite sph_z. unfold csub, cadd, cneg, cmul, s, c, cr; simpl. f_equal; ring. Qed.
Lemma form_split X Y : vform (sphere theta phi) X Y = cmul (lin1 X Y) (lin2 X Y).
Proof.
  unfold vform, quad, lin1, lin2. rewrite sph_raise, sph_lower, sph_zz.
  transitivity (cadd (cadd (cmul (cneg (cmul (cmul s c) (cmul h h))) (cmul X X)) (cmul (cmul (csub (cmul c c) (cmul s s)) (cmul h h')) (cmul X Y))) (cmul (cmul (cmul s c) (cmul h' h')) (cmul Y Y))); [rewrite h_unit; ring|ring].
Qed.
(** coefficients of lin1 + w lin2 *)
Definition spin1 (w : cplx) : cplx := cmul h (csub c (cmul w s)).
Definition spin2 (w : cplx) : cplx := cmul h' (cadd s (cmul w c)).
Lemma spin_form w X Y : cadd (lin1 X Y) (cmul w (lin2 X Y)) = cadd (cmul (spin1 w) X) (cmul (spin2 w) Y).
Proof. unfold lin1, lin2, spin1, spin2. ring. Qed.

Lemma product_average l X Y : let N := (2 * l + 1)%nat in
  cmul (cr (INR N)) (cmul (dp l (lin1 X Y)) (dp l (lin2 X Y))) =
  csum N (fun j => let w := cpow (root N) j in cmul (cpow (cconj w) l) (csum N (fun k => cmul (dp k (cmul (spin1 w) X)) (dp (2 * l - k) (cmul (spin2 w) Y))))).
Proof.
  intros N. cbv zeta. rewrite (csum_ext N _ (fun j => csum N (fun r => cmul (cmul (dp (2 * l - r) (lin1 X Y)) (dp r (lin2 X Y))) (cmul (cpow (cconj (cpow (root N) j)) l) (cpow (cpow (root N) j) r))))).
  - rewrite csum_swap. rewrite (csum_ext N _ (fun r => if (r =? l)%nat then cmul (cr (INR N)) (cmul (dp (2 * l - r) (lin1 X Y)) (dp r (lin2 X Y))) else c0)).
    + rewrite csum_single by (unfold N; lia). replace (2 * l - l)%nat with l by lia. reflexivity.
    + intros r Hr. rewrite csum_mul, root_orth by (unfold N in *; lia). rewrite (Nat.eqb_sym l r). destruct (r =? l)%nat; ring.
  - intros j _. set (w := cpow (root N) j). replace N with (S (2 * l)) by (unfold N; lia). rewrite <- (dp_add (2 * l) (cmul (spin1 w) X) (cmul (spin2 w) Y)), <- spin_form.
    replace (cadd (lin1 X Y) (cmul w (lin2 X Y))) with (cadd (cmul (lin2 X Y) w) (lin1 X Y)) by ring. rewrite dp_add, <- csum_mul. apply csum_ext. intros r _. rewrite dp_mul. ring.
Qed.
(** hence a formula for the coefficients *)
Lemma coefficient_average l k : let N := (2 * l + 1)%nat in (k < N)%nat ->
  cmul (cr (INR N)) (cmul (cr (INR (fact k) * INR (fact (2 * l - k)))) (harm_sum l k (sphere theta phi))) =
  cmul (cr (INR (fact l))) (csum N (fun j => let w := cpow (root N) j in cmul (cpow (cconj w) l) (cmul (cpow (spin1 w) k) (cpow (spin2 w) (2 * l - k))))).
Proof.
  intros N Hk. cbv zeta.
  set (D := fun k => cr (/ (INR (fact k) * INR (fact (2 * l - k))))).
  assert (E : cmul (cr (INR N)) (harm_sum l k (sphere theta phi)) =
    cmul (cr (INR (fact l))) (cmul (D k) (csum N (fun j => cmul (cpow (cconj (cpow (root N) j)) l) (cmul (cpow (spin1 (cpow (root N) j)) k) (cpow (spin2 (cpow (root N) j)) (2 * l - k))))))).
  { revert k Hk. apply coef_unique. intros i Hi. set (X := cpow (root N) i).
    assert (F := form_coefficients l (sphere theta phi) X cone). fold N in F.
    rewrite (csum_ext N _ (fun k => cmul (cr (INR N)) (cmul (harm_sum l k (sphere theta phi)) (cmul (cpow X k) (cpow cone (2 * l - k)))))) by (intros k Hk; rewrite cpow_c1; ring).
    rewrite csum_mul, F, form_split.
    assert (M : dp l (cmul (lin1 X cone) (lin2 X cone)) = cmul (cr (INR (fact l))) (cmul (dp l (lin1 X cone)) (dp l (lin2 X cone)))).
    { rewrite dp_mul, <- (dp_fact l (lin2 X cone)). ring. }
    rewrite M. replace (cmul (cr (INR N)) (cmul (cr (INR (fact l))) (cmul (dp l (lin1 X cone)) (dp l (lin2 X cone))))) with (cmul (cr (INR (fact l))) (cmul (cr (INR N)) (cmul (dp l (lin1 X cone)) (dp l (lin2 X cone))))) by ring.
    assert (PA := product_average l X cone). cbv zeta in PA. fold N in PA. rewrite PA.
    rewrite (csum_ext N (fun k => cmul (cmul (cr (INR (fact l))) _) _) (fun k => cmul (cr (INR (fact l))) (csum N (fun j => cmul (cmul (D k) (cpow X k)) (cmul (cpow (cconj (cpow (root N) j)) l) (cmul (cpow (spin1 (cpow (root N) j)) k) (cpow (spin2 (cpow (root N) j)) (2 * l - k)))))))) by (intros k Hk; rewrite csum_mul; ring).
    rewrite csum_mul. f_equal. rewrite csum_swap. apply csum_ext. intros j Hj. rewrite <- csum_mul. apply csum_ext. intros k Hk. rewrite !dp_mul, cpow_c1. unfold dp, D. rewrite !cscale_cr.
    rewrite Rinv_mult, cr_mul. ring. }
  replace (cmul (cr (INR N)) (cmul (cr (INR (fact k) * INR (fact (2 * l - k)))) (harm_sum l k (sphere theta phi)))) with (cmul (cr (INR (fact k) * INR (fact (2 * l - k)))) (cmul (cr (INR N)) (harm_sum l k (sphere theta phi)))) by ring.
  rewrite E. unfold D. assert (P := fact_pos k). assert (Q := fact_pos (2 * l - k)). set (f := INR (fact k) * INR (fact (2 * l - k))). assert (f <> 0) by (unfold f; apply Rmult_integral_contrapositive; split; lra).
  set (Z := csum N _). transitivity (cmul (cmul (cr f) (cr (/ f))) (cmul (cr (INR (fact l))) Z)); [ring|]. rewrite <- cr_mul, Rinv_r, cr_1 by assumption. ring.
Qed.

(** The value of another vector's form at the conjugate spinor. *)
Variable a : vec3.
Definition spread : cplx := let u := cmul (vx a, vy a) (cmul h' h') in
  cadd (cadd (cmul (cr (- / 2)) (cmul (cmul c c) u)) (cmul (cmul s c) (cr (vz a)))) (cmul (cr (/ 2)) (cmul (cmul s s) (cconj u))).
Lemma form_at_spin w : cmul w (cconj w) = cone ->
  cmul w (vform a (cconj (spin1 w)) (cconj (spin2 w))) = cadd (cadd (cmul spread w) (cr (dot a (sphere theta phi)))) (cmul (cneg (cconj spread)) (cconj w)).
Proof.
  intros W. set (v := cconj w) in *. unfold spin1, spin2. assert (C1 : cconj c = c) by apply cconj_cr. assert (S1 : cconj s = s) by apply cconj_cr.
  assert (H1 : cconj h' = h) by apply cconj_conj. unfold csub. rewrite !cconj_mul, !cconj_add, !cconj_mul. fold h'. rewrite H1, C1, S1.
  assert (N1 : cconj (cneg (cmul w s)) = cneg (cmul v s)) by (rewrite cconj_neg, cconj_mul, S1; reflexivity). rewrite N1. fold v.
  set (u := (vx a, vy a) : cplx). assert (R1 : raising a = cmul (cr (- / 2)) u) by (unfold raising, u, cr, cmul; simpl; f_equal; field). assert (L1 : lowering a = cmul (cr (/ 2)) (cconj u)) by (unfold lowering, u, cr, cmul, cconj; simpl; f_equal; field).
  assert (Sp : cconj spread = cadd (cadd (cmul (cr (- / 2)) (cmul (cmul c c) (cmul (cconj u) (cmul h h)))) (cmul (cmul s c) (cr (vz a)))) (cmul (cr (/ 2)) (cmul (cmul s s) (cmul u (cmul h' h'))))).
  { unfold spread. fold u. rewrite !cconj_add, !cconj_mul, !cconj_cr, !cconj_conj, !C1, !S1, !H1. reflexivity. }
  assert (Dt : cr (dot a (sphere theta phi)) = cadd (cmul (cmul s c) (cadd (cmul u (cmul h' h')) (cmul (cconj u) (cmul h h)))) (cmul (cr (vz a)) (csub (cmul c c) (cmul s s)))).
  { unfold h'. rewrite <- (cconj_mul h h), h_sq. unfold dot. rewrite sph_x, sph_y, sph_z. unfold u, s, c, expi, cr, csub, cneg, cadd, cmul, cconj; simpl. f_equal; ring. }
  unfold vform, quad. rewrite R1, L1, Sp, Dt. unfold spread. fold u. rewrite cconj_mul, (cconj_mul h' h'), H1.
  rewrite !(cr_neg (/ 2)). set (k2 := cr (/ 2)) in *. assert (K2 : cadd k2 k2 = cone) by (unfold k2, cadd, cr, cone; simpl; f_equal; field).
  (* both sides as polynomials, using w v = 1 and h h' = 1 *)
  set (U := cmul u (cmul h' h')). set (U' := cmul (cconj u) (cmul h h)). set (z := cr (vz a)).
  transitivity (cadd (cadd (cmul (cneg k2) (cmul U (cadd (cadd (cmul (cmul c c) w) (cneg (cadd (cmul (cmul s c) (cmul w v)) (cmul (cmul s c) (cmul w v))))) (cmul (cmul s s) (cmul v (cmul w v))))))
      (cmul z (cmul (cmul h h') (cadd (cadd (cmul (cmul s c) w) (cmul (csub (cmul c c) (cmul s s)) (cmul w v))) (cneg (cmul (cmul s c) (cmul v (cmul w v))))))))
      (cmul k2 (cmul U' (cadd (cadd (cmul (cmul s s) w) (cadd (cmul (cmul s c) (cmul w v)) (cmul (cmul s c) (cmul w v)))) (cmul (cmul c c) (cmul v (cmul w v))))))).
  { unfold U, U', z. ring. }
  rewrite W, h_unit. transitivity (cadd (cadd (cmul (cadd (cadd (cmul (cneg k2) (cmul (cmul c c) U)) (cmul (cmul s c) z)) (cmul k2 (cmul (cmul s s) U'))) w)
     (cadd (cmul (cadd k2 k2) (cmul (cmul s c) (cadd U U'))) (cmul z (csub (cmul c c) (cmul s s)))))
     (cmul (cneg (cadd (cadd (cmul (cneg k2) (cmul (cmul c c) U')) (cmul (cmul s c) z)) (cmul k2 (cmul (cmul s s) U)))) v)); [ring|].
  rewrite K2. replace (cmul (cconj u) (cmul h h)) with U' by reflexivity. replace (cmul u (cmul h' h')) with U by reflexivity. ring.
Qed.
Lemma spread_mod : modulus2 spread = (dot a a - dot a (sphere theta phi) * dot a (sphere theta phi)) / 4.
Proof.
  unfold spread. assert (HH : cmul h' h' = cconj (expi phi)) by (unfold h'; rewrite <- cconj_mul, h_sq; reflexivity). rewrite HH. unfold dot. rewrite sph_x, sph_y, sph_z.
  assert (E1 : sin phi * sin phi = 1 - cos phi * cos phi) by (pose proof (sin2_cos2 phi) as X; unfold Rsqr in X; lra).
  assert (E2 : sin (theta / 2) * sin (theta / 2) = 1 - cos (theta / 2) * cos (theta / 2)) by (pose proof (sin2_cos2 (theta / 2)) as X; unfold Rsqr in X; lra).
  unfold modulus2, c, s, expi, cr, cadd, cmul, cconj; simpl.
  set (C := cos (theta / 2)) in *. set (S := sin (theta / 2)) in *. set (p := cos phi) in *. set (q := sin phi) in *. set (x := vx a). set (y := vy a). set (z := vz a). clearbody C S p q x y z. clear HH. clear c s h h'.
  (* U = r + i t with r = x p + y q, t = y p - x q *)
  set (r := x * p + y * q). set (t := y * p - x * q). assert (RT : r * r + t * t = x * x + y * y) by (unfold r, t; replace (x * x + y * y) with ((x * x + y * y) * (p * p + q * q)) by (rewrite E1; ring); ring).
  transitivity ((S * C * z - (C * C - S * S) * r / 2) * (S * C * z - (C * C - S * S) * r / 2) + (C * C + S * S) * (C * C + S * S) * (t * t) / 4); [unfold r, t; field|].
  transitivity (((r * r + t * t) + z * z - (2 * (S * C) * r + z * (C * C - S * S)) * (2 * (S * C) * r + z * (C * C - S * S))) / 4); [|rewrite RT; unfold r; field].
  assert (E3 : C * C = 1 - S * S) by lra. assert (E4 : (C * C + S * S) = 1) by lra. rewrite E4.
  transitivity ((S * S * (C * C) * (z * z) - S * C * z * (C * C - S * S) * r + (C * C - S * S) * (C * C - S * S) * (r * r) / 4) + t * t / 4); [field|].
  transitivity (((r * r) * (1 - 4 * (S * S * (C * C))) + t * t + z * z * (1 - (C * C - S * S) * (C * C - S * S)) - 4 * (S * C) * r * z * (C * C - S * S)) / 4); [rewrite E3; field|field].
Qed.
End direction.

(** * The addition theorem *)
Lemma csum_nsum n f : csum n (fun k => cr (f k)) = cr (nsum n f).
Proof. induction n as [|n IH]; simpl; [reflexivity|]. rewrite IH, cr_add. reflexivity. Qed.
Definition legendre3 (l : nat) (x s : R) : R :=
  nsum (S l) (fun q => if (2 * q <=? l)%nat then INR (fact l) / (INR (fact q) * INR (fact q) * INR (fact (l - 2 * q))) * x ^ (l - 2 * q) * (- s) ^ q else 0).
Lemma power_average l (x : R) (B : cplx) : let N := (2 * l + 1)%nat in
  csum N (fun j => let w := cpow (root N) j in cpow (cadd (cadd (cmul B w) (cr x)) (cmul (cneg (cconj B)) (cconj w))) l) = cmul (cr (INR N)) (cr (legendre3 l x (modulus2 B))).
Proof.
  intros N. cbv zeta.
  rewrite (csum_ext N _ (fun j => csum (S l) (fun p => csum (S (l - p)) (fun q => cmul (cmul (cr (INR (fact l))) (cmul (cmul (dp p B) (dp q (cneg (cconj B)))) (dp (l - p - q) (cr x)))) (cmul (cpow (cconj (cpow (root N) j)) q) (cpow (cpow (root N) j) p)))))).
  - rewrite csum_swap. unfold legendre3. rewrite <- csum_nsum, <- csum_mul. apply csum_ext.
    intros p Hp. rewrite csum_swap. rewrite (csum_ext _ _ (fun q => if (q =? p)%nat then cmul (cmul (cr (INR (fact l))) (cmul (cmul (dp p B) (dp q (cneg (cconj B)))) (dp (l - p - q) (cr x)))) (cr (INR N)) else c0)).
    2:{ intros q Hq. rewrite csum_mul, root_orth by (unfold N; lia). destruct (q =? p)%nat; ring. }
    destruct (Nat.leb_spec (2 * p) l) as [L|L].
    + rewrite csum_single by lia. replace (l - p - p)%nat with (l - 2 * p)%nat by lia.  unfold dp. rewrite !cscale_cr, cpow_cr.
        assert (M : cmul (cpow B p) (cpow (cneg (cconj B)) p) = cr ((- modulus2 B) ^ p)).
        { rewrite <- cpow_cmul. replace (cmul B (cneg (cconj B))) with (cneg (cmul B (cconj B))) by ring. rewrite cmul_conj. replace (cneg (cr (modulus2 B))) with (cr (- modulus2 B)) by (unfold cneg, cr; simpl; f_equal; ring). apply cpow_cr. }
        replace (INR (fact l) / (INR (fact p) * INR (fact p) * INR (fact (l - 2 * p))) * x ^ (l - 2 * p) * (- modulus2 B) ^ p) with (INR (fact l) * (/ INR (fact p) * (/ INR (fact p) * (/ INR (fact (l - 2 * p)) * (x ^ (l - 2 * p) * (- modulus2 B) ^ p))))).
        2:{ assert (P1 := fact_pos p). assert (P2 := fact_pos (l - 2 * p)). field. split; lra. }
        rewrite !cr_mul, <- M. ring.
    + rewrite csum_zero; [rewrite cr_0; ring|]. intros q Hq. destruct (Nat.eqb_spec q p); [lia|reflexivity].
  - intros j _. rewrite <- (dp_fact l), dp_add3, <- csum_mul. apply csum_ext. intros p _. rewrite <- csum_mul. apply csum_ext. intros q _. rewrite !dp_mul. ring.
Qed.

Lemma harm_kernel l a theta phi :
  csum (2 * l + 1) (fun k => cmul (cr (INR (fact k) * INR (fact (2 * l - k)))) (cmul (harm_sum l k a) (cconj (harm_sum l k (sphere theta phi))))) =
  cr (legendre3 l (dot a (sphere theta phi)) ((dot a a - dot a (sphere theta phi) * dot a (sphere theta phi)) / 4)).
Proof.
  set (N := (2 * l + 1)%nat). assert (N0 : INR N <> 0) by (apply not_0_INR; unfold N; lia). apply (cr_cancel (INR N)); [exact N0|]. rewrite <- (spread_mod theta phi a).
  assert (PA := power_average l (dot a (sphere theta phi)) (spread theta phi a)). cbv zeta in PA. fold N in PA. rewrite <- PA. clear PA.
  rewrite <- csum_mul.
  rewrite (csum_ext N _ (fun k => csum N (fun j => let w := cpow (root N) j in cmul (cmul (cr (INR (fact l))) (cpow w l)) (cmul (harm_sum l k a) (cmul (cpow (cconj (spin1 theta phi w)) k) (cpow (cconj (spin2 theta phi w)) (2 * l - k))))))).
  - rewrite csum_swap. apply csum_ext. intros j Hj. cbv zeta. set (w := cpow (root N) j).
    assert (W : cmul w (cconj w) = cone) by (unfold w; rewrite cpow_conj, <- cpow_cmul; replace (cmul (root N) (cconj (root N))) with (cmul (cconj (root N)) (root N)) by ring; rewrite root_unit; apply cpow_c1).
    rewrite <- (form_at_spin theta phi a w W). rewrite csum_mul. unfold N. rewrite form_coefficients. rewrite cpow_cmul.
    replace (cmul (cmul (cr (INR (fact l))) (cpow w l)) (dp l (vform a (cconj (spin1 theta phi w)) (cconj (spin2 theta phi w))))) with (cmul (cpow w l) (cmul (cr (INR (fact l))) (dp l (vform a (cconj (spin1 theta phi w)) (cconj (spin2 theta phi w)))))) by ring. rewrite dp_fact. reflexivity.
  - intros k Hk. assert (CA := coefficient_average theta phi l k). cbv zeta in CA. fold N in CA. specialize (CA Hk). apply (f_equal cconj) in CA. rewrite !cconj_mul, !cconj_cr, csum_conj in CA.
    transitivity (cmul (harm_sum l k a) (cmul (cr (INR N)) (cmul (cr (INR (fact k) * INR (fact (2 * l - k)))) (cconj (harm_sum l k (sphere theta phi)))))); [ring|]. rewrite CA, <- !csum_mul. apply csum_ext. intros j _. cbv zeta.
    rewrite !cconj_mul, !cpow_conj, cconj_conj. ring.
Qed.
Lemma nsum_ext n f g : (forall k, f k = g k) -> nsum n f = nsum n g.
Proof. intros H. induction n as [|n IH]; simpl; auto. rewrite IH, H. reflexivity. Qed.
Lemma legendre3_unit l x : legendre3 l x ((1 - x * x) / 4) = legendre l x.
Proof. unfold legendre3, legendre. apply nsum_ext. intros q. destruct (2 * q <=? l)%nat; [|reflexivity]. replace (- ((1 - x * x) / 4)) with ((x * x - 1) / 4) by field. reflexivity. Qed.
(** Sum over m of Y_lm(a) conj(Y_lm(b)) = (2l+1)/(4 pi) P_l(a.b) for unit vectors. *)
Lemma addition l a theta phi : dot a a = 1 ->
  csum (2 * l + 1) (fun k => cmul (harm l k a) (cconj (harm l k (sphere theta phi)))) = cr (INR (2 * l + 1) / (4 * PI) * legendre l (dot a (sphere theta phi))).
Proof.
  intros U. rewrite <- legendre3_unit. assert (K := harm_kernel l a theta phi). rewrite U in K. rewrite cr_mul, <- K, <- csum_mul. apply csum_ext. intros k _. unfold harm. rewrite cconj_scale, !cscale_cr.
  set (g := INR (fact k) * INR (fact (2 * l - k))). set (f := INR (2 * l + 1) / (4 * PI)).
  assert (G : 0 <= f * g).
  { assert (P := PI_RGT_0). assert (0 < g) by (apply Rmult_lt_0_compat; apply fact_pos). assert (0 <= f) by (unfold f; apply Rmult_le_pos; [apply pos_INR|left; apply Rinv_0_lt_compat; lra]). apply Rmult_le_pos; lra. }
  transitivity (cmul (cr (sqrt (f * g) * sqrt (f * g))) (cmul (harm_sum l k a) (cconj (harm_sum l k (sphere theta phi))))); [rewrite cr_mul; ring|]. rewrite sqrt_sqrt by exact G. rewrite cr_mul. ring.
Qed.
Lemma legendre_one l : legendre l 1 = 1.
Proof.
  unfold legendre. assert (F : forall n, nsum (S n) (fun q => if (2 * q <=? l)%nat then INR (fact l) / (INR (fact q) * INR (fact q) * INR (fact (l - 2 * q))) * 1 ^ (l - 2 * q) * ((1 * 1 - 1) / 4) ^ q else 0) = 1); [|apply F].
  induction n as [|n IH].
  - simpl. rewrite Nat.sub_0_r, pow1. assert (P := fact_pos l). field. lra.
  - change (nsum (S (S n)) ?f) with (nsum (S n) f + f (S n)). rewrite IH. destruct (2 * S n <=? l)%nat; [|ring]. replace ((1 * 1 - 1) / 4) with 0 by field. cbn [pow]. ring.
Qed.
