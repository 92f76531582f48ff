(** Second-order invariants in terms of the angles between bonds. *)
From Verif Require Import RBase Vec SteinProofs SteinProofs2 SteinProofs3.
From Coq Require Import Permutation Reals ZArith List Lra Lia Bool.
From Verif Require Import HarmProofs SteinSpec CplxSum.
Import ListNotations.
Local Open Scope R_scope.
Add Ring cplx_ring_inst : cplx_ring.

Lemma cr_modulus z : cr (modulus2 z) = cmul z (cconj z).
Proof. destruct z as [a b]. unfold cr, modulus2, cmul, cconj; simpl. f_equal; ring. Qed.
Lemma csum_csuml {A} n (g : nat -> A -> cplx) l : csum n (fun k => csuml (g k) l) = csuml (fun x => csum n (fun k => g k x)) l.
Proof. induction l as [|x l IH]; simpl; [apply csum_zero; reflexivity|]. rewrite csum_add, IH. reflexivity. Qed.
Lemma csuml_mul_l {A} z (g : A -> cplx) l : csuml (fun x => cmul z (g x)) l = cmul z (csuml g l).
Proof. induction l as [|x l IH]; simpl; [ring|]. rewrite IH. ring. Qed.
Lemma csuml_mul_r {A} z (g : A -> cplx) l : csuml (fun x => cmul (g x) z) l = cmul (csuml g l) z.
Proof. induction l as [|x l IH]; simpl; [ring|]. rewrite IH. ring. Qed.
Lemma csuml_conj {A} (g : A -> cplx) l : cconj (csuml g l) = csuml (fun x => cconj (g x)) l.
Proof. induction l as [|x l IH]; simpl; [unfold cconj, c0; simpl; f_equal; ring|]. rewrite cconj_add, IH. reflexivity. Qed.
Lemma csuml_cr {A} (g : A -> R) l : csuml (fun x => cr (g x)) l = cr (rsuml g l).
Proof. induction l as [|x l IH]; simpl; [reflexivity|]. rewrite IH, cr_add. reflexivity. Qed.
Lemma rsuml_ext {A} (f g : A -> R) l : (forall x, In x l -> f x = g x) -> rsuml f l = rsuml g l.
Proof. induction l as [|x l IH]; simpl; intros H; auto. rewrite IH, H by auto. reflexivity. Qed.
Lemma rsuml_le {A} (f g : A -> R) l : (forall x, In x l -> f x <= g x) -> rsuml f l <= rsuml g l.
Proof. induction l as [|x l IH]; simpl; intros H; [lra|]. apply Rplus_le_compat; auto. Qed.
Lemma rsuml_scale {A} t (f : A -> R) l : rsuml (fun x => t * f x) l = t * rsuml f l.
Proof. induction l as [|x l IH]; simpl; [ring|]. rewrite IH. ring. Qed.
Lemma rsuml_perm {A} (f : A -> R) l l' : Permutation l l' -> rsuml f l = rsuml f l'.
Proof. induction 1; simpl; lra. Qed.

(** * Combinations of harmonics *)
Section comb.
Context {A : Type} (l : nat) (vec : A -> vec3).
Definition comb (T : list (R * A)) (k : nat) : cplx := csuml (fun t => cscale (fst t) (harm l k (bdir (vec (snd t))))) T.
Definition legs (T T' : list (R * A)) : R := rsuml (fun t => rsuml (fun u => fst t * fst u * legendre l (dot (bdir (vec (snd t))) (bdir (vec (snd u))))) T') T.
Lemma addition_unit a c : dot a a = 1 -> dot c c = 1 -> csum (2 * l + 1) (fun k => cmul (harm l k a) (cconj (harm l k c))) = cr (INR (2 * l + 1) / (4 * PI) * legendre l (dot a c)).
Proof. intros U1 U2. destruct (unit_sphere c U2) as (th & ph & ->). apply addition. exact U1. Qed.
Lemma comb_product T T' : csum (2 * l + 1) (fun k => cmul (comb T k) (cconj (comb T' k))) = cr (INR (2 * l + 1) / (4 * PI) * legs T T').
Proof.
  unfold comb. transitivity (csuml (fun t => csuml (fun u => csum (2 * l + 1) (fun k => cmul (cscale (fst t) (harm l k (bdir (vec (snd t))))) (cconj (cscale (fst u) (harm l k (bdir (vec (snd u)))))))) T') T).
  - rewrite (csuml_ext _ (fun t => csum (2 * l + 1) (fun k => csuml (fun u => cmul (cscale (fst t) (harm l k (bdir (vec (snd t))))) (cconj (cscale (fst u) (harm l k (bdir (vec (snd u))))))) T'))) by (intros t _; symmetry; apply csum_csuml).
    rewrite <- (csum_csuml (2 * l + 1) (fun k t => csuml (fun u => cmul (cscale (fst t) (harm l k (bdir (vec (snd t))))) (cconj (cscale (fst u) (harm l k (bdir (vec (snd u))))))) T')).
    apply csum_ext. intros k _. rewrite <- csuml_mul_r. apply csuml_ext. intros t _. rewrite csuml_conj, csuml_mul_l. reflexivity.
  - unfold legs. rewrite <- rsuml_scale, <- csuml_cr. apply csuml_ext. intros t _. rewrite <- rsuml_scale, <- csuml_cr. apply csuml_ext. intros u _.
    rewrite (csum_ext _ _ (fun k => cmul (cr (fst t * fst u)) (cmul (harm l k (bdir (vec (snd t)))) (cconj (harm l k (bdir (vec (snd u)))))))).
    + rewrite csum_mul, addition_unit, <- cr_mul by apply bdir_unit. f_equal. ring.
    + intros k _. rewrite cconj_scale, !cscale_cr, cr_mul. ring.
Qed.
Lemma comb_norm T : nsum (2 * l + 1) (fun k => modulus2 (comb T k)) = INR (2 * l + 1) / (4 * PI) * legs T T.
Proof.
  assert (H := comb_product T T). rewrite (csum_ext _ _ (fun k => cr (modulus2 (comb T k)))) in H by (intros k _; symmetry; apply cr_modulus).
  rewrite csum_nsum in H. injection H as H. exact H.
Qed.
Lemma comb_invariant T q : (forall k, (k < 2 * l + 1)%nat -> q k = comb T k) -> invariant l q = sqrt (legs T T).
Proof.
  intros H. unfold invariant. f_equal. rewrite (nsum_ext_lt _ _ (fun k => modulus2 (comb T k))) by (intros k Hk; rewrite H by exact Hk; reflexivity). rewrite comb_norm.
  assert (P := PI_RGT_0). assert (N : INR (2 * l + 1) <> 0) by (apply not_0_INR; lia). field. lra.
Qed.
Lemma legs_nonneg T : 0 <= legs T T.
Proof.
  assert (H := comb_norm T). assert (P := PI_RGT_0). assert (N : 0 < INR (2 * l + 1)) by (apply lt_0_INR; lia). assert (S := norm2_nonneg l (comb T)). rewrite H in S.
  assert (Q : 0 < INR (2 * l + 1) / (4 * PI)) by (apply Rdiv_lt_0_compat; lra). apply (Rmult_le_reg_l _ _ _ Q). lra.
Qed.
End comb.
(** * Legendre polynomials stay within [-1, 1] *)
Lemma legendre_bound l a c : dot a a = 1 -> dot c c = 1 -> -1 <= legendre l (dot a c) <= 1.
Proof.
  intros U1 U2. assert (B : forall u, dot u u = 1 -> bdir u = u).
  { intros u U. unfold bdir, len. rewrite U, sqrt_1. destruct (Req_EM_T 1 0); [lra|]. apply vec_eq; unfold vscale; simpl; field. }
  assert (S : dot c a = dot a c) by (unfold dot; ring).
  assert (P := legs_nonneg l (fun u : vec3 => u) [(1, a); (1, c)]). assert (M := legs_nonneg l (fun u : vec3 => u) [(1, a); (-1, c)]).
  unfold legs in P, M. cbn [rsuml fst snd] in P, M. rewrite !B, U1, U2, S, legendre_one in P by assumption. rewrite !B, U1, U2, S, legendre_one in M by assumption. lra.
Qed.
Lemma legendre_neg l x : legendre l (- x) = (-1) ^ l * legendre l x.
Proof.
  unfold legendre. assert (G : forall n, nsum n (fun q => if (2 * q <=? l)%nat then INR (fact l) / (INR (fact q) * INR (fact q) * INR (fact (l - 2 * q))) * (- x) ^ (l - 2 * q) * ((- x * - x - 1) / 4) ^ q else 0) =
    (-1) ^ l * nsum n (fun q => if (2 * q <=? l)%nat then INR (fact l) / (INR (fact q) * INR (fact q) * INR (fact (l - 2 * q))) * x ^ (l - 2 * q) * ((x * x - 1) / 4) ^ q else 0)); [|apply G].
  induction n as [|n IH]; cbn [nsum]; [ring|]. rewrite IH. destruct (Nat.leb_spec (2 * n) l) as [H|H]; [|ring].
  replace ((- x) ^ (l - 2 * n)) with ((-1) ^ l * x ^ (l - 2 * n)); [replace (- x * - x - 1) with (x * x - 1) by ring; ring|].
  replace (- x) with (-1 * x) by ring. rewrite Rpow_mult_distr. f_equal. replace l with (2 * n + (l - 2 * n))%nat at 1 by lia. rewrite pow_add, pow_mult. replace ((-1) ^ 2) with 1 by ring. rewrite pow1. ring.
Qed.
