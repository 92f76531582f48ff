(** Third-order sums depend only on the lengths and angles of the bond vectors. *)
From Coq Require Import Permutation Reals ZArith List Lra Lia Bool.
From Verif Require Import RBase Vec HarmProofs SteinProofs SteinProofs2 SteinProofs3 SteinProofs5 SteinProps SteinSpec WignerProofs WignerProofs2 WignerRot WignerRot2 WignerRot3 WignerModel WignerSpec CplxSum.
Import ListNotations.
Local Open Scope R_scope.
Add Ring cplx_ring_inst : cplx_ring.

(** ** Compositions of rotations about x and z *)
Inductive turn : (vec3 -> vec3) -> Prop := turn_x t : turn (rx t) | turn_z t : turn (rz t) | turn_two f g : turn f -> turn g -> turn (fun v => f (g v)).
Lemma trig1 t : cos t * cos t + sin t * sin t = 1. Proof. assert (H := sin2_cos2 t). unfold Rsqr in H. lra. Qed.
Lemma turn_dot f : turn f -> forall u v, dot (f u) (f v) = dot u v.
Proof.
  induction 1 as [t|t|f g Hf IHf Hg IHg]; intros u v.
  - unfold dot, rx; cbn [vx vy vz]. assert (T := trig1 t). set (c := cos t) in *. set (s := sin t) in *. transitivity (vx u * vx v + (c * c + s * s) * (vy u * vy v + vz u * vz v)); [ring|]. rewrite T. ring.
  - unfold dot, rz; cbn [vx vy vz]. assert (T := trig1 t). set (c := cos t) in *. set (s := sin t) in *. transitivity ((c * c + s * s) * (vx u * vx v + vy u * vy v) + vz u * vz v); [ring|]. rewrite T. ring.
  - rewrite IHf. apply IHg.
Qed.
Lemma turn_kern l f : turn f -> forall a b c, kern l (f a) (f b) (f c) = kern l a b c.
Proof. induction 1 as [t|t|f g Hf IHf Hg IHg]; intros a b c; [apply kern_rx|apply kern_rz|]. rewrite IHf. apply IHg. Qed.
Lemma angle c s : c * c + s * s = 1 -> exists t, cos t = c /\ sin t = s.
Proof.
  intros H. destruct (unit_sphere (V3 c s 0)) as (th & ph & E); [unfold dot; cbn [vx vy vz]; lra|]. unfold sphere in E. injection E as E1 E2 E3. assert (T := trig1 th). rewrite <- E3 in T.
  assert (D : sin th = 1 \/ sin th = -1) by (assert ((sin th - 1) * (sin th + 1) = 0) as P by lra; apply Rmult_integral in P as [P|P]; [left|right]; lra).
  destruct D as [D|D]; rewrite D in E1, E2.
  - exists ph. lra.
  - exists (ph + PI). rewrite neg_cos, neg_sin. lra.
Qed.
Lemma planar x y : exists t, x * sin t + y * cos t = 0 /\ 0 <= x * cos t - y * sin t.
Proof.
  set (r := sqrt (x * x + y * y)). assert (R2 : r * r = x * x + y * y) by (apply sqrt_sqrt; nra). assert (R0 : 0 <= r) by apply sqrt_pos. destruct (Req_dec r 0) as [Z|Z].
  - assert (x = 0) by nra. assert (y = 0) by nra. exists 0. subst. rewrite sin_0, cos_0. lra.
  - destruct (angle (x / r) (- y / r)) as (t & C & S); [replace (x / r * (x / r) + - y / r * (- y / r)) with ((x * x + y * y) / (r * r)) by (field; exact Z); rewrite R2; field; rewrite <- R2; nra|].
    exists t. rewrite C, S. split; [field; exact Z|]. replace (x * (x / r) - y * (- y / r)) with ((x * x + y * y) / r) by (field; exact Z). rewrite <- R2. replace (r * r / r) with r by (field; exact Z). exact R0.
Qed.
Lemma planar' x y : exists t, x * cos t - y * sin t = 0 /\ 0 <= x * sin t + y * cos t.
Proof. destruct (planar y (- x)) as (t & A & B). exists t. lra. Qed.
Definition ez : vec3 := V3 0 0 1.
Lemma to_axis a : dot a a = 1 -> exists f, turn f /\ f a = ez.
Proof.
  intros U. destruct (planar' (vx a) (vy a)) as (s & A & _). set (a1 := rz s a). assert (X1 : vx a1 = 0) by exact A.
  destruct (planar' (vy a1) (vz a1)) as (t & B & P). set (a2 := rx t a1). assert (X2 : vx a2 = 0) by exact X1. assert (Y2 : vy a2 = 0) by exact B. assert (Z2 : 0 <= vz a2) by exact P.
  assert (T : turn (fun v => rx t (rz s v))) by (apply (turn_two (rx t) (rz s)); constructor). exists (fun v => rx t (rz s v)). split; [exact T|].
  assert (D := turn_dot _ T a a). cbv beta in D. fold a1 a2 in D. rewrite U in D. unfold dot in D. rewrite X2, Y2 in D. fold a1 a2. destruct a2 as [x y z]. cbn [vx vy vz] in *. unfold ez. subst. f_equal. nra.
Qed.
Lemma rz_ez t : rz t ez = ez. Proof. unfold rz, ez; cbn [vx vy vz]. f_equal; ring. Qed.
Lemma to_canonical a b c : dot a a = 1 -> exists f, turn f /\ f a = ez /\ vy (f b) = 0 /\ 0 <= vx (f b) /\ (vx (f b) = 0 -> vy (f c) = 0 /\ 0 <= vx (f c)).
Proof.
  intros U. destruct (to_axis a U) as (f & Tf & A). destruct (planar (vx (f b)) (vy (f b))) as (s & B1 & B2).
  assert (T1 : turn (fun v => rz s (f v))) by (apply (turn_two (rz s) f); [constructor|exact Tf]).
  destruct (Req_dec (vx (rz s (f b))) 0) as [Z|Z].
  - destruct (planar (vx (rz s (f c))) (vy (rz s (f c)))) as (t & C1 & C2). exists (fun v => rz t (rz s (f v))).
    split; [apply (turn_two (rz t) (fun v => rz s (f v))); [constructor|exact T1]|]. split; [rewrite A, !rz_ez; reflexivity|].
    assert (Y : vy (rz s (f b)) = 0) by exact B1. assert (X' : vx (rz t (rz s (f b))) = 0) by (unfold rz at 1; cbn [vx]; rewrite Z, Y; ring).
    assert (Y' : vy (rz t (rz s (f b))) = 0) by (unfold rz at 1; cbn [vy]; rewrite Z, Y; ring). split; [exact Y'|]. split; [rewrite X'; lra|]. intros _. split; [exact C1|exact C2].
  - exists (fun v => rz s (f v)). split; [exact T1|]. split; [rewrite A, rz_ez; reflexivity|]. split; [exact B1|]. split; [exact B2|]. intros X. contradiction.
Qed.
Lemma my_turn v : my v = vscale (-1) (rz PI (rx PI v)).
Proof. destruct v as [x y z]. unfold my, vscale, rz, rx; cbn [vx vy vz]. rewrite cos_PI, sin_PI. f_equal; ring. Qed.
Lemma kern_mirror l a b c : Nat.even l = true -> kern l (my a) (my b) (my c) = kern l a b c.
Proof.
  intros E. rewrite !my_turn, kern_inv. rewrite (turn_kern l (fun v => rz PI (rx PI v))) by (apply (turn_two (rz PI) (rx PI)); constructor).
  apply Nat.even_spec in E as (k & ->). rewrite pow_1_even. replace (1 * 1 * 1) with 1 by ring. rewrite cr_1. ring.
Qed.
Lemma kern_real l a b c : Nat.even l = true -> snd (kern l a b c) = 0.
Proof. intros E. assert (H := kern_my l a b c). rewrite kern_mirror in H by exact E. destruct (kern l a b c) as [x y]. unfold cconj in H; cbn [fst snd] in *. injection H as H. lra. Qed.
Lemma sq_eq x y : 0 <= x -> 0 <= y -> x * x = y * y -> x = y. Proof. intros. nra. Qed.
(** Three directions with the same angles between them. *)
Lemma kern_congruent l a b c a' b' c' : Nat.even l = true -> dot a a = 1 -> dot b b = 1 -> dot c c = 1 -> dot a' a' = 1 -> dot b' b' = 1 -> dot c' c' = 1 ->
  dot a b = dot a' b' -> dot a c = dot a' c' -> dot b c = dot b' c' -> kern l a b c = kern l a' b' c'.
Proof.
  intros E A B C A' B' C' AB AC BC. destruct (to_canonical a b c A) as (f & T & F1 & F2 & F3 & F4). destruct (to_canonical a' b' c' A') as (f' & T' & G1 & G2 & G3 & G4).
  rewrite <- (turn_kern l f T a b c), <- (turn_kern l f' T' a' b' c'). rewrite F1, G1.
  assert (B1 := turn_dot f T b b). assert (B1' := turn_dot f' T' b' b'). assert (C1 := turn_dot f T c c). assert (C1' := turn_dot f' T' c' c'). assert (AB1 := turn_dot f T a b). assert (AB1' := turn_dot f' T' a' b').
  assert (AC1 := turn_dot f T a c). assert (AC1' := turn_dot f' T' a' c'). assert (BC1 := turn_dot f T b c). assert (BC1' := turn_dot f' T' b' c').
  rewrite F1 in AB1, AC1. rewrite G1 in AB1', AC1'. rewrite B in B1. rewrite B' in B1'. rewrite C in C1. rewrite C' in C1'. rewrite <- AB in AB1'. rewrite <- AC in AC1'. rewrite <- BC in BC1'.
  set (ab := dot a b) in *. set (ac := dot a c) in *. set (bc := dot b c) in *. clearbody ab ac bc.
  destruct (f b) as [bx by_ bz], (f' b') as [bx' by' bz'], (f c) as [cx cy cz], (f' c') as [cx' cy' cz']. unfold dot, ez in B1, B1', C1, C1', AB1, AB1', AC1, AC1', BC1, BC1'. cbn [vx vy vz] in *.
  subst by_ by'.
  assert (bz' = bz) by lra. assert (cz' = cz) by lra. subst bz' cz'. assert (bx' = bx) by (apply sq_eq; lra). subst bx'.
  destruct (Req_dec bx 0) as [Z|Z].
  - destruct (F4 Z) as [Y1 Y2]. destruct (G4 Z) as [Y3 Y4]. subst cy cy'. assert (cx' = cx) by (apply sq_eq; lra). subst cx'. reflexivity.
  - assert (cx' = cx) by (apply (Rmult_eq_reg_l bx); [lra|exact Z]). subst cx'. assert (D : (cy - cy') * (cy + cy') = 0) by lra. apply Rmult_integral in D as [D|D].
    + replace cy' with cy by lra. reflexivity.
    + rewrite <- (kern_mirror l ez (V3 bx 0 bz) (V3 cx cy cz) E). unfold my, ez; cbn [vx vy vz]. replace (- cy) with cy' by lra. replace (- 0) with 0 by ring. reflexivity.
Qed.

(** ** From the window to the pairs of the loops *)
Lemma zrange_app a b c : (a <= b + 1)%Z -> (b <= c)%Z -> zrange a c = zrange a b ++ zrange (b + 1) c.
Proof.
  intros H1 H2. unfold zrange. replace (Z.to_nat (c - a + 1)) with (Z.to_nat (b - a + 1) + Z.to_nat (c - (b + 1) + 1))%nat by lia. rewrite seq_app, map_app. f_equal.
  set (n := Z.to_nat (b - a + 1)). assert (SH : forall m q, map (fun k => (a + Z.of_nat k)%Z) (seq (q + n) m) = map (fun k => (b + 1 + Z.of_nat k)%Z) (seq q m)).
  { induction m as [|m IH]; intros q; [reflexivity|]. cbn [seq map]. f_equal; [lia|]. exact (IH (S q)). }
  apply SH.
Qed.

Lemma csuml_app {A} (g : A -> cplx) a b : csuml g (a ++ b) = cadd (csuml g a) (csuml g b).
Proof. induction a as [|x a IH]; cbn [app csuml]; [ring|]. rewrite IH. ring. Qed.
Lemma csuml_map {A B} (h : B -> A) (g : A -> cplx) a : csuml g (map h a) = csuml (fun x => g (h x)) a.
Proof. induction a as [|x a IH]; cbn [map csuml]; [reflexivity|]. rewrite IH. reflexivity. Qed.
Lemma csuml_flat {A B} (h : B -> list A) (g : A -> cplx) a : csuml g (flat_map h a) = csuml (fun x => csuml g (h x)) a.
Proof. induction a as [|x a IH]; cbn [flat_map csuml]; [reflexivity|]. rewrite csuml_app, IH. reflexivity. Qed.
Lemma csuml_zero {A} (g : A -> cplx) a : (forall x, In x a -> g x = c0) -> csuml g a = c0.
Proof. induction a as [|x a IH]; intros H; cbn [csuml]; [reflexivity|]. rewrite H by now left. rewrite IH by (intros y Hy; apply H; now right). ring. Qed.
Lemma csuml_swap {A B} (g : A -> B -> cplx) a b : csuml (fun x => csuml (g x) b) a = csuml (fun y => csuml (fun x => g x y) a) b.
Proof.
  induction a as [|x a IH]; cbn [csuml]; [symmetry; apply csuml_zero; auto|]. rewrite IH. clear IH. induction b as [|y b IH]; cbn [csuml]; [ring|]. rewrite <- IH. ring.
Qed.
Lemma csum_seq n f a : csum n (fun k => f (a + k)%nat) = csuml f (seq a n).
Proof.
  revert a. induction n as [|n IH]; intros a; [reflexivity|]. rewrite csum_first. cbn [seq csuml]. rewrite Nat.add_0_r. f_equal. rewrite <- IH. apply csum_ext. intros k _. f_equal. lia.
Qed.
Lemma sumZ_list N f : sumZ N f = csuml f (zrange (- Z.of_nat N) (Z.of_nat N)).
Proof.
  unfold sumZ, zrange. rewrite csuml_map. replace (Z.to_nat (Z.of_nat N - - Z.of_nat N + 1)) with (2 * N + 1)%nat by lia. rewrite <- (csum_seq (2 * N + 1) _ 0). apply csum_ext. intros k _. f_equal. lia.
Qed.
Lemma sumZ_range N f a b : (- Z.of_nat N <= a)%Z -> (a <= b + 1)%Z -> (b <= Z.of_nat N)%Z -> (forall m, ~ (a <= m <= b)%Z -> f m = c0) -> sumZ N f = csuml f (zrange a b).
Proof.
  intros H1 H2 H3 H. rewrite sumZ_list, (zrange_app (- Z.of_nat N) (a - 1)) by lia. replace (a - 1 + 1)%Z with a by lia. rewrite (zrange_app a b) by lia. rewrite !csuml_app.
  rewrite (csuml_zero f (zrange (- Z.of_nat N) (a - 1))) by (intros m Hm; apply in_zrange in Hm; apply H; lia).
  rewrite (csuml_zero f (zrange (b + 1) (Z.of_nat N))) by (intros m Hm; apply in_zrange in Hm; apply H; lia). ring.
Qed.
Lemma S2_pairs l f : (forall m1 m2, ~ m_ok (Z.of_nat l) m1 m2 -> f m1 m2 = c0) -> S2 l f = csuml (fun p => f (fst p) (snd p)) (m_pairs (Z.of_nat l)).
Proof.
  intros H. set (L := Z.of_nat l) in *. unfold S2, m_pairs. rewrite csuml_flat. rewrite (sumZ_range (S l) _ (- L) L); [|lia|lia|lia|intros m Hm; apply sumZ_zero; intros m2 _; apply H; unfold m_ok; lia].
  apply csuml_ext. intros m1 Hm. apply in_zrange in Hm. rewrite csuml_map. cbn [fst snd]. apply sumZ_range; [lia|lia|lia|]. intros m2 Hm2. apply H. unfold m_ok. lia.
Qed.

(** ** The third-order sum of three directions *)
Definition third_const (l : nat) : R := let c := INR (2 * l + 1) / (4 * PI) in sqrt (c * c * c / (F (3 * Z.of_nat l + 1) * F (Z.of_nat l) ^ 3)).
Definition tri (l : nat) (w : Z -> Z -> R) (qa qb qc : Z -> cplx) (pairs : list (Z * Z)) : cplx :=
  csuml (fun p => cmul (cr (w (fst p) (snd p))) (cmul (cmul (qa (fst p)) (qb (snd p))) (qc (- fst p - snd p)%Z))) pairs.
Lemma sqrt_norms c d f1 f2 f3 : 0 <= c -> 0 < d -> 0 < f1 -> 0 < f2 -> 0 < f3 -> sqrt (f1 * f2 * f3 / d) * (sqrt (c * f1) * sqrt (c * f2) * sqrt (c * f3)) = sqrt (c * c * c / d) * (f1 * f2 * f3).
Proof.
  intros C D A1 A2 A3. assert (P : 0 <= f1 * f2 * f3) by (apply Rmult_le_pos; [apply Rmult_le_pos|]; lra). assert (0 <= / d) by (apply Rlt_le, Rinv_0_lt_compat, D).
  assert (0 <= c * f1) by (apply Rmult_le_pos; lra). assert (0 <= c * f2) by (apply Rmult_le_pos; lra). assert (0 <= c * f3) by (apply Rmult_le_pos; lra). assert (0 <= c * c) by (apply Rmult_le_pos; lra).
  rewrite <- (sqrt_mult (c * f1)) by assumption. rewrite <- sqrt_mult by (try assumption; apply Rmult_le_pos; assumption). rewrite <- sqrt_mult by (repeat apply Rmult_le_pos; try assumption; lra).
  rewrite <- (sqrt_square (f1 * f2 * f3)) at 2 by exact P. rewrite <- sqrt_mult by (repeat apply Rmult_le_pos; try assumption; lra). f_equal. field. lra.
Qed.
Lemma tri_kern l a b c : tri l (wigner l) (at_m l (fun k => harm l k a)) (at_m l (fun k => harm l k b)) (at_m l (fun k => harm l k c)) (m_pairs (Z.of_nat l)) = cmul (cr (third_const l)) (kern l a b c).
Proof.
  unfold kern. rewrite S2_pairs by (intros m1 m2 M; rewrite ci_out by exact M; ring). rewrite <- csuml_mul_l. unfold tri. apply csuml_ext. intros [m1 m2] M. apply in_m_pairs in M. cbn [fst snd]. assert (M' := M). unfold m_ok in M'.
  set (L := Z.of_nat l) in *. rewrite !hat_in by (fold L; lia). fold L. unfold at_m, harm. fold L. rewrite coef_wigner. unfold ci, G. fold L.
  assert (K : forall m, (- L <= m <= L)%Z -> INR (fact (Z.to_nat (L + m))) * INR (fact (2 * l - Z.to_nat (L + m))) = F (L + m) * F (L - m)) by (intros m Hm; unfold F; replace (2 * l - Z.to_nat (L + m))%nat with (Z.to_nat (L - m)) by lia; reflexivity).
  rewrite !K by lia. set (f1 := F (L + m1) * F (L - m1)). set (f2 := F (L + m2) * F (L - m2)). set (f3 := F (L + (- m1 - m2)) * F (L - (- m1 - m2))).
  set (cl := INR (2 * l + 1) / (4 * PI)). set (d := F (3 * L + 1) * F L ^ 3).
  assert (E := sqrt_norms cl d f1 f2 f3). replace (f1 * F (L + m2) * F (L - m2) * F (L + (- m1 - m2)) * F (L - (- m1 - m2)) / d) with (f1 * f2 * f3 / d) by (unfold f1, f2, f3, Rdiv; ring).
  unfold third_const. fold cl L d. rewrite !cscale_cr.
  match goal with |- ?x = ?y => transitivity (cmul (cr (IZR (coef l m1 m2) * (sqrt (f1 * f2 * f3 / d) * (sqrt (cl * f1) * sqrt (cl * f2) * sqrt (cl * f3))))) (cmul (cmul (harm_sum l (Z.to_nat (L + m1)) a) (harm_sum l (Z.to_nat (L + m2)) b)) (harm_sum l (Z.to_nat (L + (- m1 - m2))) c))) end; [rewrite !cr_mul; ring|].
  rewrite E; [rewrite !cr_mul; ring| | | | |].
  - unfold cl. apply Rlt_le, Rdiv_lt_0_compat; [apply lt_0_INR; lia|]. assert (P := PI_RGT_0). lra.
  - unfold d. apply Rmult_lt_0_compat; [apply F_pos|apply pow_lt, F_pos].
  - apply Rmult_lt_0_compat; apply F_pos.
  - apply Rmult_lt_0_compat; apply F_pos.
  - apply Rmult_lt_0_compat; apply F_pos.
Qed.
Lemma triple_product {A} (f g h : A -> cplx) T : cmul (cmul (csuml f T) (csuml g T)) (csuml h T) = csuml (fun x => csuml (fun y => csuml (fun z => cmul (cmul (f x) (g y)) (h z)) T) T) T.
Proof.
  rewrite <- (csuml_mul_r (csuml g T) f T), <- (csuml_mul_r (csuml h T)). apply csuml_ext. intros x _. rewrite <- (csuml_mul_l (f x) g T), <- (csuml_mul_r (csuml h T)). apply csuml_ext. intros y _.
  rewrite <- csuml_mul_l. reflexivity.
Qed.
(** Sums over bonds. *)
Section terms.
Context {A : Type} (l : nat) (vec : A -> vec3).
Definition dir_ (t : R * A) : vec3 := bdir (vec (snd t)).
Definition kerns (T : list (R * A)) : cplx := csuml (fun x => csuml (fun y => csuml (fun z => cmul (cr (fst x * fst y * fst z)) (cmul (cr (third_const l)) (kern l (dir_ x) (dir_ y) (dir_ z)))) T) T) T.
Lemma tri_comb T : tri l (wigner l) (at_m l (comb l vec T)) (at_m l (comb l vec T)) (at_m l (comb l vec T)) (m_pairs (Z.of_nat l)) = kerns T.
Proof.
  unfold kerns. transitivity (csuml (fun x => csuml (fun y => csuml (fun z => csuml (fun p => cmul (cr (fst x * fst y * fst z)) (cmul (cr (wigner l (fst p) (snd p))) (cmul (cmul (at_m l (fun k => harm l k (dir_ x)) (fst p)) (at_m l (fun k => harm l k (dir_ y)) (snd p))) (at_m l (fun k => harm l k (dir_ z)) (- fst p - snd p)%Z)))) (m_pairs (Z.of_nat l))) T) T) T).
  - unfold tri. rewrite (csuml_ext _ (fun p => csuml (fun x => csuml (fun y => csuml (fun z => cmul (cr (fst x * fst y * fst z)) (cmul (cr (wigner l (fst p) (snd p))) (cmul (cmul (at_m l (fun k => harm l k (dir_ x)) (fst p)) (at_m l (fun k => harm l k (dir_ y)) (snd p))) (at_m l (fun k => harm l k (dir_ z)) (- fst p - snd p)%Z)))) T) T) T)).
    + rewrite csuml_swap. apply csuml_ext. intros x _. rewrite csuml_swap. apply csuml_ext. intros y _. apply csuml_swap.
    + intros p _. unfold at_m, comb. rewrite triple_product. rewrite <- csuml_mul_l. apply csuml_ext. intros x _. rewrite <- csuml_mul_l. apply csuml_ext. intros y _.
      rewrite <- csuml_mul_l. apply csuml_ext. intros z _. rewrite !cscale_cr, !cr_mul. unfold dir_. ring.
  - apply csuml_ext. intros x _. apply csuml_ext. intros y _. apply csuml_ext. intros z _. rewrite csuml_mul_l. f_equal. apply tri_kern.
Qed.
End terms.
Lemma third_tri l w q pairs : third w q pairs = fst (tri l w q q q pairs).
Proof. unfold third, tri. induction pairs as [|p ps IH]; [reflexivity|]. cbn [fold_right csuml]. rewrite IH. unfold cadd, cmul, cr; cbn [fst snd]. ring. Qed.
Lemma kerns_congruent {A} l (vec vec' : A -> vec3) T : Nat.even l = true -> (forall x y, In x T -> In y T -> dot (bdir (vec (snd x))) (bdir (vec (snd y))) = dot (bdir (vec' (snd x))) (bdir (vec' (snd y)))) ->
  kerns l vec T = kerns l vec' T.
Proof.
  intros E H. unfold kerns. apply csuml_ext. intros x Hx. apply csuml_ext. intros y Hy. apply csuml_ext. intros z Hz. do 2 f_equal. unfold dir_. apply kern_congruent; try exact E; try apply bdir_unit; apply H; assumption.
Qed.
Lemma kerns_real {A} l (vec : A -> vec3) T : Nat.even l = true -> snd (kerns l vec T) = 0.
Proof.
  intros E. assert (Z : forall B (g : B -> cplx) bs, (forall x, snd (g x) = 0) -> snd (csuml g bs) = 0).
  { intros B g bs H. induction bs as [|x bs IH]; [reflexivity|]. cbn [csuml]. unfold cadd; cbn [snd]. rewrite H, IH. ring. }
  unfold kerns. apply Z. intros x. apply Z. intros y. apply Z. intros z. unfold cmul, cr; cbn [fst snd]. rewrite kern_real by exact E. ring.
Qed.
