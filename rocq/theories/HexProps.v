(** C57: the hexatic (k-atic) order parameter. *)
From Verif Require Import RBase ParProofs MatchEnvProofs LocalDescProps BoxPyProofs Vec HexSpec.
From Coq Require Import Permutation Lra Lia.
Import ListNotations.
Local Open Scope R_scope.

(** * Complex numbers *)
Ltac cring := unfold cmul, cadd, cscale, c0, cconj; simpl; f_equal; ring.
Lemma cmul_comm a b : cmul a b = cmul b a. Proof. destruct a, b. cring. Qed.
Lemma cmul_assoc a b c : cmul a (cmul b c) = cmul (cmul a b) c. Proof. destruct a, b, c. cring. Qed.
Lemma cadd_assoc a b c : cadd a (cadd b c) = cadd (cadd a b) c. Proof. destruct a, b, c. cring. Qed.
Lemma cadd_comm a b : cadd a b = cadd b a. Proof. destruct a, b. cring. Qed.
Lemma cadd_0_l a : cadd c0 a = a. Proof. destruct a. cring. Qed.
Lemma modulus2_mul a b : modulus2 (cmul a b) = modulus2 a * modulus2 b. Proof. destruct a, b. unfold modulus2, cmul; simpl. ring. Qed.
Lemma modulus2_pos a : 0 <= modulus2 a. Proof. destruct a as [x y]. unfold modulus2; simpl. nra. Qed.
Lemma modulus2_pow z n : modulus2 z = 1 -> modulus2 (cpow z n) = 1.
Proof. intros H. induction n; simpl; [unfold modulus2; simpl; ring|]. rewrite modulus2_mul, H, IHn. ring. Qed.
Lemma cpow_mul a b n : cpow (cmul a b) n = cmul (cpow a n) (cpow b n).
Proof. induction n; simpl; [cring|]. rewrite IHn, !cmul_assoc. f_equal. rewrite <- !cmul_assoc. f_equal. apply cmul_comm. Qed.
Lemma de_moivre t n : cpow (cos t, sin t) n = (cos (INR n * t), sin (INR n * t)).
Proof.
  induction n as [|n IH]; [simpl; rewrite Rmult_0_l, cos_0, sin_0; reflexivity|]. cbn [cpow]. rewrite IH, S_INR.
  replace ((INR n + 1) * t) with (t + INR n * t) by ring. rewrite cos_plus, sin_plus. unfold cmul; simpl. f_equal; ring.
Qed.
Lemma norm2_zero x y : sqrt (x * x + y * y) = 0 <-> x = 0 /\ y = 0.
Proof.
  split; [|intros [-> ->]; rewrite Rmult_0_l, Rplus_0_l; apply sqrt_0]. intros H. apply sqrt_eq_0 in H; nra.
Qed.
Lemma dir_modulus v : modulus2 (dir v) = 1.
Proof.
  unfold dir. destruct (Req_EM_T _ _) as [E|E]; [unfold modulus2; simpl; ring|]. unfold modulus2; simpl.
  set (r := sqrt _) in *. assert (R2 : r * r = vx v * vx v + vy v * vy v) by (apply sqrt_sqrt; nra).
  replace (vx v / r * (vx v / r) + vy v / r * (vy v / r)) with ((vx v * vx v + vy v * vy v) / (r * r)) by (field; exact E). rewrite <- R2. field. exact E.
Qed.
Lemma dir_atan2 v : dir v = (cos (atan2 (vy v) (vx v)), sin (atan2 (vy v) (vx v))).
Proof.
  unfold dir. destruct (Req_EM_T _ _) as [E|E].
  - apply norm2_zero in E as [-> ->]. rewrite SphProofs.atan2_00, cos_0, sin_0. reflexivity.
  - assert (NZ : vx v <> 0 \/ vy v <> 0) by (destruct (Req_dec (vx v) 0); [right|left; auto]; intros Y; apply E, norm2_zero; auto).
    destruct (atan2_polar (vy v) (vx v)) as (r & Hr & Ex & Ey); [tauto|]. set (t := atan2 (vy v) (vx v)) in *.
    assert (sqrt (vx v * vx v + vy v * vy v) = r) as ->; [|rewrite Ex, Ey; f_equal; field; lra].
    replace (vx v * vx v + vy v * vy v) with (r * r); [apply sqrt_square; lra|]. rewrite Ex, Ey. pose proof (sin2_cos2 t) as Q. unfold Rsqr in Q.
    replace (r * cos t * (r * cos t) + r * sin t * (r * sin t)) with (r * r * (sin t * sin t + cos t * cos t)) by ring. rewrite Q. ring.
Qed.
Lemma hex_func_dir k v : hex_func k v = cpow (dir v) k.
Proof. rewrite dir_atan2, de_moivre. reflexivity. Qed.

(** * What is computed *)
Lemma hex_fold k weighted b pts ref i bs : nth_error pts i = Some ref -> (forall nb, In nb bs -> (bp nb < length pts)%nat) -> forall psi tw,
  fold_left (hex_bond k weighted b pts ref) bs (Some (psi, tw)) =
  Some (cadd psi (wsum (hterms k weighted (hvec b pts i) bs)), tw + wtotal (hterms k weighted (hvec b pts i) bs)).
Proof.
  intros E. induction bs as [|nb bs IH]; intros H psi tw.
  - simpl. f_equal. f_equal; [destruct psi; cring|ring].
  - assert (P : nth_error pts (bp nb) = Some (nth (bp nb) pts v0)) by (apply nth_error_g, H; left; reflexivity). cbn [fold_left].
    assert (X : hex_bond k weighted b pts ref (Some (psi, tw)) nb = Some (cadd psi (cscale (hweight weighted nb) (cpow (dir (hvec b pts i nb)) k)), tw + hweight weighted nb)).
    { unfold hex_bond. rewrite P. cbv zeta. rewrite hex_func_dir. unfold hvec. rewrite (nth_error_nth _ _ v0 E). reflexivity. }
    rewrite X, IH by (intros; apply H; right; auto). cbn [hterms map wsum wtotal fold_right fst snd]. fold (hterms k weighted (hvec b pts i) bs). f_equal. f_equal; [rewrite cadd_assoc; reflexivity|].
    fold (wtotal (hterms k weighted (hvec b pts i) bs)). ring.
Qed.
Lemma hex_point_spec k weighted b pts bs i : (i < length pts)%nat -> (forall nb, In nb bs -> (bp nb < length pts)%nat) ->
  hex_point k weighted b pts bs i = Some (c_div (wsum (hterms k weighted (hvec b pts i) bs)) (wtotal (hterms k weighted (hvec b pts i) bs))).
Proof.
  intros Hi H. unfold hex_point. rewrite (nth_error_g pts i v0) by exact Hi. rewrite (hex_fold k weighted b pts _ i) by (auto; apply nth_error_g; exact Hi).
  rewrite cadd_0_l, Rplus_0_l. reflexivity.
Qed.
Lemma c_div_mean l z : c_div (wsum l) (wtotal l) = Some z <-> wmean l z.
Proof.
  unfold c_div, wmean. destruct (Reqb_spec (wtotal l) 0) as [E|E].
  - split; [discriminate|]. intros [X _]. contradiction.
  - destruct (wsum l) as [a c], z as [x y]; unfold cscale; simpl. split.
    + intros H. injection H as <- <-. split; [exact E|]. f_equal; field; exact E.
    + intros [_ H]. injection H as Ha Hc. replace (a / wtotal l) with x by (rewrite <- Ha; field; exact E). replace (c / wtotal l) with y by (rewrite <- Hc; field; exact E). reflexivity.
Qed.
(** Every entry is the weighted mean of the k-th powers of the bond directions of its own point, NaN exactly when the weights add up to
    zero (in particular without neighbours), for every schedule. *)
Theorem C57_value k weighted b pts bonds ev : b_2d b = true -> hbonds_ok (length pts) bonds -> execution 0 (length pts) ev ->
  exists psi, hex_compute k weighted b pts bonds ev = HDone psi /\ length psi = length pts /\
    forall i, (i < length pts)%nat -> let l := hterms k weighted (hvec b pts i) (bonds i) in
      (forall z, nth i psi None = Some z <-> wmean l z) /\ (nth i psi None = None <-> wtotal l = 0).
Proof.
  intros D2 B E. unfold hex_compute. rewrite D2. simpl.
  set (val := fun i => c_div (wsum (hterms k weighted (hvec b pts i) (bonds i))) (wtotal (hterms k weighted (hvec b pts i) (bonds i)))).
  apply execution_perm in E. rewrite Nat.sub_0_r in E || idtac.
  assert (IN : forall e, In e ev -> (snd e < length pts)%nat).
  { intros e He. assert (X : In (snd e) (map snd ev)) by (apply in_map; exact He). apply (Permutation_in _ E) in X. unfold range in X. apply in_seq in X. lia. }
  assert (F : forall (evs : list (nat * nat)) arr, (forall e, In e evs -> (snd e < length pts)%nat) ->
    fold_left (fun arr e => match arr, hex_point k weighted b pts (bonds (snd e)) (snd e) with Some a, Some z => Some (put a (snd e) z) | _, _ => None end) evs (Some arr) =
    Some (fold_left (fun rows j => put rows j (val j)) (map snd evs) arr)).
  { induction evs as [|e evs IH]; intros arr H; [reflexivity|]. cbn [fold_left map]. assert (He : (snd e < length pts)%nat) by (apply H; left; reflexivity). rewrite hex_point_spec; [|exact He|intros nb Hn; exact (B _ nb He Hn)].
    apply IH. intros; apply H; right; auto. }
  rewrite F by exact IN. destruct (put_all val (map snd ev) None (repeat (Some c0) (length pts))) as [L N].
  { intros j Hj. apply in_map_iff in Hj as (e & <- & He). rewrite repeat_length. apply IN; exact He. }
  eexists. split; [reflexivity|]. rewrite repeat_length in L. split; [exact L|]. intros i Hi. cbv zeta. rewrite N.
  assert (X : existsb (Nat.eqb i) (map snd ev) = true).
  { apply existsb_exists. exists i. split; [|apply Nat.eqb_refl]. apply (Permutation_in _ (Permutation_sym E)). unfold range. apply in_seq. lia. }
  rewrite X. unfold val. split; [intros z; apply c_div_mean|]. unfold c_div. destruct (Reqb_spec (wtotal (hterms k weighted (hvec b pts i) (bonds i))) 0); split; intros; auto; discriminate || contradiction.
Qed.
Theorem C57_reject k weighted b pts bonds ev : hex_compute k weighted b pts bonds ev = HRaised <-> b_2d b = false.
Proof. unfold hex_compute. destruct (b_2d b); simpl; split; intros; auto; try discriminate. destruct (fold_left _ _ _); discriminate. Qed.

(** * Bound and equality *)
Definition pairsum (f : R * cplx -> R * cplx -> R) (l : list (R * cplx)) : R := fold_right (fun t a => fold_right (fun u c => f t u + c) 0 l + a) 0 l.
Definition rsum {A} (f : A -> R) (l : list A) : R := fold_right (fun t a => f t + a) 0 l.
Lemma rsum_plus {A} (f g : A -> R) l : rsum (fun x => f x + g x) l = rsum f l + rsum g l.
Proof. unfold rsum. induction l; simpl; [lra|]. rewrite IHl. lra. Qed.
Lemma rsum_scale {A} c (f : A -> R) l : rsum (fun x => c * f x) l = c * rsum f l.
Proof. unfold rsum. induction l; simpl; [lra|]. rewrite IHl. lra. Qed.
Lemma rsum_ext {A} (f g : A -> R) l : (forall x, In x l -> f x = g x) -> rsum f l = rsum g l.
Proof. unfold rsum. induction l; simpl; intros H; auto. rewrite H, IHl; auto. Qed.
Lemma rsum_nonneg {A} (f : A -> R) l : (forall x, In x l -> 0 <= f x) -> 0 <= rsum f l.
Proof. unfold rsum. induction l; simpl; intros H; [lra|]. pose proof (H a (or_introl eq_refl)). assert (0 <= fold_right (fun t c => f t + c) 0 l) by auto. lra. Qed.
Lemma rsum_zero {A} (f : A -> R) l : (forall x, In x l -> 0 <= f x) -> (rsum f l = 0 <-> forall x, In x l -> f x = 0).
Proof.
  intros N. split.
  - revert N. unfold rsum. induction l as [|a l IH]; simpl; intros N S x H; [contradiction|].
    pose proof (N a (or_introl eq_refl)). assert (P : 0 <= rsum f l) by (apply rsum_nonneg; auto). unfold rsum in P.
    destruct H as [<-|H]; [lra|]. apply IH; auto. lra.
  - intros Z. rewrite (rsum_ext _ (fun _ => 0)) by exact Z. unfold rsum. induction l; simpl; [reflexivity|]. rewrite IHl; auto; [lra| |]; intros; try apply N; try apply Z; right; auto.
Qed.
Lemma wsum_parts l : wsum l = (rsum (fun t => fst t * fst (snd t)) l, rsum (fun t => fst t * snd (snd t)) l).
Proof. unfold rsum, wsum. induction l; simpl; [reflexivity|]. rewrite IHl. reflexivity. Qed.
Lemma wtotal_rsum l : wtotal l = rsum fst l. Proof. reflexivity. Qed.
Lemma rsum_mul {A} (f g : A -> R) l : rsum f l * rsum g l = rsum (fun t => rsum (fun u => f t * g u) l) l.
Proof.
  transitivity (rsum (fun t => rsum g l * f t) l); [rewrite rsum_scale; ring|]. apply rsum_ext. intros t _. rewrite rsum_scale. ring.
Qed.
(** The defect of the modulus is half the weighted sum of squared differences. *)
Lemma modulus_defect l : (forall t, In t l -> modulus2 (snd t) = 1) ->
  wtotal l * wtotal l - modulus2 (wsum l) = / 2 * rsum (fun t => rsum (fun u => fst t * fst u * modulus2 (cadd (snd t) (cscale (-1) (snd u)))) l) l.
Proof.
  intros H. rewrite wsum_parts, wtotal_rsum. unfold modulus2 at 1; simpl. rewrite !rsum_mul.
  set (A := rsum (fun t => rsum (fun u => fst t * fst u) l) l). set (X := rsum (fun t => rsum (fun u => fst t * fst (snd t) * (fst u * fst (snd u))) l) l).
  set (Y := rsum (fun t => rsum (fun u => fst t * snd (snd t) * (fst u * snd (snd u))) l) l).
  transitivity (/ 2 * rsum (fun t => 2 * rsum (fun u => fst t * fst u) l + -2 * (rsum (fun u => fst t * fst (snd t) * (fst u * fst (snd u))) l + rsum (fun u => fst t * snd (snd t) * (fst u * snd (snd u))) l)) l).
  - rewrite rsum_plus, !rsum_scale, rsum_plus. fold A X Y.
    change (rsum (fun x : R * (R * R) => rsum (fun u : R * cplx => fst x * fst u) l) l) with A. lra.
  - f_equal. apply rsum_ext. intros t Ht. symmetry. rewrite <- rsum_plus, <- !rsum_scale, <- rsum_plus. apply rsum_ext. intros u Hu. pose proof (H t Ht) as A1. pose proof (H u Hu) as B1.
    destruct t as [w [a b]], u as [w' [c d]]. unfold modulus2, cadd, cscale in *; simpl in *.
    transitivity (w * w' * ((a * a + b * b) + (c * c + d * d) - 2 * (a * c + b * d))); [ring|]. rewrite A1, B1. ring.
Qed.
Lemma hterms_unit k weighted vec bs t : In t (hterms k weighted vec bs) -> modulus2 (snd t) = 1.
Proof. unfold hterms. intros H. apply in_map_iff in H as (nb & <- & _). simpl. apply modulus2_pow, dir_modulus. Qed.
Lemma wmean_modulus l z : wmean l z -> wtotal l * wtotal l * modulus2 z = modulus2 (wsum l).
Proof. intros [_ E]. rewrite <- E. unfold modulus2, cscale; simpl. ring. Qed.
(** With non-negative weights the modulus is at most one, and one exactly when all bonds of positive weight have the same term. *)
Theorem C57_bound k weighted vec bs z : (forall nb, In nb bs -> 0 <= hweight weighted nb) -> wmean (hterms k weighted vec bs) z ->
  modulus2 z <= 1 /\
  (modulus2 z = 1 <-> forall a c, In a bs -> In c bs -> 0 < hweight weighted a -> 0 < hweight weighted c -> cpow (dir (vec a)) k = cpow (dir (vec c)) k).
Proof.
  intros P M. set (l := hterms k weighted vec bs) in *. assert (D := modulus_defect l (hterms_unit k weighted vec bs)). rewrite <- (wmean_modulus l z M) in D.
  assert (PW : forall t, In t l -> 0 <= fst t) by (unfold l, hterms; intros t Ht; apply in_map_iff in Ht as (nb & <- & Hn); simpl; auto).
  assert (N1 : forall t u, In t l -> In u l -> 0 <= fst t * fst u * modulus2 (cadd (snd t) (cscale (-1) (snd u)))).
  { intros t u Ht Hu. apply Rmult_le_pos; [apply Rmult_le_pos; auto|apply modulus2_pos]. }
  assert (N2 : forall t, In t l -> 0 <= rsum (fun u => fst t * fst u * modulus2 (cadd (snd t) (cscale (-1) (snd u)))) l) by (intros; apply rsum_nonneg; auto).
  assert (W : 0 < wtotal l * wtotal l) by (destruct M as [M _]; nra). assert (S := rsum_nonneg _ _ N2). split.
  - apply (Rmult_le_reg_l (wtotal l * wtotal l)); [exact W|]. lra.
  - assert (Z := rsum_zero _ _ N2). transitivity (rsum (fun t => rsum (fun u => fst t * fst u * modulus2 (cadd (snd t) (cscale (-1) (snd u)))) l) l = 0).
    + split; intros Q; [rewrite Q in D; lra|]. rewrite Q in D. apply (Rmult_eq_reg_l (wtotal l * wtotal l)); lra.
    + rewrite Z. split.
      * intros Q a c Ha Hc Pa Pc. assert (Ia : In (hweight weighted a, cpow (dir (vec a)) k) l) by (apply (in_map (fun nb => (hweight weighted nb, cpow (dir (vec nb)) k))); exact Ha).
        assert (Ic : In (hweight weighted c, cpow (dir (vec c)) k) l) by (apply (in_map (fun nb => (hweight weighted nb, cpow (dir (vec nb)) k))); exact Hc).
        specialize (Q _ Ia). rewrite rsum_zero in Q by (intros; apply N1; auto). specialize (Q _ Ic). simpl in Q.
        apply Rmult_integral in Q as [Q|Q]; [nra|]. destruct (cpow (dir (vec a)) k) as [x y], (cpow (dir (vec c)) k) as [x' y']. unfold modulus2, cadd, cscale in Q; simpl in Q.
        assert (X := Rle_0_sqr (x + -1 * x')). assert (Y := Rle_0_sqr (y + -1 * y')). unfold Rsqr in X, Y.
        assert (X0 : x + -1 * x' = 0) by (apply Rsqr_0_uniq; unfold Rsqr; lra). assert (Y0 : y + -1 * y' = 0) by (apply Rsqr_0_uniq; unfold Rsqr; lra).
        replace x with x' by lra. replace y with y' by lra. reflexivity.
      * intros Q t Ht. rewrite rsum_zero by (intros; apply N1; auto). intros u Hu. unfold l, hterms in Ht, Hu. apply in_map_iff in Ht as (a & <- & Ha), Hu as (c & <- & Hc). simpl.
        destruct (Req_dec (hweight weighted a) 0) as [->|Na]; [ring|]. destruct (Req_dec (hweight weighted c) 0) as [->|Nc]; [ring|].
        pose proof (P a Ha). pose proof (P c Hc). rewrite (Q a c Ha Hc) by lra. unfold modulus2, cadd, cscale; simpl. ring.
Qed.

(** * Invariances *)
Lemma wmean_unique l z z' : wmean l z -> wmean l z' -> z = z'.
Proof. intros [N E] [_ E']. rewrite <- E' in E. destruct z, z'; unfold cscale in E; simpl in E. injection E as A B. apply Rmult_eq_reg_l in A; auto. apply Rmult_eq_reg_l in B; auto. subst. reflexivity. Qed.
(** The order of the bonds does not matter. *)
Theorem C57_permutation k weighted vec bs bs' z : Permutation bs bs' -> wmean (hterms k weighted vec bs) z -> wmean (hterms k weighted vec bs') z.
Proof.
  intros P. assert (Q : Permutation (hterms k weighted vec bs) (hterms k weighted vec bs')) by (apply Permutation_map; exact P). clear P.
  assert (T : wtotal (hterms k weighted vec bs) = wtotal (hterms k weighted vec bs') /\ wsum (hterms k weighted vec bs) = wsum (hterms k weighted vec bs')).
  { induction Q; simpl; [split; reflexivity| | |destruct IHQ1, IHQ2; split; congruence].
    - destruct IHQ as [-> ->]. split; reflexivity.
    - split; [ring|]. rewrite !cadd_assoc. f_equal. apply cadd_comm. }
  destruct T as [T S]. unfold wmean. rewrite T, S. auto.
Qed.
(** Multiplying all weights by the same non-zero number changes nothing. *)
Theorem C57_scale l c z : c <> 0 -> wmean l z -> wmean (map (fun t => (c * fst t, snd t)) l) z.
Proof.
  intros C [N E]. assert (T : wtotal (map (fun t => (c * fst t, snd t)) l) = c * wtotal l) by (unfold wtotal; clear; induction l; simpl; [ring|rewrite IHl; ring]).
  assert (S : wsum (map (fun t => (c * fst t, snd t)) l) = cscale c (wsum l)) by (clear; induction l as [|[w [x y]] l IH]; [cbn; cring|]; cbn [map wsum fold_right]; unfold wsum in IH; rewrite IH; match goal with |- context [fold_right ?f ?z l] => destruct (fold_right f z l) end; cring).
  unfold wmean. rewrite T, S, <- E. split; [intros Q; apply Rmult_integral in Q; tauto|]. unfold cscale; simpl. f_equal; ring.
Qed.
(** Turning all bond vectors by an angle multiplies the value by e^(i k angle); the modulus stays. *)
Theorem C57_rotation k weighted vec vec' bs a z :
  (forall nb, In nb bs -> (vx (vec nb) <> 0 \/ vy (vec nb) <> 0) /\ vx (vec' nb) = cos a * vx (vec nb) - sin a * vy (vec nb) /\ vy (vec' nb) = sin a * vx (vec nb) + cos a * vy (vec nb)) ->
  wmean (hterms k weighted vec bs) z ->
  let z' := cmul (cos (INR k * a), sin (INR k * a)) z in wmean (hterms k weighted vec' bs) z' /\ modulus2 z' = modulus2 z.
Proof.
  intros H [N E]. cbv zeta. set (e := (cos (INR k * a), sin (INR k * a))).
  assert (D : forall nb, In nb bs -> cpow (dir (vec' nb)) k = cmul e (cpow (dir (vec nb)) k)).
  { intros nb Hn. destruct (H nb Hn) as (NZ & X & Y). unfold e. rewrite <- de_moivre, <- cpow_mul. f_equal.
    assert (R : vx (vec' nb) * vx (vec' nb) + vy (vec' nb) * vy (vec' nb) = vx (vec nb) * vx (vec nb) + vy (vec nb) * vy (vec nb)).
    { rewrite X, Y. pose proof (sin2_cos2 a) as Q. unfold Rsqr in Q. transitivity ((sin a * sin a + cos a * cos a) * (vx (vec nb) * vx (vec nb) + vy (vec nb) * vy (vec nb))); [ring|rewrite Q; ring]. }
    unfold dir. rewrite R. destruct (Req_EM_T _ _) as [Z|Z]; [apply norm2_zero in Z; tauto|]. rewrite X, Y. unfold cmul; simpl. f_equal; field; exact Z. }
  assert (T : wtotal (hterms k weighted vec' bs) = wtotal (hterms k weighted vec bs)) by (unfold wtotal, hterms; clear; induction bs; simpl; [reflexivity|rewrite IHbs; reflexivity]).
  assert (S : wsum (hterms k weighted vec' bs) = cmul e (wsum (hterms k weighted vec bs))).
  { clear -D. induction bs as [|nb bs IH]; [cbn; destruct e; cring|]. cbn [hterms map wsum fold_right]. unfold wsum, hterms in IH. rewrite IH by (intros; apply D; right; auto).
    cbn [fst snd]. rewrite D by (left; reflexivity). generalize (cpow (dir (vec nb)) k) (fold_right (fun t a => cadd (cscale (fst t) (snd t)) a) c0 (map (fun nb0 => (hweight weighted nb0, cpow (dir (vec nb0)) k)) bs)).
    intros [x y] [x' y']. destruct e. cring. }
  unfold wmean. rewrite T, S, <- E. split; [split; [exact N|]; destruct e, z; cring|]. rewrite modulus2_mul. unfold e, modulus2 at 1; simpl.
  pose proof (sin2_cos2 (INR k * a)) as Q. unfold Rsqr in Q. rewrite Rplus_comm, Q. ring.
Qed.
(** Ideal k-fold environments: bonds at angles phi + 2 pi j / k all contribute the same term, so the modulus is one. *)
Theorem C57_ideal k weighted vec bs z phi : (0 < k)%nat -> (forall nb, In nb bs -> 0 <= hweight weighted nb) ->
  (forall nb, In nb bs -> exists j, dir (vec nb) = (cos (phi + 2 * PI * INR j / INR k), sin (phi + 2 * PI * INR j / INR k))) ->
  wmean (hterms k weighted vec bs) z -> z = (cos (INR k * phi), sin (INR k * phi)).
Proof.
  intros Hk P H [N E]. assert (Kp : 0 < INR k) by (apply lt_0_INR; exact Hk).
  assert (T : forall nb, In nb bs -> cpow (dir (vec nb)) k = (cos (INR k * phi), sin (INR k * phi))).
  { intros nb Hn. destruct (H nb Hn) as (j & ->). rewrite de_moivre. replace (INR k * (phi + 2 * PI * INR j / INR k)) with (INR k * phi + 2 * INR j * PI) by (field; lra).
    rewrite cos_period, sin_period. reflexivity. }
  assert (S : wsum (hterms k weighted vec bs) = cscale (wtotal (hterms k weighted vec bs)) (cos (INR k * phi), sin (INR k * phi))).
  { clear -T. induction bs as [|nb bs IH]; [cbn; cring|]. cbn [hterms map wsum wtotal fold_right]. unfold wsum, wtotal, hterms in IH. rewrite IH by (intros; apply T; right; auto).
    cbn [fst snd]. rewrite T by (left; reflexivity). cring. }
  apply (wmean_unique (hterms k weighted vec bs)); split; auto.
Qed.
(** Negative weights, which a NeighborList accepts, break the bound. *)
Theorem C57_negative_weights_refuted : exists bs vec z, wmean (hterms 1 true vec bs) z /\ 1 < modulus2 z.
Proof.
  exists [Bond 0 1 1 2 (V3 1 0 0); Bond 0 2 1 (-1) (V3 (-1) 0 0)], bv, (3, 0).
  assert (D1 : dir (V3 1 0 0) = (1, 0)).
  { unfold dir; cbn [vx vy]. replace (1 * 1 + 0 * 0) with 1 by ring. rewrite sqrt_1. destruct (Req_EM_T 1 0); [lra|]. f_equal; field. }
  assert (D2 : dir (V3 (-1) 0 0) = (-1, 0)).
  { unfold dir; cbn [vx vy]. replace (-1 * -1 + 0 * 0) with 1 by ring. rewrite sqrt_1. destruct (Req_EM_T 1 0); [lra|]. f_equal; field. }
  unfold wmean, hterms; simpl. rewrite D1, D2. unfold modulus2, cscale, cadd, cmul, c0; simpl. split; [split; [lra|f_equal; ring]|lra].
Qed.
Example C57_ex : exists z, wmean (hterms 6 true bv [Bond 0 1 1 2 (V3 1 0 0); Bond 0 2 1 3 (V3 1 0 0)]) z /\ modulus2 z = 1 /\
  hbonds_ok 3 (fun i => match i with O => [Bond 0 1 1 2 (V3 1 0 0); Bond 0 2 1 3 (V3 1 0 0)] | _ => [] end).
Proof.
  exists (1, 0). assert (D1 : dir (V3 1 0 0) = (1, 0)).
  { unfold dir; cbn [vx vy]. replace (1 * 1 + 0 * 0) with 1 by ring. rewrite sqrt_1. destruct (Req_EM_T 1 0); [lra|]. f_equal; field. }
  split; [|split].
  - unfold wmean, hterms; simpl. rewrite D1. unfold cscale, cadd, cmul, c0; simpl. split; [lra|f_equal; ring].
  - unfold modulus2; simpl. ring.
  - intros [|i] nb Hi Hn; [|destruct Hn]. destruct Hn as [<-|[<-|[]]]; simpl; lia.
Qed.
Print Assumptions C57_value.
Print Assumptions C57_bound.
