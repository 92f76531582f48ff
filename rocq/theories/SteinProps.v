(** C62: the Steinhardt order parameters. *)
From Verif Require Import RBase Vec BoxProofs ParProofs MatchEnvProofs LocalDescProps FilterProps AccumProofs SteinProofs SteinProofs2 SteinProofs3 SteinProofs4 SteinProofs5.
From Coq Require Import Permutation Reals ZArith List Lra Lia Bool Classical.
From Verif Require Import HarmProofs SteinSpec CplxSum.
Import ListNotations.
Local Open Scope R_scope.
Add Ring cplx_ring_inst : cplx_ring.

Theorem C62_constructor ls : st_accepts ls = true <-> ls <> [].
Proof. destruct ls; simpl; split; congruence. Qed.

(** * One call after any history *)
Section calls.
Context (fsph : nat -> nat -> R -> R -> cplx) (table : nat -> option (list R)) (c : stconf) (l : nat) (h : list st_in) (s s' : stl) (f : st_in)
  (F : fsph_ok fsph l) (TB : sc_wl c = true -> forall t, table l = Some t -> exists w, table_ok l w t) (OH : Forall (st_ok l) h) (RH : st_run fsph table c l stl_new h = STDone s) (OF : st_ok l f).
Lemma st_reach : all_shaped (2 * l + 1) (sl_locals s).
Proof. apply (run_shaped fsph table c l h F OH TB stl_new s); [constructor|exact RH]. Qed.
(** A call fails exactly when w_l is asked for and there is no table for l. *)
Theorem C62_accept : (st_call fsph table c l s f = STRaised <-> sc_wl c = true /\ table l = None) /\ (~ (sc_wl c = true /\ table l = None) -> exists s1, st_call fsph table c l s f = STDone s1).
Proof.
  destruct (call_spec fsph table c l s f F st_reach OF) as [(W & T & E)|[(W & t & T & N)|(s1 & E & _ & R)]].
  - split; [tauto|]. intros X. tauto.
  - exfalso. exact (N (TB W t T)).
  - split; [|intros _; eauto]. rewrite E. split; [discriminate|]. intros [W T]. destruct R as (_ & _ & _ & _ & R). destruct (R W) as (t & T' & _). congruence.
Qed.
Context (DONE : st_call fsph table c l s f = STDone s').
Lemma st_done : result table c l f s'.
Proof.
  destruct (call_spec fsph table c l s f F st_reach OF) as [(W & T & E)|[(W & t & T & N)|(s1 & E & _ & R)]].
  - congruence.
  - exfalso. exact (N (TB W t T)).
  - rewrite DONE in E. injection E as <-. exact R.
Qed.
Let np := length (si_pts f).
(** particle_harmonics: the weighted mean of the harmonics over the bonds, NaN when the weights sum to zero. *)
Theorem C62_harmonics : length (sl_qlm s') = np /\ forall i, (i < np)%nat ->
  (has_mean (sc_weighted c) f i -> nth i (sl_qlm s') [] = rowval l (q_point l (sc_weighted c) f i)) /\ (~ has_mean (sc_weighted c) f i -> nth i (sl_qlm s') [] = norow l).
Proof. destruct st_done as ((L & _ & H) & _). split; [exact L|]. intros i Hi. destruct (H i Hi) as [A B]. split; intros X; [apply A|apply B]; exact X. Qed.
(** ql *)
Theorem C62_ql : length (st_get_ql c s') = np /\ forall i, (i < np)%nat ->
  (ok_used c f i -> nth i (st_get_ql c s') None = Some (invariant l (q_used c l f i))) /\ (~ ok_used c f i -> nth i (st_get_ql c s') None = None).
Proof.
  destruct st_done as ((_ & L & H) & HA & _). unfold st_get_ql, ok_used, q_used. destruct (sc_average c).
  - destruct (HA eq_refl) as (_ & LA & HA'). split; [exact LA|]. intros i Hi. destruct (HA' i Hi) as [A B]. split; intros X; [apply A|apply B]; exact X.
  - split; [exact L|]. intros i Hi. destruct (H i Hi) as [A B]. split; intros X; [apply A|apply B]; exact X.
Qed.
(** particle_order and order without w_l *)
Theorem C62_order : sc_wl c = false -> st_get_particle_order c s' = st_get_ql c s' /\
  ((forall i, (i < np)%nat -> ok_used c f i) -> sl_order s' = Some (invariant l (q_all (q_used c l f) np))) /\ (~ (forall i, (i < np)%nat -> ok_used c f i) -> sl_order s' = None).
Proof.
  intros W. destruct st_done as (_ & _ & (S1 & S2) & O & _). rewrite (O W). split; [unfold st_get_particle_order; rewrite W; reflexivity|]. split; intros X.
  - rewrite (S1 X). apply st_norm_rowval.
  - rewrite (S2 X). apply st_norm_norow.
Qed.
(** particle_order and order with w_l: the sum over all m1 + m2 + m3 = 0, each triple once. *)
Theorem C62_wl t w pairs : sc_wl c = true -> table l = Some t -> table_ok l w t -> enumerates l pairs -> length (st_get_particle_order c s') = np /\
  (forall i, (i < np)%nat -> (ok_used c f i -> nth i (st_get_particle_order c s') None = w_value (sc_normalize c) l w (q_used c l f i) pairs) /\ (~ ok_used c f i -> nth i (st_get_particle_order c s') None = None)) /\
  ((forall i, (i < np)%nat -> ok_used c f i) -> sl_order s' = w_value (sc_normalize c) l w (q_all (q_used c l f) np) pairs) /\ (~ (forall i, (i < np)%nat -> ok_used c f i) -> sl_order s' = None).
Proof.
  intros W T TO EN. destruct st_done as ((_ & _ & H) & HA & (S1 & S2) & _ & O). destruct (O W) as (t' & T' & LW & HW & HO). rewrite T in T'. injection T' as <-. unfold st_get_particle_order. rewrite W.
  assert (CELL : forall i, (i < np)%nat -> cell l (nth i (if sc_average c then sl_qlm_ave s' else sl_qlm s') []) (nth i (if sc_average c then sl_ql_ave s' else sl_ql s') None) (q_used c l f i) (ok_used c f i)).
  { intros i Hi. unfold q_used, ok_used. destruct (sc_average c); [destruct (HA eq_refl) as (_ & _ & HA'); apply HA'|apply H]; exact Hi. }
  split; [exact LW|]. split; [|split; intros X].
  - intros i Hi. specialize (HW i Hi). destruct (used_cell c l f i _ _ Hi (CELL i Hi) w t (sc_normalize c) TO) as (x & E & A & B). rewrite E in HW. injection HW as <-.
    split; intros X; [rewrite (A X); apply w_value_perm; [apply m_pairs_enum|exact EN]|exact (B X)].
  - rewrite (S1 X), st_norm_rowval, (st_wl_value l w t) in HO by exact TO. injection HO as <-. apply w_value_perm; [apply m_pairs_enum|exact EN].
  - rewrite (S2 X), st_norm_norow, (st_wl_none l w t) in HO by exact TO. injection HO as <-. reflexivity.
Qed.
End calls.

(** * q_l is a function of the angles between bonds *)
Lemma qmean_comb l weighted vec bs k : qmean l weighted vec bs k = comb l vec (map (fun nb => (/ wtot weighted bs * hweight weighted nb, nb)) bs) k.
Proof.
  unfold qmean, comb. set (t := / wtot weighted bs). clearbody t. induction bs as [|nb bs IH]; [unfold cscale; simpl; unfold c0; f_equal; ring|]. cbn [yterms map wsum fold_right csuml fst snd] in *. unfold yterms, wsum in IH. rewrite <- IH.
  rewrite !cscale_cr, cr_mul. ring.
Qed.
Lemma legs_map {A} l vec (g : A -> R) t bs : legs l vec (map (fun a => (t * g a, a)) bs) (map (fun a => (t * g a, a)) bs) = t * t * rsuml (fun a => rsuml (fun a' => g a * g a' * legendre l (dot (bdir (vec a)) (bdir (vec a')))) bs) bs.
Proof.
  unfold legs. assert (M : forall (B C : Type) (p : B -> C) (g : C -> R) l, rsuml g (map p l) = rsuml (fun x => g (p x)) l) by (intros B C p g' l'; induction l' as [|x l' IH]; simpl; [reflexivity|rewrite IH; reflexivity]).
  rewrite M, <- rsuml_scale. apply rsuml_ext. intros a _. rewrite M, <- rsuml_scale. apply rsuml_ext. intros a' _. cbn [fst snd]. ring.
Qed.
(** q_l^2 is the weighted mean of P_l(cos angle) over all ordered pairs of bonds. *)
Theorem C62_angles l weighted vec bs : wtot weighted bs <> 0 -> 0 <= invariant l (qmean l weighted vec bs) /\
  invariant l (qmean l weighted vec bs) ^ 2 * wtot weighted bs ^ 2 = angle_sum l weighted vec vec bs bs.
Proof.
  intros W. rewrite (comb_invariant l vec (map (fun nb => (/ wtot weighted bs * hweight weighted nb, nb)) bs) _ (fun k _ => qmean_comb l weighted vec bs k)).
  split; [apply sqrt_pos|]. replace (sqrt _ ^ 2) with (legs l vec (map (fun nb => (/ wtot weighted bs * hweight weighted nb, nb)) bs) (map (fun nb => (/ wtot weighted bs * hweight weighted nb, nb)) bs)).
  - rewrite legs_map. unfold angle_sum. field. exact W.
  - rewrite <- Rsqr_pow2. symmetry. apply Rsqr_sqrt. apply legs_nonneg.
Qed.
Lemma wtot_rsuml weighted bs : wtot weighted bs = rsuml (hweight weighted) bs.
Proof. unfold wtot. induction bs as [|b bs IH]; simpl; [reflexivity|]. rewrite IH. reflexivity. Qed.
Lemma square_rsuml {A} (g : A -> R) bs bs' : rsuml (fun a => rsuml (fun a' => g a * g a') bs') bs = rsuml g bs * rsuml g bs'.
Proof. transitivity (rsuml (fun a => rsuml g bs' * g a) bs); [apply rsuml_ext; intros a _; rewrite rsuml_scale; ring|]. rewrite rsuml_scale. ring. Qed.
Lemma rsuml_eq_terms {A} (f g : A -> R) l : (forall x, In x l -> f x <= g x) -> rsuml f l = rsuml g l -> forall x, In x l -> f x = g x.
Proof.
  induction l as [|y l IH]; simpl; intros H E x I; [contradiction|]. assert (L := rsuml_le f g l (fun x Hx => H x (or_intror Hx))). assert (Y := H y (or_introl eq_refl)).
  destruct I as [<-|I]; [lra|]. apply IH; auto. lra.
Qed.
Lemma sq_one x : 0 <= x -> x ^ 2 = 1 -> x = 1. Proof. intros. nra. Qed.
(** With non-negative weights 0 <= q_l <= 1, and q_l = 1 exactly when every two bonds of positive weight have P_l(cos angle) = 1. *)
Theorem C62_bound l weighted vec bs : (forall nb, In nb bs -> 0 <= hweight weighted nb) -> wtot weighted bs <> 0 ->
  0 <= invariant l (qmean l weighted vec bs) <= 1 /\
  (invariant l (qmean l weighted vec bs) = 1 <-> forall a a', In a bs -> In a' bs -> 0 < hweight weighted a -> 0 < hweight weighted a' -> legendre l (dot (bdir (vec a)) (bdir (vec a'))) = 1).
Proof.
  intros P W. destruct (C62_angles l weighted vec bs W) as [N E]. set (q := invariant _ _) in *.
  assert (WP : 0 < wtot weighted bs ^ 2) by (rewrite <- Rsqr_pow2; apply Rlt_0_sqr; exact W).
  assert (T : forall a a', In a bs -> In a' bs -> hweight weighted a * hweight weighted a' * legendre l (dot (bdir (vec a)) (bdir (vec a'))) <= hweight weighted a * hweight weighted a').
  { intros a a' Ha Ha'. assert (B := legendre_bound l _ _ (bdir_unit (vec a)) (bdir_unit (vec a'))). assert (Q : 0 <= hweight weighted a * hweight weighted a') by (apply Rmult_le_pos; auto). nra. }
  assert (S2 : rsuml (fun a => rsuml (fun a' => hweight weighted a * hweight weighted a') bs) bs = wtot weighted bs ^ 2) by (rewrite square_rsuml, wtot_rsuml; ring).
  assert (LE : angle_sum l weighted vec vec bs bs <= wtot weighted bs ^ 2).
  { rewrite <- S2. unfold angle_sum. apply rsuml_le. intros a Ha. apply rsuml_le. intros a' Ha'. apply T; assumption. }
  split; [split; [exact N|]|split].
  - assert (q ^ 2 <= 1) by (rewrite <- E in LE; apply (Rmult_le_reg_r _ _ _ WP); lra). nra.
  - intros Q1 a a' Ha Ha' Pa Pa'. rewrite Q1 in E. replace (1 ^ 2 * wtot weighted bs ^ 2) with (wtot weighted bs ^ 2) in E by ring. rewrite <- S2 in E. unfold angle_sum in E. symmetry in E.
    assert (R1 := rsuml_eq_terms _ _ bs (fun a Ha => rsuml_le _ _ bs (fun a' Ha' => T a a' Ha Ha')) E a Ha). cbv beta in R1.
    assert (R2 := rsuml_eq_terms _ _ bs (fun a' Ha' => T a a' Ha Ha') R1 a' Ha'). cbv beta in R2. apply (Rmult_eq_reg_l (hweight weighted a * hweight weighted a')); [lra|]. assert (0 < hweight weighted a * hweight weighted a') by (apply Rmult_lt_0_compat; assumption). lra.
  - intros H. apply sq_one; [exact N|]. apply (Rmult_eq_reg_r (wtot weighted bs ^ 2)); [|lra]. rewrite E, Rmult_1_l, <- S2. unfold angle_sum. apply rsuml_ext. intros a Ha. apply rsuml_ext. intros a' Ha'.
    destruct (Req_EM_T (hweight weighted a) 0) as [Z|Z]; [rewrite Z; ring|]. destruct (Req_EM_T (hweight weighted a') 0) as [Z'|Z']; [rewrite Z'; ring|].
    assert (A1 := P a Ha). assert (A2 := P a' Ha'). rewrite H by (assumption || lra). ring.
Qed.
(** In particular for bonds along one direction, and for even l also along its opposite. *)
Theorem C62_aligned l weighted vec bs u : (forall nb, In nb bs -> 0 <= hweight weighted nb) -> wtot weighted bs <> 0 -> dot u u = 1 ->
  (forall nb, In nb bs -> bdir (vec nb) = u \/ Nat.even l = true /\ bdir (vec nb) = vscale (-1) u) -> invariant l (qmean l weighted vec bs) = 1.
Proof.
  intros P W U H. apply (proj2 (C62_bound l weighted vec bs P W)). intros a a' Ha Ha' _ _.
  assert (M1 : dot (vscale (-1) u) u = - (1)) by (rewrite <- U; unfold dot, vscale; simpl; ring). assert (M2 : dot u (vscale (-1) u) = - (1)) by (rewrite <- U; unfold dot, vscale; simpl; ring).
  assert (M3 : dot (vscale (-1) u) (vscale (-1) u) = 1) by (rewrite <- U; unfold dot, vscale; simpl; ring).
  assert (EV : Nat.even l = true -> legendre l (- (1)) = 1).
  { intros E. rewrite legendre_neg, legendre_one. apply Nat.even_spec in E as (m & ->). rewrite pow_1_even. ring. }
  destruct (H a Ha) as [->|[E ->]], (H a' Ha') as [->|[E' ->]]; rewrite ?U, ?M1, ?M2, ?M3; auto using legendre_one.
Qed.

(** * Invariance *)
Definition tok : Type := (nat * bond)%type.
Definition tvec (f : st_in) (t : tok) : vec3 := hvec (si_box f) (si_pts f) (fst t) (snd t).
Definition point_terms (weighted : bool) (f : st_in) (i : nat) : list (R * tok) := map (fun nb => (/ wtot weighted (si_bonds f i) * hweight weighted nb, (i, nb))) (si_bonds f i).
Definition scaled (t : R) (T : list (R * tok)) : list (R * tok) := map (fun x => (t * fst x, snd x)) T.
Definition shell_terms weighted f i := scaled (/ INR (S (length (si_bonds f i)))) (point_terms weighted f i ++ flat_map (fun nb => point_terms weighted f (bp nb)) (si_bonds f i)).
Lemma comb_app {A} l (vec : A -> vec3) T T' k : comb l vec (T ++ T') k = cadd (comb l vec T k) (comb l vec T' k).
Proof. unfold comb. induction T as [|t T IH]; cbn [app csuml]; [ring|]. rewrite IH. ring. Qed.
Lemma comb_flat {A B} l (vec : A -> vec3) (g : B -> list (R * A)) bs k : comb l vec (flat_map g bs) k = csuml (fun x => comb l vec (g x) k) bs.
Proof. induction bs as [|x bs IH]; [reflexivity|]. cbn [flat_map csuml]. rewrite comb_app, IH. reflexivity. Qed.
Lemma comb_scaled l f t T k : comb l (tvec f) (scaled t T) k = cscale t (comb l (tvec f) T k).
Proof. unfold comb, scaled. rewrite <- csuml_scale. induction T as [|x T IH]; [reflexivity|]. cbn [map csuml fst snd]. rewrite IH. f_equal. rewrite !cscale_cr, cr_mul. ring. Qed.
Lemma point_comb l weighted f i k : q_point l weighted f i k = comb l (tvec f) (point_terms weighted f i) k.
Proof. unfold q_point. rewrite qmean_comb. unfold comb, point_terms. induction (si_bonds f i) as [|x bs IH] at 2 4; [reflexivity|]. cbn [map csuml fst snd]. rewrite IH. reflexivity. Qed.
Lemma shell_comb l weighted f i k : q_shell l weighted f i k = comb l (tvec f) (shell_terms weighted f i) k.
Proof.
  unfold q_shell, shell_terms. rewrite comb_scaled, comb_app, comb_flat, <- point_comb. f_equal. f_equal. apply csuml_ext. intros nb _. apply point_comb.
Qed.
Definition used_terms c f i := if sc_average c then shell_terms (sc_weighted c) f i else point_terms (sc_weighted c) f i.
Lemma used_comb c l f i k : q_used c l f i k = comb l (tvec f) (used_terms c f i) k.
Proof. unfold q_used, used_terms. destruct (sc_average c); [apply shell_comb|apply point_comb]. Qed.
Definition all_terms c f := scaled (/ INR (length (si_pts f))) (flat_map (used_terms c f) (seq 0 (length (si_pts f)))).
Lemma all_comb c l f k : q_all (q_used c l f) (length (si_pts f)) k = comb l (tvec f) (all_terms c f) k.
Proof. unfold q_all, all_terms. rewrite comb_scaled, comb_flat. f_equal. apply csuml_ext. intros i _. apply used_comb. Qed.
(** where terms come from *)
Definition good (f : st_in) (t : tok) : Prop := (fst t < length (si_pts f))%nat /\ In (snd t) (si_bonds f (fst t)).
Lemma point_good w f i x : (i < length (si_pts f))%nat -> In x (point_terms w f i) -> good f (snd x).
Proof. intros Hi H. apply in_map_iff in H as (nb & <- & H). split; assumption. Qed.
Lemma used_good c f i x : hbonds_ok (length (si_pts f)) (si_bonds f) -> (i < length (si_pts f))%nat -> In x (used_terms c f i) -> good f (snd x).
Proof.
  intros HB Hi. unfold used_terms. destruct (sc_average c); [|apply point_good; exact Hi]. unfold shell_terms, scaled. intros H. apply in_map_iff in H as (y & <- & H). cbn [snd].
  apply in_app_or in H as [H|H]; [exact (point_good _ f i y Hi H)|]. apply in_flat_map in H as (nb & I & H). exact (point_good _ f (bp nb) y (HB i nb Hi I) H).
Qed.
Lemma all_good c f x : hbonds_ok (length (si_pts f)) (si_bonds f) -> In x (all_terms c f) -> good f (snd x).
Proof.
  intros HB H. apply in_map_iff in H as (y & <- & H). cbn [snd]. apply in_flat_map in H as (i & I & H). apply in_seq in I. apply (used_good c f i); [exact HB|lia|exact H].
Qed.
Lemma bdir_dot u v u' v' : u <> v0 -> v <> v0 -> dot u v = dot u' v' -> dot u u = dot u' u' -> dot v v = dot v' v' -> dot (bdir u) (bdir v) = dot (bdir u') (bdir v').
Proof.
  intros NU NV D DU DV. assert (LU : len u <> 0) by (intros Z; apply NU, len_zero, Z). assert (LV : len v <> 0) by (intros Z; apply NV, len_zero, Z).
  assert (EU : len u' = len u) by (unfold len; rewrite DU; reflexivity). assert (EV : len v' = len v) by (unfold len; rewrite DV; reflexivity).
  unfold bdir. rewrite EU, EV. destruct (Req_EM_T (len u) 0); [contradiction|]. destruct (Req_EM_T (len v) 0); [contradiction|].
  transitivity (/ len u * / len v * dot u v); [unfold dot, vscale; simpl; ring|]. rewrite D. unfold dot, vscale; simpl; ring.
Qed.
Lemma legs_congruent l f f' T : congruent_calls f f' -> (forall x, In x T -> good f (snd x)) -> legs l (tvec f) T T = legs l (tvec f') T T.
Proof.
  intros (_ & _ & D & NZ) G. unfold legs. apply rsuml_ext. intros x Hx. apply rsuml_ext. intros y Hy. destruct (G x Hx) as [G1 G2]. destruct (G y Hy) as [G3 G4]. f_equal. f_equal.
  apply bdir_dot; unfold tvec; auto.
Qed.
Lemma congruent_terms c f f' : congruent_calls f f' -> (forall i, used_terms c f i = used_terms c f' i) /\ all_terms c f = all_terms c f' /\ forall i, ok_used c f i <-> ok_used c f' i.
Proof.
  intros (L & B & _). assert (U : forall i, used_terms c f i = used_terms c f' i) by (intros i; unfold used_terms, shell_terms, point_terms; rewrite B; reflexivity).
  split; [exact U|]. split; [unfold all_terms; rewrite L; f_equal; apply flat_map_ext; exact U|]. intros i. unfold ok_used, shell_ok, has_mean. rewrite B. reflexivity.
Qed.
(** Two calls whose bond vectors differ by a rotation or reflection (any change keeping lengths and angles) give the same values. *)
Theorem C62_rotation l c f f' : congruent_calls f f' -> hbonds_ok (length (si_pts f)) (si_bonds f) ->
  (forall i, (i < length (si_pts f))%nat -> invariant l (q_used c l f i) = invariant l (q_used c l f' i)) /\
  invariant l (q_all (q_used c l f) (length (si_pts f))) = invariant l (q_all (q_used c l f') (length (si_pts f'))) /\ (forall i, ok_used c f i <-> ok_used c f' i).
Proof.
  intros C HB. destruct (congruent_terms c f f' C) as (U & A & O). split; [|split; [|exact O]].
  - intros i Hi. rewrite (comb_invariant l (tvec f) _ _ (fun k _ => used_comb c l f i k)). rewrite (comb_invariant l (tvec f') _ _ (fun k _ => used_comb c l f' i k)). rewrite <- U. f_equal.
    apply legs_congruent; [exact C|]. intros x. apply used_good; assumption.
  - rewrite (comb_invariant l (tvec f) _ _ (fun k _ => all_comb c l f k)). rewrite (comb_invariant l (tvec f') _ _ (fun k _ => all_comb c l f' k)). rewrite <- A. f_equal.
    apply legs_congruent; [exact C|]. intros x. apply all_good; assumption.
Qed.
(** The same at the level of the object's properties. *)
Theorem C62_rotation_results fsph table c l h s s1 h' s' s1' f f' : fsph_ok fsph l -> (sc_wl c = true -> forall t, table l = Some t -> exists w, table_ok l w t) ->
  Forall (st_ok l) h -> Forall (st_ok l) h' -> st_run fsph table c l stl_new h = STDone s -> st_run fsph table c l stl_new h' = STDone s' -> st_ok l f -> st_ok l f' -> congruent_calls f f' ->
  st_call fsph table c l s f = STDone s1 -> st_call fsph table c l s' f' = STDone s1' -> st_get_ql c s1 = st_get_ql c s1' /\ (sc_wl c = false -> sl_order s1 = sl_order s1').
Proof.
  intros F TB H1 H2 R1 R2 O1 O2 C D1 D2. destruct (C62_rotation l c f f' C (proj1 O1)) as (Q & QA & OK). assert (L := proj1 C).
  destruct (C62_ql fsph table c l h s s1 f F TB H1 R1 O1 D1) as [L1 V1]. destruct (C62_ql fsph table c l h' s' s1' f' F TB H2 R2 O2 D2) as [L2 V2]. split.
  - apply (nth_ext _ _ None None); [congruence|]. intros i Hi. rewrite L1 in Hi. destruct (V1 i Hi) as [A1 B1]. destruct (V2 i ltac:(rewrite <- L; exact Hi)) as [A2 B2]. destruct (classic (ok_used c f i)) as [X|X].
    + rewrite (A1 X), (A2 (proj1 (OK i) X)), (Q i Hi). reflexivity.
    + rewrite (B1 X), B2; [reflexivity|]. intros Y. apply X, OK, Y.
  - intros W. destruct (C62_order fsph table c l h s s1 f F TB H1 R1 O1 D1 W) as (_ & A1 & B1). destruct (C62_order fsph table c l h' s' s1' f' F TB H2 R2 O2 D2 W) as (_ & A2 & B2).
    destruct (classic (forall i, (i < length (si_pts f))%nat -> ok_used c f i)) as [X|X].
    + rewrite (A1 X), A2, QA; [reflexivity|]. intros i Hi. apply OK, X. rewrite L. exact Hi.
    + rewrite (B1 X), B2; [reflexivity|]. intros Y. apply X. intros i Hi. apply OK, Y. rewrite <- L. exact Hi.
Qed.
Lemma wsum_perm T T' : Permutation T T' -> wsum T = wsum T'.
Proof. unfold wsum. induction 1 as [|x a b P IH|x y a|a b d P1 I1 P2 I2]; cbn [fold_right]; [reflexivity|rewrite IH; reflexivity|ring|congruence]. Qed.
Lemma wtot_perm w bs bs' : Permutation bs bs' -> wtot w bs = wtot w bs'.
Proof. unfold wtot. induction 1 as [|x a b P IH|x y a|a b d P1 I1 P2 I2]; cbn [fold_right]; [reflexivity|rewrite IH; reflexivity|ring|congruence]. Qed.
Lemma csuml_perm {A} (g : A -> cplx) a a' : Permutation a a' -> csuml g a = csuml g a'.
Proof. induction 1 as [|x a b P IH|x y a|a b d P1 I1 P2 I2]; cbn [csuml]; [reflexivity|rewrite IH; reflexivity|ring|congruence]. Qed.
(** The order of the neighbours does not matter. *)
Theorem C62_permutation l c b pts bonds bonds' e1 e2 e3 e4 g1 g2 g3 g4 : (forall i, Permutation (bonds i) (bonds' i)) ->
  let f := STI b pts bonds e1 e2 e3 e4 in let f' := STI b pts bonds' g1 g2 g3 g4 in
  (forall i k, q_used c l f i k = q_used c l f' i k) /\ (forall i, ok_used c f i <-> ok_used c f' i).
Proof.
  intros P f f'. assert (Q : forall w i k, q_point l w f i k = q_point l w f' i k).
  { intros w i k. unfold q_point, qmean, f, f'; cbn [si_bonds si_box si_pts]. rewrite (wtot_perm w _ _ (P i)). f_equal. apply wsum_perm. apply Permutation_map. apply P. }
  assert (H : forall w i, has_mean w f i <-> has_mean w f' i) by (intros w i; unfold has_mean, f, f'; cbn [si_bonds]; rewrite (wtot_perm w _ _ (P i)); reflexivity). split.
  - intros i k. unfold q_used. destruct (sc_average c); [|apply Q]. unfold q_shell. rewrite Q. unfold f at 1 2, f' at 1 3; cbn [si_bonds]. rewrite (Permutation_length (P i)). f_equal. f_equal. rewrite (csuml_perm _ _ _ (P i)). apply csuml_ext. intros nb _. apply Q.
  - intros i. unfold ok_used. destruct (sc_average c); [|apply H]. unfold shell_ok. rewrite H. split; intros [A B]; (split; [exact A|]); intros nb I; apply H, B; [apply (Permutation_in _ (Permutation_sym (P i)) I)|apply (Permutation_in _ (P i) I)].
Qed.
(** Multiplying the weights of a point's bonds by a non-zero number changes nothing. *)
Theorem C62_weights l vec bs t k : t <> 0 ->
  qmean l true vec (map (fun nb => Bond (bq nb) (bp nb) (bd nb) (t * bw nb) (bv nb)) bs) k = qmean l true (fun nb => vec (Bond (bq nb) (bp nb) (bd nb) (t * bw nb) (bv nb))) bs k.
Proof.
  intros T. unfold qmean. set (g := fun nb => Bond (bq nb) (bp nb) (bd nb) (t * bw nb) (bv nb)).
  assert (W : wtot true (map g bs) = t * wtot true bs) by (unfold wtot; induction bs as [|x bs IH]; cbn [map fold_right]; [ring|]; rewrite IH; unfold hweight; simpl; ring).
  assert (S : wsum (yterms l k true vec (map g bs)) = cscale t (wsum (yterms l k true (fun nb => vec (g nb)) bs))).
  { unfold wsum, yterms. clear W. induction bs as [|x bs IH]; cbn [map fold_right fst snd]; [unfold cscale, c0; simpl; f_equal; ring|]. rewrite IH. change (hweight true (g x)) with (t * hweight true x). rewrite !cscale_cr, cr_mul. ring. }
  change (cscale (/ wtot true (map g bs)) (wsum (yterms l k true vec (map g bs))) = cscale (/ wtot true bs) (wsum (yterms l k true (fun nb => vec (g nb)) bs))). rewrite W, S. rewrite !cscale_cr. destruct (Req_EM_T (wtot true bs) 0) as [Z|Z].
  - rewrite Z, Rmult_0_r, Rinv_0. replace (cr 0) with c0 by reflexivity. ring.
  - rewrite Rinv_mult. rewrite cr_mul. transitivity (cmul (cmul (cr (/ t)) (cr t)) (cmul (cr (/ wtot true bs)) (wsum (yterms l k true (fun nb => vec (g nb)) bs)))); [ring|]. rewrite <- cr_mul, Rinv_l, cr_1 by exact T. ring.
Qed.

(** * Concrete cases *)
Definition fsph_ref (l i : nat) (theta phi : R) : cplx := cscale (if ((i <=? l) && Nat.odd i)%nat%bool then -1 else 1) (harm l (m_of l i) (sphere theta phi)).
Lemma fsph_ref_ok l : fsph_ok fsph_ref l. Proof. intros i theta phi _. reflexivity. Qed.
Definition ev_all (n : nat) : list (nat * nat) := map (fun i => (0%nat, i)) (range 0 n).
Lemma ev_all_ok n : (0 < n)%nat -> execution 0 n (ev_all n).
Proof. intros H. apply sequential_execution. Qed.
Lemma ex_small v : -5 < vx v < 5 -> -5 < vy v < 5 -> -5 < vz v < 5 -> wrap ex_cube v = v.
Proof.
  intros X Y Z. apply wrap_fix; [apply ex_cube_positive|discriminate|]. unfold make_fractional, ex_cube; simpl. repeat split; intros; lra.
Qed.
Definition ex_st (pts : list vec3) (bonds : nat -> list bond) : st_in := STI ex_cube pts bonds (ev_all (length pts)) (ev_all (length pts)) (ev_all 3) (ev_all (length pts)).
Lemma legendre_1 x : legendre 1 x = x.
Proof. unfold legendre. simpl. field. Qed.
Lemma bdir_1 v : dot v v = 1 -> bdir v = v.
Proof. intros U. unfold bdir, len. rewrite U, sqrt_1. destruct (Req_EM_T 1 0); [lra|]. apply vec_eq; unfold vscale; simpl; field. Qed.
Lemma bdir_0 : bdir v0 = V3 0 0 1.
Proof. unfold bdir, len. replace (dot v0 v0) with 0 by (unfold dot; simpl; ring). rewrite sqrt_0. destruct (Req_EM_T 0 0); [reflexivity|lra]. Qed.
Definition pair_bonds (i : nat) : list bond := match i with O => [Bond 0 1 1 1 (V3 1 0 0)] | 1%nat => [Bond 1 0 1 1 (V3 (-1) 0 0)] | _ => [] end.
Definition ex_pair : st_in := ex_st [v0; V3 1 0 0] pair_bonds.
Lemma hv0 : hvec ex_cube [v0; V3 1 0 0] 0 (Bond 0 1 1 1 (V3 1 0 0)) = V3 1 0 0.
Proof. unfold hvec; simpl. rewrite ex_small; unfold vsub; simpl; try lra. apply vec_eq; simpl; ring. Qed.
Lemma hv1 : hvec ex_cube [v0; V3 1 0 0] 1 (Bond 1 0 1 1 (V3 (-1) 0 0)) = V3 (-1) 0 0.
Proof. unfold hvec; simpl. rewrite ex_small; unfold vsub; simpl; try lra. apply vec_eq; simpl; ring. Qed.
Lemma len_1 v : dot v v = 1 -> len v = 1. Proof. intros H. unfold len. rewrite H. apply sqrt_1. Qed.
Lemma ex_pair_ok : st_ok 1 ex_pair.
Proof.
  split; [|split].
  - intros [|[|i]] nb Hi H; simpl in *; try contradiction; destruct H as [<-|[]]; simpl; lia.
  - intros [|[|i]] nb Hi H; simpl in *; try contradiction; destruct H as [<-|[]]; cbn [bd]; [rewrite hv0|rewrite hv1]; symmetry; apply len_1; unfold dot; simpl; ring.
  - repeat split; apply ev_all_ok; simpl; lia.
Qed.
(** The documentation says that `ql` is the plain q_l whatever `average` is: here the plain value is 1 and the reported one 0. *)
Theorem C62_plain_ql_refuted : exists f s', st_ok 1 f /\ st_call fsph_ref (fun _ => None) (STC true false false false) 1 stl_new f = STDone s' /\
  invariant 1 (q_point 1 false f 0) = 1 /\ nth 0 (st_get_ql (STC true false false false) s') None = Some 0.
Proof.
  set (c := STC true false false false). assert (TB : sc_wl c = true -> forall t, (fun _ : nat => @None (list R)) 1%nat = Some t -> exists w, table_ok 1 w t) by discriminate.
  destruct (C62_accept fsph_ref (fun _ => None) c 1 [] stl_new ex_pair (fsph_ref_ok 1) TB (Forall_nil _) eq_refl ex_pair_ok) as [_ (s' & D)]; [intros [X _]; discriminate|].
  exists ex_pair, s'. split; [exact ex_pair_ok|]. split; [exact D|]. split.
  - apply (C62_aligned 1 false (hvec (si_box ex_pair) (si_pts ex_pair) 0) _ (V3 1 0 0)).
    + intros nb _. simpl. lra.
    + simpl. lra.
    + unfold dot; simpl; ring.
    + intros nb [<-|[]]. left. simpl. rewrite hv0. apply bdir_1. unfold dot; simpl; ring.
  - destruct (C62_ql fsph_ref (fun _ => None) c 1 [] stl_new s' ex_pair (fsph_ref_ok 1) TB (Forall_nil _) eq_refl ex_pair_ok D) as [_ V]. destruct (V 0%nat ltac:(simpl; lia)) as [A _]. rewrite A.
    + f_equal. rewrite (comb_invariant 1 (tvec ex_pair) _ _ (fun k _ => used_comb c 1 ex_pair 0 k)). rewrite <- sqrt_0. f_equal. unfold used_terms, shell_terms, scaled, point_terms, legs. simpl.
      unfold tvec; simpl. rewrite hv0, hv1, !bdir_1 by (unfold dot; simpl; ring). rewrite !legendre_1. unfold dot; simpl. field.
    + split; [unfold has_mean; simpl; lra|]. intros nb [<-|[]]. unfold has_mean; simpl; lra.
Qed.
Definition lone_bonds (i : nat) : list bond := match i with O => [Bond 0 1 1 1 (V3 1 0 0)] | _ => [] end.
Definition ex_lone : st_in := ex_st [v0; V3 1 0 0] lone_bonds.
Lemma ex_lone_ok : st_ok 1 ex_lone.
Proof.
  split; [|split].
  - intros [|i] nb Hi H; simpl in *; try contradiction; destruct H as [<-|[]]; simpl; lia.
  - intros [|i] nb Hi H; simpl in *; try contradiction; destruct H as [<-|[]]; cbn [bd]; rewrite hv0; symmetry; apply len_1; unfold dot; simpl; ring.
  - repeat split; apply ev_all_ok; simpl; lia.
Qed.
(** NaN is documented for particles without neighbours; with `average` a particle that has neighbours gets it too. *)
Theorem C62_nan_only_refuted : exists f s' i, st_ok 1 f /\ st_call fsph_ref (fun _ => None) (STC true false false false) 1 stl_new f = STDone s' /\
  (i < length (si_pts f))%nat /\ si_bonds f i <> [] /\ nth i (st_get_ql (STC true false false false) s') None = None.
Proof.
  set (c := STC true false false false). assert (TB : sc_wl c = true -> forall t, (fun _ : nat => @None (list R)) 1%nat = Some t -> exists w, table_ok 1 w t) by discriminate.
  destruct (C62_accept fsph_ref (fun _ => None) c 1 [] stl_new ex_lone (fsph_ref_ok 1) TB (Forall_nil _) eq_refl ex_lone_ok) as [_ (s' & D)]; [intros [X _]; discriminate|].
  exists ex_lone, s', 0%nat. split; [exact ex_lone_ok|]. split; [exact D|]. split; [simpl; lia|]. split; [discriminate|].
  destruct (C62_ql fsph_ref (fun _ => None) c 1 [] stl_new s' ex_lone (fsph_ref_ok 1) TB (Forall_nil _) eq_refl ex_lone_ok D) as [_ V]. destruct (V 0%nat ltac:(simpl; lia)) as [_ B]. apply B.
  intros [_ N]. apply (N _ (or_introl eq_refl)). reflexivity.
Qed.
(** Bonds of length zero count as pointing along z, so rotating the rest changes q_l. *)
Theorem C62_coincident_refuted : exists vec vec' bs, (forall a a', In a bs -> In a' bs -> dot (vec a) (vec a') = dot (vec' a) (vec' a')) /\ wtot false bs <> 0 /\
  invariant 1 (qmean 1 false vec bs) <> invariant 1 (qmean 1 false vec' bs).
Proof.
  set (vec := fun nb => if Nat.eqb (bp nb) 1 then v0 else V3 1 0 0). set (vec' := fun nb => if Nat.eqb (bp nb) 1 then v0 else V3 0 0 1). set (bs := [Bond 0 1 0 1 v0; Bond 0 2 1 1 v0]).
  exists vec, vec', bs. split; [|split].
  - intros a a' [<-|[<-|[]]] [<-|[<-|[]]]; unfold vec, vec', dot; simpl; ring.
  - simpl. lra.
  - destruct (C62_angles 1 false vec bs ltac:(simpl; lra)) as [_ E]. destruct (C62_angles 1 false vec' bs ltac:(simpl; lra)) as [_ E']. intros Q. rewrite Q, E' in E. revert E.
    unfold angle_sum, bs, vec, vec'. simpl. rewrite bdir_0, !bdir_1, !legendre_1 by (unfold dot; simpl; ring). unfold dot; simpl. lra.
Qed.
(** Negative weights break the bound. *)
Theorem C62_negative_weights_refuted : exists vec bs, wtot true bs <> 0 /\ 1 < invariant 1 (qmean 1 true vec bs).
Proof.
  exists bv, [Bond 0 1 1 2 (V3 1 0 0); Bond 0 2 1 (-1) (V3 (-1) 0 0)]. set (bs := [_; _]). assert (W : wtot true bs <> 0) by (simpl; lra). split; [exact W|].
  destruct (C62_angles 1 true bv bs W) as [N E]. revert E. set (q := invariant _ _) in *. unfold angle_sum, bs; simpl. rewrite !bdir_1, !legendre_1 by (unfold dot; simpl; ring). unfold dot; simpl. intros E. nra.
Qed.
Example C62_ex : exists s', st_call fsph_ref (fun _ => None) (STC false false true false) 1 stl_new ex_pair = STDone s' /\ nth 0 (st_get_ql (STC false false true false) s') None = Some 1 /\ congruent_calls ex_pair ex_pair.
Proof.
  set (c := STC false false true false). assert (TB : sc_wl c = true -> forall t, (fun _ : nat => @None (list R)) 1%nat = Some t -> exists w, table_ok 1 w t) by discriminate.
  destruct (C62_accept fsph_ref (fun _ => None) c 1 [] stl_new ex_pair (fsph_ref_ok 1) TB (Forall_nil _) eq_refl ex_pair_ok) as [_ (s' & D)]; [intros [X _]; discriminate|].
  exists s'. split; [exact D|]. split.
  - destruct (C62_ql fsph_ref (fun _ => None) c 1 [] stl_new s' ex_pair (fsph_ref_ok 1) TB (Forall_nil _) eq_refl ex_pair_ok D) as [_ V]. destruct (V 0%nat ltac:(simpl; lia)) as [A _]. rewrite A by (unfold ok_used, has_mean; simpl; lra). f_equal.
    apply (C62_aligned 1 true (hvec (si_box ex_pair) (si_pts ex_pair) 0) _ (V3 1 0 0)).
    + intros nb [<-|[]]. simpl. lra.
    + simpl. lra.
    + unfold dot; simpl; ring.
    + intros nb [<-|[]]. left. simpl. rewrite hv0. apply bdir_1. unfold dot; simpl; ring.
  - split; [reflexivity|]. split; [reflexivity|]. split; [reflexivity|]. intros [|[|i]] a Hi H; simpl in *; try contradiction; destruct H as [<-|[]]; [rewrite hv0|rewrite hv1]; intros E; injection E; lra.
Qed.
Print Assumptions C62_wl.
Print Assumptions C62_rotation_results.
Print Assumptions C62_bound.
