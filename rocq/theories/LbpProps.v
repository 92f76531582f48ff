(** C73: local bond projections. *)
From Verif Require Import QuatProofs QuatProps MatchEnvProofs NListProofs ParProofs AngSepProofs AngSepProps Vec LbpProofs LbpSpec.
From Coq Require Import Lra Lia.
Local Open Scope R_scope.

Lemma unit_nth o i : Forall unitq o -> unitq (nth i o qid).
Proof. intros H. destruct (nth_in_or_default i o qid) as [I|E]; [rewrite Forall_forall in H; auto|rewrite E; apply unitq_id]. Qed.
Lemma largest_unique G o p v m m' : largest_projection G o p v m -> largest_projection G o p v m' -> m = m'.
Proof. intros [(g & I & ->) H] [(g' & I' & ->) H']. apply Rle_antisym; auto. Qed.
Lemma max_ok G o p v : rotations_of G -> unitq o ->
  exists m, max_projection p (rotate (qconj o) v) G = Some m /\ largest_projection G o p v m.
Proof.
  intros (U & (e & Ie & Ee) & M & C) Uo. destruct G as [|q0 G0]; [destruct Ie|]. set (G := q0 :: G0) in *.
  assert (I0 : In q0 G) by (left; reflexivity). unfold max_projection. eexists. split; [reflexivity|].
  match goal with |- largest_projection _ _ _ _ ?x => set (m := x) end.
  destruct (fold_max (fun qe => dot (rotate (qmul (qconj q0) qe) p) (rotate (qconj o) v)) G (dot p (rotate (qconj o) v))) as (H1 & H2 & H3).
  cbv zeta in H1, H2, H3. fold m in H1, H2, H3.
  assert (R : forall q, dot (rotate q p) (rotate (qconj o) v) = dot (carried o q p) v).
  { intros q. rewrite rotate_move by exact Uo. unfold carried. rewrite rotate_mul. reflexivity. }
  split.
  - destruct H3 as [H3|(g & Ig & H3)].
    + exists e. split; [exact Ie|]. rewrite H3. rewrite <- R, (same_rotate _ _ _ Ee), rotate_id. reflexivity.
    + destruct (C q0 I0) as (c & Ic & Ec). destruct (M c g Ic Ig) as (k & Ik & Ek). exists k. split; [exact Ik|].
      rewrite H3, <- R. f_equal. apply same_rotate. apply (same_trans _ (qmul c g)); [apply same_mul_l; exact Ec|exact Ek].
  - intros k Ik. destruct (M q0 k I0 Ik) as (g & Ig & Eg). specialize (H2 g Ig). rewrite <- R.
    rewrite (same_rotate k (qmul (qconj q0) g)); [exact H2|].
    apply (same_trans _ (qmul (qconj q0) (qmul q0 k))); [left; rewrite qmul_assoc, unit_inv_l, qmul_id_l by auto; reflexivity|apply same_mul; exact Eg].
Qed.

Definition best (p lb : vec3) (G : list quat) : R := match max_projection p lb G with Some m => m | None => 0 end.
Definition row_of (o : list quat) (pv : list vec3) (G : list quat) (b : bond) : list lbp_entry :=
  map (fun p => let m := best p (rotate (qconj (nth (bp b) o qid)) (bv b)) G in (m, over_length m (bd b))) pv.
Lemma compute_rows nl nq np o pv G cs cs' : valid_bonds nq np (nl_bonds nl) -> nl_nq nl = nq -> nl_np nl = np -> (np <= length o)%nat -> G <> [] ->
  chunking 0 nq cs -> Permutation cs cs' -> lbp_compute nl nq np o pv G cs' = LDone (map (row_of o pv G) (nl_bonds nl)).
Proof.
  intros [HS HV] <- <- Ho HG Hc HP. unfold lbp_compute, make_default_nlist, nl_validate. rewrite !Nat.eqb_refl. cbn [andb].
  set (z := repeat lbp_zero (length pv)).
  destruct (lbp_neighbor_ok nl o pv G (fun k => row_of o pv G (nth k (nl_bonds nl) bond0)) (nl_nq nl) z HS) with (cs := cs) (cs' := cs') as (a & E & La & V); auto.
  - intros m Hm _. destruct (HV (nth m (nl_bonds nl) bond0) (nth_In _ _ Hm)) as [_ V2]. unfold lbp_row. rewrite (nth_error_g _ _ qid) by lia.
    apply omap_some. intros p _. unfold best, max_projection. destruct G; [congruence|reflexivity].
  - rewrite E. f_equal. apply (nth_ext _ _ z (row_of o pv G bond0)); [rewrite map_length; exact La|].
    intros k Hk. rewrite La in Hk. rewrite (V k Hk), map_nth. destruct (HV (nth k (nl_bonds nl) bond0) (nth_In _ _ Hk)) as [V1 _].
    apply Nat.ltb_lt in V1. rewrite V1. reflexivity.
Qed.

(** Every bond gets, for every reference vector, its largest projection on the equivalent vectors carried by its point, and that over
    the length of the bond; for every division of the range and every order of the sub-ranges. *)
Theorem C73_rows nl nq np o pv G cs cs' : valid_bonds nq np (nl_bonds nl) -> nl_nq nl = nq -> nl_np nl = np -> (np <= length o)%nat ->
  Forall unitq o -> rotations_of G -> chunking 0 nq cs -> Permutation cs cs' ->
  exists rows, lbp_compute nl nq np o pv G cs' = LDone rows /\ length rows = length (nl_bonds nl) /\ (forall r, In r rows -> length r = length pv) /\
    forall k m, (k < length (nl_bonds nl))%nat -> (m < length pv)%nat -> let b := nth k (nl_bonds nl) bond0 in
      exists x, projections rows k m = Some x /\ largest_projection G (nth (bp b) o qid) (nth m pv v0) (bv b) x /\
        normed_projections rows k m = Some (if Req_EM_T (bd b) 0 then None else Some (x / bd b)).
Proof.
  intros HV E1 E2 Ho HU HG Hc HP. assert (GN : G <> []) by (destruct HG as (_ & (e & I & _) & _); intros ->; destruct I).
  rewrite (compute_rows nl nq np o pv G cs cs') by assumption. eexists. split; [reflexivity|]. split; [apply map_length|]. split.
  { intros r I. apply in_map_iff in I as (b & <- & _). apply map_length. }
  intros k m Hk Hm b. destruct (max_ok G (nth (bp b) o qid) (nth m pv v0) (bv b) HG (unit_nth _ _ HU)) as (x & Ex & Lx).
  exists x. assert (N : nth_error (map (row_of o pv G) (nl_bonds nl)) k = Some (row_of o pv G b)) by (apply map_nth_error, nth_error_g, Hk).
  assert (N2 : nth_error (row_of o pv G b) m = Some (x, over_length x (bd b))).
  { unfold row_of. rewrite (map_nth_error _ m pv (nth_error_g _ _ v0 Hm)). unfold best. rewrite Ex. reflexivity. }
  unfold projections, normed_projections. rewrite N, N2. cbn. auto.
Qed.

(** The value in the local frame and in the laboratory: the same. *)
Lemma norm_pos v : norm v <> 0 -> 0 < norm v. Proof. pose proof (norm_nonneg v). lra. Qed.
Lemma carried_norm o g p : unitq o -> unitq g -> norm (carried o g p) = norm p.
Proof. intros A B. apply rotate_norm, unitq_mul; assumption. Qed.
Lemma parallel_iff w v : norm v <> 0 -> (dot w v / norm v = norm w <-> w = (norm w / norm v * v)%V).
Proof.
  intros Hv. assert (P := norm_pos v Hv). split.
  - intros H. set (c := norm w / norm v). assert (D : dot w v = c * dot v v).
    { rewrite <- norm_sq. unfold c. assert (dot w v = norm w * norm v) as -> by (rewrite <- H; field; exact Hv). field. exact Hv. }
    assert (W : dot w w = c * c * dot v v) by (rewrite <- norm_sq, <- (norm_sq v); unfold c; field; exact Hv).
    assert (Z : dot (w - c * v)%V (w - c * v)%V = 0).
    { replace (dot (w - c * v)%V (w - c * v)%V) with (dot w w - 2 * c * dot w v + c * c * dot v v) by (unfold dot; simpl; ring). rewrite D, W. ring. }
    assert (S3 : forall a b d, a * a + b * b + d * d = 0 -> a = 0 /\ b = 0 /\ d = 0) by (intros a b d; split; [|split]; nra).
    unfold dot in Z. apply S3 in Z as (Z1 & Z2 & Z3). simpl in Z1, Z2, Z3. apply vec_eq; simpl; lra.
  - intros H. rewrite H at 1. replace (dot (norm w / norm v * v)%V v) with (norm w / norm v * dot v v) by (unfold dot; simpl; ring).
    rewrite <- norm_sq. field. exact Hv.
Qed.

(** Normed projections lie between -|p| and |p|; |p| is reached exactly when an equivalent vector points along the bond. *)
Theorem C73_bounds nl nq np o pv G cs cs' rows k m x y : valid_bonds nq np (nl_bonds nl) -> nl_nq nl = nq -> nl_np nl = np -> (np <= length o)%nat ->
  Forall unitq o -> rotations_of G -> chunking 0 nq cs -> Permutation cs cs' -> lbp_compute nl nq np o pv G cs' = LDone rows ->
  (k < length (nl_bonds nl))%nat -> (m < length pv)%nat -> let b := nth k (nl_bonds nl) bond0 in let p := nth m pv v0 in
  bd b = norm (bv b) -> projections rows k m = Some x -> normed_projections rows k m = Some y ->
  - (norm p * bd b) <= x <= norm p * bd b /\ (y = None <-> bd b = 0) /\
  forall t, y = Some t -> - norm p <= t <= norm p /\
    (t = norm p <-> exists g, In g G /\ carried (nth (bp b) o qid) g p = (norm p / norm (bv b) * bv b)%V).
Proof.
  intros HV E1 E2 Ho HU HG Hc HP E Hk Hm b p Hd Hx Hy.
  destruct (C73_rows nl nq np o pv G cs cs' HV E1 E2 Ho HU HG Hc HP) as (rows' & E' & _ & _ & V). rewrite E in E'. injection E' as <-.
  destruct (V k m Hk Hm) as (x' & X & L & Y). fold b in L, Y. fold p in L. rewrite Hx in X. injection X as <-. rewrite Hy in Y. injection Y as Y.
  assert (UG := proj1 HG). assert (Uo := unit_nth o (bp b) HU). set (q := nth (bp b) o qid) in *.
  destruct L as [(g & Ig & Eg) L]. assert (CN : forall h, In h G -> norm (carried q h p) = norm p) by (intros h I; apply carried_norm; auto).
  assert (AB : - (norm p * bd b) <= x <= norm p * bd b).
  { rewrite Eg, Hd, <- (CN g Ig). pose proof (abs_dot_le (carried q g p) (bv b)) as A. pose proof (Rle_abs (dot (carried q g p) (bv b))); pose proof (Rle_abs (- dot (carried q g p) (bv b))) as A2; rewrite Rabs_Ropp in A2. lra. }
  split; [exact AB|]. split.
  { rewrite Y. destruct (Req_EM_T (bd b) 0); split; congruence. }
  intros t Ht. rewrite Y in Ht. destruct (Req_EM_T (bd b) 0) as [|NZ]; [discriminate|]. injection Ht as <-. assert (NZ' := NZ). rewrite Hd in NZ'.
  assert (P := norm_pos _ NZ'). rewrite <- Hd in P. split.
  { split; [apply (Rmult_le_reg_r (bd b)); [exact P|]|apply (Rmult_le_reg_r (bd b)); [exact P|]]; unfold Rdiv; rewrite Rmult_assoc, Rinv_l by exact NZ; lra. }
  split.
  - intros H. exists g. split; [exact Ig|]. rewrite <- (CN g Ig). apply parallel_iff; [exact NZ'|]. rewrite (CN g Ig), <- Eg, <- Hd. exact H.
  - intros (h & Ih & Eh). rewrite <- (CN h Ih) in Eh. apply parallel_iff in Eh; [|exact NZ']. rewrite (CN h Ih), <- Hd in Eh.
    specialize (L h Ih). apply Rle_antisym.
    + apply (Rmult_le_reg_r (bd b)); [exact P|]. unfold Rdiv. rewrite Rmult_assoc, Rinv_l by exact NZ. lra.
    + rewrite <- Eh. unfold Rdiv. apply Rmult_le_compat_r; [left; apply Rinv_0_lt_compat; exact P|exact L].
Qed.

(** Equal rows from equal maxima. *)
Definition same_set (G G' : list quat) : Prop := (forall g, In g G -> exists g', In g' G' /\ same_rotation g g') /\ (forall g', In g' G' -> exists g, In g G /\ same_rotation g' g).
Lemma same_opp_mul a b : same_rotation (qopp a) b -> same_rotation a b.
Proof. intros H. apply (same_trans _ (qopp a)); [apply same_sym; right; reflexivity|exact H]. Qed.
Lemma unit_same a b : same_rotation a b -> unitq b -> unitq a.
Proof. intros [->| ->] U; [exact U|apply unitq_opp; exact U]. Qed.
Lemma same_conj a b : same_rotation a b -> same_rotation (qconj a) (qconj b).
Proof. intros [->| ->]; [left; reflexivity|right]. apply quat_eq; [simpl; ring|apply vec_eq; simpl; ring]. Qed.
Lemma same_set_rotations G G' : rotations_of G -> same_set G G' -> rotations_of G'.
Proof.
  intros (U & (e & Ie & Ee) & M & C) [A B]. split; [|split; [|split]].
  - intros g I. destruct (B g I) as (h & Ih & S). apply (unit_same _ h S). auto.
  - destruct (A e Ie) as (g & Ig & S). exists g. split; [exact Ig|]. apply (same_trans _ e); [apply same_sym; exact S|exact Ee].
  - intros g h Ig Ih. destruct (B g Ig) as (g1 & Ig1 & S1), (B h Ih) as (h1 & Ih1 & S2). destruct (M g1 h1 Ig1 Ih1) as (k & Ik & Sk).
    destruct (A k Ik) as (k' & Ik' & Sk'). exists k'. split; [exact Ik'|].
    apply (same_trans _ (qmul g1 h)); [apply same_mul_l; exact S1|]. apply (same_trans _ (qmul g1 h1)); [apply same_mul; exact S2|].
    apply (same_trans _ k); assumption.
  - intros g Ig. destruct (B g Ig) as (g1 & Ig1 & S1). destruct (C g1 Ig1) as (k & Ik & Sk). destruct (A k Ik) as (k' & Ik' & Sk').
    exists k'. split; [exact Ik'|]. apply (same_trans _ (qconj g1)); [apply same_conj; exact S1|]. apply (same_trans _ k); assumption.
Qed.
(** [equivalent G]: an orientation up to sign and symmetry. *)
Definition equivalent (G : list quat) (q q' : quat) : Prop := exists h, In h G /\ same_rotation q' (qmul q h).
Lemma best_spec G o p v : rotations_of G -> unitq o -> largest_projection G o p v (best p (rotate (qconj o) v) G).
Proof. intros HG U. destruct (max_ok G o p v HG U) as (m & E & L). unfold best. rewrite E. exact L. Qed.
Lemma largest_equiv G G' o o' p p' v m : rotations_of G -> unitq o -> equivalent G o o' -> (exists h, In h G /\ p' = rotate h p) -> same_set G G' ->
  largest_projection G o p v m -> largest_projection G' o' p' v m.
Proof.
  intros (U & _ & M & C) Uo (h & Ih & Sh) (k & Ik & ->) [A B] [(g & Ig & Eg) L].
  assert (T : forall a, carried o' a (rotate k p) = carried o (qmul (qmul h a) k) p).
  { intros a. unfold carried. rewrite !rotate_mul. rewrite (same_rotate o' (qmul o h) _ Sh), rotate_mul. reflexivity. }
  split.
  - (* g = h a k up to sign *)
    destruct (C h Ih) as (h' & Ih' & Sh'), (C k Ik) as (k' & Ik' & Sk'). destruct (M h' g Ih' Ig) as (a1 & I1 & S1). destruct (M a1 k' I1 Ik') as (a2 & I2 & S2).
    destruct (A a2 I2) as (a & Ia & Sa). exists a. split; [exact Ia|]. rewrite Eg, T. unfold carried. rewrite !(rotate_mul o). do 2 f_equal. apply same_rotate.
    apply same_sym. apply (same_trans _ (qmul (qmul h (qmul (qmul (qconj h) g) (qconj k))) k)).
    + apply same_mul_l, same_mul. apply (same_trans _ a2); [apply same_sym; exact Sa|]. apply (same_trans _ (qmul a1 k')); [apply same_sym; exact S2|].
      apply (same_trans _ (qmul (qmul h' g) k')); [apply same_mul_l, same_sym; exact S1|].
      apply (same_trans _ (qmul (qmul (qconj h) g) k')); [apply same_mul_l, same_mul_l, same_sym; exact Sh'|apply same_mul, same_sym; exact Sk'].
    + left. rewrite !qmul_assoc. rewrite unit_inv_r, qmul_id_l by auto. rewrite <- qmul_assoc, unit_inv_l, qmul_id_r by auto. reflexivity.
  - intros a Ia. rewrite T. destruct (B a Ia) as (a' & Ia' & Sa). destruct (M h a' Ih Ia') as (c & Ic & Sc). destruct (M c k Ic Ik) as (d & Id & Sd).
    specialize (L d Id). unfold carried in *. rewrite rotate_mul in *. rewrite (same_rotate (qmul (qmul h a) k) d); [exact L|].
    apply (same_trans _ (qmul c k)); [|exact Sd]. apply same_mul_l. apply (same_trans _ (qmul h a')); [apply same_mul; exact Sa|exact Sc].
Qed.
Lemma forall2_len {A B} (P : A -> B -> Prop) l l' : Forall2 P l l' -> length l = length l'.
Proof. induction 1; simpl; congruence. Qed.
Lemma forall2_nth {A B} (P : A -> B -> Prop) l l' a b i : Forall2 P l l' -> (i < length l)%nat -> P (nth i l a) (nth i l' b).
Proof. intros H. revert i. induction H; intros i L; simpl in *; [lia|]. destruct i; [assumption|apply IHForall2; lia]. Qed.

(** Nothing changes when particles are replaced by equivalent ones, reference vectors by equivalent ones, quaternions by their
    negatives, or when the list of symmetries is reordered, has repetitions or leaves out negatives. *)
Theorem C73_equivalent nl nq np o o' pv pv' G G' cs1 cs1' cs2 cs2' : valid_bonds nq np (nl_bonds nl) -> nl_nq nl = nq -> nl_np nl = np -> (np <= length o)%nat ->
  Forall unitq o -> rotations_of G -> same_set G G' -> Forall2 (equivalent G) o o' -> Forall2 (fun p p' => exists h, In h G /\ p' = rotate h p) pv pv' ->
  chunking 0 nq cs1 -> Permutation cs1 cs1' -> chunking 0 nq cs2 -> Permutation cs2 cs2' ->
  lbp_compute nl nq np o' pv' G' cs2' = lbp_compute nl nq np o pv G cs1'.
Proof.
  intros HV E1 E2 Ho HU HG HS HO HPv C1 P1 C2 P2. assert (HG' := same_set_rotations _ _ HG HS).
  assert (NE : forall G, rotations_of G -> G <> []) by (intros X (_ & (e & I & _) & _) ->; destruct I).
  rewrite (compute_rows nl nq np o pv G cs1 cs1'), (compute_rows nl nq np o' pv' G' cs2 cs2') by (auto; rewrite <- (forall2_len _ _ _ HO); exact Ho).
  f_equal. apply map_ext_in. intros b Ib. unfold row_of. destruct (proj2 HV b Ib) as [_ V2].
  assert (HE : equivalent G (nth (bp b) o qid) (nth (bp b) o' qid)) by (apply forall2_nth; [exact HO|lia]).
  assert (Uo := unit_nth o (bp b) HU). assert (Uo' : unitq (nth (bp b) o' qid)).
  { destruct HE as (h & Ih & S). apply (unit_same _ _ S), unitq_mul; [exact Uo|apply (proj1 HG), Ih]. }
  clear Ho C1 C2. induction HPv as [|p p' pv pv' Hp HPv IH]; [reflexivity|]. cbn [map]. rewrite IH. f_equal.
  assert (E : best p' (rotate (qconj (nth (bp b) o' qid)) (bv b)) G' = best p (rotate (qconj (nth (bp b) o qid)) (bv b)) G).
  { apply (largest_unique G' (nth (bp b) o' qid) p' (bv b)); [apply best_spec; assumption|].
    apply (largest_equiv G G' (nth (bp b) o qid) _ p p' (bv b)); auto. apply best_spec; assumption. }
  cbv zeta. rewrite E. reflexivity.
Qed.

(** Turning the whole system leaves everything unchanged. *)
Definition turned (q : quat) (b : bond) : bond := Bond (bq b) (bp b) (bd b) (bw b) (rotate q (bv b)).
Definition turned_list (q : quat) (nl : nlist) : nlist := NL (nl_nq nl) (nl_np nl) (map (turned q) (nl_bonds nl)) (nl_updated nl) (nl_segments nl) (nl_counts nl).
Theorem C73_rotation nl nq np o pv G cs1 cs1' cs2 cs2' q : valid_bonds nq np (nl_bonds nl) -> nl_nq nl = nq -> nl_np nl = np -> (np <= length o)%nat ->
  Forall unitq o -> rotations_of G -> unitq q -> chunking 0 nq cs1 -> Permutation cs1 cs1' -> chunking 0 nq cs2 -> Permutation cs2 cs2' ->
  lbp_compute (turned_list q nl) nq np (map (qmul q) o) pv G cs2' = lbp_compute nl nq np o pv G cs1'.
Proof.
  intros HV E1 E2 Ho HU HG Uq C1 P1 C2 P2. assert (NE : G <> []) by (destruct HG as (_ & (e & I & _) & _); intros ->; destruct I).
  rewrite (compute_rows nl nq np o pv G cs1 cs1'), (compute_rows (turned_list q nl) nq np (map (qmul q) o) pv G cs2 cs2'); auto.
  - f_equal. cbn [turned_list nl_bonds]. rewrite map_map. apply map_ext_in. intros b Ib. unfold row_of. apply map_ext. intros p. cbn [turned bp bv bd].
    destruct (proj2 HV b Ib) as [_ V2]. rewrite (nth_indep _ qid (qmul q qid)) by (rewrite map_length; lia). rewrite map_nth.
    rewrite qconj_mul, <- rotate_mul, <- qmul_assoc, unit_inv_l, qmul_id_r by exact Uq. reflexivity.
  - destruct HV as [HS HV]. split.
    + intros i j Hij. cbn [turned_list nl_bonds] in *. rewrite map_length in Hij. change bond0 with bond0. specialize (HS i j Hij).
      rewrite (nth_indep _ bond0 (turned q bond0)) by (rewrite map_length; lia). rewrite (nth_indep (map _ _) bond0 (turned q bond0)) by (rewrite map_length; lia).
      rewrite !map_nth. exact HS.
    + cbn [turned_list nl_bonds]. intros b Ib. apply in_map_iff in Ib as (b' & <- & Ib). exact (HV b' Ib).
  - rewrite map_length. exact Ho.
Qed.

(** A change of the unit of length: the projections scale with it, the normed projections stay. *)
Definition scaled (c : R) (b : bond) : bond := Bond (bq b) (bp b) (c * bd b) (bw b) (c * bv b)%V.
Definition scaled_list (c : R) (nl : nlist) : nlist := NL (nl_nq nl) (nl_np nl) (map (scaled c) (nl_bonds nl)) (nl_updated nl) (nl_segments nl) (nl_counts nl).
Lemma largest_scale G o p v m c : 0 < c -> largest_projection G o p v m -> largest_projection G o p (c * v)%V (c * m).
Proof.
  intros Hc [(g & I & E) L]. assert (D : forall w, dot w (c * v)%V = c * dot w v) by (intros w; unfold dot; simpl; ring). split.
  - exists g. split; [exact I|]. rewrite D, E. reflexivity.
  - intros h Ih. rewrite D. apply Rmult_le_compat_l; [lra|auto].
Qed.
Theorem C73_scale nl nq np o pv G cs1 cs1' cs2 cs2' c rows : valid_bonds nq np (nl_bonds nl) -> nl_nq nl = nq -> nl_np nl = np -> (np <= length o)%nat ->
  Forall unitq o -> rotations_of G -> 0 < c -> chunking 0 nq cs1 -> Permutation cs1 cs1' -> chunking 0 nq cs2 -> Permutation cs2 cs2' ->
  lbp_compute nl nq np o pv G cs1' = LDone rows ->
  lbp_compute (scaled_list c nl) nq np o pv G cs2' = LDone (map (map (fun e => (c * fst e, snd e))) rows).
Proof.
  intros HV E1 E2 Ho HU HG Hc C1 P1 C2 P2. assert (NE : G <> []) by (destruct HG as (_ & (e & I & _) & _); intros ->; destruct I).
  rewrite (compute_rows nl nq np o pv G cs1 cs1'), (compute_rows (scaled_list c nl) nq np o pv G cs2 cs2'); auto.
  - intros E. injection E as <-. f_equal. cbn [scaled_list nl_bonds]. rewrite !map_map. apply map_ext_in. intros b Ib. unfold row_of. rewrite map_map. apply map_ext. intros p.
    cbn [scaled bp bv bd fst snd]. cbv zeta. set (q := nth (bp b) o qid). assert (Uq : unitq q) by (apply unit_nth; exact HU).
    assert (B : best p (rotate (qconj q) (c * bv b)%V) G = c * best p (rotate (qconj q) (bv b)) G).
    { apply (largest_unique G q p (c * bv b)%V); [apply best_spec; assumption|apply largest_scale; [exact Hc|apply best_spec; assumption]]. }
    rewrite B. f_equal. unfold over_length. destruct (Req_EM_T (c * bd b) 0) as [Z|Z], (Req_EM_T (bd b) 0) as [Z'|Z']; auto.
    + exfalso. apply Rmult_integral in Z as [Z|Z]; lra.
    + exfalso. apply Z. rewrite Z'. ring.
    + f_equal. field. split; [exact Z'|lra].
  - destruct HV as [HS HV]. split.
    + intros i j Hij. cbn [scaled_list nl_bonds] in *. rewrite map_length in Hij. specialize (HS i j Hij).
      rewrite (nth_indep _ bond0 (scaled c bond0)) by (rewrite map_length; lia). rewrite (nth_indep (map _ _) bond0 (scaled c bond0)) by (rewrite map_length; lia).
      rewrite !map_nth. exact HS.
    + cbn [scaled_list nl_bonds]. intros b Ib. apply in_map_iff in Ib as (b' & <- & Ib). exact (HV b' Ib).
Qed.

(** The symmetry groups of the documentation qualify, with or without the negatives; so does the default argument, for which the
    entries are the plain projections. *)
Lemma symmetries_rotations G : symmetries G -> rotations_of G.
Proof.
  intros HG. assert (I1 := sym_id G HG). destruct HG as (_ & A & M). split; [intros g I; apply A; exact I|]. split; [exists qid; split; [exact I1|left; reflexivity]|]. split.
  - intros g h Ig Ih. exists (qmul g h). split; [auto|left; reflexivity].
  - intros g Ig. exists (qconj g). split; [apply A; exact Ig|left; reflexivity].
Qed.
Theorem C73_lists G G' : symmetries G -> incl G' G -> (forall g, In g G -> In g G' \/ In (qopp g) G') -> rotations_of G /\ rotations_of G' /\ same_set G G'.
Proof.
  intros HG I C. assert (RG := symmetries_rotations G HG). assert (S : same_set G G').
  { split; [|intros g Ig; exists g; split; [auto|left; reflexivity]].
    intros g Ig. destruct (C g Ig) as [H|H]; [exists g; split; [exact H|left; reflexivity]|]. exists (qopp g). split; [exact H|]. apply same_sym. right. reflexivity. }
  split; [exact RG|]. split; [apply (same_set_rotations G G' RG S)|exact S].
Qed.
Lemma id_rotations : rotations_of [qid].
Proof.
  assert (E2 : qconj qid = qid) by (apply quat_eq; [simpl; ring|apply vec_eq; simpl; ring]).
  split; [intros g [<-|[]]; apply unitq_id|]. split; [exists qid; split; [left; reflexivity|left; reflexivity]|]. split.
  - intros g h [<-|[]] [<-|[]]. exists qid. split; [left; reflexivity|left; apply qmul_id_l].
  - intros g [<-|[]]. exists qid. split; [left; reflexivity|left; exact E2].
Qed.
Theorem C73_default nl nq np o pv cs cs' rows k m : valid_bonds nq np (nl_bonds nl) -> nl_nq nl = nq -> nl_np nl = np -> (np <= length o)%nat ->
  Forall unitq o -> chunking 0 nq cs -> Permutation cs cs' -> lbp_compute nl nq np o pv [qid] cs' = LDone rows ->
  (k < length (nl_bonds nl))%nat -> (m < length pv)%nat -> let b := nth k (nl_bonds nl) bond0 in
  projections rows k m = Some (dot (rotate (nth (bp b) o qid) (nth m pv v0)) (bv b)).
Proof.
  intros HV E1 E2 Ho HU Hc HP E Hk Hm b. destruct (C73_rows nl nq np o pv [qid] cs cs' HV E1 E2 Ho HU id_rotations Hc HP) as (rows' & E' & _ & _ & V).
  rewrite E in E'. injection E' as <-. destruct (V k m Hk Hm) as (x & X & [(g & [<-|[]] & Eg) _] & _). rewrite X, Eg. unfold carried. rewrite qmul_id_r. reflexivity.
Qed.

(** A neighbour list of another system is rejected. *)
Theorem C73_raises nl nq np o pv G cs : (nl_nq nl <> nq \/ nl_np nl <> np) <-> lbp_compute nl nq np o pv G cs = LRaised.
Proof.
  unfold lbp_compute, make_default_nlist, nl_validate. destruct (Nat.eqb_spec nq (nl_nq nl)), (Nat.eqb_spec np (nl_np nl)); cbn [andb]; split; intros H; auto; try lia;
    destruct (ofold _ cs _); discriminate.
Qed.
(** The number of orientations is not checked: with fewer than the points named in the bonds, memory outside the array is read. *)
Lemma chunk_bad nl o pv G rows c k : sorted_q (nl_bonds nl) -> (k < length (nl_bonds nl))%nat -> (fst c <= bq (nth k (nl_bonds nl) bond0) < snd c)%nat ->
  (forall j, (j < k)%nat -> exists r, lbp_row o pv G (nth j (nl_bonds nl) bond0) = Some r) ->
  lbp_row o pv G (nth k (nl_bonds nl) bond0) = None -> lbp_chunk nl o pv G rows c = None.
Proof.
  intros HS Hk Hc Hj Hb. set (bs := nl_bonds nl) in *. unfold lbp_chunk, range. rewrite find_first_index_spec by exact HS. fold bs.
  assert (W : forall fuel i c0 rows, (before i bs <= c0 <= before (S i) bs)%nat -> (before (S i) bs - c0 <= fuel)%nat -> (before (S i) bs <= k)%nat ->
    exists rows', lbp_bonds fuel bs o pv G i c0 rows = Some (before (S i) bs, rows')).
  { induction fuel as [|fuel IH]; intros i c0 rows0 B F K; destruct (before_sides i bs HS) as [L1 L2], (before_sides (S i) bs HS) as [M1 M2].
    - assert (c0 = before (S i) bs) as -> by lia. exists rows0. cbn. destruct (nth_error bs (before (S i) bs)) as [b|] eqn:E; auto.
      assert (Hlt : (before (S i) bs < length bs)%nat) by (apply nth_error_Some; congruence). rewrite (nth_error_g _ _ bond0 Hlt) in E. injection E as <-.
      specialize (M2 (before (S i) bs)). destruct (Nat.eqb_spec (bq (nth (before (S i) bs) bs bond0)) i); simpl; auto. lia.
    - destruct (Nat.eq_dec c0 (before (S i) bs)) as [->|Hne].
      + exists rows0. cbn. destruct (nth_error bs (before (S i) bs)) as [b|] eqn:E; auto.
        assert (Hlt : (before (S i) bs < length bs)%nat) by (apply nth_error_Some; congruence). rewrite (nth_error_g _ _ bond0 Hlt) in E. injection E as <-.
        specialize (M2 (before (S i) bs)). destruct (Nat.eqb_spec (bq (nth (before (S i) bs) bs bond0)) i); simpl; auto. lia.
      + assert (Hlt : (c0 < length bs)%nat) by lia. assert (Eq : bq (nth c0 bs bond0) = i) by (specialize (L2 c0); specialize (M1 c0); lia).
        destruct (Hj c0) as (r & Er); [lia|]. destruct (IH i (S c0) (put rows0 c0 r)) as (rows' & E'); try lia.
        exists rows'. cbn. rewrite (nth_error_g _ _ bond0 Hlt), Eq, Nat.eqb_refl. cbn. rewrite Er. exact E'. }
  assert (X : forall fuel i c0 rows, bq (nth k bs bond0) = i -> (before i bs <= c0 <= k)%nat -> lbp_bonds fuel bs o pv G i c0 rows = None).
  { induction fuel as [|fuel IH]; intros i c0 rows0 Q B; destruct (before_sides i bs HS) as [L1 L2];
      (assert (Hlt : (c0 < length bs)%nat) by lia);
      (assert (Eq : bq (nth c0 bs bond0) = i) by (specialize (L2 c0); assert (bq (nth c0 bs bond0) <= bq (nth k bs bond0))%nat by (destruct (Nat.eq_dec c0 k) as [->|]; [lia|apply HS; lia]); lia));
      cbn; rewrite (nth_error_g _ _ bond0 Hlt), Eq, Nat.eqb_refl; cbn; [reflexivity|].
    destruct (Nat.eq_dec c0 k) as [->|]; [rewrite Hb; reflexivity|]. destruct (Hj c0) as (r & Er); [lia|]. rewrite Er. apply IH; [exact Q|lia]. }
  assert (Y : forall n i rows, (i <= bq (nth k bs bond0) < i + n)%nat -> lbp_points bs o pv G (seq i n) (before i bs, rows) = None).
  { induction n as [|n IH]; intros i rows0 B; [lia|]. cbn [seq lbp_points fst snd].
    destruct (before_sides i bs HS) as [L1 L2], (before_sides (S i) bs HS) as [M1 M2].
    destruct (Nat.eq_dec (bq (nth k bs bond0)) i) as [Q|Q].
    - rewrite X; [reflexivity|exact Q|]. specialize (L1 k). lia.
    - pose proof (before_mono bs i (S i) HS ltac:(lia)). pose proof (before_le (S i) bs).
      destruct (W (length bs) i (before i bs) rows0) as (r' & E'); try lia; [specialize (M1 k); lia|]. rewrite E'. apply IH. lia. }
  rewrite Y; [reflexivity|lia].
Qed.
Lemma ofold_none {A S} (f : S -> A -> option S) l s c : In c l -> (forall s, f s c = None) -> ofold f l s = None.
Proof.
  intros I H. revert s. induction l as [|x l IH]; intros s; [destruct I|]. cbn. destruct I as [->|I]; [rewrite H; reflexivity|].
  destruct (f s x); [apply IH; exact I|reflexivity].
Qed.
Lemma least_bad o pv G bs : (exists b, In b bs /\ lbp_row o pv G b = None) ->
  exists k, (k < length bs)%nat /\ lbp_row o pv G (nth k bs bond0) = None /\ forall j, (j < k)%nat -> exists r, lbp_row o pv G (nth j bs bond0) = Some r.
Proof.
  induction bs as [|b bs IH]; intros (x & I & E); [destruct I|]. destruct (lbp_row o pv G b) as [r|] eqn:Eb.
  - destruct I as [->|I]; [congruence|]. destruct IH as (k & Hk & Ek & Lk); [exists x; auto|]. exists (S k). cbn. split; [lia|]. split; [exact Ek|].
    intros [|j] Hj; [exists r; exact Eb|apply Lk; lia].
  - exists 0%nat. cbn. split; [lia|]. split; [exact Eb|]. intros j Hj. lia.
Qed.
Theorem C73_unchecked_refuted nl nq np o pv G cs cs' : valid_bonds nq np (nl_bonds nl) -> nl_nq nl = nq -> nl_np nl = np -> chunking 0 nq cs -> Permutation cs cs' ->
  (exists b, In b (nl_bonds nl) /\ (length o <= bp b)%nat) \/ (G = [] /\ pv <> [] /\ nl_bonds nl <> []) -> lbp_compute nl nq np o pv G cs' = LUndefined.
Proof.
  intros [HS HV] <- <- Hc HP H. assert (B : exists b, In b (nl_bonds nl) /\ lbp_row o pv G b = None).
  { destruct H as [(b & I & L)|(-> & Hp & Hb)].
    - exists b. split; [exact I|]. unfold lbp_row. destruct (nth_error o (bp b)) eqn:E; [|reflexivity]. assert (bp b < length o)%nat by (apply nth_error_Some; congruence). lia.
    - destruct (nl_bonds nl) as [|b bs]; [congruence|]. exists b. split; [left; reflexivity|]. unfold lbp_row. destruct (nth_error o (bp b)); [|reflexivity].
      destruct pv as [|p pv]; [congruence|]. reflexivity. }
  destruct (least_bad _ _ _ _ B) as (k & Hk & Ek & Lk). destruct (HV _ (nth_In _ bond0 Hk)) as [V1 _].
  unfold lbp_compute, make_default_nlist, nl_validate. rewrite !Nat.eqb_refl. cbn [andb].
  assert (I : In (bq (nth k (nl_bonds nl) bond0)) (range 0 (nl_nq nl))) by (unfold range; apply in_seq; lia).
  rewrite <- (chunking_range _ _ _ Hc) in I. apply in_flat_map in I as (c & Ic & I). unfold range in I. apply in_seq in I.
  rewrite (ofold_none _ cs' _ c); [reflexivity|apply (Permutation_in c HP Ic)|].
  intros s. apply (chunk_bad nl o pv G s c k); auto. lia.
Qed.
(** A list that is not closed under composition: only its quotients by the first element count.  A single quaternion, whatever it is,
    has no effect. *)
Theorem C73_single_refuted nl nq np o pv g cs cs' : valid_bonds nq np (nl_bonds nl) -> nl_nq nl = nq -> nl_np nl = np -> (np <= length o)%nat -> unitq g ->
  chunking 0 nq cs -> Permutation cs cs' -> lbp_compute nl nq np o pv [g] cs' = lbp_compute nl nq np o pv [qid] cs'.
Proof.
  intros HV E1 E2 Ho U Hc HP. rewrite (compute_rows nl nq np o pv [g] cs cs'), (compute_rows nl nq np o pv [qid] cs cs') by (auto; discriminate).
  f_equal. apply map_ext. intros b. unfold row_of. apply map_ext. intros p. unfold best, max_projection. cbn [fold_left].
  rewrite (unit_inv_l g U). replace (qmul (qconj qid) qid) with qid by (apply quat_eq; [simpl; unfold dot; simpl; ring|apply vec_eq; simpl; ring]). reflexivity.
Qed.

(** Two particles with one bond each way; a twofold axis along z without the negatives; particle 1 turned by half a turn about x. *)
Definition ex_axis : quat := Q 0 (V3 0 0 1).
Definition ex_group : list quat := [qid; ex_axis].
Definition ex_nl : nlist := NL 2 2 [Bond 0 1 2 1 (V3 2 0 0); Bond 1 0 2 1 (V3 (-2) 0 0)] false [] [].
Lemma ex_group_rotations : rotations_of ex_group.
Proof.
  assert (E2 : qconj qid = qid) by (apply quat_eq; [simpl; ring|apply vec_eq; simpl; ring]).
  split; [intros g [<-|[<-|[]]]; unfold unitq; simpl; ring|]. split; [exists qid; split; [left; reflexivity|left; reflexivity]|]. split.
  - intros g h [<-|[<-|[]]] [<-|[<-|[]]]; rewrite ?qmul_id_l, ?qmul_id_r; [exists qid|exists ex_axis|exists ex_axis|exists qid]; (split; [simpl; auto|]); [left; reflexivity|left; reflexivity|left; reflexivity|].
    right. apply quat_eq; [simpl; unfold dot; simpl; ring|apply vec_eq; simpl; ring].
  - intros g [<-|[<-|[]]]; [exists qid|exists ex_axis]; (split; [simpl; auto|]); [left; exact E2|]. right. apply quat_eq; [simpl; ring|apply vec_eq; simpl; ring].
Qed.
Example C73_ex : valid_bonds 2 2 (nl_bonds ex_nl) /\ Forall unitq [qid; half_turn_x] /\ rotations_of ex_group /\ chunking 0 2 [(0, 1); (1, 2)]%nat /\
  lbp_compute ex_nl 2 2 [qid; half_turn_x] [V3 1 0 0; V3 0 0 3] ex_group [(1, 2); (0, 1)]%nat = LDone [[(2, Some 1); (0, Some 0)]; [(2, Some 1); (0, Some 0)]].
Proof.
  assert (HV : valid_bonds 2 2 (nl_bonds ex_nl)).
  { split; [intros i j H; cbn in H; destruct i as [|[|i]], j as [|[|j]]; cbn; lia|]. intros b [<-|[<-|[]]]; cbn; lia. }
  assert (HC : chunking 0 2 [(0, 1); (1, 2)]%nat).
  { exact (split_node 0 1 2 [(0, 1)] [(1, 2)] ltac:(lia) ltac:(lia) (split_leaf 0 1 ltac:(lia)) (split_leaf 1 2 ltac:(lia)))%nat. }
  split; [exact HV|]. split; [repeat constructor; unfold unitq; simpl; ring|]. split; [exact ex_group_rotations|]. split; [exact HC|].
  rewrite (compute_rows ex_nl 2 2 _ _ _ [(0, 1); (1, 2)]%nat); auto; try discriminate; [|apply perm_swap].
  f_equal. cbn [map nl_bonds ex_nl row_of bp bv bd nth]. unfold over_length. destruct (Req_EM_T 2 0) as [|_]; [lra|].
  assert (E : forall p x y, dot p (rotate (qconj x) y) = dot p (rotate (qconj x) y)) by reflexivity. clear E.
  assert (M : forall p l, best p l ex_group = Rmax (dot p l) (dot (rotate ex_axis p) l)).
  { intros p l. unfold best, max_projection, ex_group. cbn [fold_left]. replace (qmul (qconj qid) qid) with qid by (apply quat_eq; [simpl; unfold dot; simpl; ring|apply vec_eq; simpl; ring]).
    replace (qmul (qconj qid) ex_axis) with ex_axis by (apply quat_eq; [simpl; unfold dot; simpl; ring|apply vec_eq; simpl; ring]). rewrite rotate_id.
    destruct (Rlt_bool_spec (dot p l) (dot p l)); [lra|]. destruct (Rlt_bool_spec (dot p l) (dot (rotate ex_axis p) l)); [rewrite Rmax_right|rewrite Rmax_left]; lra. }
  rewrite !M. unfold rotate, half_turn_x, ex_axis, qid, qconj, dot, cross; cbn.
  repeat match goal with |- context [Rmax ?a ?b] => first [replace (Rmax a b) with 2 by (first [rewrite Rmax_left by lra|rewrite Rmax_right by lra]; lra)|replace (Rmax a b) with 0 by (rewrite Rmax_left by lra; lra)] end.
  repeat f_equal; lra.
Qed.

Print Assumptions C73_rows.
Print Assumptions C73_bounds.
Print Assumptions C73_equivalent.
Print Assumptions C73_rotation.
Print Assumptions C73_scale.
Print Assumptions C73_unchecked_refuted.
