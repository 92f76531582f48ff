(** C85: the RDF in single precision: values, and where they go wrong. *)
From Coq Require Import Psatz.
From Flocq Require Import Core.
From Verif Require Import F32Proofs F32Props Vec FaabbProofs FaabbProofs2 FaabbProps FaabbProps2 ReproProofs ReproSpec ReproProps FrdfProofs FrdfProofs2 FrdfProofs3 FrdfProps FrdfSpec.
Open Scope R_scope.

(** Every value of rdf against the definition, given the counts: a relative error of 64 u for every bin width the radius is wide. *)
Theorem C85_rdf finite_size b a np nqp nf counts i : handy_box b -> handy_axis a ->
  (1 <= np < 2 ^ 32)%Z -> (1 <= nqp < 2 ^ 32)%Z -> (1 <= nf < 2 ^ 32)%Z -> (finite_size = true -> (2 <= nqp)%Z) ->
  handy (IZR np * density finite_size b nqp * IZR nf) -> (i < Z.to_nat (fx_n a))%nat ->
  (0 <= nth i counts 0 < 2 ^ 32)%Z ->
  nth i counts 0%Z = 0%Z \/ (handy (IZR (nth i counts 0%Z) / (IZR np * density finite_size b nqp * IZR nf)) /\ handy (exact_rdf finite_size b a np nqp nf (nth i counts 0%Z) i)) ->
  let x := nth i (frdf finite_size b a np nqp nf counts) fzero in
  finite x = true /\ Rabs (val x - exact_rdf finite_size b a np nqp nf (nth i counts 0%Z) i) <= 64 * u * (edge a (S i) / bin_width a) * exact_rdf finite_size b a np nqp nf (nth i counts 0%Z) i.
Proof.
  intros HB HA Hp Hq Hf Hs HP Hi Hc HH x. assert (N := near_rdf finite_size b np nqp nf HB Hp Hq Hf Hs HP a _ i HA Hi Hc HH).
  assert (E : x = fdiv (fmul (fcount (nth i counts 0%Z)) (fprefactor finite_size b np nqp nf)) (fshell (f2d b) a (Z.of_nat i))).
  { unfold x, frdf. rewrite nth_indep with (d' := (fun i => fdiv (fmul (fcount (nth i counts 0%Z)) (fprefactor finite_size b np nqp nf)) (fshell (f2d b) a (Z.of_nat i))) 0%nat) by (rewrite map_length, seq_length; auto).
    rewrite (map_nth (fun i => fdiv (fmul (fcount (nth i counts 0%Z)) (fprefactor finite_size b np nqp nf)) (fshell (f2d b) a (Z.of_nat i)))), seq_nth by auto. reflexivity. }
  rewrite <- E in N. split; [apply N|]. destruct (rho_bounds a HA i Hi) as [RB _]. set (ru := edge a (S i) / bin_width a) in *. assert (U : 0 < u < / 10000000) by (unfold u; lra).
  assert (Ru : u <= ru * u <= 65536 * u) by (split; [|apply Rmult_le_compat_r; lra]; assert (1 * u <= ru * u) by (apply Rmult_le_compat_r; lra); lra). assert (Us : 65536 * u * 50 <= / 5) by (unfold u; lra).
  replace (64 * u * ru) with (64 * (ru * u)) by ring. replace (50 * ru * u) with (50 * (ru * u)) in N by ring.
  assert (A0 : 0 <= exact_rdf finite_size b a np nqp nf (nth i counts 0%Z) i).
  { destruct HH as [->|[_ [K _]]]; [unfold exact_rdf, Rdiv; lra|]. assert (K' := bpow_gt_0 radix2 (-110)). lra. }
  apply (near_error (50 * (ru * u))); try lra; auto. nra.
Qed.
(** n_r: the average number of neighbours up to the end of bin i, within 2 (i + 7) u. *)
Theorem C85_n_r nqp nf counts i : (1 <= nqp < 2 ^ 32)%Z -> (1 <= nf < 2 ^ 32)%Z -> Forall (fun c => 0 <= c < 2 ^ 32)%Z counts ->
  (Z.of_nat (length counts) <= 65536)%Z -> (i < length counts)%nat ->
  let x := nth i (fn_r nqp nf counts) fzero in let e := exact_n_r nqp nf (firstn (S i) counts) in
  finite x = true /\ Rabs (val x - e) <= 2 * (INR i + 7) * u * e.
Proof.
  intros Hq Hf HF HL Hi x e. assert (N := near_n_r nqp nf Hq Hf counts i HF HL Hi). fold x e in N. split; [apply N|].
  assert (U : 0 < u < / 10000000) by (unfold u; lra). assert (I0 := pos_INR i). assert (I1 : INR i <= 65536) by (rewrite INR_IZR_INZ; apply IZR_le; lia). set (d := (INR i + 7) * u) in *.
  assert (D : 0 <= d <= / 2) by (unfold d, u in *; nra). replace (2 * (INR i + 7) * u) with (2 * d) by (unfold d; ring).
  assert (E0 : 0 <= e). { unfold e, exact_n_r. assert (T : (0 <= fold_right Z.add 0 (firstn (S i) counts))%Z). { assert (K : Forall (fun c => 0 <= c < 2 ^ 32)%Z (firstn (S i) counts)) by (apply Forall_forall; intros c Hc; apply (proj1 (Forall_forall _ _) HF); rewrite <- (firstn_skipn (S i) counts); apply in_or_app; auto). clear -K. induction K; cbn [fold_right]; lia. }
    apply Rmult_le_pos; [apply IZR_le; auto|left; apply Rinv_0_lt_compat, Rmult_lt_0_compat; apply IZR_lt; lia]. }
  apply (near_error d); try lra; auto. nra.
Qed.
(** Frames with clear pairs: rdf and n_r of a run against the definition by exact distances. *)
Theorem C85_system (finite_size : bool) a fs f counts i : ordinary a -> ordinary_radius (fx_max a) -> Forall ordinary_frame (fs ++ [f]) -> Forall (clear a) (fs ++ [f]) ->
  frdf_counts a (fs ++ [f]) counts -> handy_box (ff_box f) -> handy_axis a ->
  let np := Z.of_nat (length (ff_points f)) in let nqp := Z.of_nat (length (ff_queries f)) in let nf := Z.of_nat (S (length fs)) in
  let c := exact_counts a (fs ++ [f]) in
  (np < 2 ^ 32)%Z -> ((if finite_size then 2 else 1) <= nqp < 2 ^ 32)%Z -> (nf < 2 ^ 32)%Z -> (forall k, (k < Z.to_nat (fx_n a))%nat -> c k < 2 ^ 32)%Z ->
  handy (IZR np * density finite_size (ff_box f) nqp * IZR nf) -> (i < Z.to_nat (fx_n a))%nat ->
  c i = 0%Z \/ (handy (IZR (c i) / (IZR np * density finite_size (ff_box f) nqp * IZR nf)) /\ handy (exact_rdf finite_size (ff_box f) a np nqp nf (c i) i)) ->
  let g := nth i (fst (frdf_result finite_size a (fs ++ [f]) counts)) fzero in let e := exact_rdf finite_size (ff_box f) a np nqp nf (c i) i in
  let n := nth i (snd (frdf_result finite_size a (fs ++ [f]) counts)) fzero in let m := exact_n_r nqp nf (map c (seq 0 (S i))) in
  Rabs (val g - e) <= 64 * u * (edge a (S i) / bin_width a) * e /\ Rabs (val n - m) <= 2 * (INR i + 7) * u * m.
Proof.
  intros O Or HF HC H HB HA np nqp nf c Hp Hq Hf Hc HP Hi HH g e n m. assert (C := C85_counts a (fs ++ [f]) counts O Or HF HC H). fold c in C.
  assert (C0 : forall k, (0 <= c k)%Z). { intros k. unfold c, exact_counts. clear. induction (fs ++ [f]) as [|x l IH]; cbn [map fold_right]; [lia|]. assert (0 <= exact_count a x k)%Z by (unfold exact_count; lia). lia. }
  assert (C' : counts = map c (seq 0 (Z.to_nat (fx_n a)))). { rewrite C. apply map_ext_in. intros k Hk. apply in_seq in Hk. apply Z.mod_small. split; auto. apply Hc. lia. }
  assert (NP : (1 <= np)%Z). { apply Forall_app in HF as [_ HF]. inversion HF as [|? ? (HN & _) _]; subst. unfold np. destruct (ff_points f); [congruence|cbn [length]; lia]. }
  assert (NQ : (1 <= nqp < 2 ^ 32)%Z) by (destruct finite_size; lia). assert (NF : (1 <= nf < 2 ^ 32)%Z) by (unfold nf in *; lia).
  assert (EN : nth i counts 0%Z = c i). { rewrite C'. rewrite nth_indep with (d' := c 0%nat) by (rewrite map_length, seq_length; auto). rewrite map_nth, seq_nth by auto. reflexivity. }
  assert (ER : frdf_result finite_size a (fs ++ [f]) counts = (frdf finite_size (ff_box f) a np nqp nf counts, fn_r nqp nf counts)).
  { unfold frdf_result. rewrite last_last, app_length. cbn [length]. replace (length fs + 1)%nat with (S (length fs)) by lia. cbv zeta. fold np nqp nf. rewrite !Z.mod_small by lia. reflexivity. }
  split.
  - unfold g, e. rewrite ER. cbn [fst]. rewrite <- EN. apply C85_rdf; auto; try lia; [intros ->; lia|rewrite EN; split; auto|rewrite EN; exact HH].
  - unfold n, m. rewrite ER. cbn [snd]. assert (F : firstn (S i) counts = map c (seq 0 (S i))). { rewrite C', firstn_map. f_equal. replace (Z.to_nat (fx_n a)) with (S i + (Z.to_nat (fx_n a) - S i))%nat by lia. rewrite seq_app, firstn_app, seq_length, Nat.sub_diag, firstn_O, app_nil_r. apply firstn_all2. rewrite seq_length. lia. }
    rewrite <- F. assert (LC : length counts = Z.to_nat (fx_n a)) by (rewrite C', map_length, seq_length; reflexivity).
    apply C85_n_r; auto; [|rewrite LC; destruct HA as (K & _); lia|rewrite LC; auto]. rewrite C'. apply Forall_forall. intros z Hz. apply in_map_iff in Hz as (k & <- & Hk). apply in_seq in Hk. split; auto. apply Hc. lia.
Qed.

(** * What is not so *)
Definition brute_frame (a : faxis) (f : fframe) (c : nat) : nat :=
  nsum (fun i => cnt (in_slot a c) (brute_force (ff_box f) (ff_points f) (nth i (ff_queries f) fv0) i (fx_max a) fzero (ff_excl f) (fv0 :: map (imv (ff_box f)) (filter (allowed (ff_box f)) ftriples)))) (seq 0 (length (ff_queries f))).
Lemma brute_counts a f counts : ff_points f <> [] -> Forall fin3 (ff_points f) -> frdf_counts a [f] counts ->
  counts = map (fun c => (Z.of_nat (brute_frame a f c) mod 2 ^ 32)%Z) (seq 0 (Z.to_nat (fx_n a))).
Proof.
  intros HN HF H. destruct (counts_outcome a [f] counts H) as (bs & HB & ->). inversion HB as [|? bonds ? bs' [HBo _] HR]; subst. inversion HR; subst. apply map_ext. intros c. f_equal. unfold addends. cbn [combine map flat_map]. rewrite app_nil_r.
  change (fst (f, bonds)) with f. change (snd (f, bonds)) with bonds. rewrite work_sum. f_equal. unfold brute_frame. apply nsum_ext. intros i Hi. apply in_seq in Hi. specialize (HBo i ltac:(lia)).
  destruct (C78_ball _ _ _ _ _ _ _ _ _ HN HF HBo) as [[E _]|(images & l & _ & EI & E & P)]; [discriminate|]. replace (bonds i) with l by congruence. rewrite (cnt_perm _ _ _ P). apply images_eq in EI. rewrite EI. reflexivity.
Qed.
(** Two points as far apart as the second of the reported edges (r_min, then edge 1): both bonds are counted in the bin below it. *)
Definition edge_axis : faxis := FAxis 13 (lit 0 0) (lit 1 0).
Definition apart (e : f32) : fframe := FFrame edge_box [fv0; FV e fzero fzero] [fv0; FV e fzero fzero] true [(0, 0); (1, 1)]%nat.
Lemma two_threads : execution 0 2 [(0, 0); (1, 1)]%nat.
Proof. exists [(0, 2)]%nat. split; [constructor; lia|reflexivity]. Qed.
Lemma edge_axis_ordinary : ordinary edge_axis.
Proof.
  destruct (is_lit_Z 0) as [F0 V0]; [cbn; lia|]. destruct (is_lit_Z 1) as [F1 V1]; [cbn; lia|].
  unfold ordinary, edge_axis. cbn [fx_min fx_max fx_n]. rewrite V0, V1. repeat split; try assumption; try lia.
  - assert (L := bpow_le radix2 (-125) (-4) ltac:(lia)). change (bpow radix2 (-4)) with (/ 16) in L. lra.
  - assert (L := bpow_le radix2 0 126 ltac:(lia)). change (bpow radix2 0) with 1 in L. lra.
Qed.
Lemma apart_points e : finite e = true -> 0 <= val e <= bpow radix2 60 -> Forall ordinary_point [fv0; FV e fzero fzero].
Proof.
  intros Fe Ve. apply Forall_cons; [repeat split; try apply zero_coord|]. apply Forall_cons; [|apply Forall_nil]. split; [split; [exact Fe|]; cbn [fvx]; rewrite Rabs_pos_eq; lra|split; apply zero_coord].
Qed.
Lemma apart_frame e : finite e = true -> 0 <= val e <= bpow radix2 60 -> ordinary_frame (apart e).
Proof. intros Fe Ve. assert (OP := apart_points e Fe Ve). split; [discriminate|]. split; [apply C78_inside_case|]. split; [exact OP|]. split; [exact OP|]. exact two_threads. Qed.
Lemma in_pairs f qi p t : In (qi, p, t) (pairs f) <-> (qi < length (ff_queries f))%nat /\ (p < length (ff_points f))%nat /\ In t (cells (ff_box f)) /\ (ff_excl f = true -> qi <> p).
Proof.
  unfold pairs. rewrite filter_In, !in_prod_iff, !in_seq. cbn [fst snd]. destruct (ff_excl f); cbn [andb]; [destruct (Nat.eqb_spec qi p)|]; cbn [negb]; split; intros H; repeat split; try apply H; try lia; try discriminate; try (destruct H as (_ & _ & _ & H); specialize (H eq_refl); congruence); try (intros; auto; fail).
Qed.
Lemma unmoved b p q : f2d b = false -> exact_distance b p q 0 0 0 = sqrt ((val (fvx p) - val (fvx q)) * (val (fvx p) - val (fvx q)) + (val (fvy p) - val (fvy q)) * (val (fvy p) - val (fvy q)) + (val (fvz p) - val (fvz q)) * (val (fvz p) - val (fvz q))).
Proof. intros E. unfold exact_distance, moved, norm, dot, rv, fflat, vsub, vadd. rewrite E. cbn [vx vy vz]. f_equal. ring. Qed.
Lemma apart_distance e t : 0 <= val e -> In t (pairs (apart e)) -> snd t = (0, 0, 0)%Z -> pair_distance (apart e) t = val e.
Proof.
  intros Ve. destruct t as [[qi p] t]. intros Ht E. cbn [snd] in E. subst t. apply in_pairs in Ht as (H1 & H2 & _ & X). cbn [ff_queries ff_points apart length] in H1, H2. specialize (X eq_refl).
  unfold pair_distance. cbn [ff_box ff_points ff_queries apart].
  assert (K : (qi = 0 /\ p = 1 \/ qi = 1 /\ p = 0)%nat). { lia. }
  destruct K as [[-> ->]|[-> ->]]; cbn [nth]; rewrite unmoved by reflexivity; cbn [fvx fvy fvz fv0]; change (val fzero) with 0; match goal with |- sqrt ?x = _ => replace x with (val e * val e) by ring end; apply sqrt_square; lra.
Qed.
Lemma apart_pairs e : exists t, In t (pairs (apart e)) /\ snd t = (0, 0, 0)%Z.
Proof. exists (0, 1, (0, 0, 0)%Z)%nat. split; [|reflexivity]. apply in_pairs. split; [cbn; lia|]. split; [cbn; lia|]. split; [vm_compute; auto 20|intros _; lia]. Qed.
Lemma apart_fits e : fits_box edge_axis (apart e).
Proof.
  assert (V10 := proj2 (is_lit_Z 10 ltac:(lia))). assert (V1 := proj2 (is_lit_Z 1 ltac:(lia))). unfold fits_box, apart, edge_box, fmk_box, edge_axis. cbn [ff_box fL fvx fvy fvz fx_max f2d]. rewrite V1, V10. repeat split; intros; lra.
Qed.
Lemma edge_val : finite (fedge edge_axis 1) = true /\ 0 <= val (fedge edge_axis 1) <= bpow radix2 60.
Proof.
  split; [vm_compute; reflexivity|]. rewrite <- SF2R_B2SF. replace (B2SF (fedge edge_axis 1)) with (SpecFloat.S754_finite false 10324441 (-27)) by (vm_compute; reflexivity).
  unfold SF2R, F2R. cbn [cond_Zopp Fnum Fexp]. split; [apply Rmult_le_pos; [apply IZR_le; lia|apply bpow_ge_0]|]. apply Rle_trans with (bpow radix2 0); [cbn; lra|apply bpow_le; lia].
Qed.
Lemma apart_brute : map (fun c => (Z.of_nat (brute_frame edge_axis (apart (fedge edge_axis 1)) c) mod 2 ^ 32)%Z) (seq 0 (Z.to_nat (fx_n edge_axis))) = [2; 0; 0; 0; 0; 0; 0; 0; 0; 0; 0; 0; 0]%Z.
Proof. vm_compute. reflexivity. Qed.
Theorem C85_edge_refuted : exists a f, ordinary a /\ ordinary_radius (fx_max a) /\ ordinary_frame f /\
  (forall t, In t (pairs f) -> snd t = (0, 0, 0)%Z -> pair_distance f t = val (fedge a 1)) /\ (exists t, In t (pairs f) /\ snd t = (0, 0, 0)%Z) /\
  (exists counts, frdf_counts a [f] counts) /\ forall counts, frdf_counts a [f] counts -> nth 0 counts 0%Z = 2%Z /\ nth 1 counts 0%Z = 0%Z.
Proof.
  exists edge_axis, (apart (fedge edge_axis 1)). assert (O := edge_axis_ordinary). assert (Or : ordinary_radius (fx_max edge_axis)) by (apply lit_length; lia). destruct edge_val as [Fe Ve]. assert (B := apart_brute).
  generalize dependent (fedge edge_axis 1). intros e Fe Ve B. assert (OF := apart_frame e Fe Ve). split; auto. split; auto. split; auto. split; [intros t; apply apart_distance; lra|]. split; [apply apart_pairs|]. split.
  - apply C85_defined; auto. constructor; [right; apply apart_fits|constructor].
  - intros counts H. apply brute_counts in H; [|discriminate|apply points_fin; apply (apart_points e Fe Ve)]. rewrite B in H. subst counts. split; reflexivity.
Qed.
Lemma flat_nil {A B} (g : A -> list B) l : (forall x, g x = []) -> flat_map g l = [].
Proof. intros H. induction l as [|x l IH]; cbn [flat_map]; auto. rewrite H, IH. reflexivity. Qed.
(** A radius that is not a number is accepted: nothing is ever counted. *)
Theorem C85_nan_refuted bins fs : (1 <= bins)%Z -> Forall (fun f => ff_points f <> [] /\ Forall fin3 (ff_points f) /\ execution 0 (length (ff_queries f)) (ff_ev f)) fs ->
  exists a, frdf_make bins B754_nan fzero = Some a /\ (exists counts, frdf_counts a fs counts) /\ forall counts, frdf_counts a fs counts -> counts = map (fun _ => 0%Z) (seq 0 (Z.to_nat bins)).
Proof.
  intros Hb HF. exists (FAxis bins fzero B754_nan). set (a := FAxis bins fzero B754_nan). split; [|].
  { unfold frdf_make. rewrite (proj2 (Z.eqb_neq bins 0)) by lia. reflexivity. }
  assert (AB : forall f i, ff_points f <> [] -> Forall fin3 (ff_points f) -> faabb_ball (ff_box f) (ff_points f) (nth i (ff_queries f) fv0) i (fx_max a) fzero (ff_excl f) true (Some [])).
  { intros f i HN Hf. destruct (C78_defined (ff_box f) (ff_points f) (nth i (ff_queries f) fv0) i (fx_max a) fzero (ff_excl f) true HN Hf) as (res & H & _).
    assert (NC : fimage_check (ff_box f) B754_nan = false). { unfold fimage_check. change (fmul B754_nan (lit 2 0)) with (B754_nan : f32). assert (NL : forall x : f32, Bleb x B754_nan = false) by (intros [ | | | ]; reflexivity). rewrite !NL, !andb_false_r. reflexivity. }
    destruct (C78_ball _ _ _ _ _ _ _ _ _ HN Hf H) as [[_ [E|[_ E]]]|(images & l & _ & EI & -> & P)]; [discriminate|cbn [fx_max a] in E; congruence|].
    replace (brute_force _ _ _ _ _ _ _ images) with (@nil fbond) in P; [apply Permutation_sym, Permutation_nil in P; subst l; exact H|]. clear. symmetry. apply flat_nil. intros im. apply flat_nil. intros j. unfold pair_bond. destruct (ff_excl f && _); [reflexivity|]. cbn [fx_max a].
    replace (Bltb _ (fmul B754_nan B754_nan)) with false; [reflexivity|]. change (fmul B754_nan B754_nan) with (B754_nan : f32). destruct (fnorm2 _); reflexivity. }
  split.
  - eexists. exists (map (fun _ _ => []) fs), []. eexists. split; [|split; [|split; [constructor|split; [apply Permutation_refl|reflexivity]]]].
    + clear -HF AB. induction HF as [|f fs (HN & Hf & _) HF IH]; constructor; auto. split; [intros i Hi; auto|intros i x Hi []].
    + eapply Forall_impl; [|exact HF]. intros f (_ & _ & E). exact E.
  - intros counts H. destruct (counts_outcome a fs counts H) as (bs & HB & ->). apply map_ext. intros c. clear H. replace (fold_right Z.add 0%Z _) with 0%Z; [reflexivity|]. unfold addends.
    induction HB as [|f bonds fs bs [HB _] HR IH]; auto. inversion HF as [|? ? (HN & Hf & _) HF']; subst. cbn [combine map flat_map]. rewrite zsum_app, <- (IH HF'). change (fst (f, bonds)) with f. change (snd (f, bonds)) with bonds. rewrite work_sum.
    rewrite (nsum_ext _ (fun _ => 0%nat)), nsum_zero; [reflexivity|]. intros i Hi. apply in_seq in Hi. specialize (HB i ltac:(lia)).
    destruct (C78_defined (ff_box f) (ff_points f) (nth i (ff_queries f) fv0) i (fx_max a) fzero (ff_excl f) true HN Hf) as (res & _ & U). apply U in HB. assert (K := U _ (AB f i HN Hf)). replace (bonds i) with (@nil fbond) by congruence. reflexivity.
Qed.
(** The tables of shell volumes: bins^3 numbers are allocated where bins are used. *)
Theorem C85_memory_refuted : (forall bins, (2048 <= bins <= 2 ^ 21)%Z -> (frdf_table3 bins = bins * bins * bins /\ 2 ^ 33 <= frdf_table3 bins)%Z) /\ (frdf_table3 (2 ^ 22) < 2 ^ 22)%Z.
Proof.
  split; [|vm_compute; reflexivity]. intros bins H. assert (E : (bins * bins <= 2 ^ 21 * 2 ^ 21)%Z) by (apply Z.mul_le_mono_nonneg; lia). assert (E3 : (bins * bins * bins <= 2 ^ 21 * 2 ^ 21 * 2 ^ 21)%Z) by (apply Z.mul_le_mono_nonneg; lia).
  assert (L : (2048 * 2048 <= bins * bins)%Z) by (apply Z.mul_le_mono_nonneg; lia). assert (L3 : (2048 * 2048 * 2048 <= bins * bins * bins)%Z) by (apply Z.mul_le_mono_nonneg; lia).
  unfold frdf_table3. rewrite (Z.mod_small (bins * bins)) by lia. rewrite Z.mod_small by lia. lia.
Qed.

(** A case: two points 1.5 apart in a periodic cube of side 10, three bins up to 3. *)
Definition case_axis : faxis := FAxis 3 (lit 0 0) (lit 3 0).
Definition case_frame : fframe := apart (lit 3 (-1)).
Lemma case_val : finite (lit 3 (-1)) = true /\ val (lit 3 (-1)) = 3 / 2.
Proof. split; [vm_compute; reflexivity|]. rewrite <- SF2R_B2SF. replace (B2SF (lit 3 (-1))) with (SpecFloat.S754_finite false 12582912 (-23)) by (vm_compute; reflexivity). unfold SF2R, F2R. cbn. lra. Qed.
Lemma moved_at b p q i j k : f2d b = false ->
  let L := fL b in let d x y z w := val x - (val y + IZR z * val w) in
  exact_distance b p q i j k = sqrt (d (fvx p) (fvx q) i (fvx L) * d (fvx p) (fvx q) i (fvx L) + d (fvy p) (fvy q) j (fvy L) * d (fvy p) (fvy q) j (fvy L) + d (fvz p) (fvz q) k (fvz L) * d (fvz p) (fvz q) k (fvz L)) /\
  norm (moved b q i j k) = sqrt ((val (fvx q) + IZR i * val (fvx L)) * (val (fvx q) + IZR i * val (fvx L)) + (val (fvy q) + IZR j * val (fvy L)) * (val (fvy q) + IZR j * val (fvy L)) + (val (fvz q) + IZR k * val (fvz L)) * (val (fvz q) + IZR k * val (fvz L))).
Proof. intros E. unfold exact_distance, moved, norm, dot, rv, fflat, vsub, vadd. rewrite E. cbn [vx vy vz]. split; reflexivity. Qed.
Lemma sqrt_bounds x lo hi : 0 <= lo -> 0 <= hi -> lo * lo <= x <= hi * hi -> lo <= sqrt x <= hi.
Proof. intros Hl Hh [A B]. split; [rewrite <- (sqrt_square lo) by auto|rewrite <- (sqrt_square hi) by auto]; apply sqrt_le_1; nra. Qed.
Lemma case_distance e t : val e = 3 / 2 -> In t (pairs (apart e)) -> (pair_distance (apart e) t = 3 / 2 \/ 8 <= pair_distance (apart e) t <= 30) /\ 0 <= pair_size (apart e) t <= 30.
Proof.
  intros Ve. destruct t as [[qi p] [[i j] k]]. intros Ht. apply in_pairs in Ht as (H1 & H2 & HC & X). cbn [ff_queries ff_points apart length] in H1, H2. specialize (X eq_refl). apply in_cells in HC. destruct HC as ((Hi & Hj & Hk) & _).
  unfold pair_distance, pair_size. assert (D2 : f2d (ff_box (apart e)) = false) by reflexivity.
  destruct (moved_at (ff_box (apart e)) (nth p (ff_points (apart e)) fv0) (nth qi (ff_queries (apart e)) fv0) i j k D2) as [E1 E2]. rewrite E1, E2. clear E1 E2 D2.
  cbn [ff_box ff_points ff_queries apart edge_box fmk_box fL fvx fvy fvz]. assert (V10 := proj2 (is_lit_Z 10 ltac:(lia))). rewrite V10.
  assert (Si : (i = -1 \/ i = 0 \/ i = 1)%Z) by lia. assert (Sj : (j = -1 \/ j = 0 \/ j = 1)%Z) by lia. assert (Sk : (k = -1 \/ k = 0 \/ k = 1)%Z) by lia. clear Hi Hj Hk.
  assert (K : (qi = 0 /\ p = 1 \/ qi = 1 /\ p = 0)%nat) by lia. clear H1 H2 X.
  destruct K as [[-> ->]|[-> ->]]; cbn [nth fvx fvy fvz fv0]; rewrite Ve; change (val fzero) with 0; split; try (apply sqrt_bounds; try lra; destruct Si as [->|[->| ->]], Sj as [->|[->| ->]], Sk as [->|[->| ->]]; lra);
  (destruct (Z.eq_dec i 0) as [-> |Ni]; [destruct (Z.eq_dec j 0) as [-> |Nj]; [destruct (Z.eq_dec k 0) as [-> |Nk]|]|]);
  try (right; apply sqrt_bounds; try lra; destruct Si as [Si|[Si|Si]]; try (exfalso; lia); destruct Sj as [Sj|[Sj|Sj]]; try (exfalso; lia); destruct Sk as [Sk|[Sk|Sk]]; try (exfalso; lia); rewrite ?Si, ?Sj, ?Sk; lra);
  left; match goal with |- sqrt ?x = _ => replace x with (3 / 2 * (3 / 2)) by lra end; apply sqrt_square; lra.
Qed.
Lemma case_clear : clear case_axis case_frame.
Proof.
  intros t Ht m Hm. unfold case_frame in *. destruct (case_distance (lit 3 (-1)) t (proj2 case_val) Ht) as [D S]. set (d := pair_distance (apart (lit 3 (-1))) t) in *. set (s := pair_size (apart (lit 3 (-1))) t) in *. clearbody d s. clear Ht.
  assert (V3' := proj2 (is_lit_Z 3 ltac:(lia))). assert (V0 := proj2 (is_lit_Z 0 ltac:(lia))). unfold blur, bins_from, range_of, slack, case_axis in *. cbn [fx_n fx_min fx_max] in *. rewrite V3', V0.
  replace (3 * (d - 0) / (3 - 0)) with d by field. assert (B70 : bpow radix2 (-70) <= bpow radix2 (-10)) by (apply bpow_le; lia). change (bpow radix2 (-10)) with (/ 1024) in B70.
  apply Rle_lt_trans with (/ 4); [unfold u; destruct D as [-> |D]; lra|]. assert (M : (m = 0 \/ m = 1 \/ m = 2 \/ m = 3)%Z) by lia.
  destruct D as [-> |D]; destruct M as [-> |[-> |[-> | ->]]]; unfold Rabs; destruct (Rcase_abs _); lra.
Qed.
Lemma case_axis_ordinary : ordinary case_axis /\ ordinary_radius (fx_max case_axis) /\ handy_axis case_axis.
Proof.
  destruct (is_lit_Z 0) as [F0 V0]; [cbn; lia|]. destruct (is_lit_Z 3) as [F3 V3']; [cbn; lia|]. split; [|split; [apply lit_length; lia|]].
  - unfold ordinary, case_axis. cbn [fx_min fx_max fx_n]. rewrite V0, V3'. repeat split; try assumption; try lia.
    + assert (L := bpow_le radix2 (-125) (-4) ltac:(lia)). change (bpow radix2 (-4)) with (/ 16) in L. lra.
    + assert (L := bpow_le radix2 2 126 ltac:(lia)). change (bpow radix2 2) with 4 in L. lra.
  - unfold handy_axis, handy_length, bin_width, range_of, case_axis. cbn [fx_min fx_max fx_n]. rewrite V0, V3'. assert (L := bpow_le radix2 (-20) (-4) ltac:(lia)). change (bpow radix2 (-4)) with (/ 16) in L.
    split; [lia|]. split; [split; [exact F3|split; [lra|cbn; lra]]|]. split; [exact F0|]. split; [left; reflexivity|]. split; lra.
Qed.
Lemma filter_short {A} (g : A -> bool) l : (length (filter g l) <= length l)%nat.
Proof. induction l as [|x l IH]; cbn [filter length]; [lia|]. destruct (g x); cbn [length]; lia. Qed.
Lemma pairs_short f : (length (pairs f) <= length (ff_queries f) * length (ff_points f) * length (cells (ff_box f)))%nat.
Proof. unfold pairs. eapply Nat.le_trans; [apply filter_short|]. rewrite !prod_length, !seq_length. lia. Qed.
Lemma counts_short a f k q p c : length (ff_queries f) = q -> length (ff_points f) = p -> length (cells (ff_box f)) = c -> (0 <= exact_counts a [f] k <= Z.of_nat (q * p * c))%Z.
Proof.
  intros <- <- <-. unfold exact_counts. cbn [map fold_right]. unfold exact_count. assert (L := pairs_short f). match goal with |- context [length (filter ?g (pairs f))] => assert (L' := filter_short g (pairs f)) end. lia.
Qed.
Lemma cells27 : length (cells edge_box) = 27%nat. Proof. vm_compute. reflexivity. Qed.
Lemma case_brute : map (fun c => (Z.of_nat (brute_frame case_axis case_frame c) mod 2 ^ 32)%Z) (seq 0 (Z.to_nat (fx_n case_axis))) = [0; 2; 0]%Z.
Proof. vm_compute. reflexivity. Qed.
Lemma middle (g : nat -> Z) n : Z.to_nat n = 3%nat -> [0; 2; 0]%Z = map (fun c => (g c mod 2 ^ 32)%Z) (seq 0 (Z.to_nat n)) -> (0 <= g 1%nat <= 108)%Z -> g 1%nat = 2%Z.
Proof. intros -> H B. cbn [seq map] in H. apply (f_equal (fun l => nth 1 l 0%Z)) in H. cbn [nth] in H. rewrite Z.mod_small in H by lia. auto. Qed.
Lemma case_counts : (exists counts, frdf_counts case_axis [case_frame] counts) /\ (forall k, (0 <= exact_counts case_axis [case_frame] k <= 108)%Z) /\ exact_counts case_axis [case_frame] 1 = 2%Z.
Proof.
  destruct case_axis_ordinary as (O & Or & _). destruct case_val as [Fe Ve]. assert (OF : ordinary_frame case_frame). { apply apart_frame; auto. rewrite Ve. split; [lra|]. apply Rle_trans with (bpow radix2 1); [cbn; lra|apply bpow_le; lia]. }
  assert (EX : exists counts, frdf_counts case_axis [case_frame] counts).
  { apply C85_defined; auto. constructor; [|constructor]. right. assert (V10 := proj2 (is_lit_Z 10 ltac:(lia))). assert (V3' := proj2 (is_lit_Z 3 ltac:(lia))). unfold fits_box, case_frame, apart, edge_box, fmk_box, case_axis. cbn [ff_box fL fvx fvy fvz fx_max f2d]. rewrite V3', V10. repeat split; intros; lra. }
  split; auto. assert (B : forall k, (0 <= exact_counts case_axis [case_frame] k <= 108)%Z).
  { intros k. apply (counts_short case_axis case_frame k 2 2 27); [reflexivity|reflexivity|exact cells27]. }
  split; auto. destruct EX as [counts H]. assert (C := C85_counts _ _ _ O Or (Forall_cons _ OF (Forall_nil _)) (Forall_cons _ case_clear (Forall_nil _)) H).
  apply brute_counts in H; [|discriminate|apply points_fin; apply OF].
  rewrite case_brute in H. subst counts. apply (middle _ (fx_n case_axis)); [reflexivity|exact C|apply B].
Qed.
Example C85_case : exists counts, ordinary case_axis /\ ordinary_radius (fx_max case_axis) /\ Forall ordinary_frame ([] ++ [case_frame]) /\ Forall (clear case_axis) ([] ++ [case_frame]) /\ frdf_counts case_axis ([] ++ [case_frame]) counts /\
  handy_box (ff_box case_frame) /\ handy_axis case_axis /\ Forall (fits_box case_axis) [case_frame] /\ exact_counts case_axis ([] ++ [case_frame]) 1 = 2%Z /\ (forall k, exact_counts case_axis ([] ++ [case_frame]) k < 2 ^ 32)%Z /\
  handy (IZR 2 * density false (ff_box case_frame) 2 * IZR 1) /\ handy (IZR 2 / (IZR 2 * density false (ff_box case_frame) 2 * IZR 1)) /\ handy (exact_rdf false (ff_box case_frame) case_axis 2 2 1 2 1).
Proof.
  destruct case_axis_ordinary as (O & Or & HA). destruct case_counts as ((counts & H) & B & C). destruct case_val as [Fe Ve].
  assert (OF : ordinary_frame case_frame). { apply apart_frame; auto. rewrite Ve. split; [lra|]. apply Rle_trans with (bpow radix2 1); [cbn; lra|apply bpow_le; lia]. }
  assert (F10 := proj1 (is_lit_Z 10 ltac:(lia))). assert (V10 := proj2 (is_lit_Z 10 ltac:(lia))). assert (V3' := proj2 (is_lit_Z 3 ltac:(lia))). assert (V0 := proj2 (is_lit_Z 0 ltac:(lia))).
  assert (HL : handy_length (lit 10 0)). { split; [exact F10|]. rewrite V10. split; [apply Rle_trans with (bpow radix2 0); [apply bpow_le; lia|cbn; lra]|cbn; lra]. }
  assert (EV : volume (ff_box case_frame) = 1000). { unfold volume, case_frame, apart, edge_box, fmk_box. cbn [ff_box f2d fL fvx fvy fvz]. rewrite V10. lra. }
  assert (HH : forall x, / 1024 <= x <= 1024 -> handy x). { intros x Hx. assert (L1 := bpow_le radix2 (-110) (-10) ltac:(lia)). assert (L2 := bpow_le radix2 10 110 ltac:(lia)). change (bpow radix2 (-10)) with (/ 1024) in L1. change (bpow radix2 10) with 1024 in L2. split; lra. }
  exists counts. cbn [app]. split; auto. split; auto. split; [constructor; auto|]. split; [constructor; [apply case_clear|constructor]|]. split; auto. split; [split; [exact HL|split; [exact HL|intros _; exact HL]]|]. split; auto.
  split. { constructor; [|constructor]. unfold fits_box, case_frame, apart, edge_box, fmk_box, case_axis. cbn [ff_box fL fvx fvy fvz fx_max f2d]. rewrite V3', V10. repeat split; intros; lra. }
  split; auto. split. { intros k. specialize (B k). lia. }
  unfold exact_rdf, density. rewrite EV. replace (2 * (2 / 1000) * 1) with (/ 250) by field. split; [apply HH; lra|]. replace (2 / / 250) with 500 by field. split; [apply HH; lra|].
  assert (E1 : edge case_axis 1 = 1 /\ edge case_axis 2 = 2). { unfold edge, bin_width, range_of, case_axis. cbn [fx_n fx_min fx_max INR]. rewrite V0, V3'. split; field. }
  destruct E1 as [E1 E2]. rewrite E1, E2. change (f2d (ff_box case_frame)) with false. cbn [shell]. destruct pi_bounds as [PL PU]. replace (2 ^ 3 - 1 ^ 3) with 7 by ring. apply HH.
  assert (PS : 29 <= 4 / 3 * PI * 7 <= 30) by lra. set (sv := 4 / 3 * PI * 7) in *. clearbody sv. split; [apply Rmult_le_reg_r with sv|apply Rmult_le_reg_r with sv]; try lra; unfold Rdiv; rewrite ?Rmult_assoc, ?Rinv_l by lra; lra.
Qed.

Print Assumptions C85_counts.
Print Assumptions C85_bits.
Print Assumptions C85_defined.
Print Assumptions C85_rdf.
Print Assumptions C85_n_r.
Print Assumptions C85_system.
Print Assumptions C85_edge_refuted.
Print Assumptions C85_nan_refuted.
Print Assumptions C85_memory_refuted.

(** Which arguments the constructor accepts; NaN passes every comparison. *)
Theorem C85_arguments bins r_max r_min : (0 <= bins)%Z ->
  let accepted := frdf_make bins r_max r_min = Some (FAxis bins r_min r_max) in
  (accepted \/ frdf_make bins r_max r_min = None) /\
  (finite r_max = true -> finite r_min = true -> (accepted <-> (0 < bins)%Z /\ 0 <= val r_min < val r_max)) /\
  (r_max = B754_infinity false -> finite r_min = true -> (accepted <-> (0 < bins)%Z /\ 0 <= val r_min)) /\
  (r_max = B754_nan -> finite r_min = true -> (accepted <-> (0 < bins)%Z /\ 0 <= val r_min)) /\
  (finite r_max = true -> r_min = B754_nan -> (accepted <-> (0 < bins)%Z /\ 0 < val r_max)) /\
  (r_max = B754_infinity true \/ r_min = B754_infinity true \/ r_min = B754_infinity false /\ r_max <> B754_nan -> ~ accepted).
Proof.
  intros Hn accepted. subst accepted.
  assert (NONE : forall x : option faxis, x = None -> ~ x = Some (FAxis bins r_min r_max)) by (intros x ->; discriminate).
  assert (F0 : finite fzero = true) by reflexivity. assert (V0 : val fzero = 0) by reflexivity.
  assert (INF : forall y, finite y = true -> Bleb (B754_infinity false) y = false) by (intros [s| | |s m e He] Hy; try discriminate; reflexivity).
  unfold frdf_make. destruct (Z.eqb_spec bins 0) as [E0|E0].
  { split; [auto|]. repeat split; intros; try discriminate; lia. }
  assert (Hp : (0 < bins)%Z) by lia. split.
  { destruct (Bleb r_max fzero); auto. destruct (Bltb r_min fzero); auto. destruct (Bleb r_max r_min); auto. }
  split; [|split; [|split; [|split]]].
  - intros Fa Fi. rewrite !Bleb_correct, Bltb_correct by auto. change (B2R fzero) with 0. fold (val r_max) (val r_min).
    destruct (Rle_bool_spec (val r_max) 0); [split; [discriminate|intros; lra]|]. destruct (Rlt_bool_spec (val r_min) 0); [split; [discriminate|intros; lra]|].
    destruct (Rle_bool_spec (val r_max) (val r_min)); [split; [discriminate|intros; lra]|]. split; auto.
  - intros -> Fi. rewrite !INF by auto. rewrite Bltb_correct by auto. change (B2R fzero) with 0. fold (val r_min).
    destruct (Rlt_bool_spec (val r_min) 0); [split; [discriminate|intros; lra]|]. split; auto.
  - intros -> Fi. replace (Bleb B754_nan fzero) with false by reflexivity. replace (Bleb B754_nan r_min) with false by (destruct r_min; reflexivity).
    rewrite Bltb_correct by auto. change (B2R fzero) with 0. fold (val r_min).
    destruct (Rlt_bool_spec (val r_min) 0); [split; [discriminate|intros; lra]|]. split; auto.
  - intros Fa ->. rewrite Bleb_correct by auto. change (B2R fzero) with 0. fold (val r_max). replace (Bltb B754_nan fzero) with false by reflexivity.
    replace (Bleb r_max B754_nan) with false by (destruct r_max as [[]|[]| |[]]; reflexivity).
    destruct (Rle_bool_spec (val r_max) 0); [split; [discriminate|intros; lra]|]. split; auto.
  - intros [-> | [-> | [-> Hm]]]; apply NONE.
    + reflexivity.
    + destruct (Bleb r_max fzero); auto.
    + replace (Bleb r_max (B754_infinity false)) with true; [destruct (Bleb r_max fzero); auto|]. destruct r_max as [[]|[]| |[]]; auto; congruence.
Qed.
Print Assumptions C85_arguments.
