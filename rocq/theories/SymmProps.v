(** C89: where the origin is, which unit is used, which way the axes point and how the particles are numbered change no result. *)
From Coq Require Import Reals ZArith List Permutation Lia Lra Psatz.
From Verif Require Import BoxProofs BoxProps AABBProofs2 AABBProps QueryProps RdfProps SymmProofs.
From Verif Require Import SymmSpec.
From Verif Require Import BoxSpec QueryArgSpec QuerySpec RdfShell.
Import ListNotations.
Local Open Scope R_scope.

(** The other description meets the conditions of the queries as well. *)
Theorem C89_setting b c t f g p r points qs points' qs' :
  setting b points qs p r -> same_system b c t f g (or_else (pa_excl p) false) points qs points' qs' ->
  (forall x, In x points' -> in_cell (in_units (Rabs c) b) x) -> (forall x, In x qs' -> in_cell (in_units (Rabs c) b) x) ->
  Rabs c * or_else (pa_rguess p) 0 <> -1 ->
  setting (in_units (Rabs c) b) points' qs' (args_in_units (Rabs c) p) (Rabs c * r).
Proof.
  intros [Hb FP Hne Hn HP Hqne HQ (S1 & S2 & S3 & S4) W (A1 & A2 & A3) R0 R1 RO] S HP' HQ' G. assert (A0 : 0 < Rabs c) by (apply Rabs_pos_lt, S).
  destruct S as [C0 _ (LP & _) (LQ & _) _]. constructor; auto.
  - apply positive_units; auto.
  - intros ->. destruct points; [auto|discriminate].
  - rewrite LP. auto.
  - intros ->. destruct qs; [auto|discriminate].
  - unfold no_sentinel, args_in_units. cbn [pa_rmax pa_k pa_scale pa_rguess]. rewrite A1. split; [|split; [auto|split; [auto|]]].
    + cbn. intros E. injection E as E. nra.
    + destruct (pa_rguess p); cbn in *; intros E; [injection E as E; auto|discriminate].
  - split; [cbn; rewrite A1; reflexivity|]. split; [exact A2|exact A3].
  - unfold args_in_units. cbn. destruct (pa_rmin p); cbn in *; nra.
  - unfold args_in_units. cbn. destruct (pa_rmin p); cbn in *; nra.
  - apply radius_units; auto.
Qed.
Lemma scaled_min p a : or_else (pa_rmin (args_in_units a p)) 0 = a * or_else (pa_rmin p) 0.
Proof. unfold args_in_units. cbn. destruct (pa_rmin p); cbn; ring. Qed.
Lemma map_nodup {A B} (h : A -> B) l : NoDup l -> (forall x y, In x l -> In y l -> h x = h y -> x = y) -> NoDup (map h l).
Proof.
  induction 1 as [|x l N1 N2 IH]; intros I; simpl; constructor.
  - intros K. apply in_map_iff in K as (y & E & Hy). apply N1. rewrite <- (I y x); auto; simpl; auto.
  - apply IH. intros u v Hu Hv. apply I; simpl; auto.
Qed.
(** Every backend, on either side, finds the same bonds. *)
Theorem C89_bonds (be be' : backend) b c t f g p r points qs points' qs' :
  setting b points qs p r -> same_system b c t f g (or_else (pa_excl p) false) points qs points' qs' ->
  (forall x, In x points' -> in_cell (in_units (Rabs c) b) x) -> (forall x, In x qs' -> in_cell (in_units (Rabs c) b) x) ->
  Rabs c * or_else (pa_rguess p) 0 <> -1 ->
  usable be b points -> usable be' (in_units (Rabs c) b) points' ->
  exists ls ls', (forall res, py_query be b points qs p res <-> res = Some ls) /\
    (forall res, py_query be' (in_units (Rabs c) b) points' qs' (args_in_units (Rabs c) p) res <-> res = Some ls') /\
    length ls = length qs /\ length ls' = length qs /\ same_bonds c f g (length qs) ls ls'.
Proof.
  intros St S HP' HQ' G U U'. assert (St' := C89_setting _ _ _ _ _ _ _ _ _ _ _ St S HP' HQ' G). set (a := Rabs c) in *.
  destruct (C32_ball be b points qs p r St U) as (ls & E & L & H). destruct (C32_ball be' _ points' qs' _ _ St' U') as (ls' & E' & L' & H').
  destruct (ss_queries _ _ _ _ _ _ _ _ _ _ S) as (LQ & (RQ & RQi) & _). destruct (ss_points _ _ _ _ _ _ _ _ _ _ S) as (LP & (RP & RPi) & _).
  exists ls, ls'. split; [exact E|]. split; [exact E'|]. split; [exact L|]. split; [congruence|].
  intros i Hi. destruct (H (g i) (RQ i Hi)) as (N & I). destruct (H' i ltac:(lia)) as (N' & I').
  rewrite scaled_min in I'. change (or_else (pa_excl (args_in_units a p)) false) with (or_else (pa_excl p) false) in I'.
  destruct St as [Hb FP Hne Hn HP Hqne HQ Se W A R0 R1 RO].
  assert (RS := fun x => range_same b c t f g _ points qs points' qs' S Hb HP HQ HP' HQ' i r (or_else (pa_rmin p) 0) x Hi).
  apply NoDup_Permutation; [apply map_nodup; auto|exact N|].
  - intros x y Hx Hy Exy. apply I' in Hx, Hy. assert (bp x = bp y).
    { apply RPi; [| |exact (f_equal bp Exy)]. destruct Hx as (j & ? & ? & ? & Hj & _ & _ & _ & _ & ->). simpl. lia. destruct Hy as (j & ? & ? & ? & Hj & _ & _ & _ & _ & ->). simpl. lia. }
    destruct St'. eapply one_bond; [ | | | |exact Hx|exact Hy|]; eauto. apply HQ', nth_In. lia.
  - intros x. rewrite I, RS. rewrite in_map_iff. split; intros (x' & K1 & K2); exists x'; split; auto; apply I'; auto.
Qed.
Print Assumptions C89_bonds.

(** Moving all the particles and wrapping them back into the box, and shuffling them, is such a description. *)
Theorem C89_wrapped b c t f ps : positive b -> c <> 0 -> (b_2d b = true -> vz t = 0) -> renumbers (length ps) f -> (forall x, In x ps -> in_cell b x) ->
  let b' := in_units (Rabs c) b in
  let ps' := map (fun j => wrap b' (vadd (vscale c (nth (f j) ps v0)) t)) (seq 0 (length ps)) in
  redescribed b c t f ps ps' /\ forall x, In x ps' -> in_cell b' x.
Proof.
  intros Hb C0 Ht R HP b' ps'. assert (A0 : 0 < Rabs c) by (apply Rabs_pos_lt; auto). assert (Hb' : positive b') by (apply positive_units; auto).
  assert (SP : forall j, (j < length ps)%nat -> in_space b' (vadd (vscale c (nth (f j) ps v0)) t)).
  { intros j Hj D. destruct R as [R _]. assert (K := in_cell_space b _ Hb (HP _ (nth_In ps v0 (R j Hj))) D). simpl. rewrite K, (Ht D). ring. }
  split.
  - split; [unfold ps'; rewrite map_length, seq_length; reflexivity|]. split; auto. intros j Hj. unfold ps'.
    rewrite (nth_indep _ v0 ((fun j => wrap b' (vadd (vscale c (nth (f j) ps v0)) t)) 0%nat)) by (rewrite map_length, seq_length; auto). rewrite (map_nth (fun j => wrap b' (vadd (vscale c (nth (f j) ps v0)) t))), seq_nth by auto.
    apply C02_wrap_lattice_shift; [apply Hb'|]. apply SP. simpl. auto.
  - intros x Hx. apply in_map_iff in Hx as (j & <- & Hj). apply in_seq in Hj. apply C27_wrapped_in_cell; [apply Hb'|]. apply SP. lia.
Qed.

(** * RDF *)
(** Frames and histories that correspond. *)
Inductive same_op (a : R) : rop -> rop -> Prop :=
  | SOCompute reset fr fr' : same_distances a fr fr' -> same_sizes a (ri_data fr) (ri_data fr') -> same_op a (RCompute reset fr) (RCompute reset fr')
  | SORead ev ev' : same_op a (RRead ev) (RRead ev')
  | SOMode m : same_op a (RMode m) (RMode m).
Definition same_frame (a : R) (fr fr' : rin) : Prop := same_distances a fr fr' /\ same_sizes a (ri_data fr) (ri_data fr').
Lemma rsince_same a h h' : Forall2 (same_op a) h h' -> forall acc acc', Forall2 (same_frame a) acc acc' -> Forall2 (same_frame a) (rsince h acc) (rsince h' acc').
Proof.
  induction 1 as [|o o' h h' O _ IH]; intros acc acc' F; simpl; auto. destruct O as [[|] fr fr' D Z| |]; apply IH; auto.
  - constructor; [split; auto|constructor].
  - apply Forall2_app; auto. constructor; [split; auto|constructor].
Qed.
Lemma mode_same a h h' : Forall2 (same_op a) h h' -> forall s m l, read_mode h' s m l = read_mode h s m l.
Proof. induction 1 as [|o o' h h' O _ IH]; intros; simpl; auto. destruct O; auto. Qed.
Lemma dist_count_map lo hi fs : dist_count lo hi fs = length (filter (fun d => Rle_bool lo d && Rlt_bool d hi) (map bd (flat_map ri_all fs))).
Proof. unfold dist_count. induction (flat_map ri_all fs) as [|x l IH]; simpl; auto. destruct (_ && _); simpl; auto. Qed.
Lemma filter_perm {A} (p : A -> bool) l l' : Permutation l l' -> Permutation (filter p l) (filter p l').
Proof. induction 1; simpl; auto; [destruct (p x); auto| |eapply perm_trans; eauto]. destruct (p x), (p y); auto. apply perm_swap. Qed.
Lemma frames_distances a fs fs' : Forall2 (same_frame a) fs fs' -> Permutation (map (fun x => bd x / a) (flat_map ri_all fs')) (map bd (flat_map ri_all fs)).
Proof. induction 1 as [|f f' fs fs' [D _] _ IH]; simpl; auto. rewrite !map_app. apply Permutation_app; auto. Qed.
Lemma count_same a lo hi fs fs' : 0 < a -> Forall2 (same_frame a) fs fs' -> dist_count (a * lo) (a * hi) fs' = dist_count lo hi fs.
Proof.
  intros A F. rewrite (dist_count_map lo hi fs). rewrite <- (Permutation_length (filter_perm _ _ _ (frames_distances a fs fs' F))). unfold dist_count.
  assert (C : forall d, Rle_bool (a * lo) d && Rlt_bool d (a * hi) = Rle_bool lo (d / a) && Rlt_bool (d / a) hi).
  { intros d. assert (E : d = a * (d / a)) by (field; lra). set (y := d / a) in *. rewrite E.
    destruct (Rle_bool_spec (a * lo) (a * y)), (Rlt_bool_spec (a * y) (a * hi)), (Rle_bool_spec lo y), (Rlt_bool_spec y hi); auto; nra. }
  induction (flat_map ri_all fs') as [|x l IH]; simpl; auto. rewrite C. destruct (_ && _); simpl; auto.
Qed.
Lemma shell_units a d lo hi : shell d (a * lo) (a * hi) = (if d then a ^ 2 else a ^ 3) * shell d lo hi.
Proof. destruct d; rewrite ?shell_2d, ?shell_3d; ring. Qed.
Lemma edge_units a bins r_max r_min i : edge bins (a * r_max) (a * r_min) i = a * edge bins r_max r_min i.
Proof. unfold edge, Rdiv. ring. Qed.
Lemma list_eq (l l' : list R) n : length l = n -> length l' = n -> (forall i, (i < n)%nat -> nth i l 0 = nth i l' 0) -> l = l'.
Proof. intros L L' H. apply nth_ext with 0 0; [congruence|]. intros i Hi. apply H. lia. Qed.
(** Histories of frames that correspond give the same RDF and the same cumulative counts. *)
Theorem C89_rdf a bins r_max r_min r0 r0' h h' ev ev' fs fr :
  0 < a -> rdf_make bins r_max r_min = Some r0 -> rdf_make bins (a * r_max) (a * r_min) = Some r0' -> (0 <= bins < 4294967295)%Z ->
  Forall (rop_ok bins) h -> Forall (rop_ok bins) h' -> execution 0 (Z.to_nat bins) ev -> execution 0 (Z.to_nat bins) ev' -> Forall2 (same_op a) h h' ->
  rsince h [] = fs ++ [fr] -> data_ok (read_mode h false Exact None) (ri_data fr) -> (Z.of_nat (dist_count r_min r_max (fs ++ [fr])) < 2 ^ 32)%Z ->
  exists r r', rdf_run r0 (h ++ [RRead ev]) = Some r /\ rdf_run r0' (h' ++ [RRead ev']) = Some r' /\ rdf_pcf r' = rdf_pcf r /\ rdf_nr r' = rdf_nr r.
Proof.
  intros A Mk Mk' Hb Hh Hh' He He' HS Rs Hd Small. assert (F := rsince_same a h h' HS [] [] (Forall2_nil _)). rewrite Rs in F.
  apply Forall2_app_inv_l in F as (fs' & l2 & F1 & F2 & Rs'). inversion F2 as [|? fr' ? l3 [D Z] F3]; subst. inversion F3; subst. clear F2 F3.
  assert (FF : Forall2 (same_frame a) (fs ++ [fr]) (fs' ++ [fr'])) by (apply Forall2_app; auto; constructor; [split; auto|constructor]).
  assert (CS := fun lo hi => count_same a lo hi _ _ A FF). assert (M := mode_same a h h' HS false Exact None).
  destruct Z as (Z1 & Z2 & Z3 & Z4). set (d := ri_data fr) in *. set (d' := ri_data fr') in *. set (m := read_mode h false Exact None) in *.
  assert (AP : 0 < (if rd_2d d then a ^ 2 else a ^ 3)) by (destruct (rd_2d d); apply pow_lt; auto). set (ap := if rd_2d d then a ^ 2 else a ^ 3) in *.
  assert (Hd' : data_ok m d'). { destruct Hd as (V & P & Q). unfold data_ok. rewrite Z2, Z3, Z4. repeat split; auto. apply Rmult_lt_0_compat; auto. }
  destruct (C49_values bins r_max r_min r0 h ev fs fr Mk Hb Hh He Rs Hd Small) as (r & E & Lp & Ln & V).
  destruct (C49_values bins (a * r_max) (a * r_min) r0' h' ev' fs' fr' Mk' Hb Hh' He' Rs') as (r' & E' & Lp' & Ln' & V').
  { rewrite M. exact Hd'. } { rewrite CS. exact Small. }
  exists r, r'. split; [exact E|]. split; [exact E'|]. cbv zeta in V, V'. fold d m in V. fold d' in V'. rewrite M in V'. fold m in V'.
  assert (LF : length (fs' ++ [fr']) = length (fs ++ [fr])) by (symmetry; revert FF; generalize (fs ++ [fr]) (fs' ++ [fr']); induction 1; simpl; congruence). rewrite LF in V'.
  assert (NF : 0 < INR (length (fs ++ [fr]))) by (apply lt_0_INR; rewrite app_length; simpl; lia). destruct Hd as (Vp & Np & Nq).
  assert (Np' : 0 < INR (rd_np d)) by (apply lt_0_INR; auto). assert (Nq' : 0 < INR (rd_nqp d)) by (apply lt_0_INR; destruct m; lia).
  assert (DN : density m d' = density m d / ap /\ 0 < density m d).
  { unfold density. rewrite Z3, Z4. destruct m; split; try (field; split; lra). apply Rdiv_lt_0_compat; auto.
    apply Rdiv_lt_0_compat; auto. assert (1 < INR (rd_nqp d)) by (apply (lt_INR 1); auto). lra. }
  destruct DN as [DN DP].
  assert (ok : 0 < r_max /\ 0 <= r_min /\ r_min < r_max /\ (0 < bins)%Z).
  { assert (N : ~ rdf_make bins r_max r_min = None) by congruence. rewrite C49_reject in N by lia. repeat split; try (apply Rnot_le_lt; tauto); try (apply Rnot_lt_le; tauto). lia. }
  destruct ok as (O1 & O2 & O3 & O4). assert (BP : 0 < IZR bins) by (apply IZR_lt; auto).
  split.
  - apply (list_eq _ _ (Z.to_nat bins)); auto. intros i Hi. destruct (V i Hi) as [V1 _]. destruct (V' i Hi) as [V1' _]. rewrite !edge_units, CS, <- V1, Z1, Z2, shell_units, DN in V1'. fold ap in V1'.
    assert (SP : 0 < shell (rd_2d d) (edge bins r_max r_min i) (edge bins r_max r_min (S i))).
    { apply shell_pos. unfold edge. rewrite S_INR. assert (0 <= INR i) by apply pos_INR. assert (0 < (r_max - r_min) / IZR bins) by (apply Rdiv_lt_0_compat; lra). split; nra. }
    set (sh := shell _ _ _) in *. apply Rmult_eq_reg_r with (density m d * sh * INR (rd_np d) * INR (length (fs ++ [fr]))).
    + rewrite <- V1'. field. lra.
    + apply Rgt_not_eq. repeat apply Rmult_lt_0_compat; auto.
  - apply (list_eq _ _ (Z.to_nat bins)); auto. intros i Hi. destruct (V i Hi) as [_ V2]. destruct (V' i Hi) as [_ V2']. rewrite !edge_units, CS, <- V2, Z3 in V2'.
    apply Rmult_eq_reg_r with (INR (rd_nqp d) * INR (length (fs ++ [fr]))); auto. apply Rgt_not_eq. apply Rmult_lt_0_compat; auto.
Qed.
Print Assumptions C89_rdf.
(** The frames that the queries on two descriptions of a system deliver do correspond. *)
Lemma range_seq n : range 0 n = seq 0 n. Proof. unfold range. f_equal. lia. Qed.
Lemma renumber_perm n g : renumbers n g -> Permutation (map g (seq 0 n)) (seq 0 n).
Proof.
  intros R. apply NoDup_Permutation; [|apply seq_NoDup|].
  - apply map_nodup; [apply seq_NoDup|]. intros x y Hx Hy. apply in_seq in Hx, Hy. apply R; lia.
  - intros x. rewrite in_map_iff, in_seq. split; [intros (y & <- & Hy); apply in_seq in Hy; destruct R as [R _]; specialize (R y); lia|].
    intros Hx. destruct (renumber_onto n g x R) as (i & Hi & E); [lia|]. exists i. split; auto. apply in_seq. lia.
Qed.
Lemma flat_map_perm {A B} (h : A -> list B) l l' : Permutation l l' -> Permutation (flat_map h l) (flat_map h l').
Proof. induction 1; simpl; auto; [apply Permutation_app_head; auto| |eapply perm_trans; eauto]. rewrite !app_assoc. apply Permutation_app_tail, Permutation_app_comm. Qed.
Lemma flat_map_pointwise {A B} (h h' : A -> list B) l : (forall x, In x l -> Permutation (h x) (h' x)) -> Permutation (flat_map h l) (flat_map h' l).
Proof. induction l; simpl; intros H; auto. apply Permutation_app; auto. Qed.
Lemma flat_map_map' {A B C} (h : B -> list C) (k : A -> B) l : flat_map h (map k l) = flat_map (fun x => h (k x)) l.
Proof. induction l; simpl; congruence. Qed.
Lemma map_flat_map {A B C} (h : A -> list B) (k : B -> C) l : map k (flat_map h l) = flat_map (fun x => map k (h x)) l.
Proof. induction l; simpl; auto. rewrite map_app. congruence. Qed.
(** All the bonds of the two descriptions correspond. *)
Lemma all_bonds_same c f g n (ls ls' : list (list bond)) : renumbers n g -> same_bonds c f g n ls ls' ->
  Permutation (map (old_bond c f g) (flat_map (fun i => nth i ls' []) (seq 0 n))) (flat_map (fun i => nth i ls []) (seq 0 n)).
Proof.
  intros R H. rewrite map_flat_map. rewrite <- (flat_map_perm (fun i => nth i ls []) _ _ (renumber_perm n g R)). rewrite flat_map_map'. apply flat_map_pointwise. intros i Hi. apply in_seq in Hi. apply H. lia.
Qed.
Theorem C89_frames b c f g np ls ls' ev ev' : c <> 0 -> renumbers (length ls) g -> length ls' = length ls -> same_bonds c f g (length ls) ls ls' ->
  let fr := query_frame b np ls ev in let fr' := query_frame (in_units (Rabs c) b) np ls' ev' in
  same_distances (Rabs c) fr fr' /\ same_sizes (Rabs c) (ri_data fr) (ri_data fr').
Proof.
  intros C0 R L H fr fr'. split.
  - unfold same_distances, ri_all, fr, fr', query_frame. cbn [ri_n ri_bonds]. rewrite L, !range_seq. rewrite <- (Permutation_map bd (all_bonds_same c f g _ ls ls' R H)). rewrite map_map. apply Permutation_refl.
  - unfold same_sizes, fr, fr', query_frame. cbn [ri_data rd_2d rd_np rd_nqp rd_vol in_units b_2d]. repeat split; auto. apply volume_units.
Qed.
