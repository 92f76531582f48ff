(** C92: bonds seen from the other side. *)
From Coq Require Import Reals ZArith List Permutation Lia Lra Psatz.
From Verif Require Import BoxProofs AABBProofs2 AABBProps QueryProps RdfProps CorrProps SymmProofs SymmProps SuperProofs LocalDensProps ExchProofs.
From Verif Require Import ExchSpec.
From Verif Require Import BoxSpec QueryArgSpec QuerySpec RdfShell.
Import ListNotations.
Local Open Scope R_scope.

(** * Queries *)
Theorem C92_setting b p r points qs : setting b points qs p r -> (Z.of_nat (length qs) <= 2 ^ 31)%Z -> setting b qs points p r.
Proof. intros [Hb FP Hne Hn HP Hqne HQ S W A R0 R1 RO] L. constructor; auto. Qed.
(** Ball queries with points and query points exchanged find the same bonds, each from its other side, whatever the backends. *)
Theorem C92_bonds (be be' : backend) b p r points qs : setting b points qs p r -> (Z.of_nat (length qs) <= 2 ^ 31)%Z -> usable be b points -> usable be' b qs ->
  exists ls ls', (forall res, py_query be b points qs p res <-> res = Some ls) /\ (forall res, py_query be' b qs points p res <-> res = Some ls') /\
    length ls = length qs /\ length ls' = length points /\ exchanged ls ls' /\
    (forall i x, (i < length qs)%nat -> In x (nth i ls []) -> bq x = i /\ (bp x < length points)%nat /\ (or_else (pa_excl p) false = true -> bq x <> bp x)).
Proof.
  intros St Ln U U'. assert (St' := C92_setting _ _ _ _ _ St Ln).
  destruct (C32_ball be b points qs p r St U) as (ls & E & L & H). destruct (C32_ball be' b qs points p r St' U') as (ls' & E' & L' & H').
  exists ls, ls'. split; [exact E|]. split; [exact E'|]. split; [exact L|]. split; [exact L'|].
  assert (T := fun i x (Hi : (i < length qs)%nat) Hx => range_turned b points qs i r _ _ x Hi (proj1 (proj2 (H i Hi) x) Hx)).
  assert (T' := fun i x (Hi : (i < length points)%nat) Hx => range_turned b qs points i r _ _ x Hi (proj1 (proj2 (H' i Hi) x) Hx)).
  split; [|intros i x Hi Hx; destruct (T i x Hi Hx) as (T1 & T2 & _); split; auto; split; auto; intros EX Q; destruct (proj1 (proj2 (H i Hi) x) Hx) as (j & ? & ? & ? & _ & _ & _ & HE & _ & Ex); apply HE; rewrite Ex in Q; auto].
  apply NoDup_Permutation.
  - apply map_nodup; [|intros x y _ _; apply turned_inj]. apply concat_nodup. rewrite L. intros i Hi. split; [apply H; auto|]. intros x Hx. apply (T i x Hi Hx).
  - apply concat_nodup. rewrite L'. intros i Hi. split; [apply H'; auto|]. intros x Hx. apply (T' i x Hi Hx).
  - intros x. rewrite in_map_iff, concat_nth, L'. split.
    + intros (y & <- & Hy). apply concat_nth in Hy as (i & Hi & Hy). rewrite L in Hi. destruct (T i y Hi Hy) as (T1 & T2 & T3). exists (bp y). split; auto. apply H'; auto.
    + intros (i & Hi & Hx). exists (turned x). split; [apply turned_twice|]. destruct (T' i x Hi Hx) as (T1 & T2 & T3). apply concat_nth. exists (bp x). rewrite L. split; auto. apply H; auto.
Qed.
Print Assumptions C92_bonds.
(** Points that query themselves: with exclude_ii every bond is there from both sides, so that the bonds with query_point_index < point_index are
    each pair once, half of all bonds; every particle occurs as often as a point as it does as a query point. *)
Theorem C92_self be b p r points : setting b points points p r -> or_else (pa_excl p) false = true -> usable be b points ->
  exists ls, (forall res, py_query be b points points p res <-> res = Some ls) /\
    let all := concat ls in let half := filter (fun x => (bq x <? bp x)%nat) all in
    (forall x, In x all <-> In (turned x) all) /\ Permutation (half ++ map turned half) all /\ length all = (2 * length half)%nat /\
    forall i, (i < length points)%nat -> length (nth i ls []) = length (filter (fun x => (bp x =? i)%nat) all).
Proof.
  intros St EX U. destruct (C92_bonds be be b p r points points St (st_n _ _ _ _ _ St) U U) as (ls & ls' & E & E' & L & L' & X & B).
  assert (ls' = ls) by (assert (K := proj1 (E' (Some ls)) (proj2 (E (Some ls)) eq_refl)); congruence). subst ls'. clear E'.
  exists ls. split; [exact E|]. cbv zeta. set (all := concat ls) in *. set (half := filter _ all). unfold exchanged in X. fold all in X.
  assert (NE : forall x, In x all -> bq x <> bp x) by (intros x Hx; apply concat_nth in Hx as (i & Hi & Hx); rewrite L in Hi; apply (B i x Hi Hx); auto).
  assert (CL : forall x, In x all -> In (turned x) all) by (intros x Hx; eapply Permutation_in; [exact X|]; apply in_map; auto).
  assert (HP : Permutation (half ++ map turned half) all).
  { assert (O : Permutation (map turned half) (filter (fun x => (bp x <? bq x)%nat) all)).
    { unfold half. transitivity (filter (fun x => (bp x <? bq x)%nat) (map turned all)); [|apply filter_perm; exact X]. apply Permutation_refl'. clear. induction all as [|x l IH]; auto. cbn [filter map turned bp bq]. destruct (bq x <? bp x)%nat; cbn [map]; rewrite IH; reflexivity. }
    rewrite O. unfold half. clear - NE. induction all as [|x l IH]; simpl; auto. assert (N := NE x (or_introl eq_refl)). assert (IH' := IH (fun y Hy => NE y (or_intror Hy))).
    destruct (Nat.ltb_spec (bq x) (bp x)), (Nat.ltb_spec (bp x) (bq x)); try lia; simpl; [auto|]. rewrite <- Permutation_middle. auto. }
  split; [intros x; split; [apply CL|intros Hx; rewrite <- (turned_twice x); apply CL; auto]|]. split; [exact HP|]. split.
  - rewrite <- (Permutation_length HP), app_length, map_length. lia.
  - intros i Hi. rewrite <- (Permutation_length (filter_perm _ _ _ X)). rewrite (filter_turned _ (fun x => (bq x =? i)%nat)) by reflexivity.
    unfold all. rewrite concat_seq, L. clear - B Hi. assert (G : forall s, (forall k, In k s -> (k < length points)%nat) -> NoDup s -> length (filter (fun x => (bq x =? i)%nat) (flat_map (fun k => nth k ls []) s)) = if in_dec Nat.eq_dec i s then length (nth i ls []) else 0%nat).
    { induction s as [|k s IH]; intros Hs ND; [reflexivity|]. cbn [flat_map]. rewrite filter_app, app_length, IH; [|intros; apply Hs; simpl; auto|inversion ND; auto].
      assert (Hk := Hs k (or_introl eq_refl)). inversion ND as [|? ? N1 N2]; subst.
      assert (FK : filter (fun x => (bq x =? i)%nat) (nth k ls []) = if Nat.eq_dec k i then nth k ls [] else []).
      { assert (BK : forall x, In x (nth k ls []) -> bq x = k) by (intros x Hx; apply (B k x Hk Hx)). clear - BK. induction (nth k ls []) as [|x l IHl]; simpl; [destruct (Nat.eq_dec k i); auto|].
        rewrite (BK x (or_introl eq_refl)), IHl by (intros; apply BK; simpl; auto). destruct (Nat.eqb_spec k i), (Nat.eq_dec k i); congruence. }
      rewrite FK. destruct (Nat.eq_dec k i) as [->|NK].
      - destruct (in_dec Nat.eq_dec i s); [tauto|]. destruct (in_dec Nat.eq_dec i (i :: s)) as [_|K]; [lia|exfalso; apply K; simpl; auto].
      - destruct (in_dec Nat.eq_dec i s), (in_dec Nat.eq_dec i (k :: s)); simpl in *; try lia; tauto. }
    rewrite G; [|intros k Hk; apply in_seq in Hk; lia|apply seq_NoDup]. destruct (in_dec _ _ _) as [_|K]; auto. exfalso. apply K, in_seq. lia.
Qed.
Print Assumptions C92_self.

(** * RDF *)
Definition exchanged_frames := Forall2 exchanged_frame.
Lemma rsince_exchanged h h' : Forall2 exchanged_op h h' -> forall acc acc', exchanged_frames acc acc' -> exchanged_frames (rsince h acc) (rsince h' acc').
Proof.
  induction 1 as [|o o' h h' O _ IH]; intros acc acc' F; simpl; auto. destruct O as [[|] fr fr' D| |]; apply IH; auto; [constructor; auto; constructor|].
  apply Forall2_app; auto; constructor; auto; constructor.
Qed.
Lemma mode_exchanged h h' : Forall2 exchanged_op h h' -> forall s md l, read_mode h' s md l = read_mode h s md l.
Proof. induction 1 as [|o o' h h' O _ IH]; intros; simpl; auto. destruct O; auto. Qed.
Lemma count_exchanged lo hi fs fs' : exchanged_frames fs fs' -> dist_count lo hi fs' = dist_count lo hi fs.
Proof.
  intros F. unfold dist_count. assert (P : Permutation (map turned (flat_map ri_all fs)) (flat_map ri_all fs')).
  { induction F as [|f f' fs fs' [D _] _ IH]; simpl; auto. rewrite map_app. apply Permutation_app; auto. }
  rewrite <- (Permutation_length (filter_perm _ _ _ P)). apply filter_turned. reflexivity.
Qed.
(** The RDF is the same from both sides; the numbers of neighbours differ by the ratio of the numbers of particles. *)
Theorem C92_rdf bins r_max r_min r0 h h' ev ev' fs fr :
  rdf_make bins r_max r_min = Some r0 -> (0 <= bins < 4294967295)%Z ->
  Forall (rop_ok bins) h -> Forall (rop_ok bins) h' -> execution 0 (Z.to_nat bins) ev -> execution 0 (Z.to_nat bins) ev' -> Forall2 exchanged_op h h' ->
  let md := read_mode h false Exact None in let d := ri_data fr in
  rsince h [] = fs ++ [fr] -> data_ok md d -> (md = FiniteSize -> (1 < rd_np d)%nat) -> (Z.of_nat (dist_count r_min r_max (fs ++ [fr])) < 2 ^ 32)%Z ->
  exists r r', rdf_run r0 (h ++ [RRead ev]) = Some r /\ rdf_run r0 (h' ++ [RRead ev']) = Some r' /\
    length (rdf_nr r') = length (rdf_nr r) /\ (forall i, (i < length (rdf_nr r))%nat -> INR (rd_np d) * nth i (rdf_nr r') 0 = INR (rd_nqp d) * nth i (rdf_nr r) 0) /\
    (md = Exact -> rdf_pcf r' = rdf_pcf r) /\
    (md = FiniteSize -> length (rdf_pcf r') = length (rdf_pcf r) /\ forall i, (i < length (rdf_pcf r))%nat ->
       nth i (rdf_pcf r') 0 * (1 - / INR (rd_np d)) = nth i (rdf_pcf r) 0 * (1 - / INR (rd_nqp d))).
Proof.
  intros Mk Hb Hh Hh' He He' HS md d Rs Hd H2 Small. assert (F := rsince_exchanged h h' HS [] [] (Forall2_nil _)). rewrite Rs in F.
  apply Forall2_app_inv_l in F as (fs' & l2 & F1 & F2 & Rs'). inversion F2 as [|? fr' ? l3 D F3]; subst. inversion F3; subst. clear F2 F3.
  assert (FF : exchanged_frames (fs ++ [fr]) (fs' ++ [fr'])) by (apply Forall2_app; auto; constructor; auto; constructor).
  assert (CS := fun lo hi => count_exchanged lo hi _ _ FF). assert (M := mode_exchanged h h' HS false Exact None). fold md in M.
  destruct D as (_ & Z1 & Z4 & Z2 & Z3). fold d in Z1, Z2, Z3, Z4. set (d' := ri_data fr') in *.
  assert (Hd' : data_ok md d'). { destruct Hd as (V & P & Q). unfold data_ok. rewrite Z2, Z3, Z4. repeat split; auto; destruct md; auto; lia. }
  destruct (C49_values bins r_max r_min r0 h ev fs fr Mk Hb Hh He Rs Hd Small) as (r & E & Lp & Ln & V).
  destruct (C49_values bins r_max r_min r0 h' ev' fs' fr' Mk Hb Hh' He' Rs') as (r' & E' & Lp' & Ln' & V').
  { rewrite M. exact Hd'. } { rewrite CS. exact Small. }
  exists r, r'. split; [exact E|]. split; [exact E'|]. cbv zeta in V, V'. fold d md in V. fold d' in V'. rewrite M in V'.
  assert (LF : length (fs' ++ [fr']) = length (fs ++ [fr])) by (symmetry; revert FF; generalize (fs ++ [fr]) (fs' ++ [fr']); induction 1; simpl; congruence). rewrite LF in V'.
  assert (NF : 0 < INR (length (fs ++ [fr]))) by (apply lt_0_INR; rewrite app_length; simpl; lia). destruct Hd as (Vp & Np & Nq).
  assert (Np' : 0 < INR (rd_np d)) by (apply lt_0_INR; auto). assert (Nq' : 0 < INR (rd_nqp d)) by (apply lt_0_INR; destruct md; lia).
  assert (ok : 0 < r_max /\ 0 <= r_min /\ r_min < r_max /\ (0 < bins)%Z).
  { assert (N : ~ rdf_make bins r_max r_min = None) by congruence. rewrite C49_reject in N by lia. repeat split; try (apply Rnot_le_lt; tauto); try (apply Rnot_lt_le; tauto). lia. }
  destruct ok as (O1 & O2 & O3 & O4). assert (BP : 0 < IZR bins) by (apply IZR_lt; auto).
  assert (SP : forall i, 0 < shell (rd_2d d) (edge bins r_max r_min i) (edge bins r_max r_min (S i))).
  { intros i. apply shell_pos. unfold edge. rewrite S_INR. assert (0 <= INR i) by apply pos_INR. assert (0 < (r_max - r_min) / IZR bins) by (apply Rdiv_lt_0_compat; lra). split; nra. }
  split; [congruence|]. split.
  { intros i Hi. rewrite Ln in Hi. destruct (V i Hi) as [_ V2]. destruct (V' i Hi) as [_ V2']. rewrite CS, <- V2, Z3 in V2'.
    apply Rmult_eq_reg_r with (INR (length (fs ++ [fr]))); [|lra]. lra. }
  assert (VV : forall i, (i < Z.to_nat bins)%nat -> nth i (rdf_pcf r') 0 * (density md d' * INR (rd_nqp d)) = nth i (rdf_pcf r) 0 * (density md d * INR (rd_np d))).
  { intros i Hi. destruct (V i Hi) as [V1 _]. destruct (V' i Hi) as [V1' _]. rewrite CS, <- V1, Z1, Z2 in V1'. specialize (SP i). set (sh := shell _ _ _) in *.
    apply Rmult_eq_reg_r with (sh * INR (length (fs ++ [fr]))); [lra|]. apply Rgt_not_eq, Rmult_lt_0_compat; auto. }
  split.
  - intros EM. apply (list_eq _ _ (Z.to_nat bins)); auto. intros i Hi. specialize (VV i Hi). rewrite EM in VV. unfold density in VV. rewrite Z3, Z4 in VV.
    apply Rmult_eq_reg_r with (INR (rd_np d) / rd_vol d * INR (rd_nqp d)); [rewrite VV; field; lra|]. apply Rgt_not_eq, Rmult_lt_0_compat; auto. apply Rdiv_lt_0_compat; auto.
  - intros EM. split; [congruence|]. intros i Hi. rewrite Lp in Hi. specialize (VV i Hi). rewrite EM in VV. unfold density in VV. rewrite Z3, Z4 in VV.
    apply Rmult_eq_reg_r with (INR (rd_np d) * INR (rd_nqp d) / rd_vol d).
    + transitivity (nth i (rdf_pcf r') 0 * ((INR (rd_np d) - 1) / rd_vol d * INR (rd_nqp d))); [field; lra|]. rewrite VV. field. lra.
    + apply Rgt_not_eq. apply Rdiv_lt_0_compat; auto. apply Rmult_lt_0_compat; auto.
Qed.
Print Assumptions C92_rdf.
(** The frames of exchanged queries are exchanged. *)
Theorem C92_frames b ls ls' ev ev' : exchanged ls ls' -> exchanged_frame (query_frame b (length ls') ls ev) (query_frame b (length ls) ls' ev').
Proof.
  intros X. unfold exchanged_frame, query_frame, ri_all. cbn [ri_n ri_bonds ri_data rd_2d rd_vol rd_np rd_nqp]. rewrite !range_seq, <- !concat_seq. auto.
Qed.

(** * Correlation functions *)
Lemma csince_exchanged h h' : Forall2 exchanged_cf h h' -> forall acc acc', Forall2 exchanged_values acc acc' -> Forall2 exchanged_values (cf_since h acc) (cf_since h' acc').
Proof.
  induction 1 as [|o o' h h' O _ IH]; intros acc acc' F; simpl; auto. destruct O as [[|] fr fr' D|]; apply IH; auto.
  apply Forall2_app; auto; constructor; auto; constructor.
Qed.
Lemma conj_sum (l : list cplx) : CorrSpec.csum (map cconj l) = cconj (CorrSpec.csum l).
Proof. induction l as [|[x y] l IH]; simpl; [unfold cconj, c0; simpl; f_equal; ring|]. rewrite IH. unfold cadd, cconj. simpl. f_equal. ring. Qed.
Lemma csum_perm l l' : Permutation l l' -> CorrSpec.csum l = CorrSpec.csum l'.
Proof. induction 1; simpl; try congruence. unfold cadd. simpl. f_equal; ring. Qed.
Lemma bins_exchanged bins r_max i fs fs' : Forall2 exchanged_values fs fs' ->
  Permutation (map pair_value (bin_bonds bins r_max i fs')) (map cconj (map pair_value (bin_bonds bins r_max i fs))).
Proof.
  unfold bin_bonds. induction 1 as [|f f' fs fs' (D & E1 & E2) _ IH]; simpl; auto. rewrite !filter_app, !map_app. apply Permutation_app; auto. clear IH.
  set (P := fun d => Rle_bool (cf_edge bins r_max i) d && Rlt_bool d (cf_edge bins r_max (S i))).
  assert (G : forall g l, map pair_value (filter (fun fb => Rle_bool (cf_edge bins r_max i) (bd (snd fb)) && Rlt_bool (bd (snd fb)) (cf_edge bins r_max (S i))) (map (fun b => (g, b)) l)) = map (fun b => pair_value (g, b)) (filter (fun b => P (bd b)) l)).
  { intros g l. induction l as [|x l IH]; auto. cbn [map filter snd]. change (Rle_bool (cf_edge bins r_max i) (bd x) && Rlt_bool (bd x) (cf_edge bins r_max (S i))) with (P (bd x)). destruct (P (bd x)); cbn [map]; rewrite IH; reflexivity. }
  rewrite !G. rewrite <- (filter_perm _ _ _ D). apply Permutation_refl'. generalize (ci_every f). induction l as [|x l IH]; simpl; auto. destruct (P (bd x)); simpl; auto. f_equal; auto.
  rewrite E1, E2. unfold pair_value, cmul, cconj, turned. simpl. f_equal; ring.
Qed.
(** The correlation function from the other side is the complex conjugate; the same for real values. *)
Theorem C92_correlation bins r_max s0 h h' ev1 ev2 ev1' ev2' : (0 <= bins < OVERFLOW_BIN)%Z -> cf_make bins r_max = Some s0 ->
  Forall (cf_op_ok bins) h -> Forall (cf_op_ok bins) h' -> execution 0 (Z.to_nat bins) ev1 -> execution 0 (Z.to_nat bins) ev2 -> execution 0 (Z.to_nat bins) ev1' -> execution 0 (Z.to_nat bins) ev2' ->
  Forall2 exchanged_cf h h' -> (forall i, (Z.of_nat (length (bin_bonds bins r_max i (cf_since h []))) < 2 ^ 32)%Z) ->
  exists s s', cf_run s0 (h ++ [CfRead ev1 ev2]) = Some s /\ cf_run s0 (h' ++ [CfRead ev1' ev2']) = Some s' /\
    length (cf_out s) = Z.to_nat bins /\ cf_out s' = map cconj (cf_out s) /\
    (Forall real_values (cf_since h []) -> exists l, cf_correlation s = inr l /\ cf_correlation s' = inr l).
Proof.
  intros Hb Mk Hh Hh' H1 H2 H1' H2' X Sm. assert (F := csince_exchanged h h' X [] [] (Forall2_nil _)).
  assert (BE := fun i => bins_exchanged bins r_max i _ _ F).
  assert (LE : forall i, length (bin_bonds bins r_max i (cf_since h' [])) = length (bin_bonds bins r_max i (cf_since h []))).
  { intros i. specialize (BE i). apply Permutation_length in BE. rewrite !map_length in BE. exact BE. }
  destruct (C50_mean bins r_max s0 h ev1 ev2 Hb Mk Hh H1 H2 Sm) as (s & E & L & V & RV & _).
  destruct (C50_mean bins r_max s0 h' ev1' ev2' Hb Mk Hh' H1' H2') as (s' & E' & L' & V' & RV' & _); [intros i; rewrite LE; auto|].
  exists s, s'. split; [exact E|]. split; [exact E'|]. split; [exact L|].
  assert (O : cf_out s' = map cconj (cf_out s)).
  { apply nth_ext with c0 c0; [rewrite map_length; congruence|]. intros i Hi. rewrite L' in Hi. rewrite (nth_indep (map cconj (cf_out s)) c0 (cconj c0)) by (rewrite map_length; lia). rewrite map_nth.
    destruct (V i Hi) as [V1 V2]. destruct (V' i Hi) as [V1' V2']. assert (EL := LE i). rewrite LE in V2'. rewrite (csum_perm _ _ (BE i)), conj_sum, <- V2 in V2'.
    destruct (bin_bonds bins r_max i (cf_since h [])) as [|x l] eqn:EB.
    - rewrite V1 by auto. rewrite V1'; [unfold cconj, c0; simpl; f_equal; ring|]. destruct (bin_bonds bins r_max i (cf_since h' [])); [auto|discriminate].
    - cbn [length] in V2'. assert (N : 0 < INR (S (length l))) by (apply lt_0_INR; lia). clear - N V2'. destruct (nth i (cf_out s) c0) as [a c], (nth i (cf_out s') c0) as [a' c']. unfold cscale, cconj in *. cbn [fst snd] in *.
      generalize dependent (INR (S (length l))). intros n N V2'. injection N as Q1 Q2. f_equal; apply Rmult_eq_reg_l with n; lra. }
  split; [exact O|]. intros RL. destruct (RV RL) as [C1 C2].
  assert (RL' : Forall real_values (cf_since h' [])).
  { clear - F RL. induction F as [|f f' fs fs' (_ & E1 & E2) _ IH]; constructor; inversion RL; subst; auto. intros z Hz. apply H1. rewrite E1, E2 in Hz. tauto. }
  destruct (RV' RL') as [C1' _]. exists (map fst (cf_out s)). split; auto. rewrite C1', O, map_map. reflexivity.
Qed.
Print Assumptions C92_correlation.

(** * Local densities *)
Lemma rsum_app l l' : rsum (l ++ l') = rsum l + rsum l'.
Proof. unfold rsum. induction l as [|x l IH]; simpl; [ring|]. rewrite IH. ring. Qed.
Lemma rsum_perm l l' : Permutation l l' -> rsum l = rsum l'.
Proof. unfold rsum. induction 1; simpl; lra. Qed.
Lemma rsum_flat {A} (g : A -> R) (h : nat -> list A) s : rsum (map g (flat_map h s)) = rsum (map (fun i => rsum (map g (h i))) s).
Proof. induction s as [|i s IH]; simpl; auto. rewrite map_app, rsum_app, IH. reflexivity. Qed.
(** The numbers of neighbours add up to the same from both sides, and so do the densities. *)
Theorem C92_local_density r D l two_d ls ls' ev ev' num dens num' dens' : ldn_make r D = Some l -> 0 < D -> exchanged ls ls' ->
  execution 0 (length ls) ev -> execution 0 (length ls') ev' ->
  ldn_compute l two_d (length ls) (fun i => nth i ls []) ev = (num, dens) -> ldn_compute l two_d (length ls') (fun i => nth i ls' []) ev' = (num', dens') ->
  exists ns ds ns' ds', num = map Some ns /\ dens = map Some ds /\ num' = map Some ns' /\ dens' = map Some ds' /\ rsum ns = rsum ns' /\ rsum ds = rsum ds'.
Proof.
  intros Mk D0 X He He' E E'.
  assert (G : forall ls ev num dens, execution 0 (length ls) ev -> ldn_compute l two_d (length ls) (fun i => nth i ls []) ev = (num, dens) ->
    exists ns ds, num = map Some ns /\ dens = map Some ds /\ rsum ns = rsum (map (fun b => inside r D (bd b)) (concat ls)) /\ rsum ds * shell two_d 0 r = rsum ns).
  { clear - Mk D0. intros ls ev num dens He E. assert (V := C51_values r D l two_d (length ls) (fun i => nth i ls []) ev Mk He). rewrite E in V. destruct V as (L1 & L2 & V).
    assert (SP : 0 < shell two_d 0 r) by (apply shell_pos; unfold ldn_make in Mk; destruct (Rleb_spec r 0); [discriminate|lra]).
    set (g := fun i => rsum (map (fun b => inside r D (bd b)) (nth i ls []))). exists (map g (seq 0 (length ls))), (map (fun i => g i / shell two_d 0 r) (seq 0 (length ls))).
    assert (VN : forall i, (i < length ls)%nat -> nth i num None = Some (g i) /\ nth i dens None = Some (g i / shell two_d 0 r)).
    { intros i Hi. destruct (V i Hi (or_introl D0)) as (n & v & N1 & N2 & N3 & N4 & _). specialize (N4 D0). fold (g i) in N4. rewrite N1, N2, <- N4. split; auto. f_equal. rewrite <- N3. field. lra. }
    split; [|split; [|split]].
    - apply nth_ext with None None; [rewrite !map_length, seq_length; auto|]. intros i Hi. rewrite L1 in Hi. rewrite map_map, (nth_indep (map _ _) None (Some (g 0%nat))) by (rewrite map_length, seq_length; auto).
      rewrite (map_nth (fun i => Some (g i))), seq_nth by auto. apply VN; auto.
    - apply nth_ext with None None; [rewrite !map_length, seq_length; auto|]. intros i Hi. rewrite L2 in Hi. rewrite map_map, (nth_indep (map _ _) None (Some (g 0%nat / shell two_d 0 r))) by (rewrite map_length, seq_length; auto).
      rewrite (map_nth (fun i => Some (g i / shell two_d 0 r))), seq_nth by auto. apply VN; auto.
    - rewrite concat_seq, rsum_flat. reflexivity.
    - generalize (seq 0 (length ls)). induction l0 as [|i s IH]; simpl; [ring|]. rewrite <- IH. unfold rsum. field. lra. }
  destruct (G ls ev num dens He E) as (ns & ds & E1 & E2 & E3 & E4). destruct (G ls' ev' num' dens' He' E') as (ns' & ds' & E1' & E2' & E3' & E4').
  exists ns, ds, ns', ds'. do 4 (split; [assumption|]). assert (Q : rsum ns = rsum ns').
  { rewrite E3, E3'. rewrite <- (rsum_perm _ _ (Permutation_map (fun b => inside r D (bd b)) X)), map_map. reflexivity. }
  split; auto. assert (SP : 0 < shell two_d 0 r) by (apply shell_pos; unfold ldn_make in Mk; destruct (Rleb_spec r 0); [discriminate|lra]).
  apply Rmult_eq_reg_r with (shell two_d 0 r); lra.
Qed.
Print Assumptions C92_local_density.
