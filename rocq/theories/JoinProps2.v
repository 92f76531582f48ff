(** C93: PMFTXYT and PMFTXY, CorrelationFunction and RDF, LocalDensity and RDF. *)
From Coq Require Import Reals ZArith List Permutation Lia Lra.
From Verif Require Import HistProofs HistProps MArrayProofs PmftProofs PmftProps RdfProps BoxProofs LocalDensProps CorrProps ExchProofs ExchProps ExchProps2 JoinProofs JoinProps.
From Verif Require Import JoinSpec RdfShell RdfSpec LocalDensModel LocalDensSpec CorrSpec.
From Verif Require Import HistSpec PmftSpec JoinSpec.
Import ListNotations.
Local Open Scope R_scope.

(** * PMFTXYT and PMFTXY *)
Lemma plane_adds f x : shaped XYT f = true -> bonds_ok f -> In x (pin_bonds f) ->
  exists u w t q, pm_sample XYT f x = Some [[u; w; t]] /\ 0 <= t < TWO_PI /\ nth_error (pm_query_orientations f) (bq x) = Some q /\ rot2 (- q) (bv x) = (u, w).
Proof.
  intros S B H. destruct (defined_ok' XYT f S B x H) as [l E]. assert (C := C54_coordinates XYT f x l E ltac:(discriminate)). destruct C as (u & w & t & -> & _ & [R1 _]).
  assert (E0 := E). unfold pm_sample in E. destruct (nth_error (pf_o f) (bp x)); [|discriminate]. destruct (nth_error (pm_query_orientations f) (bq x)) as [q|]; [|discriminate]. injection E as E1 E2 E3.
  exists u, w, t, q. split; [exact E0|]. split; [exact R1|]. split; [reflexivity|]. rewrite <- E1, <- E2. reflexivity.
Qed.
Lemma plane_count a b i j fs gs : Forall2 same_plane fs gs -> Forall (fun f => shaped XYT f = true /\ bonds_ok f) fs ->
  cnt (fun l => binb a i (nth 0 l 0) && binb b j (nth 1 l 0)) (flat_map (adds XYT) fs) = points_in XY [a; b] [i; j] gs.
Proof.
  intros F H. rewrite points_cnt. induction F as [|f g fs gs D F IH]; auto. inversion H as [|? ? [S B] H']; subst. cbn [flat_map]. rewrite !cnt_app, IH by auto. f_equal. clear IH F H H' fs gs.
  destruct D as (D & Q & _). unfold adds. rewrite (cnt_perm _ _ _ (Permutation_flat_map _ (Permutation_sym D))).
  assert (A := fun x => plane_adds f x S B). clear D S B. induction (pin_bonds f) as [|x l IH]; auto. cbn [flat_map]. rewrite !cnt_app, IH by (intros y Hy; apply A; right; auto).
  destruct (A x (or_introl eq_refl)) as (u & w & t & q & E & _ & Eq & Er). rewrite E. unfold pm_sample. rewrite <- Q, Eq, Er. f_equal. unfold cnt. cbn [filter nth fst snd]. rewrite cell2. destruct (binb a i u && binb b j w); reflexivity.
Qed.
(** The mean of PMFTXYT over its angle is PMFTXY. *)
Theorem C93_xyt_xy x_max y_max nx ny nt p0 p1 g h ev ev' fs f gs k : 0 < x_max -> 0 < y_max -> pmftxyt_make x_max y_max nx ny nt = Some p0 -> (nx * ny * nt < 4294967295)%Z -> pmftxy_make x_max y_max nx ny = Some p1 ->
  Forall (pop_ok (Z.to_nat (nx * ny * nt))) g -> execution 0 (Z.to_nat (nx * ny * nt)) ev -> Forall (pop_ok (Z.to_nat (nx * ny))) h -> execution 0 (Z.to_nat (nx * ny)) ev' ->
  frames XYT g = fs ++ [f] -> frames XY h = gs ++ [k] -> Forall2 same_plane (fs ++ [f]) (gs ++ [k]) -> data_pos XYT f ->
  (forall i j, (Z.of_nat (points_in XY [Axis nx (- x_max) x_max; Axis ny (- y_max) y_max] [i; j] (gs ++ [k])) < 2 ^ 32)%Z) ->
  exists q r, pm_run p0 (g ++ [PRead ev]) = Some q /\ pm_run p1 (h ++ [PRead ev']) = Some r /\
    forall i j, (i < Z.to_nat nx)%nat -> (j < Z.to_nat ny)%nat ->
      total (fun t => nth ((i * Z.to_nat ny + j) * Z.to_nat nt + t) (pm_pcf q) 0) (Z.to_nat nt) = IZR nt * nth (i * Z.to_nat ny + j) (pm_pcf r) 0.
Proof.
  intros X0 Y0 M Sz M' Hg He Hh He' Fr Fr' SP Dk Small.
  assert (A : pm_axes p0 = [Axis nx (- x_max) x_max; Axis ny (- y_max) y_max; Axis nt 0 TWO_PI] /\ (1 <= nx /\ 1 <= ny /\ 1 <= nt)%Z).
  { unfold pmftxyt_make in M. destruct (Z.ltb_spec nx 1); [discriminate|]. destruct (Z.ltb_spec ny 1); [discriminate|]. destruct (Z.ltb_spec nt 1); [discriminate|]. destruct (Rltb x_max 0); [discriminate|]. destruct (Rltb y_max 0); [discriminate|].
    apply (f_equal (option_map pm_axes)) in M. cbn [option_map pm_new pm_axes] in M. split; [congruence|lia]. }
  destruct A as (A & N1 & N2 & N3).
  assert (Mm : made XYT p0) by (eapply made_xyt; [exact X0|exact Y0|exact M|exact Sz]).
  assert (Mm' : made XY p1) by (eapply made_xy; [exact X0|exact Y0|exact M'|nia]).
  assert (A' : pm_axes p1 = [Axis nx (- x_max) x_max; Axis ny (- y_max) y_max]).
  { unfold pmftxy_make in M'. destruct (Z.ltb_spec nx 1); [discriminate|]. destruct (Z.ltb_spec ny 1); [discriminate|]. destruct (Rltb x_max 0); [discriminate|]. destruct (Rltb y_max 0); [discriminate|].
    apply (f_equal (option_map pm_axes)) in M'. cbn [option_map pm_new pm_axes] in M'. congruence. }
  assert (S1 : pm_size (pm_axes p0) = Z.to_nat (nx * ny * nt)).
  { rewrite A. unfold pm_size. cbn [map ax_n]. replace (prodz [nx; ny; nt]) with (nx * ny * nt)%Z; auto. cbn [prodz fold_right fold_left]. ring. }
  assert (S2 : pm_size (pm_axes p1) = Z.to_nat (nx * ny)).
  { rewrite A'. unfold pm_size. cbn [map ax_n]. replace (prodz [nx; ny]) with (nx * ny)%Z; auto. cbn [prodz fold_right fold_left]. ring. }
  assert (SL := SP). apply Forall2_app_inv_l in SL as (l1 & l2 & _ & F2 & EL). inversion F2 as [|? k' ? l3 D F3]; subst. inversion F3; subst. apply app_inj_tail in EL as [-> <-]. clear F2 F3.
  destruct D as (_ & _ & DD). assert (K := Dk). destruct K as (K1 & K2 & K3 & _).
  assert (Dp : data_pos XY k) by (unfold data_pos; rewrite <- DD; cbn [multiplicity]; repeat split; auto).
  destruct (C54_values XYT p0 g ev fs f Mm) as (q & E & L & V); [try rewrite S1; auto..|].
  destruct (C54_values XY p1 h ev' l1 k Mm') as (r & E' & L' & V'); [try rewrite S2; auto..|].
  exists q, r. split; [exact E|]. split; [exact E'|]. intros i j Hi Hj.
  rewrite A in *. rewrite A' in *. cbn [map ax_n] in V, V'.
  assert (OK : Forall (fun f => shaped XYT f = true /\ bonds_ok f) (fs ++ [f])) by (apply Forall_forall; intros z Hz; apply (frame_ok XYT _ g z Hg); rewrite Fr; exact Hz).
  set (PT := fun t => points_in XYT [Axis nx (- x_max) x_max; Axis ny (- y_max) y_max; Axis nt 0 TWO_PI] [Z.of_nat i; Z.of_nat j; Z.of_nat t] (fs ++ [f])).
  assert (T : nsum PT (Z.to_nat nt) = points_in XY [Axis nx (- x_max) x_max; Axis ny (- y_max) y_max] [Z.of_nat i; Z.of_nat j] (l1 ++ [k])).
  { rewrite <- (plane_count _ _ _ _ _ _ SP OK). rewrite <- (last_tile _ _ (Axis nt 0 TWO_PI)).
    - apply nsum_ext. intros t _. apply points_cnt.
    - cbn [ax_n]. lia.
    - intros l Hl. apply in_flat_map in Hl as (z & Hz & Hl). rewrite Forall_forall in OK. destruct (OK z Hz) as [Sh B]. unfold adds in Hl. apply in_flat_map in Hl as (x & Hx & Hl).
      destruct (plane_adds z x Sh B Hx) as (u & w & t & qq & Ez & Rt & _). rewrite Ez in Hl. destruct Hl as [<-|[]]. exists u, w, t. auto. }
  specialize (Small (Z.of_nat i) (Z.of_nat j)).
  assert (SM : forall t, (t < Z.to_nat nt)%nat -> (Z.of_nat (PT t) < 2 ^ 32)%Z) by (intros t Ht; assert (X := nsum_le PT (Z.to_nat nt) t Ht); lia).
  assert (W := V' [Z.of_nat i; Z.of_nat j] ltac:(repeat constructor; lia) Small). rewrite <- T in W. rewrite <- DD in W.
  replace (Z.to_nat (row_major [nx; ny] [Z.of_nat i; Z.of_nat j])) with (i * Z.to_nat ny + j)%nat in W.
  2:{ apply Nat2Z.inj. rewrite Z2Nat.id; [cbn [row_major size_of]; rewrite !Nat2Z.inj_add, !Nat2Z.inj_mul, !Z2Nat.id by lia; ring|]. cbn [row_major size_of]. nia. }
  set (m := measure XY [Axis nx (- x_max) x_max; Axis ny (- y_max) y_max] [Z.of_nat i; Z.of_nat j]) in *.
  assert (P3 : 0 < IZR nt) by (apply IZR_lt; lia). assert (PP := PI_RGT_0).
  assert (MP : 0 < m). { unfold m, measure, width. cbn [ax_n ax_min ax_max]. apply Rmult_lt_0_compat; apply Rdiv_lt_0_compat; try lra; apply IZR_lt; lia. }
  assert (ME : forall t, measure XYT [Axis nx (- x_max) x_max; Axis ny (- y_max) y_max; Axis nt 0 TWO_PI] [Z.of_nat i; Z.of_nat j; t] = m / IZR nt).
  { intros t. unfold m, measure, width, TWO_PI. cbn [ax_n ax_min ax_max]. field. repeat split; try lra; apply IZR_neq; lia. }
  set (nf := INR (length (fs ++ [f]))) in *. assert (NFE : INR (length (l1 ++ [k])) = nf) by (unfold nf; f_equal; revert SP; generalize (l1 ++ [k]) (fs ++ [f]); induction 1; simpl; congruence).
  rewrite NFE in W. assert (NF : 0 < nf) by (unfold nf; apply lt_0_INR; rewrite app_length; simpl; lia).
  set (np := INR (pd_np (pf_data f))) in *. set (nq := INR (pd_nqp (pf_data f))) in *. set (vol := pd_vol (pf_data f)) in *.
  assert (NP : 0 < np) by (apply lt_0_INR; lia). assert (NQ : 0 < nq) by (apply lt_0_INR; lia).
  set (c := nf * np * nq * (m / IZR nt) / vol). assert (C0 : 0 < c).
  { unfold c. apply Rdiv_lt_0_compat; auto. apply Rmult_lt_0_compat; [repeat apply Rmult_lt_0_compat; auto|]. apply Rdiv_lt_0_compat; auto. }
  cbn [multiplicity INR] in W.
  apply Rmult_eq_reg_r with c; [|lra]. transitivity (INR (nsum PT (Z.to_nat nt))).
  - rewrite <- total_INR, <- total_scale. apply total_ext. intros t Ht. assert (Y := V [Z.of_nat i; Z.of_nat j; Z.of_nat t] ltac:(repeat constructor; lia) (SM t Ht)). fold (PT t) in Y. rewrite ME in Y. fold nf np nq vol in Y. cbn [multiplicity INR] in Y.
    replace (Z.to_nat (row_major [nx; ny; nt] [Z.of_nat i; Z.of_nat j; Z.of_nat t])) with ((i * Z.to_nat ny + j) * Z.to_nat nt + t)%nat in Y.
    + unfold c. apply Rmult_eq_reg_r with vol; [|lra]. transitivity (vol * INR (PT t)); [rewrite <- Y; field; lra|ring].
    + apply Nat2Z.inj. rewrite Z2Nat.id; [cbn [row_major size_of]; rewrite !Nat2Z.inj_add, !Nat2Z.inj_mul, Nat2Z.inj_add, Nat2Z.inj_mul, !Z2Nat.id by lia; ring|]. cbn [row_major size_of]. nia.
  - apply Rmult_eq_reg_r with vol; [|lra]. transitivity (vol * INR (nsum PT (Z.to_nat nt))); [ring|]. rewrite <- W. unfold c. field. lra.
Qed.

(** * CorrelationFunction and RDF *)
(** A bin of a CorrelationFunction holds the bonds the same bin of an RDF counts. *)
Theorem C93_correlation_counts bins r_max i fs gs : Forall2 same_distances fs gs -> length (bin_bonds bins r_max i gs) = dist_count (edge bins r_max 0 i) (edge bins r_max 0 (S i)) fs.
Proof.
  intros F. unfold bin_bonds, dist_count. set (P := fun x : bond => Rle_bool (edge bins r_max 0 i) (bd x) && Rlt_bool (bd x) (edge bins r_max 0 (S i))).
  assert (X : forall z : cf_in * bond, Rle_bool (cf_edge bins r_max i) (bd (snd z)) && Rlt_bool (bd (snd z)) (cf_edge bins r_max (S i)) = P (snd z : bond)).
  { intros z. unfold P, cf_edge, edge. rewrite !Rminus_0_r, !Rplus_0_l. reflexivity. }
  induction F as [|fr f fs gs D F IH]; auto. cbn [flat_map]. rewrite !filter_app, !app_length, IH. f_equal. change (cnt (fun z : cf_in * bond => Rle_bool (cf_edge bins r_max i) (bd (snd z)) && Rlt_bool (bd (snd z)) (cf_edge bins r_max (S i))) (map (fun b => (f, b)) (ci_every f)) = cnt P (ri_all fr)).
  rewrite (cnt_perm _ _ _ D). induction (ci_every f) as [|b l IHl]; auto. unfold cnt in *. cbn [map filter]. rewrite X. cbn [snd]. destruct (P b); cbn [length]; auto.
Qed.
(** With all values one the correlation is one wherever the RDF counted a bond, and zero elsewhere. *)
Definition ones (f : cf_in) : Prop := (forall z, In z (ci_values f) -> z = (1, 0)) /\ forall z, In z (ci_qv f) -> z = (1, 0).
Lemma since_from h : forall acc f, In f (cf_since h acc) -> In f acc \/ exists re, In (CfCompute re f) h.
Proof.
  induction h as [|o h IH]; intros acc f H; simpl in H; auto. destruct o as [[|] g|ev]; apply IH in H as [H|[re H]]; auto; try (right; exists re; right; auto; fail).
  - destruct H as [<-|[]]. right. exists true. left. auto.
  - apply in_app_or in H as [H|[<-|[]]]; auto. right. exists false. left. auto.
Qed.
Theorem C93_correlation_ones bins r_max s0 h ev1 ev2 fs : (0 <= bins < OVERFLOW_BIN)%Z -> cf_make bins r_max = Some s0 -> Forall (cf_op_ok bins) h -> execution 0 (Z.to_nat bins) ev1 -> execution 0 (Z.to_nat bins) ev2 ->
  Forall2 same_distances fs (cf_since h []) -> Forall ones (cf_since h []) -> (forall i, (Z.of_nat (dist_count (edge bins r_max 0 i) (edge bins r_max 0 (S i)) fs) < 2 ^ 32)%Z) ->
  exists s, cf_run s0 (h ++ [CfRead ev1 ev2]) = Some s /\ forall i, (i < Z.to_nat bins)%nat ->
    nth i (cf_out s) c0 = if (dist_count (edge bins r_max 0 i) (edge bins r_max 0 (S i)) fs =? 0)%nat then (0, 0) else (1, 0).
Proof.
  intros B M Hh E1 E2 F O Small. destruct (C50_mean bins r_max s0 h ev1 ev2 B M Hh E1 E2) as (s & R & _ & V & _).
  { intros i. rewrite (C93_correlation_counts bins r_max i fs _ F). auto. }
  exists s. split; [exact R|]. intros i Hi. destruct (V i Hi) as [V0 V1]. rewrite <- (C93_correlation_counts bins r_max i fs _ F).
  set (L := bin_bonds bins r_max i (cf_since h [])) in *.
  assert (PV : Forall (fun z => pair_value z = (1, 0)) L).
  { apply Forall_forall. intros [f b] Hz. unfold L, bin_bonds in Hz. apply filter_In in Hz as [Hz _]. apply in_flat_map in Hz as (f' & Hf & Hz). apply in_map_iff in Hz as (b' & Eb & Hb). injection Eb as -> ->.
    rewrite Forall_forall in O. destruct (O f Hf) as [O1 O2]. apply since_from in Hf as [[]|[re Hf]]. rewrite Forall_forall in Hh. specialize (Hh _ Hf). destruct Hh as (_ & Lv & Lq & Hb').
    destruct (Hb' b Hb) as [L1 L2]. unfold pair_value. rewrite (O1 (nth (bp b) (ci_values f) c0)) by (apply nth_In; lia). rewrite (O2 (nth (bq b) (ci_qv f) c0)) by (apply nth_In; lia).
    unfold cmul, cconj. simpl. f_equal; ring. }
  assert (CS : CorrSpec.csum (map pair_value L) = (INR (length L), 0)).
  { clear - PV. induction PV as [|z l E _ IH]; [reflexivity|]. cbn [map length]. rewrite S_INR. unfold CorrSpec.csum in *. cbn [fold_right]. rewrite IH, E. unfold cadd. simpl. f_equal; ring. }
  destruct (Nat.eqb_spec (length L) 0) as [E0|N0].
  - apply V0. destruct L; [auto|discriminate].
  - rewrite CS in V1. assert (P : 0 < INR (length L)) by (apply lt_0_INR; lia). destruct (nth i (cf_out s) c0) as [u w]. unfold cscale in V1. simpl in V1. injection V1 as Vu Vw. f_equal; apply Rmult_eq_reg_l with (INR (length L)); lra.
Qed.

(** * LocalDensity and RDF *)
Lemma inside_bounds r D d : 0 < D -> d <= r + D / 2 -> 0 <= inside r D d <= 1 /\ (d < r - D / 2 -> inside r D d = 1).
Proof.
  intros H L. unfold inside. assert (0 <= (r - (d - D / 2)) / D) by (apply Rmult_le_pos; [lra|left; apply Rinv_0_lt_compat; auto]). repeat split.
  - apply Rmin_glb; lra.
  - apply Rmin_l.
  - intros C. apply Rmin_left. apply Rmult_le_reg_r with D; auto. unfold Rdiv. rewrite Rmult_assoc, Rinv_l by lra. lra.
Qed.
Definition value (x : option R) : R := match x with Some v => v | None => 0 end.
Lemma per_point r D l : 0 < D -> (forall b, In b l -> 0 <= bd b <= r + D / 2) ->
  INR (cnt (fun b : bond => Rle_bool 0 (bd b) && Rlt_bool (bd b) (r - D / 2)) l) <= rsum (map (fun b => inside r D (bd b)) l) <= INR (length l).
Proof.
  intros H. induction l as [|b l IH]; intros A; [simpl; lra|]. destruct (IH (fun x Hx => A x (or_intror Hx))) as [I1 I2]. destruct (A b (or_introl eq_refl)) as [A0 A1]. destruct (inside_bounds r D (bd b) H A1) as [[B0 B1] B2].
  unfold cnt in *. cbn [filter map length]. rewrite S_INR. cbn [rsum fold_right]. fold (rsum (map (fun b => inside r D (bd b)) l)). split; [|lra].
  destruct (Rle_bool_spec 0 (bd b)), (Rlt_bool_spec (bd b) (r - D / 2)); cbn [andb length]; try rewrite S_INR; try (rewrite B2 by auto); lra.
Qed.
(** num_neighbors lies between the counts of an RDF with r_max = r - D/2 and the number of bonds, which an RDF reaching beyond r + D/2 counts in full. *)
Theorem C93_local_density_rdf r D l two_d ev fr n rin_max rout_max r0 r1 h1 h2 ev1 ev2 : ldn_make r D = Some l -> 0 < D -> execution 0 (ri_n fr) ev ->
  (forall b, In b (ri_all fr) -> 0 <= bd b <= r + D / 2) -> (0 <= n < 4294967295)%Z -> rin_max = r - D / 2 -> r + D / 2 < rout_max -> rdf_make n rin_max 0 = Some r0 -> rdf_make n rout_max 0 = Some r1 ->
  Forall (rop_ok n) h1 -> Forall (rop_ok n) h2 -> execution 0 (Z.to_nat n) ev1 -> execution 0 (Z.to_nat n) ev2 -> rsince h1 [] = [fr] -> rsince h2 [] = [fr] -> read_mode h1 false Exact None = Exact -> read_mode h2 false Exact None = Exact ->
  data_ok Exact (ri_data fr) -> (Z.of_nat (length (ri_all fr)) < 2 ^ 32)%Z ->
  exists q1 q2, rdf_run r0 (h1 ++ [RRead ev1]) = Some q1 /\ rdf_run r1 (h2 ++ [RRead ev2]) = Some q2 /\
    let num := fst (ldn_compute l two_d (ri_n fr) (ri_bonds fr) ev) in let nq := INR (rd_nqp (ri_data fr)) in
    nq * nth (Z.to_nat n - 1) (rdf_nr q1) 0 <= total (fun i => value (nth i num None)) (ri_n fr) <= nq * nth (Z.to_nat n - 1) (rdf_nr q2) 0.
Proof.
  intros M D0 He A Nn Ei Eo M0 M1 H1 H2 X1 X2 R1 R2 E1 E2 Dk Small.
  assert (DC : forall lo hi, (dist_count lo hi [fr] <= length (ri_all fr))%nat) by (intros lo hi; unfold dist_count; simpl; rewrite app_nil_r; clear; induction (ri_all fr) as [|b L IH]; simpl; auto; destruct (_ && _); simpl; lia).
  assert (SM : forall hi, (Z.of_nat (dist_count 0 hi [fr]) < 2 ^ 32)%Z) by (intros hi; specialize (DC 0 hi); lia).
  destruct (C49_cumulative n rin_max 0 r0 h1 ev1 [] fr M0 Nn H1 X1 R1) as (q1 & Q1 & _ & V1 & _); [rewrite E1; auto|apply SM|].
  destruct (C49_cumulative n rout_max 0 r1 h2 ev2 [] fr M1 Nn H2 X2 R2) as (q2 & Q2 & _ & V2 & _); [rewrite E2; auto|apply SM|].
  exists q1, q2. split; [exact Q1|]. split; [exact Q2|]. cbv zeta. rewrite V1, V2. cbn [app length INR]. destruct Dk as (_ & _ & Kq). assert (NQ : 0 < INR (rd_nqp (ri_data fr))) by (apply lt_0_INR; lia).
  set (nq := INR (rd_nqp (ri_data fr))) in *. replace (nq * (INR (dist_count 0 rin_max [fr]) / (nq * 1))) with (INR (dist_count 0 rin_max [fr])) by (field; lra). replace (nq * (INR (dist_count 0 rout_max [fr]) / (nq * 1))) with (INR (dist_count 0 rout_max [fr])) by (field; lra).
  replace (dist_count 0 rout_max [fr]) with (length (ri_all fr)).
  2:{ unfold dist_count. simpl. rewrite app_nil_r. clear - A Eo. induction (ri_all fr) as [|b L IH]; auto. destruct (A b (or_introl eq_refl)) as [A0 A1]. cbn [filter]. rewrite Rle_bool_true, Rlt_bool_true by lra. cbn [andb length]. rewrite IH by (intros x Hx; apply A; right; auto). reflexivity. }
  assert (V := C51_values r D l two_d (ri_n fr) (ri_bonds fr) ev M He). destruct (ldn_compute l two_d (ri_n fr) (ri_bonds fr) ev) as [num dens]. destruct V as (_ & _ & V). cbn [fst].
  assert (W : forall i, (i < ri_n fr)%nat -> value (nth i num None) = rsum (map (fun b => inside r D (bd b)) (ri_bonds fr i))).
  { intros i Hi. destruct (V i Hi (or_introl D0)) as (v & _ & E & _ & _ & Y & _). rewrite E. simpl. auto. }
  rewrite (total_ext _ _ _ W). clear V W M0 M1. subst rin_max. unfold dist_count. cbn [flat_map]. rewrite app_nil_r. change (length (filter ?P (ri_all fr))) with (cnt P (ri_all fr)). unfold ri_all in *. clear - A D0. unfold range in *. rewrite Nat.sub_0_r in *.
  induction (ri_n fr) as [|m IH]; [unfold total; simpl; lra|].
  rewrite seq_S, flat_map_app in A |- *. cbn [flat_map Nat.add] in A |- *. rewrite app_nil_r in A |- *. rewrite total_S, cnt_app, app_length, !plus_INR.
  assert (Q := IH (fun b Hb => A b (in_or_app _ _ _ (or_introl Hb)))). assert (P := per_point r D (ri_bonds fr m) D0 (fun b Hb => A b (in_or_app _ _ _ (or_intror Hb)))). lra.
Qed.
Print Assumptions C93_xyt_xy.
Print Assumptions C93_correlation_ones.
Print Assumptions C93_local_density_rdf.
