(** C94: nearest neighbours and ball queries; bonds outside the range of an RDF. *)
From Coq Require Import Reals ZArith List Permutation Lia Lra Sorted.
From Verif Require Import RBase Vec BoxProofs ParProofs MArrayProofs NListProofs NListProofs2 NListProps FilterProps AABBProps LinkCellProps CellQueryProps QueryProofs QueryProps KnnModel KnnProps KnnProps2 KnnProps3 RdfProps JoinProofs CutProps.
From Verif Require Import NListSpec QueryArgSpec RdfShell RdfSpec CutSpec BoxSpec QuerySpec KnnSpec.
Import ListNotations.
Local Open Scope R_scope.

Section near.
Variables (b : box) (points : list vec3) (q : vec3) (qi : nat) (r rm : R) (ex : bool).
Hypotheses (Hb : positive b) (FP : fully_periodic b) (HP : forall x, In x points -> in_cell b x) (HQ : in_cell b q) (RO : radius_ok b r).
Lemma radius_planes : 2 * r < min_plane b /\ min_plane b <= max_plane b.
Proof.
  destruct FP as (Fx & Fy & Fz). destruct RO as (X & Y & Z). specialize (X Fx). specialize (Y Fy). unfold min_plane, max_plane. cbv zeta. revert X Y Z. generalize (plane_distance b). intros [x y z] X Y Z. simpl in *.
  destruct (b_2d b) eqn:E2.
  - split; [unfold Rmin; destruct (Rle_dec x y); lra|]. apply Rle_trans with x; [apply Rmin_l|apply Rmax_l].
  - specialize (Z eq_refl (Fz)). split; [unfold Rmin; destruct (Rle_dec x y); destruct (Rle_dec _ z); lra|].
    apply Rle_trans with x; [apply Rle_trans with (Rmin x y); apply Rmin_l|apply Rle_trans with (Rmax x y); apply Rmax_l].
Qed.
Lemma ball_candidate x : in_range b points q qi r rm ex all_images x -> candidate b points q qi ex rm near_images (bp x) (bv x) /\ bd x = norm (bv x) /\ norm (bv x) < r.
Proof.
  intros H. assert (H0 := H). destruct H as (j & i1 & i2 & i3 & Hj & Al & _ & Ne & D & ->). cbn [bp bv bd] in *. split; [|split; [reflexivity|lra]]. split; [exact Hj|]. split; [exact Ne|]. split; [|lra]. destruct radius_planes as [RP _].
  assert (SP : forall k1 k2 k3, allowed b k1 k2 k3 -> norm (sep b points q j k1 k2 k3) < min_plane b -> near_images k1 k2 k3) by (intros k1 k2 k3 Ak Hk; apply (near_of_short b points q j); auto; apply HP, nth_In; auto).
  assert (NN := norm_nonneg (sep b points q j i1 i2 i3)). split.
  - exists i1, i2, i3. split; [exact Al|]. split; [|reflexivity]. apply SP; auto. lra.
  - intros k1 k2 k3 Ak _. destruct (Rle_lt_dec (norm (sep b points q j i1 i2 i3)) (norm (sep b points q j k1 k2 k3))) as [L|L]; auto. exfalso.
    assert (X : in_range b points q qi r 0 ex all_images (Bond qi j (norm (sep b points q j k1 k2 k3)) 1 (sep b points q j k1 k2 k3))).
    { exists j, k1, k2, k3. assert (NK := norm_nonneg (sep b points q j k1 k2 k3)). split; [exact Hj|]. split; [exact Ak|]. split; [exact I|]. split; [exact Ne|]. split; [lra|reflexivity]. }
    assert (Y : in_range b points q qi r 0 ex all_images (Bond qi j (norm (sep b points q j i1 i2 i3)) 1 (sep b points q j i1 i2 i3))).
    { exists j, i1, i2, i3. split; [exact Hj|]. split; [exact Al|]. split; [exact I|]. split; [exact Ne|]. split; [lra|reflexivity]. }
    assert (E := one_bond b points q qi r 0 ex _ _ Hb HP HQ RO X Y eq_refl). apply (f_equal bd) in E. cbn [bd] in E. lra.
Qed.
Lemma candidate_ball x : candidate b points q qi ex rm near_images (bp x) (bv x) -> x = Bond qi (bp x) (norm (bv x)) 1 (bv x) -> bd x < r -> in_range b points q qi r rm ex all_images x.
Proof.
  intros (Hj & Ne & [(i1 & i2 & i3 & Al & _ & E) _] & L) Ex D. exists (bp x), i1, i2, i3. rewrite <- E. rewrite Ex in D. cbn [bd] in D. split; [exact Hj|]. split; [exact Al|]. split; [exact I|]. split; [exact Ne|]. split; [lra|exact Ex].
Qed.
(** [l] answers a nearest-neighbour query, [m] a ball query. *)
Lemma nearest_ball k scale l m : (0 < k)%nat -> 1 < scale <= 2 -> sorted_neighbors b points q qi ex rm near_images l -> (length l <= k)%nat ->
  (forall j v, candidate b points q qi ex rm near_images j v -> ~ In j (map bp l) -> (length l = k /\ forall x, In x l -> bd x <= norm v) \/ ((length l < k)%nat /\ max_plane b <= norm v * scale)) ->
  NoDup m -> (forall x, In x m <-> in_range b points q qi r rm ex all_images x) ->
  ((length m <= k)%nat -> Permutation (filter (fun x => Rltb (bd x) r) l) m) /\ ((k <= length m)%nat -> length l = k /\ incl l m).
Proof.
  intros Hk Hs (ND & SO & HM) LK HC Nm Im. destruct radius_planes as [RP MM].
  assert (A : forall y, In y m -> In (bp y) (map bp l) -> In y l).
  { intros y Hy I. apply in_map_iff in I as (x & E & Hx). apply Im in Hy. destruct (HM x Hx) as [C Ex]. destruct (ball_candidate y Hy) as (Cy & Dy & Ly). destruct C as (C1 & C2 & C3 & C4).
    assert (LE : norm (bv x) <= norm (bv y)). { destruct C3 as [_ C3]. destruct Cy as (_ & _ & [(i1 & i2 & i3 & Al & Ni & Ey) _] & _). rewrite Ey, <- E. apply C3; auto. }
    assert (Dx : bd x = norm (bv x)) by (rewrite Ex at 1; reflexivity).
    assert (X : in_range b points q qi r rm ex all_images x) by (apply candidate_ball; [repeat split; auto; try apply C3|exact Ex|lra]).
    rewrite <- (one_bond b points q qi r rm ex x y Hb HP HQ RO X Hy E). exact Hx. }
  assert (B : forall y, In y m -> ~ In y l -> length l = k /\ incl l m).
  { intros y Hy N. assert (Hy' := Hy). apply Im in Hy'. destruct (ball_candidate y Hy') as (Cy & Dy & Ly). destruct (HC (bp y) (bv y) Cy) as [[L1 L2]|[_ L2]].
    - intros I. apply N, A; auto.
    - split; [exact L1|]. intros x Hx. destruct (HM x Hx) as [C Ex]. apply Im, candidate_ball; auto. specialize (L2 x Hx). lra.
    - exfalso. assert (NN := norm_nonneg (bv y)). nra. }
  assert (NL : NoDup l) by (apply NoDup_map_inv in ND; exact ND).
  assert (DEC : incl m l \/ exists y, In y m /\ ~ In y l).
  { clear - m A. induction m as [|y m0 IH]; [left; intros y []|]. destruct (in_dec Nat.eq_dec (bp y) (map bp l)) as [I|I].
    - destruct IH as [J|(z & Hz & Nz)]; [intros z Hz; apply A; right; auto| |right; exists z; split; [right; auto|auto]]. left. intros z [<-|Hz]; auto. apply A; auto. left; auto.
    - right. exists y. split; [left; auto|]. intros Hy. apply I, in_map, Hy. }
  split; intros LM.
  - assert (IML : incl m l).
    { destruct DEC as [|(y & Hy & N)]; auto. exfalso. destruct (B y Hy N) as [L1 L2]. assert (NoDup (y :: l)) by (constructor; auto). assert (incl (y :: l) m) by (intros z [<-|Hz]; auto). assert (X := NoDup_incl_length H H0). simpl in X. lia. }
    apply NoDup_Permutation; auto; [apply NoDup_filter; auto|]. intros x. rewrite filter_In. split.
    + intros [Hx D]. apply Rltb_true in D. destruct (HM x Hx) as [C Ex]. apply Im, candidate_ball; auto.
    + intros Hx. split; [apply IML; auto|]. apply Rltb_true. apply Im in Hx. destruct (ball_candidate x Hx) as (_ & D & L). lra.
  - destruct DEC as [IML|(y & Hy & N)]; [|apply (B y Hy N)]. assert (X := NoDup_incl_length Nm IML). split; [lia|]. apply (NoDup_length_incl Nm); auto. lia.
Qed.
End near.
(** A query for the k nearest neighbours and a ball query with the same r_min and exclude_ii: if the ball holds at most k bonds, those of the k nearest within it are all of them; if it holds k or more, the k nearest are k of them. *)
Theorem C94_nearest_ball be be' b points qs p pk r k ls lk : be' = BAABB \/ be' = BRaw -> setting b points qs p r -> usable be b points ->
  no_sentinel pk -> well_formed pk -> asks_nearest pk k -> (0 < k)%Z -> pa_rguess pk = None -> pa_rmax pk = None -> (forall s, pa_scale pk = Some s -> 1 < s <= 2) ->
  or_else (pa_rmin pk) 0 = or_else (pa_rmin p) 0 -> or_else (pa_excl pk) false = or_else (pa_excl p) false ->
  py_query be b points qs p (Some ls) -> py_query be' b points qs pk (Some lk) ->
  forall i, (i < length qs)%nat -> ((length (nth i ls []) <= Z.to_nat k)%nat -> Permutation (filter (fun x => Rltb (bd x) r) (nth i lk [])) (nth i ls [])) /\
    ((Z.to_nat k <= length (nth i ls []))%nat -> length (nth i lk []) = Z.to_nat k /\ incl (nth i lk []) (nth i ls [])).
Proof.
  intros HB St U S W A Hk Hg HR Hs Em Ee Q Qk i Hi.
  destruct (C32_ball be b points qs p r St U) as (l1 & E & L & H). apply E in Q. injection Q as <-. clear E. destruct (H i Hi) as [N I].
  destruct St as [Hb FP Hne Hn HPt Hqne HQ S0 W0 A0 R0 R1 RO].
  destruct (C34_query be' b points qs pk k HB Hb FP (nq_ok_cell b points Hb Hne HPt) Hqne S W A Hk Hg) as (_ & _ & G); [intros s Es; apply (Hs s Es)|intros r1 E1; congruence|].
  destruct (G lk Qk) as [_ G']. specialize (G' i Hi). cbv zeta in G'. rewrite HR, Em, Ee in G'. destruct G' as (G1 & G2 & G3).
  apply (nearest_ball b points (nth i qs v0) i r (or_else (pa_rmin p) 0) (or_else (pa_excl p) false) Hb FP HPt (HQ _ (nth_In _ _ Hi)) RO (Z.to_nat k) (or_else (pa_scale pk) (11 / 10))); auto; [lia|].
  destruct (pa_scale pk) as [s|] eqn:Es; simpl; [apply Hs; auto|lra].
Qed.
Print Assumptions C94_nearest_ball.

(** * Bonds outside the range of an RDF *)
Lemma within_count lo hi a c fs gs : lo <= a -> c <= hi -> Forall2 (same_within lo hi) fs gs -> dist_count a c fs = dist_count a c gs.
Proof.
  intros La Lc F. unfold dist_count. induction F as [|f g fs gs [D _] _ IH]; auto. cbn [flat_map]. rewrite !filter_app, !app_length, IH. f_equal.
  assert (X : forall l, length (filter (fun x => Rle_bool a (bd x) && Rlt_bool (bd x) c) l) = cnt (fun x => Rle_bool a (bd x) && Rlt_bool (bd x) c) (filter (fun x => Rleb lo (bd x) && Rltb (bd x) hi) l)).
  { clear - La Lc. induction l as [|x l IH]; auto. unfold cnt in *. cbn [filter]. destruct (Rleb_spec lo (bd x)), (Rltb_spec (bd x) hi); cbn [andb filter]; destruct (Rle_bool_spec a (bd x)), (Rlt_bool_spec (bd x) c); cbn [andb length]; try lra; auto. }
  rewrite !X. apply cnt_perm. exact D.
Qed.
(** Bonds shorter than r_min or not shorter than r_max do not change an RDF. *)
Theorem C94_rdf_range bins r_max r_min r0 h h' ev ev' fs f gs g : rdf_make bins r_max r_min = Some r0 -> (0 <= bins < 4294967295)%Z -> Forall (rop_ok bins) h -> Forall (rop_ok bins) h' -> execution 0 (Z.to_nat bins) ev -> execution 0 (Z.to_nat bins) ev' ->
  read_mode h false Exact None = read_mode h' false Exact None -> rsince h [] = fs ++ [f] -> rsince h' [] = gs ++ [g] -> Forall2 (same_within r_min r_max) (fs ++ [f]) (gs ++ [g]) ->
  data_ok (read_mode h false Exact None) (ri_data f) -> (Z.of_nat (dist_count r_min r_max (fs ++ [f])) < 2 ^ 32)%Z ->
  exists r r', rdf_run r0 (h ++ [RRead ev]) = Some r /\ rdf_run r0 (h' ++ [RRead ev']) = Some r' /\ rdf_pcf r = rdf_pcf r' /\ rdf_nr r = rdf_nr r'.
Proof.
  intros M B Hh Hh' He He' EM Rs Rs' SW Dk Small.
  assert (O : 0 < r_max /\ 0 <= r_min /\ r_min < r_max /\ (0 < bins)%Z).
  { assert (N : ~ rdf_make bins r_max r_min = None) by congruence. rewrite C49_reject in N by lia. repeat split; try (apply Rnot_le_lt; tauto); try (apply Rnot_lt_le; tauto). lia. }
  destruct O as (O1 & O2 & O3 & O4).
  assert (SL := SW). apply Forall2_app_inv_l in SL as (l1 & l2 & _ & F2 & EL). inversion F2 as [|? g' ? l3 D F3]; subst. inversion F3; subst. apply app_inj_tail in EL as [-> <-]. clear F2 F3. destruct D as [_ DD].
  assert (Dk' := Dk). rewrite EM, DD in Dk'.
  destruct (C49_values bins r_max r_min r0 h ev fs f M B Hh He Rs Dk Small) as (r & E & Lp & Ln & V).
  destruct (C49_values bins r_max r_min r0 h' ev' l1 g M B Hh' He' Rs' Dk') as (r' & E' & Lp' & Ln' & V'); [rewrite <- (within_count r_min r_max r_min r_max _ _ (Rle_refl _) (Rle_refl _) SW); auto|].
  exists r, r'. split; [exact E|]. split; [exact E'|]. cbv zeta in V, V'. rewrite <- EM, <- DD in V'.
  set (md := read_mode h false Exact None) in *. set (d := ri_data f) in *.
  assert (LF : length (l1 ++ [g]) = length (fs ++ [f])) by (symmetry; revert SW; generalize (fs ++ [f]) (l1 ++ [g]); induction 1; simpl; congruence). rewrite LF in V'.
  assert (NF : 0 < INR (length (fs ++ [f]))) by (apply lt_0_INR; rewrite app_length; simpl; lia). destruct Dk as (Vp & Np & Nq).
  assert (Np' : 0 < INR (rd_np d)) by (apply lt_0_INR; auto). assert (Nq' : 0 < INR (rd_nqp d)) by (apply lt_0_INR; destruct md; lia).
  assert (BP : 0 < IZR bins) by (apply IZR_lt; auto). assert (WP : 0 < (r_max - r_min) / IZR bins) by (apply Rdiv_lt_0_compat; lra).
  assert (ED : forall i, (i <= Z.to_nat bins)%nat -> r_min <= edge bins r_max r_min i <= r_max).
  { intros i Hi. unfold edge. assert (0 <= INR i) by apply pos_INR. assert (LI : INR i <= IZR bins) by (rewrite INR_IZR_INZ; apply IZR_le; lia). split; [nra|].
    assert (X := Rmult_le_compat_r _ _ _ (Rlt_le _ _ WP) LI). assert (Y : IZR bins * ((r_max - r_min) / IZR bins) = r_max - r_min) by (field; lra). lra. }
  assert (DP : 0 < density md d).
  { unfold density. destruct md; [apply Rdiv_lt_0_compat; auto|]. apply Rdiv_lt_0_compat; auto. assert (1 < INR (rd_nqp d)) by (apply (lt_INR 1); auto). lra. }
  assert (C : forall i, (i < Z.to_nat bins)%nat -> nth i (rdf_pcf r) 0 = nth i (rdf_pcf r') 0 /\ nth i (rdf_nr r) 0 = nth i (rdf_nr r') 0).
  { intros i Hi. destruct (V i Hi) as [V1 V2]. destruct (V' i Hi) as [V1' V2']. destruct (ED i ltac:(lia)) as [E1 E2]. destruct (ED (S i) ltac:(lia)) as [E3 E4].
    rewrite (within_count r_min r_max _ _ _ _ E1 E4 SW), <- V1' in V1. rewrite (within_count r_min r_max _ _ _ _ (Rle_refl _) E4 SW), <- V2' in V2.
    assert (SP : 0 < RdfShell.shell (rd_2d d) (edge bins r_max r_min i) (edge bins r_max r_min (S i))) by (apply shell_pos; unfold edge; rewrite S_INR; split; [unfold edge in E1; lra|lra]).
    split; [apply Rmult_eq_reg_r in V1; auto|apply Rmult_eq_reg_r in V2; auto]; apply Rgt_not_eq; repeat apply Rmult_lt_0_compat; auto. }
  split; apply (nth_ext _ _ 0 0); try congruence; intros i Hi; apply C; congruence.
Qed.
Print Assumptions C94_rdf_range.
