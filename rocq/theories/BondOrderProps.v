(** C48: the bond order diagram. *)
From Verif Require Import SphSpec QuatProofs QuatProps MatchEnvProofs BoxProofs BoxPyProofs SphProofs HistProofs HistProofs2 HistProps ParProofs BondOrderArea.
From Coq Require Import Lra Lia.
From Verif Require Import Vec.
Local Open Scope R_scope.

(** Fewer than two bins along either angle are rejected, nothing else. *)
Theorem C48_reject nt np m : bo_make nt np m = None <-> (nt < 2 \/ np < 2)%Z.
Proof. unfold bo_make. destruct (Z.ltb_spec nt 2), (Z.ltb_spec np 2); split; intros; try discriminate; auto; lia. Qed.

Lemma bo_axes_valid c : bo_valid c -> valid_axes (bo_axes c).
Proof.
  intros (Ht & Hp & Hs). pose proof PI_RGT_0. unfold OVERFLOW_BIN in *. split.
  - repeat constructor; simpl; try lia; try lra; unfold OVERFLOW_BIN; lia.
  - unfold size_of; simpl. unfold OVERFLOW_BIN. lia.
Qed.

(** Every bond direction other than straight down falls in exactly one bin: the one whose azimuth and polar intervals contain the
    spherical coordinates of the vector.  The straight down direction falls in none. *)
Theorem C48_direction c v : bo_valid c -> v <> v0 ->
  direction v (azimuth v) (polar v) /\ (forall t p, direction v t p -> t = azimuth v /\ p = polar v) /\
  (~ down v -> exists idx, in_cell (bo_axes c) [azimuth v; polar v] idx /\ (forall idx', in_cell (bo_axes c) [azimuth v; polar v] idx' -> idx' = idx)) /\
  (down v -> forall idx, ~ in_cell (bo_axes c) [azimuth v; polar v] idx).
Proof.
  intros V H. pose proof (sph_direction v H) as D. pose proof (norm_pos v H) as N. pose proof PI_RGT_0 as P.
  split; [exact D|]. split; [intros t p D'; apply (direction_unique v t p _ _ H D' D)|].
  destruct (C13_cells (bo_axes c) [azimuth v; polar v] (proj1 (bo_axes_valid c V)) eq_refl) as [C1 C2].
  destruct D as (Ht & Hp & E & Z). split.
  - intros Hd. destruct C1 as (idx & _ & I & U); [|exists idx; split; assumption].
    unfold in_range, bo_axes. apply Forall2_cons; [simpl; lra|]. apply Forall2_cons; [|apply Forall2_nil]. simpl. split; [lra|].
    destruct (Rle_lt_or_eq_dec _ _ (proj2 Hp)) as [G|F]; [exact G|]. exfalso. apply Hd.
    assert (Ex := f_equal vx E). assert (Ey := f_equal vy E). assert (Ez := f_equal vz E). simpl in Ex, Ey, Ez.
    rewrite F, sin_PI in Ex, Ey. rewrite F, cos_PI in Ez.
    repeat split; lra.
  - intros (X & Y & Zn) idx I. apply in_cell_in_range in I; [|apply (bo_axes_valid c V)]. unfold in_range in I. inversion I as [|? ? ? ? _ I2]; subst. inversion I2 as [|? ? ? ? [_ L] _]; subst.
    simpl in L.
    assert (S : sin (polar v) = 0).
    { assert (Sx : vx v = norm v * (sin (polar v) * cos (azimuth v))) by exact (f_equal vx E).
      rewrite (Z X Y), cos_0, X in Sx. apply (Rmult_eq_reg_l (norm v)); lra. }
    assert (C : cos (polar v) < 0).
    { assert (Sz : vz v = norm v * cos (polar v)) by exact (f_equal vz E). nra. }
    destruct (Rle_lt_or_eq_dec _ _ (proj1 Hp)) as [L0|L0].
    + pose proof (sin_gt_0 _ L0 L). lra.
    + rewrite <- L0, cos_0 in C. lra.
Qed.
Theorem C48_down_refuted : exists c v h, bo_valid c /\ v <> v0 /\ h_axes h = bo_axes c /\ hist_add Nat.add h [azimuth v; polar v] 1%nat = Some h /\
  direction v (azimuth v) (polar v).
Proof.
  exists (BO 2 2 Bod), (V3 0 0 (-1)), (hist_make 0%nat (bo_axes (BO 2 2 Bod))).
  assert (V : bo_valid (BO 2 2 Bod)) by (unfold bo_valid; simpl; lia).
  assert (H : V3 0 0 (-1) <> v0) by (intros E; injection E; lra).
  split; [exact V|]. split; [exact H|]. split; [reflexivity|]. split; [|apply sph_direction; exact H].
  destruct (C13_cells (bo_axes (BO 2 2 Bod)) [azimuth (V3 0 0 (-1)); polar (V3 0 0 (-1))] (proj1 (bo_axes_valid _ V)) eq_refl) as [C1 C2].
  assert (N : ~ in_range (bo_axes (BO 2 2 Bod)) [azimuth (V3 0 0 (-1)); polar (V3 0 0 (-1))]).
  { intros I. destruct (C1 I) as (idx & _ & Ic & _).
    destruct (C48_direction (BO 2 2 Bod) (V3 0 0 (-1)) V H) as (_ & _ & _ & D). apply (fun K => D K idx Ic). split; [reflexivity|split; [reflexivity|simpl; lra]]. }
  unfold hist_add, hist_bin. cbn [hist_make h_axes]. cbn [length negb Nat.eqb bo_axes]. change [Axis (bo_nt (BO 2 2 Bod)) 0 (2 * PI); Axis (bo_np (BO 2 2 Bod)) 0 PI] with (bo_axes (BO 2 2 Bod)).
  rewrite (C2 N). reflexivity.
Qed.

(** The vector that each mode bins, for unit orientations, has the length of the bond (of a unit vector for oocd) and is the only one
    satisfying the description of the mode. *)
Theorem C48_modes m a q v : unitq a -> unitq q ->
  mode_vector m a q v (bo_vector m a q v) /\ (forall w, mode_vector m a q v w -> w = bo_vector m a q v) /\
  norm (bo_vector m a q v) = match m with Oocd => 1 | _ => norm v end.
Proof.
  intros Ha Hq. assert (Ha' := unitq_conj _ Ha).
  assert (I1 : forall x, rotate (qconj a) (rotate a x) = x) by (intros x; apply (C59_group a a x Ha)).
  assert (I2 : forall x, rotate a (rotate (qconj a) x) = x) by (intros x; apply (C59_group a a x Ha)).
  assert (Ln : forall p x, unitq p -> norm (rotate p x) = norm x) by (intros p x Hp; apply (C59_isometry p Hp x x)).
  destruct m; simpl; unfold in_frame.
  - repeat split; auto.
  - split; [apply I2|]. split; [intros w <-; symmetry; apply I1|apply Ln; auto].
  - split; [exists (rotate (qconj a) v); split; [apply I2|reflexivity]|]. split; [intros w (u & <- & ->); rewrite I1; reflexivity|rewrite !Ln; auto].
  - split; [apply I2|]. split; [intros w E; rewrite <- E; symmetry; apply I1|]. rewrite !Ln by auto.
    unfold norm, dot; simpl. replace (0 * 0 + 0 * 0 + 1 * 1) with 1 by ring. apply sqrt_1.
Qed.

(** One frame: the orientations and the bonds that each iteration of the loop over neighbours delivers. *)
Record bo_input := BI { bi_o : list quat; bi_qo : list quat; bi_n : nat; bi_bonds : nat -> list bond; bi_ev : list (nat * nat) }.
Definition bi_all (f : bo_input) : list bond := flat_map (bi_bonds f) (range 0 (bi_n f)).
Definition bi_ok (f : bo_input) : Prop :=
  execution 0 (bi_n f) (bi_ev f) /\ Forall unitq (bi_o f) /\ Forall unitq (bi_qo f) /\
  forall i b, In b (bi_bonds f i) -> (bp b < length (bi_o f))%nat /\ (bq b < length (bi_qo f))%nat /\ bv b <> v0.
Definition bi_vector (c : bo_conf) (f : bo_input) (b : bond) : vec3 :=
  bo_vector (bo_m c) (nth (bp b) (bi_o f) qid) (nth (bq b) (bi_qo f) qid) (bv b).
Definition bo_frame (c : bo_conf) (f : bo_input) : frame U32 unit :=
  Frame (bi_n f)
    (fun i => flat_map (fun b => match bo_sample c (bi_o f) (bi_qo f) b with Some s => [(s, u32 1)] | None => [] end) (bi_bonds f i))
    (bi_ev f) tt.
(** A history of compute calls (with their reset argument) and reads. *)
Inductive bo_op := BoCompute (reset : bool) (f : bo_input) | BoRead (ev : list (nat * nat)).
Definition bo_hop (c : bo_conf) (o : bo_op) : hop U32 unit :=
  match o with BoCompute r f => Compute r (bo_frame c f) | BoRead ev => Read ev end.
Fixpoint bo_since (h : list bo_op) (acc : list bo_input) : list bo_input :=
  match h with
  | [] => acc
  | BoCompute true f :: h => bo_since h [f]
  | BoCompute false f :: h => bo_since h (acc ++ [f])
  | BoRead _ :: h => bo_since h acc
  end.
Definition bo_op_ok (c : bo_conf) (o : bo_op) : Prop :=
  match o with BoCompute _ f => bi_ok f | BoRead ev => execution 0 (Z.to_nat (bo_nt c * bo_np c)) ev end.
(** Number of bonds, over all frames since the last reset, whose direction lies in the cell. *)
Definition cell_count (c : bo_conf) (i j : Z) (fs : list bo_input) : nat :=
  length (filter (fun v => in_cellb (bo_axes c) [i; j] [azimuth v; polar v]) (flat_map (fun f => map (bi_vector c f) (bi_all f)) fs)).

Lemma bo_since_frames c h acc : frames_since (map (bo_hop c) h) (map (bo_frame c) acc) = map (bo_frame c) (bo_since h acc).
Proof.
  revert acc. induction h as [|[[|] f|ev] h IH]; intros acc; simpl; auto.
  - apply (IH [f]).
  - rewrite <- IH, map_app. reflexivity.
Qed.
Lemma bi_samples c f i : bi_ok f -> fr_samples (bo_frame c f) i = map (fun b => ([azimuth (bi_vector c f b); polar (bi_vector c f b)], u32 1)) (bi_bonds f i).
Proof.
  intros (_ & _ & _ & H). simpl. specialize (H i). induction (bi_bonds f i) as [|b l IH]; simpl; auto.
  rewrite IH by (intros; apply H; right; auto). destruct (H b (or_introl eq_refl)) as (H1 & H2 & _). unfold bo_sample.
  rewrite (nth_error_g _ _ qid H1), (nth_error_g _ _ qid H2). reflexivity.
Qed.
Lemma frame_samples_all c f : bi_ok f -> frame_samples (bo_frame c f) = map (fun b => ([azimuth (bi_vector c f b); polar (bi_vector c f b)], u32 1)) (bi_all f).
Proof.
  intros H. unfold frame_samples, bi_all. change (fr_n (bo_frame c f)) with (bi_n f). induction (range 0 (bi_n f)) as [|i l IH]; [reflexivity|].
  cbn [flat_map]. rewrite IH, bi_samples, map_app by exact H. reflexivity.
Qed.
Lemma u32_ones {A} (l : list A) : fold_right Z.add 0%Z (map u32_val (map (fun _ => u32 1) l)) = Z.of_nat (length l).
Proof. induction l; [reflexivity|]. cbn [map fold_right length]. rewrite IHl. change (u32_val (u32 1)) with 1%Z. rewrite Nat2Z.inj_succ. ring. Qed.

(** C48: after any history, the value read for bin (i, j), times the solid angle of the bin and the number of frames since the last
    reset, is the number of bonds in it (for fewer than 2^32 bonds, the range of the counters). *)
Theorem C48_bond_order c h ev : bo_valid c -> Forall (bo_op_ok c) h -> execution 0 (Z.to_nat (bo_nt c * bo_np c)) ev ->
  bo_since h [] <> [] ->
  exists s, run_history (u32 0) u32_add (bhc_make (u32 0) (bo_axes c)) (map (bo_hop c) h ++ [Read ev]) = Some s /\
    bhc_frames s = length (bo_since h []) /\
    forall i j, (0 <= i < bo_nt c)%Z -> (0 <= j < bo_np c)%Z -> exists k,
      ma_get (h_counts (bhc_hist s)) (i * bo_np c + j) = Some k /\
      u32_val k = (Z.of_nat (cell_count c i j (bo_since h [])) mod 2 ^ 32)%Z /\
      ((Z.of_nat (cell_count c i j (bo_since h [])) < 2 ^ 32)%Z ->
         bo_value c (IZR (u32_val k)) (bhc_frames s) i j * cell_area c i j * INR (length (bo_since h [])) = INR (cell_count c i j (bo_since h []))).
Proof.
  intros V H E NE.
  assert (Sz : size_of (map ax_n (bo_axes c)) = (bo_nt c * bo_np c)%Z) by (unfold size_of; simpl; lia).
  assert (HO : forall f, In f (bo_since h []) -> bi_ok f).
  { assert (G : forall h acc, Forall (bo_op_ok c) h -> (forall f, In f acc -> bi_ok f) -> forall f, In f (bo_since h acc) -> bi_ok f).
    { clear. induction h as [|[[|] g|e] h IH]; intros acc H A f Hf; simpl in Hf; auto; inversion H; subst.
      - apply (IH [g]); auto. intros g' [<-|[]]; auto.
      - apply (IH (acc ++ [g])); auto. intros g' Hg. apply in_app_or in Hg as [Hg|[<-|[]]]; auto.
      - apply (IH acc); auto. }
    apply G; auto. intros f []. }
  destruct (C17_history (u32 0) u32_add (bo_axes c) (map (bo_hop c) h) ev u32_laws (bo_axes_valid c V)) as (s & R & C & N & _).
  { apply Forall_map. eapply Forall_impl; [|exact H]. intros [r f|e] Ho; unfold valid_hop, bo_hop; cbv beta iota; [|rewrite Sz; exact Ho].
    split; [apply Ho|]. intros i x Hx. rewrite (bi_samples c f i Ho) in Hx. apply in_map_iff in Hx as (b & <- & _). reflexivity. }
  { rewrite Sz. exact E. }
  change (@nil (frame U32 unit)) with (map (bo_frame c) []) in C, N. rewrite bo_since_frames in C, N. rewrite map_length in N.
  exists s. split; [exact R|]. split; [exact N|]. intros i j Hi Hj.
  assert (IS : in_shape (map ax_n (bo_axes c)) [i; j]) by (repeat constructor; simpl; lia).
  specialize (C [i; j] IS). replace (row_major (map ax_n (bo_axes c)) [i; j]) with (i * bo_np c + j)%Z in C by (unfold row_major; simpl; lia).
  eexists. split; [exact C|]. set (K := sum_of _ _ _).
  assert (W : weights_in (bo_axes c) [i; j] (flat_map frame_samples (map (bo_frame c) (bo_since h []))) =
              map (fun _ => u32 1) (filter (fun v => in_cellb (bo_axes c) [i; j] [azimuth v; polar v]) (flat_map (fun f => map (bi_vector c f) (bi_all f)) (bo_since h [])))).
  { clear -HO. unfold weights_in. induction (bo_since h []) as [|f fs IH]; [reflexivity|]. cbn [map flat_map].
    rewrite !filter_app, !map_app, IH by (intros; apply HO; right; auto). f_equal.
    rewrite frame_samples_all by (apply HO; left; auto). induction (bi_all f) as [|b l IHl]; [reflexivity|].
    cbn [map filter fst]. destruct (in_cellb _ _ _); cbn [map snd]; rewrite IHl; reflexivity. }
  assert (Ek : u32_val K = (Z.of_nat (cell_count c i j (bo_since h [])) mod 2 ^ 32)%Z).
  { unfold K. rewrite W, u32_sum_mod, u32_ones. reflexivity. }
  split; [exact Ek|]. intros Small. rewrite Ek, Z.mod_small by lia. rewrite <- INR_IZR_INZ. unfold bo_value.
  destruct (C48_areas (bo_nt c) (bo_np c) (bo_m c) c) as (A1 & A2 & _).
  { unfold bo_make. destruct V as (V1 & V2 & _). destruct (Z.ltb_spec (bo_nt c) 2); [lia|]. destruct (Z.ltb_spec (bo_np c) 2); [lia|]. destruct c; reflexivity. }
  { exact V. }
  rewrite <- A1. destruct (A2 i j Hi Hj) as [Ap _]. rewrite N.
  assert (0 < INR (length (bo_since h []))) by (apply lt_0_INR; destruct (bo_since h []); [congruence|simpl; lia]). field. split; lra.
Qed.

Example C48_ex : exists c h ev, bo_valid c /\ Forall (bo_op_ok c) h /\ execution 0 (Z.to_nat (bo_nt c * bo_np c)) ev /\ bo_since h [] <> [] /\
  cell_count c 0 0 (bo_since h []) = 1%nat.
Proof.
  set (f := BI [qid] [qid] 1 (fun _ => [Bond 0 0 1 1 (V3 0 0 1)]) [(0%nat, 0%nat)]).
  exists (BO 2 2 Bod), [BoCompute true f], (map (fun i => (0%nat, i)) (range 0 4)).
  assert (V : bo_valid (BO 2 2 Bod)) by (unfold bo_valid; simpl; lia). split; [exact V|].
  assert (H : V3 0 0 1 <> v0) by (intros E; injection E; lra). split.
  { constructor; [|constructor]. split; [exact (sequential_execution 0 1 0)|]. split; [repeat constructor; apply unitq_id|].
    split; [repeat constructor; apply unitq_id|]. intros i b [<-|[]]. simpl. repeat split; auto; lia. }
  split; [exact (sequential_execution 0 4 0)|]. split; [discriminate|].
  assert (D : direction (V3 0 0 1) 0 0).
  { pose proof PI_RGT_0. assert (norm (V3 0 0 1) = 1) as N1 by (unfold norm, dot; simpl; replace (0*0+0*0+1*1) with 1 by ring; apply sqrt_1).
    split; [lra|]. split; [lra|]. split; [|auto]. rewrite N1, sin_0, cos_0. apply vec_eq; simpl; ring. }
  destruct (direction_unique _ _ _ _ _ H D (sph_direction _ H)) as [E1 E2].
  unfold cell_count, bi_all, bi_vector; simpl. rewrite <- E1, <- E2.
  assert (in_cellb (bo_axes (BO 2 2 Bod)) [0%Z; 0%Z] [0; 0] = true) as ->; [|reflexivity].
  apply in_cellb_iff; [repeat constructor; simpl; lia|]. pose proof PI_RGT_0.
  repeat constructor; try lia; unfold interval_lo; simpl; lra.
Qed.
Print Assumptions C48_bond_order.
