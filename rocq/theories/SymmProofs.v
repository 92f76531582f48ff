(** Proofs about descriptions of the same system. *)
From Coq Require Import Reals ZArith List Permutation Lia Lra Psatz.
From Verif Require Import BoxProofs AABBProofs2 AABBProps QueryProps.
From Verif Require Import SymmSpec.
From Verif Require Import BoxSpec QuerySpec.
Import ListNotations.
Local Open Scope R_scope.

Section Units.
Variables (a : R) (b : box).
Hypothesis Ha : 0 < a.
Lemma shift_units i j k : shift (in_units a b) i j k = vscale a (shift b i j k).
Proof. unfold shift, comb, a1, a2, a3, in_units. vec_ext; ring. Qed.
Lemma allowed_units i j k : allowed (in_units a b) i j k <-> allowed b i j k.
Proof. unfold allowed, in_units. simpl. tauto. Qed.
Lemma flat_units p : flat (in_units a b) p = flat b p.
Proof. reflexivity. Qed.
Lemma positive_units : positive b -> positive (in_units a b).
Proof.
  intros ((X & Y & Z & Z2 & LO) & PX & PY & PZ). split; [split; [|split; [|split; [|split]]]|split; [|split]]; unfold in_units; simpl.
  - apply Rmult_integral_contrapositive_currified; auto; lra.
  - apply Rmult_integral_contrapositive_currified; auto; lra.
  - intros D. apply Rmult_integral_contrapositive_currified; auto; lra.
  - intros D. rewrite Z2 by auto. ring.
  - rewrite LO. vec_ring.
  - apply Rmult_lt_0_compat; auto.
  - apply Rmult_lt_0_compat; auto.
  - intros D. apply Rmult_lt_0_compat; auto.
Qed.
Lemma planes_units : plane_distance (in_units a b) = vscale a (plane_distance b).
Proof. unfold plane_distance, in_units, Rdiv. cbn [b_L b_xy b_xz b_yz]. vec_ext; ring. Qed.
Lemma radius_units r : radius_ok b r -> radius_ok (in_units a b) (a * r).
Proof. intros (X & Y & Z). unfold radius_ok. rewrite planes_units. generalize dependent (plane_distance b). intros w X Y Z. unfold in_units. cbn [b_px b_py b_pz b_2d vscale vx vy vz]. split; [|split]; intros; [specialize (X H)|specialize (Y H)|specialize (Z H H0)]; nra. Qed.
Lemma volume_units : volume (in_units a b) = (if b_2d b then a ^ 2 else a ^ 3) * volume b.
Proof. unfold volume, in_units. simpl. destruct (b_2d b); ring. Qed.
End Units.
Lemma norm_scale c v : norm (vscale c v) = Rabs c * norm v.
Proof.
  unfold norm. replace (dot (vscale c v) (vscale c v)) with (Rsqr c * dot v v) by (unfold dot, Rsqr; simpl; ring).
  rewrite sqrt_mult; [rewrite sqrt_Rsqr_abs; auto|apply Rle_0_sqr|apply dot_nonneg].
Qed.
Lemma shift_add b i j k i' j' k' : vadd (shift b i j k) (shift b i' j' k') = shift b (i + i') (j + j') (k + k').
Proof. unfold shift, comb. rewrite !plus_IZR. vec_ext; ring. Qed.
Lemma allowed_comb b i j k i' j' k' i'' j'' k'' e : (e = 1 \/ e = -1)%Z -> allowed b i j k -> allowed b i' j' k' -> allowed b i'' j'' k'' -> allowed b (e * (i + i' - i'')) (e * (j + j' - j'')) (e * (k + k' - k'')).
Proof.
  intros _ (A & B & C & D) (A' & B' & C' & D') (A'' & B'' & C'' & D''). repeat split; intros H; [rewrite A, A', A'' by auto|rewrite B, B', B'' by auto|rewrite C, C', C'' by auto|rewrite D, D', D'' by auto]; ring.
Qed.

Lemma renumber_onto n h k : renumbers n h -> (k < n)%nat -> exists i, (i < n)%nat /\ h i = k.
Proof.
  intros (R1 & R2) Hk. assert (ND : NoDup (map h (seq 0 n))).
  { apply NoDup_nth with 0%nat. rewrite map_length, seq_length. intros i j Hi Hj. rewrite !(nth_indep _ 0%nat (h 0%nat)) by (rewrite map_length, seq_length; auto). rewrite !map_nth, !seq_nth by auto. apply R2; auto. }
  assert (IN : incl (map h (seq 0 n)) (seq 0 n)) by (intros x Hx; apply in_map_iff in Hx as (y & <- & Hy); apply in_seq in Hy; apply in_seq; split; [lia|]; simpl; apply R1; lia).
  assert (IC : incl (seq 0 n) (map h (seq 0 n))) by (apply NoDup_length_incl; auto; rewrite map_length; auto). assert (Hk' : In k (seq 0 n)) by (apply in_seq; lia). apply IC in Hk'. apply in_map_iff in Hk' as (i & E & Hi). apply in_seq in Hi. exists i. split; auto. lia.
Qed.

Section Same.
Variables (b : box) (c : R) (t : vec3) (f g : nat -> nat) (excl : bool) (points qs points' qs' : list vec3).
Hypothesis S : same_system b c t f g excl points qs points' qs'.
Hypothesis Hb : positive b.
Hypothesis HP : forall x, In x points -> in_cell b x.
Hypothesis HQ : forall x, In x qs -> in_cell b x.
Hypothesis HP' : forall x, In x points' -> in_cell (in_units (Rabs c) b) x.
Hypothesis HQ' : forall x, In x qs' -> in_cell (in_units (Rabs c) b) x.
Let a := Rabs c.
Let b' := in_units a b.
Lemma a_pos : 0 < a. Proof. apply Rabs_pos_lt, S. Qed.
Lemma unit_sign : exists e, (e = 1 \/ e = -1)%Z /\ a = IZR e * c.
Proof. unfold a, Rabs. destruct (Rcase_abs c); [exists (-1)%Z|exists 1%Z]; split; auto; ring. Qed.
(** Separations correspond. *)
Lemma sep_same i j i1 i2 i3 : (i < length qs)%nat -> (j < length points)%nat -> allowed b' i1 i2 i3 ->
  exists k1 k2 k3, allowed b k1 k2 k3 /\ sep b' points' (nth i qs' v0) j i1 i2 i3 = vscale c (sep b points (nth (g i) qs v0) (f j) k1 k2 k3).
Proof.
  intros Hi Hj HA. destruct (ss_points _ _ _ _ _ _ _ _ _ _ S) as (LP & (RP & _) & IP). destruct (ss_queries _ _ _ _ _ _ _ _ _ _ S) as (LQ & (RQ & _) & IQ).
  destruct (IP j Hj) as (p1 & p2 & p3 & AP & EP). destruct (IQ i Hi) as (q1 & q2 & q3 & AQ & EQ). fold a b' in AP, EP, AQ, EQ.
  destruct unit_sign as (e & He & Ee). apply allowed_units in HA, AP, AQ. exists (e * (i1 + q1 - p1))%Z, (e * (i2 + q2 - p2))%Z, (e * (i3 + q3 - p3))%Z.
  split; [apply allowed_comb; auto|]. unfold sep, b'. rewrite !flat_units.
  assert (FB := positive_units a b a_pos Hb). fold b' in FB.
  rewrite (flat_id b (nth (f j) points v0)) by (apply in_cell_space; auto; apply HP, nth_In; auto). rewrite (flat_id b (nth (g i) qs v0)) by (apply in_cell_space; auto; apply HQ, nth_In; auto).
  rewrite (flat_id b (nth j points' v0)) by (apply (in_cell_space b' _ FB), HP', nth_In; lia). rewrite (flat_id b (nth i qs' v0)) by (apply (in_cell_space b' _ FB), HQ', nth_In; lia).
  rewrite EP, EQ. unfold b'. rewrite !shift_units. unfold shift, comb. rewrite !mult_IZR, !minus_IZR, !plus_IZR. rewrite Ee.
  assert (E2 : IZR e * IZR e = 1) by (rewrite <- mult_IZR; destruct He as [-> | ->]; reflexivity). vec_ext; ring.
Qed.
(** And the other way round. *)
Lemma sep_back i j k1 k2 k3 : (i < length qs)%nat -> (j < length points)%nat -> allowed b k1 k2 k3 ->
  exists i1 i2 i3, allowed b' i1 i2 i3 /\ sep b' points' (nth i qs' v0) j i1 i2 i3 = vscale c (sep b points (nth (g i) qs v0) (f j) k1 k2 k3).
Proof.
  intros Hi Hj HA. destruct (ss_points _ _ _ _ _ _ _ _ _ _ S) as (LP & (RP & _) & IP). destruct (ss_queries _ _ _ _ _ _ _ _ _ _ S) as (LQ & (RQ & _) & IQ).
  destruct (IP j Hj) as (p1 & p2 & p3 & AP & EP). destruct (IQ i Hi) as (q1 & q2 & q3 & AQ & EQ). fold a b' in AP, EP, AQ, EQ.
  destruct unit_sign as (e & He & Ee). apply allowed_units in AP, AQ. exists (e * k1 + p1 - q1)%Z, (e * k2 + p2 - q2)%Z, (e * k3 + p3 - q3)%Z.
  split. { apply allowed_units. destruct HA as (A & B & C & D), AP as (A' & B' & C' & D'), AQ as (A'' & B'' & C'' & D''). repeat split; intros H; [rewrite A, A', A'' by auto|rewrite B, B', B'' by auto|rewrite C, C', C'' by auto|rewrite D, D', D'' by auto]; ring. }
  unfold sep, b'. rewrite !flat_units.
  assert (FB := positive_units a b a_pos Hb). fold b' in FB.
  rewrite (flat_id b (nth (f j) points v0)) by (apply in_cell_space; auto; apply HP, nth_In; auto). rewrite (flat_id b (nth (g i) qs v0)) by (apply in_cell_space; auto; apply HQ, nth_In; auto).
  rewrite (flat_id b (nth j points' v0)) by (apply (in_cell_space b' _ FB), HP', nth_In; lia). rewrite (flat_id b (nth i qs' v0)) by (apply (in_cell_space b' _ FB), HQ', nth_In; lia).
  rewrite EP, EQ. unfold b'. rewrite !shift_units. unfold shift, comb. rewrite !minus_IZR, !plus_IZR, !mult_IZR. rewrite Ee.
  assert (E2 : IZR e * IZR e = 1) by (rewrite <- mult_IZR; destruct He as [-> | ->]; reflexivity).
  vec_ext; ring_simplify; replace (IZR e ^ 2) with 1 by (rewrite <- E2; ring); ring.
Qed.
Lemma range_same i r rm x : (i < length qs)%nat -> 
  (in_range b points (nth (g i) qs v0) (g i) r rm excl all_images x <->
   exists x', in_range b' points' (nth i qs' v0) i (a * r) (a * rm) excl all_images x' /\ old_bond c f g x' = x).
Proof.
  intros Hi. assert (C0 : c <> 0) by apply S. assert (A0 := a_pos). destruct (ss_points _ _ _ _ _ _ _ _ _ _ S) as (LP & RP & IP).
  assert (NS : forall v, norm (vscale c v) = a * norm v) by (intros; apply norm_scale).
  assert (OB : forall j v, old_bond c f g (Bond i j (norm (vscale c v)) 1 (vscale c v)) = Bond (g i) (f j) (norm v) 1 v).
  { intros j v. unfold old_bond. cbn [bq bp bd bw bv]. rewrite NS. f_equal; [unfold a in *; field; lra|]. vec_ext; field; auto. }
  split.
  - intros (j & k1 & k2 & k3 & Hj & HA & _ & HE & HR & ->). destruct (renumber_onto _ _ _ RP Hj) as (j' & Hj' & <-).
    destruct (sep_back i j' k1 k2 k3 Hi Hj' HA) as (i1 & i2 & i3 & HA' & E). eexists. split; [exists j', i1, i2, i3; rewrite E, NS; split; [lia|split; [auto|split; [exact I|split; [|split; [|reflexivity]]]]]|].
    + intros [X ->]. apply HE. split; auto. apply (ss_excl _ _ _ _ _ _ _ _ _ _ S X); auto.
    + nra.
    + rewrite <- NS. apply OB.
  - intros (x' & (j & i1 & i2 & i3 & Hj & HA & _ & HE & HR & ->) & <-). rewrite LP in Hj. destruct (sep_same i j i1 i2 i3 Hi Hj HA) as (k1 & k2 & k3 & HA' & E).
    rewrite E in *. rewrite OB. exists (f j), k1, k2, k3. split; [apply RP; auto|]. split; auto. split; [exact I|]. split; [|split; auto; rewrite NS in HR; nra].
    intros [X Y]. apply HE. split; auto. apply (proj1 (ss_excl _ _ _ _ _ _ _ _ _ _ S X i j Hi Hj)); auto.
Qed.
End Same.
