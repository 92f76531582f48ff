(** Proofs about blocks of copies. *)
From Coq Require Import Reals ZArith List Permutation Lia Lra Psatz.
From Verif Require Import BoxProofs BoxProofs2 AABBProofs2 AABBProps QueryProps SymmProofs SymmProps SuperSpec.
From Verif Require Import BoxSpec QueryArgSpec QuerySpec.
Import ListNotations.
Local Open Scope R_scope.

Lemma steps_in n i : In i (steps n) <-> (0 <= i < n)%Z.
Proof.
  unfold steps. rewrite in_map_iff. split; [intros (m & <- & H); apply in_seq in H; lia|]. intros H. exists (Z.to_nat i). split; [lia|]. apply in_seq. lia.
Qed.
Lemma steps_length n : length (steps n) = Z.to_nat n.
Proof. unfold steps. rewrite map_length, seq_length. reflexivity. Qed.
Lemma block_in nx ny nz x y z : In (x, y, z) (block (nx, ny, nz)) <-> (0 <= x < nx /\ 0 <= y < ny /\ 0 <= z < nz)%Z.
Proof.
  unfold block. rewrite in_flat_map. split.
  - intros (i & Hi & H). apply in_flat_map in H as (j & Hj & H). apply in_map_iff in H as (k & E & Hk). apply steps_in in Hi, Hj, Hk. injection E as <- <- <-. auto.
  - intros (X & Y & Z). exists x. split; [apply steps_in; auto|]. apply in_flat_map. exists y. split; [apply steps_in; auto|]. apply in_map_iff. exists z. split; auto. apply steps_in; auto.
Qed.
Lemma flat_const {A B} (f : A -> list B) k l : (forall x, In x l -> length (f x) = k) -> length (flat_map f l) = (length l * k)%nat.
Proof. induction l as [|x l IH]; intros H; [reflexivity|]. simpl. rewrite app_length, H by (left; reflexivity). rewrite IH by (intros; apply H; right; assumption). reflexivity. Qed.
Lemma block_length n : (let '(nx, ny, nz) := n in (0 < nx /\ 0 < ny /\ 0 < nz)%Z) -> length (block n) = copies_number n.
Proof.
  destruct n as [[nx ny] nz]. intros (X & Y & Z). unfold block, copies_number. rewrite (flat_const _ (Z.to_nat ny * Z.to_nat nz)); [rewrite steps_length; rewrite !Z2Nat.inj_mul by nia; lia|].
  intros i _. rewrite (flat_const _ (Z.to_nat nz)); [rewrite steps_length; reflexivity|]. intros j _. rewrite map_length, steps_length. reflexivity.
Qed.

Lemma nodup_app {A} (l m : list A) : NoDup l -> NoDup m -> (forall x, In x l -> ~ In x m) -> NoDup (l ++ m).
Proof. induction 1 as [|x l N1 N2 IH]; intros M D; simpl; auto. constructor; [rewrite in_app_iff; intros [?|?]; [auto|apply (D x); simpl; auto]|]. apply IH; auto. intros y Hy. apply D. simpl; auto. Qed.
Lemma nodup_flat {A B} (h : A -> list B) l : NoDup l -> (forall x, In x l -> NoDup (h x)) -> (forall x y z, In x l -> In y l -> In z (h x) -> In z (h y) -> x = y) -> NoDup (flat_map h l).
Proof.
  induction 1 as [|x l N1 N2 IH]; intros H D; simpl; [constructor|]. apply nodup_app; [apply H; simpl; auto|apply IH; [intros; apply H; simpl; auto|intros; eapply D; simpl; eauto]|].
  intros z Hz K. apply in_flat_map in K as (y & Hy & K). assert (x = y) by (eapply D; simpl; eauto). subst. auto.
Qed.
Lemma steps_nodup n : NoDup (steps n).
Proof. unfold steps. apply map_nodup; [apply seq_NoDup|]. intros; lia. Qed.
Lemma block_nodup n : NoDup (block n).
Proof.
  destruct n as [[nx ny] nz]. unfold block. apply nodup_flat; [apply steps_nodup| |].
  - intros i _. apply nodup_flat; [apply steps_nodup|intros j _; apply map_nodup; [apply steps_nodup|congruence]|].
    intros j j' z _ _ H H'. apply in_map_iff in H as (? & <- & _). apply in_map_iff in H' as (? & E & _). congruence.
  - intros i i' z _ _ H H'. apply in_flat_map in H as (? & _ & H). apply in_flat_map in H' as (? & _ & H'). apply in_map_iff in H as (? & <- & _). apply in_map_iff in H' as (? & E & _). congruence.
Qed.
Lemma nodup_prod {A B} (l : list A) (m : list B) : NoDup l -> NoDup m -> NoDup (list_prod l m).
Proof.
  intros L M. induction L as [|x l N1 N2 IH]; simpl; [constructor|]. apply nodup_app; auto; [apply map_nodup; auto; congruence|].
  intros z H K. apply in_map_iff in H as (y & <- & _). apply in_prod_iff in K. tauto.
Qed.
Lemma nodup_map_inj {A B} (h : A -> B) l x y : NoDup (map h l) -> In x l -> In y l -> h x = h y -> x = y.
Proof.
  induction l as [|u l IH]; simpl; intros N Hx Hy E; [destruct Hx|]. inversion N as [|? ? N1 N2]; subst.
  destruct Hx as [->|Hx], Hy as [->|Hy]; auto; exfalso; apply N1; [rewrite E|rewrite <- E]; apply in_map; auto.
Qed.

Section Super.
Variables (n : Z * Z * Z) (b b' : box).
Hypothesis SB : super_box n b b'.
Hypothesis Hb : positive b.
Hypothesis FP : fully_periodic b.
Hypothesis Hb' : positive b'.
Lemma planar : b_2d b' = b_2d b. Proof. destruct n as [[nx ny] nz]. apply SB. Qed.
Lemma allowed_both i j k : allowed b i j k <-> allowed b' i j k.
Proof.
  destruct FP as (F1 & F2 & F3). assert (G : fully_periodic b') by (destruct n as [[nx ny] nz]; apply SB). destruct G as (G1 & G2 & G3). unfold allowed. rewrite planar, F1, F2, F3, G1, G2, G3. tauto.
Qed.
Definition times (n : Z * Z * Z) (i j k : Z) : Z * Z * Z := let '(nx, ny, nz) := n in (nx * i, ny * j, nz * k)%Z.
Lemma shift_super i j k : shift b' i j k = move b (times n i j k).
Proof.
  destruct n as [[nx ny] nz]. destruct SB as (_ & _ & E1 & E2 & E3 & E4 & E5 & E6 & _). unfold times, move, shift, comb, a1, a2, a3. rewrite E1, E2, E3, E4, E5, E6, !mult_IZR. vec_ext; ring.
Qed.
Lemma allowed_2d i j k : allowed b i j k <-> (b_2d b = true -> k = 0%Z).
Proof. destruct FP as (F1 & F2 & F3). unfold allowed. rewrite F1, F2, F3. intuition discriminate. Qed.
Lemma flat_both p : flat b' p = flat b p. Proof. unfold flat. rewrite planar. reflexivity. Qed.
Lemma space_both p : in_space b' p <-> in_space b p. Proof. unfold in_space. rewrite planar. tauto. Qed.
Lemma planes_super : exists x y z, 1 <= x /\ 1 <= y /\ 1 <= z /\ plane_distance b' = V3 (x * vx (plane_distance b)) (y * vy (plane_distance b)) (z * vz (plane_distance b)).
Proof.
  destruct n as [[nx ny] nz]. destruct SB as ((X & Y & Z) & _ & E1 & E2 & E3 & E4 & E5 & E6 & _). exists (IZR nx), (IZR ny), (IZR nz). repeat (split; [apply IZR_le; lia|]).
  unfold plane_distance, Rdiv. rewrite E1, E2, E3, E4, E5, E6. cbn [vx vy vz]. vec_ext; ring.
Qed.
Lemma radius_super r : 0 <= r -> radius_ok b r -> radius_ok b' r.
Proof.
  intros R0 (X & Y & Z). destruct planes_super as (x & y & z & Hx & Hy & Hz & E). destruct FP as (F1 & F2 & F3). specialize (X F1). specialize (Y F2). unfold radius_ok. rewrite E, planar. cbn [vx vy vz].
  clear E. set (w := plane_distance b) in *. clearbody w. split; [|split]; intros; [nra|nra|specialize (Z H F3); nra].
Qed.
Lemma volume_super : volume b' = INR (copies_number n) * volume b.
Proof.
  assert (P2 := planar). destruct n as [[nx ny] nz]. destruct SB as ((X & Y & Z) & N2 & E1 & E2 & E3 & _). unfold volume, copies_number. rewrite P2, E1, E2, E3. rewrite INR_IZR_INZ, Z2Nat.id by nia. rewrite !mult_IZR.
  destruct (b_2d b) eqn:D; [|ring]. rewrite (N2 eq_refl). ring.
Qed.

(** Copies with the same number in the block differ by a vector of the lattice of the block. *)
Lemma copy_same k1 k2 : (b_2d b = true -> snd k1 = 0%Z /\ snd k2 = 0%Z) -> copy_of n k1 = copy_of n k2 -> exists i j l, allowed b i j l /\ move b k1 = vadd (move b k2) (shift b' i j l).
Proof.
  intros D E. destruct k1 as [[x1 y1] z1], k2 as [[x2 y2] z2]. assert (S1 := shift_super). destruct n as [[nx ny] nz]. destruct SB as ((X & Y & Z) & N2 & _). unfold copy_of in E. injection E as EX EY EZ.
  assert (Q : forall m u v, (0 < m)%Z -> (u mod m = v mod m)%Z -> exists q, u = (v + m * q)%Z).
  { intros m u v Hm E. exists (u / m - v / m)%Z. rewrite (Z_div_mod_eq_full u m) at 1. rewrite (Z_div_mod_eq_full v m) at 1. rewrite E. ring. }
  destruct (Q nx x1 x2 X EX) as (q1 & ->). destruct (Q ny y1 y2 Y EY) as (q2 & ->). destruct (Q nz z1 z2 Z EZ) as (q3 & Q3). exists q1, q2, q3. split.
  - apply allowed_2d. intros D2. destruct (D D2) as [D3 D4]. simpl in D3, D4. rewrite (N2 D2) in Q3. lia.
  - rewrite S1. subst z1. unfold times, move, shift, comb. rewrite !plus_IZR, !mult_IZR. vec_ext; ring.
Qed.
Lemma copy_differ k1 k2 i j l : (b_2d b = true -> snd k1 = 0%Z /\ snd k2 = 0%Z) -> allowed b i j l -> move b k1 = vadd (move b k2) (shift b' i j l) -> copy_of n k1 = copy_of n k2.
Proof.
  intros D A E. rewrite shift_super in E. destruct k1 as [[x1 y1] z1], k2 as [[x2 y2] z2]. destruct n as [[nx ny] nz]. destruct SB as ((X & Y & Z) & N2 & _). unfold times, move in E. rewrite shift_add in E. rewrite allowed_2d in A.
  apply (AABBProofs2.shift_inj b) in E; [|apply Hb|apply allowed_2d; intros D2; apply D in D2; simpl in D2; tauto|apply allowed_2d; intros D2; rewrite (A D2); apply D in D2; simpl in D2; lia].
  injection E as -> -> ->. unfold copy_of. rewrite !(Z.mul_comm _ i), !(Z.mul_comm _ j), !(Z.mul_comm _ l), !Z_mod_plus_full. reflexivity.
Qed.

Section Copies.
Variables (t : vec3) (f : nat -> nat) (k : nat -> Z * Z * Z) (ps ps' : list vec3).
Hypothesis RP : replicated n b b' t f k ps ps'.
Lemma copies_count : length ps' = (copies_number n * length ps)%nat.
Proof.
  destruct RP as (_ & _ & P). apply Permutation_length in P. rewrite map_length, seq_length, prod_length, seq_length, block_length in P; [lia|]. destruct n as [[nx ny] nz]. apply SB.
Qed.
Lemma copy_range j : (j < length ps')%nat -> (f j < length ps)%nat.
Proof.
  intros Hj. destruct RP as (_ & _ & P). assert (H : In (f j, copy_of n (k j)) (map (fun j => (f j, copy_of n (k j))) (seq 0 (length ps')))) by (apply in_map_iff; exists j; split; auto; apply in_seq; lia).
  apply (Permutation_in _ P) in H. apply in_prod_iff in H as [H _]. apply in_seq in H. lia.
Qed.
Lemma copy_inj i j : (i < length ps')%nat -> (j < length ps')%nat -> f i = f j -> copy_of n (k i) = copy_of n (k j) -> i = j.
Proof.
  intros Hi Hj E1 E2. destruct RP as (_ & _ & P). apply (nodup_map_inj (fun j => (f j, copy_of n (k j))) (seq 0 (length ps'))); [|apply in_seq; lia|apply in_seq; lia|congruence].
  eapply Permutation_NoDup; [apply Permutation_sym; exact P|]. apply nodup_prod; [apply seq_NoDup|apply block_nodup].
Qed.
Lemma copy_exists j x y z : (j < length ps)%nat -> exists i, (i < length ps')%nat /\ f i = j /\ copy_of n (k i) = copy_of n (x, y, z).
Proof.
  intros Hj. destruct RP as (_ & _ & P). assert (H : In (j, copy_of n (x, y, z)) (list_prod (seq 0 (length ps)) (block n))).
  { apply in_prod; [apply in_seq; lia|]. destruct n as [[nx ny] nz]. destruct SB as ((X & Y & Z) & _). apply block_in. repeat split; apply Z.mod_pos_bound; auto. }
  apply (Permutation_in _ (Permutation_sym P)) in H. apply in_map_iff in H as (i & E & Hi). apply in_seq in Hi. exists i. injection E as E1 E2. repeat split; auto. lia.
Qed.
(** Two particles of the block that copy the same particle and differ by a lattice vector of the block are the same. *)
Lemma same_copy i j x y z : (i < length ps')%nat -> (j < length ps')%nat -> f i = f j -> allowed b x y z -> nth i ps' v0 = vadd (nth j ps' v0) (shift b' x y z) -> i = j.
Proof.
  intros Hi Hj E A EV. apply copy_inj; auto. destruct RP as (I & D & _). destruct (I i Hi) as (i1 & i2 & i3 & AI & EI), (I j Hj) as (j1 & j2 & j3 & AJ & EJ). rewrite EI, EJ, E in EV.
  apply (copy_differ _ _ (x + j1 - i1) (y + j2 - i2) (z + j3 - i3)); auto.
  - apply allowed_both in AI, AJ. rewrite allowed_2d in *. intros D2. rewrite A, AI, AJ by auto. reflexivity.
  - assert (G : forall p q r s u w : vec3, vadd (vadd p q) r = vadd (vadd (vadd p s) u) w -> q = vadd s (vadd u (vsub w r))).
    { intros p q r s u w G. assert (G1 := f_equal vx G). assert (G2 := f_equal vy G). assert (G3 := f_equal vz G). simpl in *. vec_ext; lra. }
    apply G in EV. rewrite EV. f_equal. unfold shift, comb. rewrite !minus_IZR, !plus_IZR. vec_ext; ring.
Qed.
End Copies.

Section Same.
Variables (t : vec3) (f g : nat -> nat) (k l : nat -> Z * Z * Z) (excl : bool) (points qs points' qs' : list vec3).
Hypothesis RP : replicated n b b' t f k points points'.
Hypothesis RQ : replicated n b b' t g l qs qs'.
Hypothesis EX : excl = true -> points = qs /\ points' = qs' /\ f = g.
Hypothesis HP : forall x, In x points -> in_cell b x.
Hypothesis HQ : forall x, In x qs -> in_cell b x.
Hypothesis HP' : forall x, In x points' -> in_cell b' x.
Hypothesis HQ' : forall x, In x qs' -> in_cell b' x.
Lemma sep_super i j i1 i2 i3 : (i < length qs')%nat -> (j < length points')%nat -> allowed b' i1 i2 i3 ->
  exists k1 k2 k3, allowed b k1 k2 k3 /\ sep b' points' (nth i qs' v0) j i1 i2 i3 = sep b points (nth (g i) qs v0) (f j) k1 k2 k3.
Proof.
  intros Hi Hj HA. assert (Hf := copy_range _ _ _ _ _ RP j Hj). assert (Hg := copy_range _ _ _ _ _ RQ i Hi).
  destruct RP as (IP & DP & _). destruct RQ as (IQ & DQ & _). destruct (IP j Hj) as (p1 & p2 & p3 & AP & EP). destruct (IQ i Hi) as (q1 & q2 & q3 & AQ & EQ). specialize (DP j Hj). specialize (DQ i Hi).
  unfold sep. rewrite !flat_both.
  rewrite (flat_id b (nth (f j) points v0)) by (apply in_cell_space; auto; apply HP, nth_In; auto). rewrite (flat_id b (nth (g i) qs v0)) by (apply in_cell_space; auto; apply HQ, nth_In; auto).
  rewrite (flat_id b (nth j points' v0)) by (apply space_both; apply in_cell_space; auto; apply HP', nth_In; auto). rewrite (flat_id b (nth i qs' v0)) by (apply space_both; apply in_cell_space; auto; apply HQ', nth_In; auto).
  rewrite EP, EQ, !shift_super. apply allowed_both in HA, AP, AQ. rewrite allowed_2d in HA, AP, AQ. destruct (k j) as [[x y] z], (l i) as [[x' y'] z']. simpl in DP, DQ. destruct n as [[nx ny] nz]. unfold times, move.
  exists (nx * (i1 + q1 - p1) + x' - x)%Z, (ny * (i2 + q2 - p2) + y' - y)%Z, (nz * (i3 + q3 - p3) + z' - z)%Z. split.
  - apply allowed_2d. intros D2. rewrite HA, AP, AQ, DP, DQ by auto. ring.
  - unfold shift, comb. rewrite !minus_IZR, !plus_IZR, !mult_IZR, ?minus_IZR, ?plus_IZR. vec_ext; ring.
Qed.
Lemma sep_found i j k1 k2 k3 : (i < length qs')%nat -> (j < length points)%nat -> allowed b k1 k2 k3 ->
  exists j' i1 i2 i3, (j' < length points')%nat /\ f j' = j /\ allowed b' i1 i2 i3 /\ sep b' points' (nth i qs' v0) j' i1 i2 i3 = sep b points (nth (g i) qs v0) j k1 k2 k3.
Proof.
  intros Hi Hj HA. assert (Hg := copy_range _ _ _ _ _ RQ i Hi). destruct (l i) as [[x' y'] z'] eqn:El. destruct (copy_exists _ _ _ _ _ RP j (x' - k1) (y' - k2) (z' - k3) Hj) as (j' & Hj' & Ef & Ec).
  destruct RP as (IP & DP & _). destruct RQ as (IQ & DQ & _). destruct (IP j' Hj') as (p1 & p2 & p3 & AP & EP). destruct (IQ i Hi) as (q1 & q2 & q3 & AQ & EQ). specialize (DP j' Hj'). specialize (DQ i Hi). rewrite El in *. simpl in DQ. rewrite allowed_2d in HA.
  apply copy_same in Ec as (m1 & m2 & m3 & AM & EM); [|intros D2; split; [auto|simpl; rewrite DQ, HA by auto; reflexivity]].
  exists j', (m1 + p1 - q1)%Z, (m2 + p2 - q2)%Z, (m3 + p3 - q3)%Z. split; [exact Hj'|]. split; [exact Ef|]. apply allowed_both in AP, AQ. rewrite allowed_2d in AP, AQ, AM. split.
  - apply allowed_both, allowed_2d. intros D2. rewrite AP, AQ, AM by auto. reflexivity.
  - unfold sep. rewrite !flat_both.
    rewrite (flat_id b (nth j points v0)) by (apply in_cell_space; auto; apply HP, nth_In; auto). rewrite (flat_id b (nth (g i) qs v0)) by (apply in_cell_space; auto; apply HQ, nth_In; auto).
    rewrite (flat_id b (nth j' points' v0)) by (apply space_both; apply in_cell_space; auto; apply HP', nth_In; auto). rewrite (flat_id b (nth i qs' v0)) by (apply space_both; apply in_cell_space; auto; apply HQ', nth_In; auto).
    rewrite EP, EQ, Ef, EM. unfold move, shift, comb. rewrite !minus_IZR, !plus_IZR. vec_ext; ring.
Qed.
Lemma half_heights r w : radius_ok b r -> norm w < r -> shorter_than_half_heights b w.
Proof. intros (X & Y & Z) H. unfold shorter_than_half_heights. repeat split; intros; [specialize (X H0)|specialize (Y H0)|specialize (Z H0 H1)]; lra. Qed.
Lemma sep_flat i j i1 i2 i3 : (i < length qs')%nat -> (j < length points')%nat -> sep b' points' (nth i qs' v0) j i1 i2 i3 = vsub (nth j points' v0) (vadd (nth i qs' v0) (shift b' i1 i2 i3)).
Proof.
  intros Hi Hj. unfold sep. rewrite (flat_id b' (nth j points' v0)) by (apply in_cell_space; auto; apply HP', nth_In; auto). rewrite (flat_id b' (nth i qs' v0)) by (apply in_cell_space; auto; apply HQ', nth_In; auto). reflexivity.
Qed.
Lemma range_super i r rm x : (i < length qs')%nat -> 0 <= rm -> radius_ok b r ->
  (in_range b points (nth (g i) qs v0) (g i) r rm excl all_images x <-> exists x', in_range b' points' (nth i qs' v0) i r rm excl all_images x' /\ home f g x' = x).
Proof.
  intros Hi R0 RO. split.
  - intros (j & k1 & k2 & k3 & Hj & HA & _ & HE & HR & ->). destruct (sep_found i j k1 k2 k3 Hi Hj HA) as (j' & i1 & i2 & i3 & Hj' & Ef & HA' & E).
    eexists. split; [exists j', i1, i2, i3; rewrite E; split; [exact Hj'|split; [exact HA'|split; [exact I|split; [|split; [exact HR|reflexivity]]]]]|].
    + intros [X ->]. apply HE. split; auto. destruct (EX X) as (_ & _ & <-). exact Ef.
    + unfold home. cbn [bq bp bd bw bv]. rewrite Ef. reflexivity.
  - intros (x' & (j & i1 & i2 & i3 & Hj & HA & _ & HE & HR & ->) & <-). destruct (sep_super i j i1 i2 i3 Hi Hj HA) as (k1 & k2 & k3 & HA' & E). assert (Hf := copy_range _ _ _ _ _ RP j Hj).
    exists (f j), k1, k2, k3. rewrite E in *. split; [exact Hf|]. split; [exact HA'|]. split; [exact I|]. split; [|split; [exact HR|reflexivity]].
    intros [X Y]. apply HE. split; auto. destruct (EX X) as (Ep & Ep' & Eg). set (w := sep b points (nth (g i) qs v0) (f j) k1 k2 k3) in *.
    assert (S0 : in_space b v0) by (intros _; reflexivity). assert (SP : in_space b (nth (f j) points v0)) by (apply in_cell_space; auto; apply HP, nth_In; auto).
    assert (Ew : w = v0).
    { destruct (min_image b v0 w Hb S0) as [M _]; [|apply (half_heights r); tauto|].
      - unfold w. rewrite Y, <- Ep. unfold sep. rewrite (flat_id b _ SP). exists (- k1)%Z, (- k2)%Z, (- k3)%Z. rewrite allowed_2d in *. split; [intros D2; rewrite HA' by auto; reflexivity|]. unfold shift, comb. rewrite !opp_IZR. vec_ext; ring.
      - destruct (min_image b v0 v0 Hb S0) as [M0 _]; [|apply (half_heights r); [exact RO|]|congruence].
        + exists 0%Z, 0%Z, 0%Z. split; [rewrite allowed_2d; auto|]. unfold shift, comb. vec_ext; ring.
        + replace (norm v0) with 0; [lra|]. unfold norm, dot. simpl. replace (0 * 0 + 0 * 0 + 0 * 0) with 0 by ring. symmetry. apply sqrt_0. }
    rewrite Ew, sep_flat in E by auto. symmetry. apply (same_copy t f k points points' RP j i i1 i2 i3); auto; [rewrite Ep'; auto|rewrite <- Y, Eg; reflexivity|apply allowed_both; exact HA|]. rewrite Ep' at 2.
    assert (E1 := f_equal vx E). assert (E2 := f_equal vy E). assert (E3 := f_equal vz E). simpl in E1, E2, E3. vec_ext; lra.
Qed.
Lemma home_inj i r rm x y : (i < length qs')%nat -> in_range b' points' (nth i qs' v0) i r rm excl all_images x -> in_range b' points' (nth i qs' v0) i r rm excl all_images y -> home f g x = home f g y -> x = y.
Proof.
  intros Hi (j & i1 & i2 & i3 & Hj & HA & _ & _ & _ & ->) (j2 & l1 & l2 & l3 & Hj2 & HA2 & _ & _ & _ & ->) E. rewrite (sep_flat i j), (sep_flat i j2) in * by auto.
  assert (E1 := f_equal bp E). assert (E2 := f_equal bv E). cbn [home bp bv] in E1, E2. clear E.
  assert (j = j2).
  { apply allowed_both in HA, HA2. rewrite allowed_2d in HA, HA2. apply (same_copy t f k points points' RP j j2 (i1 - l1) (i2 - l2) (i3 - l3)); auto; [apply allowed_2d; intros D2; rewrite HA, HA2 by auto; reflexivity|].
    assert (X := f_equal vx E2). assert (Y := f_equal vy E2). assert (Z := f_equal vz E2). unfold shift, comb in *. rewrite !minus_IZR. simpl in X, Y, Z. vec_ext; lra. }
  subst j2. rewrite E2. reflexivity.
Qed.
End Same.
End Super.
