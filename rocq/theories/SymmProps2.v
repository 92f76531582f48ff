(** C89 continued: local densities, clusters and bond-orientational order do not depend on the description of the system. *)
From Coq Require Import Reals ZArith List Permutation Lia Lra Psatz.
From Verif Require Import FilterProps BoxProofs BoxProps AABBProofs2 AABBProps LinkCellProps QueryProps RdfProps ParProofs SymmProofs SymmProps LocalDensProps DsetProps ClusterProps HexProps.
From Verif Require LinkCellSpec.
From Verif Require Import ClusterModel.
From Verif Require Import SymmSpec LocalDensSpec DsetSpec ClusterSpec HexSpec.
From Verif Require Import BoxSpec QueryArgSpec QuerySpec RdfShell.
Import ListNotations.
Local Open Scope R_scope.

(** * LocalDensity *)
Lemma inside_units a r D d : 0 < a -> 0 < D -> inside (a * r) (a * D) d = inside r D (d / a).
Proof. intros A HD. unfold inside. f_equal. field. lra. Qed.
Lemma lrsum_perm l l' : Permutation l l' -> LocalDensSpec.rsum l = LocalDensSpec.rsum l'.
Proof. unfold LocalDensSpec.rsum. induction 1; simpl; lra. Qed.
(** The neighbour counts are the same; the densities change by the volume of the unit. *)
Theorem C89_local_density a c f g r D l l' two_d nq ls ls' ev ev' num dens num' dens' : c <> 0 -> a = Rabs c ->
  ldn_make r D = Some l -> ldn_make (a * r) (a * D) = Some l' -> renumbers nq g -> same_bonds c f g nq ls ls' ->
  execution 0 nq ev -> execution 0 nq ev' ->
  ldn_compute l two_d nq (fun i => nth i ls []) ev = (num, dens) -> ldn_compute l' two_d nq (fun i => nth i ls' []) ev' = (num', dens') ->
  forall i, (i < nq)%nat -> 0 < D \/ (forall x, In x (nth (g i) ls []) -> bd x < r) -> exists n v,
    nth (g i) num None = Some n /\ nth i num' None = Some n /\ nth (g i) dens None = Some v /\ nth i dens' None = Some (v / (if two_d then a ^ 2 else a ^ 3)).
Proof.
  intros C0 Ea Mk Mk' R SB He He' E E' i Hi Hc. assert (A : 0 < a) by (rewrite Ea; apply Rabs_pos_lt; auto).
  assert (V := C51_values r D l two_d nq (fun i => nth i ls []) ev Mk He). rewrite E in V. assert (V' := C51_values (a * r) (a * D) l' two_d nq (fun i => nth i ls' []) ev' Mk' He'). rewrite E' in V'.
  destruct V as (_ & _ & V), V' as (_ & _ & V'). destruct (V (g i)) as (n & v & N1 & N2 & N3 & N4 & N5); [apply R; auto|auto|].
  assert (P := SB i Hi). assert (DP : Permutation (map (fun x => bd x / a) (nth i ls' [])) (map bd (nth (g i) ls []))).
  { apply (Permutation_map bd) in P. rewrite map_map in P. simpl in P. rewrite <- Ea in P. exact P. }
  assert (Rp : 0 < r /\ 0 <= D). { assert (K : ~ ldn_make r D = None) by congruence. rewrite C51_reject in K. split; [apply Rnot_le_lt; tauto|apply Rnot_lt_le; tauto]. }
  destruct (V' i Hi) as (n' & v' & M1 & M2 & M3 & M4 & M5).
  { destruct Hc as [Hc|Hc]; [left; apply Rmult_lt_0_compat; auto|right]. intros x Hx. assert (K : In (bd x / a) (map bd (nth (g i) ls []))) by (eapply Permutation_in; [exact DP|]; apply in_map_iff; eauto).
    apply in_map_iff in K as (y & Ey & Hy). specialize (Hc y Hy). rewrite Ey in Hc. apply (Rmult_lt_compat_l a) in Hc; auto. replace (a * (bd x / a)) with (bd x) in Hc by (field; lra). exact Hc. }
  assert (En : n' = n).
  { destruct (Rle_lt_or_eq_dec 0 D) as [H|H]; [apply Rp| |].
    - rewrite M4, N4 by (auto; apply Rmult_lt_0_compat; auto). rewrite <- (map_map bd (inside r D)), <- (lrsum_perm _ _ (Permutation_map (inside r D) DP)). rewrite map_map. f_equal. apply map_ext. intros x. apply inside_units; auto.
    - rewrite M5, N5 by (auto; rewrite <- H; ring). apply Permutation_length in P. rewrite map_length in P. congruence. }
  rewrite En in M1, M3. exists n, v. split; [exact N1|]. split; [exact M1|]. split; [exact N2|]. rewrite M2. f_equal.
  replace (shell two_d 0 (a * r)) with ((if two_d then a ^ 2 else a ^ 3) * shell two_d 0 r) in M3 by (rewrite <- shell_units; f_equal; ring).
  assert (SP : 0 < shell two_d 0 r) by (apply shell_pos; lra). set (sh := shell two_d 0 r) in *. assert (AP : 0 < (if two_d then a ^ 2 else a ^ 3)) by (destruct two_d; apply pow_lt; auto).
  set (ap := if two_d then a ^ 2 else a ^ 3) in *. apply Rmult_eq_reg_r with (ap * sh); [|apply Rgt_not_eq, Rmult_lt_0_compat; auto]. rewrite M3, <- N3. field. lra.
Qed.
Print Assumptions C89_local_density.

(** * Cluster *)
Definition pairs_of (ls : list (list bond)) (n : nat) : list (nat * nat) := map (fun x => (bq x, bp x)) (flat_map (fun i => nth i ls []) (seq 0 n)).
Section Classes.
Local Open Scope nat_scope.
Variables (n : nat) (f : nat -> nat).
Hypothesis R : renumbers n f.
Lemma connected_bound l : (forall p q, In (p, q) l -> p < n /\ q < n) -> forall u v, connected l u v -> u < n <-> v < n.
Proof. intros B u v H. induction H as [u v H|u|u v _ IH|u v w _ IH1 _ IH2]; [apply B in H; lia|tauto|tauto|tauto]. Qed.
Lemma connected_map l l' : (forall p q, In (p, q) l' -> In (f p, f q) l) -> forall u v, connected l' u v -> connected l (f u) (f v).
Proof. intros M u v H. induction H as [u v H|u|u v _ IH|u v w _ IH1 _ IH2]; [apply connected_in; auto|apply connected_refl|apply connected_sym; auto|eapply connected_trans; eauto]. Qed.
Lemma connected_back l l' : (forall p q, In (p, q) l -> p < n /\ q < n) -> (forall p q, p < n -> q < n -> In (f p, f q) l -> In (p, q) l') ->
  forall u v, connected l u v -> forall i j, i < n -> j < n -> f i = u -> f j = v -> connected l' i j.
Proof.
  intros B M u v H. induction H as [u v H|u|u v H IH|u v w H1 IH1 H2 IH2]; intros i j Hi Hj Ei Ej.
  - apply connected_in. apply M; auto. subst. auto.
  - assert (i = j) as -> by (apply R; congruence). apply connected_refl.
  - apply connected_sym. eapply IH; eauto.
  - assert (Hv : v < n). { apply (connected_bound l B u v H1). subst u. apply R; auto. } destruct (renumber_onto n f v R Hv) as (k & Hk & Ek). eapply connected_trans; [eapply IH1|eapply IH2]; eauto.
Qed.
End Classes.
Lemma classes_le n (h : nat -> nat) num1 idx1 num2 idx2 : (forall i, (i < n)%nat -> (h i < n)%nat) ->
  (forall i j, (i < n)%nat -> (j < n)%nat -> idx2 (h i) = idx2 (h j) -> idx1 i = idx1 j) ->
  (forall c, (c < num1)%nat -> exists i, (i < n)%nat /\ idx1 i = c) -> (forall i, (i < n)%nat -> (idx2 i < num2)%nat) -> (num1 <= num2)%nat.
Proof.
  intros H I S B. set (rep := fun c => hd 0%nat (members n idx1 c)).
  assert (RP : forall c, (c < num1)%nat -> (rep c < n)%nat /\ idx1 (rep c) = c).
  { intros c Hc. destruct (S c Hc) as (i & Hi & E). assert (K : In i (members n idx1 c)) by (apply members_in; auto). unfold rep. destruct (members n idx1 c) as [|k l] eqn:EM; [destruct K|]. simpl. apply members_in. rewrite EM. simpl; auto. }
  rewrite <- (seq_length num1 0), <- (seq_length num2 0), <- (map_length (fun c => idx2 (h (rep c)))). apply NoDup_incl_length.
  - apply map_nodup; [apply seq_NoDup|]. intros x y Hx Hy E. apply in_seq in Hx, Hy. destruct (RP x) as [X1 X2]; [lia|]. destruct (RP y) as [Y1 Y2]; [lia|]. rewrite <- X2, <- Y2. apply I; auto.
  - intros x Hx. apply in_map_iff in Hx as (c & <- & Hc). apply in_seq in Hc. apply in_seq. destruct (RP c) as [X1 _]; [lia|]. specialize (B (h (rep c)) (H _ X1)). lia.
Qed.
(** The clusters have the same members, number and sizes; if the particles keep their numbers the whole result is the same. *)
Theorem C89_cluster c f n ls ls' threads threads' keys r r' : renumbers n f -> same_bonds c f f n ls ls' ->
  (forall p q, In (p, q) (pairs_of ls n) -> (p < n /\ q < n)%nat) -> (forall p q, In (p, q) (pairs_of ls' n) -> (p < n /\ q < n)%nat) ->
  Permutation (pairs_of ls n) (concat threads) -> Permutation (pairs_of ls' n) (concat threads') ->
  cluster_run n threads keys r -> cluster_run n threads' keys r' ->
  cr_num r' = cr_num r /\
  (forall i j, (i < n)%nat -> (j < n)%nat -> cr_idx r' i = cr_idx r' j <-> cr_idx r (f i) = cr_idx r (f j)) /\
  (forall i, (i < n)%nat -> size n (cr_idx r') (cr_idx r' i) = size n (cr_idx r) (cr_idx r (f i))) /\
  ((forall i, (i < n)%nat -> f i = i) -> forall i, (i < n)%nat -> cr_idx r' i = cr_idx r i).
Proof.
  intros R SB B B' P P' Run Run'. assert (PP : Permutation (map (fun x => (f (fst x), f (snd x))) (pairs_of ls' n)) (pairs_of ls n)).
  { unfold pairs_of. rewrite <- (Permutation_map (fun x => (bq x, bp x)) (all_bonds_same c f f n ls ls' R SB)). rewrite !map_map. apply Permutation_refl. }
  assert (F1 : forall p q, In (p, q) (pairs_of ls' n) -> In (f p, f q) (pairs_of ls n)) by (intros p q H; eapply Permutation_in; [exact PP|]; apply in_map_iff; exists (p, q); auto).
  assert (F2 : forall p q, (p < n)%nat -> (q < n)%nat -> In (f p, f q) (pairs_of ls n) -> In (p, q) (pairs_of ls' n)).
  { intros p q Hp Hq H. apply (Permutation_in _ (Permutation_sym PP)) in H. apply in_map_iff in H as ((p' & q') & E & H). destruct (B' _ _ H) as [H1 H2]. injection E as E1 E2. apply R in E1, E2; auto. subst. auto. }
  assert (C := C39_components n _ _ _ _ B P Run). assert (C' := C39_components n _ _ _ _ B' P' Run'). destruct R as [R1 R2]. assert (R : renumbers n f) by (split; auto).
  assert (CC : forall i j, (i < n)%nat -> (j < n)%nat -> cr_idx r' i = cr_idx r' j <-> cr_idx r (f i) = cr_idx r (f j)).
  { intros i j Hi Hj. rewrite C, C' by auto. split; [apply connected_map; auto|]. intros H. eapply (connected_back n f R _ _ B F2); eauto. }
  destruct (C40_numbering n _ _ _ _ B P Run) as (_ & N2 & N3 & _). destruct (C40_numbering n _ _ _ _ B' P' Run') as (_ & N2' & N3' & _).
  split; [|split; [exact CC|split]].
  - apply Nat.le_antisymm.
    + apply (classes_le n f _ (cr_idx r') _ (cr_idx r)); auto. intros i j Hi Hj. apply CC; auto.
    + set (inv := fun k => hd 0%nat (filter (fun i => Nat.eqb (f i) k) (seq 0 n))).
      assert (IV : forall k, (k < n)%nat -> (inv k < n)%nat /\ f (inv k) = k).
      { intros k Hk. destruct (renumber_onto n f k R Hk) as (i & Hi & E). assert (K : In i (filter (fun i => Nat.eqb (f i) k) (seq 0 n))) by (apply filter_In; rewrite in_seq, Nat.eqb_eq; auto with arith).
        unfold inv. destruct (filter _ _) as [|y l] eqn:EM; [destruct K|]. assert (K2 : In y (y :: l)) by (simpl; auto). rewrite <- EM in K2. apply filter_In in K2. rewrite in_seq, Nat.eqb_eq in K2. simpl. lia. }
      apply (classes_le n inv _ (cr_idx r) _ (cr_idx r')); auto; [intros; apply IV; auto|]. intros i j Hi Hj H. destruct (IV i Hi) as [I1 I2], (IV j Hj) as [J1 J2]. rewrite <- I2, <- J2. apply CC; auto.
  - intros i Hi. unfold size. rewrite <- (map_length f). apply Permutation_length, NoDup_Permutation.
    + apply map_nodup; [apply NoDup_filter, seq_NoDup|]. intros x y Hx Hy. apply members_in in Hx, Hy. apply R2; tauto.
    + apply NoDup_filter, seq_NoDup.
    + intros k. rewrite in_map_iff. rewrite members_in. split.
      * intros (x & <- & Hx). apply members_in in Hx as [Hx E]. split; auto. apply CC; auto.
      * intros [Hk E]. destruct (renumber_onto n f k R Hk) as (x & Hx & <-). exists x. split; auto. apply members_in. split; auto. apply CC; auto.
  - intros Id. assert (Q : forall u v, connected (pairs_of ls' n) u v <-> connected (pairs_of ls n) u v).
    { apply connected_perm. rewrite <- PP. assert (E : map (fun x => (f (fst x), f (snd x))) (pairs_of ls' n) = pairs_of ls' n); [|rewrite E; apply Permutation_refl].
      rewrite <- map_id. apply map_ext_in. intros (p & q) H. destruct (B' _ _ H). simpl. rewrite !Id by auto. reflexivity. }
    assert (K := C40_numbering n _ _ _ _ B P Run). assert (K' := C40_numbering n _ _ _ _ B' P' Run'). apply (canonical_connected _ _ _ _ _ Q) in K'. apply (C40_unique _ _ _ _ _ _ K' K).
Qed.
Print Assumptions C89_cluster.

(** * Hexatic *)
Definition sign_of (c : R) : R := c / Rabs c.
Lemma sign_sq c : c <> 0 -> sign_of c * sign_of c = 1.
Proof. intros H. unfold sign_of. assert (Rabs c <> 0) by (apply Rabs_no_R0; auto). assert (E : Rabs c * Rabs c = c * c) by (rewrite <- Rabs_mult; apply Rabs_pos_eq; nra). replace (c / Rabs c * (c / Rabs c)) with (c * c / (Rabs c * Rabs c)) by (field; auto). rewrite E. field. auto. Qed.
Lemma sign_pow c k : c <> 0 -> sign_of c ^ k * sign_of c ^ k = 1.
Proof. intros H. rewrite <- Rpow_mult_distr, sign_sq by auto. apply pow1. Qed.
Lemma cplx_eq (z w : cplx) : fst z = fst w -> snd z = snd w -> z = w.
Proof. destruct z, w. simpl. congruence. Qed.
Lemma dir_scale c v : c <> 0 -> 0 < c \/ (vx v <> 0 \/ vy v <> 0) -> dir (vscale (/ c) v) = cscale (sign_of c) (dir v).
Proof.
  intros C0 H. unfold dir. cbn [vscale vx vy]. set (q := vx v * vx v + vy v * vy v). assert (A : 0 < Rabs c) by (apply Rabs_pos_lt; auto).
  assert (AA : Rabs c * Rabs c = c * c) by (rewrite <- Rabs_mult; apply Rabs_pos_eq; nra).
  replace (/ c * vx v * (/ c * vx v) + / c * vy v * (/ c * vy v)) with (Rsqr (/ Rabs c) * q) by (unfold Rsqr, q; rewrite <- Rinv_mult, AA; field; auto).
  assert (Q : 0 <= q) by (unfold q; nra). rewrite sqrt_mult by (auto; apply Rle_0_sqr). rewrite sqrt_Rsqr by (apply Rlt_le, Rinv_0_lt_compat; auto).
  destruct (Req_EM_T (sqrt q) 0) as [E|E].
  - destruct (Req_EM_T (/ Rabs c * sqrt q) 0) as [E'|E']; [|rewrite E in E'; exfalso; apply E'; ring]. apply sqrt_eq_0 in E; auto. destruct H as [H|H].
    + unfold sign_of. rewrite (Rabs_pos_eq c) by lra. unfold cscale. cbn. f_equal; field; lra.
    + exfalso. unfold q in E. destruct H; nra.
  - assert (0 < / Rabs c) by (apply Rinv_0_lt_compat; auto). destruct (Req_EM_T (/ Rabs c * sqrt q) 0) as [E'|E']; [exfalso; apply Rmult_integral in E' as [E'|E']; lra|].
    assert (K : forall x, / c * x / (/ Rabs c * sqrt q) = sign_of c * (x / sqrt q)).
    { intros x. unfold sign_of. assert (E2 : / c = c / (Rabs c * Rabs c)) by (rewrite AA; field; auto). rewrite E2. field. lra. }
    unfold cscale. cbn. rewrite !K. reflexivity.
Qed.
Lemma cpow_scale s z k : cpow (cscale s z) k = cscale (s ^ k) (cpow z k).
Proof. induction k; cbn [cpow pow]; [unfold cscale; cbn; f_equal; ring|]. rewrite IHk. destruct (cpow z k), z. unfold cmul, cscale. cbn. f_equal; ring. Qed.
Lemma wmean_turn s l l' z : s * s = 1 -> l = map (fun t => (fst t, cscale s (snd t))) l' -> wmean l z <-> wmean l' (cscale s z).
Proof.
  intros S ->. unfold wmean. set (m := map _ l'). assert (T : wtotal m = wtotal l') by (unfold m, wtotal; induction l'; simpl; congruence).
  assert (W : wsum m = cscale s (wsum l')).
  { clear T. unfold m, wsum. clear m. induction l' as [|[w [x y]] l IH]; simpl; [unfold cscale, c0; cbn; f_equal; ring|]. rewrite IH. match goal with |- context [fold_right ?h ?u l] => destruct (fold_right h u l) end. unfold cscale, cadd. cbn. f_equal; ring. }
  rewrite T, W. destruct z as [x y], (wsum l') as [X Y]. unfold cscale. cbn. set (q := wtotal l'). split; intros [N E]; split; auto; injection E as E1 E2; f_equal.
  - transitivity (s * (q * x)); [ring|]. rewrite E1. transitivity (s * s * X); [ring|]. rewrite S. ring.
  - transitivity (s * (q * y)); [ring|]. rewrite E2. transitivity (s * s * Y); [ring|]. rewrite S. ring.
  - rewrite <- E1. transitivity (s * s * (q * x)); [rewrite S; ring|ring].
  - rewrite <- E2. transitivity (s * s * (q * y)); [rewrite S; ring|ring].
Qed.
Lemma query_terms be b points p r ls k weighted i : setting b points points p r -> usable be b points -> (forall res, py_query be b points points p res <-> res = Some ls) -> (i < length points)%nat ->
  (forall x, In x (nth i ls []) -> (bp x < length points)%nat /\ bd x = norm (bv x) /\ in_space b (bv x)) /\ hterms k weighted (hvec b points i) (nth i ls []) = hterms k weighted bv (nth i ls []).
Proof.
  intros St U Q Hi. destruct (C32_ball be b points points p r St U) as (l1 & E & L & H). assert (l1 = ls) as -> by (assert (K := proj2 (E (Some l1)) eq_refl); apply Q in K; congruence).
  destruct (H i Hi) as [_ I]. destruct St as [Hb FP Hne Hn HP Hqne HQ S W A R0 R1 RO].
  assert (WB : forall x, In x (nth i ls []) -> LinkCellSpec.wrapped_in_range b points (nth i points v0) i r (or_else (pa_rmin p) 0) (or_else (pa_excl p) false) x).
  { intros x Hx. apply I in Hx. apply wrapped_brute; auto; [intros; apply in_cell_space; auto|apply in_cell_space; auto; apply HP, nth_In; auto]. }
  assert (SP : forall j, (j < length points)%nat -> in_space b (nth j points v0)) by (intros; apply in_cell_space; auto; apply HP, nth_In; auto).
  split.
  - intros x Hx. destruct (WB x Hx) as (j & Hj & _ & K). cbv zeta in K. destruct K as [_ ->]. cbn. split; auto. split; auto.
    assert (D : in_space b (vsub (nth j points v0) (nth i points v0))) by (intros D; simpl; rewrite (SP j Hj D), (SP i Hi D); ring).
    apply in_cell_space; auto. apply C27_wrapped_in_cell; auto. apply Hb.
  - unfold hterms. apply map_ext_in. intros x Hx. destruct (WB x Hx) as (j & Hj & _ & K). cbv zeta in K. destruct K as [_ ->]. unfold hvec. cbn. reflexivity.
Qed.
(** The k-atic order parameter of a particle is the same; when the axes are turned round and k is odd it changes sign. *)
Theorem C89_hexatic k weighted be be' b c t f p r points points' ev ev' : b_2d b = true ->
  setting b points points p r -> same_system b c t f f (or_else (pa_excl p) false) points points points' points' ->
  (forall x, In x points' -> in_cell (in_units (Rabs c) b) x) -> Rabs c * or_else (pa_rguess p) 0 <> -1 ->
  usable be b points -> usable be' (in_units (Rabs c) b) points' -> execution 0 (length points) ev -> execution 0 (length points) ev' ->
  0 < c \/ (forall i x, (i < length points)%nat -> in_range b points (nth i points v0) i r (or_else (pa_rmin p) 0) (or_else (pa_excl p) false) all_images x -> 0 < bd x) ->
  exists ls ls' psi psi', (forall res, py_query be b points points p res <-> res = Some ls) /\
    (forall res, py_query be' (in_units (Rabs c) b) points' points' (args_in_units (Rabs c) p) res <-> res = Some ls') /\
    hex_compute k weighted b points (fun i => nth i ls []) ev = HDone psi /\
    hex_compute k weighted (in_units (Rabs c) b) points' (fun i => nth i ls' []) ev' = HDone psi' /\
    forall i, (i < length points)%nat -> forall z, nth (f i) psi None = Some z <-> nth i psi' None = Some (cscale (sign_of c ^ k) z).
Proof.
  intros D2 St S HP' G U U' He He' NZ. assert (C0 := ss_unit _ _ _ _ _ _ _ _ _ _ S).
  destruct (C89_bonds be be' b c t f f p r points points points' points' St S HP' HP' G U U') as (ls & ls' & Q & Q' & L & L' & SB).
  assert (St' := C89_setting _ _ _ _ _ _ _ _ _ _ _ St S HP' HP' G). destruct (ss_points _ _ _ _ _ _ _ _ _ _ S) as (LP & (RP & _) & _).
  assert (T := fun i => query_terms be b points p r ls k weighted i St U Q). assert (T' := fun i => query_terms be' _ points' _ _ ls' k weighted i St' U' Q'). rewrite LP in T'.
  destruct (C57_value k weighted b points (fun i => nth i ls []) ev D2) as (psi & E & _ & V); auto. { intros i x Hi Hx. apply (proj1 (T i Hi) x Hx). }
  destruct (C57_value k weighted (in_units (Rabs c) b) points' (fun i => nth i ls' []) ev' D2) as (psi' & E' & _ & V'); [|rewrite LP; auto|]. { intros i x Hi Hx. rewrite LP in *. apply (proj1 (T' i Hi) x Hx). }
  exists ls, ls', psi, psi'. do 4 (split; [assumption|]). rewrite LP in V'. intros i Hi z. destruct (V (f i) (RP i Hi)) as [V1 _], (V' i Hi) as [V1' _]. cbv zeta in V1, V1'.
  rewrite V1, V1', (proj2 (T (f i) (RP i Hi))), (proj2 (T' i Hi)). assert (P := SB i Hi).
  transitivity (wmean (hterms k weighted bv (map (old_bond c f f) (nth i ls' []))) z); [split; apply C57_permutation; auto; apply Permutation_sym; auto|].
  apply wmean_turn; [apply sign_pow; auto|]. unfold hterms. rewrite !map_map. apply map_ext_in. intros x Hx. cbn [fst snd]. f_equal. unfold old_bond. cbn [bv]. rewrite dir_scale; [apply cpow_scale|auto|].
  destruct NZ as [NZ|NZ]; [left; exact NZ|right]. assert (K : In (old_bond c f f x) (nth (f i) ls [])) by (eapply Permutation_in; [exact P|]; apply in_map; auto).
  destruct (C32_ball be b points points p r St U) as (l1 & E1 & _ & H1). assert (l1 = ls) as -> by (assert (K1 := proj2 (E1 (Some l1)) eq_refl); apply Q in K1; congruence).
  destruct (H1 (f i) (RP i Hi)) as [_ I]. apply I in K. apply NZ in K; [|apply RP; auto]. destruct (proj1 (T' i Hi) x Hx) as (_ & Dn & Sp). specialize (Sp D2).
  destruct (Req_dec (vx (bv x)) 0) as [X|X]; [|left; exact X]. destruct (Req_dec (vy (bv x)) 0) as [Y|Y]; [|right; exact Y]. exfalso. unfold old_bond in K. cbn [bd] in K. rewrite Dn in K. unfold norm, dot in K. rewrite X, Y, Sp in K.
  replace (0 * 0 + 0 * 0 + 0 * 0) with 0 in K by ring. rewrite sqrt_0 in K. unfold Rdiv in K. rewrite Rmult_0_l in K. lra.
Qed.
Print Assumptions C89_hexatic.

Definition swap (i : nat) : nat := (1 - i)%nat.
Lemma swap_inj i j : (i < 2)%nat -> (j < 2)%nat -> swap i = swap j <-> i = j.
Proof. unfold swap. lia. Qed.
Lemma swap_ok : renumbers 2 swap.
Proof. split; intros; [unfold swap; lia|]. apply swap_inj; auto. Qed.
(** * The conditions can be met: two particles, in another unit, with the axes turned round, another origin, and swapped. *)
Example C89_case : exists points points' t f, let b' := in_units (Rabs (-2)) ex_cube in
  setting ex_cube points points ex_args 3 /\ same_system ex_cube (-2) t f f true points points points' points' /\
  (forall x, In x points' -> in_cell b' x) /\ usable BAABB ex_cube points /\ usable BCell b' points' /\ points' <> points /\
  exists x, in_range ex_cube points (nth 0 points v0) 0 3 0 true all_images x.
Proof.
  exists [V3 (-4) 0 0; V3 4 0 0], [V3 (-5) 0 0; V3 (-9) 0 0], (V3 3 0 0), swap. cbv zeta. destruct ex_args_ok as (S & W & A).
  assert (C : forall x, In x [V3 (-4) 0 0; V3 4 0 0] -> in_cell ex_cube x) by (intros x [<-|[<-|[]]]; apply ex_corner; lra).
  assert (EA : Rabs (-2) = 2) by (rewrite Rabs_left by lra; ring).
  assert (RD : redescribed ex_cube (-2) (V3 3 0 0) swap [V3 (-4) 0 0; V3 4 0 0] [V3 (-5) 0 0; V3 (-9) 0 0]).
  { split; [reflexivity|]. split; [exact swap_ok|]. rewrite EA. intros [|[|j]] Hj; [| |simpl in Hj; lia].
    - exists 0%Z, 0%Z, 0%Z. split; [repeat split; auto|]. unfold shift, comb, a1, a2, a3, in_units, ex_cube. simpl. vec_ext; ring.
    - exists (-1)%Z, 0%Z, 0%Z. split; [repeat split; simpl; auto; discriminate|]. unfold shift, comb, a1, a2, a3, in_units, ex_cube. simpl. vec_ext; ring. }
  split; [|split; [|split; [|split; [exact I|split; [exact I|split]]]]].
  - constructor; auto; try (simpl; lra); try discriminate.
    + apply ex_cube_positive. + apply ex_cube_fp. + unfold radius_ok. rewrite ex_cube_planes. simpl. repeat split; intros; lra.
  - constructor; auto; try lra. + intros D. reflexivity. + intros _ i j Hi Hj. apply swap_inj; assumption.
  - rewrite EA. assert (K : forall x, -10 <= x <= 10 -> in_cell (in_units 2 ex_cube) (V3 x 0 0)).
    { intros x H. exists ((x + 10) / 20), (1/2), (1/2). split; [unfold cell_point, comb, a1, a2, a3, in_units, ex_cube; apply vec_eq; simpl; field|]. repeat split; intros; lra. }
    intros x [<-|[<-|[]]]; apply K; lra.
  - intros E. injection E. lra.
  - set (d := sep ex_cube [V3 (-4) 0 0; V3 4 0 0] (V3 (-4) 0 0) 1 1 0 0).
    assert (ED : d = V3 (-2) 0 0) by (unfold d, sep, flat, shift, comb, a1, a2, a3, ex_cube; apply vec_eq; simpl; ring).
    assert (N2 : norm d = 2) by (rewrite ED; unfold norm, dot; simpl; replace (_ + _) with (Rsqr 2) by (unfold Rsqr; ring); apply sqrt_Rsqr; lra).
    exists (Bond 0 1 (norm d) 1 d). exists 1%nat, 1%Z, 0%Z, 0%Z. cbn [nth]. fold d. rewrite N2. split; [simpl; lia|]. split; [repeat split; simpl; discriminate|]. split; [exact I|].
    split; [intros [_ ?]; discriminate|]. split; [lra|auto].
Qed.
(** A square in the plane, for Hexatic. *)
Definition ex_plane : box := MkBox (V3 (-5) (-5) 0) (V3 5 5 0) (V3 10 10 0) (V3 (/10) (/10) 0) 0 0 0 true true true true.
Example C89_plane_case : exists points points' t f, let b' := in_units (Rabs (-1)) ex_plane in b_2d ex_plane = true /\
  setting ex_plane points points ex_args 3 /\ same_system ex_plane (-1) t f f true points points points' points' /\
  (forall x, In x points' -> in_cell b' x) /\ usable BAABB ex_plane points /\ usable BCell b' points' /\
  (forall i x, (i < length points)%nat -> in_range ex_plane points (nth i points v0) i 3 0 true all_images x -> 0 < bd x).
Proof.
  exists [V3 (-4) 0 0; V3 4 0 0], [V3 (-3) 1 0; V3 5 1 0], (V3 1 1 0), swap. cbv zeta. destruct ex_args_ok as (S & W & A).
  assert (EA : Rabs (-1) = 1) by (rewrite Rabs_left by lra; ring).
  assert (K : forall s x y, 0 < s -> -5 * s <= x <= 5 * s -> -5 * s <= y <= 5 * s -> in_cell (in_units s ex_plane) (V3 x y 0)).
  { intros s x y Hs Hx Hy. exists ((x / s + 5) / 10), ((y / s + 5) / 10), 0. split; [unfold cell_point, comb, a1, a2, a3, in_units, ex_plane; apply vec_eq; simpl; field; lra|].
    assert (X : x = s * (x / s)) by (field; lra). assert (Y : y = s * (y / s)) by (field; lra). set (u := x / s) in *. set (v := y / s) in *. assert (-5 <= u <= 5) by nra. assert (-5 <= v <= 5) by nra. repeat split; intros; lra. }
  assert (U1 : in_units 1 ex_plane = ex_plane) by (unfold in_units, ex_plane, vscale; simpl; rewrite Rinv_1; f_equal; vec_ext; ring).
  assert (Pb : positive ex_plane) by (unfold positive, nonsingular, ex_plane; simpl; repeat split; intros; try discriminate; try lra; vec_ext; field).
  assert (C : forall x, In x [V3 (-4) 0 0; V3 4 0 0] -> in_cell ex_plane x) by (intros x [<-|[<-|[]]]; rewrite <- U1; apply K; lra).
  assert (RD : redescribed ex_plane (-1) (V3 1 1 0) swap [V3 (-4) 0 0; V3 4 0 0] [V3 (-3) 1 0; V3 5 1 0]).
  { split; [reflexivity|]. split; [exact swap_ok|]. rewrite EA. intros [|[|j]] Hj; [| |simpl in Hj; lia]; exists 0%Z, 0%Z, 0%Z; (split; [repeat split; auto|]); unfold shift, comb, a1, a2, a3, in_units, ex_plane; simpl; vec_ext; ring. }
  assert (RO : radius_ok ex_plane 3) by (unfold radius_ok, plane_distance, ex_plane; simpl; replace (1 + 0 * 0 + (0 * 0 - 0) * (0 * 0 - 0)) with 1 by ring; replace (1 + 0 * 0) with 1 by ring; rewrite sqrt_1; repeat split; intros; try discriminate; lra).
  split; [reflexivity|]. split; [|split; [|split; [|split; [exact I|split; [exact I|]]]]].
  - constructor; auto; try (simpl; lra); try discriminate. repeat split; auto.
  - constructor; auto; try lra. + intros D. reflexivity. + intros _ i j Hi Hj. apply swap_inj; assumption.
  - rewrite EA. intros x [<-|[<-|[]]]; apply K; lra.
  - intros i x Hi Hx. assert (WB := Hx). apply (wrapped_brute ex_plane) in WB; auto; [|intros; apply in_cell_space; auto|apply in_cell_space; auto; apply C, nth_In; auto].
    destruct Hx as (j & i1 & i2 & i3 & Hj & (_ & _ & _ & I3) & _ & HE & _ & ->). cbn [bd]. unfold norm. apply sqrt_lt_R0.
    assert (N : vx (sep ex_plane [V3 (-4) 0 0; V3 4 0 0] (nth i [V3 (-4) 0 0; V3 4 0 0] v0) j i1 i2 i3) <> 0).
    { unfold sep, flat, shift, comb, a1, a2, a3, ex_plane. simpl in Hi, Hj. destruct i as [|[|i]]; [| |lia]; (destruct j as [|[|j]]; [| |lia]); simpl; try (exfalso; apply HE; auto; fail); intros Q.
      - assert (Z : IZR (8 - 10 * i1) = 0) by (rewrite minus_IZR, mult_IZR; lra). apply eq_IZR in Z. lia.
      - assert (Z : IZR (8 + 10 * i1) = 0) by (rewrite plus_IZR, mult_IZR; lra). apply eq_IZR in Z. lia. }
    set (v := sep _ _ _ _ _ _ _) in *. unfold dot. assert (0 < vx v * vx v) by (apply Rsqr_pos_lt in N; exact N). nra.
Qed.
(** Two frames for the RDF. *)
Example C89_rdf_case : exists fr fr' h h' ev r0 r0', rdf_make 2 4 0 = Some r0 /\ rdf_make 2 (2 * 4) (2 * 0) = Some r0' /\
  Forall (rop_ok 2) h /\ Forall (rop_ok 2) h' /\ execution 0 2 ev /\ Forall2 (same_op 2) h h' /\ rsince h [] = [] ++ [fr] /\ rsince h' [] = [fr'] /\
  data_ok Exact (ri_data fr) /\ dist_count 0 4 [fr] = 2%nat.
Proof.
  set (ev := [(0%nat, 0%nat); (0%nat, 1%nat)]). assert (He : execution 0 2 ev) by exact (sequential_execution 0 2 0).
  set (ls := [[Bond 0 1 2 1 (V3 (-2) 0 0)]; [Bond 1 0 2 1 (V3 2 0 0)]]). set (ls' := [[Bond 0 1 4 1 (V3 (-4) 0 0)]; [Bond 1 0 4 1 (V3 4 0 0)]]).
  assert (EA : Rabs (-2) = 2) by (rewrite Rabs_left by lra; ring).
  assert (SB : same_bonds (-2) swap swap 2 ls ls').
  { intros [|[|i]] Hi; [| |lia]; simpl; unfold old_bond; simpl; rewrite EA; apply Permutation_refl'; f_equal; f_equal; try field; vec_ext; field. }
  destruct (C89_frames ex_cube (-2) swap swap 2 ls ls' ev ev) as [F1 F2]; [lra|exact swap_ok|reflexivity|exact SB|]. rewrite EA in F1, F2.
  destruct (rdf_make 2 4 0) as [r0|] eqn:M; [|apply C49_reject in M; [destruct M as [M|[M|[M|M]]]; [discriminate|lra..]|lia]]. destruct (rdf_make 2 (2 * 4) (2 * 0)) as [r0'|] eqn:M'; [|apply C49_reject in M'; [destruct M' as [M'|[M'|[M'|M']]]; [discriminate|lra..]|lia]].
  exists (query_frame ex_cube 2 ls ev), (query_frame (in_units 2 ex_cube) 2 ls' ev), [RCompute true (query_frame ex_cube 2 ls ev)], [RCompute true (query_frame (in_units 2 ex_cube) 2 ls' ev)], ev, r0, r0'.
  split; [auto|]. split; [auto|]. split; [repeat constructor; exact He|]. split; [repeat constructor; exact He|]. split; [exact He|]. split; [constructor; [constructor; auto|constructor]|]. split; [reflexivity|]. split; [reflexivity|]. split.
  - unfold query_frame, data_ok. cbn. unfold volume, ex_cube. cbn. repeat split; try lia. lra.
  - unfold dist_count, query_frame. cbn. destruct (Rle_bool_spec 0 2), (Rlt_bool_spec 2 4); try lra. reflexivity.
Qed.
