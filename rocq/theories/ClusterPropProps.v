(** C42: properties of clusters. *)
From Verif Require Import BoxProofs BoxProofs2 BoxPyProofs BoxProps FilterProps KnnProps5.
From Verif Require Import ClusterPropModel ClusterPropSpec BoxSpec.
Local Open Scope R_scope.

Lemma fset_same {A} (f : nat -> A) i x : fset f i x i = x. Proof. unfold fset. rewrite Nat.eqb_refl. auto. Qed.
Lemma fset_other {A} (f : nat -> A) i x j : j <> i -> fset f i x j = f j. Proof. intros H. unfold fset. rewrite (proj2 (Nat.eqb_neq j i)); auto. Qed.
Lemma rsum_app {A} (f : A -> R) l l' : rsum f (l ++ l') = rsum f l + rsum f l'.
Proof. induction l; simpl; [ring|]. rewrite IHl. ring. Qed.
Lemma rsum_ext_in {A} (f g : A -> R) l : (forall i, In i l -> f i = g i) -> rsum f l = rsum g l.
Proof. induction l; simpl; auto. intros H. rewrite H, IHl; auto. Qed.
Lemma rsum_plus {A} (f g : A -> R) l : rsum (fun i => f i + g i) l = rsum f l + rsum g l.
Proof. induction l; simpl; [ring|]. rewrite IHl. ring. Qed.
Lemma rsum_scal {A} k (f : A -> R) l : rsum (fun i => k * f i) l = k * rsum f l.
Proof. induction l; simpl; [ring|]. rewrite IHl. ring. Qed.
Definition upto (idx : list nat) (k c : nat) : list nat := filter (fun i => Nat.eqb (nth i idx 0%nat) c) (seq 0 k).
Lemma upto_S idx k c : upto idx (S k) c = upto idx k c ++ (if Nat.eqb (nth k idx 0%nat) c then [k] else []).
Proof. unfold upto. rewrite seq_S, filter_app. auto. Qed.
Lemma tally_spec pts idx masses k : let t := fold_left (tally_step pts idx masses) (seq 0 k) (TL (fun _ => []) (fun _ => 0%nat) (fun _ => 0)) in
  forall c, tl_points t c = map (fun i => nth i pts v0) (upto idx k c) /\ tl_size t c = length (upto idx k c) /\ tl_mass t c = rsum (mass_at masses) (upto idx k c).
Proof.
  induction k as [|k IH]; intros t c; [cbn; auto|]. subst t. rewrite seq_S, fold_left_app. cbn [fold_left Nat.add]. set (t := fold_left _ (seq 0 k) _) in *. destruct (IH c) as (I1 & I2 & I3).
  unfold tally_step. cbn [tl_points tl_size tl_mass]. rewrite upto_S. destruct (Nat.eqb_spec (nth k idx 0%nat) c) as [<-|NE].
  - rewrite !fset_same, map_app, app_length, rsum_app, I1, I2, I3. cbn [map length rsum fold_right]. split; auto. split; [lia|ring].
  - rewrite !fset_other by auto. rewrite app_nil_r. auto.
Qed.
Definition off (masses : option (list R)) (t : tally) (c : nat) : nat :=
  match masses with Some _ => fold_right Nat.add 0%nat (map (tl_size t) (seq 0 c)) | None => 0%nat end.
Definition used_masses (masses : option (list R)) (t : tally) (c : nat) : list (vec3 * R) :=
  match masses with
  | Some l => map (fun j => (nth j (tl_points t c) v0, nth (off masses t c + j)%nat l 0)) (seq 0 (length (tl_points t c)))
  | None => map (fun p => (p, 1)) (tl_points t c) end.
Lemma centers_spec b masses t k : let s := fold_left (center_step b masses t) (seq 0 k) (CT (fun _ => v0) (fun _ => v0) 0%nat) in
  ct_off s = off masses t k /\ forall c, (c < k)%nat -> ct_center s c = center_of_mass b (map (fun p => (p, 1)) (tl_points t c)) /\ ct_com s c = center_of_mass b (used_masses masses t c).
Proof.
  induction k as [|k IH]; intros s.
  - split; [|intros; lia]. unfold s, off. destruct masses; auto.
  - subst s. rewrite seq_S, fold_left_app. cbn [fold_left Nat.add]. set (s := fold_left _ (seq 0 k) _) in *. destruct IH as [I1 I2]. unfold center_step. cbn [ct_center ct_com ct_off]. split.
    + rewrite I1. unfold off. destruct masses; auto. rewrite (seq_S k 0), map_app, fold_right_app. cbn [map fold_right Nat.add]. clear. induction (map (tl_size t) (seq 0 k)); simpl; lia.
    + intros c Hc. destruct (Nat.eq_dec c k) as [-> |Hne]; [|rewrite !fset_other by auto; apply I2; lia]. rewrite !fset_same. split; auto. unfold used_masses. rewrite I1. destruct masses; auto.
Qed.
Lemma moments_spec bx pts idx masses s k : let mg := fold_left (moments_step bx pts idx masses s) (seq 0 k) ((fun _ _ _ => 0), (fun _ _ _ => 0)) in
  forall c a b, fst mg c a b = rsum (fun i => inertia_terms (wrap bx (vsub (nth i pts v0) (ct_com s c))) (mass_at masses i) a b) (upto idx k c) /\
                snd mg c a b = rsum (fun i => gyration_terms (wrap bx (vsub (nth i pts v0) (ct_center s c))) a b) (upto idx k c).
Proof.
  induction k as [|k IH]; intros mg c a b; [cbn; auto|]. subst mg. rewrite seq_S, fold_left_app. cbn [fold_left Nat.add]. set (mg := fold_left _ (seq 0 k) _) in *. destruct (IH c a b) as (I1 & I2).
  unfold moments_step. cbn [fst snd]. rewrite upto_S. destruct (Nat.eqb_spec (nth k idx 0%nat) c) as [<-|NE].
  - rewrite !fset_same. unfold madd. rewrite !rsum_app, I1, I2. cbn [rsum fold_right]. split; ring.
  - rewrite !fset_other by auto. rewrite app_nil_r. auto.
Qed.
Definition tl0 pts idx masses := tally_all pts idx masses.
Lemma unfold_props bx pts idx masses r : cluster_properties bx pts idx masses = Some r ->
  length idx = length pts /\ (0 < length pts)%nat /\ (forall l, masses = Some l -> (length pts <= length l)%nat) /\ cp_num r = S (list_max idx) /\
  let t := tally_all pts idx masses in let s := centers_all bx masses t (cp_num r) in
  cp_centers r = ct_center s /\ cp_coms r = ct_com s /\ cp_sizes r = tl_size t /\ cp_masses r = tl_mass t /\
  cp_inertia r = fst (moments_all bx pts idx masses s) /\ cp_gyrations r = (fun c a b => snd (moments_all bx pts idx masses s) c a b / INR (tl_size t c)).
Proof.
  unfold cluster_properties. destruct (Nat.eqb_spec (length idx) (length pts)) as [E1|]; [|discriminate]. destruct (Nat.eqb_spec (length pts) 0) as [|E2]; [discriminate|]. cbn [negb].
  destruct (match masses with Some l => Nat.ltb (length l) (length pts) | None => false end) eqn:E3; [discriminate|]. cbv zeta. rewrite (surjective_pairing (moments_all _ _ _ _ _)). intros E. injection E as <-. cbn [cp_num cp_centers cp_coms cp_sizes cp_masses cp_inertia cp_gyrations].
  split; auto. split; [lia|]. split; [intros l ->; apply Nat.ltb_ge in E3; auto|]. repeat split; auto.
Qed.

(** Sizes and masses count and add up the members, each with its own mass; the clusters are 0 .. the largest label. *)
Theorem C42_sizes : forall bx pts idx masses r, cluster_properties bx pts idx masses = Some r ->
  cp_num r = S (list_max idx) /\ forall c, cp_sizes r c = length (members idx c) /\ cp_masses r c = rsum (mass_at masses) (members idx c).
Proof.
  intros bx pts idx masses r H. destruct (unfold_props _ _ _ _ _ H) as (L & _ & _ & N & _ & _ & E1 & E2 & _). split; auto. intros c. rewrite E1, E2. unfold tally_all. rewrite <- L.
  destruct (tally_spec pts idx masses (length idx) c) as (_ & A1 & A2). auto.
Qed.
(** Geometric centres: the periodic centre of the members with equal weights. *)
Theorem C42_centers : forall bx pts idx masses r c, cluster_properties bx pts idx masses = Some r -> (c < cp_num r)%nat ->
  cp_centers r c = center_of_mass bx (map (fun i => (nth i pts v0, 1)) (members idx c)).
Proof.
  intros bx pts idx masses r c H Hc. destruct (unfold_props _ _ _ _ _ H) as (L & _ & _ & N & E & _). rewrite E. unfold centers_all. destruct (centers_spec bx masses (tally_all pts idx masses) (cp_num r)) as [_ G]. destruct (G c Hc) as [-> _].
  f_equal. unfold tally_all. rewrite <- L. destruct (tally_spec pts idx masses (length idx) c) as (-> & _). rewrite map_map. auto.
Qed.
(** Gyration tensor: the mean of the products of the components of the minimum-image displacements from the reported centre. *)
Theorem C42_gyrations : forall bx pts idx masses r c a b, cluster_properties bx pts idx masses = Some r -> (a < 3)%nat -> (b < 3)%nat -> members idx c <> [] ->
  cp_gyrations r c a b = rsum (fun i => let d := wrap bx (vsub (nth i pts v0) (cp_centers r c)) in vcomp d a * vcomp d b) (members idx c) / INR (length (members idx c)).
Proof.
  intros bx pts idx masses r c a b H Ha Hb Hne. destruct (unfold_props _ _ _ _ _ H) as (L & _ & _ & N & E1 & _ & _ & _ & _ & E2). rewrite E2, E1. unfold moments_all, tally_all at 2. rewrite <- L.
  destruct (tally_spec pts idx masses (length idx) c) as (_ & -> & _).
  destruct (moments_spec bx pts idx masses (centers_all bx masses (tally_all pts idx masses) (cp_num r)) (length idx) c a b) as (_ & ->). f_equal. apply rsum_ext_in. intros i _. cbv zeta.
  destruct a as [|[|[|a]]], b as [|[|[|b]]]; try lia; reflexivity.
Qed.
(** Inertia tensor about the reported centre of mass, each particle with its own mass. *)
Theorem C42_inertia : forall bx pts idx masses r c a b, cluster_properties bx pts idx masses = Some r -> (a < 3)%nat -> (b < 3)%nat ->
  cp_inertia r c a b = rsum (fun i => let d := wrap bx (vsub (nth i pts v0) (cp_coms r c)) in mass_at masses i * ((if Nat.eqb a b then dot d d else 0) - vcomp d a * vcomp d b)) (members idx c).
Proof.
  intros bx pts idx masses r c a b H Ha Hb. destruct (unfold_props _ _ _ _ _ H) as (L & _ & _ & N & _ & E1 & _ & _ & E2 & _). rewrite E2, E1. unfold moments_all. rewrite <- L.
  destruct (moments_spec bx pts idx masses (centers_all bx masses (tally_all pts idx masses) (cp_num r)) (length idx) c a b) as (-> & _). apply rsum_ext_in. intros i _. cbv zeta. unfold dot.
  destruct a as [|[|[|a]]], b as [|[|[|b]]]; try lia; cbn [inertia_terms vcomp Nat.eqb]; ring.
Qed.
(** Radius of gyration: the mass-weighted root mean square distance from the reported centre of mass. *)
Theorem C42_radius : forall bx pts idx masses r c, cluster_properties bx pts idx masses = Some r -> cp_masses r c <> 0 ->
  radius_of_gyration r c = sqrt (rsum (fun i => let d := wrap bx (vsub (nth i pts v0) (cp_coms r c)) in mass_at masses i * dot d d) (members idx c) / rsum (mass_at masses) (members idx c)).
Proof.
  intros bx pts idx masses r c H Hm. unfold radius_of_gyration. rewrite !(C42_inertia _ _ _ _ _ _ _ _ H) by lia. rewrite <- !rsum_plus. destruct (C42_sizes _ _ _ _ _ H) as [_ S]. destruct (S c) as [_ SM]. rewrite SM in *. f_equal.
  rewrite (rsum_ext_in _ (fun i => 2 * (let d := wrap bx (vsub (nth i pts v0) (cp_coms r c)) in mass_at masses i * dot d d))); [rewrite rsum_scal; field; auto|].
  intros i _. cbv zeta. cbn [Nat.eqb vcomp]. unfold dot. ring.
Qed.
(** Without masses the centres of mass are the geometric centres. *)
Theorem C42_com_no_masses : forall bx pts idx r c, cluster_properties bx pts idx None = Some r -> (c < cp_num r)%nat -> cp_coms r c = cp_centers r c.
Proof.
  intros bx pts idx r c H Hc. destruct (unfold_props _ _ _ _ _ H) as (L & _ & _ & N & E1 & E2 & _). rewrite E1, E2. unfold centers_all. destruct (centers_spec bx None (tally_all pts idx None) (cp_num r)) as [_ G]. destruct (G c Hc) as [-> ->]. reflexivity.
Qed.
Lemma used_is bx pts idx l r c : cluster_properties bx pts idx (Some l) = Some r -> (c < cp_num r)%nat ->
  cp_coms r c = center_of_mass bx (map (fun j => (nth (nth j (members idx c) 0%nat) pts v0, nth (length (filter (fun i => Nat.ltb (nth i idx 0%nat) c) (seq 0 (length idx))) + j)%nat l 0)) (seq 0 (length (members idx c)))).
Proof.
  intros H Hc. destruct (unfold_props _ _ _ _ _ H) as (L & _ & _ & N & _ & E & _). rewrite E. unfold centers_all. set (t := tally_all pts idx (Some l)). destruct (centers_spec bx (Some l) t (cp_num r)) as [_ G]. destruct (G c Hc) as [_ ->]. f_equal.
  assert (T : forall c, tl_points t c = map (fun i => nth i pts v0) (members idx c) /\ tl_size t c = length (members idx c)).
  { intros c'. unfold t, tally_all. rewrite <- L. destruct (tally_spec pts idx (Some l) (length idx) c') as (A1 & A2 & _). auto. }
  unfold used_masses. destruct (T c) as [-> _]. rewrite map_length. apply map_ext_in. intros j Hj. apply in_seq in Hj. f_equal.
  - rewrite (nth_indep _ v0 (nth 0 pts v0)) by (rewrite map_length; lia). apply (map_nth (fun i => nth i pts v0) (members idx c) 0%nat).
  - f_equal. f_equal. unfold off. clear -T. induction c as [|c IH].
    + cbn. clear. induction (seq 0 (length idx)); auto.
    + rewrite seq_S, map_app, fold_right_app. cbn [map fold_right Nat.add]. destruct (T c) as [_ ->]. replace (fold_right Nat.add (length (members idx c) + 0)%nat (map (tl_size t) (seq 0 c))) with (fold_right Nat.add 0%nat (map (tl_size t) (seq 0 c)) + length (members idx c))%nat by (clear; induction (map (tl_size t) (seq 0 c)); simpl; lia).
      rewrite IH. unfold members. clear. induction (seq 0 (length idx)) as [|x m IHm]; auto. cbn [filter].
      destruct (Nat.ltb_spec (nth x idx 0%nat) (S c)), (Nat.ltb_spec (nth x idx 0%nat) c), (Nat.eqb_spec (nth x idx 0%nat) c); cbn [length]; lia.
Qed.
Lemma nth_map_lt {A B} (f : A -> B) l j d d' : (j < length l)%nat -> nth j (map f l) d = f (nth j l d').
Proof. intros H. rewrite (nth_indep _ d (f d')) by (rewrite map_length; auto). apply map_nth. Qed.
(** With masses: right when all masses are equal ... *)
Theorem C42_com_equal_masses : forall bx pts idx l r c mu, cluster_properties bx pts idx (Some l) = Some r -> (c < cp_num r)%nat -> length l = length pts ->
  (forall i, (i < length l)%nat -> nth i l 0 = mu) -> cp_coms r c = center_of_mass bx (map (own pts (Some l)) (members idx c)).
Proof.
  intros bx pts idx l r c mu H Hc Hl Hmu. rewrite (used_is _ _ _ _ _ _ H Hc). destruct (unfold_props _ _ _ _ _ H) as (L & _). f_equal.
  apply nth_ext with (d := (v0, 0)) (d' := (v0, 0)); [rewrite !map_length, seq_length; auto|]. intros j Hj. rewrite map_length, seq_length in Hj.
  rewrite (nth_map_lt _ _ _ _ 0%nat) by (rewrite seq_length; auto). rewrite seq_nth by auto. cbn [Nat.add]. rewrite (nth_map_lt _ _ _ _ 0%nat) by auto. unfold own, mass_at. f_equal.
  assert (IN : In (nth j (members idx c) 0%nat) (members idx c)) by (apply nth_In; auto). unfold members in IN at 2. apply filter_In in IN as [IN _]. apply in_seq in IN. rewrite (Hmu (nth j (members idx c) 0%nat)) by lia. apply Hmu.
  (* the masses read stay inside the array *)
  assert (B : (length (filter (fun i => Nat.ltb (nth i idx 0%nat) c) (seq 0 (length idx))) + length (members idx c) <= length idx)%nat).
  { unfold members. match goal with |- (?x <= _)%nat => assert (x <= length (seq 0 (length idx)))%nat; [|rewrite seq_length in *; auto] end. clear. induction (seq 0 (length idx)) as [|x m IHm]; auto. cbn [filter]. destruct (Nat.ltb_spec (nth x idx 0%nat) c), (Nat.eqb_spec (nth x idx 0%nat) c); cbn [length]; lia. }
  lia.
Qed.
(** ... or when the points are sorted by cluster. *)
Lemma down_closed (P : nat -> bool) n : (forall i j, (i < j < n)%nat -> P j = true -> P i = true) -> forall i, (i < n)%nat -> P i = true <-> (i < length (filter P (seq 0 n)))%nat.
Proof.
  induction n as [|n IH]; intros H i Hi; [lia|]. rewrite seq_S, filter_app, app_length. cbn [filter Nat.add]. assert (LE : (length (filter P (seq 0 n)) <= n)%nat) by (rewrite <- (seq_length n 0) at 2; clear; induction (seq 0 n); simpl; auto; destruct (P a); simpl; lia).
  destruct (P n) eqn:E.
  - assert (ALL : forall k, (k < n)%nat -> P k = true) by (intros k Hk; apply (H k n); auto; lia). assert (FN : filter P (seq 0 n) = seq 0 n).
    { clear -ALL. assert (G : forall l, (forall k, In k l -> P k = true) -> filter P l = l) by (induction l; simpl; auto; intros HH; rewrite (HH a) by auto; f_equal; auto). apply G. intros k Hk. apply in_seq in Hk. apply ALL. lia. }
    rewrite FN, seq_length. cbn [length]. split; [lia|]. intros _. destruct (Nat.eq_dec i n) as [-> |]; auto. apply ALL. lia.
  - cbn [length]. rewrite Nat.add_0_r. destruct (Nat.eq_dec i n) as [-> |Hne]; [rewrite E; split; [discriminate|lia]|]. apply IH; [|lia]. intros a b Hab. apply H. lia.
Qed.
Theorem C42_com_sorted : forall bx pts idx l r c, cluster_properties bx pts idx (Some l) = Some r -> (c < cp_num r)%nat ->
  (forall i j, (i < j < length idx)%nat -> (nth i idx 0 <= nth j idx 0)%nat) -> cp_coms r c = center_of_mass bx (map (own pts (Some l)) (members idx c)).
Proof.
  intros bx pts idx l r c H Hc HS. rewrite (used_is _ _ _ _ _ _ H Hc). f_equal. set (n := length idx) in *. set (k := length (filter (fun i => Nat.ltb (nth i idx 0%nat) c) (seq 0 n))).
  assert (D1 : forall i, (i < n)%nat -> (nth i idx 0 < c)%nat <-> (i < k)%nat).
  { intros i Hi. unfold k. rewrite <- (down_closed (fun i => Nat.ltb (nth i idx 0%nat) c) n); auto; [rewrite Nat.ltb_lt; tauto|]. intros a b Hab. rewrite !Nat.ltb_lt. intros. specialize (HS a b Hab). lia. }
  assert (KN : (k <= n)%nat) by (unfold k; rewrite <- (seq_length n 0) at 2; clear; induction (seq 0 n); simpl; auto; destruct (Nat.ltb _ _); simpl; lia).
  set (m := length (filter (fun i => Nat.leb (nth i idx 0%nat) c) (seq 0 n))).
  assert (D2 : forall i, (i < n)%nat -> (nth i idx 0 <= c)%nat <-> (i < m)%nat).
  { intros i Hi. unfold m. rewrite <- (down_closed (fun i => Nat.leb (nth i idx 0%nat) c) n); auto; [rewrite Nat.leb_le; tauto|]. intros a b Hab. rewrite !Nat.leb_le. intros. specialize (HS a b Hab). lia. }
  assert (MN : (m <= n)%nat) by (unfold m; rewrite <- (seq_length n 0) at 2; clear; induction (seq 0 n); simpl; auto; destruct (Nat.leb _ _); simpl; lia).
  assert (KM : (k <= m)%nat). { destruct (le_lt_dec k m); auto. pose proof (proj2 (D1 m ltac:(lia)) l0). assert (nth m idx 0 <= c)%nat by lia. apply D2 in H1; lia. }
  assert (ME : members idx c = seq k (m - k)).
  { unfold members. fold n. replace n with (k + ((m - k) + (n - m)))%nat at 1 by lia. rewrite !seq_app, !filter_app. cbn [Nat.add]. replace (k + (m - k))%nat with m by lia.
    assert (F0 : forall (P : nat -> bool) l, (forall x, In x l -> P x = false) -> filter P l = []) by (induction l0; simpl; auto; intros HH; rewrite HH; auto).
    assert (F1 : forall (P : nat -> bool) l, (forall x, In x l -> P x = true) -> filter P l = l) by (induction l0; simpl; auto; intros HH; rewrite HH; auto; f_equal; auto).
    rewrite (F0 _ (seq 0 k)); [|intros x Hx; apply in_seq in Hx; apply Nat.eqb_neq; pose proof (proj2 (D1 x ltac:(lia)) ltac:(lia)); lia].
    rewrite (F0 _ (seq m (n - m))); [|intros x Hx; apply in_seq in Hx; apply Nat.eqb_neq; intros E; pose proof (proj1 (D2 x ltac:(lia)) ltac:(lia)); lia].
    rewrite F1; [rewrite app_nil_r; auto|]. intros x Hx. apply in_seq in Hx. apply Nat.eqb_eq. pose proof (proj2 (D2 x ltac:(lia)) ltac:(lia)).
    destruct (Nat.eq_dec (nth x idx 0%nat) c); auto. pose proof (proj1 (D1 x ltac:(lia)) ltac:(lia)). lia. }
  rewrite ME, seq_length. apply nth_ext with (d := (v0, 0)) (d' := (v0, 0)); [rewrite !map_length, !seq_length; auto|]. intros j Hj. rewrite map_length, seq_length in Hj.
  rewrite (nth_map_lt _ _ _ _ 0%nat) by (rewrite seq_length; auto). rewrite (nth_map_lt _ _ _ _ 0%nat) by (rewrite seq_length; auto).
  assert (S0 : nth j (seq 0 (m - k)) 0%nat = j) by (apply seq_nth; auto). assert (Sk : nth j (seq k (m - k)) 0%nat = (k + j)%nat) by (apply seq_nth; auto). rewrite S0, Sk. auto.
Qed.

(** Otherwise the centre of mass of a cluster uses masses of other particles.  Three points, the first in cluster 1 and the others
    in cluster 0; the masses are 1, 0, 1: all the mass of cluster 0 is in the third point, but the second is reported. *)
Lemma cube_wrap v : 0 <= vx v / 10 + 1 / 2 < 1 -> 0 <= vy v / 10 + 1 / 2 < 1 -> 0 <= vz v / 10 + 1 / 2 < 1 -> wrap ex_cube v = v.
Proof.
  intros Hx Hy Hz. apply wrap_fix; [apply ex_cube_positive|discriminate|]. unfold make_fractional, ex_cube; simpl. repeat split; intros; lra.
Qed.
Lemma com_drop b v w m : center_of_mass b [(v, m); (w, 0)] = center_of_mass b [(v, m)].
Proof. unfold center_of_mass, mean_phase, csum, total_mass. cbn [fold_right fst snd]. rewrite !Rmult_0_r, !Rplus_0_r. auto. Qed.
Lemma com_drop' b v w m : center_of_mass b [(w, 0); (v, m)] = center_of_mass b [(v, m)].
Proof. unfold center_of_mass, mean_phase, csum, total_mass. cbn [fold_right fst snd]. rewrite !Rmult_0_r, !Rplus_0_l. auto. Qed.
Lemma com_cube v : 0 <= vx v / 10 + 1 / 2 < 1 -> 0 <= vy v / 10 + 1 / 2 < 1 -> 0 <= vz v / 10 + 1 / 2 < 1 -> center_of_mass ex_cube [(v, 1)] = v.
Proof.
  intros. rewrite (C11_center_of_mass_coincident ex_cube v); [apply cube_wrap; auto|apply ex_cube_positive|repeat split; auto|discriminate|simpl; lra|]. intros a [<-|[]]. auto.
Qed.
Theorem C42_masses_refuted : exists bx pts idx l r c, positive bx /\ length l = length pts /\ cluster_properties bx pts idx (Some l) = Some r /\ (c < cp_num r)%nat /\
  cp_coms r c <> center_of_mass bx (map (own pts (Some l)) (members idx c)).
Proof.
  exists ex_cube, [V3 0 0 0; V3 1 0 0; V3 2 0 0], [1; 0; 0]%nat, [1; 0; 1]. eexists. exists 0%nat. split; [apply ex_cube_positive|]. split; auto. split; [reflexivity|]. split; [cbn; lia|].
  cbn [cp_coms]. match goal with |- ?x <> _ => replace x with (V3 1 0 0) end.
  - match goal with |- _ <> ?y => replace y with (V3 2 0 0) end; [intros E; apply (f_equal vx) in E; simpl in E; lra|].
    unfold members, own, mass_at. cbn [length seq filter nth Nat.eqb map]. rewrite com_drop', com_cube; auto; simpl; lra.
  - unfold centers_all, tally_all, tally_step, center_step. cbn -[center_of_mass]. unfold fset. cbn -[center_of_mass]. rewrite com_drop, com_cube; auto; simpl; lra.
Qed.
(** The length of masses is not compared with the number of points: a shorter array is read beyond its end. *)
Theorem C42_short_masses_refuted : exists bx pts idx l, positive bx /\ length idx = length pts /\ length pts = 2%nat /\ cluster_properties bx pts idx (Some l) = None.
Proof. exists ex_cube, [v0; v0], [0; 0]%nat, [1]. split; [apply ex_cube_positive|]. auto. Qed.
(** A case meeting the hypotheses: two points in cluster 0 with masses, sorted by cluster. *)
Example C42_ex : exists r, cluster_properties ex_cube [V3 0 0 0; V3 1 0 0; V3 2 0 0] [0; 0; 1]%nat (Some [1; 3; 2]) = Some r /\ cp_num r = 2%nat /\ cp_sizes r 0%nat = 2%nat /\ cp_masses r 0%nat = 4 /\ cp_masses r 1%nat = 2 /\
  cp_coms r 1%nat = center_of_mass ex_cube [(V3 2 0 0, 2)].
Proof.
  eexists. split; [reflexivity|]. cbn [cp_num cp_sizes cp_masses cp_coms]. unfold centers_all, tally_all, tally_step, center_step. cbn -[center_of_mass]. unfold fset. cbn -[center_of_mass].
  split; auto. split; auto. split; [lra|]. split; [lra|]. auto.
Qed.
Print Assumptions C42_sizes.
Print Assumptions C42_com_sorted.
Print Assumptions C42_masses_refuted.
