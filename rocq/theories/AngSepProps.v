(** C46: angular separations. *)
From Verif Require Import AngSepSpec QuatProofs QuatProps MatchEnvProofs NListProofs ParProofs AngSepProofs Vec.
From Coq Require Import Lra Lia.
Local Open Scope R_scope.

Lemma acos_anti x y : -1 <= x -> x <= y -> y <= 1 -> acos y <= acos x.
Proof.
  intros Hx Hxy Hy. destruct (Rle_lt_dec (acos y) (acos x)) as [|C]; auto. exfalso.
  pose proof (acos_bound x). pose proof (acos_bound y).
  assert (E : cos (acos y) < cos (acos x)) by (apply cos_decreasing_1; lra). rewrite !cos_acos in E by lra. lra.
Qed.

Lemma qdot_range a b : unitq a -> unitq b -> -1 <= qdot a b <= 1.
Proof.
  rewrite !unitq_norm2. intros Ha Hb. assert (N := qnorm2_mul b (qconj a)).
  assert (qnorm2 (qconj a) = qnorm2 a) as E by (unfold qnorm2, dot; simpl; ring).
  rewrite E, Ha, Hb in N. assert (S : qs (qmul b (qconj a)) = qdot a b) by (unfold qdot, dot; simpl; unfold dot; simpl; ring).
  unfold qnorm2 in N. rewrite S in N. pose proof (dot_nonneg (qv (qmul b (qconj a)))). split; nra.
Qed.
Lemma sep_angle_dot a b : unitq a -> unitq b -> sep_angle a b = 2 * acos (qdot a b).
Proof.
  intros Ha Hb. pose proof (qdot_range a b Ha Hb). unfold sep_angle, clamp.
  replace (qs (qmul b (qconj a))) with (qdot a b) by (unfold qdot, dot; simpl; unfold dot; simpl; ring).
  rewrite Rmin_left by lra. rewrite Rmax_right by lra. reflexivity.
Qed.
Lemma trace_dot a b : unitq a -> unitq b -> trace (rmul (rot_of_quat b) (rtrans (rot_of_quat a))) = 4 * (qdot a b * qdot a b) - 1.
Proof.
  intros Ha Hb. rewrite <- rot_conj, <- rot_mul.
  assert (U : unitq (qmul b (qconj a))) by (apply unitq_mul; [|apply unitq_conj]; assumption).
  assert (S : qs (qmul b (qconj a)) = qdot a b) by (unfold qdot, dot; simpl; unfold dot; simpl; ring).
  rewrite <- S. destruct (qmul b (qconj a)) as [s [x y z]]. unfold unitq in U; simpl in U. unfold trace; simpl. lra.
Qed.
Lemma turn_angle_iff a b t : unitq a -> unitq b -> (turn_angle a b t <-> t = 2 * acos (Rabs (qdot a b))).
Proof.
  intros Ha Hb. unfold turn_angle. rewrite trace_dot by assumption. pose proof (qdot_range a b Ha Hb) as D.
  destruct (half_angle t) as (C & _ & P). set (d := qdot a b) in *.
  assert (A : 0 <= Rabs d <= 1) by (split; [apply Rabs_pos|apply Rabs_le; lra]).
  assert (AA : Rabs d * Rabs d = d * d) by (rewrite <- Rabs_mult; apply Rabs_pos_eq; apply Rle_0_sqr).
  split.
  - intros [Ht E]. assert (Hc : 0 <= cos (t / 2)) by (apply cos_ge_0; pose proof PI_RGT_0; lra).
    assert (S : cos (t / 2) * cos (t / 2) = Rabs d * Rabs d) by lra.
    assert (cos (t / 2) = Rabs d) as F.
    { apply Rsqr_inj; auto; [lra]. }
    rewrite <- F, acos_cos by lra. lra.
  - intros ->. pose proof (acos_bound (Rabs d)). split.
    + split; [lra|]. assert (acos (Rabs d) <= acos 0) as B by (apply acos_anti; lra). rewrite acos_0 in B. lra.
    + replace (2 * acos (Rabs d) / 2) with (acos (Rabs d)) in * by field. rewrite cos_acos in C, P by lra. lra.
Qed.

Lemma fold_min (f : quat -> R) l : forall a,
  let r := fold_left (fun m x => let v := f x in if Rlt_bool v m then v else m) l a in
  r <= a /\ (forall x, In x l -> r <= f x) /\ (r = a \/ exists x, In x l /\ r = f x).
Proof.
  induction l as [|x l IH]; intros a r; [split; [unfold r; simpl; lra|split; [intros ? []|left; reflexivity]]|].
  unfold r; simpl. destruct (Rlt_bool_spec (f x) a) as [H|H].
  - destruct (IH (f x)) as (I1 & I2 & I3). split; [lra|]. split.
    + intros y [<-|Hy]; auto.
    + right. destruct I3 as [E|(y & Hy & E)]; [exists x; split; [left; auto|exact E]|exists y; split; [right; auto|exact E]].
  - destruct (IH a) as (I1 & I2 & I3). split; [exact I1|]. split.
    + intros y [<-|Hy]; auto. lra.
    + destruct I3 as [E|(y & Hy & E)]; [left; exact E|right; exists y; split; [right; auto|exact E]].
Qed.

Lemma least_angle_unique G a b s t : least_angle G a b s -> least_angle G a b t -> s = t.
Proof.
  intros [(g & Hg & Eg) Lg] [(h & Hh & Eh) Lh]. apply Rle_antisym; [apply (Lg h); auto|apply (Lh g); auto].
Qed.

(** C46, the angle.  With a symmetry group as documented, the value computed for two unit orientations is the least angle, over all
    equivalent orientations, of the rotation that takes one to the other; it lies in [0, pi]. *)
Theorem C46_least_angle G a b : symmetries G -> unitq a -> unitq b ->
  exists theta, min_sep_angle a b G = Some theta /\ 0 <= theta <= PI /\ least_angle G a b theta.
Proof.
  intros (Hne & Hg & Hm) Ha Hb. destruct G as [|e0 G']; [congruence|]. set (G := e0 :: G') in *.
  assert (He0 : In e0 G) by (left; reflexivity). destruct (Hg _ He0) as (U0 & _ & C0).
  assert (Hu : forall g, In g G -> unitq (qmul b g)) by (intros g Ig; apply unitq_mul; [exact Hb|apply Hg; exact Ig]).
  unfold min_sep_angle. fold G.
  set (f := fun qe => sep_angle a (qmul (qmul b (qconj e0)) qe)).
  change (exists theta, Some (fold_left (fun m x => let v := f x in if Rlt_bool v m then v else m) G (sep_angle a b)) = Some theta /\ 0 <= theta <= PI /\ least_angle G a b theta).
  destruct (fold_min f G (sep_angle a b)) as (L0 & L1 & L2).
  set (r := fold_left _ G _) in *. exists r. split; [reflexivity|].
  assert (Ef : forall x, f x = sep_angle a (qmul b (qmul (qconj e0) x))) by (intros; unfold f; rewrite <- qmul_assoc; reflexivity).
  assert (Least : forall g, In g G -> r <= 2 * acos (qdot a (qmul b g))).
  { intros g Ig. rewrite <- sep_angle_dot by auto.
    assert (E : f (qmul e0 g) = sep_angle a (qmul b g)).
    { rewrite Ef, (qmul_assoc (qconj e0)), unit_inv_l, qmul_id_l; auto. }
    rewrite <- E. apply L1. apply Hm; auto. }
  assert (Att : exists g, In g G /\ r = 2 * acos (qdot a (qmul b g))).
  { destruct L2 as [E|(x & Hx & E)].
    - exists (qmul (qconj e0) e0). split; [apply Hm; auto|]. rewrite unit_inv_l, qmul_id_r by auto. rewrite <- sep_angle_dot; auto.
    - exists (qmul (qconj e0) x). assert (In (qmul (qconj e0) x) G) by (apply Hm; auto). split; auto.
      rewrite <- sep_angle_dot by auto. rewrite <- Ef. exact E. }
  assert (Opp : forall g, qdot a (qmul b (qopp g)) = - qdot a (qmul b g)) by (intros; unfold qdot, dot; simpl; unfold dot; simpl; ring).
  assert (LeastAbs : forall g, In g G -> r <= 2 * acos (Rabs (qdot a (qmul b g)))).
  { intros g Ig. unfold Rabs. destruct (Rcase_abs _); [|apply Least; exact Ig]. rewrite <- Opp. apply Least. apply Hg. exact Ig. }
  assert (AttAbs : exists g, In g G /\ turn_angle a (qmul b g) r).
  { destruct Att as (g & Ig & E). exists g. split; [exact Ig|]. apply turn_angle_iff; auto.
    pose proof (LeastAbs g Ig) as B. apply Rle_antisym; [exact B|]. rewrite E.
    pose proof (qdot_range a _ Ha (Hu g Ig)). pose proof (Rle_abs (qdot a (qmul b g))).
    assert (Rabs (qdot a (qmul b g)) <= 1) by (apply Rabs_le; lra).
    pose proof (acos_anti (qdot a (qmul b g)) (Rabs (qdot a (qmul b g))) ltac:(lra) ltac:(lra) ltac:(lra)). lra. }
  split; [destruct AttAbs as (g & _ & [B _]); exact B|]. split; [exact AttAbs|].
  intros g t Ig Ht. apply turn_angle_iff in Ht; auto. subst t. apply LeastAbs. exact Ig.
Qed.

Lemma sym_id G : symmetries G -> In qid G.
Proof.
  intros (Hne & Hg & Hm). destruct G as [|e0 G]; [congruence|].
  destruct (Hg e0) as (U & _ & C); [left; auto|]. rewrite <- (unit_inv_l e0 U). apply Hm; [exact C|left; auto].
Qed.
Lemma turn_angle_swap a b t : unitq a -> unitq b -> turn_angle a b t -> turn_angle b a t.
Proof.
  intros Ha Hb H. apply turn_angle_iff in H; auto. apply turn_angle_iff; auto. rewrite H.
  replace (qdot b a) with (qdot a b); [reflexivity|unfold qdot, dot; ring].
Qed.
Lemma least_shift_r G a b g theta : symmetries G -> In g G -> unitq b -> least_angle G a b theta -> least_angle G a (qmul b g) theta.
Proof.
  intros (Hne & Hg & Hm) Ig Hb [(k & Ik & Tk) L]. destruct (Hg g Ig) as (Ug & _ & Cg). split.
  - exists (qmul (qconj g) k). split; [apply Hm; auto|]. rewrite <- qmul_assoc, (qmul_assoc g), unit_inv_r, qmul_id_l; auto.
  - intros h t Ih Ht. apply (L (qmul g h)); [apply Hm; auto|]. rewrite qmul_assoc. exact Ht.
Qed.
Lemma least_swap G a b theta : symmetries G -> unitq a -> unitq b -> least_angle G a b theta -> least_angle G b a theta.
Proof.
  intros (Hne & Hg & Hm) Ha Hb [(k & Ik & Tk) L].
  assert (Sh : forall x y g t, unitq x -> unitq y -> In g G -> turn_angle x (qmul y g) t -> turn_angle y (qmul x (qconj g)) t).
  { intros x y g t Hx Hy Ig Ht. destruct (Hg g Ig) as (Ug & _ & Cg). apply turn_angle_iff in Ht; auto using unitq_mul.
    apply turn_angle_iff; auto using unitq_mul, unitq_conj. rewrite Ht.
    replace (qdot y (qmul x (qconj g))) with (qdot x (qmul y g)); [reflexivity|].
    unfold qdot, dot; simpl; unfold dot; simpl; ring. }
  split.
  - exists (qconj k). split; [apply Hg; exact Ik|]. apply Sh; auto.
  - intros g t Ig Ht. apply (L (qconj g)); [apply Hg; exact Ig|]. apply Sh; auto.
Qed.

(** The value does not depend on which of the equivalent orientations is given, for either argument, nor on the order of the two. *)
Theorem C46_symmetric G a b g : symmetries G -> unitq a -> unitq b -> In g G ->
  min_sep_angle a (qmul b g) G = min_sep_angle a b G /\ min_sep_angle (qmul a g) b G = min_sep_angle a b G /\
  min_sep_angle b a G = min_sep_angle a b G /\ min_sep_angle a (qopp b) G = min_sep_angle a b G.
Proof.
  intros HG Ha Hb Ig. destruct (C46_least_angle G a b HG Ha Hb) as (t & E & _ & L).
  assert (Ug : forall g, In g G -> unitq g) by (intros; apply (proj1 (proj2 HG)); assumption).
  assert (Shift : forall g, In g G -> min_sep_angle a (qmul b g) G = Some t).
  { intros k Ik. destruct (C46_least_angle G a (qmul b k) HG Ha (unitq_mul _ _ Hb (Ug k Ik))) as (t1 & E1 & _ & L1). rewrite E1.
    f_equal. apply (least_angle_unique G a (qmul b k)); auto. apply least_shift_r; auto. }
  rewrite E. split; [auto|]. split; [|split].
  - destruct (C46_least_angle G (qmul a g) b HG (unitq_mul _ _ Ha (Ug g Ig)) Hb) as (t2 & E2 & _ & L2). rewrite E2.
    f_equal. apply (least_angle_unique G (qmul a g) b); auto.
    apply least_swap; auto using unitq_mul. apply least_shift_r; auto. apply least_swap; auto.
  - destruct (C46_least_angle G b a HG Hb Ha) as (t3 & E3 & _ & L3). rewrite E3. f_equal. apply (least_angle_unique G b a); auto.
    apply least_swap; auto.
  - replace (qopp b) with (qmul b (qopp qid)) by (apply quat_eq; [simpl; unfold dot; simpl; ring|apply vec_eq; simpl; ring]).
    apply Shift. destruct HG as (H1 & H2 & H3). apply H2. apply sym_id. repeat split; auto; apply H2; auto.
Qed.

(** C46, AngularSeparationNeighbor.  When the points query themselves (same points, same orientations) every bond gets the least
    angle between its two points, for every division of the range and every order of the sub-ranges. *)
Theorem C46_neighbor (nl : nlist) (o G : list quat) cs cs' :
  valid_bonds (length o) (length o) (nl_bonds nl) ->
  symmetries G -> Forall unitq o -> chunking 0 (length o) cs -> Permutation cs cs' ->
  exists angles, sep_neighbor nl (length o) o o G cs' = Some angles /\ length angles = length (nl_bonds nl) /\
    forall k, (k < length (nl_bonds nl))%nat -> let b := nth k (nl_bonds nl) bond0 in
      least_angle G (nth (bq b) o qid) (nth (bp b) o qid) (nth k angles 0).
Proof.
  intros [HS HV] HG HU Hc HP.
  assert (Hu : forall i, unitq (nth i o qid)).
  { intros i. destruct (nth_in_or_default i o qid) as [H|H]; [rewrite Forall_forall in HU; auto|rewrite H; apply unitq_id]. }
  set (h := fun m => match min_sep_angle (nth (bq (nth m (nl_bonds nl) bond0)) o qid) (nth (bp (nth m (nl_bonds nl) bond0)) o qid) G with
                     | Some t => t | None => 0 end).
  assert (Hv : forall m, (m < length (nl_bonds nl))%nat -> (bq (nth m (nl_bonds nl) bond0) < length o)%nat /\ (bp (nth m (nl_bonds nl) bond0) < length o)%nat).
  { intros m Hm. apply HV. apply nth_In. exact Hm. }
  destruct (sep_neighbor_ok nl o o G h (length o) HS (le_n _)) with (cs := cs) (cs' := cs') as (a & E & La & V); auto.
  { intros m Hm _. destruct (Hv m Hm) as [V1 V2]. exists (nth (bp (nth m (nl_bonds nl) bond0)) o qid).
    split; [apply nth_error_g; exact V2|]. unfold h.
    destruct (C46_least_angle G _ _ HG (Hu (bq (nth m (nl_bonds nl) bond0))) (Hu (bp (nth m (nl_bonds nl) bond0)))) as (t & Et & _). rewrite Et. reflexivity. }
  exists a. split; [exact E|]. split; [exact La|]. intros k Hk b. rewrite (V k Hk).
  destruct (Hv k Hk) as [V1 V2]. apply Nat.ltb_lt in V1. rewrite V1. unfold h.
  destruct (C46_least_angle G _ _ HG (Hu (bq b)) (Hu (bp b))) as (t & Et & _ & L). fold b. rewrite Et. exact L.
Qed.

(** What it computes in general: the roles of the two orientation arrays are exchanged, and the bonds of query points beyond the
    number of points keep the value 0. *)
Theorem C46_neighbor_actual (nl : nlist) (o qo G : list quat) cs cs' :
  sorted_q (nl_bonds nl) -> (forall b, In b (nl_bonds nl) -> (bp b < length qo)%nat) ->
  symmetries G -> Forall unitq o -> Forall unitq qo -> chunking 0 (length o) cs -> Permutation cs cs' ->
  exists angles, sep_neighbor nl (length o) o qo G cs' = Some angles /\ length angles = length (nl_bonds nl) /\
    forall k, (k < length (nl_bonds nl))%nat -> let b := nth k (nl_bonds nl) bond0 in
      ((bq b < length o)%nat -> least_angle G (nth (bq b) o qid) (nth (bp b) qo qid) (nth k angles 0)) /\
      ((length o <= bq b)%nat -> nth k angles 0 = 0).
Proof.
  intros HS HV HG HU HU' Hc HP.
  assert (Hu : forall l i, Forall unitq l -> unitq (nth i l qid)).
  { intros l i Hl. destruct (nth_in_or_default i l qid) as [H|H]; [rewrite Forall_forall in Hl; auto|rewrite H; apply unitq_id]. }
  set (h := fun m => match min_sep_angle (nth (bq (nth m (nl_bonds nl) bond0)) o qid) (nth (bp (nth m (nl_bonds nl) bond0)) qo qid) G with
                     | Some t => t | None => 0 end).
  destruct (sep_neighbor_ok nl o qo G h (length o) HS (le_n _)) with (cs := cs) (cs' := cs') as (a & E & La & V); auto.
  { intros m Hm _. exists (nth (bp (nth m (nl_bonds nl) bond0)) qo qid).
    split; [apply nth_error_g; apply HV; apply nth_In; exact Hm|]. unfold h.
    destruct (C46_least_angle G _ _ HG (Hu o (bq (nth m (nl_bonds nl) bond0)) HU) (Hu qo (bp (nth m (nl_bonds nl) bond0)) HU')) as (t & Et & _). rewrite Et. reflexivity. }
  exists a. split; [exact E|]. split; [exact La|]. intros k Hk b. rewrite (V k Hk). fold b. split.
  - intros V1. apply Nat.ltb_lt in V1. rewrite V1. unfold h. fold b.
    destruct (C46_least_angle G _ _ HG (Hu o (bq b) HU) (Hu qo (bp b) HU')) as (t & Et & _ & L). rewrite Et. exact L.
  - intros V1. apply Nat.ltb_ge in V1. rewrite V1. reflexivity.
Qed.

(** The group {1, -1} and an orientation turned by half a turn. *)
Definition trivial_group : list quat := [qid; qopp qid].
Definition half_turn_x : quat := Q 0 (V3 1 0 0).
Lemma trivial_symmetries : symmetries trivial_group.
Proof.
  assert (E1 : qopp (qopp qid) = qid) by (apply quat_eq; [simpl; ring|apply vec_eq; simpl; ring]).
  assert (E2 : qconj qid = qid) by (apply quat_eq; [simpl; ring|apply vec_eq; simpl; ring]).
  assert (E3 : qconj (qopp qid) = qopp qid) by (apply quat_eq; [simpl; ring|apply vec_eq; simpl; ring]).
  assert (E4 : qmul (qopp qid) (qopp qid) = qid) by (apply quat_eq; [simpl; unfold dot; simpl; ring|apply vec_eq; simpl; ring]).
  split; [discriminate|]. split.
  - intros g [<-|[<-|[]]]; (split; [try apply unitq_id; apply unitq_opp, unitq_id|]); rewrite ?E1, ?E2, ?E3; simpl; auto.
  - intros g h [<-|[<-|[]]] [<-|[<-|[]]]; rewrite ?qmul_id_l, ?qmul_id_r, ?E4; simpl; auto.
Qed.
Lemma half_turn_unit : unitq half_turn_x. Proof. unfold unitq; simpl; ring. Qed.
Lemma least_half : least_angle trivial_group qid half_turn_x PI /\ least_angle trivial_group qid qid 0.
Proof.
  split.
  - destruct (C46_least_angle trivial_group qid half_turn_x trivial_symmetries unitq_id half_turn_unit) as (t & _ & _ & L).
    replace PI with t; auto. destruct L as [(g & Hg & Ht) _]. apply turn_angle_iff in Ht; auto using unitq_id.
    2: { apply unitq_mul; [apply half_turn_unit|]. destruct Hg as [<-|[<-|[]]]; [|apply unitq_opp]; apply unitq_id. }
    assert (Z : qdot qid (qmul half_turn_x g) = 0) by (destruct Hg as [<-|[<-|[]]]; unfold qdot, dot; simpl; unfold dot; simpl; ring).
    rewrite Z, Rabs_R0, acos_0 in Ht. lra.
  - destruct (C46_least_angle trivial_group qid qid trivial_symmetries unitq_id unitq_id) as (t & _ & B & L).
    replace 0 with t; auto. destruct L as [(g & Hg & Ht) _]. apply turn_angle_iff in Ht; auto using unitq_id.
    2: { apply unitq_mul; [apply unitq_id|]. destruct Hg as [<-|[<-|[]]]; [|apply unitq_opp]; apply unitq_id. }
    assert (Z : Rabs (qdot qid (qmul qid g)) = 1).
    { destruct Hg as [<-|[<-|[]]]; unfold qdot, dot; simpl; unfold dot; simpl;
      [replace (1 * (1 * 1 - _) + _) with 1 by ring; apply Rabs_R1|replace (1 * (1 * -1 - _) + _) with (-1) by ring; rewrite Rabs_left; lra]. }
    rewrite Z, acos_1 in Ht. lra.
Qed.

(** The documented reading: the orientation of the query point against the orientation of the point. *)
Definition neighbor_angles (nl : nlist) (o qo G : list quat) (angles : list R) : Prop :=
  length angles = length (nl_bonds nl) /\ forall k, (k < length (nl_bonds nl))%nat -> let b := nth k (nl_bonds nl) bond0 in
    least_angle G (nth (bq b) qo qid) (nth (bp b) o qid) (nth k angles 0).
(** Refuted: with separate query orientations the result is wrong although nothing is out of range; with more query points than points
    the bonds of the last ones keep 0; with fewer query points than points an element beyond the array is read. *)
Definition one_bond (nq np i j : nat) : nlist := NL nq np [Bond i j 1 1 (V3 1 0 0)] false [] [].
Lemma chunk1 n : (0 < n)%nat -> chunking 0 n [(0%nat, n)].
Proof. intros H. unfold chunking. destruct n; [lia|]. simpl. apply split_leaf. lia. Qed.
Theorem C46_neighbor_refuted :
  (exists nl o qo G cs angles, valid_bonds (length qo) (length o) (nl_bonds nl) /\ symmetries G /\
     Forall unitq o /\ Forall unitq qo /\ length o = length qo /\ chunking 0 (length o) cs /\
     sep_neighbor nl (length o) o qo G cs = Some angles /\ ~ neighbor_angles nl o qo G angles) /\
  (exists nl o qo G cs angles, valid_bonds (length qo) (length o) (nl_bonds nl) /\ symmetries G /\
     Forall unitq o /\ Forall unitq qo /\ chunking 0 (length o) cs /\
     sep_neighbor nl (length o) o qo G cs = Some angles /\ nth 0 angles 0 = 0 /\
     (let b := nth 0 (nl_bonds nl) bond0 in least_angle G (nth (bq b) qo qid) (nth (bp b) o qid) PI)) /\
  (exists nl o qo G cs, valid_bonds (length qo) (length o) (nl_bonds nl) /\ symmetries G /\
     Forall unitq o /\ Forall unitq qo /\ chunking 0 (length o) cs /\ sep_neighbor nl (length o) o qo G cs = None).
Proof.
  assert (S1 : forall nq np i j, sorted_q (nl_bonds (one_bond nq np i j))) by (intros nq np i j a b H; simpl in H; lia).
  assert (U1 := unitq_id). assert (U2 := half_turn_unit). assert (P := PI_RGT_0). destruct least_half as [LP L0].
  split; [|split].
  - destruct (C46_neighbor_actual (one_bond 2 2 0 1) [qid; qid] [qid; half_turn_x] trivial_group [(0%nat, 2%nat)] [(0%nat, 2%nat)])
      as (a & E & La & V); auto using trivial_symmetries, (chunk1 2 ltac:(lia)); [intros b [<-|[]]; simpl; lia|].
    exists (one_bond 2 2 0 1), [qid; qid], [qid; half_turn_x], trivial_group, [(0%nat, 2%nat)], a.
    split; [split; [apply S1|intros b [<-|[]]; simpl; lia]|]. split; [apply trivial_symmetries|]. split; [auto|]. split; [auto|].
    split; [reflexivity|]. split; [apply chunk1; simpl; lia|]. split; [exact E|].
    intros [_ N]. specialize (N 0%nat ltac:(simpl; lia)). destruct (V 0%nat ltac:(simpl; lia)) as [V0 _]. simpl in N, V0.
    specialize (V0 ltac:(lia)). pose proof (least_angle_unique _ _ _ _ _ LP V0). pose proof (least_angle_unique _ _ _ _ _ L0 N). lra.
  - destruct (C46_neighbor_actual (one_bond 2 1 1 0) [qid] [qid; half_turn_x] trivial_group [(0%nat, 1%nat)] [(0%nat, 1%nat)])
      as (a & E & La & V); auto using trivial_symmetries, (chunk1 1 ltac:(lia)); [intros b [<-|[]]; simpl; lia|].
    exists (one_bond 2 1 1 0), [qid], [qid; half_turn_x], trivial_group, [(0%nat, 1%nat)], a.
    split; [split; [apply S1|intros b [<-|[]]; simpl; lia]|]. split; [apply trivial_symmetries|]. split; [auto|]. split; [auto|].
    split; [apply chunk1; simpl; lia|]. split; [exact E|].
    split; [apply (V 0%nat ltac:(simpl; lia)); simpl; lia|]. simpl. apply least_swap; auto using trivial_symmetries.
  - exists (one_bond 1 2 0 1), [qid; qid], [qid], trivial_group, [(0%nat, 2%nat)].
    split; [split; [apply S1|intros b [<-|[]]; simpl; lia]|]. split; [apply trivial_symmetries|]. split; [auto|]. split; [auto|].
    split; [apply chunk1; simpl; lia|]. reflexivity.
Qed.

(** The default equiv_orientations (the identity alone) is not such a group: the same orientation given by q and by -q is reported
    to be a full turn apart. *)
Theorem C46_default_refuted : exists a b, unitq a /\ unitq b /\ rot_of_quat a = rot_of_quat b /\ min_sep_angle a b [qid] = Some (2 * PI).
Proof.
  exists qid, (qopp qid). split; [apply unitq_id|]. split; [apply unitq_opp, unitq_id|]. split; [symmetry; apply rot_opp|].
  unfold min_sep_angle; simpl. rewrite !sep_angle_dot by (auto using unitq_id, unitq_opp, unitq_mul, unitq_conj).
  replace (qdot qid (qopp qid)) with (- (1)) by (unfold qdot, dot; simpl; ring).
  replace (qdot qid (qmul (qmul (qopp qid) (qconj qid)) qid)) with (- (1)) by (unfold qdot, dot; simpl; unfold dot; simpl; ring).
  rewrite acos_opp, acos_1. rewrite Rlt_bool_false by lra. f_equal. ring.
Qed.

(** C46, AngularSeparationGlobal: entry (i, j) is the least angle between orientation i and global orientation j, for every execution
    of the loop. *)
Theorem C46_global (global o G : list quat) ev : symmetries G -> Forall unitq o -> Forall unitq global -> execution 0 (length o) ev ->
  exists angles, sep_global global o G ev = Some angles /\ length angles = length o /\
    forall i, (i < length o)%nat -> length (nth i angles []) = length global /\
      forall j, (j < length global)%nat -> least_angle G (nth i o qid) (nth j global qid) (nth j (nth i angles []) 0).
Proof.
  intros HG HU HU' Hev. pose proof (execution_perm _ _ _ Hev) as HP.
  assert (Hu : forall l i, Forall unitq l -> unitq (nth i l qid)).
  { intros l i Hl. destruct (nth_in_or_default i l qid) as [H|H]; [rewrite Forall_forall in Hl; auto|rewrite H; apply unitq_id]. }
  set (v := fun q g => match min_sep_angle q g G with Some t => t | None => 0 end).
  assert (Hv : forall q g, unitq q -> unitq g -> min_sep_angle q g G = Some (v q g) /\ least_angle G q g (v q g)).
  { intros q g Hq Hg. unfold v. destruct (C46_least_angle G q g HG Hq Hg) as (t & -> & _ & L). auto. }
  set (row := fun i => map (v (nth i o qid)) global).
  assert (Hrow : forall i, sep_row (nth i o qid) global G = Some (row i)).
  { intros i. apply omap_some. intros g Hg. apply Hv; auto. rewrite Forall_forall in HU'; auto. }
  assert (K : forall (ev : list (nat * nat)) (a : list (list R)), (forall e, In e ev -> (snd e < length o)%nat) -> length a = length o ->
    exists a', ofold (fun a e => match nth_error o (snd e) with Some q => option_map (put a (snd e)) (sep_row q global G) | None => None end) ev a = Some a'
      /\ length a' = length o /\ forall i, nth i a' [] = if existsb (fun e => (snd e =? i)%nat) ev then row i else nth i a []).
  { clear -Hrow. induction ev as [|e ev IH]; intros a Hb La; simpl; [exists a; auto|].
    assert (He : (snd e < length o)%nat) by (apply Hb; left; auto).
    rewrite (nth_error_g _ _ qid He), Hrow. simpl.
    destruct (IH (put a (snd e) (row (snd e)))) as (a' & E & La' & V); [intros; apply Hb; right; auto|rewrite put_length; auto|].
    exists a'. split; [exact E|]. split; [exact La'|]. intros i. rewrite V, nth_put by lia.
    rewrite (Nat.eqb_sym i). destruct (Nat.eqb_spec (snd e) i) as [->|]; simpl; auto. destruct (existsb _ ev); reflexivity. }
  assert (Hin : forall i, In i (map snd ev) <-> (i < length o)%nat).
  { intros i. split; intros H.
    - apply (Permutation_in _ HP) in H. unfold range in H. apply in_seq in H. lia.
    - apply (Permutation_in _ (Permutation_sym HP)). unfold range. apply in_seq. lia. }
  destruct (K ev (repeat (repeat 0 (length global)) (length o))) as (a & E & La & V).
  { intros e He. apply Hin. apply in_map. exact He. }
  { apply repeat_length. }
  exists a. split; [exact E|]. split; [exact La|]. intros i Hi.
  assert (X : existsb (fun e => (snd e =? i)%nat) ev = true).
  { apply existsb_exists. apply Hin in Hi. apply in_map_iff in Hi as (e & He & Ie). exists e. split; auto. apply Nat.eqb_eq. exact He. }
  rewrite V, X. unfold row. split; [apply map_length|]. intros j Hj. rewrite (nth_map_lt _ _ _ qid) by auto.
  apply Hv; auto.
Qed.

Example C46_ex : symmetries trivial_group /\ unitq half_turn_x /\ min_sep_angle qid half_turn_x trivial_group = Some PI.
Proof.
  split; [apply trivial_symmetries|]. split; [apply half_turn_unit|].
  destruct (C46_least_angle trivial_group qid half_turn_x trivial_symmetries unitq_id half_turn_unit) as (t & E & _ & L).
  rewrite E. f_equal. apply (least_angle_unique trivial_group qid half_turn_x); auto. apply least_half.
Qed.
Print Assumptions C46_neighbor.
Print Assumptions C46_global.
