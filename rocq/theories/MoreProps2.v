(** C95: neighbours, RDFs, densities and voxels of a system put together from parts. *)
From Coq Require Import Reals ZArith List Permutation Lia Lra.
From Verif Require Import RBase Vec BoxProofs ParProofs MArrayProofs NListProofs NListProofs2 NListProps AABBProofs2 AABBProps LinkCellProps CellQueryProps QueryProofs QueryProps RdfProps GridProofs VoxProps GaussProps.
From Verif Require Import NListSpec QueryArgSpec RdfShell RdfSpec GridSpec MoreSpec BoxSpec QuerySpec.
Import ListNotations.
Local Open Scope R_scope.

Lemma setting_points b A qs p r A' : setting b A qs p r -> A' <> [] -> incl A' A -> (length A' <= length A)%nat -> setting b A' qs p r.
Proof. intros [Hb FP Hne Hn HPt Hqne HQ S W As R0 R1 RO] N I L. constructor; auto. lia. Qed.
Lemma setting_queries b A qs p r qs' : setting b A qs p r -> qs' <> [] -> incl qs' qs -> setting b A qs' p r.
Proof. intros [Hb FP Hne Hn HPt Hqne HQ S W As R0 R1 RO] N I. constructor; auto. Qed.

(** The neighbours among A and B together are those among A and those among B, whatever method is used for which. *)
Theorem C95_points be be1 be2 b A B qs p r ls l1 l2 : setting b (A ++ B) qs p r -> A <> [] -> B <> [] -> or_else (pa_excl p) false = false -> usable be b (A ++ B) -> usable be1 b A -> usable be2 b B ->
  py_query be b (A ++ B) qs p (Some ls) -> py_query be1 b A qs p (Some l1) -> py_query be2 b B qs p (Some l2) ->
  forall i, (i < length qs)%nat -> Permutation (nth i ls []) (nth i l1 [] ++ map (points_before (length A)) (nth i l2 [])).
Proof.
  intros St NA NB Ex U U1 U2 Q Q1 Q2 i Hi.
  assert (SA : setting b A qs p r) by (apply (setting_points b (A ++ B)); auto; [intros x Hx; apply in_or_app; auto|rewrite app_length; lia]).
  assert (SB : setting b B qs p r) by (apply (setting_points b (A ++ B)); auto; [intros x Hx; apply in_or_app; auto|rewrite app_length; lia]).
  destruct (C32_ball be b _ qs p r St U) as (k & E & _ & H). apply E in Q. injection Q as ->. destruct (C32_ball be1 b _ qs p r SA U1) as (k1 & E1 & _ & H1). apply E1 in Q1. injection Q1 as ->.
  destruct (C32_ball be2 b _ qs p r SB U2) as (k2 & E2 & _ & H2). apply E2 in Q2. injection Q2 as ->. clear E E1 E2. destruct (H i Hi) as [N I], (H1 i Hi) as [N1 I1], (H2 i Hi) as [N2 I2]. rewrite Ex in *.
  apply NoDup_Permutation; auto.
  - apply NoDup_app_intro; auto.
    + apply FinFun.Injective_map_NoDup; auto. intros [q1 p1 d1 w1 v1] [q2 p2 d2 w2 v2] X. unfold points_before in X. simpl in X. injection X as -> X -> -> ->. f_equal. lia.
    + intros x X1 X2. apply I1 in X1 as (j & ? & ? & ? & Hj & _ & _ & _ & _ & ->). apply in_map_iff in X2 as (y & X2 & _). apply (f_equal bp) in X2. simpl in X2. lia.
  - intros x. rewrite I, in_app_iff, I1, in_map_iff.
    assert (SEP1 : forall j i1 i2 i3, (j < length A)%nat -> sep b (A ++ B) (nth i qs v0) j i1 i2 i3 = sep b A (nth i qs v0) j i1 i2 i3) by (intros; unfold sep; rewrite app_nth1; auto).
    assert (SEP2 : forall j i1 i2 i3, sep b (A ++ B) (nth i qs v0) (j + length A) i1 i2 i3 = sep b B (nth i qs v0) j i1 i2 i3) by (intros; unfold sep; rewrite app_nth2 by lia; do 3 f_equal; lia). split.
    + intros (j & i1 & i2 & i3 & Hj & Al & Im & E & D & ->). rewrite app_length in Hj. destruct (lt_dec j (length A)) as [L|L].
      * left. rewrite SEP1 in * by auto. exists j, i1, i2, i3. split; [exact L|]. split; [exact Al|]. split; [exact Im|]. split; [exact E|]. split; [exact D|reflexivity].
      * right. set (j' := (j - length A)%nat). assert (j = j' + length A)%nat as Ej by (unfold j'; lia). rewrite Ej, SEP2 in *. eexists. split; [|apply I2; exists j', i1, i2, i3; split; [lia|]; split; [exact Al|]; split; [exact Im|]; split; [intros [? _]; discriminate|]; split; [exact D|reflexivity]]. reflexivity.
    + intros [(j & i1 & i2 & i3 & Hj & Al & Im & E & D & ->)|(y & <- & Y)].
      * exists j, i1, i2, i3. rewrite SEP1, app_length by auto. split; [lia|]. split; [exact Al|]. split; [exact Im|]. split; [exact E|]. split; [exact D|reflexivity].
      * apply I2 in Y as (j & i1 & i2 & i3 & Hj & Al & Im & E & D & ->). exists (j + length A)%nat, i1, i2, i3. rewrite SEP2, app_length. split; [lia|]. split; [exact Al|]. split; [exact Im|]. split; [intros [? _]; discriminate|]. split; [exact D|reflexivity].
Qed.
(** Query points do not influence each other. *)
Theorem C95_queries be be1 be2 b points Q1 Q2 p r ls l1 l2 : setting b points (Q1 ++ Q2) p r -> Q1 <> [] -> Q2 <> [] -> or_else (pa_excl p) false = false -> usable be b points -> usable be1 b points -> usable be2 b points ->
  py_query be b points (Q1 ++ Q2) p (Some ls) -> py_query be1 b points Q1 p (Some l1) -> py_query be2 b points Q2 p (Some l2) ->
  length ls = (length l1 + length l2)%nat /\ (forall i, (i < length Q1)%nat -> Permutation (nth i ls []) (nth i l1 [])) /\
  forall i, (i < length Q2)%nat -> Permutation (nth (i + length Q1) ls []) (map (queries_before (length Q1)) (nth i l2 [])).
Proof.
  intros St NA NB Ex U U1 U2 Q Qa Qb.
  assert (SA : setting b points Q1 p r) by (apply (setting_queries b points (Q1 ++ Q2)); auto; intros x Hx; apply in_or_app; auto).
  assert (SB : setting b points Q2 p r) by (apply (setting_queries b points (Q1 ++ Q2)); auto; intros x Hx; apply in_or_app; auto).
  destruct (C32_ball be b _ _ p r St U) as (k & E & L & H). apply E in Q. injection Q as ->. destruct (C32_ball be1 b _ _ p r SA U1) as (k1 & E1 & L1 & H1). apply E1 in Qa. injection Qa as ->.
  destruct (C32_ball be2 b _ _ p r SB U2) as (k2 & E2 & L2 & H2). apply E2 in Qb. injection Qb as ->. clear E E1 E2. rewrite app_length in *. rewrite Ex in *. split; [lia|]. split; intros i Hi.
  - destruct (H i ltac:(lia)) as [N I], (H1 i Hi) as [N1 I1]. apply NoDup_Permutation; auto. intros x. rewrite I, I1, app_nth1 by auto. tauto.
  - destruct (H (i + length Q1)%nat ltac:(lia)) as [N I], (H2 i Hi) as [N2 I2]. rewrite app_nth2 in I by lia. replace (i + length Q1 - length Q1)%nat with i in I by lia. apply NoDup_Permutation; auto.
    + apply FinFun.Injective_map_NoDup; auto. intros [q1 p1 d1 w1 v1] [q2 p2 d2 w2 v2] X. unfold queries_before in X. simpl in X. injection X as X -> -> -> ->. f_equal. lia.
    + intros x. rewrite I, in_map_iff. split.
      * intros (j & i1 & i2 & i3 & Hj & Al & Im & E & D & ->). eexists. split; [|apply I2; exists j, i1, i2, i3; split; [exact Hj|]; split; [exact Al|]; split; [exact Im|]; split; [intros [? _]; discriminate|]; split; [exact D|reflexivity]]. reflexivity.
      * intros (y & <- & Y). apply I2 in Y as (j & i1 & i2 & i3 & Hj & Al & Im & E & D & ->). exists j, i1, i2, i3. split; [exact Hj|]. split; [exact Al|]. split; [exact Im|]. split; [intros [? _]; discriminate|]. split; [exact D|reflexivity].
Qed.
Print Assumptions C95_points.
Print Assumptions C95_queries.
