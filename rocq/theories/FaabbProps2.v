(** C78: which ball queries of AABBQuery are refused, in terms of the numbers. *)
From Coq Require Import Psatz.
From Flocq Require Import Core.
From Verif Require Import NListProofs MArrayProofs F32Proofs Vec FaabbProofs FaabbProofs2 FaabbProps FcellProofs3 FnearProofs FnearProps FaabbSpec.
Open Scope R_scope.

Lemma double_exact (r : f32) : finite r = true -> Rabs (val r) <= bpow radix2 60 -> is (fmul r (lit 2 0)) (2 * val r).
Proof.
  intros F B. destruct (is_lit_Z 2 ltac:(lia)) as [F2 V2].
  assert (X : fmt (val r * 2)).
  { assert (G := fmt_val r). apply FLT_format_generic in G; [|typeclasses eauto]. destruct G as [[m e] E M Ee]. cbn [Fnum Fexp] in *. rewrite E. unfold F2R. cbn [Fnum Fexp].
    replace (IZR m * bpow radix2 e * 2) with (IZR m * bpow radix2 (e + 1)) by (rewrite bpow_plus; change (bpow radix2 1) with 2; ring). apply fmt_F2R; [exact M|]. unfold SpecFloat.emin in Ee. lia. }
  assert (L : bpow radix2 61 <= bpow radix2 127) by (apply bpow_le; lia). assert (D : bpow radix2 61 = 2 * bpow radix2 60) by (change 61%Z with (1 + 60)%Z; rewrite bpow_plus; reflexivity).
  destruct (is_mul r (lit 2 0) F F2) as [FM VM]. { rewrite V2. unfold fits. rewrite Rabs_mult, (Rabs_pos_eq 2) by lra. lra. }
  split; auto. rewrite VM, V2, rnd_fmt; [ring|exact X].
Qed.
(** A query is refused exactly if the radius is not positive, not above r_min, or twice the radius reaches a periodic side. *)
Theorem C78_refused b points q qi r_max r_min excl check : points <> [] -> Forall fin3 points -> plain_box b ->
  finite r_max = true -> Rabs (val r_max) <= bpow radix2 60 -> finite r_min = true ->
  (faabb_ball b points q qi r_max r_min excl check None <->
   val r_max <= 0 \/ val r_max <= val r_min \/
   (check = true /\ ((fpx b = true /\ val (fvx (fL b)) <= 2 * val r_max) \/ (fpy b = true /\ val (fvy (fL b)) <= 2 * val r_max) \/
      (f2d b = false /\ fpz b = true /\ val (fvz (fL b)) <= 2 * val r_max)))).
Proof.
  intros HN HF PB FM BM Fm.
  assert (A : fpoint_args_ok r_max r_min = false <-> val r_max <= 0 \/ val r_max <= val r_min).
  { unfold fpoint_args_ok. assert (Z0 := leb_val r_max fzero FM eq_refl). change (val fzero) with 0 in Z0. assert (Z1 := leb_val r_max r_min FM Fm). destruct (Bleb r_max fzero), (Bleb r_max r_min); cbn [negb andb]; intuition; try congruence. }
  assert (I : fimage_check b r_max = true <-> (fpx b = true /\ val (fvx (fL b)) <= 2 * val r_max) \/ (fpy b = true /\ val (fvy (fL b)) <= 2 * val r_max) \/ (f2d b = false /\ fpz b = true /\ val (fvz (fL b)) <= 2 * val r_max)).
  { destruct (planes_val b PB) as ([F1 V1] & [F2 V2] & [F3 V3']). destruct (double_exact r_max FM BM) as [FD VD]. unfold fimage_check. rewrite <- VD, <- V1, <- V2, <- V3', <- !leb_val by auto. cbv zeta.
    rewrite !Bool.orb_true_iff, !Bool.andb_true_iff, Bool.negb_true_iff. tauto. }
  split.
  - intros H. destruct (C78_ball _ _ _ _ _ _ _ _ _ HN HF H) as [[_ [E|[E1 E2]]]|(im & l & _ & _ & E & _)]; [apply A in E; tauto|apply I in E2; tauto|discriminate].
  - intros H. unfold faabb_ball. destruct (fpoint_args_ok r_max r_min) eqn:O; auto. destruct H as [H|[H|[C H]]]; [exfalso; assert (true = false) by (apply A; auto); discriminate|exfalso; assert (true = false) by (apply A; auto); discriminate|].
    apply I in H. unfold fimages. rewrite C, H. reflexivity.
Qed.
Example C78_refused_case : plain_box edge_box /\ Forall fin3 two_points /\ finite (lit 3 0) = true /\ Rabs (val (lit 3 0)) <= bpow radix2 60 /\ fpx edge_box = true.
Proof.
  split; [apply C78_inside_case|]. split; [apply points_fin; apply C78_inside_case|]. destruct (is_lit_Z 3 ltac:(lia)) as [F V]. split; [exact F|]. split; [rewrite V, Rabs_pos_eq by lra; apply Rle_trans with (bpow radix2 2); [cbn; lra|apply bpow_le; lia]|reflexivity].
Qed.
Print Assumptions C78_refused.
