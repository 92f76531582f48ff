(** The Kabsch algorithm gives the best proper rotation. *)
From Coq Require Import Psatz.
From Verif Require Import MatchEnvSpec MatchEnvProofs QuatSpec RegModel RegSpec.
Local Open Scope R_scope.

Ltac mat := unfold rmul, rtrans, rid, dot; simpl.
Lemma rmul_assoc a b c : rmul a (rmul b c) = rmul (rmul a b) c.
Proof. destruct a as [[] [] []], b as [[] [] []], c as [[] [] []]. mat. f_equal; vec_ring. Qed.
Lemma rtrans_mul a b : rtrans (rmul a b) = rmul (rtrans b) (rtrans a).
Proof. destruct a as [[] [] []], b as [[] [] []]. mat. f_equal; vec_ring. Qed.
Lemma rmul_id_r m : rmul m rid = m.
Proof. destruct m as [[] [] []]. mat. f_equal; vec_ring. Qed.
Lemma rtrans_trans m : rtrans (rtrans m) = m.
Proof. destruct m as [[] [] []]. reflexivity. Qed.
Lemma rdet_mul a b : rdet (rmul a b) = rdet a * rdet b.
Proof. destruct a as [[] [] []], b as [[] [] []]. unfold rdet. mat. ring. Qed.
Lemma rdet_trans a : rdet (rtrans a) = rdet a.
Proof. destruct a as [[] [] []]. unfold rdet. mat. ring. Qed.
Lemma rdet_id : rdet rid = 1.
Proof. unfold rdet, rid; simpl. ring. Qed.
Lemma orth_det m : orthonormal m -> rdet m * rdet m = 1.
Proof. intros [H _]. rewrite <- rdet_id, <- H, rdet_mul, rdet_trans. reflexivity. Qed.
Lemma orth_det_pm m : orthonormal m -> rdet m = 1 \/ rdet m = -1.
Proof. intros H. apply orth_det in H. assert ((rdet m - 1) * (rdet m + 1) = 0) by lra. destruct (Rmult_integral _ _ H0); lra. Qed.
Definition rtr (m : rotm) : R := vx (r0 m) + vy (r1 m) + vz (r2 m).
Lemma rtr_comm a b : rtr (rmul a b) = rtr (rmul b a).
Proof. destruct a as [[] [] []], b as [[] [] []]. unfold rtr. mat. ring. Qed.

(** The row entries of an orthonormal matrix. *)
Lemma orth_rows m : orthonormal m -> dot (r0 m) (r0 m) = 1 /\ dot (r1 m) (r1 m) = 1 /\ dot (r2 m) (r2 m) = 1.
Proof.
  intros [_ H]. destruct m as [[a b c] [d e f] [g h i]]. unfold rmul, rtrans, rid, dot in *. simpl in *.
  injection H as H1 H2 H3 H4 H5 H6 H7 H8 H9. repeat split; lra.
Qed.
Lemma sq_le_1 x r : x * x + r = 1 -> 0 <= r -> -1 <= x <= 1.
Proof. intros. split; nra. Qed.
Lemma orth_diag m : orthonormal m -> -1 <= vx (r0 m) <= 1 /\ -1 <= vy (r1 m) <= 1 /\ -1 <= vz (r2 m) <= 1.
Proof.
  intros H. destruct (orth_rows m H) as [H0 [H1 H2]]. destruct m as [[a b c] [d e f] [g h i]]. unfold dot in *. simpl in *.
  split; [|split]; [apply (sq_le_1 _ (b*b+c*c)) | apply (sq_le_1 _ (d*d+f*f)) | apply (sq_le_1 _ (g*g+h*h))]; nra.
Qed.
Lemma orth_cofactor m : orthonormal m -> cross (r0 m) (r1 m) = vscale (rdet m) (r2 m) /\ cross (r1 m) (r2 m) = vscale (rdet m) (r0 m) /\ cross (r2 m) (r0 m) = vscale (rdet m) (r1 m).
Proof.
  intros H. pose proof (orth_inv (rtrans m)) as Hi. rewrite rtrans_trans in Hi.
  specialize (fun v => Hi v (orth_trans m H)).
  refine (conj _ (conj _ _)).
  - rewrite <- (Hi (cross (r0 m) (r1 m))). destruct m as [[a b c] [d e f] [g h i]]. unfold rapply, rtrans, rdet, cross, dot; simpl. vec_ring.
  - rewrite <- (Hi (cross (r1 m) (r2 m))). destruct m as [[a b c] [d e f] [g h i]]. unfold rapply, rtrans, rdet, cross, dot; simpl. vec_ring.
  - rewrite <- (Hi (cross (r2 m) (r0 m))). destruct m as [[a b c] [d e f] [g h i]]. unfold rapply, rtrans, rdet, cross, dot; simpl. vec_ring.
Qed.
(** The trace of an improper rotation is at most one. *)
Lemma improper_trace m : orthonormal m -> rdet m = -1 -> rtr m <= 1.
Proof.
  intros H Hd. destruct (orth_cofactor m H) as [C1 [C2 C3]]. destruct (orth_rows m H) as [R0 [R1 R2]]. pose proof (orth_diag m H) as [D0 [D1 D2]].
  rewrite Hd in *. destruct m as [[a b c] [d e f] [g h i]]. unfold cross, vscale, dot, rtr in *. simpl in *.
  injection C1 as C11 C12 C13. injection C2 as C21 C22 C23. injection C3 as C31 C32 C33.
  assert (E : (h - f) * (h - f) + (c - g) * (c - g) + (d - b) * (d - b) = (3 + (a + e + i)) * (1 - (a + e + i))).
  { assert (b * d = a * e + i) by lra. assert (f * h = e * i + a) by lra. assert (c * g = a * i + e) by lra.
    replace ((h - f) * (h - f) + (c - g) * (c - g) + (d - b) * (d - b)) with
      ((a*a+b*b+c*c) + (d*d+e*e+f*f) + (g*g+h*h+i*i) - (a*a+e*e+i*i) - 2 * (b*d + f*h + c*g)) by ring.
    rewrite R0, R1, R2, H0, H1, H2. ring. }
  destruct (Rle_dec (a + e + i) 1); auto. exfalso.
  assert (0 < (3 + (a + e + i)) * ((a + e + i) - 1)) by (apply Rmult_lt_0_compat; lra).
  pose proof (Rle_0_sqr (h - f)). pose proof (Rle_0_sqr (c - g)). pose proof (Rle_0_sqr (d - b)). unfold Rsqr in *. lra.
Qed.

(** ** The sum to be maximised *)
Definition score (m : rotm) (P Q : list vec3) : R := fold_right Rplus 0 (map (fun pq => dot (rapply m (fst pq)) (snd pq)) (combine P Q)).
Lemma misfit_score m P : forall Q, orthonormal m -> length P = length Q ->
  misfit m P Q = fold_right Rplus 0 (map len_sq P) + fold_right Rplus 0 (map len_sq Q) - 2 * score m P Q.
Proof.
  intros Q Ho. revert Q. unfold misfit, score. induction P as [|p P IH]; intros [|q Q] Hl; simpl in *; try discriminate; [ring|].
  rewrite IH by lia. pose proof (orth_len m p Ho) as E. unfold len_sq in *.
  replace (dot (rapply m p - q) (rapply m p - q)) with (dot (rapply m p) (rapply m p) + dot q q - 2 * dot (rapply m p) q) by (unfold dot; simpl; ring).
  rewrite E. ring.
Qed.
Lemma score_trace m P : forall Q, length P = length Q -> score m P Q = rtr (rmul m (cov P Q)).
Proof.
  unfold score. induction P as [|p P IH]; intros [|q Q] Hl; simpl in *; try discriminate.
  - destruct m as [[] [] []]. unfold rtr, rzero. mat. ring.
  - rewrite IH by lia. set (A := cov P Q). destruct m as [[] [] []], A as [[] [] []], p, q. unfold rtr, radd, outer, rapply. mat. ring.
Qed.
Lemma trace_svd m U V s1 s2 s3 : rtr (rmul m (rmul U (rmul (rdiag s1 s2 s3) (rtrans V)))) =
  let W := rmul (rtrans V) (rmul m U) in s1 * vx (r0 W) + s2 * vy (r1 W) + s3 * vz (r2 W).
Proof.
  rewrite (rmul_assoc m U), (rmul_assoc (rmul m U)), rtr_comm, rmul_assoc. set (W := rmul (rtrans V) (rmul m U)).
  destruct W as [[] [] []]. unfold rtr, rdiag. mat. ring.
Qed.
Lemma flip_col V : flip_last_col V = rmul V (rdiag 1 1 (-1)).
Proof. destruct V as [[] [] []]. unfold flip_last_col, rdiag. mat. f_equal; vec_ring. Qed.
Lemma orth_flip : orthonormal (rdiag 1 1 (-1)).
Proof. split; unfold rdiag; mat; f_equal; vec_ring. Qed.
Lemma rdet_flip : rdet (rdiag 1 1 (-1)) = -1.
Proof. unfold rdet, rdiag; simpl. ring. Qed.

(** What the Kabsch algorithm returns: V U^T or V F U^T. *)
Lemma kabsch_cases svd P Q : let U := fst (svd (cov P Q)) in let V := snd (svd (cov P Q)) in orthonormal U -> orthonormal V ->
  (rdet V * rdet U = 1 /\ kabsch svd P Q = rmul V (rtrans U)) \/
  (rdet V * rdet U = -1 /\ kabsch svd P Q = rmul (rmul V (rdiag 1 1 (-1))) (rtrans U)).
Proof.
  unfold kabsch. destruct (svd (cov P Q)) as [U V]. simpl. intros HU HV. rewrite rdet_mul, rdet_trans.
  assert (D : rdet V * rdet U = 1 \/ rdet V * rdet U = -1).
  { destruct (orth_det_pm _ HU) as [-> | ->], (orth_det_pm _ HV) as [-> | ->]; lra. }
  destruct D as [D|D]; rewrite D.
  - left. split; auto. destruct (Rltb_spec 1 0); [lra|]. reflexivity.
  - right. split; auto. destruct (Rltb_spec (-1) 0); [|lra]. rewrite flip_col. reflexivity.
Qed.
Lemma kabsch_rotation svd P Q : orthonormal (fst (svd (cov P Q))) -> orthonormal (snd (svd (cov P Q))) -> rotation (kabsch svd P Q).
Proof.
  intros HU HV. destruct (kabsch_cases svd P Q HU HV) as [[D ->]|[D ->]]; split.
  - apply orth_mul; auto. apply orth_trans; auto.
  - rewrite rdet_mul, rdet_trans. auto.
  - apply orth_mul; [apply orth_mul; auto; apply orth_flip|]. apply orth_trans; auto.
  - rewrite !rdet_mul, rdet_trans, rdet_flip. lra.
Qed.
Lemma kabsch_best svd P Q m : length P = length Q -> is_svd (cov P Q) (fst (svd (cov P Q))) (snd (svd (cov P Q))) -> rotation m ->
  misfit (kabsch svd P Q) P Q <= misfit m P Q.
Proof.
  intros Hl [HU [HV [s1 [s2 [s3 [G1 [G2 [G3 HA]]]]]]]] [Hm Hdm].
  pose proof (kabsch_rotation svd P Q HU HV) as [Hk _].
  rewrite !misfit_score by auto. apply Rplus_le_compat_l. apply Ropp_le_contravar, Rmult_le_compat_l; [lra|].
  rewrite !score_trace by auto. pose proof (kabsch_cases svd P Q HU HV) as HC. simpl in HC.
  set (U := fst (svd (cov P Q))) in *. set (V := snd (svd (cov P Q))) in *. rewrite HA, !trace_svd. cbv zeta.
  set (W := rmul (rtrans V) (rmul m U)).
  assert (HW : orthonormal W) by (apply orth_mul; [apply orth_trans; auto|apply orth_mul; auto]).
  assert (DW : rdet W = rdet V * rdet U) by (unfold W; rewrite !rdet_mul, rdet_trans, Hdm; ring).
  destruct (orth_diag W HW) as [[_ B0] [[_ B1] [_ B2]]].
  destruct HU as [HU1 HU2], HV as [HV1 HV2].
  destruct HC as [[D ->]|[D ->]].
  - replace (rmul (rtrans V) (rmul (rmul V (rtrans U)) U)) with rid.
    2: { rewrite <- (rmul_assoc V), HU1, rmul_id_r, HV1. reflexivity. }
    cbn [rid r0 r1 r2 vx vy vz]. nra.
  - replace (rmul (rtrans V) (rmul (rmul (rmul V (rdiag 1 1 (-1))) (rtrans U)) U)) with (rdiag 1 1 (-1)).
    2: { rewrite <- (rmul_assoc (rmul V _)), HU1, rmul_id_r, rmul_assoc, HV1, rmul_id. reflexivity. }
    cbn [rdiag r0 r1 r2 vx vy vz]. assert (T : rtr W <= 1) by (apply improper_trace; [auto|lra]). unfold rtr in T.
    set (w0 := vx (r0 W)) in *. set (w1 := vy (r1 W)) in *. set (w2 := vz (r2 W)) in *.
    replace (s1 * w0 + s2 * w1 + s3 * w2) with ((s1 - s3) * w0 + (s2 - s3) * w1 + s3 * (w0 + w1 + w2)) by ring.
    assert ((s1 - s3) * w0 <= (s1 - s3) * 1) by (apply Rmult_le_compat_l; lra).
    assert ((s2 - s3) * w1 <= (s2 - s3) * 1) by (apply Rmult_le_compat_l; lra).
    assert (s3 * (w0 + w1 + w2) <= s3 * 1) by (apply Rmult_le_compat_l; lra). lra.
Qed.
