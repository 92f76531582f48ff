(** C66: the functions of the Debye formula as averages over directions. *)
From Coq Require Import Reals Lra.
From Coquelicot Require Import Coquelicot.
Local Open Scope R_scope.

(** Bessel's integral: pi J_0(x) is the integral of cos (x sin t) over [0, pi]. *)
Definition is_bessel_j0 (j0 : R -> R) : Prop := forall x, is_RInt (fun t => cos (x * sin t)) 0 PI (PI * j0 x).

Lemma bessel_zero j0 : is_bessel_j0 j0 -> j0 0 = 1.
Proof.
  intros H. assert (P := PI_RGT_0). specialize (H 0). assert (C : is_RInt (fun t => cos (0 * sin t)) 0 PI ((PI - 0) * 1)).
  { apply (is_RInt_ext (fun _ => 1)); [intros t _; rewrite Rmult_0_l, cos_0; reflexivity|]. apply @is_RInt_const. }
  assert (E := is_RInt_unique _ _ _ _ H). rewrite (is_RInt_unique _ _ _ _ C) in E. apply (Rmult_eq_reg_l PI); lra.
Qed.
Lemma bessel_bound j0 : is_bessel_j0 j0 -> forall x, Rabs (j0 x) <= 1.
Proof.
  intros H x. assert (P := PI_RGT_0). specialize (H x).
  assert (C : is_RInt (fun _ : R => 1) 0 PI ((PI - 0) * 1)) by apply @is_RInt_const. assert (C' : is_RInt (fun _ : R => -1) 0 PI ((PI - 0) * -1)) by apply @is_RInt_const.
  assert (U := is_RInt_le _ _ 0 PI _ _ (Rlt_le _ _ P) H C (fun t _ => proj2 (COS_bound _))). assert (L := is_RInt_le _ _ 0 PI _ _ (Rlt_le _ _ P) C' H (fun t _ => proj1 (COS_bound _))).
  apply Rabs_le. split; apply (Rmult_le_reg_l PI); lra.
Qed.
(** The two facts about J_0 that C66_debye_bound uses follow from Bessel's integral. *)
Theorem C66_debye_j0 j0 : is_bessel_j0 j0 -> j0 0 = 1 /\ forall x, Rabs (j0 x) <= 1.
Proof. intros H. split; [apply bessel_zero; exact H|apply bessel_bound; exact H]. Qed.
Print Assumptions C66_debye_j0.
Example C66_debye_j0_ex : exists j0, is_bessel_j0 j0.
Proof.
  assert (P := PI_RGT_0). exists (fun x => RInt (fun t => cos (x * sin t)) 0 PI / PI). intros x. cbv beta. set (r := RInt _ 0 PI). assert (E : PI * (r / PI) = r) by (field; lra). rewrite E. unfold r. clear E r.
  apply (RInt_correct (fun t => cos (x * sin t))). apply (@ex_RInt_continuous R_CompleteNormedModule). intros t _. apply (ex_derive_continuous (fun t => cos (x * sin t))). auto_derive; trivial.
Qed.
(** The projection of a uniformly distributed direction on a fixed axis is uniform on [-1, 1] (Archimedes), so this is the average of
    cos (k.r) over the directions of k. *)
Theorem C66_sinc_average x : is_RInt (fun u => cos (x * u)) (-1) 1 (2 * (if Req_EM_T x 0 then 1 else sin x / x)).
Proof.
  destruct (Req_EM_T x 0) as [->|N].
  - apply (is_RInt_ext (fun _ => 1)); [intros u _; rewrite Rmult_0_l, cos_0; reflexivity|]. replace (2 * 1) with ((1 - -1) * 1) by ring. apply @is_RInt_const.
  - replace (2 * (sin x / x)) with (minus (sin (x * 1) / x) (sin (x * -1) / x)).
    + apply (is_RInt_derive (fun u => sin (x * u) / x)).
      * intros u _. auto_derive; [trivial|]. field. exact N.
      * intros u _. apply (ex_derive_continuous (fun u => cos (x * u))). auto_derive; trivial.
    + unfold minus, plus, opp; simpl. replace (x * -1) with (- x) by ring. rewrite Rmult_1_r, sin_neg. field. exact N.
Qed.
Print Assumptions C66_sinc_average.
