(** C48: the solid angles of the bins of the bond order diagram. *)
From Verif Require Import SphSpec QuatProofs QuatProps MatchEnvProofs BoxProofs BoxPyProofs SphProofs HistProofs HistProofs2 HistProps ParProofs Vec.
From Coquelicot Require Import Coquelicot.
From Coq Require Import Lra Lia.
From Verif Require Import Vec.
Local Open Scope R_scope.

Definition bo_valid (c : bo_conf) : Prop := (2 <= bo_nt c < 2 ^ 31 /\ 2 <= bo_np c < 2 ^ 31 /\ bo_nt c * bo_np c < 4294967295)%Z.
Definition theta_edge (c : bo_conf) (i : Z) : R := 2 * PI * IZR i / IZR (bo_nt c).
Definition phi_edge (c : bo_conf) (j : Z) : R := PI * IZR j / IZR (bo_np c).
Definition cell_area (c : bo_conf) (i j : Z) : R :=
  RInt (fun _ => RInt sin (phi_edge c j) (phi_edge c (j + 1))) (theta_edge c i) (theta_edge c (i + 1)).

Lemma RInt_sin a b : RInt sin a b = cos a - cos b.
Proof.
  apply is_RInt_unique. replace (cos a - cos b) with (minus (- cos b) (- cos a)) by (unfold minus, plus, opp; simpl; ring).
  apply (is_RInt_derive (fun x => - cos x) sin).
  - intros x _. auto_derive; auto. ring.
  - intros x _. apply continuity_pt_filterlim. apply continuity_sin.
Qed.

(** The precomputed area of a bin is the solid angle of its cell, is positive, and the cells tile the sphere. *)
Fixpoint zsum (f : Z -> R) (n : nat) : R := match n with O => 0 | S n => zsum f n + f (Z.of_nat n) end.
Lemma zsum_ext f g n : (forall i, (i < n)%nat -> f (Z.of_nat i) = g (Z.of_nat i)) -> zsum f n = zsum g n.
Proof. induction n; intros H; simpl; auto. rewrite IHn, H; auto. Qed.
Lemma zsum_const c n : zsum (fun _ => c) n = INR n * c.
Proof. induction n; [simpl; ring|]. rewrite S_INR. simpl zsum. rewrite IHn. ring. Qed.
Lemma zsum_scal c f n : zsum (fun i => c * f i) n = c * zsum f n.
Proof. induction n; simpl; [ring|]. rewrite IHn. ring. Qed.
Lemma zsum_tele g n : zsum (fun j => g j - g (j + 1)%Z) n = g 0%Z - g (Z.of_nat n).
Proof.
  induction n; [simpl; ring|]. simpl zsum. rewrite IHn. replace (Z.of_nat (S n)) with (Z.of_nat n + 1)%Z by lia. ring.
Qed.

Lemma bo_area_edges c i j : bo_valid c ->
  bo_area c i j = (theta_edge c (i + 1) - theta_edge c i) * (cos (phi_edge c j) - cos (phi_edge c (j + 1))).
Proof.
  intros (Ht & Hp & _). assert (0 < IZR (bo_nt c)) by (apply (IZR_lt 0); lia). assert (0 < IZR (bo_np c)) by (apply (IZR_lt 0); lia).
  unfold bo_area, theta_edge, phi_edge. rewrite !plus_IZR.
  replace (IZR j * (PI / IZR (bo_np c)) + PI / IZR (bo_np c)) with (PI * (IZR j + 1) / IZR (bo_np c)) by (field; lra).
  replace (IZR j * (PI / IZR (bo_np c))) with (PI * IZR j / IZR (bo_np c)) by (field; lra). field. lra.
Qed.

Theorem C48_areas nt np m c : bo_make nt np m = Some c -> bo_valid c ->
  (forall i j, bo_area c i j = cell_area c i j) /\
  (forall i j, (0 <= i < nt)%Z -> (0 <= j < np)%Z -> 0 < bo_area c i j /\
     interval_lo (Axis nt 0 (2 * PI)) i = theta_edge c i /\ interval_lo (Axis np 0 PI) j = phi_edge c j) /\
  zsum (fun i => zsum (fun j => bo_area c i j) (Z.to_nat np)) (Z.to_nat nt) = 4 * PI.
Proof.
  intros E V. unfold bo_make in E. destruct (Z.ltb_spec nt 2); [discriminate|]. destruct (Z.ltb_spec np 2); [discriminate|]. injection E as <-.
  pose proof PI_RGT_0 as P. assert (Nt : 0 < IZR nt) by (apply (IZR_lt 0); lia). assert (Np : 0 < IZR np) by (apply (IZR_lt 0); lia).
  split; [|split].
  - intros i j. rewrite bo_area_edges by exact V. unfold cell_area. rewrite RInt_const, RInt_sin. reflexivity.
  - intros i j Hi Hj. split.
    + rewrite bo_area_edges by exact V. unfold theta_edge, phi_edge; simpl. rewrite !plus_IZR. apply Rmult_lt_0_compat.
      * replace (2 * PI * (IZR i + 1) / IZR nt - 2 * PI * IZR i / IZR nt) with (2 * PI / IZR nt) by (field; lra).
        apply Rdiv_lt_0_compat; lra.
      * assert (J0 : 0 <= IZR j) by (apply (IZR_le 0); lia). assert (J1 : IZR j + 1 <= IZR np) by (rewrite <- plus_IZR; apply IZR_le; lia).
        assert (A : cos (PI * (IZR j + 1) / IZR np) < cos (PI * IZR j / IZR np)); [|lra].
        assert (X : forall a, 0 <= a -> a <= IZR np -> 0 <= PI * a / IZR np <= PI).
        { intros a A0 A1. split; [apply Rdiv_le_0_compat; [apply Rmult_le_pos; lra|lra]|].
          apply (Rmult_le_reg_r (IZR np)); auto. unfold Rdiv. rewrite Rmult_assoc, Rinv_l by lra. rewrite Rmult_1_r. apply Rmult_le_compat_l; lra. }
        apply cos_decreasing_1; try (apply X; lra).
        unfold Rdiv. apply Rmult_lt_compat_r; [apply Rinv_0_lt_compat; lra|]. apply Rmult_lt_compat_l; lra.
    + unfold interval_lo, theta_edge, phi_edge; simpl. split; field; lra.
  - assert (In : forall i, zsum (fun j => bo_area (BO nt np m) i j) (Z.to_nat np) = 4 * PI / IZR nt).
    { intros i. rewrite (zsum_ext _ (fun j => (theta_edge (BO nt np m) (i + 1) - theta_edge (BO nt np m) i) * (cos (phi_edge (BO nt np m) j) - cos (phi_edge (BO nt np m) (j + 1)))))
        by (intros; apply bo_area_edges; exact V).
      rewrite zsum_scal, (zsum_tele (fun j => cos (phi_edge (BO nt np m) j))). rewrite Z2Nat.id by lia.
      unfold theta_edge, phi_edge; simpl. rewrite plus_IZR.
      replace (PI * 0 / IZR np) with 0 by (field; lra). replace (PI * IZR np / IZR np) with PI by (field; lra).
      rewrite cos_0, cos_PI. field. lra. }
    rewrite (zsum_ext _ (fun _ => 4 * PI / IZR nt)) by (intros; apply In). rewrite zsum_const.
    rewrite INR_IZR_INZ, Z2Nat.id by lia. field. lra.
Qed.
Print Assumptions C48_areas.
