(** Proofs for C61: symmetries, and when all particles have order one. *)
From Coq Require Import Reals List Lra Lia Permutation.
From Verif Require Import ParProofs NListProofs QuatProofs CubaticModel CubaticProofs CubaticProofs2.
From Verif Require Import CubaticSpec.
Import ListNotations.
Local Open Scope R_scope.

(** ** Turning the whole system *)
Lemma axis_mul p q a : axis (qmul p q) a = rotate p (axis q a).
Proof. unfold axis. apply rotate_mul. Qed.
Lemma quartic_rotate p a b : unitq p -> quartic (qmul p a) (qmul p b) = quartic a b.
Proof.
  intros Hp. apply unitq_norm2 in Hp. unfold quartic. apply sum3_ext. intros i. apply sum3_ext. intros j.
  rewrite !axis_mul, rotate_norm2, Hp. ring.
Qed.
Lemma ip_rotate p a b : unitq p -> ip (cube (qmul p a)) (cube (qmul p b)) = ip (cube a) (cube b).
Proof.
  intros Hp. rewrite !ip_cube, quartic_rotate by exact Hp. apply unitq_norm2 in Hp.
  assert (H : forall q, sum3 (fun x => dot (axis (qmul p q) x) (axis (qmul p q) x) ^ 2) = sum3 (fun x => dot (axis q x) (axis q x) ^ 2)).
  { intros q. apply sum3_ext. intros i. rewrite !axis_mul, rotate_norm2, Hp. ring. }
  rewrite !H. reflexivity.
Qed.
Lemma average_ip_self os : ip (average os) (average os) =
  Rsum (map (fun p => Rsum (map (fun q => ip (cube q) (cube p)) os) / INR (length os)) os) / INR (length os).
Proof.
  rewrite ip_average. f_equal. f_equal. apply map_ext. intros p. rewrite ip_comm. apply ip_average.
Qed.
Lemma match_order_rotate p q os : unitq p ->
  match_order (cube (qmul p q)) (average (map (qmul p) os)) = match_order (cube q) (average os).
Proof.
  intros Hp.
  rewrite !match_order_ip by (assert (H := sq_len_pos q); assert (H' := sq_len_pos (qmul p q)); lra).
  assert (S : sq_len (cube (qmul p q)) = sq_len (cube q)) by (apply ip_rotate; exact Hp). rewrite S. clear S.
  assert (E1 : ip (average (map (qmul p) os)) (cube (qmul p q)) = ip (average os) (cube q)).
  { rewrite !ip_average, map_length, map_map. do 2 f_equal. apply map_ext. intros r. apply ip_rotate, Hp. }
  assert (E2 : ip (average (map (qmul p) os)) (average (map (qmul p) os)) = ip (average os) (average os)).
  { rewrite !average_ip_self, map_length, map_map. do 2 f_equal. apply map_ext. intros r. do 2 f_equal.
    rewrite map_map. apply map_ext. intros t. apply ip_rotate, Hp. }
  rewrite E1, E2. reflexivity.
Qed.

(** ** The symmetries of the cube *)
Lemma comp_scale s v i : comp (vscale s v) i = s * comp v i.
Proof. destruct i as [|[|i]]; reflexivity. Qed.
Lemma perm3 a b c : Permutation [a; b; c] [0; 1; 2]%nat ->
  (a, b, c) = (0, 1, 2)%nat \/ (a, b, c) = (0, 2, 1)%nat \/ (a, b, c) = (1, 0, 2)%nat \/ (a, b, c) = (1, 2, 0)%nat \/
  (a, b, c) = (2, 0, 1)%nat \/ (a, b, c) = (2, 1, 0)%nat.
Proof.
  intros P.
  assert (Ha : In a [0; 1; 2]%nat) by (eapply Permutation_in; [exact P|cbn; tauto]).
  assert (Hb : In b [0; 1; 2]%nat) by (eapply Permutation_in; [exact P|cbn; tauto]).
  assert (Hc : In c [0; 1; 2]%nat) by (eapply Permutation_in; [exact P|cbn; tauto]).
  assert (N : NoDup [a; b; c]) by (eapply Permutation_NoDup; [symmetry; exact P|repeat constructor; cbn; lia]).
  inversion N as [|? ? N1 N']; subst. inversion N' as [|? ? N2 _]; subst. cbn in *.
  repeat match goal with H : _ \/ _ |- _ => destruct H end; try contradiction; subst; tauto.
Qed.
Lemma same_cube_tensor p q i j k l : same_cube p q -> cube p i j k l = cube q i j k l.
Proof.
  intros (a & b & c & s & t & u & P & Hs & Ht & Hu & E0 & E1 & E2).
  assert (F : forall s v, s = 1 \/ s = -1 -> comp (vscale s v) i * comp (vscale s v) j * comp (vscale s v) k * comp (vscale s v) l =
     comp v i * comp v j * comp v k * comp v l).
  { intros x v [-> | ->]; rewrite !comp_scale; ring. }
  unfold cube. f_equal. f_equal. unfold sum3. rewrite E0, E1, E2, !F by assumption.
  apply perm3 in P. destruct P as [P|[P|[P|[P|[P|P]]]]]; injection P as -> -> ->; ring.
Qed.

(** ** Equal tensors show equal cubes *)
Lemma one_of_three x y z : x ^ 2 + y ^ 2 + z ^ 2 = 1 -> x ^ 4 + y ^ 4 + z ^ 4 = 1 ->
  (y = 0 /\ z = 0 /\ (x = 1 \/ x = -1)) \/ (x = 0 /\ z = 0 /\ (y = 1 \/ y = -1)) \/ (x = 0 /\ y = 0 /\ (z = 1 \/ z = -1)).
Proof.
  intros H2 H4.
  assert (E : (x * y) ^ 2 + (y * z) ^ 2 + (x * z) ^ 2 = 0).
  { replace ((x * y) ^ 2 + (y * z) ^ 2 + (x * z) ^ 2) with (((x ^ 2 + y ^ 2 + z ^ 2) ^ 2 - (x ^ 4 + y ^ 4 + z ^ 4)) / 2) by field.
    rewrite H2, H4. field. }
  assert (S1 := pow2_ge_0 (x * y)). assert (S2 := pow2_ge_0 (y * z)). assert (S3 := pow2_ge_0 (x * z)).
  assert (Z1 : (x * y) ^ 2 = 0) by lra. assert (Z2 : (y * z) ^ 2 = 0) by lra. assert (Z3 : (x * z) ^ 2 = 0) by lra.
  assert (Q : forall a b, (a * b) ^ 2 = 0 -> a = 0 \/ b = 0).
  { intros a b H. apply Rmult_integral. replace ((a * b) ^ 2) with ((a * b) * (a * b)) in H by ring.
    apply Rmult_integral in H. tauto. }
  assert (U : forall a, a ^ 2 = 1 -> a = 1 \/ a = -1).
  { intros a H. assert (H' : (a - 1) * (a + 1) = 0) by (ring_simplify; lra). apply Rmult_integral in H'. destruct H'; [left|right]; lra. }
  destruct (Q _ _ Z1), (Q _ _ Z2), (Q _ _ Z3);
    first [ left; split; [assumption|]; split; [assumption|]; apply U; subst; lra
          | right; left; split; [assumption|]; split; [assumption|]; apply U; subst; lra
          | right; right; split; [assumption|]; split; [assumption|]; apply U; subst; lra ].
Qed.
Lemma unit_parallel v w s : dot v v = 1 -> dot w w = 1 -> s = 1 \/ s = -1 -> dot v w = s -> v = vscale s w.
Proof.
  intros Hv Hw Hs Hd.
  assert (Z : dot (v - vscale s w)%V (v - vscale s w)%V = 0).
  { replace (dot (v - vscale s w)%V (v - vscale s w)%V) with (dot v v - 2 * s * dot v w + s * s * dot w w) by (destruct v, w; unfold dot; simpl; ring).
    rewrite Hv, Hw, Hd. destruct Hs as [-> | ->]; ring. }
  destruct v as [a b c], w as [x y z]. unfold dot, vscale in *. simpl in *.
  assert (A := Rle_0_sqr (a - s * x)). assert (B := Rle_0_sqr (b - s * y)). assert (C := Rle_0_sqr (c - s * z)).
  unfold Rsqr in *.
  assert (Q : forall t, t * t = 0 -> t = 0) by (intros t H; apply Rmult_integral in H; tauto).
  assert (a - s * x = 0) by (apply Q; lra). assert (b - s * y = 0) by (apply Q; lra). assert (c - s * z = 0) by (apply Q; lra).
  f_equal; lra.
Qed.

Lemma quartic_three p q : unitq p -> unitq q -> quartic p q = 3 -> same_cube p q.
Proof.
  intros Hp Hq H. apply unitq_norm2 in Hp, Hq.
  assert (P : forall a, (a < 3)%nat -> sum3 (fun b => dot (axis p a) (axis q b) ^ 2) = 1).
  { intros a Ha. rewrite parseval, axis_dot, Hp, Hq by lia. unfold delta. rewrite Nat.eqb_refl. ring. }
  assert (L : forall a, (a < 3)%nat -> sum3 (fun b => dot (axis p a) (axis q b) ^ 4) <= 1).
  { intros a Ha. assert (P' := P a Ha). unfold sum3 in *.
    set (x := dot (axis p a) (axis q 0)) in *. set (y := dot (axis p a) (axis q 1)) in *. set (z := dot (axis p a) (axis q 2)) in *.
    assert (E : x ^ 4 + y ^ 4 + z ^ 4 = (x ^ 2 + y ^ 2 + z ^ 2) ^ 2 - 2 * ((x * y) ^ 2 + (y * z) ^ 2 + (x * z) ^ 2)) by ring.
    rewrite E, P'. assert (S1 := pow2_ge_0 (x * y)). assert (S2 := pow2_ge_0 (y * z)). assert (S3 := pow2_ge_0 (x * z)). lra. }
  assert (R : forall a, (a < 3)%nat -> exists b s, (b < 3)%nat /\ (s = 1 \/ s = -1) /\ axis p a = vscale s (axis q b)).
  { intros a Ha. assert (E : sum3 (fun b => dot (axis p a) (axis q b) ^ 4) = 1).
    { unfold quartic in H. unfold sum3 at 1 in H. assert (L0 := L 0%nat ltac:(lia)). assert (L1 := L 1%nat ltac:(lia)). assert (L2 := L 2%nat ltac:(lia)).
      do 3 (destruct a as [|a]; [lra|]). lia. }
    assert (P' := P a Ha). unfold sum3 in P', E.
    assert (Up : forall b, (b < 3)%nat -> dot (axis q b) (axis q b) = 1).
    { intros b Hb. rewrite axis_dot, Hq by lia. unfold delta. rewrite Nat.eqb_refl. ring. }
    assert (Ua : dot (axis p a) (axis p a) = 1). { rewrite axis_dot, Hp by lia. unfold delta. rewrite Nat.eqb_refl. ring. }
    destruct (one_of_three _ _ _ P' E) as [(_ & _ & Hs)|[(_ & _ & Hs)|(_ & _ & Hs)]].
    - exists 0%nat, (dot (axis p a) (axis q 0)). split; [lia|]. split; [exact Hs|]. apply unit_parallel; auto.
    - exists 1%nat, (dot (axis p a) (axis q 1)). split; [lia|]. split; [exact Hs|]. apply unit_parallel; auto.
    - exists 2%nat, (dot (axis p a) (axis q 2)). split; [lia|]. split; [exact Hs|]. apply unit_parallel; auto. }
  destruct (R 0%nat ltac:(lia)) as (a & s & Ha & Hs & E0). destruct (R 1%nat ltac:(lia)) as (b & t & Hb & Ht & E1).
  destruct (R 2%nat ltac:(lia)) as (c & u & Hc & Hu & E2).
  assert (O : forall i j, (i < 3)%nat -> (j < 3)%nat -> i <> j -> dot (axis p i) (axis p j) = 0).
  { intros i j Hi Hj Hij. rewrite axis_dot by lia. unfold delta. destruct (Nat.eqb_spec i j); [contradiction|]. ring. }
  assert (D : forall x y v, (x = 1 \/ x = -1) -> (y = 1 \/ y = -1) -> dot v v = 1 -> dot (vscale x v) (vscale y v) <> 0).
  { intros x y v Hx Hy Hv. replace (dot (vscale x v) (vscale y v)) with (x * y * dot v v) by (destruct v; unfold dot; simpl; ring).
    rewrite Hv. destruct Hx as [-> | ->], Hy as [-> | ->]; lra. }
  assert (Uq : forall x, (x < 3)%nat -> dot (axis q x) (axis q x) = 1).
  { intros x Hx. rewrite axis_dot, Hq by lia. unfold delta. rewrite Nat.eqb_refl. ring. }
  assert (Nab : a <> b). { intros ->. apply (D s t (axis q b) Hs Ht (Uq b Hb)). rewrite <- E0, <- E1. apply O; lia. }
  assert (Nac : a <> c). { intros ->. apply (D s u (axis q c) Hs Hu (Uq c Hc)). rewrite <- E0, <- E2. apply O; lia. }
  assert (Nbc : b <> c). { intros ->. apply (D t u (axis q c) Ht Hu (Uq c Hc)). rewrite <- E1, <- E2. apply O; lia. }
  exists a, b, c, s, t, u. repeat split; try assumption.
  apply NoDup_Permutation.
  - repeat constructor; cbn; intuition.
  - repeat constructor; cbn; lia.
  - intros x. cbn. split; intros Hx; lia.
Qed.

Lemma same_tensor_cube p q : unitq p -> unitq q -> same_tensor (cube p) (cube q) -> same_cube p q.
Proof.
  intros Hp Hq H. apply quartic_three; try assumption.
  assert (E : ip (cube p) (cube q) = sq_len (cube q)).
  { unfold sq_len, ip, sum4, sum3. rewrite !H by lia. reflexivity. }
  rewrite ip_unit, sq_len_unit in E by assumption. lra.
Qed.
