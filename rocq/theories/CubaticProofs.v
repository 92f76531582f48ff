(** Proofs for C61. *)
From Coq Require Import Reals List Lra Lia.
From Verif Require Import ParProofs NListProofs QuatProofs CubaticModel.
From Verif Require Import CubaticSpec.
Import ListNotations.
Local Open Scope R_scope.

(** ** Flat arrays and four indices *)
Definition tab (f : T4) : tensor :=
  flat_map (fun i => flat_map (fun j => flat_map (fun k => map (fun l => f i j k l) (seq 0 3)) (seq 0 3)) (seq 0 3)) (seq 0 3).

Lemma tab_entry f : same_tensor (entry (tab f)) f.
Proof.
  intros i j k l Hi Hj Hk Hl.
  do 3 (destruct i as [|i]; [do 3 (destruct j as [|j]; [do 3 (destruct k as [|k]; [do 3 (destruct l as [|l]; [reflexivity|]); lia|]); lia|]); lia|]); lia.
Qed.
Lemma tab_vec v : tensor4 v = tab (fun i j k l => comp v i * comp v j * comp v k * comp v l).
Proof. reflexivity. Qed.
Lemma tab_zero : t_zero = tab (fun _ _ _ _ => 0). Proof. reflexivity. Qed.
Lemma tab_add f g : t_add (tab f) (tab g) = tab (fun i j k l => f i j k l + g i j k l). Proof. reflexivity. Qed.
Lemma tab_sub f g : t_sub (tab f) (tab g) = tab (less f g). Proof. reflexivity. Qed.
Lemma tab_scale f c : t_scale (tab f) c = tab (fun i j k l => f i j k l * c). Proof. reflexivity. Qed.
Lemma tab_r4 : gen_r4 = tab (fun i j k l => (0 + ident i j * ident k l + ident i k * ident j l + ident i l * ident j k) * (2 / 5)).
Proof. reflexivity. Qed.
Lemma tab_ext f g : (forall i j k l, f i j k l = g i j k l) -> tab f = tab g.
Proof. intros H. unfold tab. do 3 (apply flat_map_ext; intros ?). apply map_ext. intros l. apply H. Qed.
Lemma tab_dot f g : t_dot (tab f) (tab g) = ip f g.
Proof. unfold t_dot, ip, sum4, sum3, t_get. cbn -[Rplus Rmult]. ring. Qed.

(** ** The tensor of one cube *)
Lemma cub_tensor_tab q : cub_tensor q = tab (cube q).
Proof.
  unfold cub_tensor, system_vectors. cbn [fold_left]. rewrite tab_zero, !tab_vec, !tab_add, tab_scale, tab_r4, tab_sub.
  apply tab_ext. intros i j k l. unfold less, cube, sum3, axis, ident, delta. lra.
Qed.
Lemma cub_order_match q f : cub_order (cub_tensor q) (tab f) = match_order (cube q) f.
Proof. unfold cub_order, match_order, sq_len. rewrite cub_tensor_tab, tab_sub, !tab_dot. reflexivity. Qed.

(** ** Contractions *)
Definition four (v : vec3) : T4 := fun i j k l => comp v i * comp v j * comp v k * comp v l.
Definition deltas : T4 := fun i j k l => delta i j * delta k l + delta i k * delta j l + delta i l * delta j k.
Lemma ip_comm a b : ip a b = ip b a.
Proof. unfold ip, sum4, sum3. ring. Qed.
Lemma ip_four v w : ip (four v) (four w) = dot v w ^ 4.
Proof. destruct v, w. unfold ip, four, sum4, sum3, dot. cbn -[Rplus Rmult pow]. ring. Qed.
Lemma ip_four_deltas v : ip (four v) deltas = 3 * dot v v ^ 2.
Proof. destruct v. unfold ip, four, deltas, sum4, sum3, dot, delta. cbn -[Rplus Rmult pow]. ring. Qed.
Lemma ip_deltas : ip deltas deltas = 45.
Proof. unfold ip, deltas, sum4, sum3, delta. cbn [Nat.eqb]. ring. Qed.
Definition lin (x : R) (a : T4) (y : R) (b : T4) : T4 := fun i j k l => x * a i j k l + y * b i j k l.
Lemma ip_ext a a' b b' : (forall i j k l, a i j k l = a' i j k l) -> (forall i j k l, b i j k l = b' i j k l) -> ip a b = ip a' b'.
Proof. intros H1 H2. unfold ip, sum4, sum3. rewrite !H1, !H2. reflexivity. Qed.
Lemma sum3_lin x f y g : sum3 (fun i => x * f i + y * g i) = x * sum3 f + y * sum3 g.
Proof. unfold sum3. ring. Qed.
Lemma sum3_ext f g : (forall i, f i = g i) -> sum3 f = sum3 g. Proof. intros H. unfold sum3. now rewrite !H. Qed.
Lemma sum4_lin x f y g : sum4 (lin x f y g) = x * sum4 f + y * sum4 g.
Proof.
  unfold sum4, lin. rewrite <- sum3_lin. apply sum3_ext. intros i. rewrite <- sum3_lin. apply sum3_ext. intros j.
  rewrite <- sum3_lin. apply sum3_ext. intros k. apply sum3_lin.
Qed.
Lemma sum4_ext f g : (forall i j k l, f i j k l = g i j k l) -> sum4 f = sum4 g.
Proof. intros H. unfold sum4. do 4 (apply sum3_ext; intros ?). apply H. Qed.
Lemma ip_lin_l x a y b c : ip (lin x a y b) c = x * ip a c + y * ip b c.
Proof. unfold ip. rewrite <- sum4_lin. apply sum4_ext. intros. unfold lin. ring. Qed.
Lemma ip_lin_r x a y b c : ip c (lin x a y b) = x * ip c a + y * ip c b.
Proof. rewrite ip_comm, ip_lin_l, (ip_comm a), (ip_comm b). reflexivity. Qed.
Definition zero4 : T4 := fun _ _ _ _ => 0.
Lemma ip_zero_l b : ip zero4 b = 0. Proof. unfold ip, sum4, sum3, zero4. ring. Qed.

Definition quartic (p q : quat) : R := sum3 (fun a => sum3 (fun b => dot (axis p a) (axis q b) ^ 4)).
Lemma cube_lin q i j k l : cube q i j k l =
  lin 2 (lin 1 (lin 1 (four (axis q 0)) 1 (four (axis q 1))) 1 (four (axis q 2))) (- (2 / 5)) deltas i j k l.
Proof. unfold cube, lin, four, deltas, sum3. ring. Qed.
Lemma ip_cube_l q c : ip (cube q) c = 2 * sum3 (fun a => ip (four (axis q a)) c) - 2 / 5 * ip deltas c.
Proof. rewrite (ip_ext _ _ c c (cube_lin q)) by reflexivity. rewrite !ip_lin_l. unfold sum3. ring. Qed.
Lemma ip_cube p q : ip (cube p) (cube q) =
  4 * quartic p q - 12 / 5 * (sum3 (fun a => dot (axis p a) (axis p a) ^ 2) + sum3 (fun a => dot (axis q a) (axis q a) ^ 2)) + 36 / 5.
Proof.
  rewrite ip_cube_l, (ip_comm deltas), ip_cube_l, ip_deltas.
  assert (H : forall v, ip (four v) (cube q) = 2 * sum3 (fun b => dot v (axis q b) ^ 4) - 6 / 5 * dot v v ^ 2).
  { intros v. rewrite ip_comm, ip_cube_l, (ip_comm deltas), ip_four_deltas.
    unfold sum3. rewrite !ip_four, !(dot_comm _ v). lra. }
  unfold quartic, sum3 in *. rewrite !H, !ip_four_deltas. lra.
Qed.
