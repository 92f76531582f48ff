(** C93: GaussianDensity and SphereVoxelization; Interface and Cluster. *)
From Coq Require Import Reals ZArith List Permutation Lia Lra Arith.
From Verif Require Import RBase BoxProofs GridProofs VoxProps GaussProps IfaceProps DsetSpec DsetProofs ClusterModel ClusterSpec ClusterProps.
From Verif Require Import GridSpec IfaceSpec.
Import ListNotations.
Local Open Scope R_scope.

Lemma gaussian_pos sigma D d : sigma <> 0 -> 0 < gaussian sigma D d.
Proof.
  intros S. unfold gaussian. apply Rdiv_lt_0_compat; [apply exp_pos|]. apply pow_lt, Rmult_lt_0_compat; [apply sqrt_lt_R0; assert (P := PI_RGT_0); lra|]. apply Rabs_pos_lt. auto.
Qed.
Lemma sum_pos l : Forall (fun x => 0 <= x) l -> 0 <= fold_right Rplus 0 l /\ ((exists x, In x l /\ 0 < x) <-> 0 < fold_right Rplus 0 l).
Proof.
  induction 1 as [|x l H _ [I J]]; simpl.
  - split; [lra|]. split; [intros (x & [] & _)|lra].
  - split; [lra|]. split.
    + intros (y & [->|Hy] & P); [lra|]. assert (0 < fold_right Rplus 0 l) by (apply J; eauto). lra.
    + intros P. destruct (Rle_lt_or_eq_dec 0 x H) as [L|<-]; [eauto|]. destruct J as [_ J]. destruct J as (y & Hy & Py); [lra|]. eauto.
Qed.
(** With the same grid and r_max a voxel is marked by SphereVoxelization if and only if GaussianDensity is positive there. *)
Theorem C93_voxels_density s g b points ws ev ev2 : sv_width s = gd_width g -> sv_r s = gd_r g ->
  positive b -> ortho b -> good_width b (gd_width g) -> 0 < gd_r g -> gd_sigma g <> 0 -> in_each (narrow (gd_r g)) b (gd_width g) -> in_each (wide (gd_r g)) b (gd_width g) -> Forall (in_box b) points ->
  same_dim (sv_dim s) (b_2d b) = true -> same_dim (gd_dim g) (b_2d b) = true -> Permutation (sv_writes s b points) ws -> execution 0 (length points) ev -> execution 0 (Z.to_nat (size_of (shape_of (gd_width g)))) ev2 ->
  exists a c, sv_compute s b ws = VDone (SV (sv_width s) (sv_r s) (Some (b_2d b)) (Some a)) /\ gd_py_compute g b points None ev ev2 = VDone (GD (gd_width g) (gd_r g) (gd_sigma g) (Some (b_2d b)) (Some c)) /\
    forall n, in_shape (shape_of (gd_width g)) n -> exists x v, ma_get a (row_major (shape_of (gd_width g)) n) = Some x /\ ma_get c (row_major (shape_of (gd_width g)) n) = Some v /\ 0 <= v /\ (x = 1%Z <-> 0 < v) /\ (x = 0%Z <-> v = 0).
Proof.
  intros EW ER HP HO HW Hr Hs HN HWd HB S1 S2 PM E1 E2.
  destruct (C52_exact s b points ws) as (a & A & GA); try (rewrite ?EW, ?ER; auto; fail); [rewrite EW, ER; eapply fits_of_narrow; eauto|].
  destruct (C53_exact g b points None ev ev2) as (c & C & GC); auto. exists a, c. split; [exact A|]. split; [exact C|]. intros n Hn. rewrite EW, ER in GA.
  destruct (GA n Hn) as (x & Ax & X01 & XI). destruct (GC n Hn) as (cs & L & CS & Cv). exists x, (fold_right Rplus 0 cs). split; [exact Ax|]. split; [exact Cv|].
  assert (NN : Forall (fun v => 0 <= v) cs).
  { apply Forall_forall. intros v Hv. destruct (In_nth _ _ 0 Hv) as (i & Hi & <-). destruct (CS i ltac:(lia)) as (d & _ & ->). destruct (Rltb d (gd_r g)); [|lra]. rewrite Rmult_1_l. left. apply gaussian_pos. auto. }
  destruct (sum_pos cs NN) as [P0 PI']. split; [exact P0|].
  assert (K : x = 1%Z <-> 0 < fold_right Rplus 0 cs).
  { rewrite XI, <- PI'. split.
    - intros (p & u & Hp & SU & NU). destruct (In_nth _ _ v0 Hp) as (i & Hi & Ei). destruct (CS i Hi) as (d & D & Ed). rewrite Ei in D. exists (nth i cs 0). split; [apply nth_In; lia|]. rewrite Ed.
      assert (d <= norm u) by (apply D; auto). destruct (Rltb_spec d (gd_r g)); [|lra]. rewrite Rmult_1_l. apply gaussian_pos. auto.
    - intros (v & Hv & Pv). destruct (In_nth _ _ 0 Hv) as (i & Hi & <-). destruct (CS i ltac:(lia)) as (d & [(u & SU & NU) _] & Ed). rewrite Ed in Pv. destruct (Rltb_spec d (gd_r g)); [|lra]. exists (nth i points v0), u. split; [apply nth_In; lia|]. split; [auto|lra]. }
  split; [exact K|]. destruct X01 as [->| ->]; split; try discriminate; intros X.
  - destruct (Rle_lt_or_eq_dec _ _ P0); auto. apply K in r. discriminate.
  - reflexivity.
  - assert (0 < fold_right Rplus 0 cs) by (apply K; auto). lra.
Qed.

Lemma touched pairs i j : connected pairs i j -> i = j \/ ((exists p q, In (p, q) pairs /\ (p = i \/ q = i)) /\ exists p q, In (p, q) pairs /\ (p = j \/ q = j)).
Proof.
  induction 1 as [a b H|a|a b _ IH|a b c _ IH1 _ IH2].
  - right. split; exists a, b; auto.
  - auto.
  - destruct IH as [->|[A B]]; auto.
  - destruct IH1 as [->|[A B]]; auto. destruct IH2 as [<-|[C D]]; auto.
Qed.
(** Bonds between different particles of one system: the particles Interface lists are those Cluster joins to another particle. *)
Theorem C93_interface_cluster be b points qs nl ev ev2 o out n threads keys r :
  iface_compute be b points qs (NList nl) ev ev2 o out -> let bonds := map (fun x => (bp x, bq x)) (nl_bonds nl) in
  (forall p q, In (p, q) bonds -> (p < n /\ q < n /\ p <> q)%nat) -> Permutation bonds (concat threads) -> cluster_run n threads keys r ->
  exists o', out = IFDone o' /\ forall i, (i < n)%nat -> (In i (if_point_ids o') \/ In i (if_query_point_ids o') <-> exists j, (j < n)%nat /\ j <> i /\ cr_idx r j = cr_idx r i).
Proof.
  intros I bonds HB P R. destruct (C72_list be b points qs nl ev ev2 o out I) as (o' & -> & [_ I1] & [_ I2] & _). exists o'. split; [reflexivity|]. intros i Hi. rewrite I1, I2.
  assert (C := fun j (Hj : (j < n)%nat) => C39_components n bonds threads keys r (fun p q H => conj (proj1 (HB p q H)) (proj1 (proj2 (HB p q H)))) P R j i Hj Hi). split.
  - intros [(x & Hx & E)|(x & Hx & E)]; assert (HX : In (bp x, bq x) bonds) by (apply (in_map (fun x => (bp x, bq x))); auto); destruct (HB _ _ HX) as (Lp & Lq & Ne).
    + exists (bq x). split; [auto|]. split; [congruence|]. apply C; auto. subst i. apply rst_sym, rst_step. exact HX.
    + exists (bp x). split; [auto|]. split; [congruence|]. apply C; auto. subst i. apply rst_step. exact HX.
  - intros (j & Hj & Ne & E). apply C in E; auto. apply touched in E as [->|[_ (p & q & H & D)]]; [congruence|]. apply in_map_iff in H as (x & Ex & Hx). injection Ex as E1 E2.
    destruct D as [D|D]; [left|right]; exists x; split; auto; congruence.
Qed.

Example C93_voxels_case : exists s g, sv_width s = gd_width g /\ sv_r s = gd_r g /\ positive ex_box4 /\ ortho ex_box4 /\ good_width ex_box4 (gd_width g) /\ 0 < gd_r g /\ gd_sigma g <> 0 /\ in_each (narrow (gd_r g)) ex_box4 (gd_width g) /\
  in_each (wide (gd_r g)) ex_box4 (gd_width g) /\ Forall (in_box ex_box4) [ex_pt] /\ same_dim (sv_dim s) (b_2d ex_box4) = true /\ same_dim (gd_dim g) (b_2d ex_box4) = true.
Proof.
  destruct C53_ex as (A & B & C & D & E & F). exists (SV (4, 4, 4)%Z (6/5) None None), (GD (4, 4, 4)%Z (6/5) 1 None None). cbn [sv_width gd_width sv_r gd_r gd_sigma sv_dim gd_dim].
  split; [reflexivity|]. split; [reflexivity|]. split; [exact A|]. split; [exact B|]. split; [exact C|]. split; [lra|]. split; [lra|]. split; [exact D|]. split; [exact E|]. split; [constructor; [exact F|constructor]|]. split; reflexivity.
Qed.
(** Five particles, three bonds: particle 2 is in no bond and alone. *)
Example C93_interface_case : exists nl o' r, iface_compute BRaw ex_box4 [] None (NList nl) [] [] iface_new (IFDone o') /\ Permutation (map (fun x => (bp x, bq x)) (nl_bonds nl)) (concat ex_bonds) /\
  (forall p q, In (p, q) (map (fun x => (bp x, bq x)) (nl_bonds nl)) -> (p < 5 /\ q < 5 /\ p <> q)%nat) /\ cluster_run 5 ex_bonds (Some (fun i => 10 * i)%nat) r /\ ~ In 2%nat (if_point_ids o') /\ In 1%nat (if_query_point_ids o').
Proof.
  destruct C40_ex as (r & R & _). eexists (NL 5 5 [Bond 1 0 1 1 v0; Bond 4 3 1 1 v0; Bond 3 4 1 1 v0] false [] []), _, r. split; [eexists; split; reflexivity|]. split; [|split; [|split; [exact R|]]].
  - simpl. apply (Permutation_trans (perm_swap _ _ _)). apply Permutation_refl.
  - simpl. intros p q [E|[E|[E|[]]]]; injection E as <- <-; lia.
  - simpl. split; [lia|auto].
Qed.
Print Assumptions C93_voxels_density.
Print Assumptions C93_interface_cluster.
