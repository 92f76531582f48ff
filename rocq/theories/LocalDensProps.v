(** C51: local density. *)
From Verif Require Import RBase ParProofs MatchEnvProofs LocalDescProps FilterProps AABBProps LinkCellProps QueryProps QuerySpec QueryArgSpec LocalDensSpec RdfShell.
From Coq Require Import Permutation Lra Lia.
Import ListNotations.
Local Open Scope R_scope.

Theorem C51_reject r_max D : ldn_make r_max D = None <-> r_max <= 0 \/ D < 0.
Proof. unfold ldn_make. destruct (Rleb_spec r_max 0), (Rltb_spec D 0); split; intros K; try discriminate; try tauto; destruct K; lra. Qed.

Lemma fraction_inside r D d : 0 < D -> ldn_fraction (LDens r D) d = Some (inside r D d).
Proof.
  intros HD. unfold ldn_fraction, inside. cbn [ldn_rmax ldn_diam]. destruct (Rltb_spec d (r - D / 2)) as [H|H].
  - rewrite Rmin_left; auto. apply Rmult_le_reg_r with D; auto. unfold Rdiv. rewrite Rmult_assoc, Rinv_l by lra. lra.
  - unfold fdiv, fadd. destruct (Reqb_spec D 0); [lra|]. f_equal. rewrite Rmin_right.
    + field. lra.
    + apply Rmult_le_reg_r with D; auto. unfold Rdiv. rewrite Rmult_assoc, Rinv_l by lra. lra.
Qed.
Lemma inside_lin r D d : 0 < D -> (r - (d - D / 2)) / D * D = r - (d - D / 2).
Proof. intros. field. lra. Qed.

(** The fraction counted for one neighbour. *)
Theorem C51_fraction r D : 0 < D ->
  (forall d, ldn_fraction (LDens r D) d = Some (inside r D d)) /\
  (forall d, inside r D d <= 1) /\ (forall d, 0 <= inside r D d <-> d <= r + D / 2) /\
  (forall d, inside r D d = 1 <-> d + D / 2 <= r) /\ inside r D r = / 2 /\ inside r D (r + D / 2) = 0 /\
  (forall d e, d <= e -> inside r D e <= inside r D d) /\
  (forall d e, Rabs (inside r D d - inside r D e) <= Rabs (d - e) / D).
Proof.
  intros HD. split; [intros; apply fraction_inside; auto|]. unfold inside.
  split; [intros; apply Rmin_l|]. pose proof (inside_lin r D) as L.
  split; [|split; [|split; [|split; [|split]]]].
  - intros d. specialize (L d HD). unfold Rmin. destruct (Rle_dec 1 _); split; intros; nra.
  - intros d. specialize (L d HD). unfold Rmin. destruct (Rle_dec 1 _); split; intros; nra.
  - replace ((r - (r - D / 2)) / D) with (/ 2) by (field; lra). apply Rmin_right. lra.
  - replace ((r - (r + D / 2 - D / 2)) / D) with 0 by (field; lra). apply Rmin_right. lra.
  - intros d e Hde. pose proof (L d HD). pose proof (L e HD). apply Rle_min_compat_l. nra.
  - intros d e. assert (E : forall x y, Rabs (Rmin 1 x - Rmin 1 y) <= Rabs (x - y)).
    { intros x y. unfold Rmin. destruct (Rle_dec 1 x), (Rle_dec 1 y); unfold Rabs; repeat destruct (Rcase_abs _); lra. }
    eapply Rle_trans; [apply E|]. replace ((r - (d - D / 2)) / D - (r - (e - D / 2)) / D) with ((e - d) / D) by (field; lra).
    unfold Rdiv. rewrite Rabs_mult, (Rabs_right (/ D)) by (apply Rle_ge, Rlt_le, Rinv_0_lt_compat; auto). rewrite Rabs_minus_sym. lra.
Qed.

Lemma in_range_nat i n : In i (range 0 n) <-> (i < n)%nat.
Proof. unfold range. rewrite in_seq. lia. Qed.

(** The loops write each entry once per bond of its own query point. *)
Definition osum (l : list (option R)) : option R := fold_left fadd l (Some 0).
Lemma point_spec l two_d bs i : forall n arrs, (i < length (fst arrs))%nat -> (i < length (snd arrs))%nat ->
  let r := snd (fold_left (fun st b => let n := fadd (fst st) (ldn_fraction l (bd b)) in
         (n, (put (fst (snd st)) i n, put (snd (snd st)) i (fdiv n (ldn_measure l two_d))))) bs (n, arrs)) in
  bs <> [] -> r = (put (fst arrs) i (fold_left fadd (map (fun b => ldn_fraction l (bd b)) bs) n),
                   put (snd arrs) i (fdiv (fold_left fadd (map (fun b => ldn_fraction l (bd b)) bs) n) (ldn_measure l two_d))).
Proof.
  assert (PP : forall (l : list (option R)) i x y, put (put l i x) i y = put l i y).
  { clear. induction l as [|z l IH]; intros [|i] x y; simpl; auto. rewrite IH. reflexivity. }
  induction bs as [|b bs IH]; intros n arrs H1 H2 r Hne; [contradiction|]. subst r. cbn [fold_left map fst snd].
  destruct bs as [|b' bs]; [reflexivity|]. rewrite IH; [|cbn [fst]; rewrite put_length; auto|cbn [snd]; rewrite put_length; auto|discriminate].
  cbn [fst snd]. rewrite !PP. reflexivity.
Qed.
Lemma compute_spec l two_d nq bonds ev : execution 0 nq ev ->
  let r := ldn_compute l two_d nq bonds ev in
  length (fst r) = nq /\ length (snd r) = nq /\
  forall i, (i < nq)%nat -> nth i (fst r) None = osum (map (fun b => ldn_fraction l (bd b)) (bonds i)) /\
    (bonds i <> [] -> nth i (snd r) None = fdiv (osum (map (fun b => ldn_fraction l (bd b)) (bonds i))) (ldn_measure l two_d)) /\
    (bonds i = [] -> nth i (snd r) None = Some 0).
Proof.
  intros HE. pose proof (execution_perm _ _ _ HE) as HP. set (S := fun i => osum (map (fun b => ldn_fraction l (bd b)) (bonds i))).
  assert (G : forall (ev : list (nat * nat)) arrs, (forall e, In e ev -> (snd e < nq)%nat) -> NoDup (map snd ev) -> length (fst arrs) = nq -> length (snd arrs) = nq ->
    let r := fold_left (fun arrs e => ldn_point l two_d (bonds (snd e)) (snd e) arrs) ev arrs in
    length (fst r) = nq /\ length (snd r) = nq /\ forall i, (i < nq)%nat ->
      nth i (fst r) None = (if existsb (Nat.eqb i) (map snd ev) then match bonds i with [] => nth i (fst arrs) None | _ => S i end else nth i (fst arrs) None) /\
      nth i (snd r) None = (if existsb (Nat.eqb i) (map snd ev) then match bonds i with [] => nth i (snd arrs) None | _ => fdiv (S i) (ldn_measure l two_d) end else nth i (snd arrs) None)).
  { clear ev HE HP. induction ev as [|[t k] ev IH]; intros arrs HB ND L1 L2; [simpl; auto|]. cbn [fold_left map snd existsb].
    apply NoDup_cons_iff in ND as [Nk ND']. assert (Hk : (k < nq)%nat) by (apply (HB (t, k)); left; auto).
    assert (P : ldn_point l two_d (bonds k) k arrs = match bonds k with [] => arrs | _ => (put (fst arrs) k (S k), put (snd arrs) k (fdiv (S k) (ldn_measure l two_d))) end).
    { unfold ldn_point. destruct (bonds k) as [|b bs] eqn:E; [reflexivity|]. rewrite point_spec by (rewrite ?L1, ?L2; auto; discriminate). unfold S. rewrite E. reflexivity. }
    assert (LP : length (fst (ldn_point l two_d (bonds k) k arrs)) = nq /\ length (snd (ldn_point l two_d (bonds k) k arrs)) = nq).
    { rewrite P. destruct (bonds k); cbn [fst snd]; rewrite ?put_length; auto. }
    destruct LP as [LP1 LP2]. destruct (IH _ (fun e He => HB e (or_intror He)) ND' LP1 LP2) as (R1 & R2 & R3). split; [exact R1|]. split; [exact R2|].
    intros i Hi. destruct (R3 i Hi) as [V1 V2]. rewrite V1, V2, P. clear V1 V2 R1 R2 R3.
    assert (X : i = k -> existsb (Nat.eqb i) (map snd ev) = false).
    { intros ->. destruct (existsb (Nat.eqb k) (map snd ev)) eqn:E; auto. apply existsb_exists in E as (j & Hj & E). apply Nat.eqb_eq in E. subst. contradiction. }
    destruct (Nat.eqb_spec i k) as [-> |Nik]; cbn [orb].
    - rewrite X by auto. destruct (bonds k); cbn [fst snd]; [split; reflexivity|]. rewrite !nth_put by lia. rewrite Nat.eqb_refl. split; reflexivity.
    - assert (N1 : nth i (fst match bonds k with [] => arrs | _ => (put (fst arrs) k (S k), put (snd arrs) k (fdiv (S k) (ldn_measure l two_d))) end) None = nth i (fst arrs) None).
      { destruct (bonds k); cbn [fst snd]; auto. rewrite nth_put by lia. destruct (Nat.eqb_spec i k); [contradiction|reflexivity]. }
      assert (N2 : nth i (snd match bonds k with [] => arrs | _ => (put (fst arrs) k (S k), put (snd arrs) k (fdiv (S k) (ldn_measure l two_d))) end) None = nth i (snd arrs) None).
      { destruct (bonds k); cbn [fst snd]; auto. rewrite nth_put by lia. destruct (Nat.eqb_spec i k); [contradiction|reflexivity]. }
      rewrite N1, N2. split; reflexivity. }
  assert (RN : forall i, In i (map snd ev) <-> (i < nq)%nat).
  { intros i. rewrite <- (in_range_nat i nq). split; intros H; [eapply Permutation_in; [exact HP|exact H]|eapply Permutation_in; [symmetry; exact HP|exact H]]. }
  destruct (G ev (repeat (Some 0) nq, repeat (Some 0) nq)) as (L1 & L2 & V).
  - intros e He. apply RN. apply in_map; auto.
  - eapply Permutation_NoDup; [symmetry; exact HP|]. unfold range. apply seq_NoDup.
  - apply repeat_length.
  - apply repeat_length.
  - split; [exact L1|]. split; [exact L2|]. intros i Hi. destruct (V i Hi) as [V1 V2].
    assert (X : existsb (Nat.eqb i) (map snd ev) = true) by (apply existsb_exists; exists i; split; [apply RN; auto|apply Nat.eqb_refl]).
    assert (Z : nth i (repeat (Some 0) nq) None = Some 0) by (clear - Hi; revert i Hi; induction nq; intros [|i] Hi; simpl; auto; try lia; apply IHnq; lia).
    rewrite X in V1, V2. cbn [fst snd] in V1, V2. rewrite Z in V1, V2. unfold ldn_compute. rewrite V1, V2. unfold S in *. destruct (bonds i) as [|b bs].
    + split; [reflexivity|]. split; [congruence|reflexivity].
    + split; [reflexivity|]. split; [reflexivity|discriminate].
Qed.

Lemma osum_some (f : bond -> R) bs l : (forall b, In b bs -> ldn_fraction l (bd b) = Some (f b)) -> osum (map (fun b => ldn_fraction l (bd b)) bs) = Some (rsum (map f bs)).
Proof.
  intros H. unfold osum. assert (G : forall bs z, (forall b, In b bs -> ldn_fraction l (bd b) = Some (f b)) -> fold_left fadd (map (fun b => ldn_fraction l (bd b)) bs) (Some z) = Some (z + rsum (map f bs))).
  { clear. induction bs as [|b bs IH]; intros z H; simpl; [f_equal; ring|]. rewrite H by (left; auto). simpl. rewrite IH by (intros; apply H; right; auto). f_equal. ring. }
  rewrite G; auto. f_equal. ring.
Qed.
Lemma measure_shell r D two_d : ldn_measure (LDens r D) two_d = shell two_d 0 r.
Proof. unfold ldn_measure. destruct two_d; [rewrite shell_2d|rewrite shell_3d]; simpl; ring. Qed.

(** Every list of bonds and every schedule: num_neighbors is the sum of the fractions of the query point's bonds and density times the
    area of the disc or volume of the ball of radius r_max is num_neighbors; query points without bonds get zero. *)
Theorem C51_values r D l two_d nq bonds ev : ldn_make r D = Some l -> execution 0 nq ev ->
  let (num, dens) := ldn_compute l two_d nq bonds ev in
  length num = nq /\ length dens = nq /\
  forall i, (i < nq)%nat -> 0 < D \/ (forall b, In b (bonds i) -> bd b < r) -> exists n v,
    nth i num None = Some n /\ nth i dens None = Some v /\ v * shell two_d 0 r = n /\
    (0 < D -> n = rsum (map (fun b => inside r D (bd b)) (bonds i))) /\ (D = 0 -> n = INR (length (bonds i))).
Proof.
  intros HM HE. unfold ldn_make in HM. destruct (Rleb_spec r 0) as [|Hr]; [discriminate|]. destruct (Rltb_spec D 0) as [|Hd]; [discriminate|]. injection HM as <-.
  pose proof (compute_spec (LDens r D) two_d nq bonds ev HE) as C. destruct (ldn_compute _ _ _ _ _) as [num dens]. destruct C as (L1 & L2 & V). cbn [fst snd] in *.
  split; [exact L1|]. split; [exact L2|]. intros i Hi HD. destruct (V i Hi) as (V1 & V2 & V3). pose proof (shell_pos two_d 0 r ltac:(lra)) as SP.
  set (f := fun b => if Rltb 0 D then inside r D (bd b) else 1).
  assert (F : forall b, In b (bonds i) -> ldn_fraction (LDens r D) (bd b) = Some (f b)).
  { intros b Hb. unfold f. destruct (Rltb_spec 0 D); [apply fraction_inside; auto|]. destruct HD as [HD|HD]; [lra|]. specialize (HD b Hb).
    unfold ldn_fraction; simpl. destruct (Rltb_spec (bd b) (r - D / 2)); [reflexivity|lra]. }
  rewrite (osum_some f) in V1, V2 by exact F. set (n := rsum (map f (bonds i))) in *. exists n, (n / shell two_d 0 r). split; [exact V1|]. split; [|split; [field; lra|]].
  - destruct (bonds i) as [|b bs] eqn:E; [rewrite V3 by auto; unfold n; simpl; f_equal; field; lra|].
    rewrite V2 by discriminate. unfold fdiv. rewrite measure_shell. destruct (Reqb_spec (shell two_d 0 r) 0); [lra|reflexivity].
  - unfold n, f. split; intros X.
    + destruct (Rltb_spec 0 D); [reflexivity|lra].
    + destruct (Rltb_spec 0 D); [lra|]. clear. induction (bonds i) as [|b bs IH]; [reflexivity|]. cbn [map length rsum fold_right]. rewrite S_INR. unfold rsum in IH. rewrite IH. ring.
Qed.

(** With the default neighbourhood, for every backend: the sum runs over exactly the particle images nearer than r_max + diameter/2, and
    each contributes between 0 and 1. *)
Theorem C51_default r D l (be : backend) (b : box) (points qs : list vec3) (excl : bool) two_d ev :
  ldn_make r D = Some l -> BoxSpec.positive b -> fully_periodic b -> points <> [] -> (Z.of_nat (length points) <= 2 ^ 31)%Z ->
  (forall x, In x points -> in_cell b x) -> qs <> [] -> (forall x, In x qs -> in_cell b x) -> radius_ok b (r + / 2 * D) ->
  usable be b points -> execution 0 (length qs) ev ->
  exists ls, (forall res, py_query be b points qs (ldn_default_args l excl) res <-> res = Some ls) /\
    let (num, dens) := ldn_compute l two_d (length qs) (fun i => nth i ls []) ev in
    forall i, (i < length qs)%nat -> exists bs n v,
      NoDup bs /\ (forall x, In x bs <-> in_range b points (nth i qs v0) i (r + / 2 * D) 0 excl all_images x) /\
      nth i num None = Some n /\ nth i dens None = Some v /\ v * shell two_d 0 r = n /\
      (0 < D -> n = rsum (map (fun x => inside r D (bd x)) bs)) /\ (D = 0 -> n = INR (length bs)) /\
      0 <= n <= INR (length bs).
Proof.
  intros HM P1 P2 P3 P4 P5 P6 P7 P8 U HE.
  assert (St : setting b points qs (ldn_default_args l excl) (r + / 2 * D)).
  { unfold ldn_make in HM. destruct (Rleb_spec r 0) as [|Hr]; [discriminate|]. destruct (Rltb_spec D 0) as [|Hd]; [discriminate|]. injection HM as <-.
    constructor; auto; try (simpl; lra).
    - unfold no_sentinel; simpl. repeat split; intros X; try discriminate. injection X as X. lra.
    - unfold well_formed; simpl. repeat split; intros; discriminate.
    - unfold asks_ball; simpl. auto. }
  destruct (C32_ball be b points qs _ _ St U) as (ls & Q & LL & H). exists ls. split; [exact Q|].
  pose proof (C51_values r D l two_d (length qs) (fun i => nth i ls []) ev HM HE) as V. destruct (ldn_compute _ _ _ _ _) as [num dens].
  destruct V as (_ & _ & V). intros i Hi. destruct (H i Hi) as [ND IN]. simpl in IN. exists (nth i ls []).
  assert (HM' : 0 < r /\ 0 <= D) by (unfold ldn_make in HM; destruct (Rleb_spec r 0); [discriminate|]; destruct (Rltb_spec D 0); [discriminate|]; lra).
  assert (DB : forall x, In x (nth i ls []) -> bd x < r + / 2 * D).
  { intros x Hx. apply IN in Hx as (j & i1 & i2 & i3 & _ & _ & _ & _ & [_ HR] & ->). exact HR. }
  destruct (V i Hi) as (n & v & Vn & Vd & Ve & V1 & V2).
  { destruct (Rlt_le_dec 0 D); [auto|]. right. intros x Hx. specialize (DB x Hx). lra. }
  exists n, v. split; [exact ND|]. split; [exact IN|]. split; [exact Vn|]. split; [exact Vd|]. split; [exact Ve|]. split; [exact V1|]. split; [exact V2|].
  destruct (Rlt_le_dec 0 D) as [HD|HD].
  - rewrite (V1 HD). destruct (C51_fraction r D HD) as (_ & F1 & F2 & _). clear - DB F1 F2 HD. induction (nth i ls []) as [|x bs IH]; [simpl; lra|].
    cbn [map length rsum fold_right]. rewrite S_INR. destruct IH as [I1 I2]; [intros; apply DB; right; auto|]. specialize (DB x (or_introl eq_refl)).
    pose proof (F1 (bd x)). pose proof (proj2 (F2 (bd x)) ltac:(lra)). unfold rsum in *. lra.
  - rewrite V2 by lra. split; [apply pos_INR|lra].
Qed.

(** A user's neighbour list may hold bonds longer than r_max + diameter/2: the documented contribution from r_max + diameter on is zero,
    the code's is negative; with diameter 0 it is not a number. *)
Theorem C51_far_refuted :
  (exists l d, ldn_make 1 1 = Some l /\ 1 + 1 <= d /\ ldn_fraction l d = Some (- / 2)) /\
  (exists l d, ldn_make 1 0 = Some l /\ ldn_fraction l d = None).
Proof.
  split.
  - exists (LDens 1 1), 2. split; [unfold ldn_make; destruct (Rleb_spec 1 0); [lra|]; destruct (Rltb_spec 1 0); [lra|reflexivity]|]. split; [lra|].
    rewrite fraction_inside by lra. unfold inside. rewrite Rmin_right by lra. f_equal. lra.
  - exists (LDens 1 0), 1. split; [unfold ldn_make; destruct (Rleb_spec 1 0); [lra|]; destruct (Rltb_spec 0 0); [lra|reflexivity]|].
    unfold ldn_fraction; simpl. destruct (Rltb_spec 1 (1 - 0 / 2)); [lra|]. unfold fdiv. destruct (Reqb_spec 0 0); [reflexivity|contradiction].
Qed.

(** Two points 1 apart (through the boundary) in the cube of side 10, radius 1 and diameter 1: each sees half of the other. *)
Example C51_ex : exists l points, ldn_make 1 1 = Some l /\ BoxSpec.positive ex_cube /\ fully_periodic ex_cube /\ (forall x, In x points -> in_cell ex_cube x) /\
  radius_ok ex_cube (1 + / 2 * 1) /\ usable BAABB ex_cube points /\
  exists x, in_range ex_cube points (nth 0 points v0) 0 (1 + / 2 * 1) 0 true all_images x /\ inside 1 1 (bd x) = / 2.
Proof.
  exists (LDens 1 1), [V3 (-9/2) 0 0; V3 (9/2) 0 0]. split; [unfold ldn_make; destruct (Rleb_spec 1 0); [lra|]; destruct (Rltb_spec 1 0); [lra|reflexivity]|].
  assert (C : forall x, In x [V3 (-9/2) 0 0; V3 (9/2) 0 0] -> in_cell ex_cube x) by (intros x [<-|[<-|[]]]; apply ex_corner; lra).
  split; [apply ex_cube_positive|]. split; [apply ex_cube_fp|]. split; [exact C|]. split; [|split; [exact I|]].
  - unfold radius_ok. rewrite ex_cube_planes. simpl. repeat split; intros; lra.
  - assert (N : norm (sep ex_cube [V3 (-9/2) 0 0; V3 (9/2) 0 0] (V3 (-9/2) 0 0) 1 1 0 0) = 1).
    { unfold sep; simpl. unfold norm. rewrite <- sqrt_1. f_equal. unfold dot, vsub, vadd, comb, a1, a2, a3, ex_cube; simpl. field. }
    eexists. split.
    + exists 1%nat, 1%Z, 0%Z, 0%Z. split; [simpl; lia|]. split; [|split; [exact I|split; [intros [_ X]; discriminate|]]].
      * repeat split; intros; try discriminate; auto.
      * simpl nth. rewrite N. split; [lra|reflexivity].
    + cbn [bd]. simpl nth. try rewrite N. unfold inside. rewrite Rmin_right; lra.
Qed.

Print Assumptions C51_reject.
Print Assumptions C51_fraction.
Print Assumptions C51_values.
Print Assumptions C51_default.
Print Assumptions C51_far_refuted.
Print Assumptions C51_ex.
