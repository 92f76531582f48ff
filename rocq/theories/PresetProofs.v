(** From the infinite crystal of a cell to the systems made from it. *)
From Verif Require Import BoxProofs BoxProofs2 PBufferProofs PBufferProps LocalDescProps MatchEnvProofs UnitCellProps.
From Flocq Require Import Core.
From Coq Require Import Reals ZArith List Lra Lia Bool.
From Verif Require Import PresetSpec.
Import ListNotations.
Open Scope R_scope.

Definition cx (t : Z * Z * Z) : Z := fst (fst t).
Definition cy (t : Z * Z * Z) : Z := snd (fst t).
Definition cz (t : Z * Z * Z) : Z := snd t.
Lemma cx_t a b c : cx (a, b, c) = a. Proof. reflexivity. Qed.
Lemma cy_t a b c : cy (a, b, c) = b. Proof. reflexivity. Qed.
Lemma cz_t a b c : cz (a, b, c) = c. Proof. reflexivity. Qed.
Lemma trip (s t : Z * Z * Z) : cx s = cx t -> cy s = cy t -> cz s = cz t -> s = t.
Proof. destruct s as [[? ?] ?], t as [[? ?] ?]. cbn. congruence. Qed.

(** ** Positions of cells in the list *)
Definition index (n c : Z * Z * Z) : nat := (Z.to_nat (cx c) * (Z.to_nat (cy n) * Z.to_nat (cz n)) + (Z.to_nat (cy c) * Z.to_nat (cz n) + Z.to_nat (cz c)))%nat.
Definition in_counts (n c : Z * Z * Z) : Prop := (0 <= cx c < cx n /\ 0 <= cy c < cy n /\ 0 <= cz c < cz n)%Z.
Lemma counts_nth n i : (0 <= i < n)%Z -> nth (Z.to_nat i) (counts n) 0%Z = i.
Proof. intros H. unfold counts. rewrite (nth_map_lt _ _ _ 0%nat) by (rewrite seq_length; lia). rewrite seq_nth by lia. lia. Qed.
Lemma index_nth n c : in_counts n c -> (index n c < length (cells n))%nat /\ nth (index n c) (cells n) (0, 0, 0)%Z = c.
Proof.
  destruct n as [[nx ny] nz], c as [[i j] k]. unfold in_counts, index, cx, cy, cz. cbn [fst snd]. intros (A & B & C). assert (L := cells_length (nx, ny, nz)). cbn beta iota in L.
  assert (H1 : (Z.to_nat i < Z.to_nat nx)%nat) by lia. assert (H2 : (Z.to_nat j < Z.to_nat ny)%nat) by lia. assert (H3 : (Z.to_nat k < Z.to_nat nz)%nat) by lia.
  assert (H4 : (Z.to_nat j * Z.to_nat nz + Z.to_nat k < Z.to_nat ny * Z.to_nat nz)%nat) by nia.
  split; [rewrite L; nia|]. unfold cells. rewrite (nth_flat_blocks _ (Z.to_nat ny * Z.to_nat nz) 0%Z).
  - rewrite (nth_flat_blocks _ (Z.to_nat nz) 0%Z).
    + rewrite (nth_map_lt _ _ _ 0%Z) by (rewrite counts_length; exact H3). rewrite !counts_nth by assumption. reflexivity.
    + intros j' _. rewrite map_length, counts_length. reflexivity.
    + rewrite counts_length. exact H2.
    + exact H3.
  - intros i' _. rewrite (flat_map_const _ (Z.to_nat nz)); [rewrite counts_length; reflexivity|]. intros j' _. rewrite map_length, counts_length. reflexivity.
  - rewrite counts_length. exact H1.
  - exact H4.
Qed.
Lemma nth_cell n q : (q < length (cells n))%nat -> in_counts n (nth q (cells n) (0, 0, 0)%Z).
Proof.
  intros H. apply (nth_In _ (0, 0, 0)%Z) in H. destruct n as [[nx ny] nz]. destruct (nth q (cells (nx, ny, nz)) (0, 0, 0)%Z) as [[i j] k]. apply cells_in in H. exact H.
Qed.
Lemma index_cell n q : (0 < cx n /\ 0 < cy n /\ 0 < cz n)%Z -> (q < length (cells n))%nat -> index n (nth q (cells n) (0, 0, 0)%Z) = q.
Proof.
  intros P H. destruct (index_nth n _ (nth_cell n q H)) as [A B]. assert (ND : NoDup (cells n)) by (destruct n as [[nx ny] nz]; apply cells_NoDup; exact P). apply (proj1 (NoDup_nth _ (0, 0, 0)%Z) ND); assumption.
Qed.
(** ** Choice over a finite range *)
Lemma choose {A} (d : A) (P : nat -> A -> Prop) n : (forall m, (m < n)%nat -> exists a, P m a) -> exists g, forall m, (m < n)%nat -> P m (g m).
Proof.
  induction n as [|n IH]; intros H; [exists (fun _ => d); intros; lia|]. destruct IH as [g G]; [intros; apply H; lia|]. destruct (H n) as [a Ha]; [lia|]. exists (fun m => if Nat.eqb m n then a else g m). intros m Hm. destruct (Nat.eqb_spec m n) as [->|E]; [exact Ha|apply G; lia].
Qed.
(** The neighbours in the infinite crystal. *)
Definition offset (b : box) (basis : list vec3) (id : nat) (x : nat * (Z * Z * Z)) : vec3 :=
  let f := nth id basis v0 in let f' := nth (fst x) basis v0 in
  comb b (vx f' - vx f + IZR (cx (snd x))) (vy f' - vy f + IZR (cy (snd x))) (vz f' - vz f + IZR (cz (snd x))).
Definition near_site (b : box) (basis : list vec3) (id : nat) (d : R) (x : nat * (Z * Z * Z)) : Prop :=
  (fst x < length basis)%nat /\ (b_2d b = true -> cz (snd x) = 0%Z) /\ x <> (id, (0, 0, 0)%Z) /\ norm (offset b basis id x) < d.
Definition shell (b : box) (basis : list vec3) (z : nat) (d d' : R) : Prop :=
  forall id, (id < length basis)%nat -> exists l, NoDup l /\ length l = z /\ (forall x, In x l <-> near_site b basis id d' x) /\ forall x, In x l -> norm (offset b basis id x) = d.

Section system.
Variables (b : box) (basis : list vec3) (r : replicas) (scale : R) (n : Z * Z * Z) (bx : box) (pts : list vec3).
Hypothesis Hb : positive b.
Hypothesis Rq : requests b r n.
Hypothesis HE : uc_generate b basis r scale None = Some (bx, pts).
Let N := length (cells n).
Let disp := displacement b n.
Let HN : forall i, in_space b (moved None i). Proof. intros i X; reflexivity. Qed.
Let Hpos : (0 < cx n /\ 0 < cy n /\ 0 < cz n)%Z. Proof. exact (proj1 (requests_pos b r n Rq)). Qed.
Let H2d : b_2d b = true -> cz n = 1%Z. Proof. exact (proj2 (requests_pos b r n Rq)). Qed.
Let HS : 0 < scale. Proof. apply (generate_some b basis r scale None Hb HN n bx pts Rq HE). Qed.
Lemma count_pts : length pts = (length basis * N)%nat.
Proof. apply (C64_count b basis r scale None Hb HN n bx pts Rq HE). Qed.
Lemma N_pos : (0 < N)%nat.
Proof. unfold N. assert (L := cells_length n). destruct n as [[nx ny] nz]. cbn beta iota in L. rewrite L. unfold cx, cy, cz in Hpos. cbn [fst snd] in Hpos. nia. Qed.
Lemma box_spec : scaled_box b bx (IZR (cx n) * scale) (IZR (cy n) * scale) (IZR (cz n) * scale).
Proof.
  destruct (generate_some b basis r scale None Hb HN n bx pts Rq HE) as (_ & EB & _). assert (SC := mul_scaled b Hb n scale Hpos HS). rewrite <- EB in SC. destruct n as [[nx ny] nz]. exact SC.
Qed.
Lemma allowed_iff i j k : allowed bx i j k <-> (b_2d b = true -> k = 0%Z).
Proof.
  assert (SC := box_spec). assert (FP : fully_periodic bx) by apply SC. assert (E2 : b_2d bx = b_2d b) by apply SC. destruct FP as (F1 & F2 & F3). unfold allowed. rewrite F1, F2, F3, E2. intuition discriminate.
Qed.
Lemma shift_spec i j k : shift bx i j k = vscale scale (comb b (IZR (cx n * i)) (IZR (cy n * j)) (IZR (cz n * k))).
Proof.
  unfold shift. rewrite (scaled_comb b bx _ _ _ _ _ _ box_spec), !mult_IZR. unfold comb. apply vec_eq; cbn [vscale vadd vx vy vz]; ring.
Qed.
(** Whole numbers that say in which cell of the infinite crystal a point lies. *)
Definition placed (g : nat -> Z * Z * Z) : Prop := forall id q, (id < length basis)%nat -> (q < N)%nat ->
  let m := (id * N + q)%nat in let f := nth id basis v0 in let c := nth q (cells n) (0, 0, 0)%Z in
  nth m pts v0 = vscale scale (vadd (comb b (vx f - 1 / 2 + IZR (cx (g m))) (vy f - 1 / 2 + IZR (cy (g m))) (vz f - 1 / 2 + IZR (cz (g m)))) disp) /\
  (exists a1 a2 a3 : Z, cx (g m) = cx c + cx n * a1 /\ cy (g m) = cy c + cy n * a2 /\ cz (g m) = cz c + cz n * a3)%Z /\ (b_2d b = true -> cz (g m) = 0%Z).
Lemma placement : exists g, placed g.
Proof.
  destruct (C64_points b basis r scale None Hb HN n bx pts Rq HE) as [_ PT]. fold N disp in PT.
  destruct (choose (0, 0, 0)%Z (fun m t => forall id q, (id < length basis)%nat -> (q < N)%nat -> m = (id * N + q)%nat -> let f := nth id basis v0 in let c := nth q (cells n) (0, 0, 0)%Z in
    nth m pts v0 = vscale scale (vadd (comb b (vx f - 1 / 2 + IZR (cx t)) (vy f - 1 / 2 + IZR (cy t)) (vz f - 1 / 2 + IZR (cz t))) disp) /\
    (exists a1 a2 a3 : Z, cx t = cx c + cx n * a1 /\ cy t = cy c + cy n * a2 /\ cz t = cz c + cz n * a3)%Z /\ (b_2d b = true -> cz t = 0%Z)) (length basis * N)) as [g G].
  - intros m Hm. assert (NP := N_pos). destruct (Nat.eq_dec N 0) as [Z0|Z0]; [lia|].
    assert (Hid : (m / N < length basis)%nat) by (apply Nat.div_lt_upper_bound; lia). assert (Hq : (m mod N < N)%nat) by (apply Nat.mod_upper_bound; lia).
    destruct (PT (m / N)%nat (m mod N)%nat Hid Hq) as (i & j & k & AL & EP). assert (EM : (m / N * N + m mod N = m)%nat) by (rewrite (Nat.div_mod m N) at 3 by lia; lia). rewrite EM in EP.
    set (c := nth (m mod N) (cells n) (0, 0, 0)%Z) in *. exists (cx c + cx n * i, cy c + cy n * j, cz c + cz n * k)%Z. intros id q Hid' Hq' E.
    assert (EI : (m / N)%nat = id) by (subst m; rewrite Nat.div_add_l by lia; rewrite Nat.div_small by exact Hq'; lia). assert (EQ : (m mod N)%nat = q) by (subst m; rewrite Nat.add_comm, Nat.mod_add by lia; apply Nat.mod_small; exact Hq').
    unfold c in *. rewrite EI, EQ in *. clear E EM EI EQ. set (c' := nth q (cells n) (0, 0, 0)%Z) in *. cbn zeta. split; [|split].
    + rewrite EP, shift_spec. unfold moved. unfold site. destruct c' as [[i' j'] k']. unfold cx, cy, cz. cbn [fst snd]. unfold cell_point, shift, comb. rewrite !plus_IZR. apply vec_eq; cbn [vscale vadd vx vy vz v0]; ring.
    + exists i, j, k. unfold cx, cy, cz. cbn [fst snd]. auto.
    + intros E2. rewrite (proj1 (allowed_iff i j k) AL E2). change (cz c' + cz n * 0 = 0)%Z. assert (IC : in_counts n c') by (apply nth_cell; exact Hq). destruct IC as (_ & _ & IC). rewrite (H2d E2) in IC. lia.
  - exists g. intros id q Hid Hq. apply (G (id * N + q)%nat); [nia|exact Hid|exact Hq|reflexivity].
Qed.
Section placed_points.
Variable g : nat -> Z * Z * Z.
Hypothesis Hg : placed g.
Lemma split_m m : (m < length pts)%nat -> (m / N < length basis)%nat /\ (m mod N < N)%nat /\ (m / N * N + m mod N = m)%nat.
Proof.
  intros H. rewrite count_pts in H. assert (NP := N_pos). split; [apply Nat.div_lt_upper_bound; lia|]. split; [apply Nat.mod_upper_bound; lia|]. rewrite (Nat.div_mod m N) at 3 by lia. lia.
Qed.
(** An image of a particle, in the crystal. *)
Definition to_crystal (m : nat) (y : nat * (Z * Z * Z)) : nat * (Z * Z * Z) :=
  let '(m', (i, j, k)) := y in ((m' / N)%nat, (cx (g m') + cx n * i - cx (g m), cy (g m') + cy n * j - cy (g m), cz (g m') + cz n * k - cz (g m)))%Z.
Definition to_system (m : nat) (x : nat * (Z * Z * Z)) : nat * (Z * Z * Z) :=
  let t := snd x in let tx := (cx (g m) + cx t)%Z in let ty := (cy (g m) + cy t)%Z in let tz := (cz (g m) + cz t)%Z in
  let m' := (fst x * N + index n (tx mod cx n, ty mod cy n, tz mod cz n)%Z)%nat in
  (m', ((tx - cx (g m')) / cx n, (ty - cy (g m')) / cy n, (tz - cz (g m')) / cz n)%Z).
Lemma seen_offset m y : (m < length pts)%nat -> (fst y < length pts)%nat -> seen_from bx pts m y = vscale scale (offset b basis (m / N) (to_crystal m y)).
Proof.
  destruct y as [m' [[i j] k]]. cbn [fst]. intros H H'. destruct (split_m m H) as (A1 & A2 & A3). destruct (split_m m' H') as (B1 & B2 & B3).
  destruct (Hg _ _ A1 A2) as (P & _ & _). destruct (Hg _ _ B1 B2) as (P' & _ & _). rewrite A3 in P. rewrite B3 in P'. cbn zeta in P, P'.
  unfold seen_from, offset, to_crystal. cbn [fst snd]. rewrite P, P', shift_spec. rewrite !cx_t, !cy_t, !cz_t, !minus_IZR, !plus_IZR. unfold comb. apply vec_eq; cbn [vsub vscale vadd vx vy vz]; ring.
Qed.
Lemma in_counts_mod tx ty tz : in_counts n (tx mod cx n, ty mod cy n, tz mod cz n)%Z.
Proof. destruct Hpos as (P1 & P2 & P3). unfold in_counts. rewrite !cx_t, !cy_t, !cz_t. repeat split; apply Z.mod_pos_bound; assumption. Qed.
Lemma to_there m x : (m < length pts)%nat -> (fst x < length basis)%nat -> (fst (to_system m x) < length pts)%nat /\ to_crystal m (to_system m x) = x.
Proof.
  destruct x as [id [[u v] w]]. cbn [fst]. intros H Hid. unfold to_system. cbn [fst snd]. rewrite !cx_t, !cy_t, !cz_t. set (tx := (cx (g m) + u)%Z). set (ty := (cy (g m) + v)%Z). set (tz := (cz (g m) + w)%Z).
  destruct (index_nth n _ (in_counts_mod tx ty tz)) as [I1 I2]. fold N in I1. set (q := index n (tx mod cx n, ty mod cy n, tz mod cz n)%Z) in *.
  destruct (Hg id q Hid I1) as (_ & (b1 & b2 & b3 & E1 & E2 & E3) & _). cbn zeta in E1, E2, E3. rewrite I2 in E1, E2, E3. rewrite cx_t in E1. rewrite cy_t in E2. rewrite cz_t in E3. set (m' := (id * N + q)%nat) in *.
  split; [rewrite count_pts; unfold m'; nia|]. unfold to_crystal. assert (EI : (m' / N)%nat = id) by (unfold m'; assert (NP := N_pos); rewrite Nat.div_add_l by lia; rewrite Nat.div_small by exact I1; lia). rewrite EI. f_equal.
  destruct Hpos as (P1 & P2 & P3).
  assert (W : forall N0 t gm' a gm u0 : Z, (0 < N0)%Z -> (gm' = t mod N0 + N0 * a)%Z -> t = (gm + u0)%Z -> (gm' + N0 * ((t - gm') / N0) - gm = u0)%Z).
  { intros N0 t gm' a gm u0 HP EG ET. assert (D : (t - gm' = N0 * (t / N0 - a))%Z) by (rewrite (Z.div_mod t N0) at 1 by lia; lia). rewrite D, (Z.mul_comm N0 (t / N0 - a)), Z.div_mul by lia. lia. }
  f_equal; [f_equal|]; eapply W; try eassumption; try reflexivity.
Qed.
Lemma to_back m y : (m < length pts)%nat -> (fst y < length pts)%nat -> to_system m (to_crystal m y) = y.
Proof.
  destruct y as [m' [[i j] k]]. cbn [fst]. intros H H'. destruct (split_m m' H') as (B1 & B2 & B3). destruct (Hg _ _ B1 B2) as (_ & (b1 & b2 & b3 & E1 & E2 & E3) & _). rewrite B3 in E1, E2, E3. cbn zeta in E1, E2, E3.
  assert (IC := nth_cell n _ B2). assert (II := index_cell n _ Hpos B2). set (c := nth (m' mod N)%nat (cells n) (0, 0, 0)%Z) in *. destruct Hpos as (P1 & P2 & P3). destruct IC as (I1 & I2 & I3).
  unfold to_crystal, to_system. cbn [fst snd]. rewrite !cx_t, !cy_t, !cz_t.
  set (X := (cx (g m) + (cx (g m') + cx n * i - cx (g m)))%Z). set (Y := (cy (g m) + (cy (g m') + cy n * j - cy (g m)))%Z). set (W := (cz (g m) + (cz (g m') + cz n * k - cz (g m)))%Z).
  assert (EX : X = (cx c + (b1 + i) * cx n)%Z) by (unfold X; rewrite E1; ring). assert (EY : Y = (cy c + (b2 + j) * cy n)%Z) by (unfold Y; rewrite E2; ring). assert (EW : W = (cz c + (b3 + k) * cz n)%Z) by (unfold W; rewrite E3; ring).
  fold X Y W. assert (MX : (X mod cx n = cx c)%Z) by (rewrite EX, Z.mod_add by lia; apply Z.mod_small; lia). assert (MY : (Y mod cy n = cy c)%Z) by (rewrite EY, Z.mod_add by lia; apply Z.mod_small; lia). assert (MW : (W mod cz n = cz c)%Z) by (rewrite EW, Z.mod_add by lia; apply Z.mod_small; lia).
  rewrite MX, MY, MW. assert (EC : (cx c, cy c, cz c) = c) by (destruct c as [[? ?] ?]; reflexivity). rewrite EC, II, B3. f_equal.
  assert (D : forall N0 G G' i0 : Z, (0 < N0)%Z -> ((G' + (G + N0 * i0 - G') - G) / N0 = i0)%Z) by (intros N0 G G' i0 HP; replace (G' + (G + N0 * i0 - G') - G)%Z with (i0 * N0)%Z by ring; apply Z.div_mul; lia).
  unfold X, Y, W. rewrite !D by assumption. reflexivity.
Qed.
Lemma to_crystal_self m : (m < length pts)%nat -> to_crystal m (m, (0, 0, 0)%Z) = ((m / N)%nat, (0, 0, 0)%Z).
Proof. intros H. unfold to_crystal. f_equal. f_equal; [f_equal|]; ring. Qed.
Lemma norm_scale s v : 0 <= s -> norm (vscale s v) = s * norm v.
Proof. intros H. unfold norm, dot. cbn [vscale vx vy vz]. replace (s * vx v * (s * vx v) + s * vy v * (s * vy v) + s * vz v * (s * vz v)) with (s * s * (vx v * vx v + vy v * vy v + vz v * vz v)) by ring. rewrite sqrt_mult by nra. rewrite sqrt_square by exact H. reflexivity. Qed.
Lemma near_iff m y d : (m < length pts)%nat -> (fst y < length pts)%nat -> (neighbour bx pts m (scale * d) y <-> near_site b basis (m / N) d (to_crystal m y)).
Proof.
  intros H H'. assert (SO := seen_offset m y H H'). assert (TB := to_back m y H H'). destruct (split_m (fst y) H') as (B1 & B2 & B3). destruct (split_m m H) as (A1 & A2 & A3). unfold near_site.
  assert (C3 : b_2d b = true -> cz (snd (to_crystal m y)) = snd (snd y)).
  { intros E. destruct y as [m' [[i j] k]]. cbn [fst snd] in *. unfold to_crystal. cbn [snd]. rewrite cz_t. destruct (Hg _ _ A1 A2) as (_ & _ & Z1). destruct (Hg _ _ B1 B2) as (_ & _ & Z2). rewrite A3 in Z1. rewrite B3 in Z2. rewrite (Z1 E), (Z2 E), (H2d E). lia. }
  assert (FC : fst (to_crystal m y) = (fst y / N)%nat) by (destruct y as [m' [[i j] k]]; reflexivity). rewrite FC.
  assert (NE : y <> (m, (0, 0, 0)%Z) <-> to_crystal m y <> ((m / N)%nat, (0, 0, 0)%Z)).
  { split; intros X Y; apply X; [|rewrite Y; apply to_crystal_self; exact H]. rewrite <- TB, Y, <- (to_crystal_self m H). apply to_back; assumption. }
  assert (ND : norm (seen_from bx pts m y) < scale * d <-> norm (offset b basis (m / N) (to_crystal m y)) < d).
  { rewrite SO, norm_scale by lra. split; intros X; [apply (Rmult_lt_reg_l scale); [exact HS|exact X]|apply Rmult_lt_compat_l; [exact HS|exact X]]. }
  destruct y as [m' [[i j] k]]. unfold neighbour. cbn [fst snd] in *. rewrite allowed_iff, NE, ND. clear -C3 B1 H'. intuition; congruence.
Qed.
End placed_points.
Lemma coordinated z d d' : shell b basis z d d' -> coordination bx pts z (scale * d) (scale * d').
Proof.
  intros SH m Hm. destruct placement as [g G]. assert (H1 := split_m m Hm). destruct H1 as (A1 & _ & _). destruct (SH _ A1) as (l & ND & LE & IN & EQ).
  assert (TH : forall x, In x l -> (fst (to_system g m x) < length pts)%nat /\ to_crystal g m (to_system g m x) = x) by (intros x Hx; apply to_there; [exact G|exact Hm|apply IN in Hx; apply Hx]).
  exists (map (to_system g m) l). split; [|split; [rewrite map_length; exact LE|split]].
  - apply inj_NoDup; [|exact ND]. intros x y Hx Hy E. destruct (TH x Hx) as [_ <-]. destruct (TH y Hy) as [_ <-]. rewrite E. reflexivity.
  - intros y. rewrite in_map_iff. split.
    + intros (x & <- & Hx). destruct (TH x Hx) as [L E]. apply (near_iff g G m _ d' Hm L). rewrite E. apply IN. exact Hx.
    + intros Hy. assert (L : (fst y < length pts)%nat) by (destruct y as [? [[? ?] ?]]; apply Hy). exists (to_crystal g m y). split; [apply to_back; assumption|]. apply IN. apply near_iff; assumption.
  - intros y Hy. apply in_map_iff in Hy as (x & <- & Hx). destruct (TH x Hx) as [L E]. rewrite (seen_offset g G m _ Hm L), norm_scale by lra. rewrite E, (EQ x Hx). reflexivity.
Qed.
(** The points and their images are the infinite crystal, magnified and moved. *)
Lemma crystal_points : exists D, forall p, periodic_point bx pts p <-> exists c, crystal b basis c /\ p = vscale scale (vadd c D).
Proof.
  destruct placement as [g G]. exists (vadd (comb b (- (1 / 2)) (- (1 / 2)) (- (1 / 2))) disp). intros p. split.
  - intros (m & i & j & k & Hm & AL & ->). destruct (split_m m Hm) as (A1 & A2 & A3). destruct (G _ _ A1 A2) as (P & _ & Z0). rewrite A3 in P, Z0. cbn zeta in P. set (f := nth (m / N) basis v0) in *.
    exists (comb b (vx f + IZR (cx (g m) + cx n * i)) (vy f + IZR (cy (g m) + cy n * j)) (vz f + IZR (cz (g m) + cz n * k))). split.
    + exists f, (cx (g m) + cx n * i)%Z, (cy (g m) + cy n * j)%Z, (cz (g m) + cz n * k)%Z. split; [apply nth_In; exact A1|]. split; [|reflexivity]. intros E. rewrite (Z0 E), (proj1 (allowed_iff i j k) AL E). lia.
    + rewrite P, shift_spec, !plus_IZR. unfold comb. apply vec_eq; cbn [vscale vadd vx vy vz]; ring.
  - intros (c & (f & i & j & k & If & K0 & ->) & ->). apply (In_nth _ _ v0) in If as (id & Hid & EF). destruct (index_nth n _ (in_counts_mod i j k)) as [I1 I2]. fold N in I1. set (q := index n (i mod cx n, j mod cy n, k mod cz n)%Z) in *.
    destruct (G id q Hid I1) as (P & (b1 & b2 & b3 & E1 & E2 & E3) & Z0). cbn zeta in *. rewrite I2 in E1, E2, E3. rewrite cx_t in E1. rewrite cy_t in E2. rewrite cz_t in E3. rewrite EF in P. set (m := (id * N + q)%nat) in *.
    exists m, (i / cx n - b1)%Z, (j / cy n - b2)%Z, (k / cz n - b3)%Z. split; [rewrite count_pts; unfold m; nia|]. destruct Hpos as (P1 & P2 & P3). split.
    + apply allowed_iff. intros E. specialize (Z0 E). rewrite Z0 in E3. rewrite (H2d E), (K0 E) in E3. rewrite Z.mod_1_r in E3. rewrite (H2d E), (K0 E), Z.div_1_r. lia.
    + assert (W : forall N0 t G0 a : Z, (0 < N0)%Z -> (G0 = t mod N0 + N0 * a)%Z -> (G0 + N0 * (t / N0 - a))%Z = t) by (intros N0 t G0 a HP ->; rewrite (Z.div_mod t N0) at 3 by lia; ring).
      rewrite P, shift_spec. rewrite <- (W (cx n) i (cx (g m)) b1 P1 E1) at 1. rewrite <- (W (cy n) j (cy (g m)) b2 P2 E2) at 1. rewrite <- (W (cz n) k (cz (g m)) b3 P3 E3) at 1. rewrite !plus_IZR. unfold comb. apply vec_eq; cbn [vscale vadd vx vy vz]; ring.
Qed.
End system.
