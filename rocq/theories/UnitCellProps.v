(** C64: systems generated from a unit cell. *)
From Verif Require Import BoxProofs BoxProofs2 PBufferProofs PBufferProps LocalDescProps MatchEnvProofs.
From Flocq Require Import Core.
From Coq Require Import Reals ZArith List Lra Lia Bool Classical.
From Verif Require Import UnitCellSpec.
Import ListNotations.
Open Scope R_scope.

Lemma valid_spec x : uc_valid x = true <-> exists n : Z, (0 < n)%Z /\ x = IZR n.
Proof.
  unfold uc_valid. destruct (Reqb_spec (IZR (Ztrunc x)) x) as [E|E]; cbn [andb].
  - destruct (Rltb_spec 0 x) as [P|P]; split; try discriminate; try reflexivity.
    + intros _. exists (Ztrunc x). split; [|symmetry; exact E]. apply lt_IZR. rewrite E. exact P.
    + intros (n & Hn & ->). apply IZR_lt in Hn. lra.
  - split; [discriminate|]. intros (n & _ & ->). rewrite Ztrunc_IZR in E. contradiction.
Qed.
Lemma replicas_spec b r n : uc_replicas b r = Some n <-> requests b r n.
Proof.
  destruct n as [[nx ny] nz]. unfold uc_replicas, requests.
  assert (G : forall x y z, (if negb (uc_valid x && uc_valid y && uc_valid z) then None else if b_2d b && negb (Reqb z 1) then None else Some (Ztrunc x, Ztrunc y, Ztrunc z)) = Some (nx, ny, nz) <->
    ((0 < nx /\ 0 < ny /\ 0 < nz)%Z /\ (b_2d b = true -> nz = 1%Z)) /\ x = IZR nx /\ y = IZR ny /\ z = IZR nz).
  { intros x y z. destruct (uc_valid x && uc_valid y && uc_valid z) eqn:V; cbn [negb].
    - apply andb_prop in V as [V V3]. apply andb_prop in V as [V1 V2]. apply valid_spec in V1 as (a & A & ->). apply valid_spec in V2 as (c & C & ->). apply valid_spec in V3 as (d & D & ->). rewrite !Ztrunc_IZR. destruct (b_2d b); cbn [andb].
      + destruct (Reqb_spec (IZR d) 1) as [E|E]; cbn [negb].
        * split; [intros H; injection H as <- <- <-; repeat split; auto; intros _; apply eq_IZR; exact E|]. intros (_ & H1 & H2 & H3). apply eq_IZR in H1, H2, H3. congruence.
        * split; [discriminate|]. intros ((_ & W) & _ & _ & H3). exfalso. apply E. rewrite H3, W by reflexivity. reflexivity.
      + split; [intros H; injection H as <- <- <-; repeat split; auto; discriminate|]. intros (_ & H1 & H2 & H3). apply eq_IZR in H1, H2, H3. congruence.
    - split; [discriminate|]. intros (((P1 & P2 & P3) & _) & -> & -> & ->). exfalso. assert (W : forall m : Z, (0 < m)%Z -> uc_valid (IZR m) = true) by (intros m Hm; apply valid_spec; eauto). rewrite !W in V by assumption. discriminate. }
  destruct r as [x|l]; cbn [uc_unpack].
  - rewrite G. destruct (b_2d b) eqn:E2.
    + split; [intros ((P & Q) & H1 & H & _); repeat split; auto; try (intros; discriminate); try tauto|]. intros (P & Q & H1 & H2 & _). split; [split; assumption|]. split; [assumption|]. split; [assumption|]. rewrite (Q eq_refl). reflexivity.
    + split; [intros ((P & Q) & H1 & H & H3); repeat split; auto; try (intros; discriminate); try tauto|]. intros (P & Q & H1 & H2 & H3). split; [split; assumption|]. split; [assumption|]. split; [assumption|]. apply H3. reflexivity.
  - destruct l as [|x [|y [|z [|t l]]]]; try (split; [discriminate|intros (_ & _ & H); discriminate]). rewrite G. split.
    + intros ((P & Q) & -> & -> & ->). auto.
    + intros (P & Q & H). injection H as -> -> ->. auto.
Qed.

Lemma cpp_id Lx Ly Lz xy xz yz d : positive (mk_box Lx Ly Lz xy xz yz d) -> box_from_cpp (mk_box Lx Ly Lz xy xz yz d) = Some (mk_box Lx Ly Lz xy xz yz d).
Proof.
  intros ((N1 & N2 & N3 & _) & _). unfold box_from_cpp, py_box. destruct d; cbn in N1, N2, N3 |- *.
  - destruct (Reqb_spec Lx 0); [contradiction|]. destruct (Reqb_spec Ly 0); [contradiction|]. reflexivity.
  - destruct (Reqb_spec Lx 0); [contradiction|]. destruct (Reqb_spec Ly 0); [contradiction|]. destruct (Reqb_spec Lz 0); [exfalso; apply N3; auto|]. reflexivity.
Qed.
Section generate.
Variable b : box.
Hypothesis Hb : positive b.
Hypothesis Hper : fully_periodic b.
Lemma Hn : nonsingular b. Proof. apply Hb. Qed.

Definition mul_box (n : Z * Z * Z) (scale : R) : box := let '(nx, ny, nz) := n in
  mk_box (IZR nx * vx (b_L b) * scale) (IZR ny * vy (b_L b) * scale) (IZR nz * vz (b_L b) * scale) (b_xy b) (b_xz b) (b_yz b) (b_2d b).
Lemma py_mul_some bx s : positive bx -> 0 < s -> py_mul bx s = Some (mk_box (vx (b_L bx) * s) (vy (b_L bx) * s) (vz (b_L bx) * s) (b_xy bx) (b_xz bx) (b_yz bx) (b_2d bx)).
Proof.
  intros (N & P1 & P2 & P3) S. unfold py_mul. destruct (Rltb_spec 0 s); [|lra]. unfold py_box. destruct (Reqb_spec (vx (b_L bx) * s) 0); [nra|]. destruct (Reqb_spec (vy (b_L bx) * s) 0); [nra|]. cbn [orb].
  destruct (b_2d bx) eqn:E; [reflexivity|]. specialize (P3 eq_refl). destruct (Reqb_spec (vz (b_L bx) * s) 0); [nra|]. reflexivity.
Qed.
Lemma py_mul_none bx s : s <= 0 -> py_mul bx s = None.
Proof. intros S. unfold py_mul. destruct (Rltb_spec 0 s); [lra|reflexivity]. Qed.
Lemma mul_positive n s : (0 < fst (fst n) /\ 0 < snd (fst n) /\ 0 < snd n)%Z -> 0 < s -> positive (mul_box n s).
Proof.
  destruct n as [[nx ny] nz]. cbn [fst snd]. intros (H1 & H2 & H3) S. destruct Hb as (_ & P1 & P2 & P3). apply IZR_lt in H1, H2, H3. unfold mul_box. apply mk_box_positive; [repeat apply Rmult_lt_0_compat; lra..|]. intros E. specialize (P3 E). repeat apply Rmult_lt_0_compat; lra.
Qed.
Lemma mul_scaled n s : (0 < fst (fst n) /\ 0 < snd (fst n) /\ 0 < snd n)%Z -> 0 < s -> let '(nx, ny, nz) := n in scaled_box b (mul_box n s) (IZR nx * s) (IZR ny * s) (IZR nz * s).
Proof.
  intros H S. assert (P := mul_positive n s H S). destruct n as [[nx ny] nz]. destruct Hb as ((_ & _ & _ & H2d & _) & _). unfold scaled_box, fully_periodic. split; [apply P|]. unfold mul_box. destruct (b_2d b) eqn:E; cbn; repeat split; auto; try ring. rewrite (H2d eq_refl). ring.
Qed.
Lemma parity_mod n : IZR ((n + 1) mod 2) = parity n.
Proof. unfold parity. rewrite Zmod_even, Z.even_add. change (Z.even 1) with false. destruct (Z.even n); reflexivity. Qed.
Lemma shift_displacement n : uc_shift b n = displacement b n.
Proof.
  destruct n as [[nx ny] nz]. unfold uc_shift, displacement. rewrite !parity_mod, (make_absolute_cell b _ Hn). unfold cell_point. cbn [vx vy vz]. replace (1 - 1 / 2) with (1 / 2) by field. reflexivity.
Qed.
Lemma counts_zrange n : (0 < n)%Z -> zrange 0 (n - 1) = counts n.
Proof. intros H. unfold zrange, counts. replace (n - 1 - 0 + 1)%Z with n by lia. reflexivity. Qed.
Lemma cells_loop nx ny nz : (0 < nx /\ 0 < ny /\ 0 < nz)%Z -> pb_loop true (nx - 1, ny - 1, nz - 1)%Z = cells (nx, ny, nz).
Proof. intros (H1 & H2 & H3). unfold pb_loop, cells. rewrite !counts_zrange by assumption. reflexivity. Qed.
Lemma flat_map_map {A B C} (f : A -> B) (g : B -> list C) l : flat_map g (map f l) = flat_map (fun x => g (f x)) l.
Proof. induction l as [|x l IH]; [reflexivity|]. simpl. rewrite IH. reflexivity. Qed.
Lemma map_flat_map {A B C} (f : B -> C) (g : A -> list B) l : map f (flat_map g l) = flat_map (fun x => map f (g x)) l.
Proof. induction l as [|x l IH]; [reflexivity|]. simpl. rewrite map_app, IH. reflexivity. Qed.
Lemma flat_map_single {A B} (f : A -> B) l : flat_map (fun x => [f x]) l = map f l.
Proof. induction l as [|x l IH]; [reflexivity|]. simpl. rewrite IH. reflexivity. Qed.
Lemma flat_map_seq {A B} (d : A) (g : A -> list B) l : flat_map (fun i => g (nth i l d)) (seq 0 (length l)) = flat_map g l.
Proof. rewrite <- (flat_map_map (fun i => nth i l d)). rewrite map_nth_seq by lia. cbn [skipn]. rewrite firstn_all. reflexivity. Qed.
Lemma fm_ext {A B} (f g : A -> list B) l : (forall x, In x l -> f x = g x) -> flat_map f l = flat_map g l.
Proof. induction l as [|x l IH]; intros H; [reflexivity|]. simpl. rewrite H by (left; reflexivity). rewrite IH by (intros; apply H; right; assumption). reflexivity. Qed.
Lemma cell_in_space s t u : in_space b (cell_point b s t u).
Proof. intros E. destruct Hn as (_ & _ & _ & H & _). unfold cell_point, comb, a1, a2, a3. rewrite (H E). simpl. ring. Qed.
Lemma shift_in_space i j k : in_space b (shift b i j k).
Proof. intros E. destruct Hn as (_ & _ & _ & H & _). unfold shift, comb, a1, a2, a3. rewrite (H E). simpl. ring. Qed.
Lemma displacement_in_space n : in_space b (displacement b n).
Proof. intros E. destruct Hn as (_ & _ & _ & H & _). destruct n as [[nx ny] nz]. unfold displacement, comb, a1, a2, a3. rewrite (H E). simpl. ring. Qed.
Lemma site_in_space d f ijk : in_space b d -> in_space b (site b d f ijk).
Proof. intros D E. destruct ijk as [[i j] k]. unfold site. cbn [vadd vz]. rewrite (cell_in_space _ _ _ E), (shift_in_space _ _ _ E), (D E). ring. Qed.
(** The positions before the last steps, up to lattice vectors of the final box. *)
Lemma replicate_spec basis n scale : (0 < fst (fst n) /\ 0 < snd (fst n) /\ 0 < snd n)%Z -> (b_2d b = true -> snd n = 1%Z) -> 0 < scale ->
  exists pos, uc_replicate b basis n scale = Some (mul_box n scale, pos) /\
    map (fun p => wrap (mul_box n scale) (vscale scale (vadd p (uc_shift b n)))) pos = map (fun p => wrap (mul_box n scale) (vscale scale p)) (sites b (displacement b n) basis n).
Proof.
  intros Hpos H2 S. assert (SC := mul_scaled n scale Hpos S). assert (PP := mul_positive n scale Hpos S). destruct n as [[nx ny] nz]. cbn [fst snd] in *. set (B := mul_box (nx, ny, nz) scale) in *. rewrite shift_displacement. set (d := displacement b (nx, ny, nz)).
  destruct Hpos as (P1 & P2 & P3). unfold uc_replicate. destruct ((1 <? nx) || (1 <? ny) || (1 <? nz))%Z eqn:BIG.
  - destruct (pb_compute b (map (make_absolute b) basis) (V3 (IZR (nx - 1)) (IZR (ny - 1)) (IZR (nz - 1))) true true) as [[b' l]|] eqn:PB.
    2:{ exfalso. apply C36_raises in PB. cbn [vx vy vz] in PB. assert (0 <= IZR (nx - 1) /\ 0 <= IZR (ny - 1) /\ 0 <= IZR (nz - 1)) by (repeat split; apply IZR_le; lia). lra. }
    assert (PB' := PB). apply pb_some in PB' as (_ & _ & _ & EB & EL).
    assert (EB1 : b' = mul_box (nx, ny, nz) 1).
    { rewrite EB. unfold pb_box, mul_box. cbn [vx vy vz]. rewrite !Zceil_IZR. replace (1 + (nx - 1))%Z with nx by lia. replace (1 + (ny - 1))%Z with ny by lia. replace (1 + (nz - 1))%Z with nz by lia. rewrite !Rmult_1_r. reflexivity. }
    assert (SC1 := mul_scaled (nx, ny, nz) 1 (conj P1 (conj P2 P3)) Rlt_0_1). cbn beta iota in SC1. assert (PP1 := mul_positive (nx, ny, nz) 1 (conj P1 (conj P2 P3)) Rlt_0_1). rewrite <- EB1 in SC1, PP1.
    assert (BC : box_from_cpp b' = Some b').
    { rewrite EB1 in PP1 |- *. apply cpp_id. exact PP1. }
    rewrite BC, (py_mul_some b' scale PP1 S). cbn [option_map]. exists (map fst l). split.
    { f_equal. f_equal. destruct SC1 as (_ & E1 & E2 & E3 & -> & -> & -> & -> & _). rewrite E1, E2, E3. unfold B, mul_box. f_equal; ring. }
    rewrite map_map, EL. assert (NI : pb_images b (V3 (IZR (nx - 1)) (IZR (ny - 1)) (IZR (nz - 1))) true = (nx - 1, ny - 1, nz - 1)%Z).
    { unfold pb_images. cbn [vx vy vz]. rewrite !Zceil_IZR. destruct (b_2d b); [rewrite (H2 eq_refl); reflexivity|reflexivity]. }
    rewrite NI, (cells_loop nx ny nz) by auto. unfold sites. rewrite !map_flat_map. rewrite map_length.
    rewrite <- (flat_map_seq v0 (fun f => map (fun p => wrap B (vscale scale p)) (map (site b d f) (cells (nx, ny, nz)))) basis). apply fm_ext. intros id Hid. apply in_seq in Hid.
    rewrite map_flat_map. rewrite map_map. rewrite <- (flat_map_single (fun x => wrap B (vscale scale (site b d (nth id basis v0) x))) (cells (nx, ny, nz))). apply fm_ext. intros [[i j] k] _. cbn [pb_one negb andb map fst].
    rewrite (nth_map_lt _ _ _ v0) by lia. set (f := nth id basis v0). rewrite (make_absolute_cell b _ Hn), (pb_image_shift b _ i j k Hn). f_equal. set (v := vadd (cell_point b (vx f) (vy f) (vz f)) (shift b i j k)).
    assert (VS : in_space b v) by (intros E; unfold v; cbn [vadd vz]; rewrite (cell_in_space _ _ _ E), (shift_in_space _ _ _ E); ring).
    assert (E2d : b_2d b' = b_2d b) by apply SC1. assert (E2d' : b_2d B = b_2d b) by apply SC.
    destruct (wrap_image b' v (proj1 PP1)) as (i' & j' & k' & A & ->); [intros E; apply VS; congruence|]. unfold site. fold v. apply wrap_congruent; [apply PP| |].
    + intros E. rewrite E2d' in E. assert (DS : vz d = 0) by (apply displacement_in_space; exact E). cbn [vscale vadd vz]. rewrite (VS E), DS. ring.
    + exists i', j', k'. split.
      * assert (FP : fully_periodic B) by apply SC. destruct FP as (F1 & F2 & F3). destruct A as (_ & _ & _ & A4). unfold allowed. rewrite F1, F2, F3, E2d'. rewrite E2d in A4. repeat split; try discriminate; exact A4.
      * unfold shift. rewrite (scaled_comb b b' _ _ _ _ _ _ SC1), (scaled_comb b B _ _ _ _ _ _ SC). unfold comb. apply vec_eq; unfold vadd, vscale; cbn [vx vy vz]; ring.
  - apply orb_false_iff in BIG as [BIG B3]. apply orb_false_iff in BIG as [B1 B2]. apply Z.ltb_ge in B1, B2, B3. assert (nx = 1 /\ ny = 1 /\ nz = 1)%Z as (-> & -> & ->) by lia.
    rewrite (py_mul_some b scale Hb S). cbn [option_map]. exists (map (make_absolute b) basis). split.
    { f_equal. f_equal. unfold B, mul_box. f_equal; ring. }
    unfold sites. change (cells (1, 1, 1)%Z) with [(0, 0, 0)%Z]. change (fun f => map (site b d f) [(0, 0, 0)%Z]) with (fun f => [site b d f (0, 0, 0)%Z]). rewrite flat_map_single, !map_map. apply map_ext. intros f. f_equal. f_equal. unfold site. f_equal. rewrite (make_absolute_cell b _ Hn). unfold shift, comb. apply vec_eq; simpl; ring.
Qed.
End generate.

Section results.
Variables (b : box) (basis : list vec3) (r : replicas) (scale : R) (noise : option (nat -> vec3)).
Hypothesis Hb : positive b.
Definition moved (i : nat) : vec3 := match noise with Some d => d i | None => v0 end.
Hypothesis Hnoise : forall i, in_space b (moved i).
Lemma requests_pos n : requests b r n -> (0 < fst (fst n) /\ 0 < snd (fst n) /\ 0 < snd n)%Z /\ (b_2d b = true -> snd n = 1%Z).
Proof. destruct n as [[nx ny] nz]. intros (P & Q & _). split; assumption. Qed.
(** It raises exactly for other replica counts and for scales that are not positive. *)
Theorem C64_accept : uc_generate b basis r scale noise = None <-> (~ exists n, requests b r n) \/ scale <= 0.
Proof.
  unfold uc_generate. destruct (uc_replicas b r) as [n|] eqn:E.
  - apply replicas_spec in E. destruct (requests_pos n E) as [P Q]. destruct (Rle_lt_dec scale 0) as [S|S].
    + split; [intros _; right; exact S|]. intros _. destruct n as [[nx ny] nz]. unfold uc_replicate. destruct (_ || _)%bool; [|rewrite (py_mul_none b scale S); reflexivity]. destruct (pb_compute _ _ _ _ _) as [[b' l]|]; [|reflexivity]. destruct (box_from_cpp b') as [b2|]; [|reflexivity]. rewrite (py_mul_none b2 scale S). reflexivity.
    + destruct (replicate_spec b Hb basis n scale P Q S) as (pos & -> & _). split; [discriminate|]. intros [X|X]; [exfalso; apply X; exists n; exact E|lra].
  - split; [intros _; left|reflexivity]. intros (n & R). apply replicas_spec in R. congruence.
Qed.
Lemma nth_map_seq {A} (d : A) (f : nat -> A) n m : (m < n)%nat -> nth m (map f (seq 0 n)) d = f m.
Proof. intros H. rewrite (nth_map_lt _ _ _ 0%nat) by (rewrite seq_length; exact H). rewrite seq_nth by exact H. reflexivity. Qed.
Lemma generate_spec n : requests b r n -> 0 < scale -> exists pts, uc_generate b basis r scale noise = Some (mul_box b n scale, pts) /\ length pts = length (sites b (displacement b n) basis n) /\
  forall m, (m < length pts)%nat -> nth m pts v0 = wrap (mul_box b n scale) (vadd (vscale scale (nth m (sites b (displacement b n) basis n) v0)) (moved m)).
Proof.
  intros Rq S. destruct (requests_pos n Rq) as [P Q]. unfold uc_generate. rewrite (proj2 (replicas_spec b r n) Rq). destruct (replicate_spec b Hb basis n scale P Q S) as (pos & -> & E). rewrite E. set (B := mul_box b n scale) in *. set (st := sites b (displacement b n) basis n) in *.
  assert (PB : positive B) by (apply mul_positive; assumption). assert (SC := mul_scaled b Hb n scale P S). assert (E2 : b_2d B = b_2d b) by (destruct n as [[nx ny] nz]; apply SC).
  assert (FP : fully_periodic B) by (destruct n as [[nx ny] nz]; apply SC).
  assert (IS : forall m, in_space B (vscale scale (nth m st v0))).
  { intros m X. rewrite E2 in X. cbn [vscale vz]. destruct (nth_in_or_default m st v0) as [I|I]; [|rewrite I; simpl; ring]. unfold st, sites in I. apply in_flat_map in I as (f & _ & I). apply in_map_iff in I as (ijk & EI & _). unfold st, sites. rewrite <- EI. rewrite (site_in_space b Hb _ _ _ (displacement_in_space b Hb n) X). ring. }
  assert (NS : forall m, in_space B (moved m)) by (intros m X; rewrite E2 in X; apply Hnoise; exact X).
  assert (L : length (map (fun p => wrap B (vscale scale p)) st) = length st) by apply map_length.
  eexists. split; [reflexivity|]. split; [rewrite map_length; destruct noise; rewrite ?map_length, ?seq_length, ?map_length; reflexivity|]. intros m Hm. rewrite map_length in Hm. rewrite (nth_map_lt _ _ _ v0) by exact Hm. unfold moved in *. destruct noise as [d|].
  - rewrite map_length, seq_length in Hm. rewrite nth_map_seq by exact Hm. rewrite L in Hm. rewrite (nth_map_lt _ _ _ v0) by exact Hm. apply wrap_congruent; [apply PB| |].
    + intros X. cbn [vadd vz]. rewrite (IS m X), (NS m X). ring.
    + destruct (wrap_image B _ (proj1 PB) (IS m)) as (i & j & k & A & ->). exists i, j, k. split; [exact A|]. apply vec_eq; simpl; ring.
  - rewrite L in Hm. rewrite (nth_map_lt _ _ _ v0) by exact Hm. rewrite wrap_idem by (apply PB || apply IS). f_equal. apply vec_eq; simpl; ring.
Qed.
Lemma generate_some n bx pts : requests b r n -> uc_generate b basis r scale noise = Some (bx, pts) -> 0 < scale /\ bx = mul_box b n scale /\ length pts = length (sites b (displacement b n) basis n) /\
  forall m, (m < length pts)%nat -> nth m pts v0 = wrap bx (vadd (vscale scale (nth m (sites b (displacement b n) basis n) v0)) (moved m)).
Proof.
  intros Rq E. assert (S : 0 < scale) by (destruct (Rle_lt_dec scale 0) as [X|X]; [|exact X]; assert (N := proj2 C64_accept (or_intror X)); congruence). split; [exact S|]. destruct (generate_spec n Rq S) as (pts' & E' & L & V). rewrite E in E'. injection E' as -> ->. auto.
Qed.
(** The box has n times the lattice vectors of the cell, times the scale. *)
Theorem C64_box n bx pts : requests b r n -> uc_generate b basis r scale noise = Some (bx, pts) ->
  let '(nx, ny, nz) := n in box_shape bx (IZR nx * scale * vx (b_L b)) (IZR ny * scale * vy (b_L b)) (IZR nz * scale * vz (b_L b)) (b_xy b) (b_xz b) (b_yz b) (b_2d b).
Proof.
  intros Rq E. destruct (generate_some n bx pts Rq E) as (S & -> & _). destruct (requests_pos n Rq) as [P _]. assert (SC := mul_scaled b Hb n scale P S). destruct n as [[nx ny] nz]. destruct SC as (_ & E1 & E2 & E3 & E4 & E5 & E6 & E7 & E8). unfold box_shape. repeat split; try assumption; try apply E8. intros _. exact E3.
Qed.
Lemma counts_length n : length (counts n) = Z.to_nat n. Proof. unfold counts. rewrite map_length, seq_length. reflexivity. Qed.
Lemma flat_map_const {A B} (f : A -> list B) k l : (forall x, In x l -> length (f x) = k) -> length (flat_map f l) = (length l * k)%nat.
Proof. induction l as [|x l IH]; intros H; [reflexivity|]. simpl. rewrite app_length, H by (left; reflexivity). rewrite IH by (intros; apply H; right; assumption). reflexivity. Qed.
Lemma cells_length n : let '(nx, ny, nz) := n in length (cells n) = (Z.to_nat nx * (Z.to_nat ny * Z.to_nat nz))%nat.
Proof.
  destruct n as [[nx ny] nz]. unfold cells. rewrite (flat_map_const _ (Z.to_nat ny * Z.to_nat nz)); [rewrite counts_length; reflexivity|]. intros i _. rewrite (flat_map_const _ (Z.to_nat nz)); [rewrite counts_length; reflexivity|]. intros j _. rewrite map_length, counts_length. reflexivity.
Qed.
Theorem C64_count n bx pts : requests b r n -> uc_generate b basis r scale noise = Some (bx, pts) -> length pts = (length basis * length (cells n))%nat /\ let '(nx, ny, nz) := n in Z.of_nat (length (cells n)) = (nx * ny * nz)%Z.
Proof.
  intros Rq E. destruct (generate_some n bx pts Rq E) as (_ & _ & L & _). split.
  - rewrite L. unfold sites. apply flat_map_const. intros f _. apply map_length.
  - destruct (requests_pos n Rq) as [P _]. assert (CL := cells_length n). destruct n as [[nx ny] nz]. cbn [fst snd] in P. rewrite CL. nia.
Qed.
(** Every point lies in the box; up to the lattice of the box, the points come basis point by basis point, at the sites of the
    crystal, all moved by one vector and each by its noise. *)
Lemma in_cell_wrap B v : positive B -> fully_periodic B -> in_space B v -> in_cell B (wrap B v).
Proof.
  intros PB (F1 & F2 & F3) IS. destruct (wrap_in_cell B v (proj1 PB) IS) as (A1 & A2 & A3). destruct (cell_coords B (wrap B v) (proj1 PB) (wrap_in_space B v (proj1 PB) IS)) as (s & t & u & E & EF & _). rewrite EF in A1, A2, A3. cbn [vx vy vz] in *. exists s, t, u. split; [exact E|]. auto.
Qed.
Lemma nth_flat_blocks {A B} (f : A -> list B) k (da : A) (db : B) l : (forall x, In x l -> length (f x) = k) -> forall i q, (i < length l)%nat -> (q < k)%nat -> nth (i * k + q) (flat_map f l) db = nth q (f (nth i l da)) db.
Proof.
  induction l as [|x l IH]; intros H i q Hi Hq; [simpl in Hi; lia|]. simpl flat_map. destruct i as [|i].
  - simpl. rewrite app_nth1 by (rewrite H by (left; reflexivity); exact Hq). reflexivity.
  - rewrite app_nth2 by (rewrite H by (left; reflexivity); simpl; lia). rewrite H by (left; reflexivity). replace (S i * k + q - k)%nat with (i * k + q)%nat by (simpl; lia). rewrite IH; [reflexivity|intros; apply H; right; assumption|simpl in Hi; lia|exact Hq].
Qed.
Theorem C64_points n bx pts : requests b r n -> uc_generate b basis r scale noise = Some (bx, pts) ->
  (forall p, In p pts -> in_cell bx p) /\
  forall id q, (id < length basis)%nat -> (q < length (cells n))%nat -> let m := (id * length (cells n) + q)%nat in
    image_of bx (nth m pts v0) (vadd (vscale scale (site b (displacement b n) (nth id basis v0) (nth q (cells n) (0, 0, 0)%Z))) (moved m)).
Proof.
  intros Rq E. destruct (C64_count n bx pts Rq E) as [CNT _]. destruct (generate_some n bx pts Rq E) as (S & EB & L & V). destruct (requests_pos n Rq) as [P Q]. assert (PB : positive bx) by (rewrite EB; apply mul_positive; assumption).
  assert (SC := mul_scaled b Hb n scale P S). rewrite <- EB in SC. assert (E2 : b_2d bx = b_2d b) by (destruct n as [[nx ny] nz]; apply SC). assert (FP : fully_periodic bx) by (destruct n as [[nx ny] nz]; apply SC).
  assert (IS : forall m, in_space bx (vadd (vscale scale (nth m (sites b (displacement b n) basis n) v0)) (moved m))).
  { intros m X. rewrite E2 in X. cbn [vscale vadd vz]. rewrite (Hnoise m X). destruct (nth_in_or_default m (sites b (displacement b n) basis n) v0) as [I|I]; [|rewrite I; simpl; ring]. unfold sites in I. apply in_flat_map in I as (f & _ & I). apply in_map_iff in I as (ijk & EI & _). unfold sites. rewrite <- EI. rewrite (site_in_space b Hb _ _ _ (displacement_in_space b Hb n) X). ring. }
  split.
  - intros p Hp. apply (In_nth _ _ v0) in Hp as (m & Hm & <-). rewrite V by exact Hm. apply in_cell_wrap; auto.
  - intros id q Hid Hq m. assert (Hm : (m < length pts)%nat) by (rewrite CNT; unfold m; nia). rewrite V by exact Hm. assert (W := wrap_image bx _ (proj1 PB) (IS m)).
    assert (EN : nth m (sites b (displacement b n) basis n) v0 = site b (displacement b n) (nth id basis v0) (nth q (cells n) (0, 0, 0)%Z)).
    { unfold sites, m. rewrite (nth_flat_blocks _ (length (cells n)) v0); [|intros; apply map_length|exact Hid|exact Hq]. apply nth_map_lt. exact Hq. }
    rewrite EN in W at 2. rewrite EN. rewrite EN in W. exact W.
Qed.
End results.

(** * Tiling *)
Lemma counts_in n i : In i (counts n) <-> (0 <= i < n)%Z.
Proof.
  unfold counts. rewrite in_map_iff. split.
  - intros (k & <- & H). apply in_seq in H. lia.
  - intros H. exists (Z.to_nat i). split; [lia|]. apply in_seq. lia.
Qed.
Lemma cells_in nx ny nz i j k : In (i, j, k) (cells (nx, ny, nz)) <-> ((0 <= i < nx) /\ (0 <= j < ny) /\ (0 <= k < nz))%Z.
Proof.
  unfold cells. rewrite in_flat_map. split.
  - intros (i' & Hi & H). apply in_flat_map in H as (j' & Hj & H). apply in_map_iff in H as (k' & E & Hk). injection E as -> -> ->. rewrite counts_in in *. auto.
  - intros (Hi & Hj & Hk). exists i. split; [apply counts_in; exact Hi|]. apply in_flat_map. exists j. split; [apply counts_in; exact Hj|]. apply in_map_iff. exists k. split; [reflexivity|apply counts_in; exact Hk].
Qed.
Lemma cells_NoDup nx ny nz : (0 < nx /\ 0 < ny /\ 0 < nz)%Z -> NoDup (cells (nx, ny, nz)).
Proof. intros P. rewrite <- cells_loop by exact P. apply loop_NoDup. Qed.
Lemma half_turn n : (0 < n)%Z -> (- (1 / 2) + parity n / 2) / IZR n + 1 / 2 = IZR (n / 2) / IZR n.
Proof.
  intros P. apply IZR_lt in P. assert (E : IZR n = 2 * IZR (n / 2) + (1 - parity n)).
  { rewrite (Z.div_mod n 2) at 1 by lia. rewrite plus_IZR, mult_IZR. f_equal. rewrite Zmod_even. unfold parity. destruct (Z.even n); simpl; ring. }
  apply (Rmult_eq_reg_r (IZR n)); [|lra]. transitivity (- (1 / 2) + parity n / 2 + IZR n / 2); [field; lra|]. transitivity (IZR (n / 2)); [rewrite E; field|field; lra].
Qed.
Lemma inj_axis n f i i' : (0 <= i < n)%Z -> (0 <= i' < n)%Z -> wrapped true ((f + IZR i) / IZR n) = wrapped true ((f + IZR i') / IZR n) -> i = i'.
Proof.
  intros H H' E. assert (P : 0 < IZR n) by (apply IZR_lt; lia). unfold wrapped in E. set (a := Zfloor ((f + IZR i) / IZR n)) in *. set (a' := Zfloor ((f + IZR i') / IZR n)) in *.
  assert (Q : IZR i - IZR i' = IZR n * (IZR a - IZR a')) by (replace (IZR a - IZR a') with ((f + IZR i) / IZR n - (f + IZR i') / IZR n) by lra; field; lra).
  rewrite <- !minus_IZR, <- mult_IZR in Q. apply eq_IZR in Q. clearbody a a'. clear -H H' Q. assert (D : (a - a' = 0)%Z) by (destruct (Z_lt_le_dec (a - a') 0); [nia|]; destruct (Z_lt_le_dec 0 (a - a')); nia). rewrite D in Q. lia.
Qed.
Lemma add_v0 v : vadd v v0 = v. Proof. apply vec_eq; simpl; ring. Qed.
Lemma inj_NoDup {A B} (f : A -> B) l : (forall x y, In x l -> In y l -> f x = f y -> x = y) -> NoDup l -> NoDup (map f l).
Proof.
  intros H N. induction N as [|x l NI N IH]; [constructor|]. cbn [map]. constructor; [|apply IH; intros; apply H; auto; right; assumption]. intros I. apply in_map_iff in I as (y & E & I). apply NI. rewrite (H x y); [exact I|left; reflexivity|right; exact I|symmetry; exact E].
Qed.
Section tiling.
Variables (b : box) (basis : list vec3) (r : replicas) (scale : R).
Hypothesis Hb : positive b.
Lemma site_cell nx ny nz f i j k : (0 < nx /\ 0 < ny /\ 0 < nz)%Z -> 0 < scale -> displacement b (nx, ny, nz) = aligned b (nx, ny, nz) ->
  vscale scale (site b (displacement b (nx, ny, nz)) f (i, j, k)) =
  cell_point (mul_box b (nx, ny, nz) scale) ((vx f + IZR (i + nx / 2)) / IZR nx) ((vy f + IZR (j + ny / 2)) / IZR ny) ((vz f + IZR (k + nz / 2)) / IZR nz).
Proof.
  intros P S ->. assert (SC := mul_scaled b Hb (nx, ny, nz) scale P S). cbn beta iota in SC. destruct P as (P1 & P2 & P3). assert (Q1 := half_turn nx P1). assert (Q2 := half_turn ny P2). assert (Q3 := half_turn nz P3). apply IZR_lt in P1, P2, P3.
  unfold cell_point. rewrite (scaled_comb b _ _ _ _ _ _ _ SC). unfold site, aligned, cell_point, shift. rewrite !plus_IZR.
  assert (W : forall s n p c, 0 < IZR n -> (- (1 / 2) + p / 2) / IZR n + 1 / 2 = c / IZR n -> IZR n * scale * ((s + c) / IZR n - 1 / 2) = scale * (s - 1 / 2 + p / 2)).
  { intros s n p c N Q. assert (C : c = IZR n * ((- (1 / 2) + p / 2) / IZR n + 1 / 2)) by (rewrite Q; field; lra). rewrite C. field. lra. }
  rewrite <- !Rplus_assoc, (W _ nx _ _ P1 Q1), (W _ ny _ _ P2 Q2), (W _ nz _ _ P3 Q3). unfold comb. apply vec_eq; cbn [vscale vadd vx vy vz]; ring.
Qed.
(** If the displacement is the aligned one, the points of a basis point are those of the cell that lie on the grid, each once. *)
Theorem C64_tiling n bx pts id : requests b r n -> displacement b n = aligned b n -> uc_generate b basis r scale None = Some (bx, pts) -> (id < length basis)%nat ->
  let block := map (fun q => nth (id * length (cells n) + q) pts v0) (seq 0 (length (cells n))) in
  NoDup block /\ forall p, In p block <-> in_cell bx p /\ on_grid bx n (nth id basis v0) p.
Proof.
  intros Rq AL E Hid block. set (f := nth id basis v0). assert (HN : forall i, in_space b (moved None i)) by (intros i X; reflexivity).
  destruct (C64_count b basis r scale None Hb HN n bx pts Rq E) as [CNT _]. destruct (generate_some b basis r scale None Hb HN n bx pts Rq E) as (S & EB & L & V). destruct (requests_pos b r n Rq) as [P Q]. assert (PB : positive bx) by (rewrite EB; apply mul_positive; assumption).
  assert (SC := mul_scaled b Hb n scale P S). rewrite <- EB in SC. destruct n as [[nx ny] nz]. cbn [fst snd] in P, Q. cbn beta iota in SC. assert (E2 : b_2d bx = b_2d b) by apply SC. assert (FP : fully_periodic bx) by apply SC. destruct FP as (F1 & F2 & F3).
  set (g := fun x => wrap bx (vscale scale (site b (displacement b (nx, ny, nz)) f x))).
  assert (BL : block = map g (cells (nx, ny, nz))).
  { apply (nth_ext _ _ v0 v0); [unfold block; rewrite !map_length, seq_length; reflexivity|]. unfold block. rewrite map_length, seq_length. intros q Hq. rewrite nth_map_seq by exact Hq. rewrite V by (rewrite CNT; nia). unfold sites. rewrite (nth_flat_blocks _ (length (cells (nx, ny, nz))) v0); [|intros; apply map_length|exact Hid|exact Hq].
    rewrite (nth_map_lt _ _ _ (0, 0, 0)%Z) by exact Hq. rewrite (nth_map_lt _ _ _ (0, 0, 0)%Z) by exact Hq. unfold g. f_equal. apply add_v0. }
  assert (G : forall i j k, g (i, j, k) = cell_point bx (wrapped true ((vx f + IZR (i + nx / 2)) / IZR nx)) (wrapped true ((vy f + IZR (j + ny / 2)) / IZR ny)) (wrapped true ((vz f + IZR (k + nz / 2)) / IZR nz))).
  { intros i j k. unfold g. rewrite (site_cell nx ny nz f i j k P S AL), <- EB. rewrite wrap_cell by apply PB. rewrite F1, F2, F3. reflexivity. }
  rewrite BL. split.
  - apply inj_NoDup; [|apply cells_NoDup; exact P]. intros [[i j] k] [[i' j'] k'] H H' EG. apply cells_in in H as (A1 & A2 & A3). apply cells_in in H' as (B1 & B2 & B3). rewrite !G in EG. apply (f_equal (make_fractional bx)) in EG. rewrite !make_fractional_cell in EG by apply PB. injection EG as X Y Z.
    rewrite !plus_IZR in X, Y. assert (W : forall h c x, h + (x + c) = h + c + x) by (intros; ring). rewrite !W in X, Y. apply inj_axis in X; [|assumption..]. apply inj_axis in Y; [|assumption..]. subst i' j'. f_equal. destruct (b_2d bx) eqn:D.
    + rewrite <- E2 in Q. specialize (Q eq_refl). lia.
    + rewrite !plus_IZR, !W in Z. apply inj_axis in Z; assumption.
  - intros p. rewrite in_map_iff. split.
    + intros ([[i j] k] & <- & H). apply cells_in in H. split.
      * rewrite G. eexists _, _, _. split; [reflexivity|]. repeat split; try (intros _); apply wrapped_range; reflexivity.
      * rewrite G. unfold wrapped. set (a := Zfloor _). set (a' := Zfloor _). set (a'' := Zfloor _). exists (i + nx / 2 - nx * a)%Z, (j + ny / 2 - ny * a')%Z, (k + nz / 2 - nz * a'')%Z. destruct P as (P1 & P2 & P3). apply IZR_lt in P1, P2, P3. f_equal; rewrite minus_IZR, mult_IZR; field; lra.
    + intros ((s & t & u & Ep & Hs & Ht & Hu) & (i & j & k & Eg)). exists ((i - nx / 2) mod nx, (j - ny / 2) mod ny, (k - nz / 2) mod nz)%Z. split; [|apply cells_in; repeat split; apply Z.mod_pos_bound; apply P].
      rewrite G. assert (W : forall h n c (i : Z), (0 < n)%Z -> wrapped true ((h + IZR ((i - c) mod n + c)) / IZR n) = wrapped true ((h + IZR i) / IZR n)).
      { intros h n c i0 N. rewrite Z.mod_eq by lia. replace (i0 - c - n * ((i0 - c) / n) + c)%Z with (i0 + n * - ((i0 - c) / n))%Z by ring. rewrite plus_IZR, mult_IZR. replace ((h + (IZR i0 + IZR n * IZR (- ((i0 - c) / n)))) / IZR n) with ((h + IZR i0) / IZR n + IZR (- ((i0 - c) / n))) by (field; apply Rgt_not_eq, IZR_lt; exact N). apply wrapped_shift. discriminate. }
      destruct P as (P1 & P2 & P3). rewrite !W by assumption. assert (EQ := Eg). rewrite Ep in EQ. apply (f_equal (make_fractional bx)) in EQ. rewrite !make_fractional_cell in EQ by apply PB. injection EQ as X Y Z. rewrite <- X, <- Y.
      assert (WI : forall x, 0 <= x < 1 -> wrapped true x = x) by (intros x Hx; unfold wrapped; rewrite (Zfloor_imp 0) by (simpl; lra); simpl; ring). rewrite !WI by assumption. rewrite Ep. destruct (b_2d bx) eqn:D.
      * apply cell_point_2d; [apply PB|exact D].
      * rewrite <- Z, WI by (apply Hu; reflexivity). reflexivity.
Qed.
(** This is so for cells without tilt, and when all replica counts are odd or all even (in two dimensions, both). *)
Theorem C64_aligned nx ny nz : (b_2d b = true -> b_xy b = 0 \/ parity nx = parity ny) -> (b_2d b = false -> (b_xy b = 0 /\ b_xz b = 0 /\ b_yz b = 0) \/ (parity nx = parity ny /\ parity ny = parity nz)) ->
  displacement b (nx, ny, nz) = aligned b (nx, ny, nz).
Proof.
  intros H2 H3. unfold displacement, aligned, comb, a1, a2, a3. destruct (proj1 Hb) as (_ & _ & _ & HZ & _). destruct (b_2d b) eqn:D.
  - rewrite (HZ eq_refl). destruct (H2 eq_refl) as [-> | ->]; apply vec_eq; simpl; field.
  - destruct (H3 eq_refl) as [(-> & -> & ->)|(-> & ->)]; apply vec_eq; simpl; field.
Qed.
End tiling.
(** A tilted cell replicated an even number of times in one direction and an odd one in another is displaced from the grid. *)
Definition tilted_cell : box := mk_box 1 1 0 (1 / 2) 0 0 true.
Lemma tilted_positive : positive tilted_cell. Proof. apply mk_box_positive; try lra. Qed.
Lemma tilted_requests : requests tilted_cell (RepList [2; 1; 1]) (2, 1, 1)%Z.
Proof. unfold requests. repeat split; try lia. Qed.
Theorem C64_tilted_refuted : exists b f n r bx pts, positive b /\ requests b r n /\ uc_generate b [f] r 1 None = Some (bx, pts) /\ exists p, In p pts /\ ~ on_grid bx n f p.
Proof.
  assert (HN : forall i, in_space tilted_cell (moved None i)) by (intros i X; reflexivity). destruct (generate_spec tilted_cell [v0] (RepList [2; 1; 1]) 1 None tilted_positive HN _ tilted_requests Rlt_0_1) as (pts & E & L & V).
  exists tilted_cell, v0, (2, 1, 1)%Z, (RepList [2; 1; 1]), (mul_box tilted_cell (2, 1, 1)%Z 1), pts. split; [exact tilted_positive|]. split; [exact tilted_requests|]. split; [exact E|]. exists (nth 0 pts v0). assert (LP : length pts = 2%nat) by (rewrite L; reflexivity). split; [apply nth_In; rewrite LP; lia|].
  rewrite V by (rewrite LP; lia). set (B := mul_box tilted_cell (2, 1, 1)%Z 1). assert (PB : positive B) by (apply mul_positive; [exact tilted_positive|simpl; lia|lra]).
  assert (ES : vadd (vscale 1 (nth 0 (sites tilted_cell (displacement tilted_cell (2, 1, 1)%Z) [v0] (2, 1, 1)%Z) v0)) (moved None 0) = cell_point B (5 / 8) 0 0).
  { unfold sites. change (cells (2, 1, 1)%Z) with [(0, 0, 0); (1, 0, 0)]%Z. cbn [flat_map map app nth moved]. unfold site, displacement, parity, cell_point, shift, comb, a1, a2, a3, B, mul_box, tilted_cell. apply vec_eq; simpl; field. }
  rewrite ES. rewrite wrap_cell by apply PB. intros (i & j & k & Eg). apply (f_equal (make_fractional B)) in Eg. rewrite !make_fractional_cell in Eg by apply PB. injection Eg as X _. change (b_px B) with true in X. unfold wrapped in X. cbn [vx v0] in X.
  assert (Z8 : IZR i * 4 = 5 - 8 * IZR (Zfloor (5 / 8))) by lra. rewrite <- !mult_IZR, <- minus_IZR in Z8. apply eq_IZR in Z8. lia.
Qed.
Example C64_ex : exists bx pts, uc_generate tilted_cell [v0; V3 (1 / 2) (1 / 2) 0] (RepScalar 2) 3 None = Some (bx, pts) /\ length pts = 8%nat /\ requests tilted_cell (RepScalar 2) (2, 2, 1)%Z /\ displacement tilted_cell (2, 2, 1)%Z = aligned tilted_cell (2, 2, 1)%Z.
Proof.
  assert (HN : forall i, in_space tilted_cell (moved None i)) by (intros i X; reflexivity). assert (Rq : requests tilted_cell (RepScalar 2) (2, 2, 1)%Z) by (unfold requests; repeat split; try lia; try discriminate).
  destruct (generate_spec tilted_cell [v0; V3 (1 / 2) (1 / 2) 0] (RepScalar 2) 3 None tilted_positive HN _ Rq ltac:(lra)) as (pts & E & L & _). exists (mul_box tilted_cell (2, 2, 1)%Z 3), pts. split; [exact E|]. split; [exact L|]. split; [exact Rq|]. apply C64_aligned; [exact tilted_positive|right; reflexivity|discriminate].
Qed.
Print Assumptions C64_accept.
Print Assumptions C64_box.
Print Assumptions C64_count.
Print Assumptions C64_points.
Print Assumptions C64_tiling.
Print Assumptions C64_tilted_refuted.
