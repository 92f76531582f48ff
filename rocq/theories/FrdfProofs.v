(** Counting in single precision (C85): bins of computed distances, and sums over pairs. *)
From Coq Require Import Psatz.
From Flocq Require Import Core.
From Verif Require Import F32Proofs F32Props Vec FaabbProofs FaabbProofs2 FaabbProps FaabbProps2 ReproProofs ReproSpec ReproProps FrdfSpec.
Open Scope R_scope.

(** * Bins *)
Lemma position_bins a (v : f32) : position a v = bins_from a (val v).
Proof. reflexivity. Qed.
Lemma slot_ok a (d : f32) : ordinary a -> finite d = true -> fslot a d <> None.
Proof.
  intros O F. unfold fslot. destruct (C65_bin a d O F) as [B1 B2]. destruct (Z.eqb_spec (fbin a d) OVERFLOW) as [E|N]; [discriminate|].
  assert (I : in_range a d). { destruct (Rle_lt_dec (val (fx_min a)) (val d)); [destruct (Rlt_le_dec (val d) (val (fx_max a)))|]; [split; auto| |]; exfalso; apply N, B1; intros [? ?]; lra. }
  apply B2 in I. destruct (Z.ltb_spec (fbin a d) (fx_n a)); [discriminate|lia].
Qed.
Lemma slot_val a (d : f32) (c : nat) : ordinary a -> finite d = true -> (Z.of_nat c < fx_n a)%Z ->
  (fslot a d = Some (Some c) <-> in_range a d /\ fbin a d = Z.of_nat c).
Proof.
  intros O F Hc. unfold fslot. destruct (C65_bin a d O F) as [B1 B2]. destruct (Z.eqb_spec (fbin a d) OVERFLOW) as [E|N].
  - split; [discriminate|]. intros [I _]. apply B1 in E. contradiction.
  - assert (I : in_range a d). { destruct (Rle_lt_dec (val (fx_min a)) (val d)); [destruct (Rlt_le_dec (val d) (val (fx_max a)))|]; [split; auto| |]; exfalso; apply N, B1; intros [? ?]; lra. }
    destruct (B2 I) as [L H]. destruct (Z.ltb_spec (fbin a d) (fx_n a)) as [_|]; [|lia]. split.
    + intros E. injection E as <-. split; auto. rewrite Z2Nat.id; auto.
    + intros [_ ->]. rewrite Nat2Z.id. reflexivity.
Qed.

Section Slot.
Variables (a : faxis) (D S : R).
Hypothesis O : ordinary a.
Hypothesis Sl : 0 <= slack D S.
Hypothesis C : forall m : Z, (0 <= m <= fx_n a)%Z -> blur a D S < Rabs (bins_from a D - IZR m).
Local Notation n := (IZR (fx_n a)).
Local Notation x := (bins_from a D).
Local Notation s := (n * (slack D S / range_of a)).
Lemma range_pos : 0 < range_of a.
Proof.
  destruct O as (_ & _ & Hn & L & _). assert (P := bpow_gt_0 radix2 (-125)). unfold range_of. assert (N : 1 <= n) by (apply IZR_le; lia).
  apply Rmult_lt_reg_r with (/ n); [apply Rinv_0_lt_compat; lra|]. rewrite Rmult_0_l. unfold Rdiv in L. lra.
Qed.
Lemma n_pos : 1 <= n. Proof. destruct O as (_ & _ & Hn & _). apply IZR_le. lia. Qed.
Lemma blur_eq : blur a D S = 6 * u * n + s. Proof. unfold blur. ring. Qed.
Lemma s_pos : 0 <= s.
Proof. apply Rmult_le_pos; [assert (N := n_pos); lra|]. apply Rmult_le_pos; [exact Sl|left; apply Rinv_0_lt_compat, range_pos]. Qed.
Lemma shift_pos (v : R) : Rabs (v - D) <= slack D S -> Rabs (bins_from a v - x) <= s.
Proof.
  intros H. unfold bins_from. assert (N := n_pos). assert (R := range_pos).
  replace (n * (v - val (fx_min a)) / range_of a - n * (D - val (fx_min a)) / range_of a) with (n * ((v - D) / range_of a)) by (field; lra).
  rewrite Rabs_mult, (Rabs_pos_eq n) by lra. apply Rmult_le_compat_l; [lra|]. unfold Rdiv. rewrite Rabs_mult, (Rabs_pos_eq (/ _)) by (left; apply Rinv_0_lt_compat; auto).
  apply Rmult_le_compat_r; [left; apply Rinv_0_lt_compat; auto|exact H].
Qed.
Lemma bins_range (v : R) : (val (fx_min a) <= v < val (fx_max a)) <-> 0 <= bins_from a v < n.
Proof.
  assert (N := n_pos). assert (R := range_pos). assert (E : v - val (fx_min a) = bins_from a v * (range_of a / n)) by (unfold bins_from; field; lra).
  assert (W : 0 < range_of a / n) by (apply Rdiv_lt_0_compat; lra). assert (RW : val (fx_max a) - val (fx_min a) = n * (range_of a / n)) by (unfold range_of; field; lra).
  set (w := range_of a / n) in *. set (y := bins_from a v) in *. clearbody w y. split; intros [H1 H2]; split; nra.
Qed.
Lemma floor_bin (d : f32) (k : Z) : finite d = true -> Rabs (val d - D) <= slack D S -> (0 <= k < fx_n a)%Z -> Zfloor x = k -> in_range a d /\ fbin a d = k.
Proof.
  intros F H Hk E. assert (SH := shift_pos _ H). apply Rabs_le_inv in SH. rewrite <- position_bins in SH.
  assert (L := Zfloor_lb x). assert (U := Zfloor_ub x). rewrite E in L, U.
  assert (C1 := C k ltac:(lia)). assert (C2 := C (k + 1)%Z ltac:(lia)). rewrite plus_IZR in C2. rewrite Rabs_pos_eq in C1 by lra. rewrite Rabs_left1 in C2 by lra. rewrite blur_eq in C1, C2.
  assert (N := n_pos). assert (U0 := F32Proofs.u_pos). assert (SP := s_pos). assert (IZR k + 1 <= n) by (rewrite <- plus_IZR; apply IZR_le; lia). assert (0 <= IZR k) by (apply IZR_le; lia).
  assert (0 <= 6 * u * n) by nra. assert (I : in_range a d) by (apply bins_range; rewrite <- position_bins; lra).
  split; auto. apply (C65_bin_accurate a d O F I). lra.
Qed.
Lemma slot_floor (d : f32) (c : nat) : finite d = true -> Rabs (val d - D) <= slack D S -> (Z.of_nat c < fx_n a)%Z ->
  (fslot a d = Some (Some c) <-> Zfloor x = Z.of_nat c).
Proof.
  intros F H Hc. rewrite slot_val by auto. split; [|intros E; apply floor_bin; auto; lia].
  intros [I B]. assert (SH := shift_pos _ H). apply Rabs_le_inv in SH. rewrite <- position_bins in SH. assert (I' := I). apply bins_range in I'. rewrite <- position_bins in I'.
  assert (N := n_pos). assert (U0 := F32Proofs.u_pos). assert (SP := s_pos). assert (0 <= 6 * u * n) by nra.
  assert (L := Zfloor_lb x). assert (U := Zfloor_ub x).
  destruct (Z_lt_le_dec (Zfloor x) 0) as [K|K].
  - assert (IZR (Zfloor x) <= -1) by (apply (IZR_le _ (-1)); lia). assert (C1 := C 0%Z ltac:(lia)). rewrite Rabs_left1, blur_eq in C1 by lra. lra.
  - destruct (Z_lt_le_dec (Zfloor x) (fx_n a)) as [K'|K'].
    + destruct (floor_bin d (Zfloor x) F H ltac:(lia) eq_refl) as [_ B']. congruence.
    + assert (n <= IZR (Zfloor x)) by (apply IZR_le; lia). assert (C1 := C (fx_n a) ltac:(lia)). rewrite Rabs_pos_eq, blur_eq in C1 by lra. lra.
Qed.
Lemma floor_inside (c : nat) : (Z.of_nat c < fx_n a)%Z -> Zfloor x = Z.of_nat c -> D + slack D S <= val (fx_max a).
Proof.
  intros Hc E. assert (U := Zfloor_ub x). rewrite E in U. assert (C2 := C (Z.of_nat c + 1)%Z ltac:(lia)). rewrite plus_IZR in C2. rewrite Rabs_left1, blur_eq in C2 by lra.
  assert (IZR (Z.of_nat c) + 1 <= n) by (rewrite <- plus_IZR; apply IZR_le; lia). assert (N := n_pos). assert (R := range_pos). assert (U0 := F32Proofs.u_pos). assert (0 <= 6 * u * n) by nra.
  assert (K : x + s <= n) by lra. replace (x + s) with (n * ((D - val (fx_min a) + slack D S) / range_of a)) in K by (unfold bins_from; field; lra).
  assert (M : (D - val (fx_min a) + slack D S) / range_of a <= 1) by nra. apply Rmult_le_compat_r with (r := range_of a) in M; [|lra]. unfold Rdiv in M. rewrite Rmult_assoc, Rinv_l, Rmult_1_r, Rmult_1_l in M by lra. unfold range_of in M. lra.
Qed.
End Slot.

(** * Sums of natural numbers over lists *)
Fixpoint nsum {A} (f : A -> nat) (l : list A) : nat := match l with [] => 0%nat | x :: l => (f x + nsum f l)%nat end.
Definition cnt {A} (g : A -> bool) (l : list A) : nat := length (filter g l).
Lemma nsum_app {A} (f : A -> nat) l l' : nsum f (l ++ l') = (nsum f l + nsum f l')%nat.
Proof. induction l; simpl; auto. rewrite IHl. lia. Qed.
Lemma nsum_ext {A} (f g : A -> nat) l : (forall x, In x l -> f x = g x) -> nsum f l = nsum g l.
Proof. induction l; intros H; simpl; auto. rewrite H by (left; auto). rewrite IHl; auto. intros; apply H; right; auto. Qed.
Lemma nsum_perm {A} (f : A -> nat) l l' : Permutation l l' -> nsum f l = nsum f l'.
Proof. induction 1; simpl; lia. Qed.
Lemma nsum_map {A B} (f : B -> nat) (g : A -> B) l : nsum f (map g l) = nsum (fun x => f (g x)) l.
Proof. induction l; simpl; auto. Qed.
Lemma nsum_plus {A} (f g : A -> nat) l : nsum (fun x => f x + g x)%nat l = (nsum f l + nsum g l)%nat.
Proof. induction l; simpl; auto. rewrite IHl. lia. Qed.
Lemma nsum_zero {A} (l : list A) : nsum (fun _ => 0%nat) l = 0%nat.
Proof. induction l; simpl; auto. Qed.
Lemma nsum_swap {A B} (f : A -> B -> nat) l l' : nsum (fun x => nsum (f x) l') l = nsum (fun y => nsum (fun x => f x y) l) l'.
Proof. induction l as [|x l IH]; simpl. { symmetry. apply nsum_zero. } rewrite IH, nsum_plus. reflexivity. Qed.
Lemma cnt_sum {A} (g : A -> bool) l : cnt g l = nsum (fun x => if g x then 1%nat else 0%nat) l.
Proof. unfold cnt. induction l as [|x l IH]; simpl; auto. destruct (g x); simpl; auto. Qed.
Lemma cnt_flat_map {A B} (g : B -> bool) (f : A -> list B) l : cnt g (flat_map f l) = nsum (fun x => cnt g (f x)) l.
Proof. unfold cnt. induction l as [|x l IH]; simpl; auto. rewrite filter_app, app_length, IH. auto. Qed.
Lemma cnt_perm {A} (g : A -> bool) l l' : Permutation l l' -> cnt g l = cnt g l'.
Proof. rewrite !cnt_sum. apply nsum_perm. Qed.
Lemma nsum_prod {A B} (f : A * B -> nat) l l' : nsum f (list_prod l l') = nsum (fun x => nsum (fun y => f (x, y)) l') l.
Proof. induction l as [|x l IH]; simpl; auto. rewrite nsum_app, IH, nsum_map. auto. Qed.
Lemma cnt_filter {A} (g h : A -> bool) l : cnt g (filter h l) = cnt (fun x => h x && g x) l.
Proof. unfold cnt. induction l as [|x l IH]; simpl; auto. destruct (h x); simpl; [destruct (g x); simpl; auto|auto]. Qed.

(** * Image vectors and cells *)
Definition imc (b : fbox) (t : Z * Z * Z) : fvec := let '(i, j, k) := t in if (Z.eqb i 0 && Z.eqb j 0 && Z.eqb k 0)%bool then fv0 else imv b (i, j, k).
Lemma images_perm b r check l : fimages b r check = Some l -> Permutation l (map (imc b) (cells b)).
Proof.
  intros E. apply images_eq in E. subst l. unfold imc. generalize (imv b) fv0. intros f v0. unfold allowed, cells, steps.
  destruct (fpx b), (fpy b), (f2d b), (fpz b); cbn;
  match goal with |- Permutation (?x :: ?l) ?l' => let k := eval compute in (Nat.div2 (length l)) in exact (Permutation_middle (firstn k l) (skipn k l) x) end.
Qed.
Lemma in_cells b i j k : In (i, j, k) (cells b) -> neighbour_cell b i j k.
Proof.
  unfold cells. intros H. apply in_prod_iff in H as [H Hk]. apply in_prod_iff in H as [Hi Hj]. unfold steps in *.
  assert (ST : forall (p : bool) (z : Z), In z (if p then [-1; 0; 1]%Z else [0%Z]) -> (Z.abs z <= 1)%Z /\ (z <> 0%Z -> p = true)).
  { intros p z H. destruct p; simpl in H; [destruct H as [<-|[<-|[<-|[]]]]|destruct H as [<-|[]]]; split; try lia; auto. }
  apply ST in Hi as [A1 A2]. apply ST in Hj as [B1 B2]. apply ST in Hk as [C1 C2]. split; [lia|]. split; [auto|]. split; [auto|]. intros N. apply C2 in N. apply andb_prop in N as [N1 N2]. split; auto. destruct (f2d b); auto; discriminate.
Qed.
Lemma imc_val b i j k : plain_box b -> In (i, j, k) (cells b) ->
  ordinary_point (imc b (i, j, k)) /\ rv (imc b (i, j, k)) = V3 (IZR i * val (fvx (fL b))) (IZR j * val (fvy (fL b))) (IZR k * val (fvz (fL b))).
Proof.
  intros PB H. apply in_cells in H. destruct H as ((Hi & Hj & Hk) & _ & _ & Az). unfold imc.
  destruct (Z.eqb_spec i 0) as [Ei|Ei], (Z.eqb_spec j 0) as [Ej|Ej], (Z.eqb_spec k 0) as [Ek|Ek]; cbn [andb];
    try (assert (H2 : k <> 0%Z -> f2d b = false) by (intros N; apply Az; auto); split; [apply imv_ordinary; auto|];
         destruct (imv_val b i j k PB Hi Hj Hk H2) as ([_ Ix] & [_ Iy] & [_ Iz]); unfold rv; rewrite Ix, Iy, Iz; reflexivity).
  subst. split.
  - assert (P := bpow_gt_0 radix2 60); repeat split; try reflexivity; cbn; rewrite Rabs_R0; lra.
  - unfold rv, fv0. cbn [fvx fvy fvz]. vec_ext; cbn; ring.
Qed.

(** * One query point *)
Definition in_slot (a : faxis) (c : nat) (x : fbond) : bool := match fslot a (fb_d x) with Some (Some k) => Nat.eqb k c | _ => false end.
Lemma in_slot_iff a c x : in_slot a c x = true <-> fslot a (fb_d x) = Some (Some c).
Proof. unfold in_slot. destruct (fslot a (fb_d x)) as [[k|]|]; split; try discriminate; [intros H; apply Nat.eqb_eq in H; subst; auto|intros H; injection H as ->; apply Nat.eqb_refl]. Qed.
Lemma slack_pos D S : 0 <= D -> 0 <= S -> 0 <= slack D S.
Proof. intros H1 H2. assert (P := bpow_gt_0 radix2 (-70)). unfold slack, u. lra. Qed.
Lemma sqrt_fin0 (x : f32) : finite x = true -> 0 <= val x -> finite (Bsqrt mode_NE x) = true.
Proof.
  intros F P. destruct (Bsqrt_correct 24 128 _ _ mode_NE x) as (_ & E & _). rewrite E. destruct x as [s|s| |s m e H]; try discriminate; auto. destruct s; auto.
  exfalso. assert (N := F2R_lt_0 radix2 (Float radix2 (Zneg m) e) ltac:(reflexivity)). cbn in P. unfold F2R in *. cbn in *. lra.
Qed.
Lemma pair_slot a b points q qi excl p i j k c : ordinary a -> ordinary_radius (fx_max a) -> plain_box b -> Forall ordinary_point points -> ordinary_point q ->
  (p < length points)%nat -> In (i, j, k) (cells b) -> (Z.of_nat c < fx_n a)%Z ->
  let D := exact_distance b (nth p points fv0) q i j k in let S := norm (moved b q i j k) in
  (excl && Nat.eqb qi p = false -> forall m : Z, (0 <= m <= fx_n a)%Z -> blur a D S < Rabs (bins_from a D - IZR m)) ->
  cnt (in_slot a c) (pair_bond b points q qi (fx_max a) fzero excl (imc b (i, j, k)) p) =
  if negb (excl && Nat.eqb qi p) && Z.eqb (Zfloor (bins_from a D)) (Z.of_nat c) then 1%nat else 0%nat.
Proof.
  intros O Or PB HO Oq Hp Hc Hn D S CL. unfold pair_bond. destruct (excl && Nat.eqb qi p) eqn:EX; [reflexivity|]. specialize (CL eq_refl). cbn [negb andb].
  destruct (imc_val b i j k PB Hc) as [Oim Vim].
  assert (Op : ordinary_point (fflat b (nth p points fv0))) by (apply flat_ordinary; apply (proj1 (Forall_forall _ _) HO); apply nth_In; auto).
  assert (Ofq := flat_ordinary b q Oq).
  assert (ES : moved b q i j k = (rv (fflat b q) + rv (imc b (i, j, k)))%V) by (unfold moved; rewrite Vim; reflexivity).
  unfold exact_distance in D. unfold S, D in *. clear S D. rewrite ES in *.
  set (im := imc b (i, j, k)) in *. set (r := fvsub (fflat b (nth p points fv0)) (fvadd (fflat b q) im)) in *.
  destruct (pair_finite _ _ _ Op Ofq Oim) as (_ & Fr & Pr). fold r in Fr, Pr.
  assert (PD := FaabbProofs2.pair_distance _ _ _ Op Ofq Oim). fold r in PD.
  assert (N1 := norm_nonneg (rv (fflat b (nth p points fv0)) - (rv (fflat b q) + rv im))%V). assert (N2 := norm_nonneg (rv (fflat b q) + rv im)%V).
  set (D := norm (rv (fflat b (nth p points fv0)) - (rv (fflat b q) + rv im))%V) in *. set (S := norm (rv (fflat b q) + rv im)%V) in *.
  assert (SL := slack_pos D S N1 N2). assert (FS := sqrt_fin0 _ Fr Pr).
  destruct (radius_val (fx_max a) Or) as (Fm & _).
  assert (B2 : Bleb (fmul fzero fzero) (fnorm2 r) = true).
  { destruct (mul_zero fzero fzero eq_refl is_zero) as [F0 V0]. rewrite Bleb_correct by auto. apply Rle_bool_true. rewrite V0. auto. }
  rewrite B2, Bool.andb_true_r.
  destruct (Z.eqb_spec (Zfloor (bins_from a D)) (Z.of_nat c)) as [E|E].
  - assert (IN := floor_inside a D S O CL c Hn E). assert (B1 := pair_below _ _ _ Op Ofq Oim (fx_max a) Or IN). fold r in B1.
    rewrite Bltb_correct, (Rlt_bool_true _ _ B1) by auto. unfold cnt. cbn [filter].
    assert (X : in_slot a c (FBond qi p (Bsqrt mode_NE (fnorm2 r)) r) = true) by (apply in_slot_iff; apply (slot_floor a D S O SL CL); auto). rewrite X. reflexivity.
  - destruct (Bltb (fnorm2 r) (fmul (fx_max a) (fx_max a))); [|reflexivity]. unfold cnt. cbn [filter].
    destruct (in_slot a c (FBond qi p (Bsqrt mode_NE (fnorm2 r)) r)) eqn:X; [|reflexivity]. exfalso. apply E. apply in_slot_iff in X. apply (slot_floor a D S O SL CL) in X; auto.
Qed.
Lemma query_count a f bonds i c : ordinary a -> ordinary_radius (fx_max a) -> ordinary_frame f -> clear a f -> fframe_bonds a f bonds ->
  (i < length (ff_queries f))%nat -> (Z.of_nat c < fx_n a)%Z ->
  cnt (in_slot a c) (bonds i) = nsum (fun p => nsum (fun t => if negb (ff_excl f && Nat.eqb i p) && Z.eqb (Zfloor (bins_from a (pair_distance f (i, p, t)))) (Z.of_nat c) then 1%nat else 0%nat) (cells (ff_box f))) (seq 0 (length (ff_points f))).
Proof.
  intros O Or (HN & PB & HP & HQ & _) CL HB Hi Hc. specialize (HB i Hi).
  assert (Oq : ordinary_point (nth i (ff_queries f) fv0)) by (apply (proj1 (Forall_forall _ _) HQ); apply nth_In; auto).
  destruct (C78_ball _ _ _ _ _ _ _ _ _ HN (points_fin _ HP) HB) as [[E _]|(images & l & _ & EI & E & P)]; [discriminate|]. injection E as E. subst l.
  rewrite (cnt_perm _ _ _ P). unfold brute_force. rewrite cnt_flat_map, (nsum_perm _ _ _ (images_perm _ _ _ _ EI)), nsum_map.
  rewrite (nsum_ext _ (fun t => nsum (fun p => if negb (ff_excl f && Nat.eqb i p) && Z.eqb (Zfloor (bins_from a (pair_distance f (i, p, t)))) (Z.of_nat c) then 1%nat else 0%nat) (seq 0 (length (ff_points f))))).
  - rewrite nsum_swap. reflexivity.
  - intros [[ci cj] ck] Ht. rewrite cnt_flat_map. apply nsum_ext. intros p Hp. apply in_seq in Hp. apply pair_slot; auto; [lia|].
    intros EX. apply (CL (i, p, (ci, cj, ck))). unfold pairs. apply filter_In. split; [|cbn [fst snd]; rewrite EX; reflexivity]. apply in_prod; auto. apply in_prod; apply in_seq; lia.
Qed.
(** * A frame, and several frames *)
Lemma frame_count a f bonds c : ordinary a -> ordinary_radius (fx_max a) -> ordinary_frame f -> clear a f -> fframe_bonds a f bonds -> (Z.of_nat c < fx_n a)%Z ->
  Z.of_nat (nsum (fun i => cnt (in_slot a c) (bonds i)) (seq 0 (length (ff_queries f)))) = exact_count a f c.
Proof.
  intros O Or OF CL HB Hc. unfold exact_count. f_equal. change (length (filter ?g ?l)) with (cnt g l). unfold pairs. rewrite cnt_filter, cnt_sum, !nsum_prod.
  apply nsum_ext. intros i Hi. apply in_seq in Hi. rewrite (query_count a f bonds i c) by (auto; lia). reflexivity.
Qed.
Lemma zsum_ones {A} (l : list A) : fold_right Z.add 0%Z (map (fun _ => 1%Z) l) = Z.of_nat (length l).
Proof. induction l; cbn [map fold_right length]; auto. rewrite IHl. lia. Qed.
Lemma work_sum a f bonds c : fold_right Z.add 0%Z (flat_map (fun i => snd (fst (fwork a f bonds)) i c) (seq 0 (fst (fst (fwork a f bonds))))) =
  Z.of_nat (nsum (fun i => cnt (in_slot a c) (bonds i)) (seq 0 (length (ff_queries f)))).
Proof.
  unfold fwork. cbn [fst snd]. induction (seq 0 (length (ff_queries f))) as [|i l IH]; auto. cbn [flat_map nsum]. rewrite zsum_app, IH. unfold fadds at 1. rewrite zsum_ones. unfold cnt, in_slot. lia.
Qed.
Lemma work_ones a fs bs c : Forall (fun x => (0 <= x < 2 ^ 32)%Z) (addends (map (fun fb => fwork a (fst fb) (snd fb)) (combine fs bs)) c).
Proof.
  apply Forall_forall. intros x H. unfold addends in H. apply in_flat_map in H as (w & Hw & H). apply in_map_iff in Hw as (fb & <- & _). cbn [fwork fst snd] in H.
  apply in_flat_map in H as (i & _ & H). unfold fadds in H. apply in_map_iff in H as (y & <- & _). lia.
Qed.
Lemma frames_scheduled a fs bs : Forall (fun f => execution 0 (length (ff_queries f)) (ff_ev f)) fs -> scheduled (map (fun fb => fwork a (fst fb) (snd fb)) (combine fs bs)).
Proof.
  intros H. unfold scheduled. apply Forall_forall. intros w Hw. apply in_map_iff in Hw as ([f bonds] & <- & Hf). cbn [fwork fst snd]. apply (proj1 (Forall_forall _ _) H). apply in_combine_l in Hf. exact Hf.
Qed.
Lemma counts_outcome a fs counts : frdf_counts a fs counts ->
  exists bs, Forall2 (fun f bonds => fframe_bonds a f bonds /\ fslots_ok a f bonds) fs bs /\
  counts = map (fun c => (fold_right Z.add 0 (addends (map (fun fb => fwork a (fst fb) (snd fb)) (combine fs bs)) c) mod 2 ^ 32)%Z) (seq 0 (Z.to_nat (fx_n a))).
Proof.
  intros (bs & old & ls & HB & HE & HO & HP & ->). exists bs. split; auto. apply map_ext_in. intros c _. apply C77_counts; [|apply work_ones].
  exists old, ls. split; [apply frames_scheduled; auto|]. auto.
Qed.
