(** The CellQuery grid and its positions in boxes without tilt (C84). *)
From Coq Require Import Psatz.
From Flocq Require Import Core.
From Verif Require Import F32Proofs F32Proofs4 F32Props Vec FaabbProofs FaabbProofs2 FaabbProps2 FnearProofs FcellSpec FcellProofs2 FcellProofs3 FcellProofs4 CellQueryProofs3 FcqModel FcqProofs FcqProofs2 FcqProofs3 FcqSpec.
Open Scope R_scope.

(** * Sites *)
Lemma scaled_val (x : f32) i : finite x = true -> (Z.abs i <= 1)%Z -> i <> 0%Z -> is (if (i =? 1)%Z then x else fopp x) (IZR i * val x).
Proof.
  intros F A N. assert (C : (i = 1 \/ i = -1)%Z) by lia. destruct C as [-> | ->]; cbn [Z.eqb Pos.eqb].
  - split; auto. ring.
  - replace (-1 * val x) with (- val x) by ring. apply is_opp. split; auto.
Qed.
Lemma zero_opp (x : f32) (c : bool) : is x 0 -> is (if c then x else fopp x) 0.
Proof. intros H. destruct c; auto. rewrite <- Ropp_0. apply is_opp. auto. Qed.
Lemma site_val b i j k : plain_box b -> (Z.abs i <= 1)%Z -> (Z.abs j <= 1)%Z -> (Z.abs k <= 1)%Z -> (k <> 0%Z -> f2d b = false) ->
  is (fvx (fnew_site b (i, j, k))) (IZR i * val (fvx (fL b))) /\ is (fvy (fnew_site b (i, j, k))) (IZR j * val (fvy (fL b))) /\ is (fvz (fnew_site b (i, j, k))) (IZR k * val (fvz (fL b))).
Proof.
  intros PB Hi Hj Hk H2. destruct (plain_fin b PB) as (Fx & Fy & Fz). destruct PB as (_ & _ & _ & Zxy & Zxz & Zyz). assert (Z0 := is_zero).
  assert (A : is (fvx (fsigned i (flattice b 0) fv0)) (IZR i * val (fvx (fL b))) /\ is (fvy (fsigned i (flattice b 0) fv0)) 0 /\ is (fvz (fsigned i (flattice b 0) fv0)) 0).
  { unfold fsigned. destruct (Z.eqb_spec i 0) as [->|N]; [rewrite Rmult_0_l; auto|]. cbn [flattice fvadd fv0 fvx fvy fvz]. split; [apply add_zero_l; auto; assert (G := scaled_val (fvx (fL b)) i Fx Hi N); destruct (i =? 1)%Z; exact G|].
    assert (G := zero_opp fzero (i =? 1)%Z Z0). destruct (i =? 1)%Z; split; apply add_zero_r; auto. }
  destruct A as (A1 & A2 & A3). unfold fnew_site. set (sa := fsigned i (flattice b 0) fv0) in *.
  assert (B : is (fvx (fsigned j (flattice b 1) sa)) (IZR i * val (fvx (fL b))) /\ is (fvy (fsigned j (flattice b 1) sa)) (IZR j * val (fvy (fL b))) /\ is (fvz (fsigned j (flattice b 1) sa)) 0).
  { unfold fsigned. destruct (Z.eqb_spec j 0) as [->|N]; [rewrite Rmult_0_l; auto|]. assert (M := FaabbProofs2.mul_zero _ _ Fy Zxy). assert (G := scaled_val (fvy (fL b)) j Fy Hj N). assert (G1 := zero_opp _ (j =? 1)%Z M). assert (G0 := zero_opp fzero (j =? 1)%Z Z0).
    destruct (j =? 1)%Z; cbn [flattice fvadd fvopp fvx fvy fvz]; (split; [apply add_zero_r; auto|]; split; [apply add_zero_l; auto|apply add_zero_r; auto]). }
  destruct B as (B1 & B2 & B3). set (sb := fsigned j (flattice b 1) sa) in *. unfold fsigned. destruct (Z.eqb_spec k 0) as [->|N]; [rewrite Rmult_0_l; auto|].
  rewrite (H2 N). assert (M := FaabbProofs2.mul_zero _ _ Fz Zxz). assert (M' := FaabbProofs2.mul_zero _ _ Fz Zyz). assert (G := scaled_val (fvz (fL b)) k Fz Hk N). assert (G1 := zero_opp _ (k =? 1)%Z M). assert (G2 := zero_opp _ (k =? 1)%Z M').
  destruct (k =? 1)%Z; cbn [flattice fvadd fvopp fvx fvy fvz]; (split; [apply add_zero_r; auto|]; split; [apply add_zero_r; auto|apply add_zero_l; auto]).
Qed.

(** * The grid *)
Lemma inv_val (r : f32) : ordinary_length r -> exists e, Rabs e <= u /\ is (fdiv fone r) (/ val r * (1 + e)).
Proof.
  intros Or. assert (P := len_pos r Or). destruct Or as [Fr [B1 B2]].
  assert (I : bpow radix2 (-60) <= / val r <= bpow radix2 60).
  { split; [rewrite <- (Rinv_inv (bpow radix2 (-60))); apply Rinv_le_contravar; auto; rewrite <- bpow_opp; auto|].
    rewrite <- (Rinv_inv (bpow radix2 60)); apply Rinv_le_contravar; [apply Rinv_0_lt_compat, bpow_gt_0|]. rewrite <- bpow_opp. auto. }
  assert (P60 := bpow_gt_0 radix2 (-60)). assert (B127 := bpow_le radix2 60 127 ltac:(lia)). assert (B126 := bpow_le radix2 (-126) (-60) ltac:(lia)).
  assert (V1 : val fone = 1) by (unfold fone; exact (proj2 (is_lit_Z 1 ltac:(lia)))). assert (F1 : finite fone = true) by reflexivity.
  destruct (is_div fone r F1) as [F V]; [lra|rewrite V1; unfold fits; unfold Rdiv; rewrite Rmult_1_l, Rabs_pos_eq; lra|].
  rewrite V1 in V. unfold Rdiv in V. rewrite Rmult_1_l in V. destruct (rnd_rel (/ val r)) as (e & E & Er); [rewrite Rabs_pos_eq; lra|]. exists e. split; auto. split; auto. rewrite V. auto.
Qed.
Lemma low_val (L r x y : f32) : ordinary_length L -> ordinary_length r -> is x (- val r) -> is y (- (val L / 2)) -> exists e, Rabs e <= u /\ is (fadd x y) ((- (val L / 2) - val r) * (1 + e)).
Proof.
  intros [FL [L1 L2]] [Fr [R1 R2]] [Fx Vx] [Fy Vy]. assert (P := bpow_gt_0 radix2 (-60)). assert (B : 2 * bpow radix2 60 <= bpow radix2 127) by (change 2 with (bpow radix2 1); rewrite <- bpow_plus; apply bpow_le; lia).
  destruct (is_add x y Fx Fy) as [F V]; [rewrite Vx, Vy; unfold fits; rewrite <- Rabs_Ropp, Rabs_pos_eq; lra|].
  destruct (rnd_plus (val x) (val y) (fmt_val x) (fmt_val y)) as (e & E & Er). exists e. split; auto. split; auto. rewrite V, Er, Vx, Vy. ring.
Qed.
Definition axis_grid (cint : option Z -> Z) (inv L r m : f32) (n : Z) : Prop :=
  (exists e, Rabs e <= u /\ is m ((- (val L / 2) - val r) * (1 + e))) /\ (exists w, is w (val L) /\ n = fgrid_dim cint w inv).
Lemma grid_val cint b r : plain_box b -> ordinary_length r -> let g := fsetup_grid cint b r in
  (exists e, Rabs e <= u /\ is (fg_inv g) (/ val r * (1 + e))) /\
  axis_grid cint (fg_inv g) (fvx (fL b)) r (fvx (fg_min g)) (fg_nx g) /\ axis_grid cint (fg_inv g) (fvy (fL b)) r (fvy (fg_min g)) (fg_ny g) /\
  (if f2d b then is (fvz (fg_min g)) (- val r) /\ fg_nz g = fgrid_dim cint (fvz (fL b)) (fg_inv g) else axis_grid cint (fg_inv g) (fvz (fL b)) r (fvz (fg_min g)) (fg_nz g)).
Proof.
  intros PB Or. cbv zeta. destruct (plain_fin b PB) as (Fx & Fy & Fz). destruct PB as (Lx & Ly & Lz & Txy & Txz & Tyz). assert (Z0 := is_zero).
  unfold fsetup_grid. cbn [fg_inv fg_min fg_nx fg_ny fg_nz fvadd fvx fvy fvz fabsolute fv0]. split; [apply inv_val; auto|].
  assert (Ir : is r (val r)) by (split; [apply Or|auto]).
  assert (M : forall (a t : f32), finite a = true -> is t 0 -> is (fmul a (std_min fzero t)) 0) by (intros; apply FaabbProofs2.mul_zero; auto; apply std_min_zero; auto).
  assert (A : forall (a t : f32), finite a = true -> is t 0 -> is (fmul a (Babs t)) 0) by (intros; apply FaabbProofs2.mul_zero; auto; apply is_abs0; auto).
  assert (Y : forall L, ordinary_length L -> is (fadd (flo L) (fmul fzero L)) (- (val L / 2))).
  { intros L OL. apply add_zero_r; [apply is_flo; auto|]. apply F32Props.mul_zero; auto. apply OL. }
  assert (Zz : finite (fadd (flo (fvz (fL b))) (fmul fzero (fvz (fL b)))) = true).
  { destruct (f2d b); [|apply (Y _ Lz)]. apply (add_zero_r _ _ 0); [|apply F32Props.mul_zero; auto]. unfold flo. destruct Lz as [F V]. destruct (is_lit_Z 2 ltac:(lia)) as [F2 V2]. 
    rewrite <- Ropp_0. apply is_opp. destruct (is_div (fvz (fL b)) (lit 2 0) F) as [FD VD]; [rewrite V2; lra|rewrite V; unfold Rdiv; rewrite Rmult_0_l; apply fits_0|]. rewrite V in VD. unfold Rdiv in VD. rewrite Rmult_0_l, rnd_0 in VD. split; auto. }
  assert (LX : ordinary_length (fvx (fL b))) by auto.
  split; [|split].
  - split.
    + apply low_val; auto; [apply sub_zero_l; auto; apply add_zeros; auto|]. apply add_zero_r; [apply Y; auto|]. apply add_zeros; apply F32Props.mul_zero; auto. apply Y; auto.
    + eexists. split; [|reflexivity]. apply add_zero_r; [apply add_zero_r; [split; auto|]|]; auto.
  - split.
    + apply low_val; auto; [apply sub_zero_l; auto|]. apply add_zero_r; [apply Y; auto|]. apply F32Props.mul_zero; auto.
    + eexists. split; [|reflexivity]. apply add_zero_r; [split; auto|]; auto.
  - destruct (f2d b).
    + split; auto. apply add_zero_r; auto. apply is_opp; auto.
    + split; [apply low_val; auto; apply is_opp; auto|]. eexists. split; [|reflexivity]. split; auto.
Qed.

(** * Neighbouring numbers *)
Lemma gap x y : fmt x -> fmt y -> 0 < y -> x < y -> x <= y * (1 - u).
Proof.
  intros Fx Fy P H. assert (G := pred_ge_gt radix2 fex x y Fx Fy H). eapply Rle_trans; [exact G|]. rewrite pred_eq_pos by lra. unfold pred_pos.
  assert (ML := bpow_mag_le radix2 y ltac:(lra)). assert (MG := bpow_mag_gt radix2 y). rewrite Rabs_pos_eq in ML, MG by lra. set (k := mag radix2 y : Z) in *. change (mag radix2 y : Z) with k.
  assert (X : forall e, (e - 24 <= fex e)%Z) by (intros e; rewrite fex_flt; unfold FLT_exp; lia).
  destruct (Req_bool_spec y (bpow radix2 (k - 1))) as [E|E].
  - assert (Q : bpow radix2 (k - 1 - 24) <= bpow radix2 (fex (k - 1))) by (apply bpow_le, X). unfold Zminus in Q at 1. rewrite bpow_plus, <- E in Q. change (bpow radix2 (- (24))) with u in Q. lra.
  - rewrite ulp_neq_0 by lra. unfold cexp. fold k. assert (Q : bpow radix2 (k - 24) <= bpow radix2 (fex k)) by (apply bpow_le, X). unfold Zminus in Q. rewrite bpow_plus in Q. change (bpow radix2 (- (24))) with u in Q. assert (U := U0). nra.
Qed.
(** Rounded to at most one half, the value exceeds one half by at most half a unit. *)
Lemma half_up x : rnd x <= 1 / 2 -> x <= (1 + u) / 2.
Proof.
  intros H. assert (U := U0). set (h := (1 + 2 * u) / 2). assert (Fh : fmt h). { replace h with (IZR 8388609 * bpow radix2 (-24)) by (unfold h; rewrite <- u_bpow; unfold u; lra). apply fmt_F2R; lia. }
  destruct (Rle_or_lt h x) as [C|C]; [apply (rnd_ge_fmt h x Fh) in C; unfold h in C; lra|].
  assert (N := round_N_pt radix2 fex (fun z => negb (Z.even z)) x). destruct N as [_ N]. specialize (N h Fh). fold (rnd x) in N. apply Rnot_lt_le. intros D.
  rewrite (Rabs_pos_eq (h - x)) in N by lra. rewrite Rabs_left1 in N by lra. unfold h in N. lra.
Qed.
Lemma fmt_half x : fmt x -> bpow radix2 (-100) <= x -> fmt (x / 2).
Proof.
  intros F H. destruct (fmt_canon x F H) as (M & e & -> & HM & He).
  replace (IZR M * bpow radix2 e / 2) with (IZR M * bpow radix2 (e - 1)). { apply fmt_F2R; lia. }
  unfold Zminus. rewrite bpow_plus. change (bpow radix2 (- (1))) with (/ 2). field.
Qed.
(** A coordinate with a ghost above (below) it lies in the lower (upper) half, up to the rounding of the fraction. *)
Lemma low_half (L p : R) : fmt L -> bpow radix2 (-60) <= L -> fmt p -> rnd (rnd (p - - (L / 2)) / L) <= 1 / 2 -> p <= u * L.
Proof.
  intros FL HL Fp H. assert (U := U0). assert (P := bpow_gt_0 radix2 (-60)). assert (FH : fmt (L / 2)) by (apply fmt_half; auto; eapply Rle_trans; [apply bpow_le with (e2 := (-60)%Z); lia|auto]).
  apply half_up in H. set (h := rnd (p - - (L / 2))) in *. assert (H' : h <= L / 2 * (1 + u)). { apply Rmult_le_reg_r with (/ L); [apply Rinv_0_lt_compat; lra|]. unfold Rdiv in H. replace (L / 2 * (1 + u) * / L) with ((1 + u) / 2) by (field; lra). auto. }
  assert (Fh : fmt h) by (apply generic_format_round; typeclasses eauto).
  assert (C : h <= L / 2). { apply Rnot_lt_le. intros C. assert (G := gap _ _ FH Fh ltac:(lra) C). nra. }
  destruct (rnd_minus p (- (L / 2)) Fp (generic_format_opp _ _ _ FH)) as (e & E & Er). fold h in Er. apply Rabs_le_inv in E. apply Rnot_lt_le. intros D.
  assert (X : (p - - (L / 2)) * (1 - u) <= h) by (rewrite Er; apply Rmult_le_compat_l; nra). nra.
Qed.
Lemma high_half (L p : R) : fmt L -> bpow radix2 (-60) <= L -> fmt p -> 1 / 2 <= rnd (rnd (p - - (L / 2)) / L) -> - (u * L) <= p.
Proof.
  intros FL HL Fp H. assert (U := U0). assert (P := bpow_gt_0 radix2 (-60)). assert (FH : fmt (L / 2)) by (apply fmt_half; auto; eapply Rle_trans; [apply bpow_le with (e2 := (-60)%Z); lia|auto]).
  set (h := rnd (p - - (L / 2))) in *. assert (Fh : fmt h) by (apply generic_format_round; typeclasses eauto). assert (IL : 0 < / L) by (apply Rinv_0_lt_compat; lra).
  assert (C : L / 2 <= h).
  { apply Rnot_lt_le. intros C. assert (G := gap _ _ Fh FH ltac:(lra) C). assert (Q : h / L <= (1 - u) / 2). { apply Rmult_le_reg_r with L; [lra|]. unfold Rdiv. rewrite Rmult_assoc, Rinv_l by lra. lra. }
    assert (Fq : fmt ((1 - u) / 2)). { replace ((1 - u) / 2) with (IZR 16777215 * bpow radix2 (-25)). apply fmt_F2R; lia. change (-25)%Z with (-24 + -1)%Z. rewrite bpow_plus, <- u_bpow. change (bpow radix2 (-1)) with (/ 2). unfold u. lra. }
    apply (rnd_le_fmt _ _ Fq) in Q. lra. }
  destruct (rnd_minus p (- (L / 2)) Fp (generic_format_opp _ _ _ FH)) as (e & E & Er). fold h in Er. apply Rabs_le_inv in E. apply Rnot_lt_le. intros D.
  destruct (Rle_or_lt 0 (p - - (L / 2))) as [S|S]; [assert (X : h <= (p - - (L / 2)) * (1 + u)) by (rewrite Er; apply Rmult_le_compat_l; lra); nra|].
  assert (h <= 0) by (unfold h; rewrite <- rnd_0; apply rnd_le; lra). lra.
Qed.
Lemma rnd_inside x r : fmt r -> 0 < r -> Rabs (rnd x) < r -> Rabs x < r.
Proof.
  intros F P H. apply Rabs_def2 in H. destruct H as [H1 H2]. apply Rabs_def1.
  - apply Rnot_le_lt. intros C. apply (rnd_ge_fmt _ _ F) in C. lra.
  - apply Rnot_le_lt. intros C. apply (rnd_le_fmt x (- r) (generic_format_opp _ _ _ F)) in C. lra.
Qed.
(** A coordinate and its ghost are never both within the radius. *)
Lemma axis_once (L L' r : f32) (p q g : R) (d : f32) : ordinary_length L -> is L' (val L) -> ordinary_length r -> 2 * val r < val L -> fmt p -> fmt q -> Rabs p <= val L / 2 ->
  is d (rnd (p - - (val L / 2))) -> let s := fghost_dir (fdiv d L) (fdiv r L') in s <> 0%Z -> g = rnd (p + IZR s * val L) ->
  Rabs (rnd (p - q)) < val r -> Rabs (rnd (g - q)) < val r -> False.
Proof.
  intros OL [FL' VL'] Or H2 Fp Fq Bp [Fd Vd] s Ns Eg Hp Hg. assert (P := len_pos r Or). assert (PL := len_pos L OL). assert (U := U0).
  apply (rnd_inside _ _ (fmt_val r) P) in Hp, Hg. apply Rabs_def2 in Hp, Hg. apply Rabs_le_inv in Bp.
  assert (F2 : fmt (2 * val r)) by (apply fmt_twice; apply fmt_val). assert (G := gap _ _ F2 (fmt_val L) PL H2).
  assert (F127 : 2 <= bpow radix2 127) by (change 2 with (bpow radix2 1); apply bpow_le; lia).
  assert (HL60 := proj1 (proj2 OL)).
  assert (Sr : 0 <= val r / val L <= 1 / 2). { split; apply Rmult_le_reg_r with (val L); auto; unfold Rdiv; rewrite (Rmult_assoc (val r)), Rinv_l by lra; lra. }
  destruct (is_div r L' (proj1 Or)) as [Fr Vr]; [lra|rewrite VL'; unfold fits; rewrite Rabs_pos_eq; lra|]. rewrite VL' in Vr.
  assert (B1 : 0 <= val (fdiv r L') <= 1 / 2).
  { rewrite Vr. split; [apply rnd_nonneg; lra|]. replace (1 / 2) with (bpow radix2 (-1)) by (cbn; lra). apply rnd_le_fmt; [apply fmt_bpow; lia|]. cbn. lra. }
  assert (Bd : 0 <= val d <= val L). { rewrite Vd. split; [apply rnd_nonneg; lra|apply rnd_le_fmt; [apply fmt_val|lra]]. }
  assert (Sd : 0 <= val d / val L <= 1). { split; apply Rmult_le_reg_r with (val L); auto; unfold Rdiv; rewrite (Rmult_assoc (val d)), Rinv_l by lra; lra. }
  destruct (is_div d L Fd) as [Ff Vf]; [lra|unfold fits; rewrite Rabs_pos_eq; lra|]. rewrite Vd in Vf.
  destruct (minus64 (fdiv r L') Fr ltac:(lra)) as [F64 V64]. destruct (to64_val (fdiv d L) Ff) as [Ft Vt].
  unfold s, fghost_dir in Ns, Eg. assert (LB := Bleb_correct 24 128 (fdiv d L) (fdiv r L') Ff Fr). rewrite LB in Ns, Eg. rewrite (Bleb_correct 53 1024 _ _ F64 Ft) in Ns, Eg. rewrite V64, Vt in Ns, Eg.
  assert (FL := fmt_val L).
  destruct (Rle_bool_spec (val (fdiv d L)) (val (fdiv r L'))) as [C1|C1]; cbn [bz] in Ns, Eg.
  - assert (Q : p <= u * val L) by (apply low_half; auto; lra).
    destruct (Rle_bool _ _) in Ns, Eg; cbn in Ns, Eg; [congruence|]. rewrite Rmult_1_l in Eg. destruct (Rle_or_lt p 0) as [C|C].
    + destruct (rnd_plus p (val L) Fp FL) as (e & E & Er). apply Rabs_le_inv in E. assert (X : (p + val L) * (1 - u) <= g) by (rewrite Eg, Er; apply Rmult_le_compat_l; lra). nra.
    + assert (X : val L <= g) by (rewrite Eg; apply rnd_ge_fmt; auto; lra). lra.
  - destruct (Rle_bool_spec (round radix2 (SpecFloat.fexp 53 1024) ZnearestE (1 - val (fdiv r L'))) (val (fdiv d L))) as [C2|C2]; cbn in Ns, Eg; [|congruence].
    assert (Q64 : 1 / 2 <= round radix2 (SpecFloat.fexp 53 1024) ZnearestE (1 - val (fdiv r L'))).
    { apply round_ge_generic; [apply (fexp_correct 53 1024); reflexivity|typeclasses eauto| |lra]. replace (1 / 2) with (bpow radix2 (-1)) by (cbn; lra). apply generic_format_bpow. vm_compute. discriminate. }
    assert (Q : - (u * val L) <= p) by (apply high_half; auto; lra). replace (p + -1 * val L) with (p - val L) in Eg by ring. destruct (Rle_or_lt 0 p) as [C|C].
    + destruct (rnd_minus p (val L) Fp FL) as (e & E & Er). apply Rabs_le_inv in E. assert (X : g <= (p - val L) * (1 - u)) by (rewrite Eg, Er; nra). nra.
    + assert (X : g <= - val L) by (rewrite Eg; apply rnd_le_fmt; [apply generic_format_opp; auto|lra]). lra.
Qed.
