(** Completeness, accuracy and uniqueness of CellQuery in boxes without tilt (C84). *)
From Coq Require Import Psatz.
From Flocq Require Import Core.
From Verif Require Import AABBProofs2 F32Proofs F32Proofs4 F32Props Vec FaabbProofs FaabbProofs2 FaabbProps2 FnearProofs FcellSpec FcellProofs2 FcellProofs3 FcellProofs4 CellQueryProofs3 FcqModel FcqProofs FcqProofs2 FcqProofs3 FcqProofs4 FcqSpec.
Open Scope R_scope.

(** * The radius checks *)
Lemma args_val b r_max r_min : plain_box b -> finite r_max = true -> Rabs (val r_max) <= bpow radix2 60 -> finite r_min = true ->
  (fcq_args_ok b r_max r_min = true <-> 2 * val r_max < val (fvx (fL b)) /\ 2 * val r_max < val (fvy (fL b)) /\ (f2d b = false -> 2 * val r_max < val (fvz (fL b))) /\ 0 < val r_max /\ val r_min < val r_max).
Proof.
  intros PB F B Fm. destruct (planes_val b PB) as ([F1 V1] & [F2 V2] & [F3 V3']). destruct (double_exact r_max F B) as [FD VD].
  unfold fcq_args_ok, fpoint_args_ok. cbv zeta. rewrite !Bleb_correct by auto. change (val fzero) with 0. rewrite V1, V2, V3', VD.
  rewrite !Bool.andb_true_iff, !Bool.negb_true_iff, !Bool.orb_false_iff, Bool.andb_false_iff, Bool.negb_false_iff.
  assert (L : forall x y, Rle_bool x y = false <-> y < x) by (intros x y; destruct (Rle_bool_spec x y); split; intros; try discriminate; try lra; auto). rewrite !L.
  destruct (f2d b); intuition (try lra; try discriminate).
Qed.
Lemma point_check b points : plain_box b -> points <> [] -> Forall (in_box b) points -> fnq_ok b points = true.
Proof.
  intros PB HN HI. unfold fnq_ok. apply andb_true_iff. split; [destruct points; [congruence|auto]|]. destruct (f2d b) eqn:ED; auto. cbn [negb orb]. apply forallb_forall. intros p Hp. apply (proj1 (Forall_forall _ _) HI) in Hp. destruct Hp as (_ & _ & Hz). rewrite ED in Hz. destruct Hz as [Fz Bz].
  apply negb_true_iff. assert (T : is (lit 8796093 (-43)) (8796093 * bpow radix2 (-43))).
  { destruct (is_lit 8796093 (-43)) as [F V]. { unfold fits. rewrite Rabs_pos_eq by (apply Rmult_le_pos; [lra|apply bpow_ge_0]). apply Rle_trans with (bpow radix2 24 * bpow radix2 (-43)); [apply Rmult_le_compat_r; [apply bpow_ge_0|]; change (bpow radix2 24) with 16777216; lra|]. rewrite <- bpow_plus. apply bpow_le. lia. } split; [exact F|]. rewrite V. apply rnd_fmt. apply fmt_F2R; lia. }
  destruct T as [FT VT]. rewrite Bltb_correct by (auto; rewrite is_finite_Babs; auto). apply Rlt_bool_false. rewrite VT, B2R_Babs. eapply Rle_trans; [exact Bz|]. change (-20)%Z with (23 + -43)%Z. rewrite bpow_plus. apply Rmult_le_compat_r; [apply bpow_ge_0|]. change (bpow radix2 23) with 8388608. lra.
Qed.

(** * Positions *)
Definition at_site (b : fbox) (p : fvec) (s : Z * Z * Z) : fvec :=
  match s with (0, 0, 0)%Z => p | _ => fvadd p (fnew_site b s) end.
Definition sites (b : fbox) (r : f32) (p : fvec) : list (Z * Z * Z) := fghost_triples b r p ++ [(0, 0, 0)%Z].
Definition dirs (b : fbox) (r : f32) (p : fvec) : Z * Z * Z :=
  let f := ffractional b p in let d := fplanes b in
  (fghost_dir (fvx f) (fdiv r (fvx d)), fghost_dir (fvy f) (fdiv r (fvy d)), if f2d b then 0%Z else fghost_dir (fvz f) (fdiv r (fvz d))).
Lemma sites_spec b r p : let '(dx, dy, dz) := dirs b r p in NoDup (sites b r p) /\
  forall i j k, In (i, j, k) (sites b r p) <-> (i = 0 \/ i = dx)%Z /\ (j = 0 \/ j = dy)%Z /\ (k = 0 \/ k = dz)%Z.
Proof.
  unfold dirs, sites, fghost_triples. cbv zeta. set (dx := fghost_dir (fvx _) _). set (dy := fghost_dir (fvy _) _). set (dz := if f2d b then 0%Z else _).
  destruct (ghost_sites_spec dx dy dz) as [ND IN]; [apply dir_tri|apply dir_tri|unfold dz; destruct (f2d b); [right; left; reflexivity || (unfold tri; lia)|apply dir_tri]|]. clearbody dx dy dz. split.
  - apply AABBProofs2.NoDup_app_intro; auto; [repeat constructor; auto|]. intros x Hx [<-|[]]. apply IN in Hx. tauto.
  - intros i j k. rewrite in_app_iff, IN. cbn [In]. split; [intros [H|[H|[]]]; [tauto|injection H as <- <- <-; auto]|]. intros H. destruct (Z.eq_dec i 0) as [->|Ni]; [destruct (Z.eq_dec j 0) as [->|Nj]; [destruct (Z.eq_dec k 0) as [->|Nk]; [auto|]|]|]; left; (split; [tauto|]); (split; [tauto|]); (split; [tauto|congruence]).
Qed.
Lemma positions_sites b r p : positions b r p = map (at_site b p) (sites b r p).
Proof.
  unfold positions, sites. rewrite map_app. f_equal. apply map_ext_in. intros [[i j] k] H. unfold fghost_triples in H. cbv zeta in H.
  apply ghost_sites_spec in H; [|apply dir_tri|apply dir_tri|destruct (f2d b); [unfold tri; lia|apply dir_tri]].
  unfold at_site. destruct i, j, k; auto. destruct H as (_ & _ & _ & H). congruence.
Qed.
Lemma dirs_small b r p dx dy dz : dirs b r p = (dx, dy, dz) -> (Z.abs dx <= 1 /\ Z.abs dy <= 1 /\ Z.abs dz <= 1)%Z /\ (f2d b = true -> dz = 0%Z).
Proof.
  unfold dirs. cbv zeta. intros E. injection E as <- <- <-. assert (T : forall f fr, (Z.abs (fghost_dir f fr) <= 1)%Z) by (intros f fr; destruct (dir_tri f fr) as [->|[->| ->]]; lia).
  split; [split; [apply T|split; [apply T|destruct (f2d b); [lia|apply T]]]|]. intros ->. reflexivity.
Qed.
Lemma site_small b r p i j k : In (i, j, k) (sites b r p) -> (Z.abs i <= 1)%Z /\ (Z.abs j <= 1)%Z /\ (Z.abs k <= 1)%Z /\ (k <> 0%Z -> f2d b = false).
Proof.
  intros H. assert (S := sites_spec b r p). destruct (dirs b r p) as [[dx dy] dz] eqn:E. apply dirs_small in E as ((A & B & C) & D). destruct S as [_ S]. destruct (proj1 (S i j k) H) as (X1 & X2 & X3).
  split; [lia|]. split; [lia|]. split; [lia|]. intros N. destruct (f2d b); auto. exfalso. assert (dz = 0%Z) by auto. lia.
Qed.
Lemma add_fin (p s : f32) a : finite p = true -> Rabs (val p) <= bpow radix2 60 -> is s a -> Rabs a <= bpow radix2 60 -> is (fadd p s) (rnd (val p + a)).
Proof.
  intros Fp Bp [Fs Vs] Ba. rewrite <- Vs in *. apply is_add; auto. unfold fits. eapply Rle_trans; [apply Rabs_triang|]. apply Rle_trans with (2 * bpow radix2 60); [lra|]. change 2 with (bpow radix2 1). rewrite <- bpow_plus. apply bpow_le. lia.
Qed.
Lemma times_small i L : (Z.abs i <= 1)%Z -> 0 <= L -> Rabs (IZR i * L) <= L.
Proof. intros A P. rewrite Rabs_mult, (Rabs_pos_eq L), <- abs_IZR by auto. apply IZR_le in A. nra. Qed.
Lemma site_at b p i j k : plain_box b -> in_box b p -> (Z.abs i <= 1)%Z -> (Z.abs j <= 1)%Z -> (Z.abs k <= 1)%Z -> (k <> 0%Z -> f2d b = false) ->
  is (fvx (at_site b p (i, j, k))) (rnd (val (fvx p) + IZR i * val (fvx (fL b)))) /\ is (fvy (at_site b p (i, j, k))) (rnd (val (fvy p) + IZR j * val (fvy (fL b)))) /\
  is (fvz (at_site b p (i, j, k))) (rnd (val (fvz p) + IZR k * val (fvz (fL b)))).
Proof.
  intros PB IP Hi Hj Hk H2. assert (OP := in_box_ordinary b p PB IP). destruct OP as ((Fx & Ox) & (Fy & Oy) & (Fz & Oz)).
  assert (X : (i, j, k) = (0, 0, 0)%Z \/ at_site b p (i, j, k) = fvadd p (fnew_site b (i, j, k))) by (destruct i, j, k; auto).
  destruct X as [X|X].
  - injection X as -> -> ->. unfold at_site. rewrite !Rmult_0_l, !Rplus_0_r, !rnd_fmt by apply fmt_val. repeat split; auto.
  - rewrite X. destruct (site_val b i j k PB Hi Hj Hk H2) as (Sx & Sy & Sz). cbn [fvadd fvx fvy fvz]. destruct PB as (Lx & Ly & Lz & _). assert (P := bpow_gt_0 radix2 (-60)). assert (P6 := bpow_gt_0 radix2 60).
    destruct Lx as [_ Lx], Ly as [_ Ly]. assert (Lz' : 0 <= val (fvz (fL b)) <= bpow radix2 60) by (destruct (f2d b); [destruct Lz as [_ ->]|destruct Lz as [_ Lz]]; lra).
    split; [|split]; apply add_fin; auto; (eapply Rle_trans; [apply times_small; auto; lra|lra]).
Qed.
(** The displacement to a position, along one axis. *)
Lemma disp_axis (L p q w : f32) (i : Z) : ordinary_length L -> on_axis L p -> on_axis L q -> (Z.abs i <= 1)%Z -> is w (rnd (val p + IZR i * val L)) ->
  finite (fsub w q) = true /\ val (fsub w q) = rnd (val w - val q) /\ Rabs (val (fsub w q)) <= bpow radix2 62 /\ Rabs (val (fsub w q) - (val p - (val q + IZR (- i) * val L))) <= 4 * u * val L /\ Rabs (val w - (val p + IZR i * val L)) <= 3 / 2 * u * val L.
Proof.
  intros OL [Fp Bp] [Fq Bq] A [Fw Vw]. assert (PL := len_pos L OL). assert (U := U0). destruct OL as [FL [_ HL]]. apply Rabs_le_inv in Bp, Bq.
  assert (T := times_small i (val L) A ltac:(lra)). apply Rabs_le_inv in T.
  assert (Fs : fmt (IZR i * val L)). { assert (C : (i = 0 \/ i = 1 \/ i = -1)%Z) by lia. destruct C as [->|[->| ->]]; [rewrite Rmult_0_l; apply fmt_0|rewrite Rmult_1_l; apply fmt_val|]. replace (-1 * val L) with (- val L) by ring. apply generic_format_opp, fmt_val. }
  destruct (rnd_plus (val p) (IZR i * val L) (fmt_val p) Fs) as (e & E & Er). rewrite Er in Vw. apply Rabs_le_inv in E. set (t := IZR i * val L) in *.
  assert (M1 : - (3 / 2 * val L * u) <= (val p + t) * e <= 3 / 2 * val L * u) by (apply mulb; lra).
  assert (M1' : val w - (val p + t) = (val p + t) * e) by lra.
  assert (B62 : 4 * bpow radix2 60 <= bpow radix2 62) by (change 4 with (bpow radix2 2); rewrite <- bpow_plus; apply bpow_le; lia). assert (B127 := bpow_le radix2 62 127 ltac:(lia)).
  assert (BW : - (7 / 4 * val L) <= val w <= 7 / 4 * val L) by nra.
  destruct (is_sub w q Fw Fq) as [Fd Vd]. { unfold fits. apply Rabs_le. lra. }
  split; auto. split; auto.
  destruct (rnd_minus (val w) (val q) (fmt_val w) (fmt_val q)) as (e' & E' & Er'). apply Rabs_le_inv in E'.
  assert (M2 : - (9 / 4 * val L * u) <= (val w - val q) * e' <= 9 / 4 * val L * u) by (apply mulb; lra).
  assert (M2' : val (fsub w q) = (val w - val q) + (val w - val q) * e') by (rewrite Vd, Er'; ring).
  rewrite opp_IZR. split; [rewrite M2'; apply Rabs_le; nra|]. split; apply Rabs_le; [|lra].
  replace (val p - (val q + - IZR i * val L)) with (val p + t - val q) by (unfold t; ring). nra.
Qed.
Lemma in_box_z b p : in_box b p -> if f2d b then finite (fvz p) = true else on_axis (fvz (fL b)) (fvz p).
Proof. intros (_ & _ & H). destruct (f2d b); auto. apply H. Qed.
Lemma position_disp b p q i j k : plain_box b -> in_box b p -> in_box b q -> in_plane b p -> in_plane b q -> (Z.abs i <= 1)%Z -> (Z.abs j <= 1)%Z -> (Z.abs k <= 1)%Z -> (k <> 0%Z -> f2d b = false) ->
  let w := fvsub (at_site b p (i, j, k)) q in
  fin3 w /\ Rabs (val (fvx w)) <= bpow radix2 62 /\ Rabs (val (fvy w)) <= bpow radix2 62 /\ Rabs (val (fvz w)) <= bpow radix2 62 /\
  norm (rv w - (rv (fflat b p) - moved b q (- i) (- j) (- k)))%V <= 13 * u * box_size b.
Proof.
  intros PB IP IQ NP NQ Hi Hj Hk H2 w. destruct (site_at b p i j k PB IP Hi Hj Hk H2) as (Sx & Sy & Sz). assert (ZP := in_box_z _ _ IP). assert (ZQ := in_box_z _ _ IQ). destruct IP as (Px & Py & _), IQ as (Qx & Qy & _). assert (SP := size_pos b PB).
  destruct PB as (Lx & Ly & Lz & _). assert (U := U0).
  destruct (disp_axis _ _ _ _ i Lx Px Qx Hi Sx) as (F1 & _ & B1 & E1 & _). destruct (disp_axis _ _ _ _ j Ly Py Qy Hj Sy) as (F2 & _ & B2 & E2 & _).
  assert (E3 : finite (fvz w) = true /\ Rabs (val (fvz w)) <= bpow radix2 62 /\ Rabs (val (fvz w) - (val (fvz (fflat b p)) - (val (fvz (fflat b q)) + IZR (- k) * val (fvz (fL b))))) <= 4 * u * val (fvz (fL b))).
  { unfold w, fflat, in_plane in *. cbn [fvsub fvz]. destruct (f2d b).
    - assert (k = 0%Z) by (destruct (Z.eq_dec k 0); auto; specialize (H2 n); discriminate). subst k. rewrite (NP eq_refl), Rmult_0_l, Rplus_0_r, rnd_0 in Sz.
      destruct (sub_zeros (fvz (at_site b p (i, j, 0%Z))) (fvz q) Sz) as [F V]; [split; auto|]. split; auto. rewrite V, Rabs_R0. split; [apply bpow_ge_0|]. destruct Lz as [_ ->]. cbn [fvz]. change (val fzero) with 0. rewrite !Rmult_0_r. replace (0 - (0 - (0 + 0))) with 0 by ring. rewrite Rabs_R0. lra.
    - destruct (disp_axis _ _ _ _ k Lz ZP ZQ Hk Sz) as (F3 & _ & B3 & E3 & _). auto. }
  destruct E3 as (F3 & B3 & E3). split; [split; auto|]. split; auto. split; auto. split; auto.
  eapply Rle_trans; [apply norm_sum|]. unfold moved, rv. assert (XF : forall v, fvx (fflat b v) = fvx v /\ fvy (fflat b v) = fvy v) by (intros v; unfold fflat; destruct (f2d b); auto).
  cbn [vsub vadd vx vy vz]. destruct (XF p) as [-> ->]. destruct (XF q) as [-> ->]. unfold w at 1 2. cbn [fvsub fvx fvy].
  eapply Rle_trans; [apply Rplus_le_compat; [apply Rplus_le_compat; [exact E1|exact E2]|exact E3]|].
  assert (L3 : 0 <= val (fvz (fL b))) by (destruct (f2d b); [destruct Lz as [_ ->]; lra|apply Rlt_le, len_pos; auto]). assert (L1 := len_pos _ Lx). assert (L2 := len_pos _ Ly). unfold box_size. nra.
Qed.

(** * Cells *)
Lemma flat_cell cint (g : fgrid) (r L : f32) : defined_int cint -> ordinary_length r -> is L 0 -> (exists e, Rabs e <= u /\ is (fg_inv g) (/ val r * (1 + e))) -> is (fvz (fg_min g)) (- val r) -> fg_nz g = fgrid_dim cint L (fg_inv g) ->
  exists c, (0 <= c < fg_nz g)%Z /\ forall z, is z 0 -> fcell_along cint g z (fvz (fg_min g)) = c.
Proof.
  intros HC Or HL (e & E & Fi & Vi) Hm Hn. assert (P := len_pos r Or). assert (U := U0). apply Rabs_le_inv in E.
  assert (N3 : fg_nz g = 3%Z).
  { rewrite Hn. unfold fgrid_dim. destruct (F32Props.mul_zero _ _ HL Fi) as [F V]. rewrite ftruncate_val by (auto; rewrite V; lra). rewrite V. replace 0 with (IZR 0) by reflexivity. rewrite Zfloor_IZR, HC by lia. reflexivity. }
  set (Y := rnd (val r * (/ val r * (1 + e)))). assert (Q : val r * (/ val r * (1 + e)) = 1 + e) by (field; lra).
  assert (BY : 0 <= Y < 2).
  { unfold Y. rewrite Q. split; [apply rnd_nonneg; lra|]. apply Rle_lt_trans with 1.5; [|lra]. apply rnd_le_fmt; [|lra]. replace 1.5 with (IZR 3 * bpow radix2 (-1)) by (change (bpow radix2 (-1)) with (/ 2); lra). apply fmt_F2R; lia. }
  exists (Zfloor Y). assert (B2 : (0 <= Zfloor Y < 2)%Z). { split; [apply Zfloor_lub; lra|]. apply lt_IZR. eapply Rle_lt_trans; [apply Zfloor_lb|lra]. } split; [lia|].
  intros z Hz. destruct (sub_zero_l z _ _ Hz Hm) as [Fs Vs]. rewrite Ropp_involutive in Vs. destruct (is_mul _ _ Fs Fi) as [F V].
  { rewrite Vs, Vi, Q. unfold fits. apply Rle_trans with (bpow radix2 1); [change (bpow radix2 1) with 2; apply Rabs_le; lra|apply bpow_le; lia]. }
  rewrite Vs, Vi in V. fold Y in V. unfold fcell_along. rewrite ffloor_val by auto. rewrite V. apply HC. lia.
Qed.
Lemma fin_grid_intro g cx cy cz : (0 <= cx < fg_nx g)%Z -> (0 <= cy < fg_ny g)%Z -> (0 <= cz < fg_nz g)%Z -> fin_grid g (cx, cy, cz) = true.
Proof. intros A B C. unfold fin_grid. apply negb_true_iff. rewrite !orb_false_iff, !Z.ltb_ge, !Z.leb_gt. lia. Qed.

Section Box.
Variables (cint : option Z -> Z) (b : fbox) (r : f32).
Hypothesis HC : defined_int cint.
Hypothesis PB : plain_box b.
Hypothesis FR : fitting_radius b r.
Hypothesis HX : 2 * val r < val (fvx (fL b)).
Hypothesis HY : 2 * val r < val (fvy (fL b)).
Hypothesis HZ : f2d b = false -> 2 * val r < val (fvz (fL b)).
Let g := fsetup_grid cint b r.
Lemma grid_usable : grid_ok g.
Proof.
  destruct FR as (Or & Wx & Wy & Wz). destruct (grid_val cint b r PB Or) as (HI & (Mx & Nx) & (My & Ny) & GZ). fold g in HI, Mx, Nx, My, Ny, GZ. destruct PB as (Lx & Ly & Lz & _).
  destruct (axis_dim cint g _ r (fg_nx g) HC Lx Or ltac:(lra) Wx HI Nx) as [Dx _]. destruct (axis_dim cint g _ r (fg_ny g) HC Ly Or ltac:(lra) Wy HI Ny) as [Dy _].
  split; [lia|]. split; [lia|]. destruct (f2d b).
  - destruct GZ as [Mz Nz]. destruct (flat_cell cint g r _ HC Or Lz HI Mz Nz) as (c & Hc & _). lia.
  - destruct GZ as [Mz Nz]. destruct (axis_dim cint g _ r (fg_nz g) HC Lz Or ltac:(specialize (HZ eq_refl); lra) (Wz eq_refl) HI Nz) as [Dz _]. lia.
Qed.
Lemma point_inside p : in_box b p -> in_plane b p -> fin_grid g (fcell_xyz cint g p) = true.
Proof.
  intros (Px & Py & Pz) NP. destruct FR as (Or & Wx & Wy & Wz). destruct (grid_val cint b r PB Or) as (HI & (Mx & Nx) & (My & Ny) & GZ). fold g in HI, Mx, Nx, My, Ny, GZ. destruct PB as (Lx & Ly & Lz & _).
  unfold fcell_xyz. apply fin_grid_intro; [exact (axis_inside cint g _ r _ _ HC Lx Or ltac:(lra) Wx HI Mx Nx _ Px)|exact (axis_inside cint g _ r _ _ HC Ly Or ltac:(lra) Wy HI My Ny _ Py)|]. unfold in_plane in NP. destruct (f2d b).
  - destruct GZ as [Mz Nz]. destruct (flat_cell cint g r _ HC Or Lz HI Mz Nz) as (c & Hc & E). rewrite E by (split; [apply Pz|auto]). auto.
  - destruct GZ as [Mz Nz]. specialize (HZ eq_refl). exact (axis_inside cint g _ r _ _ HC Lz Or ltac:(lra) (Wz eq_refl) HI Mz Nz _ Pz).
Qed.
Lemma component_norm v : Rabs (vx v) <= norm v /\ Rabs (vy v) <= norm v /\ Rabs (vz v) <= norm v.
Proof.
  unfold norm. assert (SQ : forall x s, x * x <= s -> Rabs x <= sqrt s) by (intros x s H; rewrite <- sqrt_Rsqr_abs; apply sqrt_le_1_alt; unfold Rsqr; auto). unfold dot. split; [|split]; apply SQ; nra.
Qed.
Lemma fraction_form p : in_box b p -> exists dx dy dz, fvx (ffractional b p) = fdiv dx (fvx (fL b)) /\ is dx (rnd (val (fvx p) - - (val (fvx (fL b)) / 2))) /\
  fvy (ffractional b p) = fdiv dy (fvy (fL b)) /\ is dy (rnd (val (fvy p) - - (val (fvy (fL b)) / 2))) /\
  (f2d b = false -> fvz (ffractional b p) = fdiv dz (fvz (fL b)) /\ is dz (rnd (val (fvz p) - - (val (fvz (fL b)) / 2)))).
Proof.
  intros IP. assert (OP := in_box_ordinary b p PB IP). destruct PB as (Lx & Ly & Lz & Txy & Txz & Tyz). destruct OP as (Vx & Vy & Vz). assert (Fvy := proj1 Vy). assert (Fvz := proj1 Vz).
  assert (T : is (fadd (fmul (fsub (fxz b) (fmul (fyz b) (fxy b))) (fvz p)) (fmul (fxy b) (fvy p))) 0).
  { apply add_zeros; [|now apply F32Props.mul_zero]. apply F32Props.mul_zero; [|exact Fvz]. apply sub_zeros; [exact Txz|]. apply F32Props.mul_zero; [exact Tyz|apply Txy]. }
  destruct (delta_ok _ _ _ Lx Vx T) as [Ex _]. destruct (delta_ok _ _ _ Ly Vy (F32Props.mul_zero _ _ Tyz Fvz)) as [Ey _].
  eexists. eexists. exists (fsub (fvz p) (flo (fvz (fL b)))). unfold ffractional. cbn [fvx fvy fvz]. split; [reflexivity|]. split; [exact Ex|]. split; [reflexivity|]. split; [exact Ey|]. intros E2. rewrite E2 in *. split; [reflexivity|]. apply (delta_ok _ _ fzero Lz Vz (conj eq_refl eq_refl)).
Qed.
(** What is clearly within the radius has a position, and it is seen. *)
Lemma seen_site p q i j k : in_box b p -> in_box b q -> in_plane b p -> in_plane b q -> (f2d b = true -> k = 0%Z) ->
  exact_distance b p q i j k + cell_uncertainty b (exact_distance b p q i j k) <= val r ->
  In (- i, - j, - k)%Z (sites b r p) /\ seen cint g q (at_site b p (- i, - j, - k)%Z) = true.
Proof.
  intros IP IQ NP NQ K2 HD. set (D := exact_distance b p q i j k) in *. assert (D0 : 0 <= D) by apply norm_nonneg. assert (SP := size_pos b PB). assert (U := U0).
  destruct (component_norm (rv (fflat b p) - moved b q i j k)%V) as (X1 & X2 & X3). fold (exact_distance b p q i j k) in X1, X2, X3. fold D in X1, X2, X3.
  unfold moved, rv in X1, X2, X3. cbn [vsub vadd vx vy vz] in X1, X2, X3. assert (XF : forall v, fvx (fflat b v) = fvx v /\ fvy (fflat b v) = fvy v) by (intros v; unfold fflat; destruct (f2d b); auto).
  destruct (XF p) as [Pa Pb]. destruct (XF q) as [Qa Qb]. rewrite Pa, Qa in X1. rewrite Pb, Qb in X2. clear XF Pa Pb Qa Qb.
  assert (BS : D + 32 * u * box_size b <= val r). { assert (P := bpow_gt_0 radix2 (-70)). unfold cell_uncertainty in HD. nra. }
  destruct (planes_val b PB) as (V1 & V2 & V3'). destruct (fraction_form p IP) as (dx & dy & dz & Ex & Ix & Ey & Iy & Iz).
  destruct FR as (Or & Wx & Wy & Wz). destruct (grid_val cint b r PB Or) as (HI & (Mx & Nx) & (My & Ny) & GZ). fold g in HI, Mx, Nx, My, Ny, GZ. assert (PB' := PB). destruct PB' as (Lx & Ly & Lz & _).
  assert (L3 : 0 <= val (fvz (fL b))) by (destruct (f2d b); [destruct Lz as [_ ->]; lra|apply Rlt_le, len_pos; auto]). assert (L1 := len_pos _ Lx). assert (L2 := len_pos _ Ly).
  assert (Bx : D + 32 * u * val (fvx (fL b)) <= val r) by (unfold box_size in BS; nra). assert (By : D + 32 * u * val (fvy (fL b)) <= val r) by (unfold box_size in BS; nra). assert (Bz : D + 32 * u * val (fvz (fL b)) <= val r) by (unfold box_size in BS; nra).
  assert (IP' := IP). assert (IQ' := IQ). destruct IP' as (Px & Py & Pz), IQ' as (Qx & Qy & Qz).
  destruct (frac_axis _ _ _ Lx Px Ix) as (F1 & _ & A1). destruct (frac_axis _ _ _ Ly Py Iy) as (F2 & _ & A2). rewrite <- Ex in F1, A1. rewrite <- Ey in F2, A2.
  destruct (axis_ghost _ _ r _ _ _ i D Lx V1 Or ltac:(lra) Px Qx F1 A1 X1 ltac:(nra)) as [G1 S1]. destruct (axis_ghost _ _ r _ _ _ j D Ly V2 Or ltac:(lra) Py Qy F2 A2 X2 ltac:(nra)) as [G2 S2].
  assert (G3 : (k = 0 \/ - k = snd (dirs b r p))%Z /\ (Z.abs k <= 1)%Z).
  { unfold dirs, fflat in *. cbn [snd]. destruct (f2d b).
    - specialize (K2 eq_refl). lia.
    - destruct (Iz eq_refl) as [Ez Iz']. destruct (frac_axis _ _ _ Lz Pz Iz') as (F3 & _ & A3). rewrite <- Ez in F3, A3. specialize (HZ eq_refl). apply (axis_ghost _ _ r _ _ _ k D Lz V3' Or ltac:(lra) Pz Qz F3 A3 X3 ltac:(nra)). }
  destruct G3 as [G3 S3]. assert (H2k : (- k)%Z <> 0%Z -> f2d b = false) by (intros N; destruct (f2d b); auto; specialize (K2 eq_refl); lia).
  split.
  - assert (S := sites_spec b r p). unfold dirs in S, G3. cbv zeta in S, G3. cbn [snd] in G3. destruct S as [_ S]. apply S. split; [lia|]. split; [lia|]. destruct G3 as [->|G3]; [left; reflexivity|right; exact G3].
  - destruct (site_at b p (- i) (- j) (- k) PB IP ltac:(lia) ltac:(lia) ltac:(lia) H2k) as (Sx & Sy & Sz). set (w := at_site b p _) in *.
    assert (NE : forall (L pp qq ww : f32) (s : Z), ordinary_length L -> on_axis L pp -> on_axis L qq -> (Z.abs s <= 1)%Z -> is ww (rnd (val pp + IZR (- s) * val L)) -> Rabs (val pp - (val qq + IZR s * val L)) <= D -> D + 32 * u * val L <= val r -> Rabs (val ww - val qq) + 17 * u * val L <= val r).
    { intros L pp qq ww s OL Op Oq As Sw XD BD. destruct (disp_axis L pp qq ww (- s) OL Op Oq ltac:(lia) Sw) as (_ & _ & _ & _ & EW). rewrite opp_IZR in EW. apply Rabs_le_inv in EW, XD. assert (PL := len_pos L OL).
      assert (Q : Rabs (val ww - val qq) <= D + 3 / 2 * u * val L) by (apply Rabs_le; nra). nra. }
    assert (NX := NE _ _ _ _ _ Lx Px Qx S1 Sx X1 Bx). assert (NY := NE _ _ _ _ _ Ly Py Qy S2 Sy X2 By).
    assert (RB : forall L x, on_axis L x -> - (val L / 2) <= val x <= val L / 2) by (intros L x [_ H]; apply Rabs_le_inv in H; auto).
    destruct (axis_touch cint g _ r (fvx (fg_min g)) (fg_nx g) HC Lx Or ltac:(lra) Wx HI Mx Nx (fvx q) (fvx w) (proj1 Qx) (proj1 Sx) (RB _ _ Qx) NX) as (C1 & C1' & T1).
    destruct (axis_touch cint g _ r (fvy (fg_min g)) (fg_ny g) HC Ly Or ltac:(lra) Wy HI My Ny (fvy q) (fvy w) (proj1 Qy) (proj1 Sy) (RB _ _ Qy) NY) as (C2 & C2' & T2).
    assert (T3 : (0 <= fcell_along cint g (fvz w) (fvz (fg_min g)) < fg_nz g)%Z /\ (Z.abs (fcell_along cint g (fvz q) (fvz (fg_min g)) - fcell_along cint g (fvz w) (fvz (fg_min g))) <= 1)%Z).
    { unfold in_plane, fflat in *. destruct (f2d b).
      - destruct GZ as [Mz Nz]. destruct (flat_cell cint g r _ HC Or Lz HI Mz Nz) as (c & Hc & E). rewrite (K2 eq_refl) in Sz. cbn [Z.opp] in Sz. rewrite Rmult_0_l, Rplus_0_r, (NP eq_refl), rnd_0 in Sz.
        rewrite (E (fvz w) Sz), (E (fvz q)) by (split; [apply Qz|auto]). split; [auto|]. rewrite Z.sub_diag. cbn. lia.
      - destruct GZ as [Mz Nz]. specialize (HZ eq_refl). assert (NZ := NE _ _ _ _ _ Lz Pz Qz S3 Sz X3 Bz).
        destruct (axis_touch cint g _ r (fvz (fg_min g)) (fg_nz g) HC Lz Or ltac:(lra) (Wz eq_refl) HI Mz Nz (fvz q) (fvz w) (proj1 Qz) (proj1 Sz) (RB _ _ Qz) NZ) as (C3 & C3' & T3). auto. }
    destruct T3 as [C3 T3]. unfold seen, fcell_xyz. rewrite fin_grid_intro by auto. cbn [andb touching]. rewrite !Bool.andb_true_iff, !Z.leb_le. auto.
Qed.
(** * Once *)
Lemma square_less (x c : f32) : finite x = true -> finite c = true -> 0 < val c -> val x * val x < val c * val c -> Rabs (val x) < val c.
Proof. intros _ _ P H. apply Rnot_le_lt. intros C. assert (Q : Rabs (val x) * Rabs (val x) = val x * val x) by (rewrite <- Rabs_mult; apply Rabs_pos_eq; nra). nra. Qed.
Lemma norm2_less (w : fvec) (c : f32) : fin3 w -> Rabs (val (fvx w)) <= bpow radix2 62 -> Rabs (val (fvy w)) <= bpow radix2 62 -> Rabs (val (fvz w)) <= bpow radix2 62 -> ordinary_length c ->
  Bltb (fnorm2 w) (fmul c c) = true -> Rabs (val (fvx w)) < val c /\ Rabs (val (fvy w)) < val c /\ Rabs (val (fvz w)) < val c.
Proof.
  intros FW Bx By Bz Oc H. destruct (norm2_val w FW Bx By Bz) as (Fn & Pn & _). destruct (radius_val c Oc) as (Fm & PC & _). rewrite Bltb_correct in H by auto. destruct (Rlt_bool_spec (val (fnorm2 w)) (val (fmul c c))) as [H'|]; [clear H; rename H' into H|discriminate].
  destruct FW as (Fx & Fy & Fz). destruct (square_val _ Fx Bx) as (Gx & Px & _). destruct (square_val _ Fy By) as (Gy & Py & _). destruct (square_val _ Fz Bz) as (Gz & Pz & _).
  assert (VX := proj2 (fmul_val _ _ Fx Fx) Gx). assert (VY := proj2 (fmul_val _ _ Fy Fy) Gy). assert (VZ := proj2 (fmul_val _ _ Fz Fz) Gz). assert (VC := proj2 (fmul_val _ _ (proj1 Oc) (proj1 Oc)) Fm).
  assert (SQ : forall x : f32, finite x = true -> rnd (val x * val x) < val (fmul c c) -> Rabs (val x) < val c).
  { intros x F L. apply square_less; auto; [apply Oc|]. apply Rnot_le_lt. intros C. apply rnd_le in C. rewrite VC in L. lra. }
  unfold fnorm2 in *. set (A := fmul (fvx w) (fvx w)) in *. set (B := fmul (fvy w) (fvy w)) in *. set (C := fmul (fvz w) (fvz w)) in *.
  assert (N : bpow radix2 127 = 8 * bpow radix2 124) by (change 127%Z with (3 + 124)%Z; rewrite bpow_plus; reflexivity). assert (P124 := bpow_gt_0 radix2 124).
  destruct (is_add A B Gx Gy) as [F1 V1]; [unfold fits; rewrite Rabs_pos_eq; lra|]. assert (V2 := proj2 (fadd_val (fadd A B) C F1 Gz) Fn).
  assert (A1 : val A <= val (fadd A B)) by (rewrite V1; apply rnd_ge_fmt; [apply fmt_val|lra]). assert (A2 : val B <= val (fadd A B)) by (rewrite V1; apply rnd_ge_fmt; [apply fmt_val|lra]).
  assert (A3 : val (fadd A B) <= val (fadd (fadd A B) C)) by (rewrite V2; apply rnd_ge_fmt; [apply fmt_val|lra]). assert (A4 : val C <= val (fadd (fadd A B) C)) by (rewrite V2; apply rnd_ge_fmt; [apply fmt_val|lra]).
  split; [apply SQ; auto; lra|]. split; apply SQ; auto; lra.
Qed.
Lemma site_once p q s s' r_min qi excl j : in_box b p -> in_box b q -> in_plane b p -> in_plane b q -> In s (sites b r p) -> In s' (sites b r p) ->
  site_bond q qi r r_min excl j (at_site b p s) <> [] -> site_bond q qi r r_min excl j (at_site b p s') <> [] -> s = s'.
Proof.
  intros IP IQ NP NQ Hs Hs' B B'. destruct s as [[i1 j1] k1], s' as [[i2 j2] k2]. assert (T := site_small _ _ _ _ _ _ Hs). assert (T' := site_small _ _ _ _ _ _ Hs'). destruct T as (A1 & A2 & A3 & A4), T' as (A1' & A2' & A3' & A4').
  assert (LT : forall w, site_bond q qi r r_min excl j w <> [] -> Bltb (fnorm2 (fvsub w q)) (fmul r r) = true).
  { intros w. unfold site_bond. destruct (excl && (j =? qi)%nat)%bool; [congruence|]. cbv zeta. destruct (Bltb _ _); auto; cbn [andb]; congruence. }
  apply LT in B, B'. clear LT. assert (Or : ordinary_length r) by apply FR.
  destruct (position_disp b p q i1 j1 k1 PB IP IQ NP NQ A1 A2 A3 A4) as (F1 & X1 & Y1 & Z1 & _). destruct (position_disp b p q i2 j2 k2 PB IP IQ NP NQ A1' A2' A3' A4') as (F2 & X2 & Y2 & Z2 & _).
  destruct (norm2_less _ _ F1 X1 Y1 Z1 Or B) as (C1 & C2 & C3). destruct (norm2_less _ _ F2 X2 Y2 Z2 Or B') as (C1' & C2' & C3'). clear X1 Y1 Z1 X2 Y2 Z2 B B' F1 F2.
  destruct (site_at b p i1 j1 k1 PB IP A1 A2 A3 A4) as (S1 & S2 & S3). destruct (site_at b p i2 j2 k2 PB IP A1' A2' A3' A4') as (S1' & S2' & S3').
  destruct (planes_val b PB) as (V1 & V2 & V3'). destruct (fraction_form p IP) as (dx & dy & dz & Ex & Ix & Ey & Iy & Iz).
  assert (S := sites_spec b r p). unfold dirs in S. cbv zeta in S. destruct S as [_ S]. apply S in Hs, Hs'. clear S.
  set (w1 := at_site b p (i1, j1, k1)) in *. set (w2 := at_site b p (i2, j2, k2)) in *.
  assert (ZP := in_box_z _ _ IP). assert (ZQ := in_box_z _ _ IQ). destruct IP as (Px & Py & _), IQ as (Qx & Qy & _). destruct PB as (Lx & Ly & Lz & _).
  cbn [fvsub fvx fvy fvz] in C1, C2, C3, C1', C2', C3'. clearbody w1 w2.
  assert (AX : forall (L L' pp qq wa wb d : f32) (a a' : Z), ordinary_length L -> is L' (val L) -> 2 * val r < val L -> on_axis L pp -> on_axis L qq -> is d (rnd (val pp - - (val L / 2))) ->
    (Z.abs a <= 1)%Z -> (Z.abs a' <= 1)%Z -> (a = 0 \/ a = fghost_dir (fdiv d L) (fdiv r L'))%Z -> (a' = 0 \/ a' = fghost_dir (fdiv d L) (fdiv r L'))%Z -> is wa (rnd (val pp + IZR a * val L)) -> is wb (rnd (val pp + IZR a' * val L)) ->
    Rabs (val (fsub wa qq)) < val r -> Rabs (val (fsub wb qq)) < val r -> a = a').
  { intros L L' pp qq wa wb d a a' OL HL' HL Op Oq Hd Ha Ha' D D' Iw Iw' G G'. destruct (Z.eq_dec a a') as [|N]; auto. exfalso.
    destruct (disp_axis L pp qq wa a OL Op Oq Ha Iw) as (_ & Ew & _). destruct (disp_axis L pp qq wb a' OL Op Oq Ha' Iw') as (_ & Ew' & _). rewrite Ew in G. rewrite Ew' in G'. destruct Iw as [_ Iw], Iw' as [_ Iw']. rewrite Iw in G. rewrite Iw' in G'.
    destruct Op as [Fpp Bpp]. assert (E0 : rnd (val pp + IZR 0 * val L) = val pp) by (rewrite Rmult_0_l, Rplus_0_r; apply rnd_fmt, fmt_val).
    destruct (Z.eq_dec a 0) as [Ea|Na].
    - subst a. destruct D' as [D'|D']; [congruence|]. rewrite E0 in G. apply (axis_once L L' r (val pp) (val qq) (rnd (val pp + IZR a' * val L)) d OL HL' Or HL (fmt_val _) (fmt_val _) Bpp Hd); auto; rewrite <- D'; auto.
    - destruct D as [D|D]; [congruence|]. destruct D' as [D'|D']; [|congruence]. subst a'. rewrite E0 in G'. apply (axis_once L L' r (val pp) (val qq) (rnd (val pp + IZR a * val L)) d OL HL' Or HL (fmt_val _) (fmt_val _) Bpp Hd); auto; rewrite <- D; auto. }
  rewrite Ex, Ey in Hs, Hs'. destruct Hs as (D1 & D2 & D3), Hs' as (D1' & D2' & D3').
  assert (E1 : i1 = i2) by exact (AX _ _ (fvx p) (fvx q) (fvx w1) (fvx w2) dx i1 i2 Lx V1 HX Px Qx Ix A1 A1' D1 D1' S1 S1' C1 C1'). assert (E2 : j1 = j2) by exact (AX _ _ (fvy p) (fvy q) (fvy w1) (fvy w2) dy j1 j2 Ly V2 HY Py Qy Iy A2 A2' D2 D2' S2 S2' C2 C2').
  assert (E3 : k1 = k2). { destruct (f2d b); [lia|]. destruct (Iz eq_refl) as [Ez Iz']. rewrite Ez in D3, D3'. exact (AX _ _ (fvz p) (fvz q) (fvz w1) (fvz w2) dz k1 k2 Lz V3' (HZ eq_refl) ZP ZQ Iz' A3 A3' D3 D3' S3 S3' C3 C3'). }
  congruence.
Qed.
End Box.
