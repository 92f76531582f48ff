(** C84: CellQuery in single precision. *)
From Coq Require Import Psatz.
From Flocq Require Import Core.
From Verif Require Import NListProofs AABBProofs2 F32Proofs F32Props Vec FaabbProofs FaabbProofs2 FaabbSpec FaabbProps FaabbProps2 FnearProofs FnearProps FcellSpec FcellProofs2 FcellProofs3 FcellProofs4 FcellProps FcqModel FcqProofs FcqProofs2 FcqProofs3 FcqProofs4 FcqProofs5 FcqSpec.
Open Scope R_scope.

(** * Any input *)
(** Whatever the numbers (infinities and NaN included) and whatever a float becomes as an int: once the grid has cells, a query has exactly
    one outcome. It is an exception if no position of a point lies in the grid, nothing if the query point lies outside the grid,
    and otherwise, up to order, the search over all positions of all points in touching cells: no read out of bounds, no pair lost
    or repeated by the counting sort, the tags or the iteration. *)
Theorem C84_search cint b points q qi r_max r_min excl : (Z.of_nat (length points) <= 2 ^ 31)%Z -> fnq_ok b points = true -> fcq_args_ok b r_max r_min = true ->
  grid_ok (fsetup_grid cint b r_max) -> let g := fsetup_grid cint b r_max in
  let stored := exists j p, (j < length points)%nat /\ In p (positions b r_max (nth j points fv0)) /\ fin_grid g (fcell_xyz cint g p) = true in
  exists res, (forall res', fcq_ball cint b points q qi r_max r_min excl res' <-> res' = res) /\
  match res with
  | None => ~ stored
  | Some l => stored /\ if fin_grid g (fcell_xyz cint g q) then Permutation l (cell_search cint b points q qi r_max r_min excl) else l = []
  end.
Proof.
  intros HN HO HA HG g stored. assert (HP : points <> []) by (intros ->; discriminate).
  assert (Hr : Bleb r_max fzero = false).
  { unfold fcq_args_ok, fpoint_args_ok in HA. cbv zeta in HA. apply andb_prop in HA as [_ HA]. apply andb_prop in HA as [HA _]. apply negb_true_iff in HA. auto. }
  destruct (fcq_visit cint b points r_max q qi r_max r_min excl Hr HG HN) as (cg & EB & EG & HBuf & _). rewrite EG in HBuf.
  destruct (fcg_buf cg) as [|t buf] eqn:EF.
  - exists None. split.
    + intros res'. unfold fcq_ball. rewrite HO, HA, EB. cbn [andb]. unfold fcq_single. rewrite HA, EF. reflexivity.
    + intros (j & p & Hj & Hp & Gp). assert (E := proj1 HBuf eq_refl j p Hj Hp). unfold fcell_safe in E. cbv zeta in E. unfold g in Gp. rewrite Gp in E. discriminate.
  - assert (ST : stored).
    { destruct (Classical_Prop.classic stored) as [|N]; auto. exfalso. assert (X : t :: buf = []); [|discriminate]. apply HBuf. intros j p Hj Hp. unfold fcell_safe. cbv zeta. fold g. destruct (fin_grid g (fcell_xyz cint g p)) eqn:E; auto. exfalso. apply N. exists j, p. auto. }
    destruct (fcq_outcome cint b points q qi r_max r_min excl HP HN HO HA HG ST) as (l & U & P). exists (Some l). auto.
Qed.
(** The bonds of a point depend on that point and the query point only: other points, whatever they are, cannot disturb them. *)
Definition bonds_of (j : nat) (l : list fbond) : list fbond := filter (fun x => Nat.eqb (fb_p x) j) l.
Lemma bond_index q qi r_max r_min excl j p x : In x (site_bond q qi r_max r_min excl j p) -> fb_p x = j /\ fb_q x = qi.
Proof. unfold site_bond. destruct (excl && _)%bool; [intros []|]. cbv zeta. destruct (_ && _)%bool; [intros [<-|[]]; auto|intros []]. Qed.
Definition seen_bonds cint b q qi r_max r_min excl j pj : list fbond :=
  flat_map (fun p => if seen cint (fsetup_grid cint b r_max) q p then site_bond q qi r_max r_min excl j p else []) (positions b r_max pj).
Lemma seen_bonds_index cint b q qi r_max r_min excl j pj x : In x (seen_bonds cint b q qi r_max r_min excl j pj) -> fb_p x = j /\ fb_q x = qi.
Proof. unfold seen_bonds. intros H. apply in_flat_map in H as (p & _ & H). destruct (seen _ _ _ _); [eapply bond_index; eauto|destruct H]. Qed.
Lemma filter_all {A} (f : A -> bool) l : (forall x, In x l -> f x = true) -> filter f l = l.
Proof. induction l as [|x l IH]; intros H; auto. cbn [filter]. rewrite H by (left; auto). f_equal. apply IH. intros y Hy. apply H. right. auto. Qed.
Lemma filter_none {A} (f : A -> bool) l : (forall x, In x l -> f x = false) -> filter f l = [].
Proof. induction l as [|x l IH]; intros H; auto. cbn [filter]. rewrite H by (left; auto). apply IH. intros y Hy. apply H. right. auto. Qed.
Lemma filter_flat_map {A B} (f : B -> bool) (h : A -> list B) l : filter f (flat_map h l) = flat_map (fun a => filter f (h a)) l.
Proof. induction l; auto. cbn [flat_map]. rewrite filter_app. f_equal. auto. Qed.
Lemma flat_map_single {B} (h : nat -> list B) n j : (j < n)%nat -> (forall i, (i < n)%nat -> i <> j -> h i = []) -> flat_map h (seq 0 n) = h j.
Proof.
  intros Hj H. replace n with (j + S (n - S j))%nat by lia. rewrite seq_app, flat_map_app. cbn [plus seq flat_map].
  assert (X : forall a m, (forall i, (a <= i < a + m)%nat -> h i = []) -> flat_map h (seq a m) = []). { intros a m. revert a. induction m as [|m IH]; intros a Ha; auto. cbn [seq flat_map]. rewrite Ha by lia. apply IH. intros. apply Ha. lia. }
  rewrite (X 0%nat j), (X (S j)), app_nil_r; auto; intros; apply H; lia.
Qed.
Lemma search_of cint b points q qi r_max r_min excl j : (j < length points)%nat -> bonds_of j (cell_search cint b points q qi r_max r_min excl) = seen_bonds cint b q qi r_max r_min excl j (nth j points fv0).
Proof.
  intros Hj. unfold bonds_of, cell_search. rewrite filter_flat_map. rewrite (flat_map_single _ _ j Hj).
  - apply filter_all. intros x Hx. apply (seen_bonds_index cint b q qi r_max r_min excl j) in Hx as [-> _]. apply Nat.eqb_refl.
  - intros i Hi N. apply filter_none. intros x Hx. apply (seen_bonds_index cint b q qi r_max r_min excl i) in Hx as [-> _]. apply Nat.eqb_neq. auto.
Qed.
Lemma perm_filter {A} (f : A -> bool) l l' : Permutation l l' -> Permutation (filter f l) (filter f l').
Proof. induction 1; cbn [filter]; auto; [destruct (f x); auto|destruct (f x), (f y); auto; constructor|eapply Permutation_trans; eauto]. Qed.
Lemma found_of cint b points q qi r_max r_min excl l j : (Z.of_nat (length points) <= 2 ^ 31)%Z -> grid_ok (fsetup_grid cint b r_max) -> fcq_ball cint b points q qi r_max r_min excl (Some l) -> (j < length points)%nat ->
  Permutation (bonds_of j l) (if fin_grid (fsetup_grid cint b r_max) (fcell_xyz cint (fsetup_grid cint b r_max) q) then seen_bonds cint b q qi r_max r_min excl j (nth j points fv0) else []).
Proof.
  intros HN HG H Hj. assert (H' := H). unfold fcq_ball in H'. destruct (fnq_ok b points) eqn:HO; [|discriminate]. destruct (fcq_args_ok b r_max r_min) eqn:HA; [|discriminate]. clear H'.
  destruct (C84_search cint b points q qi r_max r_min excl HN HO HA HG) as (res & U & M). apply U in H. subst res. destruct M as [_ M].
  destruct (fin_grid _ _); [|subst l; constructor]. rewrite <- search_of by auto. apply perm_filter. auto.
Qed.
Theorem C84_local cint b points points' q qi r_max r_min excl l l' j : (Z.of_nat (length points) <= 2 ^ 31)%Z -> (Z.of_nat (length points') <= 2 ^ 31)%Z -> grid_ok (fsetup_grid cint b r_max) ->
  fcq_ball cint b points q qi r_max r_min excl (Some l) -> fcq_ball cint b points' q qi r_max r_min excl (Some l') ->
  (j < length points)%nat -> (j < length points')%nat -> nth j points fv0 = nth j points' fv0 -> Permutation (bonds_of j l) (bonds_of j l').
Proof.
  intros HN HN' HG H H' Hj Hj' E. eapply Permutation_trans; [exact (found_of _ _ _ _ _ _ _ _ _ _ HN HG H Hj)|]. apply Permutation_sym. rewrite E. exact (found_of _ _ _ _ _ _ _ _ _ _ HN' HG H' Hj').
Qed.
(** A point with an infinite or undefined coordinate is never reported. *)
Lemma fin_sub_l (x y : f32) : finite (fsub x y) = true -> finite x = true.
Proof. destruct x as [s|s| |s m e h], y as [s'|s'| |s' m' e' h']; cbn; auto; try discriminate; destruct s, s'; cbn; discriminate || auto. Qed.
Lemma fin_add_l (x y : f32) : finite (fadd x y) = true -> finite x = true.
Proof. destruct x as [s|s| |s m e h], y as [s'|s'| |s' m' e' h']; cbn; auto; try discriminate; destruct s, s'; cbn; discriminate || auto. Qed.
Lemma fin_add_r (x y : f32) : finite (fadd x y) = true -> finite y = true.
Proof. destruct x as [s|s| |s m e h], y as [s'|s'| |s' m' e' h']; cbn; auto; try discriminate; destruct s, s'; cbn; discriminate || auto. Qed.
Lemma fin_sq (x : f32) : finite (fmul x x) = true -> finite x = true.
Proof. destruct x as [s|s| |s m e h]; cbn; auto. Qed.
Lemma bond_finite q qi r_max r_min excl j p : site_bond q qi r_max r_min excl j p <> [] -> fin3 p.
Proof.
  unfold site_bond. destruct (excl && _)%bool; [congruence|]. cbv zeta. destruct (Bltb (fnorm2 (fvsub p q)) (fmul r_max r_max)) eqn:E; [|cbn [andb]; congruence]. intros _.
  assert (F : finite (fnorm2 (fvsub p q)) = true). { apply up_lt with (fmul r_max r_max); auto. unfold fnorm2. apply up_add; [apply up_add|]; apply up_sq. }
  unfold fnorm2 in F. assert (F1 := fin_add_l _ _ F). assert (F2 := fin_add_r _ _ F). assert (F3 := fin_add_l _ _ F1). assert (F4 := fin_add_r _ _ F1). apply fin_sq in F2, F3, F4. cbn [fvsub fvx fvy fvz] in *.
  split; [exact (fin_sub_l _ _ F3)|]. split; [exact (fin_sub_l _ _ F4)|exact (fin_sub_l _ _ F2)].
Qed.
Theorem C84_undefined cint b points q qi r_max r_min excl l : (Z.of_nat (length points) <= 2 ^ 31)%Z -> grid_ok (fsetup_grid cint b r_max) -> fcq_ball cint b points q qi r_max r_min excl (Some l) ->
  forall x, In x l -> (fb_p x < length points)%nat /\ fin3 (nth (fb_p x) points fv0).
Proof.
  intros HN HG H x Hx. assert (H' := H). unfold fcq_ball in H'. destruct (fnq_ok b points) eqn:HO; [|discriminate]. destruct (fcq_args_ok b r_max r_min) eqn:HA; [|discriminate]. clear H'.
  destruct (C84_search cint b points q qi r_max r_min excl HN HO HA HG) as (res & U & M). apply U in H. subst res. destruct M as [_ M]. destruct (fin_grid _ _); [|subst l; destruct Hx].
  apply (Permutation_in _ M) in Hx. unfold cell_search in Hx. apply in_flat_map in Hx as (j & Hj & Hx). apply in_seq in Hj. apply in_flat_map in Hx as (p & Hp & Hx). destruct (seen _ _ _ _); [|destruct Hx].
  destruct (bond_index _ _ _ _ _ _ _ _ Hx) as [-> _]. split; [lia|]. assert (FP : fin3 p) by (apply (bond_finite q qi r_max r_min excl j); intros E; rewrite E in Hx; destruct Hx).
  unfold positions in Hp. apply in_app_or in Hp as [Hp|[<-|[]]]; auto. apply in_map_iff in Hp as (s & <- & _). destruct FP as (A & B & C). cbn [fvadd fvx fvy fvz] in *. split; [exact (fin_add_l _ _ A)|]. split; [exact (fin_add_l _ _ B)|exact (fin_add_l _ _ C)].
Qed.

(** * Boxes without tilt *)
(** Which queries are refused. *)
Theorem C84_refused cint b points q qi r_max r_min excl : defined_int cint -> plain_box b -> points <> [] -> Forall (in_box b) points -> Forall (in_plane b) points -> (Z.of_nat (length points) <= 2 ^ 31)%Z ->
  fitting_radius b r_max -> finite r_min = true ->
  (fcq_ball cint b points q qi r_max r_min excl None <->
   val r_max <= val r_min \/ val (fvx (fL b)) <= 2 * val r_max \/ val (fvy (fL b)) <= 2 * val r_max \/ (f2d b = false /\ val (fvz (fL b)) <= 2 * val r_max)).
Proof.
  intros HC PB HP HI HL HN FR Fm. assert (Or := proj1 FR). assert (PR := len_pos _ Or). destruct Or as [FM [_ BM]]. assert (BM' : Rabs (val r_max) <= bpow radix2 60) by (rewrite Rabs_pos_eq; lra). assert (A := args_val b r_max r_min PB FM BM' Fm).
  destruct (fcq_args_ok b r_max r_min) eqn:HA.
  - destruct (proj1 A eq_refl) as (A1 & A2 & A3 & _ & A5). split.
    + intros H. exfalso. assert (HO := point_check b points PB HP HI). assert (HG := grid_usable cint b r_max HC PB FR A1 A2 A3).
      destruct (C84_search cint b points q qi r_max r_min excl HN HO HA HG) as (res & U & M). apply U in H. subst res. apply M. exists 0%nat, (nth 0 points fv0). assert (L0 : (0 < length points)%nat) by (destruct points; [congruence|cbn; lia]).
      assert (I0 := nth_In points fv0 L0). split; auto. split; [unfold positions; apply in_or_app; right; left; auto|]. apply point_inside; auto; [apply (proj1 (Forall_forall _ _) HI); auto|apply (proj1 (Forall_forall _ _) HL); auto].
    + intros [H|[H|[H|[E H]]]]; try lra. specialize (A3 E). lra.
  - split; [|intros _; unfold fcq_ball; rewrite HA, andb_false_r; reflexivity]. intros _. apply Classical_Prop.NNPP. intros N. assert (false = true); [|discriminate]. apply A.
    split; [apply Rnot_le_lt; tauto|]. split; [apply Rnot_le_lt; tauto|]. split; [intros E; apply Rnot_le_lt; tauto|]. split; auto. apply Rnot_le_lt; tauto.
Qed.

Section Found.
Variables (cint : option Z -> Z) (b : fbox) (points : list fvec) (q : fvec) (qi : nat) (r_max r_min : f32) (excl : bool) (l : list fbond).
Hypothesis HC : defined_int cint.
Hypothesis PB : plain_box b.
Hypothesis HP : points <> [].
Hypothesis HI : Forall (in_box b) points.
Hypothesis HL : Forall (in_plane b) points.
Hypothesis HN : (Z.of_nat (length points) <= 2 ^ 31)%Z.
Hypothesis FR : fitting_radius b r_max.
Hypothesis Fm : finite r_min = true.
Hypothesis IQ : in_box b q.
Hypothesis NQ : in_plane b q.
Lemma found_half : fcq_args_ok b r_max r_min = true -> 2 * val r_max < val (fvx (fL b)) /\ 2 * val r_max < val (fvy (fL b)) /\ (f2d b = false -> 2 * val r_max < val (fvz (fL b))).
Proof.
  intros HA. assert (Or := proj1 FR). assert (PR := len_pos _ Or). destruct Or as [FM [_ BM]]. assert (BM' : Rabs (val r_max) <= bpow radix2 60) by (rewrite Rabs_pos_eq; lra). destruct (proj1 (args_val b r_max r_min PB FM BM' Fm) HA) as (A1 & A2 & A3 & _). auto.
Qed.
Lemma found : fcq_ball cint b points q qi r_max r_min excl (Some l) -> (2 * val r_max < val (fvx (fL b)) /\ 2 * val r_max < val (fvy (fL b)) /\ (f2d b = false -> 2 * val r_max < val (fvz (fL b)))) /\
  Permutation l (cell_search cint b points q qi r_max r_min excl).
Proof.
  intros H. assert (HO := point_check b points PB HP HI). destruct (fcq_args_ok b r_max r_min) eqn:HA; [|unfold fcq_ball in H; rewrite HA, andb_false_r in H; discriminate].
  assert (A := found_half HA). split; auto. destruct A as (A1 & A2 & A3). assert (HG := grid_usable cint b r_max HC PB FR A1 A2 A3).
  destruct (C84_search cint b points q qi r_max r_min excl HN HO HA HG) as (res & U & M). apply U in H. subst res. destruct M as [_ M]. rewrite (point_inside cint b r_max HC PB FR A1 A2 A3 q IQ NQ) in M. auto.
Qed.
Lemma nth_in_box j : (j < length points)%nat -> in_box b (nth j points fv0) /\ in_plane b (nth j points fv0).
Proof. intros Hj. assert (I := nth_In points fv0 Hj). split; [apply (proj1 (Forall_forall _ _) HI); auto|apply (proj1 (Forall_forall _ _) HL); auto]. Qed.
(** Every pair clearly in range is found. *)
Lemma found_inside : ordinary_radius r_max -> min_radius r_min -> fcq_ball cint b points q qi r_max r_min excl (Some l) ->
  forall p i j k, (p < length points)%nat -> (excl = true -> p <> qi) -> (f2d b = true -> k = 0%Z) ->
  let D := exact_distance b (nth p points fv0) q i j k in
  D + cell_uncertainty b D <= val r_max -> (is r_min 0 \/ val r_min <= D - cell_uncertainty b D) ->
  exists x, In x l /\ fb_q x = qi /\ fb_p x = p /\ Rabs (val (fb_d x) - D) <= cell_uncertainty b D /\
    norm (rv (fb_r x) - (rv (fflat b (nth p points fv0)) - moved b q i j k))%V <= cell_uncertainty b D.
Proof.
  intros Or Om H p i j k Hp Hx K2 D HD Hmin. destruct (found H) as ((A1 & A2 & A3) & M). destruct (nth_in_box p Hp) as [IP NP]. set (pp := nth p points fv0) in *.
  destruct (seen_site cint b r_max HC PB FR A1 A2 A3 pp q i j k IP IQ NP NQ K2 HD) as [HS SE]. assert (T := site_small _ _ _ _ _ _ HS). destruct T as (T1 & T2 & T3 & T4).
  destruct (position_disp b pp q (- i) (- j) (- k) PB IP IQ NP NQ T1 T2 T3 T4) as (Fw & Bx & By & Bz & E). rewrite !Z.opp_involutive in E. set (w := fvsub (at_site b pp (- i, - j, - k)%Z) q) in *.
  exists (FBond qi p (Bsqrt mode_NE (fnorm2 w)) w). cbn [fb_q fb_p fb_d fb_r]. assert (D0 : 0 <= D) by apply norm_nonneg. assert (SP := size_pos b PB).
  split; [|split; auto; split; auto; split; [exact (disp_distance b w _ PB Fw Bx By Bz E)|]].
  2:{ eapply Rle_trans; [exact E|]. assert (P := bpow_gt_0 radix2 (-70)). unfold cell_uncertainty, u in *. lra. }
  apply (Permutation_in _ (Permutation_sym M)). unfold cell_search. apply in_flat_map. exists p. split; [apply in_seq; lia|]. fold pp. apply in_flat_map. exists (at_site b pp (- i, - j, - k)%Z).
  split; [rewrite positions_sites; apply in_map; auto|]. rewrite SE. unfold site_bond. cbv zeta. fold w. replace (excl && (p =? qi)%nat)%bool with false by (destruct excl; auto; symmetry; apply Nat.eqb_neq; apply Hx; auto).
  assert (B1 := disp_below b w _ PB Fw Bx By Bz E r_max Or HD). destruct (disp_finite w Fw Bx By Bz) as (Fn & Pn). destruct (radius_val r_max Or) as (FM & _).
  rewrite Bltb_correct, (Rlt_bool_true _ _ B1) by auto. cbn [andb].
  assert (B2 : Bleb (fmul r_min r_min) (fnorm2 w) = true); [|rewrite B2; left; reflexivity].
  destruct Om as [Z0|Om].
  - destruct (FaabbProofs2.mul_zero r_min r_min (proj1 Z0) Z0) as [F0 V0]. rewrite Bleb_correct by auto. apply Rle_bool_true. rewrite V0. auto.
  - destruct (radius_val r_min Om) as (Fm' & P' & _). rewrite Bleb_correct by auto. apply Rle_bool_true. apply (disp_above b w _ PB Fw Bx By Bz E r_min Om). destruct Hmin as [[_ Z0]|Hmin]; [rewrite Z0 in P'; lra|auto].
Qed.
Lemma found_outside : ordinary_radius r_max -> min_radius r_min -> fcq_ball cint b points q qi r_max r_min excl (Some l) ->
  forall x, In x l -> fb_q x = qi /\ (fb_p x < length points)%nat /\ (excl = true -> fb_p x <> qi) /\
  exists i j k, (Z.abs i <= 1 /\ Z.abs j <= 1 /\ Z.abs k <= 1)%Z /\ (f2d b = true -> k = 0%Z) /\
  let D := exact_distance b (nth (fb_p x) points fv0) q i j k in
  D - cell_uncertainty b D < val r_max /\ val r_min < D + cell_uncertainty b D /\ Rabs (val (fb_d x) - D) <= cell_uncertainty b D /\
  norm (rv (fb_r x) - (rv (fflat b (nth (fb_p x) points fv0)) - moved b q i j k))%V <= cell_uncertainty b D.
Proof.
  intros Or Om H x Hx. destruct (found H) as (_ & M). apply (Permutation_in _ M) in Hx. unfold cell_search in Hx. apply in_flat_map in Hx as (p & Hp & Hx). apply in_seq in Hp. destruct (nth_in_box p ltac:(lia)) as [IP NP]. set (pp := nth p points fv0) in *.
  apply in_flat_map in Hx as (v & Hv & Hx). destruct (seen _ _ _ _); [|destruct Hx]. destruct (bond_index _ _ _ _ _ _ _ _ Hx) as [Ep Eq]. rewrite positions_sites in Hv. apply in_map_iff in Hv as ([[i j] k] & <- & HS). fold pp in HS.
  destruct (site_small _ _ _ _ _ _ HS) as (T1 & T2 & T3 & T4). destruct (position_disp b pp q i j k PB IP IQ NP NQ T1 T2 T3 T4) as (Fw & Bx & By & Bz & E).
  unfold site_bond in Hx. destruct (excl && (p =? qi)%nat)%bool eqn:EX; [destruct Hx|]. cbv zeta in Hx. set (w := fvsub (at_site b pp (i, j, k)) q) in *.
  destruct (Bltb (fnorm2 w) (fmul r_max r_max)) eqn:C1; [|destruct Hx]. destruct (Bleb (fmul r_min r_min) (fnorm2 w)) eqn:C2; [|destruct Hx]. cbn [andb] in Hx. destruct Hx as [<-|[]]. cbn [fb_q fb_p fb_d fb_r] in *.
  split; auto. split; [lia|]. split; [intros ->; cbn in EX; apply Nat.eqb_neq in EX; auto|]. exists (- i)%Z, (- j)%Z, (- k)%Z. split; [lia|]. split; [intros E2; destruct (Z.eq_dec k 0) as [->|N]; auto; specialize (T4 N); congruence|].
  fold pp. set (D := exact_distance b pp q (- i) (- j) (- k)). destruct (disp_finite w Fw Bx By Bz) as (Fn & Pn). destruct (radius_val r_max Or) as (FM & _). assert (D0 : 0 <= D) by apply norm_nonneg. assert (SP := size_pos b PB). assert (P70 := bpow_gt_0 radix2 (-70)).
  split; [|split; [|split; [exact (disp_distance b w _ PB Fw Bx By Bz E)|eapply Rle_trans; [exact E|]; unfold cell_uncertainty, u in *; lra]]].
  - apply Rnot_le_lt. intros C. assert (X := disp_above b w _ PB Fw Bx By Bz E r_max Or C). rewrite Bltb_correct in C1 by auto. destruct (Rlt_bool_spec (val (fnorm2 w)) (val (fmul r_max r_max))); [lra|discriminate].
  - destruct Om as [[_ Z0]|Om]; [rewrite Z0; unfold cell_uncertainty, u in *; lra|]. apply Rnot_le_lt. intros C. assert (X := disp_below b w _ PB Fw Bx By Bz E r_min Om C). destruct (radius_val r_min Om) as (Fm' & _). rewrite Bleb_correct in C2 by auto. destruct (Rle_bool_spec (val (fmul r_min r_min)) (val (fnorm2 w))); [lra|discriminate].
Qed.
Lemma le1_flat_map {A B} (h : A -> list B) ts : NoDup ts -> (forall s, (length (h s) <= 1)%nat) -> (forall s s', In s ts -> In s' ts -> h s <> [] -> h s' <> [] -> s = s') -> (length (flat_map h ts) <= 1)%nat.
Proof.
  intros ND L1. induction ND as [|s ts NI ND IH]; intros H; cbn [flat_map]; [auto with arith|]. rewrite app_length. destruct (h s) eqn:E; [cbn; apply IH; intros; apply H; auto; right; auto|].
  replace (flat_map h ts) with (@nil B); [specialize (L1 s); rewrite E in L1; cbn in *; lia|]. symmetry. assert (Q : forall ts', incl ts' ts -> flat_map h ts' = []); [|apply Q, incl_refl].
  induction ts' as [|s' ts' IH']; intros I; auto. cbn [flat_map]. rewrite IH' by (intros a Ha; apply I; right; auto). destruct (h s') eqn:E'; auto. exfalso. apply NI. replace s with s'; [apply I; left; auto|].
  apply H; [right; apply I; left; auto|left; auto|rewrite E'; discriminate|rewrite E; discriminate].
Qed.
Lemma found_once : fcq_ball cint b points q qi r_max r_min excl (Some l) -> NoDup (map fb_p l).
Proof.
  intros H. destruct (found H) as ((A1 & A2 & A3) & M). apply (Permutation_NoDup (Permutation_map _ (Permutation_sym M))). unfold cell_search. rewrite map_flat_map. apply NoDup_flat_map.
  - apply seq_NoDup.
  - intros j Hj. apply in_seq in Hj. destruct (nth_in_box j ltac:(lia)) as [IP NP]. set (pp := nth j points fv0) in *. rewrite positions_sites.
    set (h := fun p => if seen _ _ q p then _ else _). assert (LE : (length (flat_map h (map (at_site b pp) (sites b r_max pp))) <= 1)%nat).
    { rewrite flat_map_map. apply le1_flat_map.
      - assert (S := sites_spec b r_max pp). destruct (dirs b r_max pp) as [[dx dy] dz]. apply S.
      - intros s. unfold h, site_bond. destruct (seen _ _ _ _); [|auto]. destruct (excl && _)%bool; [auto|]. cbv zeta. destruct (_ && _)%bool; auto.
      - intros s s' Hs Hs' N N'. unfold h in N, N'. destruct (seen _ _ q (at_site b pp s)); [|congruence]. destruct (seen _ _ q (at_site b pp s')); [|congruence]. eapply (site_once b r_max PB FR A1 A2 A3 pp q s s' r_min qi excl j); eauto. }
    destruct (flat_map h _) as [|x [|y t]]; cbn [map length] in *; [constructor|repeat constructor; intros []|lia].
  - intros j j' x _ _ Hx Hx'. apply in_map_iff in Hx as (y & <- & Hy). apply in_map_iff in Hx' as (y' & E' & Hy'). apply (seen_bonds_index cint b q qi r_max r_min excl j) in Hy as [Ey _]. apply (seen_bonds_index cint b q qi r_max r_min excl j') in Hy' as [E'' _]. congruence.
Qed.
End Found.

(** Every pair clearly in range is found, with the right distance and vector. *)
Theorem C84_inside cint b points q qi r_max r_min excl l : defined_int cint -> plain_box b -> points <> [] -> Forall (in_box b) points -> Forall (in_plane b) points -> (Z.of_nat (length points) <= 2 ^ 31)%Z ->
  fitting_radius b r_max -> min_radius r_min -> in_box b q -> in_plane b q -> fcq_ball cint b points q qi r_max r_min excl (Some l) ->
  forall p i j k, (p < length points)%nat -> (excl = true -> p <> qi) -> (f2d b = true -> k = 0%Z) ->
  let D := exact_distance b (nth p points fv0) q i j k in
  D + cell_uncertainty b D <= val r_max -> (is r_min 0 \/ val r_min <= D - cell_uncertainty b D) ->
  exists x, In x l /\ fb_q x = qi /\ fb_p x = p /\ Rabs (val (fb_d x) - D) <= cell_uncertainty b D /\
    norm (rv (fb_r x) - (rv (fflat b (nth p points fv0)) - moved b q i j k))%V <= cell_uncertainty b D.
Proof.
  intros HC PB HP HI HL HN FR Om IQ NQ H. assert (Fm : finite r_min = true) by (destruct Om as [Om|Om]; apply Om). apply (found_inside cint b points q qi r_max r_min excl l); auto. apply FR.
Qed.
(** Nothing clearly out of range is found, and every bond is accurate. *)
Theorem C84_outside cint b points q qi r_max r_min excl l : defined_int cint -> plain_box b -> points <> [] -> Forall (in_box b) points -> Forall (in_plane b) points -> (Z.of_nat (length points) <= 2 ^ 31)%Z ->
  fitting_radius b r_max -> min_radius r_min -> in_box b q -> in_plane b q -> fcq_ball cint b points q qi r_max r_min excl (Some l) ->
  forall x, In x l -> fb_q x = qi /\ (fb_p x < length points)%nat /\ (excl = true -> fb_p x <> qi) /\
  exists i j k, (Z.abs i <= 1 /\ Z.abs j <= 1 /\ Z.abs k <= 1)%Z /\ (f2d b = true -> k = 0%Z) /\
  let D := exact_distance b (nth (fb_p x) points fv0) q i j k in
  D - cell_uncertainty b D < val r_max /\ val r_min < D + cell_uncertainty b D /\ Rabs (val (fb_d x) - D) <= cell_uncertainty b D /\
  norm (rv (fb_r x) - (rv (fflat b (nth (fb_p x) points fv0)) - moved b q i j k))%V <= cell_uncertainty b D.
Proof.
  intros HC PB HP HI HL HN FR Om IQ NQ H. assert (Fm : finite r_min = true) by (destruct Om as [Om|Om]; apply Om). apply (found_outside cint b points q qi r_max r_min excl l); auto. apply FR.
Qed.
(** Every neighbour is found at most once: for every radius that is not refused, a point and its ghosts are never all within it, in computed numbers. *)
Theorem C84_once cint b points q qi r_max r_min excl l : defined_int cint -> plain_box b -> points <> [] -> Forall (in_box b) points -> Forall (in_plane b) points -> (Z.of_nat (length points) <= 2 ^ 31)%Z ->
  fitting_radius b r_max -> finite r_min = true -> in_box b q -> in_plane b q -> fcq_ball cint b points q qi r_max r_min excl (Some l) -> NoDup (map fb_p l).
Proof. intros HC PB HP HI HL HN FR Fm IQ NQ H. apply (found_once cint b points q qi r_max r_min excl l); auto. Qed.
(** CellQuery and AABBQuery agree on every point clear of both ends of the range. *)
Theorem C84_agree cint b points q qi r_max r_min excl check l l' : defined_int cint -> plain_box b -> all_periodic b -> points <> [] -> Forall (in_box b) points -> Forall (in_plane b) points -> (Z.of_nat (length points) <= 2 ^ 31)%Z ->
  fitting_radius b r_max -> min_radius r_min -> in_box b q -> in_plane b q -> fcq_ball cint b points q qi r_max r_min excl (Some l) -> faabb_ball b points q qi r_max r_min excl check (Some l') ->
  forall p, (p < length points)%nat -> clear b (nth p points fv0) q r_max r_min ->
  ((exists x, In x l /\ fb_p x = p) <-> (exists x, In x l' /\ fb_p x = p)).
Proof.
  intros HC PB AP HP HI HL HN FR Om IQ NQ H H' p Hp CL. assert (Or : ordinary_radius r_max) by apply FR.
  assert (HO : Forall ordinary_point points) by (eapply Forall_impl; [|exact HI]; intros; apply in_box_ordinary with b; auto). assert (Oq := in_box_ordinary b q PB IQ).
  assert (PS : forall D S, 0 <= D -> 0 <= S -> 0 < slack D S /\ 0 < cell_uncertainty b D).
  { intros D S HD HS. assert (P := bpow_gt_0 radix2 (-70)). assert (SP := size_pos b PB). unfold slack, cell_uncertainty, u. lra. }
  split; intros (x & Hx & <-).
  - destruct (C84_outside _ _ _ _ _ _ _ _ _ HC PB HP HI HL HN FR Om IQ NQ H x Hx) as (_ & _ & HE & i & j & k & NB & K2 & A1 & A2 & _). cbv zeta in A1, A2.
    assert (NC : neighbour_cell b i j k). { destruct AP as (P1 & P2 & P3). split; [tauto|]. split; [auto|]. split; [auto|]. intros N. destruct (f2d b) eqn:E; [rewrite K2 in N by auto; congruence|auto]. }
    specialize (CL i j k NC). cbv zeta in CL. set (D := exact_distance b (nth (fb_p x) points fv0) q i j k) in *. set (S := norm (moved b q i j k)) in *. destruct (PS D S (norm_nonneg _) (norm_nonneg _)) as [P1 P2].
    destruct CL as [C|[C|[C1 C2]]]; [exfalso; lra|exfalso; lra|].
    destruct (C78_inside b points q qi r_max r_min excl check l' HP PB HO Oq Or Om H' (fb_p x) i j k Hp HE NC) as (y & Hy & _ & Ey & _); [fold D S; lra|fold D S; destruct C2 as [C2|C2]; [left; auto|right; lra]|]. exists y. auto.
  - destruct (C78_outside _ _ _ _ _ _ _ _ _ HP PB HO Oq Or Om H' x Hx) as (_ & _ & HE & i & j & k & NC & A1 & A2 & _). cbv zeta in A1, A2. specialize (CL i j k NC). cbv zeta in CL.
    set (D := exact_distance b (nth (fb_p x) points fv0) q i j k) in *. set (S := norm (moved b q i j k)) in *. destruct (PS D S (norm_nonneg _) (norm_nonneg _)) as [P1 P2].
    destruct CL as [C|[C|[C1 C2]]]; [exfalso; lra|exfalso; lra|].
    assert (K2 : f2d b = true -> k = 0%Z) by (intros E; destruct (Z.eq_dec k 0) as [|N]; auto; destruct NC as (_ & _ & _ & NC); destruct (NC N); congruence).
    destruct (C84_inside cint b points q qi r_max r_min excl l HC PB HP HI HL HN FR Om IQ NQ H (fb_p x) i j k Hp HE K2) as (y & Hy & _ & Ey & _); [fold D; lra|fold D; destruct C2 as [C2|C2]; [left; auto|right; lra]|]. exists y. auto.
Qed.

(** * What does not hold *)
Lemma x86_int_defined : defined_int x86_int.
Proof. intros z Hz. unfold x86_int. destruct (Z.leb_spec (- 2 ^ 31) z), (Z.ltb_spec z (2 ^ 31)); cbn [andb]; auto; lia. Qed.
Lemma cell_indices b points q qi r_max r_min excl ix : (Z.of_nat (length points) <= 2 ^ 31)%Z -> fnq_ok b points = true -> fcq_args_ok b r_max r_min = true ->
  (let g := fsetup_grid x86_int b r_max in ((0 <? fg_nx g) && (0 <? fg_ny g) && (0 <? fg_nz g))%Z && fin_grid g (fcell_xyz x86_int g (nth 0 points fv0)))%bool = true ->
  (if fin_grid (fsetup_grid x86_int b r_max) (fcell_xyz x86_int (fsetup_grid x86_int b r_max) q) then map indices (cell_search x86_int b points q qi r_max r_min excl) else []) = ix ->
  exists l, (forall res, fcq_ball x86_int b points q qi r_max r_min excl res <-> res = Some l) /\ Permutation (map indices l) ix.
Proof.
  intros HN HO HA HG E. cbv zeta in HG. rewrite !Bool.andb_true_iff, !Z.ltb_lt in HG. destruct HG as (((G1 & G2) & G3) & G4).
  assert (HP : points <> []) by (intros ->; discriminate). assert (L0 : (0 < length points)%nat) by (destruct points; [congruence|cbn; lia]).
  destruct (C84_search x86_int b points q qi r_max r_min excl HN HO HA (conj G1 (conj G2 G3))) as (res & U & M). destruct res as [l|].
  - exists l. split; auto. destruct M as [_ M]. destruct (fin_grid _ (fcell_xyz x86_int _ q)); [rewrite <- E; apply Permutation_map; auto|subst l ix; constructor].
  - exfalso. apply M. exists 0%nat, (nth 0 points fv0). split; auto. split; auto. unfold positions. apply in_or_app. right. left. auto.
Qed.
(** A pair of points in the plane y = z = 0, apart by less than the radius, exactly and in computed numbers. Rounding puts them two cells
    apart: CellQuery loses the pair from both ends, AABBQuery finds it. *)
Definition lost_points : list fvec := [FV (lit (-14260634) (-23)) fzero fzero; FV (lit (-10066331) (-24)) fzero fzero].
Definition lost_r : f32 := lit 9227469 (-23).
Theorem C84_lost_refuted :
  (forall res, fcq_ball x86_int edge_box lost_points (nth 0 lost_points fv0) 0 lost_r fzero true res <-> res = Some []) /\
  (forall res, fcq_ball x86_int edge_box lost_points (nth 1 lost_points fv0) 1 lost_r fzero true res <-> res = Some []) /\
  exact_distance edge_box (nth 0 lost_points fv0) (nth 1 lost_points fv0) 0 0 0 < val lost_r /\
  exists l, faabb_ball edge_box lost_points (nth 0 lost_points fv0) 0 lost_r fzero true true (Some l) /\ map indices l = [(0, 1)]%nat.
Proof.
  assert (Q : forall qi, (qi < 2)%nat -> forall res, fcq_ball x86_int edge_box lost_points (nth qi lost_points fv0) qi lost_r fzero true res <-> res = Some []).
  { intros qi Hq. destruct (cell_indices edge_box lost_points (nth qi lost_points fv0) qi lost_r fzero true []) as (l & U & P); [cbn; lia|vm_compute; reflexivity|vm_compute; reflexivity|vm_compute; reflexivity|destruct qi as [|[|qi]]; [vm_compute; reflexivity|vm_compute; reflexivity|lia]|].
    destruct l as [|x l]; [exact U|]. apply Permutation_sym, Permutation_nil in P. discriminate. }
  split; [apply (Q 0%nat); lia|]. split; [apply (Q 1%nat); lia|]. split.
  - unfold exact_distance. eapply Rle_lt_trans; [apply norm_sum|].
    assert (V : forall m e, (Z.abs m < 2 ^ 24)%Z -> (-149 <= e <= 100)%Z -> val (lit m e) = IZR m * bpow radix2 e) by (intros m e Hm He; apply lit_exact; auto).
    unfold moved, fflat, rv, lost_points, lost_r. change (f2d edge_box) with false. cbn [nth vsub vadd vx vy vz fvx fvy fvz]. rewrite !V by lia. change (val fzero) with 0. rewrite !Rmult_0_l. change (bpow radix2 (-23)) with (/ 8388608). change (bpow radix2 (-24)) with (/ 16777216).
    replace (0 - (0 + 0)) with 0 by ring. rewrite Rabs_R0. rewrite Rabs_left1 by lra. lra.
  - destruct (ball_indices edge_box lost_points (nth 0 lost_points fv0) 0 lost_r fzero true true [(0, 1)]%nat) as (l & H' & P); [discriminate| |vm_compute; reflexivity|vm_compute; reflexivity|vm_compute; reflexivity|].
    + apply Forall_cons; [repeat split; vm_compute; reflexivity|]. apply Forall_cons; [repeat split; vm_compute; reflexivity|apply Forall_nil].
    + exists l. split; [exact H'|]. apply Permutation_length_1_inv. symmetry. exact P.
Qed.
(** In two dimensions AABBQuery drops the z coordinate of a query point, CellQuery does not: it finds nothing. *)
Definition flat_box : fbox := fmk_box (lit 10 0) (lit 10 0) fzero fzero fzero fzero true.
Theorem C84_flat_refuted :
  (forall res, fcq_ball x86_int flat_box [fv0] (FV fzero fzero (lit 5 0)) 0 (lit 2 0) fzero false res <-> res = Some []) /\
  exists l, faabb_ball flat_box [fv0] (FV fzero fzero (lit 5 0)) 0 (lit 2 0) fzero false true (Some l) /\ map indices l = [(0, 0)]%nat.
Proof.
  split.
  - destruct (cell_indices flat_box [fv0] (FV fzero fzero (lit 5 0)) 0 (lit 2 0) fzero false []) as (l & U & P); [cbn; lia|vm_compute; reflexivity|vm_compute; reflexivity|vm_compute; reflexivity|vm_compute; reflexivity|].
    destruct l as [|x l]; [exact U|]. apply Permutation_sym, Permutation_nil in P. discriminate.
  - destruct (ball_indices flat_box [fv0] (FV fzero fzero (lit 5 0)) 0 (lit 2 0) fzero false true [(0, 0)]%nat) as (l & H' & P); [discriminate| |vm_compute; reflexivity|vm_compute; reflexivity|vm_compute; reflexivity|].
    + apply Forall_cons; [repeat split; vm_compute; reflexivity|apply Forall_nil].
    + exists l. split; [exact H'|]. apply Permutation_length_1_inv. symmetry. exact P.
Qed.
(** In a box without periodic directions CellQuery still finds a neighbour across the boundary, AABBQuery does not. *)
Definition closed_box : fbox := let b := edge_box in FBox (fL b) (fxy b) (fxz b) (fyz b) false false false (f2d b).
Theorem C84_periodic_refuted :
  (exists l, fcq_ball x86_int closed_box two_points (nth 1 two_points fv0) 1 (lit 3 0) fzero true (Some l) /\ map indices l = [(1, 0)]%nat) /\
  exists l, faabb_ball closed_box two_points (nth 1 two_points fv0) 1 (lit 3 0) fzero true true (Some l) /\ map indices l = []%nat.
Proof.
  split.
  - destruct (cell_indices closed_box two_points (nth 1 two_points fv0) 1 (lit 3 0) fzero true [(1, 0)]%nat) as (l & U & P); [cbn; lia|vm_compute; reflexivity|vm_compute; reflexivity|vm_compute; reflexivity|vm_compute; reflexivity|].
    exists l. split; [exact (proj2 (U _) eq_refl)|]. apply Permutation_length_1_inv. symmetry. exact P.
  - destruct (ball_indices closed_box two_points (nth 1 two_points fv0) 1 (lit 3 0) fzero true true []%nat) as (l & H' & P); [discriminate| |vm_compute; reflexivity|vm_compute; reflexivity|vm_compute; reflexivity|].
    + apply Forall_cons; [repeat split; vm_compute; reflexivity|]. apply Forall_cons; [repeat split; vm_compute; reflexivity|apply Forall_nil].
    + exists l. split; [exact H'|]. destruct (map indices l); auto. apply Permutation_sym, Permutation_nil in P. discriminate.
Qed.

(** * Cases *)
(** Two points across a boundary, a radius of 3 in a box of 10. *)
Example C84_case :
  defined_int x86_int /\ plain_box edge_box /\ all_periodic edge_box /\ Forall (in_box edge_box) two_points /\ Forall (in_plane edge_box) two_points /\ fitting_radius edge_box (lit 3 0) /\ min_radius fzero /\
  grid_ok (fsetup_grid x86_int edge_box (lit 3 0)) /\ fcq_args_ok edge_box (lit 3 0) fzero = true /\
  (exists l, fcq_ball x86_int edge_box two_points (nth 1 two_points fv0) 1 (lit 3 0) fzero true (Some l) /\ map indices l = [(1, 0)]%nat) /\
  (exact_distance edge_box (nth 0 two_points fv0) (nth 1 two_points fv0) 1 0 0 = 2 /\ 2 + cell_uncertainty edge_box 2 <= val (lit 3 0)) /\
  clear edge_box (nth 0 two_points fv0) (nth 1 two_points fv0) (lit 3 0) fzero.
Proof.
  destruct C79_case as (PB & AP & HI & _ & Or & _ & Om & _ & HD & CL & _). split; [apply x86_int_defined|]. split; auto. split; auto. split; auto.
  split; [apply Forall_forall; intros p _ E; discriminate|]. split.
  { split; auto. destruct (is_lit_Z 3 ltac:(lia)) as [_ V3']. destruct (is_lit_Z 10 ltac:(lia)) as [_ V10]. rewrite V3'. change (fvx (fL edge_box)) with (lit 10 0). change (fvy (fL edge_box)) with (lit 10 0). change (fvz (fL edge_box)) with (lit 10 0). rewrite V10. split; [lra|]. split; [lra|intros _; lra]. }
  split; auto. split; [vm_compute; auto|]. split; [vm_compute; reflexivity|]. split; [|split; auto].
  destruct (cell_indices edge_box two_points (nth 1 two_points fv0) 1 (lit 3 0) fzero true [(1, 0)]%nat) as (l & U & P); [cbn; lia|vm_compute; reflexivity|vm_compute; reflexivity|vm_compute; reflexivity|vm_compute; reflexivity|].
  exists l. split; [exact (proj2 (U _) eq_refl)|]. apply Permutation_length_1_inv. symmetry. exact P.
Qed.
(** A point that is not a number beside two that are: the bond of the others is the same. *)
Example C84_undefined_case : let points := two_points ++ [FV B754_nan fzero fzero] in
  grid_ok (fsetup_grid x86_int edge_box (lit 3 0)) /\ exists l, fcq_ball x86_int edge_box points (nth 1 points fv0) 1 (lit 3 0) fzero true (Some l) /\ map indices l = [(1, 0)]%nat.
Proof.
  intros points. split; [vm_compute; auto|].
  destruct (cell_indices edge_box points (nth 1 points fv0) 1 (lit 3 0) fzero true [(1, 0)]%nat) as (l & U & P); [cbn; lia|vm_compute; reflexivity|vm_compute; reflexivity|vm_compute; reflexivity|vm_compute; reflexivity|].
  exists l. split; [exact (proj2 (U _) eq_refl)|]. apply Permutation_length_1_inv. symmetry. exact P.
Qed.

Print Assumptions C84_search.
Print Assumptions C84_local.
Print Assumptions C84_undefined.
Print Assumptions C84_refused.
Print Assumptions C84_inside.
Print Assumptions C84_outside.
Print Assumptions C84_once.
Print Assumptions C84_agree.
Print Assumptions C84_lost_refuted.
Print Assumptions C84_flat_refuted.
Print Assumptions C84_periodic_refuted.
