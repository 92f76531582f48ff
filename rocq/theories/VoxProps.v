(** C52: SphereVoxelization. *)
From Verif Require Import RBase BoxProofs BoxProofs2 BoxProps MArrayProofs GridProofs FilterProps Vec.
From Coq Require Import Reals ZArith List Lia Lra Permutation Bool.
From Verif Require Import GridSpec.
Import ListNotations.
Local Open Scope R_scope.

Lemma index_range d k : (0 < vd_w d)%Z -> (0 <= vd_index d k < vd_w d)%Z.
Proof. intros H. apply Z.mod_pos_bound, H. Qed.
Lemma hit_shape b r w p h : width_pos (eff_width b w) = true -> In h (vox_hits b r (grid_of b w) p) -> in_shape (shape_of (eff_width b w)) (fst h).
Proof.
  intros W H. apply in_map_iff in H as ([[i j] k] & <- & _). unfold grid_of. destruct (eff_width b w) as [[x y] z]. unfold width_pos in W. rewrite !andb_true_iff, !Z.ltb_lt in W.
  destruct W as ((X & Y) & Z). repeat constructor; cbn; apply index_range; auto.
Qed.
(** The writes of any order leave ones exactly at the written voxels. *)
Lemma writes_get sh : valid_shape sh -> forall ws a, Forall (fun h => in_shape sh (fst h)) ws -> well_formed a -> ma_shape a = sh ->
  exists a', fold_left sv_write ws (Some a) = Some a' /\ ma_shape a' = sh /\
    forall n, in_shape sh n -> ma_get a' (row_major sh n) = if in_dec (list_eq_dec Z.eq_dec) n (map fst ws) then Some 1%Z else ma_get a (row_major sh n).
Proof.
  intros SV. induction ws as [|h ws IH]; intros a F WF SH; simpl fold_left.
  - exists a. split; [reflexivity|]. split; [exact SH|]. reflexivity.
  - apply Forall_cons_iff in F as [Fh F]. cbn [sv_write bind]. rewrite SH, get_index_static_spec by (symmetry; apply in_shape_length; auto).
    destruct (ma_set a (row_major sh (fst h)) 1%Z) as [a1|] eqn:E.
    2:{ exfalso. unfold ma_set in E. pose proof (row_major_range _ _ Fh) as RG. destruct WF as (_ & S & _). rewrite S, SH in E. destruct (Z.ltb_spec (row_major sh (fst h)) 0); [lia|]. destruct (Z.leb_spec (size_of sh) (row_major sh (fst h))); [lia|discriminate]. }
    destruct (ma_set_get _ _ _ _ WF E) as (WF1 & G1 & G2). assert (SH1 : ma_shape a1 = sh).
    { unfold ma_set in E. destruct (_ || _); [discriminate|]. injection E as <-. exact SH. }
    destruct (IH a1 F WF1 SH1) as (a' & E' & S' & G'). exists a'. split; [exact E'|]. split; [exact S'|]. intros n Hn. rewrite (G' n Hn). cbn [map].
    destruct (list_eq_dec Z.eq_dec (fst h) n) as [EH|NE].
    + rewrite EH in G1. rewrite G1. destruct in_dec; destruct in_dec as [|C]; auto; destruct C; left; auto.
    + rewrite G2. 2:{ intros C. apply NE. symmetry. eapply row_major_inj; eauto. }
      destruct in_dec as [I|I]; destruct in_dec as [J|J]; auto; [destruct J; right; auto|destruct J as [J|J]; [congruence|contradiction]].
Qed.
Lemma make_get {T} (z : T) sh n : valid_shape sh -> in_shape sh n -> ma_get (ma_make z sh) (row_major sh n) = Some z.
Proof.
  intros V H. pose proof (row_major_range _ _ H) as RG. unfold ma_get, ma_make; cbn [ma_size ma_data]. rewrite prodz_size.
  destruct (Z.ltb_spec (row_major sh n) 0); [lia|]. destruct (Z.leb_spec (size_of sh) (row_major sh n)); [lia|]. cbn [orb]. apply nth_error_repeat_some. lia.
Qed.

(** Whatever the box and the points, voxels hold 1 where some thread wrote and 0 elsewhere. *)
Lemma compute_writes s b points ws : width_pos (eff_width b (sv_width s)) = true -> same_dim (sv_dim s) (b_2d b) = true -> Permutation (sv_writes s b points) ws ->
  exists a, sv_compute s b ws = VDone (SV (eff_width b (sv_width s)) (sv_r s) (Some (b_2d b)) (Some a)) /\ ma_shape a = shape_of (eff_width b (sv_width s)) /\
    forall n, in_shape (shape_of (eff_width b (sv_width s))) n ->
      ma_get a (row_major (shape_of (eff_width b (sv_width s))) n) = Some (if in_dec (list_eq_dec Z.eq_dec) n (map fst (sv_writes s b points)) then 1%Z else 0%Z).
Proof.
  intros W SD PM. unfold sv_compute. rewrite SD, W. cbn [negb]. set (wd := eff_width b (sv_width s)) in *. set (sh := shape_of wd).
  assert (V : valid_shape sh). { unfold sh. destruct wd as [[x y] z]. unfold width_pos in W. rewrite !andb_true_iff, !Z.ltb_lt in W. repeat constructor; lia. }
  destruct (writes_get sh V ws (ma_make 0%Z sh)) as (a & E & S & G).
  - apply Forall_forall. intros h Hh. eapply Permutation_in in Hh; [|symmetry; exact PM]. apply in_flat_map in Hh as (p & _ & Hh). eapply hit_shape; eauto.
  - apply ma_make_wf, V.
  - reflexivity.
  - rewrite E. exists a. split; auto. split; auto. intros n Hn. rewrite (G n Hn), (make_get 0%Z sh n V Hn).
    destruct in_dec as [I|I]; destruct in_dec as [J|J]; auto; exfalso; [apply J|apply I]; [eapply Permutation_in in I; [exact I|apply Permutation_map; symmetry; exact PM]|eapply Permutation_in in J; [exact J|apply Permutation_map; exact PM]].
Qed.

(** *** C52 *)
Theorem C52_reject w r : (sv_make w r = None <-> r <= 0) /\ (forall s, sv_make w r = Some s -> s = SV w r None None /\ 0 < r).
Proof.
  unfold sv_make. destruct (Rleb_spec r 0) as [A|A]; split; try split; intros; auto; try discriminate; try lra; injection H as <-; auto.
Qed.

(** Marked voxels are covered; covered voxels are marked if [safe]. *)
Theorem C52_marks s b points ws :
  positive b -> ortho b -> good_width b (sv_width s) -> 0 < sv_r s -> in_each (fits (sv_r s)) b (sv_width s) -> Forall (in_box b) points ->
  same_dim (sv_dim s) (b_2d b) = true -> Permutation (sv_writes s b points) ws ->
  exists a, sv_compute s b ws = VDone (SV (sv_width s) (sv_r s) (Some (b_2d b)) (Some a)) /\ ma_shape a = shape_of (sv_width s) /\
    forall n, in_shape (shape_of (sv_width s)) n -> exists x,
      ma_get a (row_major (shape_of (sv_width s)) n) = Some x /\ (x = 0%Z \/ x = 1%Z) /\
      (x = 1%Z -> exists p u, In p points /\ separation b (sv_width s) n p u /\ norm u < sv_r s) /\
      (forall p u, In p points -> separation b (sv_width s) n p u -> norm u < sv_r s -> in_each_of (safe (sv_r s)) b (sv_width s) u -> x = 1%Z).
Proof.
  intros HP HO HW Hr HF HB SD PM. pose proof (eff_good _ _ HW) as EW. destruct (compute_writes s b points ws) as (a & E & S & G); auto. { rewrite EW. eapply width_good; eauto. }
  rewrite EW in *. exists a. split; auto. split; auto. intros n Hn. eexists. split; [apply G, Hn|]. rewrite Forall_forall in HB. destruct in_dec as [I|I].
  - split; auto. split; [|auto]. intros _. apply in_map_iff in I as (h & <- & Hh). apply in_flat_map in Hh as (p & Hp & Hh).
    destruct (hit_distance b (sv_width s) (sv_r s) HP HO HW Hr HF p h (HB p Hp) Hh) as (_ & B & ((u & SU & NU) & _)). exists p, u. split; auto. split; auto. rewrite NU.
    apply Rsqr_incrst_0; [|apply sqrt_pos|lra]. unfold Rsqr. rewrite sqrt_sqrt; lra.
  - split; auto. split; [intros; discriminate|]. intros p u Hp SU NU SF. exfalso. apply I.
    destruct (hit_complete b (sv_width s) (sv_r s) HP HO HW Hr HF p n u (HB p Hp) Hn SU NU SF) as (h & Hh & <-). apply in_map. apply in_flat_map. exists p. auto.
Qed.

(** With a window that is wide enough the marks are exact. *)
Theorem C52_exact s b points ws :
  positive b -> ortho b -> good_width b (sv_width s) -> 0 < sv_r s -> in_each (fits (sv_r s)) b (sv_width s) -> in_each (wide (sv_r s)) b (sv_width s) -> Forall (in_box b) points ->
  same_dim (sv_dim s) (b_2d b) = true -> Permutation (sv_writes s b points) ws ->
  exists a, sv_compute s b ws = VDone (SV (sv_width s) (sv_r s) (Some (b_2d b)) (Some a)) /\
    forall n, in_shape (shape_of (sv_width s)) n -> exists x,
      ma_get a (row_major (shape_of (sv_width s)) n) = Some x /\ (x = 0%Z \/ x = 1%Z) /\
      (x = 1%Z <-> exists p u, In p points /\ separation b (sv_width s) n p u /\ norm u < sv_r s).
Proof.
  intros HP HO HW Hr HF HWd HB SD PM. destruct (C52_marks s b points ws HP HO HW Hr HF HB SD PM) as (a & E & S & G). exists a. split; auto. intros n Hn.
  destruct (G n Hn) as (x & Gx & X01 & Snd & Cmp). exists x. split; auto. split; auto. split; auto. intros (p & u & Hp & SU & NU). apply (Cmp p u); auto.
  destruct (sv_width s) as [[wx wy] wz]. destruct HWd as (A & B & C). repeat split; [left; exact A|left; exact B|intros E2; left; exact (C E2)].
Qed.

(** The first computation fixes the dimension for the life of the object; a rejected call changes nothing. *)
Fixpoint sv_history (s : sv) (calls : list (box * list (list Z * R))) : option sv :=
  match calls with
  | [] => Some s
  | (b, ws) :: calls => match sv_compute s b ws with VDone s' => sv_history s' calls | VRaised => sv_history s calls | VUndefined => None end
  end.
Lemma sv_dim_kept calls : forall s d s', sv_dim s = Some d -> sv_history s calls = Some s' -> sv_dim s' = Some d.
Proof.
  induction calls as [|[b ws] calls IH]; intros s d s' D H; simpl in H; [congruence|]. destruct (sv_compute s b ws) as [s1| |] eqn:E; [|eauto|discriminate].
  apply (IH s1 d s'); auto. unfold sv_compute in E. rewrite D in E. cbn [same_dim] in E. destruct (Bool.eqb d (b_2d b)) eqn:DE; [|discriminate]. cbn [negb] in E. destruct (negb _); [discriminate|].
  destruct (fold_left _ _ _); [|discriminate]. injection E as <-. cbn. apply eqb_prop in DE. congruence.
Qed.
Theorem C52_dimension w r s0 s calls b ws : sv_make w r = Some s0 -> sv_history s0 calls = Some s ->
  (sv_compute s b ws = VRaised <-> exists b0 ws0 rest, calls = (b0, ws0) :: rest /\ b_2d b0 <> b_2d b).
Proof.
  intros M H. apply C52_reject in M as [-> _]. assert (RS : forall s1, sv_compute s1 b ws = VRaised <-> same_dim (sv_dim s1) (b_2d b) = false).
  { intros s1. unfold sv_compute. destruct (same_dim _ _); cbn [negb]; [|split; auto]. split; intros C; [|discriminate]. destruct (negb _); [discriminate|]. destruct (fold_left _ _ _); discriminate. }
  rewrite RS. clear RS. destruct calls as [|[b0 ws0] rest].
  - injection H as <-. cbn. split; [discriminate|]. intros (? & ? & ? & C & _). discriminate.
  - simpl in H. unfold sv_compute at 1 in H. cbn [sv_dim same_dim negb sv_width sv_r] in H. destruct (negb _); [discriminate|]. destruct (fold_left _ _ _); [|discriminate].
    apply (sv_dim_kept _ _ (b_2d b0)) in H; [|reflexivity]. rewrite H. cbn [same_dim]. rewrite eqb_false_iff. split.
    + intros C. exists b0, ws0, rest. auto.
    + intros (? & ? & ? & C & NE). injection C as <- <- <-. exact NE.
Qed.

(** *** Counterexamples *)
Lemma trunc_eq x n : 0 <= x -> IZR n <= x < IZR n + 1 -> Ztrunc x = n.
Proof. intros H0 H. rewrite Ztrunc_floor by auto. apply Zfloor_imp. rewrite plus_IZR. lra. Qed.
Definition ex_box4 : box := mk_box 4 4 4 0 0 0 false.
Lemma ex_box4_positive : positive ex_box4.
Proof. apply mk_box_positive; intros; lra. Qed.
Lemma ex_box4_ortho : ortho ex_box4.
Proof. repeat split. Qed.
Definition ex_sv : sv := SV (4, 4, 4)%Z (9/10) None None.
Definition ex_pt : vec3 := V3 (-11/10) (-3/2) (-3/2).
Lemma ex_only h : In h (sv_writes ex_sv ex_box4 [ex_pt]) -> fst h = [0; 0; 0]%Z.
Proof.
  intros H. unfold sv_writes in H. cbn [flat_map] in H. rewrite app_nil_r in H. apply in_map_iff in H as ([[i j] k] & <- & H). apply filter_In in H as [H _]. apply in_window in H as (Hi & Hj & Hk).
  assert (C : Ztrunc (9 / 10 / (4 / 4)) = 0%Z) by (apply trunc_eq; simpl; lra).
  assert (Bx : Ztrunc ((-11 / 10 + 4 / 2) / (4 / 4)) = 0%Z) by (apply trunc_eq; simpl; lra). assert (By : Ztrunc ((-3 / 2 + 4 / 2) / (4 / 4)) = 0%Z) by (apply trunc_eq; simpl; lra).
  apply filter_In in Hi as [Hi _]. apply filter_In in Hj as [Hj _]. apply filter_In in Hk as [Hk _]. apply in_zrange in Hi. apply in_zrange in Hj. apply in_zrange in Hk.
  cbn in Hi, Hj, Hk. unfold vd_bin, vd_cut, vd_g in Hi, Hj, Hk. cbn [vd_flat vd_L vd_w] in Hi, Hj, Hk. rewrite ?C, ?Bx, ?By in Hi, Hj, Hk.
  assert (i = 0%Z) as -> by lia. assert (j = 0%Z) as -> by lia. assert (k = 0%Z) as -> by lia. reflexivity.
Qed.

(** A voxel at distance 0.6 < r_max = 0.9 of a particle stays unmarked: the window is truncated to 0 bins on both sides. *)
Theorem C52_complete_refuted : exists s b p n u a, positive b /\ ortho b /\ good_width b (sv_width s) /\ 0 < sv_r s /\ in_each (fits (sv_r s)) b (sv_width s) /\ in_box b p /\
  in_shape (shape_of (sv_width s)) n /\ separation b (sv_width s) n p u /\ norm u < sv_r s /\
  sv_compute s b (sv_writes s b [p]) = VDone (SV (sv_width s) (sv_r s) (Some (b_2d b)) (Some a)) /\ ma_get a (row_major (shape_of (sv_width s)) n) = Some 0%Z.
Proof.
  destruct (compute_writes ex_sv ex_box4 [ex_pt] (sv_writes ex_sv ex_box4 [ex_pt]) eq_refl eq_refl (Permutation_refl _)) as (a & E & S & G).
  assert (SH : in_shape [4; 4; 4]%Z [1; 0; 0]%Z) by (repeat constructor; lia).
  exists ex_sv, ex_box4, ex_pt, [1; 0; 0]%Z, (V3 (6/10) 0 0), a. split; [apply ex_box4_positive|]. split; [apply ex_box4_ortho|]. split; [cbn; repeat split; try lia; discriminate|]. split; [cbn; lra|].
  split; [cbn; unfold fits; repeat split; intros; lra|]. split; [unfold in_box; cbn; repeat split; apply Rabs_le; lra|]. split; [exact SH|].
  split. { exists 0%Z, 0%Z, 0%Z. split; [unfold allowed; auto|]. apply vec_eq; cbn; unfold centre; field. }
  split. { unfold norm, dot; cbn. replace (6 / 10 * (6 / 10) + 0 * 0 + 0 * 0) with ((6/10) * (6/10)) by ring. rewrite sqrt_square; lra. }
  split; [exact E|]. change (shape_of (eff_width ex_box4 (sv_width ex_sv))) with [4; 4; 4]%Z in G. change (shape_of (sv_width ex_sv)) with [4; 4; 4]%Z. rewrite (G _ SH).
  destruct in_dec as [I|I]; auto. exfalso. apply in_map_iff in I as (h & Eh & Hh). apply ex_only in Hh. rewrite Hh in Eh. discriminate.
Qed.

(** In a tilted box voxels far from every particle are marked: the window is continued along (0, Ly, 0), which is no lattice vector. *)
Definition ex_tilt : box := mk_box 4 4 0 (1/2) 0 0 true.
Definition ex_sv2 : sv := SV (4, 4, 1)%Z (6/5) None None.
Definition ex_pt2 : vec3 := V3 (-1/2) (-3/2) 0.
Theorem C52_tilted_refuted : exists s b p n a, positive b /\ good_width b (sv_width s) /\ 0 < sv_r s /\ in_each (fits (sv_r s)) b (sv_width s) /\ contains b p = true /\
  in_shape (shape_of (sv_width s)) n /\ (forall u, separation b (sv_width s) n p u -> sv_r s < norm u) /\
  sv_compute s b (sv_writes s b [p]) = VDone (SV (sv_width s) (sv_r s) (Some (b_2d b)) (Some a)) /\ ma_get a (row_major (shape_of (sv_width s)) n) = Some 1%Z.
Proof.
  destruct (compute_writes ex_sv2 ex_tilt [ex_pt2] (sv_writes ex_sv2 ex_tilt [ex_pt2]) eq_refl eq_refl (Permutation_refl _)) as (a & E & S & G).
  assert (SH : in_shape [4; 4; 1]%Z [1; 3; 0]%Z) by (repeat constructor; lia). assert (HP : positive ex_tilt) by (apply mk_box_positive; intros; try lra; discriminate).
  exists ex_sv2, ex_tilt, ex_pt2, [1; 3; 0]%Z, a. split; [exact HP|]. split; [cbn; repeat split; lia|]. split; [cbn; lra|].
  split; [cbn; unfold fits; repeat split; intros; lra|]. split. { apply contains_iff. cbv zeta. unfold make_fractional, ex_tilt; cbn. repeat split; try lra; discriminate. } split; [exact SH|].
  split.
  { intros u (i & j & k & (_ & _ & _ & A2) & ->). apply Rsqr_incrst_0; [|cbn; lra|apply sqrt_pos]. unfold Rsqr. rewrite norm_sq.
    match goal with |- _ < dot ?v ?v => assert (Ev : dot v v = IZR (4 * ((2 * i + j) * (2 * i + j)) + (3 + 4 * j) * (3 + 4 * j))) end.
    { repeat rewrite ?plus_IZR, ?mult_IZR. unfold dot; cbn. unfold centre. field. }
    rewrite Ev. apply Rlt_le_trans with (IZR 4); [cbn; lra|]. apply IZR_le. destruct (Z.eq_dec j (-1)) as [-> |NJ].
    - destruct (Z_le_gt_dec i 0); nia.
    - assert (9 <= (3 + 4 * j) * (3 + 4 * j))%Z by (destruct (Z_le_gt_dec j 0); nia). pose proof (Z.square_nonneg (2 * i + j)). lia. }
  split; [exact E|]. change (shape_of (eff_width ex_tilt (sv_width ex_sv2))) with [4; 4; 1]%Z in G. change (shape_of (sv_width ex_sv2)) with [4; 4; 1]%Z. rewrite (G _ SH).
  destruct in_dec as [I|I]; auto. exfalso. apply I. unfold sv_writes. cbn [flat_map]. rewrite app_nil_r. apply in_map_iff.
  exists (vox_index (grid_of ex_tilt (4, 4, 1)%Z) (1, -1, 0)%Z, vox_rsq ex_tilt (grid_of ex_tilt (4, 4, 1)%Z) ex_pt2 (1, -1, 0)%Z). split; [reflexivity|].
  unfold vox_hits. apply (in_map (fun t => (vox_index (grid_of ex_tilt (4, 4, 1)%Z) t, vox_rsq ex_tilt (grid_of ex_tilt (4, 4, 1)%Z) ex_pt2 t))). apply filter_In. split.
  - apply in_window. assert (C : Ztrunc (6 / 5 / (4 / 4)) = 1%Z) by (apply trunc_eq; simpl; lra).
    assert (Bx : Ztrunc ((-1 / 2 + 4 / 2) / (4 / 4)) = 1%Z) by (apply trunc_eq; simpl; lra). assert (By : Ztrunc ((-3 / 2 + 4 / 2) / (4 / 4)) = 0%Z) by (apply trunc_eq; simpl; lra).
    repeat split; (apply filter_In; split; [apply in_zrange; unfold vd_bin, vd_cut, vd_g; cbn; rewrite ?C, ?Bx, ?By; lia|reflexivity]).
  - apply Rltb_true. unfold vox_rsq. rewrite wrap_fix.
    + unfold dot, vd_delta, vd_g; cbn. lra.
    + apply HP.
    + intros _. unfold vd_delta, vd_g; cbn. lra.
    + unfold make_fractional, vd_delta, vd_g; cbn. repeat split; intros; lra.
Qed.

(** The hypotheses of [C52_exact] are met by radius 1.2 with cells of size 1. *)
Example C52_ex : positive ex_box4 /\ ortho ex_box4 /\ good_width ex_box4 (4, 4, 4)%Z /\ in_each (fits (6/5)) ex_box4 (4, 4, 4)%Z /\ in_each (wide (6/5)) ex_box4 (4, 4, 4)%Z /\ in_box ex_box4 ex_pt.
Proof.
  split; [apply ex_box4_positive|]. split; [apply ex_box4_ortho|]. split; [cbn; repeat split; try lia; discriminate|]. split; [cbn; unfold fits; repeat split; intros; lra|].
  assert (C : Zfloor (6 / 5 / (4 / 4)) = 1%Z) by (apply Zfloor_imp; simpl; lra).
  split; [cbn; unfold wide; rewrite !C; repeat split; intros; left; simpl; lra|]. unfold in_box; cbn; repeat split; apply Rabs_le; lra.
Qed.
Print Assumptions C52_reject.
Print Assumptions C52_marks.
Print Assumptions C52_exact.
Print Assumptions C52_dimension.
Print Assumptions C52_complete_refuted.
Print Assumptions C52_tilted_refuted.
