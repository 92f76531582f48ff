(** C53: GaussianDensity. *)
From Verif Require Import RBase BoxProofs BoxProofs2 BoxProps MArrayProofs HistProofs2 HistProps ParProofs GridProofs VoxProps Vec.
From Coq Require Import Reals ZArith List Lia Lra Permutation Bool.
From Verif Require Import GridSpec.
Import ListNotations.
Local Open Scope R_scope.

Definition rsum (l : list R) : R := fold_right Rplus 0 l.
Lemma rsum_app l l' : rsum (l ++ l') = rsum l + rsum l'.
Proof. induction l; simpl; lra. Qed.
Lemma rsum_perm l l' : Permutation l l' -> rsum l = rsum l'.
Proof. induction 1; simpl; lra. Qed.
Lemma rsum_of l : sum_of 0 Rplus l = rsum l.
Proof.
  unfold sum_of. assert (H : forall a, fold_left Rplus l a = a + rsum l) by (induction l; intros a0; simpl; [lra|rewrite IHl; lra]). rewrite H. lra.
Qed.
Definition added (hs : list (list Z * R)) (n : list Z) : R := rsum (map snd (filter (fun h => if list_eq_dec Z.eq_dec (fst h) n then true else false) hs)).

(** Additions to one array. *)
Lemma adds_get sh : valid_shape sh -> forall hs a, Forall (fun h => in_shape sh (fst h)) hs -> well_formed a -> ma_shape a = sh ->
  exists a', fold_left gd_add hs (Some a) = Some a' /\ well_formed a' /\ ma_shape a' = sh /\
    forall n, in_shape sh n -> forall x, ma_get a (row_major sh n) = Some x -> ma_get a' (row_major sh n) = Some (x + added hs n).
Proof.
  intros SV. induction hs as [|h hs IH]; intros a F WF SH; cbn [fold_left].
  - exists a. repeat split; auto; try apply WF. intros n Hn x E. rewrite E. f_equal. unfold added; simpl. lra.
  - apply Forall_cons_iff in F as [Fh F]. cbn [gd_add bind]. rewrite SH, get_index_static_spec by (symmetry; apply in_shape_length; auto).
    pose proof (row_major_range _ _ Fh) as RG. assert (SZ : ma_size a = size_of sh) by (destruct WF as (_ & S & _); rewrite S, SH; reflexivity).
    destruct (proj1 (ma_get_defined a (row_major sh (fst h)) WF) ltac:(lia)) as (x0 & E0). rewrite E0. cbn [bind].
    destruct (ma_set a (row_major sh (fst h)) (x0 + snd h)) as [a1|] eqn:E.
    2:{ exfalso. unfold ma_set in E. rewrite SZ in E. destruct (Z.ltb_spec (row_major sh (fst h)) 0); [lia|]. destruct (Z.leb_spec (size_of sh) (row_major sh (fst h))); [lia|discriminate]. }
    destruct (ma_set_get _ _ _ _ WF E) as (WF1 & G1 & G2). assert (SH1 : ma_shape a1 = sh).
    { unfold ma_set in E. destruct (_ || _); [discriminate|]. injection E as <-. exact SH. }
    destruct (IH a1 F WF1 SH1) as (a' & E' & W' & S' & G'). exists a'. split; [exact E'|]. split; [exact W'|]. split; [exact S'|]. intros n Hn x Ex.
    unfold added. cbn [filter]. destruct (list_eq_dec Z.eq_dec (fst h) n) as [EH|NE].
    + rewrite EH in G1, E0. rewrite (G' n Hn _ G1). rewrite E0 in Ex. injection Ex as ->. unfold added. cbn [map rsum fold_right]. f_equal. unfold rsum. lra.
    + rewrite (G' n Hn x); [reflexivity|]. rewrite G2; auto. intros C. apply NE. symmetry. eapply row_major_inj; eauto.
Qed.

(** Thread-local arrays. *)
Definition lget (sh n : list Z) (a : marray R) : R := match ma_get a (row_major sh n) with Some x => x | None => 0 end.
Definition lgood (sh : list Z) (ls : locals (option (marray R))) : Prop := Forall (fun e => exists a, snd e = Some a /\ well_formed a /\ ma_shape a = sh) ls.
Definition ltot (sh n : list Z) (ls : locals (option (marray R))) : R := rsum (map (fun e => match snd e with Some a => lget sh n a | None => 0 end) ls).
Lemma lget_add sh hs a a' n : valid_shape sh -> well_formed a -> ma_shape a = sh -> in_shape sh n -> (forall x, ma_get a (row_major sh n) = Some x -> ma_get a' (row_major sh n) = Some (x + added hs n)) ->
  lget sh n a' = lget sh n a + added hs n.
Proof.
  intros V W S Hn H. unfold lget. pose proof (row_major_range _ _ Hn). destruct (proj1 (ma_get_defined a (row_major sh n) W)) as (x & E). { destruct W as (_ & -> & _). rewrite S. lia. }
  rewrite E, (H x E). reflexivity.
Qed.
Lemma local_adds sh t hs ls : valid_shape sh -> Forall (fun h => in_shape sh (fst h)) hs -> lgood sh ls ->
  lgood sh (local_update (Some (ma_make 0 sh)) (fold_left gd_add hs) t ls) /\
  forall n, in_shape sh n -> ltot sh n (local_update (Some (ma_make 0 sh)) (fold_left gd_add hs) t ls) = ltot sh n ls + added hs n.
Proof.
  intros V F. induction ls as [|[t' o] ls IH]; intros G; cbn [local_update].
  - destruct (adds_get sh V hs (ma_make 0 sh) F (ma_make_wf 0 sh V) eq_refl) as (a' & E & W & S & A). rewrite E. split.
    + constructor; [|constructor]. exists a'. auto.
    + intros n Hn. unfold ltot; cbn [map rsum fold_right snd]. rewrite (lget_add sh hs (ma_make 0 sh) a' n V (ma_make_wf 0 sh V) eq_refl Hn (A n Hn)).
      unfold lget at 1. rewrite make_get by auto. lra.
  - apply Forall_cons_iff in G as [(a & Ea & Wa & Sa) G]. cbn [snd] in Ea. subst o. destruct (Nat.eqb t t').
    + destruct (adds_get sh V hs a F Wa Sa) as (a' & E & W & S & A). rewrite E. split.
      * constructor; [exists a'; auto|exact G].
      * intros n Hn. unfold ltot; cbn [map rsum fold_right snd]. rewrite (lget_add sh hs a a' n V Wa Sa Hn (A n Hn)). lra.
    + destruct (IH G) as [G' T]. split; [constructor; [exists a; auto|exact G']|]. intros n Hn. specialize (T n Hn). unfold ltot in *; cbn [map rsum fold_right snd] in *. unfold rsum in T. rewrite T. lra.
Qed.
Lemma run_adds sh (f : nat -> list (list Z * R)) : valid_shape sh -> forall ev ls, (forall e, In e ev -> Forall (fun h => in_shape sh (fst h)) (f (snd e))) -> lgood sh ls ->
  lgood sh (run_local (Some (ma_make 0 sh)) (fun i => fold_left gd_add (f i)) ev ls) /\
  forall n, in_shape sh n -> ltot sh n (run_local (Some (ma_make 0 sh)) (fun i => fold_left gd_add (f i)) ev ls) = ltot sh n ls + rsum (map (fun e => added (f (snd e)) n) ev).
Proof.
  intros V. induction ev as [|e ev IH]; intros ls F G; cbn [run_local fold_left].
  - split; auto. intros n Hn. simpl. lra.
  - destruct (local_adds sh (fst e) (f (snd e)) ls V (F e (or_introl eq_refl)) G) as [G1 T1]. destruct (IH _ (fun e' H => F e' (or_intror H)) G1) as [G2 T2]. split; [exact G2|].
    intros n Hn. etransitivity; [exact (T2 n Hn)|]. rewrite (T1 n Hn). cbn [map rsum fold_right]. unfold rsum. lra.
Qed.
Lemma all_some_good sh ls : lgood sh ls -> exists l, all_some ls = Some l /\ Forall (fun a => well_formed a /\ ma_size a = size_of sh) l /\
  forall n, rsum (map (lget sh n) l) = ltot sh n ls.
Proof.
  induction 1 as [|[t o] ls (a & Ea & W & S) G IH]; [exists []; repeat split; auto|]. cbn [snd] in Ea. subst o. destruct IH as (l & E & F & T). exists (a :: l). cbn [all_some]. rewrite E. cbn [bind].
  split; [reflexivity|]. split; [constructor; auto; split; auto; destruct W as (_ & -> & _); rewrite S; auto|]. intros n. unfold ltot in *. cbn [map rsum fold_right snd]. specialize (T n). unfold rsum in *. rewrite T. reflexivity.
Qed.

(** Whatever the box, points and schedule: the sums of all additions. *)
Lemma compute_adds s b points values ev ev2 : width_pos (eff_width b (gd_width s)) = true -> same_dim (gd_dim s) (b_2d b) = true ->
  execution 0 (length points) ev -> execution 0 (Z.to_nat (size_of (shape_of (eff_width b (gd_width s))))) ev2 ->
  exists a, gd_compute s b points values ev ev2 = VDone (GD (eff_width b (gd_width s)) (gd_r s) (gd_sigma s) (Some (b_2d b)) (Some a)) /\ ma_shape a = shape_of (eff_width b (gd_width s)) /\
    forall n, in_shape (shape_of (eff_width b (gd_width s))) n ->
      ma_get a (row_major (shape_of (eff_width b (gd_width s))) n) =
      Some (rsum (map (fun i => added (gd_adds s b (nth i points v0) (match values with Some l => nth i l 0 | None => 1 end)) n) (seq 0 (length points)))).
Proof.
  intros W SD EV EV2. unfold gd_compute. rewrite SD, W. cbn [negb]. set (wd := eff_width b (gd_width s)) in *. set (sh := shape_of wd) in *.
  assert (V : valid_shape sh). { unfold sh. destruct wd as [[x y] z]. unfold width_pos in W. rewrite !andb_true_iff, !Z.ltb_lt in W. repeat constructor; lia. }
  set (f := fun i => gd_adds s b (nth i points v0) (match values with Some l => nth i l 0 | None => 1 end)).
  destruct (run_adds sh f V ev []) as [G T].
  { intros e _. apply Forall_forall. intros h Hh. unfold f, gd_adds in Hh. apply in_map_iff in Hh as (h0 & <- & Hh). cbn [fst]. eapply hit_shape; eauto. }
  { constructor. }
  change (run_local (Some (ma_make 0 sh)) _ ev []) with (run_local (Some (ma_make 0 sh)) (fun i => fold_left gd_add (f i)) ev []).
  destruct (all_some_good sh _ G) as (l & E & F & TL). rewrite E. cbn [bind].
  destruct (C16_reduce_into_zeroed 0 Rplus l ev2 sh) as (a & EA & SA & DA); auto.
  { repeat split; intros; lra. }
  assert (WA : well_formed a).
  { destruct (ts_reduce_spec 0 Rplus ltac:(repeat split; intros; lra) l ev2 (ma_make 0 sh) (ma_make_wf 0 sh V)) as (a2 & EA2 & W2 & _); [cbn; rewrite prodz_size; auto|cbn; rewrite prodz_size; auto|]. rewrite EA in EA2. injection EA2 as <-. exact W2. }
  rewrite EA. exists a. split; auto. split; auto. intros n Hn. pose proof (row_major_range _ _ Hn) as RG.
  assert (NT : nth (Z.to_nat (row_major sh n)) (ma_data a) 0 = rsum (map (fun i => added (f i) n) (seq 0 (length points)))).
  { rewrite DA by lia. rewrite rsum_of. transitivity (rsum (map (lget sh n) l)).
    - f_equal. apply map_ext_in. intros x Hx. rewrite Forall_forall in F. destruct (F x Hx) as [Wx Sx]. unfold lget, ma_get. rewrite Sx. destruct (Z.ltb_spec (row_major sh n) 0); [lia|]. destruct (Z.leb_spec (size_of sh) (row_major sh n)); [lia|]. cbn [orb].
      destruct (nth_error (ma_data x) (Z.to_nat (row_major sh n))) eqn:NE; [apply nth_error_nth; auto|]. apply nth_error_None in NE. rewrite nth_overflow; auto.
    - rewrite TL, (T n Hn). unfold ltot at 1. cbn [map rsum fold_right]. rewrite Rplus_0_l. rewrite <- (map_map snd (fun i => added (f i) n)). apply rsum_perm, Permutation_map.
      apply execution_perm in EV. unfold range in EV. rewrite Nat.sub_0_r in EV. exact EV. }
  etransitivity; [|exact (f_equal Some NT)]. unfold ma_get. destruct WA as (_ & SZ & LN). rewrite SA in SZ. rewrite SZ in *. destruct (Z.ltb_spec (row_major sh n) 0); [lia|]. destruct (Z.leb_spec (size_of sh) (row_major sh n)); [lia|]. cbn [orb].
  apply nth_error_nth'. lia.
Qed.

Lemma added_none hs n : ~ In n (map fst hs) -> added hs n = 0.
Proof.
  unfold added. induction hs as [|h hs IH]; intros H; [reflexivity|]. cbn [filter]. destruct (list_eq_dec Z.eq_dec (fst h) n) as [E|E]; [destruct H; left; auto|]. apply IH. intros C. apply H. right; auto.
Qed.
Lemma added_one hs h : NoDup (map fst hs) -> In h hs -> added hs (fst h) = snd h.
Proof.
  induction hs as [|h0 hs IH]; intros N H; [destruct H|]. cbn [map] in N. apply NoDup_cons_iff in N as [N0 N]. unfold added. cbn [filter]. destruct H as [-> |H].
  - destruct (list_eq_dec Z.eq_dec (fst h) (fst h)) as [_|C]; [|congruence]. cbn [map rsum fold_right]. change (snd h + added hs (fst h) = snd h). rewrite added_none by auto. lra.
  - destruct (list_eq_dec Z.eq_dec (fst h0) (fst h)) as [C|_]; [exfalso; apply N0; rewrite C; apply in_map; auto|]. apply IH; auto.
Qed.
Lemma gaussian_eq sigma two_d v rsq : sigma <> 0 -> 0 <= rsq -> gd_gaussian sigma two_d v rsq = v * gaussian sigma (if two_d then 2 else 3) (sqrt rsq).
Proof.
  intros Hs Hr. unfold gd_gaussian, gaussian. rewrite sqrt_sqrt by auto. pose proof PI_RGT_0. assert (A : 0 < Rabs sigma) by (apply Rabs_pos_lt; auto).
  assert (E : sqrt (2 * PI * (sigma * sigma)) = sqrt (2 * PI) * Rabs sigma) by (rewrite sqrt_mult; [rewrite <- sqrt_Rsqr_abs; reflexivity|lra|nra]). rewrite E.
  assert (0 < sqrt (2 * PI) * Rabs sigma) by (apply Rmult_lt_0_compat; auto; apply sqrt_lt_R0; lra). set (q := sqrt (2 * PI) * Rabs sigma) in *.
  replace ((1 / q) ^ (if two_d then 2 else 3)) with (/ q ^ (if two_d then 2 else 3)) by (unfold Rdiv; rewrite Rmult_1_l, pow_inv; auto). field. apply pow_nonzero. lra.
Qed.

Theorem C53_reject w r sigma : (gd_make w r sigma = None <-> r <= 0) /\ (forall s, gd_make w r sigma = Some s -> s = GD w r sigma None None /\ 0 < r).
Proof.
  unfold gd_make. destruct (Rleb_spec r 0) as [A|A]; split; try split; intros; auto; try discriminate; try lra; injection H as <-; auto.
Qed.
(** Values of the wrong length are rejected before anything is computed. *)
Theorem C53_values s b points l ev ev2 : length l <> length points -> gd_py_compute s b points (Some l) ev ev2 = VRaised.
Proof. intros H. unfold gd_py_compute. apply Nat.eqb_neq in H. rewrite H. reflexivity. Qed.

Lemma fits_of_narrow r b w : positive b -> 0 < r -> good_width b w -> in_each (narrow r) b w -> in_each (fits r) b w.
Proof.
  intros (HN & X & Y & Z) Hr HW. destruct w as [[x y] z]. destruct HW as (A & B & C & _). intros (Nx & Ny & Nz). unfold fits. repeat split; intros.
  - apply (narrow_fits _ x (b_px b) r); auto.
  - apply (narrow_fits _ y (b_py b) r); auto.
  - apply (narrow_fits _ z (b_pz b) r); auto. apply Nz; auto.
Qed.

(** The density is the sum of one contribution per particle, for every schedule of the loop and of the reduction. *)
Theorem C53_density s b points values ev ev2 :
  positive b -> ortho b -> good_width b (gd_width s) -> 0 < gd_r s -> gd_sigma s <> 0 -> in_each (narrow (gd_r s)) b (gd_width s) -> Forall (in_box b) points ->
  match values with Some l => length l = length points | None => True end ->
  same_dim (gd_dim s) (b_2d b) = true -> execution 0 (length points) ev -> execution 0 (Z.to_nat (size_of (shape_of (gd_width s)))) ev2 ->
  exists a, gd_py_compute s b points values ev ev2 = VDone (GD (gd_width s) (gd_r s) (gd_sigma s) (Some (b_2d b)) (Some a)) /\ ma_shape a = shape_of (gd_width s) /\
    forall n, in_shape (shape_of (gd_width s)) n -> exists cs, length cs = length points /\
      (forall i, (i < length points)%nat -> contribution b (gd_width s) (gd_r s) (gd_sigma s) n (nth i points v0) (match values with Some l => nth i l 0 | None => 1 end) (nth i cs 0)) /\
      ma_get a (row_major (shape_of (gd_width s)) n) = Some (fold_right Rplus 0 cs).
Proof.
  intros HP HO HW Hr Hs HNr HB HV SD EV EV2. pose proof (fits_of_narrow _ _ _ HP Hr HW HNr) as HF. pose proof (eff_good _ _ HW) as EW.
  destruct (compute_adds s b points values ev ev2) as (a & E & S & G); auto. { rewrite EW. eapply width_good; eauto. } { rewrite EW; auto. }
  rewrite EW in *. exists a. split. { unfold gd_py_compute. destruct values as [l|]; auto. rewrite HV, Nat.eqb_refl. auto. } split; auto. intros n Hn.
  eexists. split; [|split; [|exact (G n Hn)]]. { rewrite map_length, seq_length. reflexivity. }
  intros i Hi. set (v := match values with Some l => nth i l 0 | None => 1 end).
  assert (EN : nth i (map (fun i0 => added (gd_adds s b (nth i0 points v0) match values with Some l => nth i0 l 0 | None => 1 end) n) (seq 0 (length points))) 0 = added (gd_adds s b (nth i points v0) v) n).
  { rewrite (nth_indep _ 0 (added (gd_adds s b (nth 0%nat points v0) match values with Some l => nth 0%nat l 0 | None => 1 end) n)) by (rewrite map_length, seq_length; auto).
    rewrite (map_nth (fun i0 => added (gd_adds s b (nth i0 points v0) match values with Some l => nth i0 l 0 | None => 1 end) n)), seq_nth by auto. reflexivity. }
  rewrite EN. set (p := nth i points v0). assert (Hp : in_box b p) by (rewrite Forall_forall in HB; apply HB, nth_In, Hi).
  assert (HND : NoDup (map fst (gd_adds s b p v))). { unfold gd_adds. rewrite map_map. cbn [fst]. apply (hits_NoDup b (gd_width s) (gd_r s) HP HO HW Hr HF p Hp HNr). }
  destruct (in_dec (list_eq_dec Z.eq_dec) n (map fst (gd_adds s b p v))) as [I|I].
  - apply in_map_iff in I as (h & <- & Hh). rewrite added_one by auto. unfold gd_adds in Hh. apply in_map_iff in Hh as (h0 & <- & Hh). cbn [fst snd] in *.
    destruct (hit_distance b (gd_width s) (gd_r s) HP HO HW Hr HF p h0 Hp Hh) as (_ & B & D). exists (sqrt (snd h0)). split; [exact D|]. 
    assert (LT : sqrt (snd h0) < gd_r s). { apply Rsqr_incrst_0; [|apply sqrt_pos|lra]. unfold Rsqr. rewrite sqrt_sqrt; lra. }
    split; [intros; lra|]. intros _. left. apply gaussian_eq; tauto.
  - rewrite added_none by auto.
    assert (SP : in_space b (vsub (voxel_centre b (gd_width s) n) p)) by (apply centre_space; auto).
    destruct (ortho_wrap b _ HP HO SP) as [W1 W2]. exists (norm (wrap b (vsub (voxel_centre b (gd_width s) n) p))). split.
    + split; [eexists; split; [exact W1|reflexivity]|]. intros u Hu. apply sqrt_le_1_alt, W2, Hu.
    + split; [reflexivity|]. intros _. right. split; [reflexivity|]. intros u SU NU SF. apply I.
      destruct (hit_complete b (gd_width s) (gd_r s) HP HO HW Hr HF p n u Hp Hn SU NU SF) as (h & Hh & <-). unfold gd_adds. rewrite map_map. cbn [fst]. apply in_map. exact Hh.
Qed.

(** With a window that is wide enough every voxel nearer than r_max gets the particle's Gaussian exactly once. *)
Theorem C53_exact s b points values ev ev2 :
  positive b -> ortho b -> good_width b (gd_width s) -> 0 < gd_r s -> gd_sigma s <> 0 -> in_each (narrow (gd_r s)) b (gd_width s) -> in_each (wide (gd_r s)) b (gd_width s) -> Forall (in_box b) points ->
  match values with Some l => length l = length points | None => True end ->
  same_dim (gd_dim s) (b_2d b) = true -> execution 0 (length points) ev -> execution 0 (Z.to_nat (size_of (shape_of (gd_width s)))) ev2 ->
  exists a, gd_py_compute s b points values ev ev2 = VDone (GD (gd_width s) (gd_r s) (gd_sigma s) (Some (b_2d b)) (Some a)) /\
    forall n, in_shape (shape_of (gd_width s)) n -> exists cs, length cs = length points /\
      (forall i, (i < length points)%nat -> exists d, is_distance b (gd_width s) n (nth i points v0) d /\
         nth i cs 0 = if Rltb d (gd_r s) then (match values with Some l => nth i l 0 | None => 1 end) * gaussian (gd_sigma s) (if b_2d b then 2 else 3) d else 0) /\
      ma_get a (row_major (shape_of (gd_width s)) n) = Some (fold_right Rplus 0 cs).
Proof.
  intros HP HO HW Hr Hs HNr HWd HB HV SD EV EV2. destruct (C53_density s b points values ev ev2) as (a & E & _ & G); auto. exists a. split; auto. intros n Hn.
  destruct (G n Hn) as (cs & L & C & Q). exists cs. split; auto. split; auto. intros i Hi. destruct (C i Hi) as (d & D & Far & Near). exists d. split; auto.
  destruct (Rltb_spec d (gd_r s)) as [A|A]; [|apply Far; lra]. destruct (Near A) as [|[_ B]]; auto. exfalso. destruct D as [(u & SU & NU) _]. apply (B u SU); [lra|].
  destruct (gd_width s) as [[wx wy] wz]. destruct HWd as (X & Y & Z). repeat split; [left; exact X|left; exact Y|intros E2; left; exact (Z E2)].
Qed.

(** The first computation fixes the dimension. *)
Fixpoint gd_history (s : gd) (calls : list (box * list vec3 * option (list R) * list (nat * nat) * list (nat * nat))) : option gd :=
  match calls with
  | [] => Some s
  | (b, points, values, ev, ev2) :: calls =>
      match gd_compute s b points values ev ev2 with VDone s' => gd_history s' calls | VRaised => gd_history s calls | VUndefined => None end
  end.
Lemma gd_done_dim s b points values ev ev2 s' : gd_compute s b points values ev ev2 = VDone s' -> same_dim (gd_dim s) (b_2d b) = true /\ gd_dim s' = Some (b_2d b).
Proof.
  unfold gd_compute. destruct (same_dim _ _); cbn [negb]; [|discriminate]. destruct (negb _); [discriminate|]. destruct (bind _ _); [|discriminate]. intros E. injection E as <-. auto.
Qed.
Lemma gd_raised s b points values ev ev2 : gd_compute s b points values ev ev2 = VRaised <-> same_dim (gd_dim s) (b_2d b) = false.
Proof.
  unfold gd_compute. destruct (same_dim _ _); cbn [negb]; [|split; auto]. split; intros C; [|discriminate]. destruct (negb _); [discriminate|]. destruct (bind _ _); discriminate.
Qed.
Lemma gd_dim_kept calls : forall s d s', gd_dim s = Some d -> gd_history s calls = Some s' -> gd_dim s' = Some d.
Proof.
  induction calls as [|[[[[b points] values] ev] ev2] calls IH]; intros s d s' D H; cbn [gd_history] in H; [congruence|].
  destruct (gd_compute s b points values ev ev2) as [s1| |] eqn:E; [|eauto|discriminate]. apply gd_done_dim in E as [E1 E2]. apply (IH s1 d s'); auto.
  rewrite D in E1. cbn in E1. apply eqb_prop in E1. congruence.
Qed.
Theorem C53_dimension w r sigma s0 s calls b points values ev ev2 : gd_make w r sigma = Some s0 -> gd_history s0 calls = Some s ->
  (gd_compute s b points values ev ev2 = VRaised <-> exists b0 p0 v0' e0 e0' rest, calls = (b0, p0, v0', e0, e0') :: rest /\ b_2d b0 <> b_2d b).
Proof.
  intros M H. apply C53_reject in M as [-> _]. rewrite gd_raised. destruct calls as [|[[[[b0 p0] vv] e0] e0'] rest].
  - injection H as <-. cbn. split; [discriminate|]. intros (? & ? & ? & ? & ? & ? & C & _). discriminate.
  - cbn [gd_history] in H. destruct (gd_compute _ b0 p0 vv e0 e0') as [s1| |] eqn:E; [|apply gd_raised in E; discriminate|discriminate]. apply gd_done_dim in E as [_ E].
    apply (gd_dim_kept _ _ (b_2d b0)) in H; [|exact E]. rewrite H. cbn [same_dim]. rewrite eqb_false_iff. split.
    + intros C. exists b0, p0, vv, e0, e0', rest. auto.
    + intros (? & ? & ? & ? & ? & ? & C & NE). injection C as <- <- <- <- <- <-. exact NE.
Qed.

(** *** Counterexamples *)
(** A voxel at distance 0.6 < r_max = 0.9 gets nothing. *)
Theorem C53_complete_refuted : exists s b p n ev ev2 u a, positive b /\ ortho b /\ good_width b (gd_width s) /\ 0 < gd_r s /\ gd_sigma s <> 0 /\ in_each (narrow (gd_r s)) b (gd_width s) /\ in_box b p /\
  execution 0 1 ev /\ execution 0 (Z.to_nat (size_of (shape_of (gd_width s)))) ev2 /\
  in_shape (shape_of (gd_width s)) n /\ separation b (gd_width s) n p u /\ norm u < gd_r s /\
  gd_py_compute s b [p] None ev ev2 = VDone (GD (gd_width s) (gd_r s) (gd_sigma s) (Some (b_2d b)) (Some a)) /\ ma_get a (row_major (shape_of (gd_width s)) n) = Some 0.
Proof.
  set (s := GD (4, 4, 4)%Z (9/10) 1 None None). pose proof (sequential_execution 0 1 0) as E1. pose proof (sequential_execution 0 (Z.to_nat (size_of (shape_of (4, 4, 4)%Z))) 0) as E2.
  destruct (compute_adds s ex_box4 [ex_pt] None _ _ eq_refl eq_refl E1 E2) as (a & E & S & G).
  assert (SH : in_shape [4; 4; 4]%Z [1; 0; 0]%Z) by (repeat constructor; lia).
  exists s, ex_box4, ex_pt, [1; 0; 0]%Z. eexists _, _, (V3 (6/10) 0 0), a. split; [apply ex_box4_positive|]. split; [apply ex_box4_ortho|]. split; [cbn; repeat split; try lia; discriminate|]. split; [cbn; lra|]. split; [cbn; lra|].
  assert (C : Zfloor (9 / 10 / (4 / 4)) = 0%Z) by (apply Zfloor_imp; simpl; lra).
  split; [cbn; unfold narrow; rewrite !C; repeat split; intros; lia|]. split; [unfold in_box; cbn; repeat split; apply Rabs_le; lra|]. split; [exact E1|]. split; [exact E2|]. split; [exact SH|].
  split. { exists 0%Z, 0%Z, 0%Z. split; [unfold allowed; auto|]. apply vec_eq; cbn; unfold centre; field. }
  split. { unfold norm, dot; cbn. replace (6 / 10 * (6 / 10) + 0 * 0 + 0 * 0) with ((6/10) * (6/10)) by ring. rewrite sqrt_square; lra. }
  split; [exact E|]. change (shape_of (eff_width ex_box4 (gd_width s))) with [4; 4; 4]%Z in G. change (shape_of (gd_width s)) with [4; 4; 4]%Z. rewrite (G _ SH). f_equal.
  cbn [length seq map rsum fold_right nth]. rewrite added_none; [lra|]. intros I. unfold gd_adds in I. rewrite map_map in I. cbn [fst] in I. apply in_map_iff in I as (h & Eh & Hh).
  assert (Q : In h (sv_writes ex_sv ex_box4 [ex_pt])) by (unfold sv_writes; cbn [flat_map]; rewrite app_nil_r; exact Hh). apply ex_only in Q. rewrite Q in Eh. discriminate.
Qed.

(** A window of 3 bins on a grid of 2: the particle's Gaussian is added twice. *)
Definition ex_box2 : box := mk_box 4 4 0 0 0 0 true.
Definition ex_gd : gd := GD (2, 1, 1)%Z (5/2) 1 None None.
Definition ex_p2 : vec3 := V3 (-1) 0 0.
Lemma ex_adds : exists g0, gd_adds ex_gd ex_box2 ex_p2 1 = [([1; 0; 0]%Z, gd_gaussian 1 true 1 4); ([0; 0; 0]%Z, g0); ([1; 0; 0]%Z, gd_gaussian 1 true 1 4)].
Proof.
  assert (C : Ztrunc (5 / 2 / (4 / 2)) = 1%Z) by (apply trunc_eq; simpl; lra). assert (C1 : Ztrunc (5 / 2 / (4 / 1)) = 0%Z) by (apply trunc_eq; simpl; lra).
  assert (Bx : Ztrunc ((-1 + 4 / 2) / (4 / 2)) = 0%Z) by (apply trunc_eq; simpl; lra). assert (By : Ztrunc ((0 + 4 / 2) / (4 / 1)) = 0%Z) by (apply trunc_eq; simpl; lra).
  assert (HP : positive ex_box2) by (apply mk_box_positive; intros; try lra; discriminate).
  set (g := grid_of ex_box2 (2, 1, 1)%Z).
  assert (W : vox_window (5/2) g ex_p2 = [(-1, 0, 0); (0, 0, 0); (1, 0, 0)]%Z).
  { unfold vox_window, g, grid_of, vd_span, vd_bin, vd_cut, vd_g. cbn [eff_width ex_box2 mk_box set_L b_2d vg_x vg_y vg_z vd_flat vd_L vd_w vd_per b_L vx vy vz b_px b_py b_pz ex_p2]. rewrite C, C1, Bx, By. reflexivity. }
  assert (R0 : vox_rsq ex_box2 g ex_p2 (0, 0, 0)%Z = 0).
  { unfold vox_rsq. rewrite wrap_fix; [unfold dot, vd_delta, vd_g; cbn; lra|apply HP|intros _; unfold vd_delta, vd_g; cbn; lra|unfold make_fractional, vd_delta, vd_g; cbn; repeat split; intros; lra]. }
  assert (R1 : vox_rsq ex_box2 g ex_p2 (-1, 0, 0)%Z = 4).
  { unfold vox_rsq. rewrite wrap_fix; [unfold dot, vd_delta, vd_g; cbn; lra|apply HP|intros _; unfold vd_delta, vd_g; cbn; lra|unfold make_fractional, vd_delta, vd_g; cbn; repeat split; intros; lra]. }
  assert (R2 : vox_rsq ex_box2 g ex_p2 (1, 0, 0)%Z = 4).
  { rewrite <- R1. unfold vox_rsq. match goal with |- dot (wrap _ ?u) _ = dot (wrap _ ?v) _ => replace (wrap ex_box2 u) with (wrap ex_box2 v); [reflexivity|] end.
    apply wrap_canonical; [apply HP|intros _; unfold vd_delta, vd_g; cbn; lra|intros _; unfold vd_delta, vd_g; cbn; lra|]. exists (-1)%Z, 0%Z, 0%Z. split; [unfold allowed; cbn; repeat split; intros; discriminate || reflexivity|]. apply vec_eq; unfold vd_delta, vd_g; cbn; lra. }
  exists (gd_gaussian 1 true 1 0). unfold gd_adds, vox_hits. cbn [gd_r gd_width gd_sigma ex_gd]. fold g. rewrite W. cbn [filter]. rewrite R0, R1, R2.
  assert (T4 : Rltb 4 (5 / 2 * (5 / 2)) = true) by (apply Rltb_true; lra). assert (T0 : Rltb 0 (5 / 2 * (5 / 2)) = true) by (apply Rltb_true; lra). rewrite T4, T0. cbn [map fst snd]. rewrite R0, R1, R2. reflexivity.
Qed.
Theorem C53_once_refuted : exists s b p n ev ev2 d a, positive b /\ ortho b /\ good_width b (gd_width s) /\ 0 < gd_r s /\ gd_sigma s <> 0 /\ in_each (fits (gd_r s)) b (gd_width s) /\ in_box b p /\
  execution 0 1 ev /\ execution 0 (Z.to_nat (size_of (shape_of (gd_width s)))) ev2 /\
  in_shape (shape_of (gd_width s)) n /\ is_distance b (gd_width s) n p d /\ d < gd_r s /\
  gd_py_compute s b [p] None ev ev2 = VDone (GD (gd_width s) (gd_r s) (gd_sigma s) (Some (b_2d b)) (Some a)) /\
  ma_get a (row_major (shape_of (gd_width s)) n) = Some (2 * gaussian (gd_sigma s) 2 d).
Proof.
  pose proof (sequential_execution 0 1 0) as E1. pose proof (sequential_execution 0 (Z.to_nat (size_of (shape_of (2, 1, 1)%Z))) 0) as E2.
  destruct (compute_adds ex_gd ex_box2 [ex_p2] None _ _ eq_refl eq_refl E1 E2) as (a & E & S & G).
  assert (SH : in_shape [2; 1; 1]%Z [1; 0; 0]%Z) by (repeat constructor; lia). assert (HP : positive ex_box2) by (apply mk_box_positive; intros; try lra; discriminate).
  assert (HO : ortho ex_box2) by (repeat split). assert (HW : good_width ex_box2 (2, 1, 1)%Z) by (cbn; repeat split; lia). assert (HF : in_each (fits (5/2)) ex_box2 (2, 1, 1)%Z) by (cbn; unfold fits; repeat split; intros; lra).
  assert (HB : in_box ex_box2 ex_p2) by (unfold in_box; cbn; repeat split; apply Rabs_le; lra).
  exists ex_gd, ex_box2, ex_p2, [1; 0; 0]%Z. eexists _, _, 2, a. split; [exact HP|]. split; [exact HO|]. split; [exact HW|]. split; [cbn; lra|]. split; [cbn; lra|]. split; [exact HF|]. split; [exact HB|].
  split; [exact E1|]. split; [exact E2|]. split; [exact SH|]. split.
  { split.
    - exists (V3 2 0 0). split; [exists 0%Z, 0%Z, 0%Z; split; [unfold allowed; auto|apply vec_eq; cbn; unfold centre; field]|]. unfold norm, dot; cbn. replace (2 * 2 + 0 * 0 + 0 * 0) with (2 * 2) by ring. apply sqrt_square; lra.
    - intros u (i & j & k & _ & ->). rewrite <- (sqrt_square 2) by lra. apply sqrt_le_1_alt.
      match goal with |- _ <= dot ?v ?v => assert (Ev : dot v v = IZR (4 * ((2 * i + 1) * (2 * i + 1)) + 16 * (j * j))) end.
      { repeat rewrite ?plus_IZR, ?mult_IZR. unfold dot; cbn. unfold centre. field. }
      rewrite Ev. rewrite <- mult_IZR. apply IZR_le. pose proof (Z.square_nonneg j). assert (1 <= (2 * i + 1) * (2 * i + 1))%Z by (destruct (Z_le_gt_dec 0 i); nia). lia. }
  split; [cbn; lra|]. split; [exact E|]. change (shape_of (eff_width ex_box2 (gd_width ex_gd))) with [2; 1; 1]%Z in G. change (shape_of (gd_width ex_gd)) with [2; 1; 1]%Z. rewrite (G _ SH). f_equal.
  cbn [length seq map fold_right nth]. destruct ex_adds as (g0 & EA). unfold rsum; cbn [fold_right]. rewrite EA. unfold added. cbn. rewrite !gaussian_eq by lra. replace (sqrt 4) with 2 by (rewrite <- (sqrt_square 2) at 1 by lra; f_equal; ring).
  cbn [ex_gd gd_sigma]. lra.
Qed.

Example C53_ex : positive ex_box4 /\ ortho ex_box4 /\ good_width ex_box4 (4, 4, 4)%Z /\ in_each (narrow (6/5)) ex_box4 (4, 4, 4)%Z /\ in_each (wide (6/5)) ex_box4 (4, 4, 4)%Z /\ in_box ex_box4 ex_pt.
Proof.
  destruct C52_ex as (A & B & C & _ & D & E). repeat (split; [assumption|]). split; [|auto].
  assert (F : Zfloor (6 / 5 / (4 / 4)) = 1%Z) by (apply Zfloor_imp; simpl; lra). cbn; unfold narrow; rewrite !F. repeat split; intros; lia.
Qed.
Print Assumptions C53_reject.
Print Assumptions C53_values.
Print Assumptions C53_density.
Print Assumptions C53_exact.
Print Assumptions C53_dimension.
Print Assumptions C53_complete_refuted.
Print Assumptions C53_once_refuted.
