(** Proofs about LinkCell with 32-bit integers. *)
From Coq Require Import ZArith Lia.
From Flocq Require Import Core BinarySingleNaN.
From Verif Require Import NListProofs MArrayProofs LinkCellProofs LinkCellProofs2 LinkCellProofs3 LinkCellProps FcellProofs Flc32Spec.
Open Scope Z_scope.

Lemma u32_small z : 0 <= z < 2 ^ 32 -> u32 z = z.
Proof. intros H. unfold u32. apply Z.mod_small. auto. Qed.
Lemma to_int32_small z : - 2 ^ 31 <= z < 2 ^ 31 -> to_int32 z = z.
Proof. intros H. unfold to_int32. rewrite Z.mod_small by lia. lia. Qed.
Lemma nth_error_ext' {T} (l l' : list T) : length l = length l' -> (forall k, (k < length l)%nat -> nth_error l k = nth_error l' k) -> l = l'.
Proof.
  revert l'. induction l as [|x l IH]; intros [|y l'] HL H; try discriminate; auto. f_equal.
  - specialize (H 0%nat ltac:(simpl; lia)). cbn in H. congruence.
  - apply IH; [simpl in HL; lia|]. intros k Hk. apply (H (S k)). simpl. lia.
Qed.
Lemma nth_error_upd {T} (l : list T) p x k : (p < length l)%nat -> nth_error (upd l p x) k = if Nat.eqb k p then Some x else nth_error l k.
Proof.
  revert p k. induction l as [|y l IH]; intros [|p] [|k] Hp; simpl in *; try lia; auto. apply IH. lia.
Qed.
Lemma heads32_spec (n nc : Z) : 0 <= n -> 0 <= nc -> n + nc < 2 ^ 32 -> heads32 n nc = Some (repeat 0 (Z.to_nat n) ++ repeat TERMINATOR (Z.to_nat nc)).
Proof.
  intros Hn Hc Hs. unfold heads32. rewrite u32_small by lia. set (f := fun o cell => obind o _).
  assert (G : forall k, (k <= Z.to_nat nc)%nat -> fold_left f (seq 0 k) (Some (repeat 0 (Z.to_nat (n + nc)))) =
    Some (repeat 0 (Z.to_nat n) ++ repeat TERMINATOR k ++ repeat 0 (Z.to_nat nc - k))).
  { induction k as [|k IH]; intros Hk.
    - cbn [seq fold_left repeat app]. rewrite <- repeat_app. do 2 f_equal. lia.
    - rewrite seq_S, fold_left_app, IH by lia. cbn [fold_left plus]. unfold f at 1. cbn [obind]. rewrite u32_small by lia.
      rewrite wr_some by (rewrite !app_length, !repeat_length; lia). f_equal. rewrite !app_assoc.
      replace (Z.to_nat nc - k)%nat with (S (Z.to_nat nc - S k)) by lia. cbn [repeat].
      replace (Z.to_nat (n + Z.of_nat k)) with (length (repeat 0 (Z.to_nat n) ++ repeat TERMINATOR k)) by (rewrite app_length, !repeat_length; lia).
      rewrite upd_app. rewrite repeat_cons, <- !app_assoc. reflexivity. }
  rewrite G by lia. rewrite Nat.sub_diag. cbn [repeat]. rewrite app_nil_r. reflexivity.
Qed.

Section Same.
Variable conv : Z -> option Z.
Hypothesis HU : unsigned_conv conv.
Variables (b : fbox) (points : list fvec) (dim : Z * Z * Z).
Hypothesis HD : dim_pos dim.
Hypothesis HC : countable (length points) dim.
Let n := length points.

Lemma cells_sum : 1 <= num_cells dim /\ num_cells dim + Z.of_nat n < 2 ^ 32 /\ num_cells32 dim = num_cells dim.
Proof.
  destruct dim as [[dx dy] dz]. destruct HD as (Dx & Dy & Dz). destruct HC as (_ & _ & _ & H). fold n in H. unfold num_cells in *.
  assert (1 <= dx * dy) by nia. assert (dx * dy <= dx * dy * dz) by nia. split; [nia|]. split; auto. unfold num_cells32. rewrite (u32_small (dx * dy)) by lia. apply u32_small. lia.
Qed.
Lemma axis_in a m c : 0 < m -> fcell_axis conv a m = Some c -> 0 <= c < m.
Proof.
  intros Hm E. unfold fcell_axis in E. destruct (obind _ conv) as [z|] eqn:Ez; [|discriminate]. cbn [option_map] in E. injection E as <-.
  destruct (ffloor _) as [y|]; [|discriminate]. cbn [obind] in Ez. apply HU in Ez. pose proof (Z.rem_bound_pos z m ltac:(lia) ltac:(lia)). lia.
Qed.
Lemma coord_in p c : fcell_coord conv b dim p = Some c -> in_dim dim c.
Proof.
  unfold fcell_coord. destruct dim as [[dx dy] dz]. destruct HD as (Dx & Dy & Dz).
  destruct (fcell_axis conv _ dx) as [x|] eqn:Ex; [|discriminate]. destruct (fcell_axis conv _ dy) as [y|] eqn:Ey; [|discriminate].
  destruct (fcell_axis conv _ dz) as [z|] eqn:Ez; [|discriminate]. intros E. injection E as <-. apply axis_in in Ex, Ey, Ez; auto. simpl. auto.
Qed.
Lemma index32_in c : in_dim dim c -> coord_to_index32 dim c = coord_to_index dim c /\ 0 <= coord_to_index dim c < num_cells dim.
Proof. intros H. pose proof (coord_index_range dim c H) as R. split; auto. apply u32_small. pose proof cells_sum. lia. Qed.
Lemma get_range p c : fget_cell conv b dim p = Some c -> 0 <= c < num_cells dim.
Proof. unfold fget_cell. destruct (fcell_coord conv b dim p) as [c'|] eqn:E; [|discriminate]. intros H. injection H as <-. apply index32_in, (coord_in p). auto. Qed.

(** The cell lists agree where the 32-bit one has been written. *)
Let agree (m : nat) (l32 : list Z) (cl : cell_list) : Prop :=
  length l32 = length cl /\ length cl = (n + Z.to_nat (num_cells dim))%nat /\ (forall k, (m <= k)%nat -> nth_error l32 k = option_map stored (nth_error cl k)) /\
  forall k i, nth_error cl k = Some (Some i) -> (i < n)%nat.
Lemma link_same m : (m <= n)%nat -> forall l32 cl, agree m l32 cl ->
  match fold_left (flink_one conv b dim points) (rev (seq 0 m)) (Some cl), fold_left (flink_one32 conv b dim points) (rev (seq 0 m)) (Some l32) with
  | Some cl', Some l32' => agree 0 l32' cl'
  | None, None => True
  | _, _ => False
  end.
Proof.
  assert (ZN : forall l, fold_left (flink_one32 conv b dim points) l None = None) by (induction l; auto).
  induction m as [|m IH]; intros Hm l32 cl A; [cbn; auto|]. rewrite seq_S, rev_app_distr. cbn [rev app fold_left plus].
  assert (E1 : flink_one conv b dim points (Some cl) m = match option_map (coord_to_index dim) (fcell_coord conv b dim (nth m points fv0)) with None => None | Some c =>
    match nth_error cl (n + Z.to_nat c) with None => None | Some h => match wr cl m h with None => None | Some l => wr l (n + Z.to_nat c) (Some m) end end end) by reflexivity.
  assert (E2 : flink_one32 conv b dim points (Some l32) m = obind (option_map (coord_to_index32 dim) (fcell_coord conv b dim (nth m points fv0))) (fun c =>
    obind (rd32 l32 (u32 (Z.of_nat n + c))) (fun h => obind (wr l32 m h) (fun l => wr l (Z.to_nat (u32 (Z.of_nat n + c))) (Z.of_nat m))))) by reflexivity.
  rewrite E1, E2. clear E1 E2.
  destruct (fcell_coord conv b dim (nth m points fv0)) as [c|] eqn:Ec; cbn [option_map obind]; [|rewrite fold_flink_none, ZN; auto].
  apply coord_in in Ec. destruct (index32_in c Ec) as [E32 Rc]. rewrite E32. pose proof cells_sum as (C1 & C2 & _).
  rewrite u32_small by lia. destruct A as (L1 & L2 & A & B).
  replace (Z.to_nat (Z.of_nat n + coord_to_index dim c)) with (n + Z.to_nat (coord_to_index dim c))%nat by lia. unfold rd32.
  replace (Z.to_nat (Z.of_nat n + coord_to_index dim c)) with (n + Z.to_nat (coord_to_index dim c))%nat by lia.
  set (hd := (n + Z.to_nat (coord_to_index dim c))%nat) in *. assert (Hhd : (hd < length cl)%nat) by (unfold hd; lia).
  rewrite A by (unfold hd; lia). destruct (nth_error cl hd) as [h|] eqn:Eh; [|apply nth_error_None in Eh; lia]. cbn [option_map obind].
  rewrite (wr_some cl m h) by lia. rewrite (wr_some l32 m) by lia. cbn [obind]. rewrite (wr_some (upd cl m h)) by (rewrite upd_length; lia). rewrite (wr_some (upd l32 m _)) by (rewrite upd_length; lia).
  apply IH; [lia|]. split; [rewrite !upd_length; lia|]. split; [rewrite !upd_length; lia|]. split.
  - intros k Hk. rewrite !nth_error_upd by (rewrite ?upd_length; lia). destruct (Nat.eqb_spec k hd); [reflexivity|].
    destruct (Nat.eqb_spec k m); [reflexivity|]. apply A. lia.
  - intros k i. rewrite !nth_error_upd by (rewrite ?upd_length; lia). destruct (Nat.eqb_spec k hd); [intros E; injection E as <-; lia|].
    destruct (Nat.eqb_spec k m); [intros E; apply (B hd); rewrite Eh; congruence|apply B].
Qed.
Lemma nth_error_repeat' {T} (x : T) m k : nth_error (repeat x m) k = if Nat.ltb k m then Some x else None.
Proof. revert k. induction m as [|m IH]; intros [|k]; simpl; auto. apply IH. Qed.
Lemma list_same : fcell_list32 conv b dim points = option_map (map stored) (fcell_list conv b dim points) /\
  forall cl, fcell_list conv b dim points = Some cl -> length cl = (n + Z.to_nat (num_cells dim))%nat /\ forall k i, nth_error cl k = Some (Some i) -> (i < n)%nat.
Proof.
  unfold fcell_list32, fcell_list. fold n. pose proof cells_sum as (C1 & C2 & C3). rewrite C3, heads32_spec by lia. rewrite Nat2Z.id.
  assert (A : agree n (repeat 0 n ++ repeat TERMINATOR (Z.to_nat (num_cells dim))) (repeat None (n + Z.to_nat (num_cells dim)))).
  { split; [rewrite app_length, !repeat_length; auto|]. split; [rewrite repeat_length; auto|]. split.
    - intros k Hk. rewrite nth_error_app2 by (rewrite repeat_length; auto). rewrite repeat_length, !nth_error_repeat'.
      destruct (Nat.ltb_spec (k - n) (Z.to_nat (num_cells dim))), (Nat.ltb_spec k (n + Z.to_nat (num_cells dim))); auto; lia.
    - intros k i E. rewrite nth_error_repeat' in E. destruct (Nat.ltb _ _); congruence. }
  pose proof (link_same n (le_n n) _ _ A) as H. destruct (fold_left (flink_one conv b dim points) _ _) as [cl|], (fold_left (flink_one32 conv b dim points) _ _) as [l32|]; try contradiction.
  - destruct H as (L1 & L2 & H & B). split.
    + cbn [option_map]. f_equal. apply nth_error_ext'; [rewrite map_length; auto|]. intros k _. rewrite nth_error_map. apply H. lia.
    + intros cl' E. injection E as <-. auto.
  - split; auto. discriminate.
Qed.

(** The iterators run in step. *)
Variables (cw : f32) (cl : cell_list).
Hypothesis HL : fcell_list conv b dim points = Some cl.
Let lc := FLC b points cw dim cl.
Variables (pc : Z * Z * Z) (q : fvec) (qi : nat) (r_max r_min : f32) (excl : bool).
Hypothesis Hpc : in_dim dim pc.
Hypothesis HR : short r_max cw.
Let lm (s : lb_state) : lm_state := LM (option_map Z.of_nat (lb_cur s)) (lb_shell s) (lb_seen s).
Let run (s : lb_state) : Prop := sh_range (lb_shell s) < 2 ^ 29 /\ exists k, lb_shell s = nth_state (f2d b) k.
Definition map_event {S T} (f : S -> T) (e : fevent S) : fevent T :=
  match e with FOut x s => FOut x (f s) | FMove s => FMove (f s) | FDone => FDone | FFault => FFault end.
Lemma next_range s : sh_range (sh_next s) <= sh_range s + 1.
Proof.
  unfold sh_next, sh_next_z, sh_reset. cbv zeta. repeat (match goal with |- context [match ?x with _ => _ end] => destruct x end); cbn [sh_range]; lia.
Qed.
Lemma lit_29 : lit (2 ^ 29 - 1) 0 = lit (2 ^ 29) 0.
Proof. apply B2SF_inj. vm_compute. reflexivity. Qed.
Lemma far_done sh : sh_range sh = 2 ^ 29 -> Bltb r_max (fmul (lit (sh_range sh - fextra_width lc r_max) 0) cw) = true.
Proof. intros ->. unfold fextra_width. destruct (Beqb _ _); [rewrite Z.sub_0_r; exact HR|]. rewrite lit_29. exact HR. Qed.
Lemma cells_same c : i32_3 c = Some c -> cell_index32 dim c = cell_index dim c /\ 0 <= cell_index dim c < num_cells dim.
Proof.
  intros _. destruct (cell_index_range dim c HD) as [R1 R2]. split; auto. assert (II := index32_in). revert II R1 R2. clear Hpc. destruct dim as [[dx dy] dz], c as [[x y] z]. destruct HD as (Dx & Dy & Dz). destruct HC as (Cx & Cy & Cz & _). intros II R1 R2.
  unfold cell_index32. rewrite !to_int32_small by lia. rewrite !cmod_mod by lia.
  pose proof (Z.mod_pos_bound x dx Dx). pose proof (Z.mod_pos_bound y dy Dy). pose proof (Z.mod_pos_bound z dz Dz). rewrite !u32_small by lia.
  unfold cell_index. rewrite !cmod_mod by lia. apply II. simpl. auto.
Qed.
Lemma i32_same z : - 2 ^ 31 <= z < 2 ^ 31 -> i32 z = Some z.
Proof. intros H. unfold i32. destruct (Z.leb_spec (- 2 ^ 31) z), (Z.ltb_spec z (2 ^ 31)); auto; lia. Qed.
Lemma add_same p : cheb p < 2 ^ 29 -> i32_3 (add3 (to_int32_3 pc) p) = Some (add3 pc p) /\ to_int32_3 pc = pc.
Proof.
  destruct dim as [[dx dy] dz], pc as [[x y] z], p as [[x' y'] z']. destruct Hpc as (Px & Py & Pz), HC as (Cx & Cy & Cz & _). intros Hp. unfold cheb in Hp.
  unfold to_int32_3. rewrite !to_int32_small by lia. split; auto. unfold add3, i32_3. rewrite !i32_same by lia. reflexivity.
Qed.
Lemma step_same s : run s -> fm_step (written lc) pc q qi r_max r_min excl (lm s) = map_event lm (fl_step lc pc q qi r_max r_min excl s) /\
  match fl_step lc pc q qi r_max r_min excl s with FOut _ s' | FMove s' => run s' | _ => True end.
Proof.
  destruct list_same as [_ LS]. destruct (LS cl HL) as [LL LB']. pose proof cells_sum as (C1 & C2 & _).
  destruct s as [[c|] sh seen]; intros [R1 (k & R2)]; cbn [lb_shell] in R1, R2; unfold fm_step, fl_step, lm; cbn [lm_cur lm_shell lm_seen lb_cur lb_shell lb_seen option_map].
  - unfold written, rd32. cbn [fm_list fl_list lc fm_points fl_points fm_box fl_box]. rewrite Nat2Z.id, nth_error_map.
    destruct (nth_error cl c) as [[j|]|] eqn:Ec; cbn [option_map map_event stored]; [|rewrite Z.eqb_refl; split; [reflexivity|split; [auto|exists k; auto]]|auto].
    apply LB' in Ec. destruct (Z.eqb_spec (Z.of_nat j) TERMINATOR) as [E|_]; [exfalso; unfold TERMINATOR in E; lia|]. rewrite !Nat2Z.id.
    assert (RR : forall s', lb_shell s' = sh -> run s') by (intros s' E; split; rewrite E; [auto|exists k; auto]).
    destruct (excl && (qi =? j)%nat)%bool; [split; [reflexivity|apply RR; reflexivity]|].
    destruct (nth_error points j) as [p|] eqn:Ep; [|apply nth_error_None in Ep; unfold n in Ec; lia]. rewrite (nth_error_nth points j fv0 Ep). cbv zeta.
    destruct (_ && _)%bool; (split; [reflexivity|apply RR; reflexivity]).
  - unfold sh_next32. destruct (Z.ltb_spec (sh_range sh) (2 ^ 30)) as [_|]; [|lia].
    set (sh' := sh_next sh). assert (E' : sh' = nth_state (f2d b) (S k)) by (unfold sh'; rewrite R2; reflexivity).
    assert (R' : sh_range sh' <= 2 ^ 29) by (pose proof (next_range sh); unfold sh'; lia).
    cbn [fm_width fl_width written lc]. unfold fextra_width32. cbn [fm_width written lc fl_width]. fold (fextra_width lc r_max). cbv zeta.
    replace (if Beqb r_max cw then 0 else 1) with (fextra_width lc r_max) by reflexivity.
    destruct (Bltb r_max _) eqn:EB; [split; auto; reflexivity|].
    assert (R3 : sh_range sh' < 2 ^ 29) by (destruct (Z.eq_dec (sh_range sh') (2 ^ 29)) as [E|]; [apply far_done in E; congruence|lia]).
    destruct (C33_order (f2d b)) as [CH _]. destruct (CH (S k)) as [CH1 _]. rewrite <- E' in CH1.
    destruct (add_same (sh_pos sh') ltac:(lia)) as [A1 A2]. rewrite A1. cbn [obind].
    assert (I : i32_3 (add3 pc (sh_pos sh')) = Some (add3 pc (sh_pos sh'))) by (rewrite A2 in A1; auto).
    destruct (cells_same _ I) as [I1 I2]. cbn [fm_dim fl_dim written lc fm_points fl_points]. rewrite I1. fold n. rewrite u32_small by lia.
    assert (RR : forall s', lb_shell s' = sh' -> run s') by (intros s' E; split; rewrite E; [auto|exists (S k); auto]).
    destruct (existsb _ seen); (split; [|apply RR; reflexivity]); [reflexivity|]. cbn [map_event]. unfold lm. cbn [lb_cur option_map lb_shell lb_seen]. do 3 f_equal. lia.
Qed.
Lemma drain_same s l : run s -> (fdrained (fm_step (written lc) pc q qi r_max r_min excl) (lm s) l <-> fdrained (fl_step lc pc q qi r_max r_min excl) s l).
Proof.
  intros R. split; intros H.
  - remember (lm s) as m eqn:Em. revert s R Em. induction H as [m E|m m' l E H IH|m x m' l E H IH]; intros s R ->; destruct (step_same s R) as [S1 S2]; rewrite E in S1;
      destruct (fl_step lc pc q qi r_max r_min excl s) as [x' s'|s'| |] eqn:Es; try discriminate S1.
    + apply fdr_done. auto.
    + apply fdr_move with s'; auto. apply IH; auto. cbn [map_event] in S1. congruence.
    + cbn [map_event] in S1. assert (x' = x) by congruence. subst x'. apply fdr_out with s'; auto. apply IH; auto. congruence.
  - revert R. induction H as [s E|s s' l E H IH|s x s' l E H IH]; intros R; destruct (step_same s R) as [S1 S2]; rewrite E in S1, S2; cbn [map_event] in S1.
    + apply fdr_done. auto.
    + apply fdr_move with (lm s'); auto.
    + apply fdr_out with (lm s'); auto.
Qed.
Lemma start_same : fm_start (written lc) pc = lm (fl_start lc pc) /\ run (fl_start lc pc).
Proof.
  destruct (index32_in pc Hpc) as [I1 I2]. pose proof cells_sum as (C1 & C2 & _). destruct (add_same (0, 0, 0) ltac:(unfold cheb; lia)) as [A1 A2].
  assert (EP : sh_pos (sh_reset 0 (f2d b)) = (0, 0, 0)) by (destruct (f2d b); reflexivity).
  split.
  - unfold fm_start, fl_start, lm, written. cbn [fm_box fl_box fm_points fl_points fm_dim fl_dim lc lb_cur lb_shell lb_seen option_map]. fold n.
    rewrite I1, u32_small by lia. rewrite EP, A2. rewrite A2 in A1. destruct (cells_same _ A1) as [-> _]. do 2 f_equal. lia.
  - split; [cbn; destruct (f2d b); cbn; lia|]. exists 0%nat. reflexivity.
Qed.
Lemma ball_same : fcell_coord conv b dim q = Some pc -> forall l, flc_ball32 conv (written lc) q qi r_max r_min excl (Some l) <-> flc_ball conv lc q qi r_max r_min excl (Some l).
Proof.
  intros Eq l. unfold flc_ball32, flc_ball. destruct (fpoint_args_ok r_max r_min); [|tauto]. cbn [fm_box fm_dim written lc fl_box fl_dim]. rewrite Eq.
  destruct start_same as [S1 S2]. rewrite S1. fold lc. change (FLC32 b points cw dim (map stored cl)) with (written lc). split.
  - intros [(l' & E & H)|[E _]]; [|discriminate]. exists pc, l'. split; auto. split; auto. apply (proj1 (drain_same _ _ S2)). auto.
  - intros (pc' & l' & E1 & E & H). injection E1 as <-. left. exists l'. split; auto. apply (proj2 (drain_same _ _ S2)). auto.
Qed.
End Same.
