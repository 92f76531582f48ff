(** The LinkCell ball query equals its specification. *)
From Verif Require Import LinkCellModel NListProofs AABBProofs2 BoxProofs BoxProofs2 MArrayProofs LinkCellProofs LinkCellProofs2 LinkCellSpec.
Open Scope Z_scope.

Section Ball.
Variables (lc : linkcell) (pc : Z * Z * Z) (q : vec3) (qi : nat) (r_max r_min : R) (excl : bool).
Let step := lb_step lc pc q qi r_max r_min excl.
Let idx (p : Z * Z * Z) : Z := cell_index (lc_dim lc) (add3 pc p).
Definition lc_emit (j : nat) : list bond :=
  if excl && Nat.eqb qi j then [] else
  let d := wrap (lc_box lc) (vsub (nth j (lc_points lc) v0) q) in
  if Rltb (dot d d) (r_max * r_max) && Rleb (r_min * r_min) (dot d d) then [Bond qi j (norm d) 1%R d] else [].

Lemma drain_cell sh seen rest : forall l k, chain (lc_list lc) k l -> drained step (LB None sh seen) rest ->
  drained step (LB (Some k) sh seen) (flat_map lc_emit l ++ rest).
Proof.
  induction l as [|j l IH]; intros k C D; cbn [chain flat_map app] in *.
  - apply dr_move with (LB None sh seen); auto. unfold step, lb_step. cbn [lb_cur]. rewrite C. auto.
  - destruct C as [E C]. specialize (IH j C D). rewrite <- app_assoc.
    assert (S : step (LB (Some k) sh seen) =
      let s' := LB (Some j) sh seen in
      if excl && Nat.eqb qi j then Move s' else
      let d := wrap (lc_box lc) (vsub (nth j (lc_points lc) v0) q) in
      if Rltb (dot d d) (r_max * r_max) && Rleb (r_min * r_min) (dot d d) then Out (Bond qi j (norm d) 1%R d) s' else Move s').
    { unfold step, lb_step. cbn [lb_cur lb_shell lb_seen]. rewrite E. reflexivity. }
    cbv zeta in S. unfold lc_emit at 1. cbv zeta. destruct (excl && Nat.eqb qi j).
    + eapply dr_move; [exact S|auto].
    + destruct (Rltb _ _ && Rleb _ _).
      * eapply dr_out; [exact S|auto].
      * eapply dr_move; [exact S|auto].
Qed.

Fixpoint new_cells (seen : list Z) (l : list shell) : list Z :=
  match l with
  | [] => []
  | s :: l => let i := idx (sh_pos s) in if existsb (Z.eqb i) seen then new_cells seen l else i :: new_cells (i :: seen) l
  end.
Lemma new_cells_spec : forall l seen, NoDup (new_cells seen l) /\
  (forall c, In c (new_cells seen l) <-> ~ In c seen /\ exists s, In s l /\ idx (sh_pos s) = c).
Proof.
  induction l as [|s l IH]; intros seen; cbn [new_cells].
  - split; [constructor|]. intros c. split; [intros []|intros [_ (s & [] & _)]].
  - assert (EX : forall i, existsb (Z.eqb i) seen = true <-> In i seen).
    { intros i. rewrite existsb_exists. split; [intros (y & H & E); apply Z.eqb_eq in E; subst; auto|intros H; exists i; split; auto; apply Z.eqb_refl]. }
    cbv zeta. destruct (existsb (Z.eqb (idx (sh_pos s))) seen) eqn:E.
    + apply EX in E. destruct (IH seen) as [N I]. split; auto. intros c. rewrite I. split; intros [H (s' & Hs & Ec)]; split; auto.
      * exists s'. split; auto. right; auto.
      * destruct Hs as [->|Hs]; [subst c; contradiction|eauto].
    + assert (E' : ~ In (idx (sh_pos s)) seen) by (rewrite <- EX, E; discriminate). destruct (IH (idx (sh_pos s) :: seen)) as [N I]. split.
      * constructor; auto. rewrite I. intros [H _]. apply H. left; auto.
      * intros c. cbn [In]. rewrite I. split.
        -- intros [<-|[H (s' & Hs & Ec)]]; [split; auto; exists s; auto|]. split; [intros H1; apply H; right; auto|]. eauto.
        -- intros [H (s' & [<-|Hs] & Ec)]; auto. destruct (Z.eq_dec (idx (sh_pos s)) c); auto. right. split; eauto.
           intros [H1|H1]; auto.
Qed.

Let in_rng (s : shell) : Prop := (IZR (sh_range s - extra_width lc r_max) * lc_width lc <= r_max)%R.
Variable cont : Z -> list nat.
Hypothesis Hcont : forall p, chain (lc_list lc) (length (lc_points lc) + Z.to_nat (idx p)) (cont (idx p)).

Lemma drain_shells : forall l s e seen, trace (sh_next s) l e -> (forall x, In x l -> in_rng x) -> ~ in_rng e ->
  drained step (LB None s seen) (flat_map (fun c => flat_map lc_emit (cont c)) (new_cells seen l)).
Proof.
  induction l as [|x l IH]; intros s e seen T Hin Hout; inversion T; subst.
  - apply dr_done. unfold step, lb_step. cbn [lb_cur lb_shell]. rewrite (proj2 (Rltb_true _ _)); auto. unfold in_rng in Hout. lra.
  - assert (S : step (LB None s seen) = if existsb (Z.eqb (idx (sh_pos (sh_next s)))) seen then Move (LB None (sh_next s) seen)
       else Move (LB (Some (length (lc_points lc) + Z.to_nat (idx (sh_pos (sh_next s))))%nat) (sh_next s) (idx (sh_pos (sh_next s)) :: seen))).
    { unfold step, lb_step. cbn [lb_cur lb_shell lb_seen]. rewrite (proj2 (Rltb_false _ _)); auto. apply Hin. left; auto. }
    cbn [new_cells]. cbv zeta. destruct (existsb _ seen).
    + eapply dr_move; [exact S|]. eapply IH; eauto. intros; apply Hin; right; auto.
    + eapply dr_move; [exact S|]. cbn [flat_map]. apply drain_cell; [apply Hcont|]. eapply IH; eauto. intros; apply Hin; right; auto.
Qed.
End Ball.

Lemma drained_det {S} (step : S -> event S) s l l' : drained step s l -> drained step s l' -> l = l'.
Proof.
  intros D. revert l'. induction D as [s E|s s' l E D IH|s x s' l E D IH]; intros l' D'; inversion D'; subst; try congruence.
  - rewrite E in H. injection H as <-. auto.
  - rewrite E in H. injection H as <- <-. f_equal. auto.
Qed.

Lemma add3_0 p : add3 p (0, 0, 0) = p.
Proof. destruct p as [[? ?] ?]. simpl. f_equal; [f_equal|]; lia. Qed.
Lemma cell_index_in dim c : in_dim dim c -> cell_index dim c = coord_to_index dim c.
Proof.
  destruct dim as [[dx dy] dz], c as [[x y] z]. intros (Hx & Hy & Hz). unfold cell_index. rewrite !cmod_mod, !Z.mod_small by lia. auto.
Qed.
Lemma cell_index_range dim c : dim_pos dim -> 0 <= cell_index dim c < num_cells dim.
Proof.
  destruct dim as [[dx dy] dz], c as [[x y] z]. intros (Hx & Hy & Hz). unfold cell_index. apply coord_index_range.
  rewrite !cmod_mod by auto. pose proof (Z.mod_pos_bound x dx). pose proof (Z.mod_pos_bound y dy). pose proof (Z.mod_pos_bound z dz). simpl. lia.
Qed.

(** Complete description of the ball query. *)
Lemma lc_ball_cells b points cw0 lc q qi r_max r_min excl pc : lc_make b points cw0 = Some lc -> (0 < lc_width lc)%R ->
  ball_args_ok r_max r_min = true -> cell_coord b (lc_dim lc) q = Some pc ->
  exists (M : nat) cells l, (0 < M)%nat /\ NoDup cells /\
    (forall c, In c cells <-> exists p, cheb p < Z.of_nat M /\ offset_ok (b_2d b) p /\ cell_index (lc_dim lc) (add3 pc p) = c) /\
    (forall p, (1 <= cheb p -> (IZR (cheb p - extra_width lc r_max) * lc_width lc <= r_max)%R) -> cheb p < Z.of_nat M) /\
    drained (lb_step lc pc q qi r_max r_min excl) (lb_start lc pc) l /\
    l = flat_map (fun c => flat_map (lc_emit lc q qi r_max r_min excl) (contents b (lc_dim lc) points c)) cells.
Proof.
  intros HM HC HA HP. apply lc_make_spec in HM as (Eb & Ep & Hne & _ & HD & _ & HL & _).
  pose proof (cell_coord_spec _ _ _ _ HD HP) as Hpc. assert (Hin : in_dim (lc_dim lc) pc) by (destruct (lc_dim lc) as [[? ?] ?]; apply Hpc). clear Hpc.
  apply cell_list_spec in HL as [_ HL]. 2:{ intros j c _ E. unfold get_cell in E. destruct (cell_coord b (lc_dim lc) (nth j points v0)) as [c'|] eqn:Ec; [|discriminate].
    injection E as <-. apply cell_coord_spec in Ec; auto. apply coord_index_range. destruct (lc_dim lc) as [[? ?] ?]. apply Ec. }
  set (ew := extra_width lc r_max). assert (Hew : 0 <= ew <= 1) by (unfold ew, extra_width; destruct (Reqb _ _); lia).
  unfold ball_args_ok in HA. apply andb_true_iff in HA as [HA1 HA2]. apply Rltb_true in HA1, HA2.
  set (K := Zfloor (r_max / lc_width lc)). assert (HK : 0 <= K).
  { apply Zfloor_lub. apply Rlt_le, Rdiv_lt_0_compat; auto. }
  assert (BK : (IZR K * lc_width lc <= r_max < (IZR K + 1) * lc_width lc)%R).
  { pose proof (Zfloor_bounds (r_max / lc_width lc)) as [B1 B2]. fold K in B1, B2.
    assert (E : (r_max = r_max / lc_width lc * lc_width lc)%R) by (field; lra).
    split; rewrite E at 1; [apply Rmult_le_compat_r|apply Rmult_lt_compat_r]; lra. }
  set (M := Z.to_nat (K + 1 + ew)).
  set (d := b_2d b). pose proof (cube_trace M d) as T.
  assert (HS : exists l, cube_states M d = sh_reset 0 d :: l).
  { unfold cube_states. destruct M as [|m] eqn:EM; [exfalso; unfold M in EM; lia|]. cbn [seq flat_map]. exists (flat_map (fun N => shell_states (Z.of_nat N) d) (seq 1 m)). reflexivity. }
  destruct HS as [l HS]. rewrite HS in T.
  assert (T' : trace (sh_next (sh_reset 0 d)) l (sh_reset (Z.of_nat M) d)) by (inversion T; auto).
  set (c0 := cell_index (lc_dim lc) (add3 pc (0, 0, 0))).
  destruct (new_cells_spec lc pc l [c0]) as [ND NI].
  exists M, (c0 :: new_cells lc pc [c0] l). eexists. split; [unfold M; lia|]. split.
  { constructor; auto. rewrite NI. intros [H _]. apply H. left; auto. }
  split.
  { intros c. cbn [In]. rewrite NI. split.
    - intros [<-|[_ (s & Hs & <-)]].
      + exists (0, 0, 0). split; [simpl; unfold M; lia|]. split; [intros _; auto|auto].
      + assert (Hs' : In (sh_pos s) (map sh_pos (cube_states M d))) by (apply in_map; rewrite HS; right; auto).
        apply cube_in in Hs' as [? ?]. exists (sh_pos s). auto.
    - intros (p & Hp & Ho & <-). assert (H : In p (map sh_pos (cube_states M d))) by (apply cube_in; auto).
      apply in_map_iff in H as (s & E & Hs). rewrite HS in Hs. destruct Hs as [<-|Hs].
      + left. subst p. reflexivity.
      + destruct (Z.eq_dec c0 (cell_index (lc_dim lc) (add3 pc p))); auto. right. split; [intros [?|[]]; auto|]. exists s. split; auto. rewrite E. auto. }
  split.
  { intros p Hp. destruct (Z_lt_le_dec (cheb p) 1); [unfold M; lia|]. specialize (Hp l0).
    assert (cheb p - ew < K + 1); [|unfold M; lia]. apply lt_IZR. apply Rmult_lt_reg_r with (lc_width lc); auto. fold ew in Hp. rewrite plus_IZR. lra. }
  split; [|reflexivity].
  unfold lb_start. rewrite Eb, Ep. fold d. cbn [flat_map].
  assert (P0 : sh_pos (sh_reset 0 d) = (0, 0, 0)) by reflexivity. rewrite P0. fold c0.
  assert (E0 : coord_to_index (lc_dim lc) pc = c0) by (unfold c0; rewrite add3_0, cell_index_in; auto). rewrite E0.
  apply drain_cell.
  - apply HL. unfold c0. apply cell_index_range. auto.
  - eapply drain_shells; [|exact T'| |].
    + intros p. rewrite Ep. apply HL. apply cell_index_range; auto.
    + intros s Hs. assert (Hs' : In s (cube_states M d)) by (rewrite HS; right; auto). apply cube_range in Hs' as [Hr _]. fold ew.
      apply Rle_trans with (IZR K * lc_width lc)%R; [|apply BK]. apply Rmult_le_compat_r; [lra|]. apply IZR_le. unfold M in Hr. lia.
    + assert (ER : sh_range (sh_reset (Z.of_nat M) d) = Z.of_nat M) by (unfold sh_reset; destruct (_ =? 0); auto). rewrite ER. fold ew.
      replace (Z.of_nat M - ew) with (K + 1) by (unfold M; lia). rewrite plus_IZR. lra.
Qed.

Lemma axis_reach n cw P a a' df m N : 0 < n -> (0 < cw)%R -> (IZR n * cw <= P)%R -> (a' = a + df + IZR m)%R -> (Rabs df * P <= N)%R ->
  exists dc, Zfloor (a' * IZR n) mod n = cmod (Zfloor (a * IZR n) mod n + dc) n /\ ((IZR (Z.abs dc) - 1) * cw < N)%R.
Proof.
  intros Hn Hc HP -> HN. destruct (axis_offset n a df m Hn) as (dc & E & B). exists dc. split; auto.
  pose proof (Rabs_pos df). assert ((IZR (Z.abs dc) - 1) * cw < Rabs df * IZR n * cw)%R by (apply Rmult_lt_compat_r; lra).
  assert (Rabs df * IZR n * cw <= Rabs df * P)%R by (rewrite Rmult_assoc; apply Rmult_le_compat_l; lra). lra.
Qed.

Lemma lc_find b points cw0 lc q pc j r_max : positive b -> fully_periodic b -> lc_make b points cw0 = Some lc -> (0 < lc_width lc)%R -> (0 < r_max)%R ->
  (forall p, In p points -> in_space b p) -> in_space b q -> cell_coord b (lc_dim lc) q = Some pc -> (j < length points)%nat ->
  (norm (wrap b (vsub (nth j points v0) q)) < r_max)%R ->
  exists p c, offset_ok (b_2d b) p /\ (1 <= cheb p -> (IZR (cheb p - extra_width lc r_max) * lc_width lc <= r_max)%R) /\
    get_cell b (lc_dim lc) (nth j points v0) = Some c /\ cell_index (lc_dim lc) (add3 pc p) = c.
Proof.
  intros Hb (Fx & Fy & Fz) HM HC HR HS Hq HP Hj HN. apply lc_make_spec in HM as (Eb & Ep & Hne & _ & HD & HG & HL & _).
  apply cell_list_spec in HL as [HL _]. 2:{ intros k c _ E. unfold get_cell in E. destruct (cell_coord b (lc_dim lc) (nth k points v0)) as [c'|] eqn:Ec; [|discriminate].
    injection E as <-. apply cell_coord_spec in Ec; auto. apply coord_index_range. destruct (lc_dim lc) as [[? ?] ?]. apply Ec. }
  destruct (HL j Hj) as [c Ec]. specialize (HG HC). set (pj := nth j points v0) in *. assert (Hpj : in_space b pj) by (apply HS, nth_In; auto).
  assert (NS : nonsingular b) by apply Hb. unfold get_cell in Ec. destruct (cell_coord b (lc_dim lc) pj) as [cc|] eqn:Ecc; [|discriminate]. injection Ec as <-.
  destruct (lc_dim lc) as [[dx dy] dz] eqn:ED. apply (cell_coord_spec b (dx, dy, dz)) in HP as [-> Iq]; auto. assert (Ecc' := Ecc). apply (cell_coord_spec b (dx, dy, dz)) in Ecc as [-> Ij]; auto.
  set (aq := make_fractional b q) in *. set (aj := make_fractional b pj) in *.
  assert (Eq : q = cell_point b (vx aq) (vy aq) (vz aq)) by (apply cell_point_fractional; auto).
  assert (Ej : pj = cell_point b (vx aj) (vy aj) (vz aj)) by (apply cell_point_fractional; auto).
  assert (ED' : vsub pj q = comb b (vx aj - vx aq) (vy aj - vy aq) (vz aj - vz aq)).
  { rewrite Eq, Ej. unfold cell_point, comb. vec_ring. }
  rewrite ED', wrap_comb in HN by auto. rewrite Fx, Fy, Fz in HN.
  destruct (plane_bound b (centred true (vx aj - vx aq)) (centred true (vy aj - vy aq)) (centred true (vz aj - vz aq)) Hb) as (Bx & By & Bz).
  set (N := norm _) in *. destruct HG as ((Gx & Gy & Gz) & G1 & _). destruct HD as (Dx & Dy & Dz). clear Ej Eq.
  assert (CE : forall x y, y = (x + centred true (y - x) + IZR (Zfloor (y - x + 1 / 2)))%R) by (intros; unfold centred, wrapped; ring).
  destruct (axis_reach dx (lc_width lc) _ _ _ _ _ N Dx HC Gx (CE (vx aq) (vx aj)) Bx) as (cx & Ex & Rx).
  destruct (axis_reach dy (lc_width lc) _ _ _ _ _ N Dy HC Gy (CE (vy aq) (vy aj)) By) as (cy & Ey & Ry).
  assert (Z3 : exists cz, Zfloor (vz aj * IZR dz) mod dz = cmod (Zfloor (vz aq * IZR dz) mod dz + cz) dz /\ (b_2d b = true -> cz = 0) /\
     ((IZR (Z.abs cz) - 1) * lc_width lc < N)%R).
  { destruct (b_2d b) eqn:E2.
    - exists 0. rewrite (G1 eq_refl). rewrite cmod_mod, !Z.mod_1_r by lia. repeat split; auto. simpl. assert (0 <= N)%R by apply norm_nonneg. lra.
    - destruct (axis_reach dz (lc_width lc) _ _ _ _ _ N Dz HC (Gz eq_refl) (CE (vz aq) (vz aj)) (Bz eq_refl)) as (cz & Ez & Rz).
      exists cz. repeat split; auto. discriminate. }
  destruct Z3 as (cz & Ez & O2 & Rz). exists (cx, cy, cz). eexists. split; [exact O2|]. split; [|split; [unfold get_cell; rewrite Ecc'; reflexivity|]].
  2:{ unfold add3, cell_index. rewrite <- Ex, <- Ey, <- Ez. reflexivity. }
  intros Hch. set (ch := cheb (cx, cy, cz)) in *.
  assert (HX : ((IZR ch - 1) * lc_width lc < r_max)%R).
  { assert (A : forall v, ((IZR (Z.abs v) - 1) * lc_width lc < N)%R -> Z.abs v = ch -> ((IZR ch - 1) * lc_width lc < r_max)%R).
    { intros v Hv <-. lra. }
    assert (Z.abs cx = ch \/ Z.abs cy = ch \/ Z.abs cz = ch) as [H|[H|H]] by (unfold ch, cheb in *; lia); eauto. }
  unfold extra_width. destruct (Reqb_spec r_max (lc_width lc)) as [->|_].
  - assert (ch < 2). { apply lt_IZR. apply Rmult_lt_reg_r with (lc_width lc); lra. }
    replace (ch - 0) with 1 by lia. lra.
  - rewrite minus_IZR. lra.
Qed.

Lemma lc_ball_spec b points cw0 lc q qi r_max r_min excl : positive b -> fully_periodic b -> lc_make b points cw0 = Some lc -> (0 < lc_width lc)%R ->
  (forall p, In p points -> in_space b p) -> in_space b q -> (exists pc, cell_coord b (lc_dim lc) q = Some pc) ->
  (0 < r_max)%R -> (0 <= r_min < r_max)%R ->
  exists l, lc_ball lc q qi r_max r_min excl (Some l) /\ NoDup l /\ forall x, In x l <-> wrapped_in_range b points q qi r_max r_min excl x.
Proof.
  intros Hb FP HM HC HS Hq [pc HP] Hr (Hr0 & Hr1).
  assert (HA : ball_args_ok r_max r_min = true) by (unfold ball_args_ok; rewrite !(proj2 (Rltb_true _ _)) by lra; auto).
  destruct (lc_ball_cells b points cw0 lc q qi r_max r_min excl pc HM HC HA HP) as (M & cells & l & HM0 & ND & HI & HX & DR & El).
  assert (HM' := HM). apply lc_make_spec in HM' as (Eb & Ep & _). exists l. split; [|split].
  - unfold lc_ball. rewrite HA, Eb. exists pc, l. auto.
  - rewrite El. apply NoDup_flat_map; auto.
    + intros c _. apply NoDup_flat_map; [apply NoDup_filter, seq_NoDup| |].
      * intros j _. unfold lc_emit. cbv zeta. destruct (excl && _); [constructor|]. destruct (Rltb _ _ && Rleb _ _); repeat constructor; auto.
      * intros j j' x _ _ H H'. unfold lc_emit in H, H'. cbv zeta in H, H'. destruct (excl && Nat.eqb qi j); [destruct H|]. destruct (excl && Nat.eqb qi j'); [destruct H'|].
        destruct (Rltb _ _ && Rleb _ _) in H; [|destruct H]. destruct (Rltb _ _ && Rleb _ _) in H'; [|destruct H'].
        destruct H as [<-|[]]. destruct H' as [H'|[]]. injection H'; auto.
    + intros c c' x _ _ H H'. apply in_flat_map in H as (j & Hj & H), H' as (j' & Hj' & H').
      unfold lc_emit in H, H'. cbv zeta in H, H'. destruct (excl && Nat.eqb qi j); [destruct H|]. destruct (excl && Nat.eqb qi j'); [destruct H'|].
      destruct (Rltb _ _ && Rleb _ _) in H; [|destruct H]. destruct (Rltb _ _ && Rleb _ _) in H'; [|destruct H'].
      destruct H as [<-|[]]. destruct H' as [H'|[]]. assert (j' = j) by (injection H'; auto). subst j'.
      apply filter_In in Hj as [_ Hj], Hj' as [_ Hj']. unfold pt_cell in Hj, Hj'. destruct (get_cell _ _ _); [|discriminate].
      apply Z.eqb_eq in Hj, Hj'. congruence.
  - intros x. rewrite El. rewrite in_flat_map. unfold wrapped_in_range. split.
    + intros (c & Hc & H). apply in_flat_map in H as (j & Hj & H). apply filter_In in Hj as [Hj _]. apply in_seq in Hj.
      unfold lc_emit in H. cbv zeta in H. destruct (excl && Nat.eqb qi j) eqn:EX; [destruct H|].
      rewrite Eb, Ep in H. destruct (Rltb _ _ && Rleb _ _) eqn:ER; [|destruct H]. destruct H as [<-|[]].
      apply andb_true_iff in ER as [E1 E2]. apply Rltb_true in E1. apply Rleb_true in E2. apply norm_sq_lt in E1; auto. apply norm_sq_le in E2; auto.
      exists j. split; [lia|]. split; [|cbv zeta; split; [lra|auto]]. intros [-> ->]. rewrite Nat.eqb_refl in EX. discriminate.
    + intros (j & Hj & HE & (H1 & H2) & ->).
      destruct (lc_find b points cw0 lc q pc j r_max Hb FP HM HC Hr HS Hq HP Hj H2) as (p & c & Ho & Hch & Hcell & Hidx).
      exists c. split; [apply HI; exists p; auto|]. apply in_flat_map. exists j. split.
      * apply filter_In. split; [apply in_seq; lia|]. unfold pt_cell. rewrite Hcell. apply Z.eqb_refl.
      * unfold lc_emit. cbv zeta. rewrite Eb, Ep. destruct (excl && Nat.eqb qi j) eqn:EX.
        { apply andb_true_iff in EX as [-> EX]. apply Nat.eqb_eq in EX. exfalso. auto. }
        rewrite (proj2 (Rltb_true _ _)) by (apply norm_sq_lt; auto). rewrite (proj2 (Rleb_true _ _)) by (apply norm_sq_le; auto). left. auto.
Qed.
