(** The ball query of CellQuery as a search over all positions (C84, structure). *)
From Coq Require Import Permutation.
From Verif Require Import MArrayProofs NListProofs AABBProofs2 LinkCellProofs CellQueryProofs CellQueryProofs2 CellQueryProofs3 CellQueryProps FcellProofs FcqModel FcqProofs FcqSpec.
Open Scope nat_scope.

Lemma perm_eq {A} (l l' : list A) : l = l' -> Permutation l l'.
Proof. intros ->. apply Permutation_refl. Qed.
Lemma touching_spec x y z x' y' z' : touching (x, y, z) (x', y', z') = true <-> exists dx dy dz, (-1 <= dx <= 1 /\ -1 <= dy <= 1 /\ -1 <= dz <= 1)%Z /\ (x', y', z') = (x + dx, y + dy, z + dz)%Z.
Proof.
  unfold touching. rewrite !andb_true_iff, !Z.leb_le. split.
  - intros [[A B] C]. exists (x' - x)%Z, (y' - y)%Z, (z' - z)%Z. split; [lia|]. f_equal; [f_equal|]; lia.
  - intros (dx & dy & dz & D & E). apply tri_eq in E. lia.
Qed.
Lemma femit_bond q qi r_max r_min excl j p : (Z.of_nat j < 2 ^ 31)%Z ->
  femit q qi r_max r_min excl (FTag p (Z.of_nat j)) = site_bond q qi r_max r_min excl j p /\
  femit q qi r_max r_min excl (FTag p (Z.lnot (Z.of_nat j))) = site_bond q qi r_max r_min excl j p.
Proof.
  intros H. unfold femit, ftest_particle, site_bond. cbv zeta. cbn [ft_p ft_idx]. rewrite real_id_pos, real_id_neg by lia.
  destruct (excl && (j =? qi)); auto. destruct (_ && _); auto.
Qed.
Lemma sites_positions cint b points q qi r_max r_min excl g r j : (Z.of_nat j < 2 ^ 31)%Z ->
  flat_map (fun t => if seen cint g q (ft_p t) then femit q qi r_max r_min excl t else []) (fpoint_sites b r points j) =
  flat_map (fun p => if seen cint g q p then site_bond q qi r_max r_min excl j p else []) (positions b r (nth j points fv0)).
Proof.
  intros H. unfold fpoint_sites, positions. cbv zeta. rewrite !flat_map_app, !flat_map_map. f_equal.
  - apply flat_map_ext_in. intros s _. cbn [ft_p]. rewrite (proj2 (femit_bond _ _ _ _ _ j _ H)). auto.
  - cbn [flat_map ft_p]. rewrite (proj1 (femit_bond _ _ _ _ _ j _ H)). auto.
Qed.
(** Building the grid works, and draining it gives the search over all positions. *)
Lemma fcq_visit cint b points r q qi r_max r_min excl : Bleb r fzero = false -> grid_ok (fsetup_grid cint b r) -> (Z.of_nat (length points) <= 2 ^ 31)%Z ->
  exists cg, fbuild_grid cint b points r = Some cg /\ fcg_grid cg = fsetup_grid cint b r /\
  (fcg_buf cg = [] <-> forall j p, j < length points -> In p (positions b r (nth j points fv0)) -> fcell_safe cint (fcg_grid cg) p = None) /\
  (fin_grid (fcg_grid cg) (fcell_xyz cint (fcg_grid cg) q) = true ->
   exists l, fdrained (fcb_step cg (fcell_xyz cint (fcg_grid cg) q) q qi r_max r_min excl) (CB (-1) (-1) None) l /\
     Permutation l (flat_map (fun j => flat_map (fun p => if seen cint (fcg_grid cg) q p then site_bond q qi r_max r_min excl j p else [])
                              (positions b r (nth j points fv0))) (seq 0 (length points)))).
Proof.
  intros Hr (DX & DY & DZ) HN. set (g := fsetup_grid cint b r) in *. set (m := fmapping cint b g r points). set (n := Z.to_nat (fg_nx g * fg_ny g * fg_nz g)).
  assert (CS : forall p c, fcell_safe cint g p = Some c <-> fin_grid g (fcell_xyz cint g p) = true /\ c = fcell_number g (fcell_xyz cint g p)).
  { intros p c. unfold fcell_safe. cbv zeta. destruct (fin_grid g (fcell_xyz cint g p)); split; [intros E; injection E; auto|intros [_ ->]; auto|discriminate|intros [? _]; discriminate]. }
  assert (IM : forall c t, In (c, t) m <-> fcell_safe cint g (ft_p t) = Some c /\ exists j, j < length points /\ In t (fpoint_sites b r points j)).
  { intros c t. unfold m, fmapping. rewrite in_flat_map. split.
    - intros (j & Hj & H). apply in_flat_map in H as (t' & Ht & H). apply in_seq in Hj. unfold fentry in H. destruct (fcell_safe cint g (ft_p t')) eqn:E; [|destruct H]. destruct H as [H|[]]. injection H as -> ->. split; auto. exists j. split; [lia|auto].
    - intros (E & j & Hj & Ht). exists j. split; [apply in_seq; lia|]. apply in_flat_map. exists t. split; auto. unfold fentry. rewrite E. left; auto. }
  assert (Hm : forall e, In e m -> fst e < n).
  { intros [c t] H. apply IM in H as [H _]. apply CS in H as [H ->]. cbn [fst]. apply (fcell_number_range (FCG g [] [] [])). exact H. }
  destruct (fplace_spec n m Hm) as (buf & EP & LB & HS & HB & HNs).
  set (st := fun c => list_sum (firstn c (fcounts_of n m))) in *.
  set (cg := FCG g (fcounts_of n m) (prefix_sum 0 (fcounts_of n m)) buf).
  exists cg. split; [|split; [reflexivity|split]].
  - unfold fbuild_grid. rewrite Hr. fold g. cbv zeta. rewrite !(proj2 (Z.eqb_neq _ _)) by lia. cbn [orb]. fold n m. rewrite EP. reflexivity.
  - change (fcg_buf cg) with buf. change (fcg_grid cg) with g.
    assert (PS : forall j p, In p (positions b r (nth j points fv0)) <-> exists t, In t (fpoint_sites b r points j) /\ ft_p t = p).
    { intros j p. unfold positions, fpoint_sites. cbv zeta. rewrite in_app_iff, in_map_iff. split.
      - intros [(s & <- & H)|[<-|[]]]; eexists; (split; [apply in_app_iff|]); [left; apply in_map_iff; exists s; split; [reflexivity|exact H]|reflexivity|right; left; reflexivity|reflexivity].
      - intros (t & H & <-). apply in_app_iff in H as [H|[<-|[]]]; [|right; left; reflexivity]. apply in_map_iff in H as (s & <- & H). left. exists s. auto. }
    split.
    + intros -> j p Hj Hp. apply PS in Hp as (t & Ht & <-). destruct (fcell_safe cint g (ft_p t)) eqn:E; auto. exfalso.
      assert (HI : In (n0, t) m) by (apply IM; split; eauto). destruct m; [destruct HI|discriminate].
    + intros H. destruct m as [|[c t] m'] eqn:Em; [destruct buf; [auto|discriminate]|]. exfalso. assert (HI : In (c, t) ((c, t) :: m')) by (left; auto). apply IM in HI as (E & j & Hj & Ht).
      rewrite (H j (ft_p t) Hj) in E; [discriminate|]. apply PS. eauto.
  - change (fcg_grid cg) with g. intros Hq. destruct (fcell_xyz cint g q) as [[cx cy] cz] eqn:Eq.
    assert (HLL : forall c, c < n -> st c + length (fgroup m c) <= length buf).
    { intros c Hc. rewrite LB. assert (E := HNs c Hc). unfold st. rewrite <- E. rewrite <- (fcounts_sum n m Hm). apply list_sum_firstn_all. }
    exists (flat_map (femit q qi r_max r_min excl) (flat_map (fgroup m) (visited cg cx cy cz))). split; [apply (drain_all cg cx cy cz q qi r_max r_min excl m st HS HB HNs HLL Hq)|].
    etransitivity; [apply perm_flat_map, groups_perm, (visited_nodup cg); exact Hq|]. apply perm_eq.
    rewrite flat_map_map, flat_map_filter. unfold m, fmapping. rewrite flat_map_flat_map. apply flat_map_ext_in. intros j Hj. apply in_seq in Hj.
    rewrite <- (sites_positions cint b points q qi r_max r_min excl g r j) by lia. rewrite flat_map_flat_map. apply flat_map_ext_in. intros t _.
    unfold fentry, seen. rewrite Eq. destruct (fcell_safe cint g (ft_p t)) as [c|] eqn:Es.
    + apply CS in Es as [G ->]. rewrite G. cbn [flat_map fst snd andb]. rewrite app_nil_r.
      replace (existsb _ _) with (touching (cx, cy, cz) (fcell_xyz cint g (ft_p t))); auto. apply eq_true_iff_eq. rewrite existsb_exists.
      destruct (fcell_xyz cint g (ft_p t)) as [[x y] z] eqn:Ex. rewrite touching_spec. split.
      * intros (dx & dy & dz & D & E). exists (fcell_number g (x, y, z)). split; [|apply Nat.eqb_refl]. apply (visited_in cg); auto. exists dx, dy, dz. rewrite <- E. auto.
      * intros (c & Hc & E). apply Nat.eqb_eq in E. subst c. apply (visited_in cg) in Hc as (dx & dy & dz & D & G' & E); auto. apply (fcell_number_inj cg) in E; auto. exists dx, dy, dz. auto.
    + replace (fin_grid g (fcell_xyz cint g (ft_p t))) with false; auto. symmetry. apply not_true_iff_false. intros G. assert (X := proj2 (CS _ _) (conj G eq_refl)). congruence.
Qed.
(** The outcome of a query. *)
Lemma fcq_outcome cint b points q qi r_max r_min excl : points <> [] -> (Z.of_nat (length points) <= 2 ^ 31)%Z -> fnq_ok b points = true -> fcq_args_ok b r_max r_min = true -> grid_ok (fsetup_grid cint b r_max) ->
  (exists j p, j < length points /\ In p (positions b r_max (nth j points fv0)) /\ fin_grid (fsetup_grid cint b r_max) (fcell_xyz cint (fsetup_grid cint b r_max) p) = true) ->
  exists l, (forall res, fcq_ball cint b points q qi r_max r_min excl res <-> res = Some l) /\
   (if fin_grid (fsetup_grid cint b r_max) (fcell_xyz cint (fsetup_grid cint b r_max) q) then Permutation l (cell_search cint b points q qi r_max r_min excl) else l = []).
Proof.
  intros _ HN HO HA HG (j & p & Hj & Hp & Gp). assert (Hr : Bleb r_max fzero = false).
  { unfold fcq_args_ok, fpoint_args_ok in HA. cbv zeta in HA. apply andb_prop in HA as [_ HA]. apply andb_prop in HA as [HA _]. apply negb_true_iff in HA. auto. }
  destruct (fcq_visit cint b points r_max q qi r_max r_min excl Hr HG HN) as (cg & EB & EG & HBuf & HV). rewrite EG in *. set (g := fsetup_grid cint b r_max) in *.
  assert (NB : fcg_buf cg <> []). { intros E. apply (proj1 HBuf) with (j := j) (p := p) in E; auto. unfold fcell_safe in E. cbv zeta in E. rewrite Gp in E. discriminate. }
  destruct (fin_grid g (fcell_xyz cint g q)) eqn:Gq.
  - destruct (HV eq_refl) as (l & D & P). exists l. split; auto. intros res. unfold fcq_ball. rewrite HO, HA, EB. cbn [andb]. unfold fcq_single. rewrite HA. destruct (fcg_buf cg) eqn:EBf; [contradiction|].
    rewrite EG. unfold fcell_safe. cbv zeta. rewrite Gq. split.
    + intros (l' & -> & D'). f_equal. eapply fdrained_det; eauto.
    + intros ->. eauto.
  - exists []. split; auto. intros res. unfold fcq_ball. rewrite HO, HA, EB. cbn [andb]. unfold fcq_single. rewrite HA. destruct (fcg_buf cg) eqn:EBf; [contradiction|].
    rewrite EG. unfold fcell_safe. cbv zeta. rewrite Gq. tauto.
Qed.
