(** Registration inside isSimilar and EnvironmentRMSDMinimizer. *)
From Coq Require Import Psatz Sorting.Sorted.
From Verif Require Import MatchEnvSpec MatchEnvProofs MatchEnvProofs2 MatchEnvProofs3 MatchEnvProofs4 MatchEnvProofs5 QuatSpec RegModel RegSpec RegProofs RegProofs2 RegProofs3.
Local Open Scope R_scope.

(** ** Which drawn points suffice *)
Lemma rotation_cross m u v : rotation m -> rapply m (cross u v) = cross (rapply m u) (rapply m v).
Proof.
  intros [H D]. destruct (orth_cofactor m H) as [C1 [C2 C3]]. rewrite D in *.
  assert (S : forall w, vscale 1 w = w) by (intros []; unfold vscale; simpl; f_equal; ring). rewrite S in *.
  transitivity (V3 (dot (cross (r1 m) (r2 m)) (cross u v)) (dot (cross (r2 m) (r0 m)) (cross u v)) (dot (cross (r0 m) (r1 m)) (cross u v))).
  - rewrite C1, C2, C3. reflexivity.
  - clear. destruct m as [[] [] []], u, v. unfold rapply, cross, dot; simpl. vec_ring.
Qed.
Lemma triple_expand u v x : let w := cross u v in vscale (dot w w) x = vadd (vscale (dot x (cross v w)) u) (vadd (vscale (dot x (cross w u)) v) (vscale (dot x w) w)).
Proof. cbv zeta. destruct u, v, x. unfold cross, dot; simpl. vec_ring. Qed.
Lemma rapply_lin m a u b v c w : rapply m (vadd (vscale a u) (vadd (vscale b v) (vscale c w))) = vadd (vscale a (rapply m u)) (vadd (vscale b (rapply m v)) (vscale c (rapply m w))).
Proof. unfold rapply, dot; simpl. vec_ring. Qed.
Lemma rapply_scale m a u : rapply m (vscale a u) = vscale a (rapply m u).
Proof. unfold rapply, dot; simpl. vec_ring. Qed.
Lemma vscale_inj a u v : a <> 0 -> vscale a u = vscale a v -> u = v.
Proof. intros Ha. destruct u, v. unfold vscale; simpl. intros E. injection E as E1 E2 E3. apply Rmult_eq_reg_l in E1, E2, E3; auto. congruence. Qed.
Lemma cross_ne u v : cross u v <> v0 -> dot (cross u v) (cross u v) <> 0.
Proof.
  intros H E. apply H. apply len_sq_0. unfold len_sq. replace (vsub (cross u v) v0) with (cross u v); auto. destruct (cross u v). unfold vsub, v0; simpl. f_equal; ring.
Qed.
Lemma fixes_two refs draw i j : In i draw -> In j draw -> cross (nth i refs v0) (nth j refs v0) <> v0 -> fixes refs draw.
Proof.
  intros Hi Hj Hc m Hm Hf x _. pose proof (Hf i Hi) as Fi. pose proof (Hf j Hj) as Fj. apply (vscale_inj (dot (cross (nth i refs v0) (nth j refs v0)) (cross (nth i refs v0) (nth j refs v0)))).
  { apply cross_ne. auto. }
  rewrite <- rapply_scale. rewrite (triple_expand (nth i refs v0) (nth j refs v0) x). rewrite rapply_lin, rotation_cross, Fi, Fj by auto. reflexivity.
Qed.
Lemma fixes_few refs draw : (length refs <= 3)%nat -> drawn (length refs) draw -> fixes refs draw.
Proof.
  intros Hl [Dl [Dn Dr]] m _ Hf x Hx. destruct (In_nth _ _ v0 Hx) as [i [Hi <-]]. apply Hf.
  assert (P : Permutation draw (seq 0 (length refs))).
  { apply NoDup_Permutation_bis; auto; [rewrite seq_length; lia|]. intros k Hk. apply in_seq. specialize (Dr k Hk). lia. }
  apply (Permutation_in _ (Permutation_sym P)). apply in_seq. lia.
Qed.

(** ** Maps *)
Lemma map_of_corr N s : pairing N s -> correspondence N (map_of s).
Proof.
  intros P. pose proof (Permutation_length P) as Hl. rewrite seq_length in Hl. unfold map_of. split.
  - rewrite <- P. apply Permutation_refl' . revert Hl. generalize 0%nat. clear P. intros o _. revert o. induction s as [|x s IH]; intros o; simpl; [auto|f_equal; apply IH].
  - apply Permutation_refl'. rewrite Hl. clear P. revert Hl. generalize 0%nat. revert s. induction N as [|N IH]; intros [|x s] o Hl; simpl in *; try discriminate; auto. f_equal. apply IH. lia.
Qed.
Lemma map_of_range N s i j : pairing N s -> In (i, j) (map_of s) -> (i < N)%nat /\ (j < N)%nat.
Proof.
  intros P H. destruct (map_of_corr N s P) as [P1 P2]. split.
  - assert (In i (seq 0 N)) by (apply (Permutation_in _ P1); apply (in_map fst) in H; exact H). apply in_seq in H0. lia.
  - assert (In j (seq 0 N)) by (apply (Permutation_in _ P2); apply (in_map snd) in H; exact H). apply in_seq in H0. lia.
Qed.
Lemma combine_seq (s : list nat) (X : list vec3) : forall o Y, length s = length X -> (forall k, nth (o + k) Y v0 = nth k X v0) ->
  combine s X = map (fun ij => (fst ij, nth (snd ij) Y v0)) (combine s (seq o (length s))).
Proof.
  revert X. induction s as [|i s IH]; intros [|x X] o Y Hl HY; simpl in *; try discriminate; auto.
  f_equal; [rewrite <- (HY 0%nat) at 1; rewrite Nat.add_0_r; auto|]. apply IH; [lia|]. intros k. specialize (HY (S k)). rewrite Nat.add_succ_r in HY. exact HY.
Qed.
Lemma cost_map refs X s : length s = length X -> cost refs X s = fold_right Rplus 0 (map (fun ij => len_sq (vsub (nth (fst ij) refs v0) (nth (snd ij) X v0))) (map_of s)).
Proof. intros H. unfold cost, map_of. rewrite (combine_seq s X 0 X H) by auto. rewrite map_map. reflexivity. Qed.
Lemma sum_perm l l' : Permutation l l' -> fold_right Rplus 0 l = fold_right Rplus 0 l'.
Proof. induction 1; simpl; lra. Qed.
(** The cost in the order of the reference points. *)
Lemma cost_sorted refs X Y s f : pairing (length refs) s -> length X = length refs -> length Y = length refs ->
  (forall i, (i < length refs)%nat -> In (i, f i) (map_of s) /\ nth i Y v0 = nth (f i) X v0) -> cost refs X s = cost refs Y (seq 0 (length refs)).
Proof.
  intros P HX HY Hf. pose proof (Permutation_length P) as Hl. rewrite seq_length in Hl.
  rewrite (cost_map refs X) by lia. rewrite (cost_map refs Y) by (rewrite seq_length; auto). unfold map_of at 2. rewrite seq_length.
  assert (E : combine (seq 0 (length refs)) (seq 0 (length refs)) = map (fun i => (i, i)) (seq 0 (length refs))).
  { clear. induction (seq 0 (length refs)); simpl; congruence. }
  rewrite E, map_map. cbn [fst snd].
  assert (PV : Permutation (map (fun i => (i, f i)) (seq 0 (length refs))) (map_of s)).
  { destruct (map_of_corr _ s P) as [C1 _]. apply NoDup_Permutation_bis.
    - apply FinFun.Injective_map_NoDup; [intros a b Hab; injection Hab; auto|apply seq_NoDup].
    - rewrite map_length, seq_length. unfold map_of. rewrite combine_length, seq_length. lia.
    - intros p Hp. apply in_map_iff in Hp. destruct Hp as [i [<- Hi]]. apply in_seq in Hi. apply Hf. lia. }
  rewrite <- (sum_perm _ _ (Permutation_map _ PV)). rewrite map_map. f_equal. apply map_ext_in. intros i Hi. apply in_seq in Hi. cbn [fst snd].
  destruct (Hf i ltac:(lia)) as [_ ->]. reflexivity.
Qed.

(** ** isSimilar *)
Lemma registers_fit svd srt draw : svd_orth svd -> sorts srt -> (forall N, (0 < N)%nat -> drawn N (draw N)) -> registers (Some (reg_of svd srt draw)).
Proof.
  intros Hu Hs Hd f E v1 v2. injection E as <-. unfold reg_of.
  destruct v2 as [|x v2]; [|destruct (Nat.eq_dec (length (x :: v2)) (length v1)) as [E|E]].
  - unfold fit. destruct v1 as [|y v1].
    + cbn [length Nat.eqb negb num_pts]. destruct (draw 0%nat) as [|i l]; cbn [firstn].
      * cbn [pick omap fit_loop Nat.mul Nat.add]. unfold try_tuple. cbn [firstn pick omap nth_error]. cbn. split; [apply orth_id|intros ? ? []].
      * cbn. destruct i; cbn; (split; [apply orth_id|intros ? ? []]).
    + cbn. split; [apply orth_id|intros ? ? []].
  - destruct (fit_spec svd srt (draw (length v1)) v1 (x :: v2) Hs E) as [f [-> [[c [_ [Hk [s [_ [P [_ Em]]]]]]] _]]]; [discriminate|apply Hd; simpl in E; lia|].
    cbn [fst snd]. split; [rewrite Hk; apply (kabsch_rotation svd); apply Hu|]. intros i j Hij. rewrite Em in Hij. rewrite E. apply (map_of_range _ s); auto.
  - unfold fit. destruct (Nat.eqb_spec (length (x :: v2)) (length v1)); [contradiction|]. cbn. split; [apply orth_id|intros ? ? []].
Qed.
Lemma insert_all tsq v1 v2 : forall l vm, (forall i j, In (i, j) l -> (i < length v1)%nat /\ (j < length v2)%nat /\ len_sq (vsub (nth i v1 v0) (nth j v2 v0)) < tsq) ->
  NoDup (map fst (vm ++ l)) -> NoDup (map snd (vm ++ l)) -> ofold (insert_close tsq v1 v2) l vm = Some (vm ++ l).
Proof.
  induction l as [|[i j] l IH]; intros vm H N1 N2; cbn [ofold]; [rewrite app_nil_r; auto|].
  destruct (H i j (or_introl eq_refl)) as [Hi [Hj Hd]]. unfold insert_close at 1. cbn [fst snd]. rewrite (nth_error_g v1 i v0), (nth_error_g v2 j v0) by auto.
  rewrite Rlt_bool_true by auto. rewrite emplace_new.
  - rewrite IH; rewrite <- ?app_assoc; auto. intros a b Hab. apply H. right; auto.
  - intros a b Hab. rewrite map_app in *. cbn [map] in *. apply NoDup_remove_2 in N1, N2. rewrite in_app_iff in N1, N2. split; intros E; subst.
    + apply N1. left. apply (in_map fst) in Hab. exact Hab.
    + apply N2. left. apply (in_map snd) in Hab. exact Hab.
Qed.
Lemma similar_copy svd srt draw t e1 e2 : sorts srt -> okv e1 -> okv e2 -> e_vecs e2 <> [] -> turned_copy (props e1) (props e2) -> drawn (length (props e1)) (draw (length (props e1))) ->
  fixes (props e1) (draw (length (props e1))) -> svd_on svd (draw (length (props e1))) (props e1) (props e2) -> tol * sqrt (INR (length (props e1))) <= t ->
  exists rot vm, is_similar (t * t) (Some (reg_of svd srt draw)) e1 e2 = Some (rot, vm) /\ vm <> [].
Proof.
  intros Hs O1 O2 Hne Hc Hd Hf Hsvd Ht. set (v1 := props e1) in *. set (v2 := props e2) in *.
  assert (Hl : length v2 = length v1) by (destruct Hc as [m [_ P]]; apply Permutation_length in P; rewrite map_length in P; auto).
  pose proof (props_length e1 O1) as L1. pose proof (props_length e2 O2) as L2. fold v1 in L1. fold v2 in L2.
  assert (Hn2 : v2 <> []) by (intros E; rewrite E in L2; simpl in L2; apply Hne; destruct (e_vecs e2); [auto|discriminate]).
  destruct (exact_copy svd srt (draw (length v1)) v1 v2 Hs Hn2 Hc Hd Hf Hsvd) as [f [Ef Hrm]].
  destruct (fit_spec svd srt (draw (length v1)) v1 v2 Hs Hl Hn2 Hd) as [f' [Ef' [[c [_ [Hk [s [_ [P [Er Em]]]]]]] _]]].
  rewrite Ef in Ef'. injection Ef' as <-.
  unfold is_similar. rewrite <- L1, <- L2, Hl, Nat.eqb_refl. cbn [negb]. rewrite (proper_props e1 O1), (proper_props e2 O2). fold v1 v2.
  unfold reg_of. rewrite Ef. rewrite insert_all.
  - cbn [app]. exists (f_rot f), (f_map f). assert (Hlm : length (f_map f) = length v1).
    { rewrite Em. unfold map_of. rewrite combine_length, seq_length. apply Permutation_length in P. rewrite seq_length in P. lia. }
    rewrite Hlm, Nat.eqb_refl. split; auto. intros E. rewrite E in Hlm. simpl in Hlm. destruct v2; [contradiction|simpl in Hl; lia].
  - intros i j Hij. rewrite Em in Hij. destruct (map_of_range _ s i j P Hij) as [Hi Hj]. rewrite map_length. split; auto. split; [lia|].
    set (X := map (rapply (f_rot f)) v2) in *. assert (HX : length X = length v1) by (unfold X; rewrite map_length; auto).
    assert (Hls : length s = length v1) by (apply Permutation_length in P; rewrite seq_length in P; auto).
    assert (Hle : len_sq (vsub (nth i v1 v0) (nth j X v0)) <= cost v1 X s).
    { rewrite cost_map by lia. clear - Hij. revert Hij. induction (map_of s) as [|p l IH]; intros H; [destruct H|]. cbn [map fold_right].
      assert (H0 : 0 <= fold_right Rplus 0 (map (fun ij => len_sq (vsub (nth (fst ij) v1 v0) (nth (snd ij) X v0))) l)).
      { clear. induction l as [|q l IH]; simpl; [lra|]. pose proof (len_sq_nonneg (vsub (nth (fst q) v1 v0) (nth (snd q) X v0))). lra. }
      pose proof (len_sq_nonneg (vsub (nth (fst p) v1 v0) (nth (snd p) X v0))).
      destruct H as [->|H]; cbn [fst snd] in *; [lra|]. specialize (IH H). lra. }
    eapply Rle_lt_trans; [exact Hle|]. rewrite <- rms_sq by (unfold X; destruct v2; [contradiction|discriminate]). fold X in Er. rewrite <- Er, HX.
    assert (Hnn : 0 <= f_rmsd f) by (rewrite Er; apply rms_nonneg).
    assert (HN : 0 < INR (length v1)) by (apply lt_0_INR; destruct v2; [contradiction|simpl in Hl; lia]).
    pose proof (sqrt_lt_R0 _ HN) as HsN. pose proof (sqrt_sqrt _ (Rlt_le _ _ HN)) as Hss. set (q := sqrt (INR (length v1))) in *.
    rewrite <- Hss. assert (H1 : f_rmsd f * q < tol * q) by (apply Rmult_lt_compat_r; auto). assert (0 <= f_rmsd f * q) by (apply Rmult_le_pos; lra).
    replace (f_rmsd f * f_rmsd f * (q * q)) with ((f_rmsd f * q) * (f_rmsd f * q)) by ring. nra.
  - cbn [app]. rewrite Em. destruct (map_of_corr _ s P) as [C1 _]. eapply Permutation_NoDup; [symmetry; exact C1|apply seq_NoDup].
  - cbn [app]. rewrite Em. destruct (map_of_corr _ s P) as [_ C2]. eapply Permutation_NoDup; [symmetry; exact C2|apply seq_NoDup].
Qed.

(** ** minimizeRMSD *)
Definition reg_ok (reg : option (list nat)) (N : nat) : Prop := forall draw, reg = Some draw -> drawn N draw.
Lemma minimize_spec svd srt reg e1 e2 : svd_orth svd -> sorts srt -> okv e1 -> okv e2 -> e_vecs e1 <> [] -> reg_ok reg (length (e_vecs e1)) ->
  (length (e_vecs e1) <> length (e_vecs e2) -> minimize svd srt reg e1 e2 = Some (-1, rid, [])) /\
  (length (e_vecs e1) = length (e_vecs e2) -> exists rot s, rotation rot /\ (reg = None -> rot = rid) /\ pairing (length (e_vecs e1)) s /\
     minimize svd srt reg e1 e2 = Some (rms (props e1) (map (rapply rot) (props e2)) s, rot, map_of s)).
Proof.
  intros Hu Hs O1 O2 Hne Hr. unfold minimize. pose proof (props_length e1 O1) as L1. pose proof (props_length e2 O2) as L2. split; intros Hl.
  - destruct (Nat.eqb_spec (length (e_vecs e1)) (length (e_vecs e2))); [contradiction|reflexivity].
  - rewrite Hl, Nat.eqb_refl. cbn [negb]. rewrite (proper_props e1 O1), (proper_props e2 O2).
    assert (Hn2 : props e2 <> []) by (intros E; rewrite E in L2; simpl in L2; apply Hne; destruct (e_vecs e1); [auto|simpl in Hl; lia]).
    destruct reg as [draw|].
    + destruct (fit_spec svd srt draw (props e1) (props e2) Hs) as [f [-> [[c [_ [Hk [s [_ [P [Er Em]]]]]]] _]]]; auto; [lia|rewrite L1; apply Hr; auto|].
      exists (f_rot f), s. split; [rewrite Hk; apply kabsch_rotation; apply Hu|]. split; [discriminate|]. split; [rewrite <- Hl, <- L1; auto|]. rewrite Er, Em. reflexivity.
    + destruct (aligned_spec srt (props e1) (props e2) Hs) as [s [_ [P ->]]]; [lia|auto|].
      exists rid, s. split; [split; [apply orth_id|apply rdet_id]|]. split; auto. split; [rewrite <- Hl, <- L1; auto|].
      rewrite (map_ext _ (fun v => v)) by apply rapply_id. rewrite map_id. reflexivity.
Qed.

Local Open Scope nat_scope.
Section minimizer.
  Variables (svd : svd_fun) (srt : sort_fun) (M : list vec3) (reg : nat -> option (list nat)) (allb : list ebond) (old : list (list vec3)) (np : nat).
  Hypothesis Hu : svd_orth svd.
  Hypothesis Hs : sorts srt.
  Hypothesis HM : M <> [].
  Hypothesis Hreg : forall k, reg_ok (reg k) (length M).
  Let e0 := new_env 0 true M.
  Definition rpoint (i : nat) (x : R) (pe : list vec3) : Prop :=
    (length (around allb i) <> length M -> x = (-1)%R /\ pe = around allb i) /\
    (length (around allb i) = length M -> exists rot, rotation rot /\ (reg i = None -> rot = rid) /\ Permutation (map (rapply rot) (around allb i)) pe /\
       x = rms M pe (seq 0 (length M))).
  Record rinv (m : nat) (st : (list env * list nat) * list ebond * list R * list (list vec3)) : Prop := {
    ri_wf : wf (fst (fst (fst (fst st)))) (snd (fst (fst (fst st))));
    ri_len : length (fst (fst (fst (fst st)))) = S m;
    ri_rank : length (snd (fst (fst (fst st)))) = S np /\ forall q, 0 < q -> nth q (snd (fst (fst (fst st)))) 0 = 0;
    ri_zero : g (fst (fst (fst (fst st)))) 0 = e0;
    ri_bonds : esorted (snd (fst (fst st))) /\ (forall b, In b (snd (fst (fst st))) -> m <= eb_i b) /\ (forall i, m <= i -> around (snd (fst (fst st))) i = around allb i);
    ri_xlen : length (snd (fst st)) = m;
    ri_plen : length (snd st) = length old + m;
    ri_old : forall i, m <= i -> nth i (snd st) [] = nth i old [];
    ri_ok : forall i, i < m -> exists pe, nth i (snd st) [] = nth i old [] ++ pe /\ rpoint i (nth i (snd (fst st)) 0%R) pe }.
  Lemma rmsd_step_spec m st : m < np -> rinv m st -> exists st', rmsd_step svd srt reg st m = Some st' /\ rinv (S m) st'.
  Proof.
    intros Hm [W Hl Hrk Hz Hb Hml Hpl Hold Hok]. destruct st as [[[[s rank] bonds] xs] penv]. cbn [fst snd] in *.
    destruct Hb as [Hb1 [Hb2 Hb3]]. unfold rmsd_step.
    destruct (build_vecs_spec m bonds Hb1 Hb2) as [taken [rest [-> [Eb [Et Er]]]]]. rewrite (Hb3 m (le_n m)). cbn [fst snd].
    destruct (wf_snoc s rank (S m) (around allb m) W Hl) as [W1 [G1 G2]]; [lia|]. fold (own_env allb m) in *. set (s1 := s ++ [own_env allb m]) in *.
    assert (Hl1 : length s1 = S (S m)) by (unfold s1; rewrite app_length; simpl; lia).
    rewrite (nth_error_g s1 0 dflt) by lia. rewrite (nth_error_g s1 (S m) dflt) by lia. fold (g s1 0) (g s1 (S m)). rewrite G2. rewrite G1 by lia. rewrite Hz.
    assert (Hrest : esorted rest /\ (forall b, In b rest -> S m <= eb_i b) /\ (forall i, S m <= i -> around rest i = around allb i)).
    { split; [subst bonds; clear -Hb1; induction taken; simpl in *; auto; inversion Hb1; subst; auto|]. split; [intros b Hbi; apply Er; auto|].
      intros i Hi. rewrite <- Hb3 by lia. rewrite Eb, around_app, (around_none taken); auto. intros b Hbt. rewrite (Et b Hbt). lia. }
    destruct (minimize_spec svd srt (reg m) e0 (own_env allb m) Hu Hs (new_env_ok _ _ _) (new_env_ok _ _ _) HM (Hreg m)) as [Hdif Heq].
    assert (Main : exists x rot vm s' rank', minimize svd srt (reg m) e0 (own_env allb m) = Some (x, rot, vm) /\
      (match vm with [] => Some (s1, rank) | _ => merge (s1, rank) 0 (S m) vm rot end) = Some (s', rank') /\ wf s' rank' /\ length s' = S (S m) /\
      (length rank' = S np /\ forall q, 0 < q -> nth q rank' 0 = 0) /\ g s' 0 = e0 /\ rpoint m x (props (g s' (S m))) /\ okv (g s' (S m))).
    { destruct (Nat.eq_dec (length (e_vecs e0)) (length (e_vecs (own_env allb m)))) as [El|El].
      2: { exists (-1)%R, rid, [], s1, rank. split; [apply Hdif; auto|]. split; auto. split; auto. split; auto. split; auto. split; [rewrite G1 by lia; auto|]. rewrite G2.
           split; [|apply new_env_ok]. unfold own_env at 1. rewrite new_env_props. split; auto. intros Hc. simpl in El. congruence. }
      destruct (Heq El) as [rot [sg [Hrot [Hri [Pa E]]]]]. rewrite E. pose proof (map_of_corr _ sg Pa) as Hco. set (vm' := map_of sg) in *.
      exists (rms (props e0) (map (rapply rot) (props (own_env allb m))) sg), rot, vm'.
      destruct (corr_left _ _ Hco) as [Hlv [f [Hf Hp]]].
      assert (R0 : root s1 0 = 0) by (unfold root; rewrite G1, Hz by lia; auto).
      assert (Rm : root s1 (S m) = S m) by (unfold root; rewrite G2; auto).
      assert (Hvm : match vm' with [] => Some (s1, rank) | _ => merge (s1, rank) 0 (S m) vm' rot end = merge (s1, rank) 0 (S m) vm' rot).
      { destruct vm'; auto. simpl in Hlv. destruct M; [contradiction|discriminate]. }
      rewrite Hvm.
      unfold merge. cbn [fst snd]. rewrite (nth_error_g s1 0 dflt) by lia. rewrite (nth_error_g s1 (S m) dflt) by lia. fold (g s1 0) (g s1 (S m)).
      fold (root s1 0) (root s1 (S m)). rewrite R0, Rm. rewrite (nth_error_g rank 0 0) by lia. rewrite (nth_error_g rank (S m) 0) by lia.
      rewrite (proj2 Hrk (S m)) by lia. cbn [Nat.ltb Nat.leb]. change (Nat.ltb (nth 0 rank 0) 0) with false. cbv iota. rewrite Hlv.
      destruct (absorb_spec (bleft vm') f 0 (S m) rot s1 rank (length (e_vecs e0))) as [s' [rank' [H1 [H2 [[H3 H3'] H4]]]]]; auto; try lia.
      { rewrite G2. auto. }
      { intros i Hi. destruct (Hf i Hi) as [A1 [_ A2]]. auto. }
      exists s', rank'. split; [reflexivity|]. split; [exact H1|]. rewrite R0 in *. rewrite Rm in *.
      assert (Sh : shifted s1 s' 0 (S m) f rot) by (split; [auto|]; intros i Hi; rewrite Rm, R0; auto).
      split. { apply (shifted_wf s1 s' rank rank' 0 (S m) f rot (length (e_vecs e0))); auto; try lia. rewrite G1, Hz by lia; auto. rewrite G2; auto. }
      split; [lia|]. split. { split; [lia|]. intros q Hq. rewrite H3' by lia. apply Hrk. auto. }
      split. { rewrite H4 by lia. rewrite R0. cbn [Nat.eqb]. rewrite G1, Hz by lia. auto. }
      assert (Hg : g s' (S m) = moved 0 f rot (own_env allb m)) by (rewrite H4 by lia; rewrite Rm, Nat.eqb_refl, G2; auto). rewrite Hg.
      assert (Hok' : okv (moved 0 f rot (own_env allb m))) by (apply moved_ok; [apply new_env_ok|]; rewrite <- El; exact Hp).
      split; [|exact Hok']. split; [intros Hc; exfalso; apply Hc; symmetry; exact El|]. intros _.
      exists rot. split; auto. split; auto.
      assert (Er' : rmul rot (e_rot (own_env allb m)) = rot) by apply rmul_id_r.
      split.
      - unfold props. cbn [moved e_rot e_vecs e_vind]. rewrite Er'.
        rewrite <- (map_map (fun r => nth r (e_vecs (own_env allb m)) v0) (rapply rot)). apply Permutation_map.
        rewrite <- (perm_map_nth (around allb m) v0) at 1. apply Permutation_map. symmetry. exact Hok'.
      - change (e_vecs e0) with M in *. unfold e0 at 1. rewrite new_env_props. change (e_vecs (own_env allb m)) with (around allb m) in *.
        assert (Ep : props (own_env allb m) = around allb m) by apply new_env_props. rewrite Ep.
        set (Y := props (moved 0 f rot (own_env allb m))).
        assert (HY : length Y = length M) by (unfold Y; rewrite props_length by auto; symmetry; exact El).
        unfold rms. fold (cost M (map (rapply rot) (around allb m)) sg) (cost M Y (seq 0 (length M))). rewrite map_length, <- El, HY. f_equal. f_equal.
        apply (cost_sorted M _ Y sg f); auto; [rewrite map_length; auto|]. intros i Hi. destruct (Hf i Hi) as [_ [Hin Hfi]]. split; [exact Hin|].
        unfold Y. rewrite moved_props; [|apply new_env_ok| intros k Hk; change (e_vecs (own_env allb m)) with (around allb m) in *; rewrite <- El in *; apply Hf; auto |change (e_vecs (own_env allb m)) with (around allb m); rewrite <- El; auto].
        rewrite Ep. rewrite (nth_map_lt _ _ _ v0) by lia. reflexivity. }
    destruct Main as [x [rot [vm [s' [rank' [-> [-> [W' [Hl' [Hrk' [Hz' [Hpo Hok']]]]]]]]]]]]. cbn [fst snd].
    rewrite (nth_error_g s' (S m) dflt) by lia. fold (g s' (S m)). rewrite (proper_props _ Hok').
    eexists; split; [reflexivity|].
    destruct (push_env_spec penv m (props (g s' (S m)))) as [P1 P2]; [lia|].
    constructor; cbn [fst snd]; auto.
    - rewrite app_length; simpl; lia.
    - lia.
    - intros i Hi. rewrite P2. destruct (Nat.eqb_spec i m); [lia|]. apply Hold. lia.
    - intros i Hi. rewrite P2, nth_snoc, Hml. destruct (Nat.eqb_spec i m) as [-> |].
      + exists (props (g s' (S m))). rewrite Hold by lia. auto.
      + apply Hok. lia.
  Qed.
  Lemma rmsd_fold : forall k m st, rinv m st -> m + k = np -> exists st', ofold (rmsd_step svd srt reg) (seq m k) st = Some st' /\ rinv np st'.
  Proof.
    induction k as [|k IH]; intros m st P Hm; cbn [seq ofold].
    - exists st. split; auto. rewrite <- Hm, Nat.add_0_r. auto.
    - destruct (rmsd_step_spec m st) as [st' [-> P']]; [lia|auto|]. apply (IH (S m) st' P'). lia.
  Qed.
End minimizer.
Lemma rmsd_spec svd srt o b np bonds motif reg : svd_orth svd -> sorts srt -> motif <> [] -> (forall k, reg_ok (reg k) (length motif)) -> esorted bonds ->
  exists o', rmsd_compute svd srt reg o b np bonds motif = Some o' /\ length (ro_rmsds o') = np /\
    forall i, i < np -> exists pe, nth i (ro_penv o') [] = nth i (ro_penv o) [] ++ pe /\ rpoint (map (wrap b) motif) reg bonds i (nth i (ro_rmsds o') 0%R) pe.
Proof.
  intros Hu Hs HM Hr He. unfold rmsd_compute. set (M := map (wrap b) motif).
  assert (HM' : M <> []) by (unfold M; destruct motif; [contradiction|discriminate]).
  assert (Hr' : forall k, reg_ok (reg k) (length M)) by (unfold M; rewrite map_length; auto).
  destruct (rmsd_fold svd srt M reg bonds (ro_penv o) np Hu Hs HM' Hr' np 0 ([new_env 0 true M], repeat 0 (S np), bonds, [], ro_penv o)) as [st [E P]]; auto.
  { constructor; cbn [fst snd]; auto.
    - constructor; simpl; try lia.
      + intros i Hi. simpl in Hi. assert (i = 0) by lia. subst. unfold root, g; simpl. auto.
      + intros i Hi. assert (i = 0) by lia. subst. apply new_env_ok.
      + intros i j Hi Hj. assert (i = 0) by lia. assert (j = 0) by lia. subst. auto.
    - rewrite repeat_length. split; auto. intros q Hq. apply nth_repeat.
    - split; auto. split; [intros; lia|auto].
    - intros i Hi. lia. }
  rewrite E. destruct st as [[[[s rank] rest] xs] penv]. destruct P as [W Hl Hrk Hz Hb Hml Hpl Hold Hok]. cbn [fst snd] in *.
  eexists; split; [reflexivity|]. cbn [ro_rmsds ro_penv]. auto.
Qed.
