(** C75: registration of environments. *)
From Coq Require Import Psatz Sorting.Sorted.
From Verif Require Import MatchEnvSpec MatchEnvProofs MatchEnvProofs2 MatchEnvProofs3 MatchEnvProofs4 MatchEnvProofs5 QuatSpec RegModel RegSpec RegProofs RegProofs2 RegProofs3 RegProofs4.
Local Open Scope R_scope.

(** The Kabsch algorithm returns a proper rotation, and no proper rotation brings the first points closer to the second. *)
Theorem C75_kabsch : forall svd P Q, length P = length Q -> is_svd (cov P Q) (fst (svd (cov P Q))) (snd (svd (cov P Q))) ->
  rotation (kabsch svd P Q) /\ forall m, rotation m -> misfit (kabsch svd P Q) P Q <= misfit m P Q.
Proof.
  intros svd P Q Hl H. split; [apply kabsch_rotation; apply H|]. intros m Hm. apply kabsch_best; auto.
Qed.

(** The matching is one to one, the reported number is the root mean square distance of the matched pairs, each point gets the nearest
    reference point not taken before, and sets that agree up to order are matched exactly. *)
Theorem C75_matching : forall srt refs pts, sorts srt -> length pts = length refs -> pts <> [] ->
  exists s, pairing (length refs) s /\ aligned_rmsd srt refs pts = Some (rms refs pts s, map_of s) /\
    (forall k j, (k < length pts)%nat -> (j < length refs)%nat -> ~ In j (firstn k s) ->
       len_sq (vsub (nth (nth k s 0%nat) refs v0) (nth k pts v0)) <= len_sq (vsub (nth j refs v0) (nth k pts v0))) /\
    (Permutation pts refs -> rms refs pts s = 0).
Proof.
  intros srt refs pts Hs Hl Hne. destruct (aligned_spec srt refs pts Hs Hl Hne) as [s [G [P E]]]. exists s. split; auto. split; auto. split.
  - intros k j Hk Hj Hn. apply (greedy_nearest _ _ _ _ G); auto. apply in_seq. lia.
  - intros HP. rewrite <- (at_all refs) in HP. pose proof (greedy_exact _ _ _ _ G (seq_NoDup _ _) HP) as C. unfold cost in C. unfold rms. rewrite C. unfold Rdiv. rewrite Rmult_0_l. apply sqrt_0.
Qed.
(** It is not the matching with the least root mean square distance. *)
Theorem C75_greedy_refuted : exists refs pts s', length pts = length refs /\ pairing (length refs) s' /\
  forall srt, sorts srt -> exists d vm, aligned_rmsd srt refs pts = Some (d, vm) /\ rms refs pts s' < d.
Proof.
  exists [V3 0 0 0; V3 10 0 0], [V3 4 0 0; V3 (-5) 0 0], [1; 0]%nat. split; auto. split; [apply perm_swap|].
  intros srt Hs. destruct (aligned_spec srt [V3 0 0 0; V3 10 0 0] [V3 4 0 0; V3 (-5) 0 0] Hs eq_refl) as [s [G [P E]]]; [discriminate|].
  exists (rms [V3 0 0 0; V3 10 0 0] [V3 4 0 0; V3 (-5) 0 0] s), (map_of s). split; auto.
  inversion G as [|u p t i s1 Hi Hm G1]; subst. inversion G1 as [|u p t j s2 Hj Hm1 G2]; subst. inversion G2; subst.
  simpl in Hi. destruct Hi as [<-|[<-|[]]].
  - simpl in Hj. destruct Hj as [<-|[]]. unfold rms. simpl. apply sqrt_lt_1_alt. unfold len_sq, dot; simpl. lra.
  - exfalso. specialize (Hm 0%nat (or_introl eq_refl)). unfold d2, len_sq, dot in Hm. simpl in Hm. lra.
Qed.

(** The search always ends with a proper rotation, the points turned by it, a one-to-one map, and their root mean square distance. *)
Theorem C75_fit : forall svd srt draw refs pts, svd_orth svd -> sorts srt -> length pts = length refs -> pts <> [] -> drawn (length refs) draw ->
  exists f s, fit svd srt draw refs pts = Some (f, map (rapply (f_rot f)) pts) /\ rotation (f_rot f) /\ pairing (length refs) s /\
    f_rmsd f = rms refs (map (rapply (f_rot f)) pts) s /\ f_map f = map_of s.
Proof.
  intros svd srt draw refs pts Hu Hs Hl Hne Hd. destruct (fit_spec svd srt draw refs pts Hs Hl Hne Hd) as [f [E [[c [_ [Hk [s [_ [P [Er Em]]]]]]] _]]].
  exists f, s. split; auto. split; auto. rewrite Hk. apply kabsch_rotation; apply Hu.
Qed.
(** It is below the tolerance, or no worse than aligning any ordered tuple of different points with the drawn reference points. *)
Theorem C75_least : forall svd srt draw refs pts, sorts srt -> length pts = length refs -> pts <> [] -> drawn (length refs) draw ->
  exists f X, fit svd srt draw refs pts = Some (f, X) /\
    (f_rmsd f < tol \/ forall c, drawn (length pts) c ->
       exists d vm, aligned_rmsd srt refs (map (rapply (kabsch svd (at_ pts c) (at_ refs draw))) pts) = Some (d, vm) /\ f_rmsd f <= d).
Proof.
  intros svd srt draw refs pts Hs Hl Hne Hd. destruct (fit_spec svd srt draw refs pts Hs Hl Hne Hd) as [f [E [_ Hm]]].
  exists f, (map (rapply (f_rot f)) pts). split; auto. destruct Hm as [Ht|Hm]; [left; auto|right]. intros c Hc.
  destruct (Hm c Hc) as [g [[Rg _] [Eg Hle]]]. rewrite <- Rg. eauto.
Qed.
(** A turned and reordered copy is recognised, provided the drawn reference points determine the others. *)
Theorem C75_copy : forall svd srt draw refs pts, sorts srt -> pts <> [] -> turned_copy refs pts -> drawn (length refs) draw -> fixes refs draw ->
  svd_on svd draw refs pts -> exists f X, fit svd srt draw refs pts = Some (f, X) /\ f_rmsd f < tol.
Proof.
  intros svd srt draw refs pts Hs Hne Hc Hd Hf Hsvd. destruct (exact_copy svd srt draw refs pts Hs Hne Hc Hd Hf Hsvd) as [f [E H]]. eauto.
Qed.
(** They do when there are at most three, or when two of the drawn ones are not collinear with the centre. *)
Theorem C75_enough : forall refs draw, drawn (length refs) draw ->
  (length refs <= 3)%nat \/ (exists i j, In i draw /\ In j draw /\ cross (nth i refs v0) (nth j refs v0) <> v0) -> fixes refs draw.
Proof.
  intros refs draw Hd [H|[i [j [Hi [Hj H]]]]]; [apply fixes_few; auto|apply (fixes_two refs draw i j); auto].
Qed.

(** Otherwise even identical sets can be reported as different. *)
Definition line : list vec3 := [V3 1 0 0; V3 2 0 0; V3 3 0 0; V3 0 1 0].
Definition quarter : rotm := RM (V3 1 0 0) (V3 0 0 (-1)) (V3 0 1 0).
Definition line_svd : svd_fun := fun A => let a := vx (r0 A) in let b := vx (r1 A) in
  if Reqb b 0 then (rid, quarter)
  else let n := sqrt (a * a + b * b) in (RM (V3 (a / n) (- b / n) 0) (V3 (b / n) (a / n) 0) (V3 0 0 1), rid).
Lemma line_cov c : drawn 4 c -> exists a b, cov (at_ line c) (at_ line [0; 1; 2]%nat) = RM (V3 a 0 0) (V3 b 0 0) v0 /\ ((b = 0 /\ 0 < a) \/ (1 <= b <= 3 /\ 4 <= a <= 13)).
Proof.
  intros H. apply drawn_tuples in H; [|lia]. 
  assert (E : tuples 4 = [[0;1;2];[0;2;1];[1;0;2];[1;2;0];[2;0;1];[2;1;0];[0;1;3];[0;3;1];[1;0;3];[1;3;0];[3;0;1];[3;1;0];
    [0;2;3];[0;3;2];[2;0;3];[2;3;0];[3;0;2];[3;2;0];[1;2;3];[1;3;2];[2;1;3];[2;3;1];[3;1;2];[3;2;1]]%nat) by (vm_compute; reflexivity).
  assert (G : forall x1 y1 x2 y2 x3 y3, cov [V3 x1 y1 0; V3 x2 y2 0; V3 x3 y3 0] (at_ line [0; 1; 2]%nat) = RM (V3 (x1 + 2 * x2 + 3 * x3) 0 0) (V3 (y1 + 2 * y2 + 3 * y3) 0 0) v0).
  { intros. unfold cov, at_, line, radd, outer, rzero, v0; simpl. f_equal; vec_ring. }
  rewrite E in H. clear E.
  repeat (destruct H as [<-|H]; [cbn [at_ map nth line]; rewrite G; do 2 eexists; split; [reflexivity|lra]|]). destruct H.
Qed.
Lemma line_is_svd a b : (b = 0 /\ 0 < a) \/ (1 <= b <= 3 /\ 4 <= a <= 13) -> let A := RM (V3 a 0 0) (V3 b 0 0) v0 in is_svd A (fst (line_svd A)) (snd (line_svd A)).
Proof.
  intros H A. unfold line_svd, A. cbn [r0 r1 vx]. destruct (Reqb_spec b 0) as [->|Hb]; cbn [fst snd].
  - assert (Ha : 0 < a) by lra. split; [apply orth_id|]. split; [split; unfold quarter; mat; f_equal; vec_ring|].
    exists a, 0, 0. repeat split; try lra. unfold rdiag, quarter, v0. mat. f_equal; vec_ring.
  - assert (Hp : 0 < a * a + b * b) by nra. pose proof (sqrt_lt_R0 _ Hp) as Hn. pose proof (sqrt_sqrt _ (Rlt_le _ _ Hp)) as Hnn. set (n := sqrt (a * a + b * b)) in *.
    assert (E : a / n * (a / n) + b / n * (b / n) = 1). { replace (a / n * (a / n) + b / n * (b / n)) with ((a * a + b * b) / (n * n)) by (field; lra). rewrite <- Hnn. field. lra. }
    split. { split; mat; f_equal; apply vec_eq; simpl; try ring; try (replace (- b / n) with (- (b / n)) by (field; lra)); try ring; lra. }
    split; [apply orth_id|]. exists n, 0, 0. repeat split; try lra. unfold rdiag, v0. mat. f_equal; apply vec_eq; simpl; try ring; field; lra.
Qed.
Lemma line_far K s : pairing 4 s -> (exists k d, (k < 4)%nat /\ / 115600 <= d /\ forall i, (i < 4)%nat -> d <= d2 line (rapply K (nth k line v0)) i) ->
  / 1000 <= rms line (map (rapply K) line) s.
Proof.
  intros P [k [d [Hk [Hd Hf]]]]. pose proof (Permutation_length P) as Hl. rewrite seq_length in Hl.
  pose proof (cost_term line (map (rapply K) line) s k ltac:(lia) ltac:(rewrite map_length; exact Hk)) as Hc.
  rewrite (nth_map_lt _ _ _ v0) in Hc by exact Hk.
  assert (Hi : (nth k s 0 < 4)%nat). { assert (Hin : In (nth k s 0%nat) (seq 0 4)) by (apply (Permutation_in _ P), nth_In; lia). apply in_seq in Hin. lia. }
  specialize (Hf _ Hi). pose proof (rms_sq line (map (rapply K) line) s ltac:(discriminate)) as Hr. rewrite <- Hr in Hc. rewrite map_length in Hc. simpl length in Hc.
  pose proof (rms_nonneg line (map (rapply K) line) s) as H0. set (q := rms line (map (rapply K) line) s) in *. replace (INR 4) with 4 in Hc by (simpl; ring).
  destruct (Rle_dec (/ 1000) q); auto. exfalso. assert (q < / 1000) by lra. assert (q * q < / 1000 * / 1000) by nra. lra.
Qed.
Lemma line_bad c f : drawn 4 c -> cand line_svd line line (at_ line [0; 1; 2]%nat) c f -> / 1000 <= f_rmsd f.
Proof.
  intros Hc [Hk [s [_ [P [-> _]]]]]. apply line_far; auto. destruct (line_cov c Hc) as [a [b [E H]]].
  pose proof (line_is_svd a b H) as [HU [HV _]]. rewrite <- E in HU, HV.
  destruct (kabsch_cases line_svd (at_ line c) (at_ line [0; 1; 2]%nat) HU HV) as [[D Ek]|[D _]].
  - rewrite Hk, Ek. clear Hk Ek D HU HV. rewrite E. unfold line_svd. cbn [r0 r1 vx]. destruct (Reqb_spec b 0) as [->|Hb]; cbn [fst snd].
    + exists 3%nat, 1. split; [lia|]. split; [lra|]. intros i Hi. assert (Hi' : i = 0%nat \/ i = 1%nat \/ i = 2%nat \/ i = 3%nat) by lia.
      destruct Hi' as [->|[->|[->| ->]]]; unfold d2, len_sq, line, quarter, rapply; mat; lra.
    + destruct H as [[H _]|[Hb' Ha]]; [contradiction|]. assert (Hp : 0 < a * a + b * b) by nra.
      pose proof (sqrt_lt_R0 _ Hp) as Hn. pose proof (sqrt_sqrt _ (Rlt_le _ _ Hp)) as Hnn. set (n := sqrt (a * a + b * b)) in *.
      exists 0%nat, (/ 115600). split; [lia|]. split; [lra|].
      set (y := a / n). assert (Hy0 : 0 <= y) by (unfold y; apply Rmult_le_pos; [lra|]; left; apply Rinv_0_lt_compat; auto).
      assert (Hy : y * y = a * a / (a * a + b * b)) by (unfold y; rewrite <- Hnn; field; lra).
      assert (Hy1 : y * y <= 169 / 170). { rewrite Hy. apply (Rmult_le_reg_r (a * a + b * b)); auto. unfold Rdiv at 1. rewrite Rmult_assoc, Rinv_l by lra. nra. }
      assert (Hy2 : 16 / 25 <= y * y). { rewrite Hy. apply (Rmult_le_reg_r (a * a + b * b)); auto. unfold Rdiv at 2. rewrite Rmult_assoc, Rinv_l by lra. nra. }
      assert (Hyl : y <= 339 / 340) by nra.
      set (K := rmul _ _). assert (EK : rapply K (nth 0 line v0) = V3 y (- b / n) 0).
      { unfold K, line, rapply. mat. apply vec_eq; simpl; unfold y; ring. }
      rewrite EK. assert (Hg : forall x z, (x - y) * (x - y) <= len_sq (vsub (V3 x z 0) (V3 y (- b / n) 0))).
      { intros. unfold len_sq, dot; simpl. pose proof (Rle_0_sqr (z - - b / n)). unfold Rsqr in *. lra. }
      intros i Hi. assert (Hi' : i = 0%nat \/ i = 1%nat \/ i = 2%nat \/ i = 3%nat) by lia.
      destruct Hi' as [->|[->|[->| ->]]]; unfold d2, line; cbn [nth]; (eapply Rle_trans; [|apply Hg]); nra.
  - exfalso. revert D. rewrite E. unfold line_svd. cbn [r0 r1 vx]. destruct (Reqb_spec b 0) as [->|Hb]; cbn [fst snd].
    + unfold rdet, quarter, rid; simpl. lra.
    + assert (Hp : 0 < a * a + b * b) by nra. pose proof (sqrt_lt_R0 _ Hp) as Hn. pose proof (sqrt_sqrt _ (Rlt_le _ _ Hp)) as Hnn. set (n := sqrt (a * a + b * b)) in *.
      unfold rdet, rid; simpl. replace (- b / n) with (- (b / n)) by (field; lra). intros D.
      assert (0 <= a / n * (a / n)) by (apply Rle_0_sqr). assert (0 <= b / n * (b / n)) by (apply Rle_0_sqr). lra.
Qed.
Theorem C75_degenerate_refuted : exists refs svd draw, drawn (length refs) draw /\ svd_on svd draw refs refs /\ forall srt, sorts srt ->
  (exists vm, aligned_rmsd srt refs refs = Some (0, vm)) /\ exists f X, fit svd srt draw refs refs = Some (f, X) /\ / 1000 <= f_rmsd f.
Proof.
  exists line, line_svd, [0; 1; 2]%nat.
  assert (Hd : drawn (length line) [0; 1; 2]%nat). { split; auto. split; [repeat constructor; simpl; intuition lia|]. simpl. intuition lia. }
  split; auto. split.
  - intros c Hc. cbv zeta. destruct (line_cov c Hc) as [a [b [-> H]]]. apply line_is_svd. auto.
  - intros srt Hs. split.
    + destruct (C75_matching srt line line Hs eq_refl) as [s [_ [-> [_ H]]]]; [discriminate|]. rewrite H by auto. eauto.
    + destruct (fit_spec line_svd srt [0; 1; 2]%nat line line Hs eq_refl) as [f [E [[c [Hc Cf]] _]]]; [discriminate|auto|].
      exists f. eexists. split; [exact E|]. apply (line_bad c); auto.
Qed.
(** With registration, two neighbourhoods without neighbours have no defined outcome (the code reads row p0 of an empty matrix);
    without it they are not similar. *)
Theorem C75_empty_refuted : forall svd srt draw t, (0 < length draw)%nat -> fit svd srt draw [] [] = None /\
  is_similar (t * t) None (new_env 0 false []) (new_env 1 false []) = Some (rid, []).
Proof.
  intros svd srt [|i l] t H; [simpl in H; lia|]. split; [|reflexivity]. unfold fit. cbn. destruct i; reflexivity.
Qed.

(** The registration used by the environment classes gives proper rotations and existing indices. *)
Theorem C75_proper : forall svd srt draw, svd_orth svd -> sorts srt -> (forall N, (0 < N)%nat -> drawn N (draw N)) ->
  registers (Some (reg_of svd srt draw)) /\ forall v1 v2, v2 <> [] -> rotation (fst (reg_of svd srt draw v1 v2)).
Proof.
  intros svd srt draw Hu Hs Hd. split; [apply registers_fit; auto|]. intros v1 v2 Hne. unfold reg_of.
  destruct (Nat.eq_dec (length v2) (length v1)) as [E|E].
  - destruct (C75_fit svd srt (draw (length v1)) v1 v2 Hu Hs E Hne) as [f [s [-> [H _]]]]; [|exact H]. apply Hd. destruct v2; [contradiction|simpl in E; lia].
  - unfold fit. destruct (Nat.eqb_spec (length v2) (length v1)); [contradiction|]. cbn. split; [apply orth_id|apply rdet_id].
Qed.
(** Motif matching with registration: a neighbourhood that is a turned, reordered copy of the motif matches. *)
Theorem C75_motif : forall svd srt draw o b np bonds motif t i, svd_orth svd -> sorts srt -> (forall k N, (0 < N)%nat -> drawn N (draw k N)) -> esorted bonds ->
  (i < np)%nat -> motif <> [] -> turned_copy (map (wrap b) motif) (around bonds i) -> fixes (map (wrap b) motif) (draw i (length motif)) ->
  svd_on svd (draw i (length motif)) (map (wrap b) motif) (around bonds i) -> tol * sqrt (INR (length motif)) <= t ->
  exists r, motif_match o b np bonds motif t (fun k => Some (reg_of svd srt (draw k))) = Some r /\ nth i (mo_matches r) false = true.
Proof.
  intros svd srt draw o b np bonds motif t i Hu Hs Hd He Hi Hm Hc Hf Hsvd Ht.
  destruct (motif_spec o b np bonds motif t (fun k => Some (reg_of svd srt (draw k)))) as [r [E [_ [_ [_ H]]]]]; auto.
  { intros k. apply registers_fit; auto. }
  exists r. split; auto. destruct (H i Hi) as [pe [_ [-> _]]]. unfold sim_map.
  set (M := map (wrap b) motif) in *. assert (HlM : length M = length motif) by apply map_length.
  destruct (similar_copy svd srt (draw i) t (new_env 0 true M) (own_env bonds i)) as [rot [vm [-> Hv]]]; auto; try apply new_env_ok; unfold own_env; rewrite ?new_env_props, ?HlM; auto.
  - simpl. destruct Hc as [m [_ P]]. apply Permutation_length in P. rewrite map_length, HlM in P. intros E0. rewrite E0 in P. destruct motif; [contradiction|discriminate].
  - apply Hd. destruct motif; [contradiction|simpl; lia].
  - destruct vm; [contradiction|reflexivity].
Qed.
(** RMSD minimisation: a neighbourhood of another size gets -1 and is left alone; otherwise it is turned by a proper rotation (none
    without registration) and reordered, and the value reported is its root mean square distance from the motif, vector by vector. *)
Theorem C75_minimizer : forall svd srt draw o b np bonds motif, svd_orth svd -> sorts srt -> motif <> [] ->
  (forall k d, draw k = Some d -> drawn (length motif) d) -> esorted bonds ->
  exists r, rmsd_compute svd srt draw o b np bonds motif = Some r /\ length (ro_rmsds r) = np /\
    forall i, (i < np)%nat -> exists pe, nth i (ro_penv r) [] = nth i (ro_penv o) [] ++ pe /\
      (length (around bonds i) <> length motif -> nth i (ro_rmsds r) 0 = -1 /\ pe = around bonds i) /\
      (length (around bonds i) = length motif -> exists rot, rotation rot /\ (draw i = None -> rot = rid) /\ Permutation (map (rapply rot) (around bonds i)) pe /\
         nth i (ro_rmsds r) 0 = rms (map (wrap b) motif) pe (seq 0 (length motif))).
Proof.
  intros svd srt draw o b np bonds motif Hu Hs Hm Hd He. destruct (rmsd_spec svd srt o b np bonds motif draw Hu Hs Hm Hd He) as [r [E [Hl H]]].
  exists r. split; auto. split; auto. intros i Hi. destruct (H i Hi) as [pe [Hp [H1 H2]]]. exists pe. split; auto. rewrite map_length in *. auto.
Qed.
(** _minimize_RMSD: lists of different lengths are rejected; otherwise the points come back turned, with a one-to-one map and its distance. *)
Theorem C75_minimize : forall svd srt reg b ref pts, svd_orth svd -> sorts srt -> ref <> [] -> (forall d, reg = Some d -> drawn (length ref) d) ->
  (length ref <> length pts -> minimize_py svd srt reg b ref pts = None) /\
  (length ref = length pts -> exists rot s, rotation rot /\ (reg = None -> rot = rid) /\ pairing (length ref) s /\
     let X := map (rapply rot) (map (wrap b) pts) in minimize_py svd srt reg b ref pts = Some (rms (map (wrap b) ref) X s, X, map_of s)).
Proof.
  intros svd srt reg b ref pts Hu Hs Hm Hd. unfold minimize_py. split; intros Hl.
  - destruct (Nat.eqb_spec (length ref) (length pts)); [contradiction|reflexivity].
  - rewrite Hl, Nat.eqb_refl. cbn [negb].
    destruct (minimize_spec svd srt reg (new_env 0 true (map (wrap b) ref)) (new_env 1 true (map (wrap b) pts)) Hu Hs (new_env_ok _ _ _) (new_env_ok _ _ _)) as [_ H].
    { destruct ref; [contradiction|discriminate]. }
    { intros d E. cbn [new_env e_vecs]. rewrite map_length. auto. }
    destruct H as [rot [s [H1 [H2 [H3 H4]]]]]. { cbn [new_env e_vecs]. rewrite !map_length. auto. }
    cbn [new_env e_vecs] in H3. rewrite map_length in H3. rewrite !new_env_props in H4. exists rot, s. split; auto. split; auto. split; [rewrite <- Hl; auto|]. cbv zeta. rewrite H4. reflexivity.
Qed.

(** ** The hypotheses can be met *)
Fixpoint put_in (x : nat * R) (l : list (nat * R)) : list (nat * R) :=
  match l with [] => [x] | y :: t => if Rleb (snd x) (snd y) then x :: l else y :: put_in x t end.
Definition isort : sort_fun := fold_right put_in [].
Lemma put_in_perm x l : Permutation (x :: l) (put_in x l).
Proof. induction l as [|y t IH]; simpl; auto. destruct (Rleb _ _); auto. rewrite perm_swap. constructor. auto. Qed.
Lemma put_in_sorted x l : StronglySorted (fun a b => snd a <= snd b) l -> StronglySorted (fun a b => snd a <= snd b) (put_in x l).
Proof.
  induction 1 as [|y t S IH F]; simpl; [repeat constructor|]. destruct (Rleb_spec (snd x) (snd y)) as [H|H].
  - constructor; [constructor; auto|]. constructor; auto. rewrite Forall_forall in *. intros z Hz. specialize (F z Hz). lra.
  - constructor; auto. rewrite Forall_forall in *. intros z Hz. apply (Permutation_in _ (Permutation_sym (put_in_perm x t))) in Hz. destruct Hz as [<-|Hz]; [lra|auto].
Qed.
Example C75_ex_sort : sorts isort.
Proof.
  intros l. split.
  - induction l as [|x l IH]; simpl; auto. rewrite IH at 1. apply put_in_perm.
  - induction l as [|x l IH]; simpl; [constructor|apply put_in_sorted; auto].
Qed.
(** Three axes, turned by a quarter about z and listed in another order. *)
Definition axes : list vec3 := [V3 1 0 0; V3 0 1 0; V3 0 0 1].
Definition axes' : list vec3 := [V3 0 0 1; V3 0 1 0; V3 (-1) 0 0].
Definition ident_svd : svd_fun := fun A => (A, rid).
Example C75_ex_copy : drawn (length axes) [2; 0; 1]%nat /\ fixes axes [2; 0; 1]%nat /\ turned_copy axes axes' /\ svd_on ident_svd [2; 0; 1]%nat axes axes' /\
  exists f X, fit ident_svd isort [2; 0; 1]%nat axes axes' = Some (f, X) /\ f_rmsd f < tol.
Proof.
  assert (Hd : drawn (length axes) [2; 0; 1]%nat). { split; auto. split; [repeat constructor; simpl; intuition lia|]. simpl. intuition lia. }
  assert (Hf : fixes axes [2; 0; 1]%nat) by (apply C75_enough; auto).
  assert (Hc : turned_copy axes axes').
  { exists (RM (V3 0 (-1) 0) (V3 1 0 0) (V3 0 0 1)). split; [split; [split; mat; f_equal; vec_ring|unfold rdet; simpl; ring]|].
    replace (map _ axes) with [V3 0 1 0; V3 (-1) 0 0; V3 0 0 1]; [apply (Permutation_cons_append [V3 0 1 0; V3 (-1) 0 0] (V3 0 0 1))|].
    unfold axes, rapply, dot; simpl. repeat f_equal; ring. }
  assert (Hs : svd_on ident_svd [2; 0; 1]%nat axes axes').
  { intros c Hdc. apply drawn_tuples in Hdc; [|simpl; lia].
    assert (E : tuples (length axes') = [[0;1;2];[0;2;1];[1;0;2];[1;2;0];[2;0;1];[2;1;0]]%nat) by (vm_compute; reflexivity). rewrite E in Hdc.
    assert (G : forall A, orthonormal A -> is_svd A A rid).
    { intros A HA. split; auto. split; [apply orth_id|]. exists 1, 1, 1. repeat split; try lra. change (rdiag 1 1 1) with rid. rewrite rtrans_id, rmul_id, rmul_id_r. reflexivity. }
    cbv zeta. cbn [ident_svd fst snd]. 
    repeat (destruct Hdc as [<-|Hdc]; [apply G; unfold at_, axes, axes', cov, radd, outer, rzero, v0; split; mat; f_equal; vec_ring|]). destruct Hdc. }
  split; auto. split; auto. split; auto. split; auto. apply C75_copy; auto; [apply C75_ex_sort|discriminate].
Qed.
(** RMSD minimisation with registration for one particle with two neighbours. *)
Example C75_ex_minimizer : exists r, rmsd_compute (fun _ => (rid, rid)) isort (fun _ => Some [1; 0]%nat) new_rmsd_obj (mk_box 10 10 10 0 0 0 false) 2
    [EB 0 1 (V3 1 0 0); EB 0 1 (V3 0 1 0); EB 1 0 (V3 (-1) 0 0)] [V3 1 0 0; V3 0 2 0] = Some r /\ nth 1 (ro_rmsds r) 0 = -1 /\ 0 <= nth 0 (ro_rmsds r) 0.
Proof.
  set (bonds := [EB 0 1 (V3 1 0 0); EB 0 1 (V3 0 1 0); EB 1 0 (V3 (-1) 0 0)]).
  destruct (C75_minimizer (fun _ => (rid, rid)) isort (fun _ => Some [1; 0]%nat) new_rmsd_obj (mk_box 10 10 10 0 0 0 false) 2 bonds [V3 1 0 0; V3 0 2 0]) as [r [E [_ H]]].
  - intros A. split; apply orth_id.
  - apply C75_ex_sort.
  - discriminate.
  - intros _ d Hd. injection Hd as <-. split; auto. split; [repeat constructor; simpl; intuition lia|]. simpl. intuition lia.
  - repeat constructor.
  - exists r. split; auto. destruct (H 1%nat ltac:(lia)) as [pe [_ [H1 _]]]. destruct (H 0%nat ltac:(lia)) as [pe' [_ [_ H2]]]. split; [apply H1; simpl; lia|].
    destruct H2 as [rot [_ [_ [_ ->]]]]; [reflexivity|]. apply sqrt_pos.
Qed.

Print Assumptions C75_kabsch.
Print Assumptions C75_copy.
Print Assumptions C75_minimizer.
