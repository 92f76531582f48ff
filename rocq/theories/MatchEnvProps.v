(** C43-C45: environment matching (freud/environment/MatchEnv.cc). *)
From Coq Require Import Sorting.Sorted Lra.
From Verif Require Import ClusterPropProps MatchEnvSpec MatchEnvProofs MatchEnvProofs2 MatchEnvProofs3 MatchEnvProofs4 MatchEnvProofs5.
Local Open Scope nat_scope.

(** ** C43 *)
Theorem C43_partition : forall vss cs, Forall (mcall_ok vss) cs -> exists s rank, mcalls vss cs = Some (s, rank) /\ length s = length vss /\
  (forall i j, i < length vss -> j < length vss -> (same_set s i j <-> linked (map (fun c => (mc_a c, mc_b c)) cs) i j)) /\
  forall i, i < length vss -> exists e, nth_error s i = Some e /\ e_vecs e = nth i vss [] /\ Permutation (e_vind e) (seq 0 (length (e_vecs e))).
Proof.
  intros vss cs Hcs. unfold mcalls. set (s0 := map _ _). set (n := length vss).
  assert (Hl0 : length s0 = n) by (unfold s0; rewrite map_length, seq_length; auto).
  assert (Hg0 : forall i, i < n -> g s0 i = new_env i false (nth i vss [])).
  { intros i Hi. unfold g, s0. rewrite (nth_map_lt _ _ _ 0) by (rewrite seq_length; auto). rewrite seq_nth by auto. reflexivity. }
  set (Q := fun s rank (done : list mcall) => wf s rank /\ length s = n /\ (forall i, i < n -> e_vecs (g s i) = nth i vss []) /\ parts s (map (fun c => (mc_a c, mc_b c)) done)).
  assert (Hfold : forall cs done s rank, Forall (mcall_ok vss) cs -> Forall (mcall_ok vss) done -> Q s rank done ->
    exists s' rank', ofold (fun st c => merge st (mc_a c) (mc_b c) (mc_map c) (mc_rot c)) cs (s, rank) = Some (s', rank') /\ Q s' rank' (done ++ cs)).
  { clear cs Hcs. induction cs as [|c cs IH]; intros done s rank Hcs Hdone [W [Hl [Hv Hp]]]; cbn [ofold].
    - exists s, rank. rewrite app_nil_r. split; auto. split; auto.
    - inversion Hcs as [|? ? Hc Hcs']; subst. pose proof Hc as [Ha [Hb [Hk Hco]]].
      destruct (merge_spec s rank (mc_a c) (mc_b c) (mc_map c) (mc_rot c) (length (nth (mc_a c) vss []))) as [s' [rank' [E [Hrk [f [Hpf Hcase]]]]]]; auto;
        try (fold n in Ha, Hb; rewrite ?Hv; auto; lia).
      rewrite E. destruct (IH (done ++ [c]) s' rank') as [s2 [rank2 [E2 Q2]]]; auto.
      + apply Forall_app. auto.
      + assert (Hrange : forall x y, In (x, y) (map (fun c => (mc_a c, mc_b c)) done) -> x < length s /\ y < length s).
        { intros x y Hxy. apply in_map_iff in Hxy. destruct Hxy as [d [Ed Hd]]. injection Ed as <- <-. rewrite Forall_forall in Hdone. destruct (Hdone d Hd) as [D1 [D2 _]]. fold n in D1, D2. lia. }
        fold n in Ha, Hb.
        assert (Hall : exists keep other f rot, (keep = mc_a c /\ other = mc_b c \/ keep = mc_b c /\ other = mc_a c) /\ shifted s s' keep other f rot /\
          Permutation (map f (seq 0 (length (nth (mc_a c) vss [])))) (seq 0 (length (nth (mc_a c) vss [])))).
        { destruct Hcase as [[_ Sh]|[_ Sh]]; do 4 eexists; (split; [|split; [exact Sh|exact Hpf]]); auto. }
        destruct Hall as [keep [other [f' [rot' [Hor [Sh Hpf']]]]]]. clear Hcase.
        assert (Hko : keep < n /\ other < n /\ length (nth keep vss []) = length (nth (mc_a c) vss []) /\ length (nth other vss []) = length (nth (mc_a c) vss [])).
        { destruct Hor as [[-> ->]|[-> ->]]; auto. } destruct Hko as [K1 [K2 [K3 K4]]].
        split; [|split; [|split]].
        * apply (shifted_wf s s' rank rank' keep other f' rot' (length (nth (mc_a c) vss []))); auto; try lia; rewrite Hv; auto.
        * rewrite (proj1 Sh). auto.
        * intros i Hi. rewrite (proj1 (shifted_vecs _ _ _ _ _ _ i Sh ltac:(lia))). auto.
        * rewrite map_app. apply (shifted_parts s s' (mc_a c) (mc_b c) keep other f' rot'); auto; lia.
      + exists s2, rank2. split; auto. rewrite <- app_assoc in Q2. exact Q2. }
  destruct (Hfold cs [] s0 (repeat 0 n) Hcs (Forall_nil _)) as [s [rank [E [W [Hl [Hv Hp]]]]]].
  { assert (Hroot : forall i, i < n -> root s0 i = i) by (intros i Hi; unfold root; rewrite Hg0 by auto; reflexivity). clearbody s0. split; [|split; [|split]]; auto.
    - constructor; rewrite ?Hl0, ?repeat_length; auto.
      + intros i Hi. rewrite Hl0 in *. rewrite !Hroot by (try rewrite Hroot; auto). auto.
      + intros i Hi. rewrite Hg0 by auto. apply new_env_ok.
      + intros i j Hi Hj. rewrite !Hroot by auto. intros ->. auto.
    - intros i Hi. rewrite Hg0 by auto. reflexivity.
    - intros i j Hi Hj. rewrite Hl0 in *. rewrite !Hroot by auto. split; [intros ->; apply rst_refl|]. simpl. intros H. clear -H. induction H as [x y []| | |]; auto; congruence. }
  exists s, rank. split; [exact E|]. split; auto. split.
  - intros i j Hi Hj. fold n in Hi, Hj. unfold same_set. rewrite !mfind_flat by (try apply (wf_flat _ _ W); lia). rewrite <- (Hp i j) by lia. split.
    + intros [r [s1 [s2 [E1 E2]]]]. congruence.
    + intros Er. exists (root s i), s, s. split; auto. rewrite Er. auto.
  - intros i Hi. fold n in Hi. exists (g s i). rewrite (nth_error_g s i dflt) by lia. split; auto. split; [auto|]. apply (wf_ok _ _ W). lia.
Qed.

Definition bonds_ok (np : nat) (ebonds : list ebond) (bonds : list (nat * nat)) : Prop :=
  esorted ebonds /\ first_sorted bonds /\ forall p, In p bonds -> fst p < np /\ snd p < np.
(** EnvironmentCluster.compute on a new object: its clusters are the components of a set of bonds of the neighbour list; across
    each of these the reported environments agree vector by vector within the threshold; each reported environment is the point's own
    environment reordered (and rotated, with registration); cluster environments are means over the members. *)
Theorem C43_clusters : forall np ebonds bonds t reg, bonds_ok np ebonds bonds -> (forall k, registers (reg k)) ->
  exists r links, env_cluster new_cluster_obj np ebonds bonds t reg = Some r /\ length (co_idx r) = np /\ length (co_penv r) = np /\ length (co_cenv r) = co_num r /\
    incl links bonds /\
    (forall i j, i < np -> j < np -> (nth i (co_idx r) 0 = nth j (co_idx r) 0 <-> linked links i j)) /\
    numbered (co_idx r) (co_num r) /\
    (forall a b, In (a, b) links -> aligned t (nth a (co_penv r) []) (nth b (co_penv r) []) /\ around ebonds a <> [] /\
                                    ((forall k, reg k = None) -> matchable t (around ebonds a) (around ebonds b))) /\
    (forall i, i < np -> exists rot, orthonormal rot /\ ((forall k, reg k = None) -> rot = rid) /\ Permutation (map (rapply rot) (around ebonds i)) (nth i (co_penv r) [])) /\
    (forall i, i < np -> let c := nth i (co_idx r) 0 in length (nth c (co_cenv r) []) = length (around ebonds i) /\
                         forall k, k < length (around ebonds i) -> nth k (nth c (co_cenv r) []) v0 = mean_env (co_idx r) (co_penv r) c k) /\
    ((forall k, reg k = None) -> forall a b, In (a, b) bonds -> around ebonds a <> [] -> separated t (around ebonds b) ->
       matchable t (around ebonds a) (around ebonds b) -> linked links a b).
Proof.
  intros np ebonds bonds t reg [Hes [Hfs Hrange]] Hreg. unfold env_cluster. rewrite build_all_spec by (auto; intros; lia).
  destruct (start_binv t reg np ebonds) as [B0 [Hl0 Hg0]]. set (s0 := map _ _) in *.
  destruct (all_bonds_spec s0 t reg Hreg np 0 bonds [] s0 (repeat 0 np) []) as [s [rank [links [E B]]]]; auto.
  { intros p Hp. destruct (Hrange p Hp). split; [split; [lia|]|]; lia. }
  rewrite E. simpl app in B. destruct B as [W Hl Hv Ho Hrid Hpt Hln Hrg Hm Hd Hsd].
  assert (Hn : length s = np) by lia.
  destruct (populate_spec s rank new_cluster_obj W) as [r [Ep [Hi [Hnum [Hidx [Hnb [[Hpl Hpe] Hce]]]]]]].
  { intros i Hi. rewrite (proj2 (Hv i ltac:(lia))). rewrite Hg0 by lia. reflexivity. }
  rewrite Hn in *. exists r, links. split; auto. split; auto. simpl in Hpl. split; auto. split; auto. split; auto.
  assert (Hp : forall i, i < np -> nth i (co_penv r) [] = props (g s i)).
  { intros i Hlt. rewrite Hpe. rewrite (proj2 (Nat.ltb_lt i np)) by auto. destruct i; reflexivity. }
  assert (Hvec : forall i, i < np -> e_vecs (g s i) = around ebonds i) by (intros i Hlt; rewrite (proj1 (Hv i ltac:(lia))), Hg0 by lia; reflexivity).
  assert (Hv0 : forall i, i < np -> e_vecs (g s0 i) = around ebonds i) by (intros i Hlt; rewrite Hg0 by lia; reflexivity).
  split. { intros i j Hi' Hj'. rewrite Hidx by auto. apply Hpt; lia. }
  split; auto. split.
  { intros a b Hab. destruct (Hrg a b Hab) as [Ha Hb]. rewrite Hl0 in *. rewrite !Hp by auto. split; [auto|]. destruct (Hsd a b Hab) as [H1 H2]. rewrite Hv0 in * by auto. split; auto.
    intros Hu. rewrite (Hv0 b) in H2 by auto. apply H2. exact Hu. }
  split.
  { intros i Hlt. exists (e_rot (g s i)). split; [apply Ho; lia|]. split; [intros Hu; apply Hrid; [exact Hu|lia]|]. rewrite Hp by auto. rewrite <- Hvec by auto.
    unfold props. rewrite <- (map_map (fun r => nth r (e_vecs (g s i)) v0) (rapply (e_rot (g s i)))). apply Permutation_map.
    rewrite <- (perm_map_nth (e_vecs (g s i)) v0) at 1. apply Permutation_map. symmetry. apply (wf_ok _ _ W). lia. }
  split.
  { intros i Hlt. rewrite Hce by auto. destruct (wf_flat _ _ W i ltac:(lia)) as [R1 R2].
    destruct (total_spec s rank W (root s i) R1 R2) as [T1 T2]. unfold mean_of. rewrite map_length, T1.
    assert (Hlen : length (e_vecs (g s (root s i))) = length (around ebonds i)) by (rewrite (wf_size _ _ W (root s i) i) by (auto; lia); rewrite Hvec by auto; auto).
    split; auto. intros k Hk. rewrite (nth_map_lt _ _ _ v0) by lia. rewrite T2. unfold mean_env.
    rewrite (members_set s) by (auto; lia || (rewrite Hn; auto)). f_equal. f_equal. apply map_ext_in. intros j Hj. apply in_set_of in Hj. rewrite Hp by lia. reflexivity. }
  intros Hu a b Hab Hne Hsep Hma. destruct (Hrange _ Hab) as [Ha Hb]; simpl in Ha, Hb. apply Hd; auto; rewrite ?Hv0 by auto; auto.
Qed.

(** ** C44 *)
Lemma no_reg : registers None. Proof. intros f H; discriminate. Qed.
Theorem C44_sound : forall b ref pts t ps vm, is_similar_py b ref pts t None = Some (ps, vm) -> ps = map (wrap b) pts /\
  (vm <> [] -> correspondence (length ref) vm /\ length pts = length ref /\ forall i j, In (i, j) vm -> close t (wrap b (nth i ref v0)) (wrap b (nth j pts v0))).
Proof.
  intros b ref pts t ps vm. unfold is_similar_py. destruct (Nat.eqb_spec (length ref) (length pts)) as [E|E]; simpl negb; cbv iota; [|discriminate].
  set (e1 := new_env 0 true (map (wrap b) ref)). set (e2 := new_env 1 true (map (wrap b) pts)).
  destruct (similar_spec (t * t) None e1 e2 (new_env_ok _ _ _) (new_env_ok _ _ _) no_reg) as [rot [vm' [Es H]]]. rewrite Es.
  intros Heq. injection Heq as <- <-. split.
  - destruct H as [-> |[_ [_ [_ [Hr _]]]]].
    + assert (Hrot : rot = rid). { unfold is_similar in Es. destruct (negb _) in Es; [congruence|]. destruct (proper e1) in Es; [|discriminate]. destruct (proper e2) in Es; [|discriminate].
        destruct (ofold _ _ _) in Es; congruence. }
      rewrite Hrot. rewrite (map_ext _ (fun v => v)) by apply rapply_id. apply map_id.
    + rewrite (Hr eq_refl). rewrite (map_ext _ (fun v => v)) by apply rapply_id. apply map_id.
  - intros Hne. destruct H as [H|[Hl [Hc [_ [Hr Hp]]]]]; [contradiction|]. rewrite (Hr eq_refl) in Hp. simpl in Hl, Hc. rewrite !map_length in *.
    split; auto. split; auto. intros i j Hij. specialize (Hp i j Hij). rewrite rapply_id in Hp. unfold e1, e2 in Hp. rewrite !new_env_props in Hp.
    apply close_sq. destruct Hc as [C1 C2].
    assert (Hi : In i (seq 0 (length ref))) by (apply (Permutation_in _ C1); apply (in_map fst) in Hij; exact Hij).
    assert (Hj : In j (seq 0 (length ref))) by (apply (Permutation_in _ C2); apply (in_map snd) in Hij; exact Hij).
    apply in_seq in Hi. apply in_seq in Hj. rewrite !(nth_map_lt _ _ _ v0) in Hp by lia. exact Hp.
Qed.
(** A match is found whenever one exists, when the vectors of the second set are two thresholds apart. *)
Theorem C44_complete_separated : forall b ref pts t, ref <> [] -> matchable t (map (wrap b) ref) (map (wrap b) pts) -> separated t (map (wrap b) pts) ->
  exists vm, is_similar_py b ref pts t None = Some (map (wrap b) pts, vm) /\ vm <> [].
Proof.
  intros b ref pts t Hne Hm Hs. unfold is_similar_py. pose proof (proj1 (matchable_sigma _ _ _ Hm)) as Hl. rewrite !map_length in Hl.
  rewrite Hl, Nat.eqb_refl. cbn [negb].
  destruct (similar_complete t (new_env 0 true (map (wrap b) ref)) (new_env 1 true (map (wrap b) pts))) as [vm [E Hv]]; try apply new_env_ok; rewrite ?new_env_props; auto.
  { simpl. destruct ref; [contradiction|discriminate]. }
  rewrite E. exists vm. split; auto. rewrite (map_ext _ (fun v => v)) by apply rapply_id. rewrite map_id. reflexivity.
Qed.
(** With neighbourhoods whose vectors are two thresholds apart, clusters are exactly the components of the bonds between matching,
    non-empty neighbourhoods. *)
Definition matching_bond (t : R) (ebonds : list ebond) (bonds : list (nat * nat)) (a b : nat) : Prop :=
  In (a, b) bonds /\ around ebonds a <> [] /\ matchable t (around ebonds a) (around ebonds b).
Theorem C44_clusters_exact : forall np ebonds bonds t, bonds_ok np ebonds bonds -> (forall i, i < np -> separated t (around ebonds i)) ->
  exists r, env_cluster new_cluster_obj np ebonds bonds t (fun _ => None) = Some r /\
    forall i j, i < np -> j < np -> (nth i (co_idx r) 0 = nth j (co_idx r) 0 <-> clos_refl_sym_trans nat (matching_bond t ebonds bonds) i j).
Proof.
  intros np ebonds bonds t Hb Hsep. destruct (C43_clusters np ebonds bonds t (fun _ => None) Hb (fun _ => no_reg))
    as [r [links [E [_ [_ [_ [Hin [Hidx [_ [Hal [_ [_ Hcomp]]]]]]]]]]]]. exists r. split; auto. intros i j Hi Hj. rewrite Hidx by auto.
  destruct Hb as [_ [_ Hr]]. split; intros H.
  - clear Hi Hj. induction H as [x y Hxy| | |]; [|apply rst_refl|apply rst_sym; auto|eapply rst_trans; eauto].
    apply rst_step. destruct (Hal x y Hxy) as [_ [H1 H2]]. split; [apply Hin; auto|]. auto.
  - clear Hi Hj. induction H as [x y [H1 [H2 H3]]| | |]; [|apply rst_refl|apply rst_sym; auto|eapply rst_trans; eauto].
    apply Hcomp; auto. apply Hsep. destruct (Hr _ H1). auto.
Qed.
(** Without separation a match can be missed: the search is greedy. *)
Theorem C44_greedy_refuted : exists ref pts t, length ref = length pts /\
  (exists vm, correspondence (length ref) vm /\ forall i j, In (i, j) vm -> close t (nth i ref v0) (nth j pts v0)) /\
  is_similar_py (mk_box 10 10 10 0 0 0 false) ref pts t None = Some (pts, []).
Proof.
  exists [V3 0 0 0; V3 (3/2) 0 0], [V3 (9/10) 0 0; V3 (-1/2) 0 0], 1%R. split; auto. split.
  - exists [(0, 1); (1, 0)]. split; [split; simpl; [apply Permutation_refl | apply perm_swap]|].
    intros i j [E|[E|[]]]; injection E as <- <-; apply close_sq; unfold len_sq, dot; simpl; lra.
  - unfold is_similar_py. cbn [map length Nat.eqb negb]. rewrite !cube_wrap by (simpl; lra).
    unfold is_similar. cbn [new_env e_vecs length Nat.eqb negb].
    rewrite !proper_props by apply new_env_ok. rewrite !new_env_props. cbn [length seq list_prod map app ofold].
    unfold insert_close. cbn [fst snd nth_error].
    repeat match goal with |- context [Rlt_bool ?a ?b] => 
      first [rewrite (Rlt_bool_true a b) by (unfold len_sq, dot; simpl; lra) | rewrite (Rlt_bool_false a b) by (unfold len_sq, dot; simpl; lra)]; cbn [emplace existsb app orb fst snd Nat.eqb] end.
    cbn. repeat f_equal; vec_ext; unfold rapply, rid, dot; simpl; ring.
Qed.
(** EnvironmentMotifMatch: a match means the reported environment agrees with the (wrapped) motif index by index; it is reported
    whenever one exists if the neighbours are two thresholds apart. *)
Theorem C44_motif : forall o b np bonds motif t reg, (forall k, registers (reg k)) -> esorted bonds ->
  exists r, motif_match o b np bonds motif t reg = Some r /\ length (mo_matches r) = np /\
    forall i, i < np -> exists pe rot, nth i (mo_penv r) [] = nth i (mo_penv o) [] ++ pe /\
      orthonormal rot /\ (reg i = None -> rot = rid) /\ Permutation (map (rapply rot) (around bonds i)) pe /\
      (nth i (mo_matches r) false = true -> aligned t (map (wrap b) motif) pe) /\
      (nth i (mo_matches r) false = false -> pe = around bonds i) /\
      (reg i = None -> motif <> [] -> separated t (around bonds i) -> matchable t (map (wrap b) motif) (around bonds i) -> nth i (mo_matches r) false = true).
Proof.
  intros o b np bonds motif t reg Hr Hs. destruct (motif_spec o b np bonds motif t reg Hr Hs) as [r [E [H1 [_ [_ H2]]]]]. exists r. split; auto. split; auto.
  intros i Hi. destruct (H2 i Hi) as [pe [Hpe [Hm [[rot [Ho [Hri Hp]]] [Ht Hf]]]]]. exists pe, rot. repeat (split; [auto|]).
  intros Hn Hne Hsep Hma. rewrite Hm. unfold sim_map. rewrite Hn.
  destruct (similar_complete t (new_env 0 true (map (wrap b) motif)) (own_env bonds i)) as [vm [Es Hv]]; try apply new_env_ok; unfold own_env; rewrite ?new_env_props; auto.
  { simpl. destruct motif; [contradiction|discriminate]. }
  unfold own_env in Es. rewrite Es. destruct vm; [contradiction|reflexivity].
Qed.
(** Whether a point matches does not depend on the other points. *)
Theorem C44_motif_local : forall o o' b np np' bonds bonds' motif t reg i, (forall k, registers (reg k)) -> esorted bonds -> esorted bonds' ->
  i < np -> i < np' -> around bonds i = around bonds' i ->
  exists r r', motif_match o b np bonds motif t reg = Some r /\ motif_match o' b np' bonds' motif t reg = Some r' /\ nth i (mo_matches r) false = nth i (mo_matches r') false.
Proof.
  intros o o' b np np' bonds bonds' motif t reg i Hr Hs Hs' Hi Hi' Ha.
  destruct (motif_spec o b np bonds motif t reg Hr Hs) as [r [E [_ [_ [_ H2]]]]]. destruct (motif_spec o' b np' bonds' motif t reg Hr Hs') as [r' [E' [_ [_ [_ H2']]]]].
  exists r, r'. split; auto. split; auto. destruct (H2 i Hi) as [pe [_ [-> _]]]. destruct (H2' i Hi') as [pe' [_ [-> _]]]. unfold own_env. rewrite Ha. reflexivity.
Qed.

(** ** C45 *)
Definition same_but_penv (p q : pop) : Prop := po_s p = po_s q /\ po_map p = po_map q /\ po_cenv p = po_cenv q /\ po_idx p = po_idx q.
Lemma pop_step_same p q i p' : same_but_penv p q -> pop_step p i = Some p' -> exists q', pop_step q i = Some q' /\ same_but_penv p' q'.
Proof.
  destruct p as [s m c x e], q as [s' m' c' x' e']. intros [E1 [E2 [E3 E4]]]. simpl in E1, E2, E3, E4. subst s' m' c' x'. unfold pop_step; cbn [po_s po_map po_cenv po_idx po_penv].
  destruct (nth_error s i) as [en|]; [|discriminate]. destruct (e_ghost en).
  - intros [= <-]. eexists; split; [reflexivity|]. repeat split.
  - destruct (proper en); [|discriminate]. destruct (mfind s i) as [[r s1]|]; [|discriminate]. destruct (find _ m).
    + intros [= <-]. eexists; split; [reflexivity|]. repeat split.
    + destruct (avg_env s1 r) as [[ce s2]|]; [|discriminate]. intros [= <-]. eexists; split; [reflexivity|]. repeat split.
Qed.
Lemma pop_fold_same : forall l p q p', same_but_penv p q -> ofold pop_step l p = Some p' -> exists q', ofold pop_step l q = Some q' /\ same_but_penv p' q'.
Proof.
  induction l as [|i l IH]; intros p q p' S; cbn [ofold]. { intros [= <-]. eauto. }
  destruct (pop_step p i) as [p1|] eqn:E; [|discriminate]. destruct (pop_step_same p q i p1 S E) as [q1 [-> S1]]. apply IH. auto.
Qed.
(** Whatever was computed before, labels and cluster environments are those of a new object; point environments are appended to. *)
Theorem C45_recompute : forall o np ebonds bonds t reg, bonds_ok np ebonds bonds -> (forall k, registers (reg k)) ->
  exists r fresh, env_cluster o np ebonds bonds t reg = Some r /\ env_cluster new_cluster_obj np ebonds bonds t reg = Some fresh /\
    co_idx r = co_idx fresh /\ co_num r = co_num fresh /\ co_cenv r = co_cenv fresh /\
    length (co_penv r) = length (co_penv o) + length (co_penv fresh) /\
    forall i, nth i (co_penv r) [] = nth i (co_penv o) [] ++ nth i (co_penv fresh) [].
Proof.
  intros o np ebonds bonds t reg [Hes [Hfs Hrange]] Hreg. unfold env_cluster. rewrite build_all_spec by (auto; intros; lia).
  destruct (start_binv t reg np ebonds) as [B0 [Hl0 Hg0]]. set (s0 := map _ _) in *.
  destruct (all_bonds_spec s0 t reg Hreg np 0 bonds [] s0 (repeat 0 np) []) as [s [rank [links [E B]]]]; auto.
  { intros p Hp. destruct (Hrange p Hp). split; [split; [lia|]|]; lia. }
  rewrite E. simpl app in B. destruct B as [W Hl Hv _ _ _ _ _ _ _ _].
  assert (Hgh : forall i, i < length s -> e_ghost (g s i) = false) by (intros i Hi; rewrite (proj2 (Hv i ltac:(lia))); rewrite Hg0 by lia; reflexivity).
  destruct (populate_spec s rank o W Hgh) as [r [Ep [_ [_ [_ [_ [[Hpl Hpe] _]]]]]]].
  destruct (populate_spec s rank new_cluster_obj W Hgh) as [r0 [Ep0 [_ [_ [_ [_ [[Hpl0 Hpe0] _]]]]]]].
  exists r, r0. split; auto. split; auto. unfold populate in Ep, Ep0.
  destruct (ofold pop_step _ (PO s [] [] [] (co_penv o))) as [p|] eqn:F; [|discriminate]. simpl in Ep. injection Ep as <-.
  destruct (pop_fold_same (seq 0 (length s)) (PO s [] [] [] (co_penv o)) (PO s [] [] [] (co_penv new_cluster_obj)) p ltac:(repeat split) F) as [q [F' [S1 [S2 [S3 S4]]]]]. rewrite F' in Ep0. simpl in Ep0. injection Ep0 as <-.
  cbn [co_idx co_num co_cenv co_penv] in *. split; auto. split; [congruence|]. split; auto. split; [simpl in Hpl0; lia|].
  intros i. rewrite Hpe, Hpe0. simpl. destruct (i <? length s).
  - destruct i; reflexivity.
  - destruct i; rewrite app_nil_r; reflexivity.
Qed.
(** So a second compute() on the same object reports environments of the first. *)
Theorem C45_recompute_refuted : exists np ebonds bonds t o r, bonds_ok np ebonds bonds /\
  env_cluster new_cluster_obj np ebonds bonds t (fun _ => None) = Some o /\ env_cluster o np ebonds bonds t (fun _ => None) = Some r /\
  length (co_idx r) = np /\ length (co_penv r) = 2 * np /\ nth 0 (co_penv r) [] <> nth 0 (co_penv o) [] /\ co_penv r <> co_penv o.
Proof.
  set (eb := [EB 0 1 (V3 1 0 0); EB 1 0 (V3 (-1) 0 0)]).
  assert (Hok : bonds_ok 2 eb []). { split; [|split]; [repeat constructor | constructor | intros ? []]. }
  destruct (C43_clusters 2 eb [] 1%R (fun _ => None) Hok (fun _ => no_reg)) as [o [links [E [Hi [Hp [_ [_ [_ [_ [_ [Hperm _]]]]]]]]]]].
  destruct (C45_recompute o 2 eb [] 1%R (fun _ => None) Hok (fun _ => no_reg)) as [r [o' [E1 [E2 [H1 [H2 [H3 [H4 H5]]]]]]]].
  rewrite E in E2. injection E2 as <-.
  exists 2, eb, [], 1%R, o, r. split; auto. split; auto. split; auto. split; [congruence|]. split; [lia|].
  assert (Hne : nth 0 (co_penv r) [] <> nth 0 (co_penv o) []).
  { rewrite H5. destruct (Hperm 0) as [rot [_ [_ P]]]; [lia|]. apply Permutation_length in P. simpl in P. intros Hc. apply (f_equal (@length _)) in Hc. rewrite app_length in Hc. simpl in *. lia. }
  split; auto. congruence.
Qed.
Theorem C45_motif_refuted : exists b np bonds motif t o r, esorted bonds /\
  motif_match new_motif_obj b np bonds motif t (fun _ => None) = Some o /\ motif_match o b np bonds motif t (fun _ => None) = Some r /\
  length (mo_matches r) = np /\ length (mo_penv r) = 2 * np /\ nth 0 (mo_penv r) [] <> nth 0 (mo_penv o) [].
Proof.
  set (eb := [EB 0 1 (V3 1 0 0); EB 1 0 (V3 (-1) 0 0)]). set (bx := mk_box 10 10 10 0 0 0 false).
  assert (Hs : esorted eb) by repeat constructor.
  destruct (motif_spec new_motif_obj bx 2 eb [V3 1 0 0] 1%R (fun _ => None) (fun _ => no_reg) Hs) as [o [E [H1 [H2 [_ H3]]]]].
  destruct (motif_spec o bx 2 eb [V3 1 0 0] 1%R (fun _ => None) (fun _ => no_reg) Hs) as [r [E' [H1' [H2' [_ H3']]]]].
  exists bx, 2, eb, [V3 1 0 0], 1%R, o, r. split; auto. split; auto. split; auto. split; auto. split; [simpl in *; lia|].
  destruct (H3' 0) as [pe [-> [_ [[rot [_ [_ P]]] _]]]]; [lia|]. apply Permutation_length in P. simpl in P.
  intros Hc. apply (f_equal (@length _)) in Hc. rewrite app_length in Hc. lia.
Qed.

(** ** Cases *)
(** Three points in a row of bonds; the first two have the same neighbourhood, the third another. *)
Definition ex_env : list ebond := [EB 0 1 (V3 1 0 0); EB 0 2 (V3 0 1 0); EB 1 0 (V3 0 1 0); EB 1 2 (V3 1 0 0); EB 2 1 (V3 3 0 0)].
Example C44_ex : exists r, env_cluster new_cluster_obj 3 ex_env [(0, 1); (1, 2)] (1/2)%R (fun _ => None) = Some r /\
  nth 0 (co_idx r) 0 = nth 1 (co_idx r) 0 /\ nth 0 (co_idx r) 0 <> nth 2 (co_idx r) 0.
Proof.
  assert (Hok : bonds_ok 3 ex_env [(0, 1); (1, 2)]).
  { split; [|split]; [repeat (constructor; simpl; auto) | repeat (constructor; simpl; auto) | intros p [<-|[<-|[]]]; simpl; lia]. }
  assert (Hab : Rabs (1/2) = (1/2)%R) by (apply Rabs_pos_eq; lra).
  assert (Hn : forall a b, vsub a b = V3 1 (-1) 0 \/ vsub a b = V3 (-1) 1 0 -> (2 * Rabs (1/2) <= norm (vsub a b))%R).
  { intros a b H. rewrite Hab. unfold norm. replace (dot (vsub a b) (vsub a b)) with 2%R by (destruct H as [-> | ->]; unfold dot; simpl; ring).
    rewrite <- (sqrt_square (2 * (1/2))) by lra. apply sqrt_le_1; lra. }
  destruct (C44_clusters_exact 3 ex_env [(0, 1); (1, 2)] (1/2)%R Hok) as [r [E H]].
  { intros i Hi. destruct i as [|[|[|i]]]; [| | |lia]; unfold around; simpl; intros a b Ha Hb Hne; simpl in Ha, Hb; destruct a as [|[|a]], b as [|[|b]]; try lia; simpl; apply Hn;
      unfold vsub; simpl; ((left; f_equal; lra) || (right; f_equal; lra)). }
  exists r. split; auto. split.
  - apply H; auto. apply rst_step. split; [left; auto|]. split; [discriminate|]. unfold around; simpl.
    exists [V3 1 0 0; V3 0 1 0]. split; [apply perm_swap|]. repeat constructor; unfold close; rewrite vsub_diag, norm_0, Hab; lra.
  - rewrite H by auto. intros Hc.
    assert (Hinv : forall a b, clos_refl_sym_trans nat (matching_bond (1/2) ex_env [(0, 1); (1, 2)]) a b -> (a < 2 <-> b < 2)).
    { induction 1 as [x y [H1 [_ H3]]| | |]; [|tauto|tauto|tauto]. destruct H1 as [H1|[H1|[]]]; injection H1 as <- <-; [lia|].
      exfalso. destruct H3 as [w [P F]]. apply Permutation_length in P. pose proof (proj1 (proj1 (forall2_nth _ v0 v0 _ _) F)) as F'. clear F. rename F' into F. simpl in P, F. unfold around in F; simpl in F. lia. }
    apply Hinv in Hc. lia.
Qed.
(** Two merges among three environments of two vectors. *)
Example C43_ex : exists s rank, mcalls [[V3 1 0 0; V3 0 1 0]; [V3 0 1 0; V3 1 0 0]; [V3 1 0 0; V3 0 1 0]; [V3 2 0 0; V3 0 2 0]]
    [MC 0 1 [(0, 1); (1, 0)] rid; MC 2 1 [(1, 1); (0, 0)] rid] = Some (s, rank) /\ same_set s 0 2 /\ ~ same_set s 0 3.
Proof.
  destruct (C43_partition [[V3 1 0 0; V3 0 1 0]; [V3 0 1 0; V3 1 0 0]; [V3 1 0 0; V3 0 1 0]; [V3 2 0 0; V3 0 2 0]]
    [MC 0 1 [(0, 1); (1, 0)] rid; MC 2 1 [(1, 1); (0, 0)] rid]) as [s [rank [E [_ [H _]]]]].
  { repeat constructor; simpl; auto; try lia; apply perm_swap. }
  exists s, rank. split; auto. split.
  - apply H; simpl; auto; try lia. apply rst_trans with 1; [apply rst_step; left; auto|apply rst_sym, rst_step; right; left; auto].
  - rewrite H by (simpl; lia). intros Hc.
    assert (Hinv : forall a b, linked [(0, 1); (2, 1)] a b -> (a < 3 <-> b < 3)).
    { induction 1 as [x y [H1|[H1|[]]]| | |]; [injection H1 as <- <-; lia|injection H1 as <- <-; lia|tauto|tauto|tauto]. }
    apply Hinv in Hc. lia.
Qed.
Print Assumptions C43_clusters.
Print Assumptions C44_motif.
