From Coq Require Import Sorting.Sorted.
From Verif Require Import MatchEnvSpec MatchEnvProofs MatchEnvProofs2.
Local Open Scope nat_scope.

Section cluster_run.
  Variables (s0 : list env) (t : R) (reg : nat -> option registration).
  Hypothesis reg_ok : forall k, registers (reg k).
  Notation n := (length s0).
  Definition unregistered : Prop := forall k, reg k = None.
  (** The loop invariant: [done] are the bonds seen, [links] those that merged two sets. *)
  Record binv (done : list (nat * nat)) (s : list env) (rank : list nat) (links : list (nat * nat)) : Prop := {
    bi_wf : wf s rank;
    bi_len : length s = n;
    bi_vecs : forall i, i < n -> e_vecs (g s i) = e_vecs (g s0 i) /\ e_ghost (g s i) = e_ghost (g s0 i);
    bi_orth : forall i, i < n -> orthonormal (e_rot (g s i));
    bi_rid : unregistered -> forall i, i < n -> e_rot (g s i) = rid;
    bi_parts : parts s links;
    bi_links : incl links done;
    bi_range : forall a b, In (a, b) links -> a < n /\ b < n;
    bi_match : forall a b, In (a, b) links -> aligned t (props (g s a)) (props (g s b));
    bi_done : forall a b, In (a, b) done -> unregistered -> e_vecs (g s0 a) <> [] -> separated t (e_vecs (g s0 b)) ->
                matchable t (e_vecs (g s0 a)) (e_vecs (g s0 b)) -> linked links a b;
    bi_sound : forall a b, In (a, b) links -> e_vecs (g s0 a) <> [] /\ (unregistered -> matchable t (e_vecs (g s0 a)) (e_vecs (g s0 b))) }.

  Lemma aligned_move x y r r' f f' rot k : okv x -> okv y -> length (e_vecs x) = k -> length (e_vecs y) = k -> (forall i, i < k -> f i < k) -> f' = f -> orthonormal rot ->
    aligned t (props x) (props y) -> aligned t (props (moved r f rot x)) (props (moved r' f' rot y)).
  Proof.
    intros Ox Oy Kx Ky Hf -> Hr Ha. apply (forall2_nth _ v0 v0) in Ha. destruct Ha as [Hl Hc]. apply (forall2_nth _ v0 v0).
    assert (Lm : forall e r, length (e_vecs e) = k -> length (props (moved r f rot e)) = k) by (intros; unfold props, moved; simpl; rewrite !map_length, seq_length; auto).
    rewrite (Lm x r Kx), (Lm y r' Ky). split; auto. intros j Hj.
    assert (Lx : length (props x) = k) by (rewrite props_length; auto).
    rewrite !moved_props; auto; try (rewrite ?Kx, ?Ky; auto). apply close_sq. rewrite rapply_sub, orth_len by auto. apply close_sq. apply Hc. rewrite Lx. auto.
  Qed.

  Lemma shifted_binv done s rank links s' rank' a b keep other f rot k :
    binv done s rank links -> a < n -> b < n -> length (e_vecs (g s a)) = k -> length (e_vecs (g s b)) = k -> length rank' = length rank ->
    Permutation (map f (seq 0 k)) (seq 0 k) -> (forall i, i < k -> f i < k) -> (keep = a /\ other = b \/ keep = b /\ other = a) ->
    shifted s s' keep other f rot -> orthonormal rot -> (unregistered -> rot = rid) -> e_vecs (g s0 a) <> [] /\ (unregistered -> matchable t (e_vecs (g s0 a)) (e_vecs (g s0 b))) ->
    aligned t (props (g s' a)) (props (g s' b)) -> binv (done ++ [(a, b)]) s' rank' (links ++ [(a, b)]).
  Proof.
    intros B Ha Hb Ka Kb Hrk Hp Hf Hor Sh Ho Hri Hsm Hal. destruct B as [W Hlen Hv Hor' Hrid Hpt Hln Hrg Hm Hd Hsd].
    assert (Hko : keep < length s /\ other < length s) by (rewrite Hlen; destruct Hor as [[-> ->]|[-> ->]]; auto). destruct Hko as [Hk Hot].
    assert (Kk : length (e_vecs (g s keep)) = k /\ length (e_vecs (g s other)) = k) by (destruct Hor as [[-> ->]|[-> ->]]; auto). destruct Kk as [Kk Ko].
    assert (Hincl : incl links (links ++ [(a, b)])) by (apply incl_appl, incl_refl).
    constructor.
    - exact (shifted_wf s s' rank rank' keep other f rot k W Hk Hot Hrk Kk Ko Hp Sh).
    - rewrite (proj1 Sh). auto.
    - intros i Hi. rewrite <- Hlen in Hi. destruct (shifted_vecs _ _ _ _ _ _ i Sh Hi) as [-> ->]. apply Hv. lia.
    - intros i Hi. rewrite (proj2 Sh) by lia. destruct (_ =? _); auto. simpl. apply orth_mul; auto.
    - intros Hu i Hi. rewrite (proj2 Sh) by lia. destruct (_ =? _); auto. simpl. rewrite (Hri Hu), rmul_id. auto.
    - apply (shifted_parts s s' a b keep other f rot links); rewrite ?Hlen; auto.
    - intros p Hpi. apply in_app_iff in Hpi. apply in_or_app. destruct Hpi; [left; apply Hln; auto | right; auto].
    - intros x y Hxy. apply in_app_iff in Hxy. destruct Hxy as [Hxy|[Hxy|[]]]; [auto|]. injection Hxy as <- <-. auto.
    - intros x y Hxy. apply in_app_iff in Hxy. destruct Hxy as [Hxy|[Hxy|[]]]; [|injection Hxy as <- <-; auto].
      destruct (Hrg x y Hxy) as [Hx Hy]. rewrite <- Hlen in Hx, Hy. rewrite (proj2 Sh x Hx), (proj2 Sh y Hy).
      assert (E : root s x = root s y) by (apply Hpt; auto; apply rst_step; auto). rewrite E.
      destruct (Nat.eqb_spec (root s y) (root s other)) as [E'|E']; auto.
      apply (aligned_move _ _ _ _ _ _ _ k); auto; try (apply (wf_ok _ _ W); auto).
      + rewrite <- Ko. apply (wf_size _ _ W); auto. congruence.
      + rewrite <- Ko. apply (wf_size _ _ W); auto.
    - intros x y Hxy Hu H1 H2 H3. apply in_app_iff in Hxy. destruct Hxy as [Hxy|[Hxy|[]]].
      + apply (linked_mono links); auto.
      + injection Hxy as <- <-. apply rst_step, in_or_app. right; left; auto.
    - intros x y Hxy. apply in_app_iff in Hxy. destruct Hxy as [Hxy|[Hxy|[]]]; [auto|]. injection Hxy as <- <-. auto.
  Qed.
  (** One more bond that merges nothing. *)
  Lemma binv_done done s rank links a b : binv done s rank links ->
    (unregistered -> e_vecs (g s0 a) <> [] -> separated t (e_vecs (g s0 b)) -> matchable t (e_vecs (g s0 a)) (e_vecs (g s0 b)) -> linked links a b) ->
    binv (done ++ [(a, b)]) s rank links.
  Proof.
    intros [W Hlen Hv Hor' Hrid Hpt Hln Hrg Hm Hd Hsd] H. constructor; auto.
    - intros p Hp. apply in_or_app. left. auto.
    - intros x y Hxy Hu H1 H2 H3. apply in_app_iff in Hxy. destruct Hxy as [Hxy|[Hxy|[]]]; [auto|]. injection Hxy as <- <-. auto.
  Qed.
  Lemma bond_step_spec done s rank links r i j : binv done s rank links -> i < n -> j < n ->
    exists s' rank' links', bond_step (t * t) (reg r) (s, rank) i j = Some (s', rank') /\ binv (done ++ [(i, j)]) s' rank' links'.
  Proof.
    intros B Hi Hj. pose proof B as [W Hlen Hv Hor' Hrid Hpt Hln Hrg Hm Hd Hsd]. unfold bond_step. simpl fst; simpl snd.
    rewrite (nth_error_g s i dflt) by lia. rewrite (nth_error_g s j dflt) by lia. fold (g s i) (g s j).
    pose proof (wf_ok _ _ W i ltac:(lia)) as Oi. pose proof (wf_ok _ _ W j ltac:(lia)) as Oj.
    destruct (similar_spec (t * t) (reg r) (g s i) (g s j) Oi Oj (reg_ok r)) as [rot [vm [E Hvm]]]. rewrite E.
    destruct vm as [|p vm].
    - exists s, rank, links. split; auto. apply binv_done; auto. intros Hu Hne Hsep Hmt. exfalso.
      destruct (similar_complete t (g s i) (g s j)) as [vm' [E' Hne']]; auto.
      + destruct (Hv i Hi) as [<- _] in Hmt. destruct (Hv j Hj) as [<- _] in Hmt.
        apply (matchable_perm t _ _ _ _ (props_perm _ Oi (Hrid Hu i Hi)) (props_perm _ Oj (Hrid Hu j Hj)) Hmt).
      + destruct (Hv j Hj) as [<- _] in Hsep. apply (separated_perm t _ _ (props_perm _ Oj (Hrid Hu j Hj)) Hsep).
      + destruct (Hv i Hi) as [-> _]. auto.
      + rewrite <- (Hu r) in E'. rewrite E in E'. injection E' as _ <-. apply Hne'. reflexivity.
    - destruct Hvm as [Hvm|[Hkl [Hco [Horth [Hri Hpair]]]]]; [discriminate|]. set (vm' := p :: vm) in *.
      rewrite mfind_flat by (try apply (wf_flat _ _ W); lia). rewrite mfind_flat by (try apply (wf_flat _ _ W); lia).
      destruct (Nat.eqb_spec (root s i) (root s j)) as [Er|Er].
      + exists s, rank, links. split; auto. apply binv_done; auto. intros. apply Hpt; auto; lia.
      + set (k := length (e_vecs (g s i))) in *.
        destruct (merge_spec s rank i j vm' rot k W ltac:(lia) ltac:(lia) eq_refl (eq_sym Hkl) Hco) as [s' [rank' [E' [Hrk [f [Hp Hcase]]]]]].
        exists s', rank', (links ++ [(i, j)]). split; [exact E'|].
        assert (Hsm : e_vecs (g s0 i) <> [] /\ (unregistered -> matchable t (e_vecs (g s0 i)) (e_vecs (g s0 j)))).
        { split. { destruct (Hv i Hi) as [<- _]. intros En. unfold k in Hco. rewrite En in Hco. destruct (corr_left _ _ Hco) as [El _]. discriminate. }
          intros Hu. destruct (Hv i Hi) as [<- _]. destruct (Hv j Hj) as [<- _]. rewrite (Hu r) in E.
          apply (similar_matchable t _ _ vm' rot); auto. discriminate. }
        assert (Li : length (props (g s i)) = k) by (rewrite props_length; auto).
        assert (Lj : length (props (g s j)) = k) by (rewrite props_length; auto).
        assert (Lm : forall e r rot, length (e_vecs e) = k -> length (props (moved r f rot e)) = k) by (intros; unfold props, moved; simpl; rewrite !map_length, seq_length; auto).
        destruct Hcase as [[Hf Sh]|[Hf Sh]].
        * apply (shifted_binv done s rank links s' rank' i j i j f rot k); auto.
          { intros x Hx. apply Hf; auto. }
          { rewrite (proj2 Sh i), (proj2 Sh j) by lia. rewrite Nat.eqb_refl. destruct (Nat.eqb_spec (root s i) (root s j)); [contradiction|].
            apply (forall2_nth _ v0 v0). rewrite (Lm (g s j)) by auto. split; [lia|]. intros x Hx. rewrite moved_props; auto; [|intros y Hy; rewrite <- Hkl in *; apply Hf; auto|lia].
            apply close_sq. apply Hpair. apply Hf. lia. }
        * apply (shifted_binv done s rank links s' rank' i j j i f (rtrans rot) k); auto.
          { intros x Hx. apply Hf; auto. }
          { apply orth_trans; auto. }
          { intros Hu. rewrite (Hri (Hu r)). reflexivity. }
          { rewrite (proj2 Sh i), (proj2 Sh j) by lia. rewrite Nat.eqb_refl. destruct (Nat.eqb_spec (root s j) (root s i)); [congruence|].
            apply (forall2_nth _ v0 v0). rewrite (Lm (g s i)) by auto. split; [lia|]. intros x Hx. rewrite moved_props; auto; [|intros y Hy; apply Hf; auto].
            apply close_sq. destruct (Hf x Hx) as [_ Hin]. specialize (Hpair _ _ Hin).
            rewrite <- (orth_len rot) by auto. rewrite <- rapply_sub, orth_inv by auto. exact Hpair.
            }
  Qed.
  Definition first_sorted (bonds : list (nat * nat)) : Prop := StronglySorted (fun p q => fst p <= fst q) bonds.
  Lemma point_bonds_spec i : forall bonds done s rank links, binv done s rank links -> first_sorted bonds -> (forall p, In p bonds -> i <= fst p < n /\ snd p < n) ->
    exists taken rest s' rank' links', point_bonds (t * t) reg i bonds (s, rank) = Some (rest, (s', rank')) /\ bonds = taken ++ rest /\
      (forall p, In p rest -> i < fst p) /\ binv (done ++ taken) s' rank' links'.
  Proof.
    induction bonds as [|[i' j] bonds IH]; intros done s rank links B Hs Hr; cbn [point_bonds].
    { exists [], [], s, rank, links. split; [reflexivity|]. split; [reflexivity|]. split; [intros p []|rewrite app_nil_r; exact B]. }
    inversion Hs as [|? ? Hs' Hf]; subst. destruct (Hr _ (or_introl eq_refl)) as [H1 H2]. simpl in H1, H2.
    destruct (Nat.eqb_spec i' i) as [-> |Hne].
    - destruct (bond_step_spec done s rank links (length ((i, j) :: bonds)) i j B) as [s1 [rank1 [links1 [E B1]]]]; try lia.
      rewrite E. destruct (IH _ _ _ _ B1 Hs') as [taken [rest [s' [rank' [links' [E' [H3 [H4 B']]]]]]]].
      { intros p Hp. apply Hr. right; auto. }
      exists ((i, j) :: taken), rest, s', rank', links'. split; auto. split; [simpl; congruence|]. split; auto. rewrite <- app_assoc in B'. exact B'.
    - exists [], ((i', j) :: bonds), s, rank, links. split; [reflexivity|]. split; [reflexivity|]. split; [|rewrite app_nil_r; exact B].
      intros p [<-|Hp]; simpl; [lia|]. rewrite Forall_forall in Hf. specialize (Hf p Hp). simpl in Hf. lia.
  Qed.
  Lemma all_bonds_spec : forall m i bonds done s rank links, i + m = n -> binv done s rank links -> first_sorted bonds -> (forall p, In p bonds -> i <= fst p < n /\ snd p < n) ->
    exists s' rank' links', all_bonds (t * t) reg (seq i m) bonds (s, rank) = Some (s', rank') /\ binv (done ++ bonds) s' rank' links'.
  Proof.
    induction m as [|m IH]; intros i bonds done s rank links Hm B Hs Hr; cbn [seq all_bonds].
    - exists s, rank, links. destruct bonds as [|p bonds]; [rewrite app_nil_r; auto|]. destruct (Hr p (or_introl eq_refl)). lia.
    - destruct (point_bonds_spec i bonds done s rank links B Hs Hr) as [taken [rest [s' [rank' [links' [E' [H3 [H4 B']]]]]]]].
      rewrite E'. destruct (IH (S i) rest (done ++ taken) s' rank' links') as [s2 [rank2 [links2 [E2 B2]]]]; auto.
      + lia.
      + subst bonds. clear -Hs. induction taken; simpl in *; auto. inversion Hs; subst. auto.
      + intros p Hp. split; [split; [apply H4; auto|]|]; apply Hr; subst bonds; apply in_or_app; right; auto.
      + exists s2, rank2, links2. split; auto. rewrite H3. rewrite app_assoc. exact B2.
  Qed.
End cluster_run.

(** ** The environments *)
Lemma around_cons b bonds i : around (b :: bonds) i = (if (eb_i b =? i) && negb (eb_j b =? i) then [eb_v b] else []) ++ around bonds i.
Proof. unfold around; simpl. destruct (_ && _); reflexivity. Qed.
Lemma around_none bonds i : (forall b, In b bonds -> eb_i b <> i) -> around bonds i = [].
Proof.
  induction bonds as [|b bonds IH]; intros H; [reflexivity|]. rewrite around_cons, IH by (intros; apply H; right; auto).
  rewrite (proj2 (Nat.eqb_neq (eb_i b) i)) by (apply H; left; auto). reflexivity.
Qed.
Definition esorted (bonds : list ebond) : Prop := StronglySorted (fun p q => eb_i p <= eb_i q) bonds.
Lemma build_vecs_spec i : forall bonds, esorted bonds -> (forall b, In b bonds -> i <= eb_i b) ->
  exists taken rest, build_vecs i bonds = (around bonds i, rest) /\ bonds = taken ++ rest /\ (forall b, In b taken -> eb_i b = i) /\ (forall b, In b rest -> i < eb_i b).
Proof.
  induction bonds as [|b bonds IH]; intros Hs Hr; cbn [build_vecs].
  { exists [], []. repeat split; auto; intros ? []. }
  inversion Hs as [|? ? Hs' Hf]; subst. rewrite around_cons. destruct (Nat.eqb_spec (eb_i b) i) as [E|E].
  - destruct IH as [taken [rest [-> [E2 [E3 E4]]]]]; auto. { intros; apply Hr; right; auto. }
    exists (b :: taken), rest. split.
    + rewrite (Nat.eqb_sym i (eb_j b)). destruct (eb_j b =? i); reflexivity.
    + split; [simpl; congruence|]. split; auto. intros b' [<-|Hb]; auto.
  - rewrite Forall_forall in Hf. assert (Hlt : forall b', In b' (b :: bonds) -> i < eb_i b').
    { specialize (Hr b (or_introl eq_refl)). intros b' [<-|Hb]; [lia|]. specialize (Hf b' Hb). simpl in Hf. lia. }
    exists [], (b :: bonds). simpl. split; [|repeat split; auto; intros ? []].
    rewrite around_none; auto. intros b' Hb. specialize (Hlt b' (or_intror Hb)). lia.
Qed.
Lemma around_app l m i : around (l ++ m) i = around l i ++ around m i.
Proof. unfold around. rewrite filter_app, map_app. reflexivity. Qed.
Lemma build_all_spec : forall m i bonds, esorted bonds -> (forall b, In b bonds -> i <= eb_i b) ->
  build_all (seq i m) bonds = map (fun k => new_env k false (around bonds k)) (seq i m).
Proof.
  induction m as [|m IH]; intros i bonds Hs Hr; cbn [seq build_all map]; auto.
  destruct (build_vecs_spec i bonds Hs Hr) as [taken [rest [-> [E1 [E2 E3]]]]]. f_equal. rewrite IH; auto.
  - apply map_ext_in. intros k Hk. apply in_seq in Hk. f_equal. rewrite E1, around_app. rewrite (around_none taken); auto. intros b Hb. specialize (E2 b Hb). lia.
  - subst bonds. clear -Hs. induction taken; simpl in *; auto. inversion Hs; subst. auto.
Qed.
Lemma start_binv t reg np bonds : let s0 := map (fun k => new_env k false (around bonds k)) (seq 0 np) in
  binv s0 t reg [] s0 (repeat 0 np) [] /\ length s0 = np /\ forall i, i < np -> g s0 i = new_env i false (around bonds i).
Proof.
  intros s0. assert (Hl : length s0 = np) by (unfold s0; rewrite map_length, seq_length; auto).
  assert (Hg : forall i, i < np -> g s0 i = new_env i false (around bonds i)).
  { intros i Hi. unfold g, s0. rewrite (nth_map_lt _ _ _ 0) by (rewrite seq_length; auto). rewrite seq_nth by auto. reflexivity. }
  assert (Hroot : forall i, i < np -> root s0 i = i) by (intros i Hi; unfold root; rewrite Hg by auto; reflexivity).
  split; auto. clearbody s0. constructor; rewrite ?Hl; auto.
  - constructor; rewrite ?Hl.
    + rewrite repeat_length. auto.
    + intros i Hi. rewrite Hl in *. rewrite !Hroot by (try rewrite Hroot; auto). auto.
    + intros i Hi. rewrite Hg by auto. apply new_env_ok.
    + intros i j Hi Hj. rewrite !Hroot by auto. intros ->. auto.
  - intros i Hi. rewrite Hg by auto. apply orth_id.
  - intros _ i Hi. rewrite Hg by auto. reflexivity.
  - intros i j Hi Hj. rewrite Hl in *. rewrite !Hroot by auto. split; [intros ->; apply rst_refl|].
    intros H. clear -H. induction H as [x y []| | |]; auto; congruence.
  - apply incl_refl.
  - intros ? ? [].
  - intros ? ? [].
  - intros ? ? [].
  - intros ? ? [].
Qed.
