From Coq Require Import Sorting.Sorted.
From Verif Require Import MatchEnvSpec MatchEnvProofs MatchEnvProofs2 MatchEnvProofs3 MatchEnvProofs4.
Local Open Scope nat_scope.

(** ** Motif matching *)
Definition sim_map (t : R) (reg : option registration) (e1 e2 : env) : bimap := match is_similar (t * t) reg e1 e2 with Some (_, vm) => vm | None => [] end.
Definition nonempty {A} (l : list A) : bool := match l with [] => false | _ => true end.
Section motif.
  Variables (M : list vec3) (t : R) (reg : nat -> option registration) (allb : list ebond) (old : list (list vec3)) (np : nat).
  Hypothesis reg_ok : forall k, registers (reg k).
  Let e0 := new_env 0 true M.
  Definition own_env (i : nat) : env := new_env (S i) false (around allb i).
  (** What point [i] gets. *)
  Definition point_ok (i : nat) (matched : bool) (pe : list vec3) : Prop :=
    matched = nonempty (sim_map t (reg i) e0 (own_env i)) /\
    (exists rot, orthonormal rot /\ (reg i = None -> rot = rid) /\ Permutation (map (rapply rot) (around allb i)) pe) /\
    (matched = true -> aligned t M pe) /\ (matched = false -> pe = around allb i).
  Record minv (m : nat) (st : (list env * list nat) * list ebond * list bool * list (list vec3)) : Prop := {
    mi_wf : wf (fst (fst (fst (fst st)))) (snd (fst (fst (fst st))));
    mi_len : length (fst (fst (fst (fst st)))) = S m;
    mi_rank : length (snd (fst (fst (fst st)))) = S np /\ forall q, 0 < q -> nth q (snd (fst (fst (fst st)))) 0 = 0;
    mi_zero : g (fst (fst (fst (fst st)))) 0 = e0;
    mi_bonds : esorted (snd (fst (fst st))) /\ (forall b, In b (snd (fst (fst st))) -> m <= eb_i b) /\ (forall i, m <= i -> around (snd (fst (fst st))) i = around allb i);
    mi_mlen : length (snd (fst st)) = m;
    mi_plen : length (snd st) = length old + m;
    mi_old : forall i, m <= i -> nth i (snd st) [] = nth i old [];
    mi_ok : forall i, i < m -> exists pe, nth i (snd st) [] = nth i old [] ++ pe /\ point_ok i (nth i (snd (fst st)) false) pe }.
  Lemma wf_snoc s rank m vs : wf s rank -> length s = m -> S m <= length rank -> wf (s ++ [new_env m false vs]) rank /\
    (forall i, i < m -> g (s ++ [new_env m false vs]) i = g s i) /\ g (s ++ [new_env m false vs]) m = new_env m false vs.
  Proof.
    intros [Wr Wf Wo Ws] Hl Hr. set (s' := s ++ _).
    assert (Hl' : length s' = S m) by (unfold s'; rewrite app_length; simpl; lia).
    assert (G1 : forall i, i < m -> g s' i = g s i) by (intros; unfold g, s'; apply app_nth1; lia).
    assert (G2 : g s' m = new_env m false vs) by (unfold g, s'; rewrite nth_snoc, Hl, Nat.eqb_refl; auto).
    assert (R1 : forall i, i < m -> root s' i = root s i) by (intros; unfold root; rewrite G1; auto).
    assert (R2 : root s' m = m) by (unfold root; rewrite G2; auto).
    assert (Rl : forall i, i < m -> root s i < m) by (intros i Hi; rewrite <- Hl; apply Wf; lia).
    split; auto. constructor.
    - lia.
    - intros i Hi. rewrite Hl' in *. destruct (Nat.eq_dec i m) as [-> |]; [rewrite !R2; auto|]. rewrite (R1 i) by lia. specialize (Rl i). rewrite R1 by lia.
      split; [lia|]. apply Wf; lia.
    - intros i Hi. rewrite Hl' in *. destruct (Nat.eq_dec i m) as [-> |]; [rewrite G2; apply new_env_ok|]. rewrite G1 by lia. apply Wo; lia.
    - intros i j Hi Hj. rewrite Hl' in *. destruct (Nat.eq_dec i m) as [-> |], (Nat.eq_dec j m) as [-> |]; auto.
      + rewrite R2, R1 by lia. intros E. specialize (Rl j). lia.
      + rewrite R2, R1 by lia. intros E. specialize (Rl i). lia.
      + rewrite !R1, !G1 by lia. apply Ws; lia.
  Qed.
  Lemma motif_step_spec m st : m < np -> minv m st -> exists st', motif_step (t * t) reg st m = Some st' /\ minv (S m) st'.
  Proof.
    intros Hm [W Hl Hrk Hz Hb Hml Hpl Hold Hok]. destruct st as [[[[s rank] bonds] matches] penv]. cbn [fst snd] in *.
    destruct Hb as [Hb1 [Hb2 Hb3]]. unfold motif_step.
    destruct (build_vecs_spec m bonds Hb1 Hb2) as [taken [rest [-> [Eb [Et Er]]]]]. rewrite (Hb3 m (le_n m)). cbn [fst snd].
    destruct (wf_snoc s rank (S m) (around allb m) W Hl) as [W1 [G1 G2]]; [lia|]. fold (own_env m) in *. set (s1 := s ++ [own_env m]) in *.
    assert (Hl1 : length s1 = S (S m)) by (unfold s1; rewrite app_length; simpl; lia).
    rewrite (nth_error_g s1 0 dflt) by lia. rewrite (nth_error_g s1 (S m) dflt) by lia. fold (g s1 0) (g s1 (S m)). rewrite G2. rewrite G1 by lia. rewrite Hz.
    destruct (similar_spec (t * t) (reg m) e0 (own_env m) (new_env_ok _ _ _) (new_env_ok _ _ _) (reg_ok m)) as [rot [vm [E Hvm]]]. rewrite E.
    assert (Hrest : esorted rest /\ (forall b, In b rest -> S m <= eb_i b) /\ (forall i, S m <= i -> around rest i = around allb i)).
    { split; [subst bonds; clear -Hb1; induction taken; simpl in *; auto; inversion Hb1; subst; auto|]. split; [intros b Hbi; apply Er; auto|].
      intros i Hi. rewrite <- Hb3 by lia. rewrite Eb, around_app, (around_none taken); auto. intros b Hbt. rewrite (Et b Hbt). lia. }
    assert (Hsim : sim_map t (reg m) e0 (own_env m) = vm) by (unfold sim_map; rewrite E; auto).
    assert (Main : exists s' rank', (match vm with [] => Some (s1, rank) | _ => merge (s1, rank) 0 (S m) vm rot end) = Some (s', rank') /\ wf s' rank' /\ length s' = S (S m) /\
      (length rank' = S np /\ forall q, 0 < q -> nth q rank' 0 = 0) /\ g s' 0 = e0 /\ point_ok m (nonempty vm) (props (g s' (S m))) /\ okv (g s' (S m))).
    { destruct vm as [|p vm].
      - exists s1, rank. split; auto. split; auto. split; auto. split; auto. split; [rewrite G1 by lia; auto|]. rewrite G2. split; [|apply new_env_ok].
        unfold own_env at 1. rewrite new_env_props. split; [rewrite Hsim; auto|]. split; [|split; [discriminate|auto]].
        exists rid. split; [apply orth_id|]. split; auto. rewrite (map_ext _ (fun v => v)) by apply rapply_id. rewrite map_id. apply Permutation_refl.
      - destruct Hvm as [Hvm|[Hkl [Hco [Horth [Hri Hpair]]]]]; [discriminate|]. set (vm' := p :: vm) in *.
        destruct (corr_left _ _ Hco) as [Hlv [f [Hf Hp]]].
        assert (R0 : root s1 0 = 0) by (unfold root; rewrite G1, Hz by lia; auto).
        assert (Rm : root s1 (S m) = S m) by (unfold root; rewrite G2; auto).
        unfold merge. cbn [fst snd]. rewrite (nth_error_g s1 0 dflt) by lia. rewrite (nth_error_g s1 (S m) dflt) by lia. fold (g s1 0) (g s1 (S m)).
        fold (root s1 0) (root s1 (S m)). rewrite R0, Rm. rewrite (nth_error_g rank 0 0) by lia. rewrite (nth_error_g rank (S m) 0) by lia.
        rewrite (proj2 Hrk (S m)) by lia. cbn [Nat.ltb Nat.leb]. change (Nat.ltb (nth 0 rank 0) 0) with false. cbv iota. rewrite Hlv.
        destruct (absorb_spec (bleft vm') f 0 (S m) rot s1 rank (length (e_vecs e0))) as [s' [rank' [H1 [H2 [[H3 H3'] H4]]]]]; auto; try lia.
        { rewrite G2. auto. }
        { intros i Hi. destruct (Hf i Hi) as [A1 [_ A2]]. auto. }
        exists s', rank'. split; [exact H1|]. rewrite R0 in *. rewrite Rm in *.
        assert (Sh : shifted s1 s' 0 (S m) f rot) by (split; [auto|]; intros i Hi; rewrite Rm, R0; auto).
        split. { apply (shifted_wf s1 s' rank rank' 0 (S m) f rot (length (e_vecs e0))); auto; try lia. rewrite G1, Hz by lia; auto. rewrite G2; auto. }
        split; [lia|]. split. { split; [lia|]. intros q Hq. rewrite H3' by lia. apply Hrk. auto. }
        split. { rewrite H4 by lia. rewrite R0. cbn [Nat.eqb]. rewrite G1, Hz by lia. auto. }
        assert (Hg : g s' (S m) = moved 0 f rot (own_env m)) by (rewrite H4 by lia; rewrite Rm, Nat.eqb_refl, G2; auto). rewrite Hg.
        assert (Hok' : okv (moved 0 f rot (own_env m))) by (apply moved_ok; [apply new_env_ok|]; rewrite <- Hkl; exact Hp).
        split; [|exact Hok']. split; [rewrite Hsim; auto|]. split; [|split; [|discriminate]].
        + exists rot. split; auto. split; [auto|]. unfold props. cbn [moved e_rot e_vecs e_vind]. 
          assert (Er' : rmul rot (e_rot (own_env m)) = rot). { cbn [own_env new_env e_rot]. destruct rot as [[] [] []]; unfold rmul, rtrans, rid, dot; simpl. f_equal; vec_ring. }
          rewrite Er'. rewrite <- (map_map (fun r => nth r (e_vecs (own_env m)) v0) (rapply rot)). apply Permutation_map.
          rewrite <- (perm_map_nth (around allb m) v0) at 1. apply Permutation_map. symmetry. exact Hok'.
        + intros _. apply (forall2_nth _ v0 v0). rewrite props_length by auto. cbn [moved e_vecs]. split; [exact Hkl|]. intros k Hk.
          rewrite moved_props; [|apply new_env_ok| intros i Hi; rewrite <- Hkl in *; apply Hf; auto |rewrite <- Hkl; auto].
          apply close_sq. destruct (Hf k Hk) as [_ [Hin _]]. specialize (Hpair _ _ Hin). unfold e0 at 1 in Hpair. rewrite new_env_props in Hpair. exact Hpair. }
    destruct Main as [s' [rank' [-> [W' [Hl' [Hrk' [Hz' [Hpo Hok']]]]]]]]. cbn [fst snd].
    rewrite (nth_error_g s' (S m) dflt) by lia. fold (g s' (S m)). rewrite (proper_props _ Hok').
    eexists; split; [reflexivity|].
    replace (match vm with [] => false | _ => true end) with (nonempty vm) by (destruct vm; auto).
    destruct (push_env_spec penv m (props (g s' (S m)))) as [P1 P2]; [lia|].
    constructor; cbn [fst snd]; auto.
    - rewrite app_length; simpl; lia.
    - lia.
    - intros i Hi. rewrite P2. destruct (Nat.eqb_spec i m); [lia|]. apply Hold. lia.
    - intros i Hi. rewrite P2, nth_snoc, Hml. destruct (Nat.eqb_spec i m) as [-> |].
      + exists (props (g s' (S m))). rewrite Hold by lia. auto.
      + apply Hok. lia.
  Qed.
  Lemma motif_fold : forall k m st, minv m st -> m + k = np -> exists st', ofold (motif_step (t * t) reg) (seq m k) st = Some st' /\ minv np st'.
  Proof.
    induction k as [|k IH]; intros m st P Hm; cbn [seq ofold].
    - exists st. split; auto. rewrite <- Hm, Nat.add_0_r. auto.
    - destruct (motif_step_spec m st) as [st' [-> P']]; [lia|auto|]. apply (IH (S m) st' P'). lia.
  Qed.
End motif.
Lemma motif_spec o b np bonds motif t reg : (forall k, registers (reg k)) -> esorted bonds ->
  exists o', motif_match o b np bonds motif t reg = Some o' /\ length (mo_matches o') = np /\ length (mo_penv o') = length (mo_penv o) + np /\
    (forall i, np <= i -> nth i (mo_penv o') [] = nth i (mo_penv o) []) /\
    forall i, i < np -> exists pe, nth i (mo_penv o') [] = nth i (mo_penv o) [] ++ pe /\ point_ok (map (wrap b) motif) t reg bonds i (nth i (mo_matches o') false) pe.
Proof.
  intros Hr Hs. unfold motif_match. set (M := map (wrap b) motif).
  destruct (motif_fold M t reg bonds (mo_penv o) np Hr np 0 ([new_env 0 true M], repeat 0 (S np), bonds, [], mo_penv o)) as [st [E P]]; auto.
  { constructor; cbn [fst snd]; auto.
    - constructor; simpl; try lia.
      + intros i Hi. simpl in Hi. assert (i = 0) by lia. subst. unfold root, g; simpl. auto.
      + intros i Hi. assert (i = 0) by lia. subst. apply new_env_ok.
      + intros i j Hi Hj. assert (i = 0) by lia. assert (j = 0) by lia. subst. auto.
    - rewrite repeat_length. split; auto. intros q Hq. apply nth_repeat.
    - split; auto. split; [intros; lia|auto].
    - intros i Hi. lia. }
  rewrite E. destruct st as [[[[s rank] rest] matches] penv]. destruct P as [W Hl Hrk Hz Hb Hml Hpl Hold Hok]. cbn [fst snd] in *.
  eexists; split; [reflexivity|]. cbn [mo_matches mo_penv]. auto.
Qed.
