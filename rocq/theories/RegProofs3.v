(** The search of RegisterBruteForce::Fit. *)
From Coq Require Import Psatz.
From Verif Require Import MatchEnvSpec MatchEnvProofs QuatSpec RegModel RegSpec RegProofs RegProofs2.
Local Open Scope R_scope.

Section search.
  Variables (svd : svd_fun) (srt : sort_fun) (refs pts p : list vec3).
  Hypothesis Hsrt : sorts srt.
  Hypothesis Hlen : length pts = length refs.
  Hypothesis Hne : pts <> [].
  Let N := length pts.
  (** What trying the tuple [c] gives. *)
  Definition cand (c : list nat) (f : fitres) : Prop :=
    f_rot f = kabsch svd (at_ pts c) p /\
    exists s, greedy refs (seq 0 (length refs)) (map (rapply (f_rot f)) pts) s /\ pairing (length refs) s /\
      f_rmsd f = rms refs (map (rapply (f_rot f)) pts) s /\ f_map f = map_of s.
  Lemma rms_nonneg a b s : 0 <= rms a b s. Proof. apply sqrt_pos. Qed.
  Lemma cand_nonneg c f : cand c f -> 0 <= f_rmsd f.
  Proof. intros [_ [s [_ [_ [-> _]]]]]. apply rms_nonneg. Qed.
  Lemma try_spec c best : drawn N c -> exists f, cand c f /\
    try_tuple svd srt refs pts p c best = Some (let m := match best with Some b => f_rmsd b | None => -1 end in
      if Rltb (f_rmsd f) m || Rltb m 0 then (Some f, Rltb (f_rmsd f) tol) else (best, false)) /\
    aligned_rmsd srt refs (map (rapply (f_rot f)) pts) = Some (f_rmsd f, f_map f).
  Proof.
    intros [_ [_ Hc]]. unfold try_tuple. 
    assert (Ep : pick pts c = Some (at_ pts c)) by (apply omap_some; intros i Hi; apply nth_error_g; apply Hc; auto).
    rewrite Ep. set (r := kabsch svd (at_ pts c) p).
    destruct (aligned_spec srt refs (map (rapply r) pts) Hsrt) as [s [G [P E]]]; [rewrite map_length; auto|destruct pts; [contradiction|discriminate]|].
    rewrite E. exists (FR r (rms refs (map (rapply r) pts) s) (map_of s)). cbn [f_rot f_rmsd f_map]. split; [|split; auto].
    - split; auto. exists s. auto.
    - destruct (Rltb _ _ || _); reflexivity.
  Qed.
  Fixpoint scan (l : list (list nat)) (best : option fitres) : option (option fitres) :=
    match l with
    | [] => Some best
    | c :: t => match try_tuple svd srt refs pts p c best with
                | Some (b, true) => Some b
                | Some (b, false) => scan t b
                | None => None end
    end.
  Lemma fit_loop_scan M k : forall fuel comb best l, visits fuel M k comb = Some l -> fit_loop fuel svd srt refs pts p M k comb best = scan l best.
  Proof.
    induction fuel as [|fuel IH]; intros comb best l H; [discriminate|]. cbn [visits fit_loop] in *.
    destruct (next_perm comb) as [[|] c].
    - destruct (visits fuel M k c) as [l'|] eqn:E; [|discriminate]. injection H as <-. cbn [scan].
      destruct (try_tuple _ _ _ _ _ _ _) as [[b [|]]|]; auto.
    - destruct (next_comb c M k) as [c'|].
      + destruct (visits fuel M k c') as [l'|] eqn:E; [|discriminate]. injection H as <-. cbn [scan].
        destruct (try_tuple _ _ _ _ _ _ _) as [[b [|]]|]; auto.
      + injection H as <-. cbn [scan]. destruct (try_tuple _ _ _ _ _ _ _) as [[b [|]]|]; auto.
  Qed.
  (** The result is one of the candidates; it is below the tolerance or the least of all. *)
  Lemma scan_spec : forall l best, (forall c, In c l -> drawn N c) -> (forall b, best = Some b -> 0 <= f_rmsd b) -> (l <> [] \/ best <> None) ->
    exists f, scan l best = Some (Some f) /\ (best = Some f \/ exists c, In c l /\ cand c f) /\
      ((f_rmsd f < tol /\ best <> Some f) \/ ((forall b, best = Some b -> f_rmsd f <= f_rmsd b) /\
        forall c, In c l -> exists g, cand c g /\ aligned_rmsd srt refs (map (rapply (f_rot g)) pts) = Some (f_rmsd g, f_map g) /\ f_rmsd f <= f_rmsd g)).
  Proof.
    induction l as [|c l IH]; intros best Hl Hb Hn; cbn [scan].
    - destruct best as [b|]; [|destruct Hn; contradiction]. exists b. split; auto. split; auto. right. split; [|intros ? []]. intros b' E. injection E as <-. lra.
    - destruct (try_spec c best (Hl c (or_introl eq_refl))) as [g [Cg [-> Ag]]]. cbv zeta.
      set (m := match best with Some b => f_rmsd b | None => -1 end). pose proof (cand_nonneg c g Cg) as Hg.
      destruct (Rltb_spec (f_rmsd g) m) as [H1|H1]; cbn [orb].
      + destruct (Rltb_spec (f_rmsd g) tol) as [H2|H2].
        * exists g. split; auto. split; [right; exists c; split; [left|]; auto|]. left. split; auto. intros ->. unfold m in H1. lra.
        * destruct (IH (Some g)) as [f [Ef [Hf Hmin]]]; [intros; apply Hl; right; auto|intros b E; injection E as <-; auto|right; discriminate|].
          exists f. split; auto. split.
          { destruct Hf as [E|[c' [Hc' Cf]]]; right; [injection E as <-; exists c; split; [left|]; auto|exists c'; split; [right|]; auto]. }
          destruct Hmin as [[Ht Hd]|[Hm1 Hm2]].
          { left. split; auto. intros ->. unfold m in H1. lra. }
          right. specialize (Hm1 g eq_refl). split.
          { intros b ->. unfold m in H1. lra. }
          intros c' [<-|Hc']; [exists g; auto|apply Hm2; auto].
      + destruct (Rltb_spec m 0) as [H2|H2].
        * assert (best = None) as ->. { destruct best as [b|]; auto. specialize (Hb b eq_refl). unfold m in H2. lra. }
          destruct (Rltb_spec (f_rmsd g) tol) as [H3|H3].
          { exists g. split; auto. split; [right; exists c; split; [left|]; auto|]. left. split; [auto|discriminate]. }
          destruct (IH (Some g)) as [f [Ef [Hf Hmin]]]; [intros; apply Hl; right; auto|intros b E; injection E as <-; auto|right; discriminate|].
          exists f. split; auto. split.
          { destruct Hf as [E|[c' [Hc' Cf]]]; right; [injection E as <-; exists c; split; [left|]; auto|exists c'; split; [right|]; auto]. }
          destruct Hmin as [[Ht Hd]|[Hm1 Hm2]]; [left; split; [auto|discriminate]|]. right. specialize (Hm1 g eq_refl). split; [discriminate|].
          intros c' [<-|Hc']; [exists g; auto|apply Hm2; auto].
        * assert (best <> None) as Hbn by (intros ->; unfold m in H2; lra).
          destruct (IH best) as [f [Ef [Hf Hmin]]]; [intros; apply Hl; right; auto|auto|right; auto|].
          exists f. split; auto. split.
          { destruct Hf as [E|[c' [Hc' Cf]]]; [left; auto|right; exists c'; split; [right|]; auto]. }
          destruct Hmin as [Ht|[Hm1 Hm2]]; [left; auto|]. right. split; auto.
          intros c' [<-|Hc']; [|apply Hm2; auto]. exists g. split; auto. split; auto.
          destruct best as [b|]; [|contradiction]. specialize (Hm1 b eq_refl). unfold m in H1. lra.
  Qed.
End search.

Lemma num_pts_min N : (0 < N)%nat -> num_pts N = Nat.min N 3.
Proof. intros H. destruct N as [|[|[|M]]]; [lia|reflexivity|reflexivity|]. unfold num_pts. cbn [Nat.eqb]. lia. Qed.
Lemma fit_spec svd srt draw refs pts : sorts srt -> length pts = length refs -> pts <> [] -> drawn (length refs) draw ->
  exists f, fit svd srt draw refs pts = Some (f, map (rapply (f_rot f)) pts) /\
    (exists c, drawn (length pts) c /\ cand svd refs pts (at_ refs draw) c f) /\
    (f_rmsd f < tol \/ forall c, drawn (length pts) c -> exists g, cand svd refs pts (at_ refs draw) c g /\
       aligned_rmsd srt refs (map (rapply (f_rot g)) pts) = Some (f_rmsd g, f_map g) /\ f_rmsd f <= f_rmsd g).
Proof.
  intros Hs Hl Hne Hd. assert (HN : (0 < length pts)%nat) by (destruct pts; [contradiction|simpl; lia]).
  unfold fit. rewrite Hl, Nat.eqb_refl. cbn [negb]. rewrite <- Hl in *.
  assert (Ef : firstn (num_pts (length pts)) draw = draw) by (apply firstn_all2; rewrite num_pts_min by auto; destruct Hd; lia).
  assert (Ep : pick refs draw = Some (at_ refs draw)) by (apply omap_some; intros i Hi; apply nth_error_g; rewrite <- Hl; apply Hd; auto).
  rewrite Ef, Ep. rewrite (fit_loop_scan svd srt refs pts (at_ refs draw) _ _ _ _ _ _ (visits_all (length pts) HN)).
  destruct (scan_spec svd srt refs pts (at_ refs draw) Hs Hl Hne (tuples (length pts)) None) as [f [E [Hf Hm]]].
  - intros c Hc. apply drawn_tuples; auto.
  - discriminate.
  - left. intros E. pose proof (proj2 (drawn_tuples (length pts) draw HN) Hd) as Hin. rewrite E in Hin. destruct Hin.
  - rewrite E. exists f. split; auto. split.
    + destruct Hf as [Hf|[c [Hc Cf]]]; [discriminate|]. exists c. split; auto. apply drawn_tuples; auto.
    + destruct Hm as [[Ht _]|[_ Hm]]; [left; auto|right]. intros c Hc. apply Hm. apply drawn_tuples; auto.
Qed.

(** ** Exact copies *)
Lemma misfit_nonneg m P Q : 0 <= misfit m P Q.
Proof. unfold misfit. induction (combine P Q) as [|x l IH]; simpl; [lra|]. pose proof (len_sq_nonneg (vsub (rapply m (fst x)) (snd x))). lra. Qed.
Lemma misfit_0 m : forall P Q, length P = length Q -> misfit m P Q = 0 -> map (rapply m) P = Q.
Proof.
  unfold misfit. induction P as [|p P IH]; intros [|q Q] Hl H; simpl in *; try discriminate; auto.
  pose proof (len_sq_nonneg (vsub (rapply m p) q)). pose proof (misfit_nonneg m P Q) as Hm. unfold misfit in Hm.
  rewrite (len_sq_0 (rapply m p) q) by lra. f_equal. apply IH; [lia|lra].
Qed.
Lemma misfit_exact m : forall P Q, map (rapply m) P = Q -> misfit m P Q = 0.
Proof.
  unfold misfit. induction P as [|p P IH]; intros Q <-; simpl; auto. rewrite IH by auto. replace (len_sq _) with 0; [ring|]. unfold len_sq, dot; simpl; ring.
Qed.
Lemma rotation_trans m : rotation m -> rotation (rtrans m).
Proof. intros [H1 H2]. split; [apply orth_trans; auto|rewrite rdet_trans; auto]. Qed.
Lemma rotation_mul a b : rotation a -> rotation b -> rotation (rmul a b).
Proof. intros [H1 H2] [H3 H4]. split; [apply orth_mul; auto|rewrite rdet_mul, H2, H4; ring]. Qed.
Lemma orth_inv_l m v : orthonormal m -> rapply (rtrans m) (rapply m v) = v.
Proof. intros [H _]. rewrite <- rapply_mul, H. apply rapply_id. Qed.
(** The partners of the drawn reference points among the points. *)
Lemma copy_tuple m refs pts draw : Permutation pts (map (rapply m) refs) -> drawn (length refs) draw ->
  exists c, drawn (length pts) c /\ at_ pts c = map (rapply m) (at_ refs draw).
Proof.
  intros P [Dl [Dn Dr]]. pose proof (Permutation_length P) as Hl. rewrite map_length in Hl.
  destruct (proj1 (Permutation_nth _ _ v0) (Permutation_sym P)) as [Hlen [f [Hb [Hi Hf]]]]. rewrite map_length in *.
  set (n := length refs) in *. unfold FinFun.bFun, FinFun.bInjective in *.
  assert (Hsur : forall i, (i < n)%nat -> exists j, (j < n)%nat /\ f j = i).
  { intros i Hi'. assert (HS : FinFun.bSurjective n f) by (apply FinFun.bInjective_bSurjective; auto). destruct (HS i Hi') as [j [? ?]]. exists j. auto. }
  assert (Hch : forall l, NoDup l -> (forall i, In i l -> (i < n)%nat) -> exists c, length c = length l /\ NoDup c /\ (forall j, In j c -> (j < n)%nat /\ In (f j) l) /\ at_ pts c = map (rapply m) (at_ refs l)).
  { clear draw Dl Dn Dr. induction l as [|i l IH]; intros Hn Hr.
    - exists (@nil nat). split; [auto|]. split; [constructor|]. split; [intros ? []|reflexivity].
    - inversion Hn; subst. destruct IH as [c [C1 [C2 [C3 C4]]]]; auto. { intros; apply Hr; right; auto. }
      destruct (Hsur i (Hr i (or_introl eq_refl))) as [j [Hj Ej]]. exists (j :: c). cbn [length]. split; [congruence|]. split.
      { constructor; auto. intros Hc. destruct (C3 j Hc) as [_ Hc']. rewrite Ej in Hc'. contradiction. }
      split. { intros k [<-|Hk]; [split; [auto|left; auto]|]. destruct (C3 k Hk). split; [auto|right; auto]. }
      unfold at_ in *. cbn [map]. rewrite C4. f_equal. rewrite Hf by auto. rewrite Ej. rewrite (nth_map_lt _ _ _ v0) by (apply Hr; left; auto). reflexivity. }
  destruct (Hch draw Dn Dr) as [c [C1 [C2 [C3 C4]]]]. exists c. split; auto. split; [rewrite Hl; lia|]. split; auto. intros j Hj. rewrite Hl. apply C3; auto.
Qed.
Lemma exact_copy svd srt draw refs pts : sorts srt -> pts <> [] -> turned_copy refs pts -> drawn (length refs) draw -> fixes refs draw -> svd_on svd draw refs pts ->
  exists f, fit svd srt draw refs pts = Some (f, map (rapply (f_rot f)) pts) /\ f_rmsd f < tol.
Proof.
  intros Hs Hne [m [Hm P]] Hd Hfix Hsvd. pose proof (Permutation_length P) as Hl. rewrite map_length in Hl.
  destruct (fit_spec svd srt draw refs pts Hs Hl Hne Hd) as [f [E [_ Hmin]]]. exists f. split; auto.
  destruct Hmin as [Ht|Hmin]; auto.
  destruct (copy_tuple m refs pts draw P Hd) as [c [Hc Ec]]. destruct (Hmin c Hc) as [g [[Rg [s [G [Pa [Eg _]]]]] [_ Hle]]].
  specialize (Hsvd c Hc). cbv zeta in Hsvd. 
  assert (Hlc : length (at_ pts c) = length (at_ refs draw)) by (rewrite Ec, map_length; auto).
  set (K := kabsch svd (at_ pts c) (at_ refs draw)) in *.
  assert (HK : rotation K) by (apply kabsch_rotation; apply Hsvd).
  assert (M0 : misfit K (at_ pts c) (at_ refs draw) = 0).
  { apply Rle_antisym; [|apply misfit_nonneg]. rewrite <- (misfit_exact (rtrans m) (at_ pts c) (at_ refs draw)).
    - apply kabsch_best; auto. apply rotation_trans; auto.
    - rewrite Ec, map_map. rewrite (map_ext _ (fun v => v)) by (intros; apply orth_inv_l, Hm). apply map_id. }
  apply misfit_0 in M0; auto. rewrite Ec, map_map in M0.
  assert (Hall : forall x, In x refs -> rapply (rmul K m) x = x).
  { apply Hfix; [apply rotation_mul; auto|]. intros i Hi. rewrite rapply_mul. 
    assert (Hj : In (nth i refs v0) (at_ refs draw)) by (apply in_map_iff; exists i; auto).
    clearbody K. clear - M0 Hj. induction (at_ refs draw) as [|x l IH]; [destruct Hj|]. cbn [map] in M0. injection M0 as Hx Hy. destruct Hj as [<-|Hj]; [|apply IH; auto]. exact Hx. }
  assert (Pz : Permutation (map (rapply K) pts) (at_ refs (seq 0 (length refs)))).
  { rewrite at_all. rewrite (Permutation_map (rapply K) P), map_map. rewrite (map_ext_in _ (fun v => v)); [rewrite map_id; auto|].
    intros x Hx. rewrite <- rapply_mul. auto. }
  rewrite Rg in *. pose proof (greedy_exact _ _ _ _ G (seq_NoDup _ _) Pz) as C0.
  assert (f_rmsd g = 0). { rewrite Eg. unfold rms. fold (cost refs (map (rapply K) pts) s). rewrite C0. unfold Rdiv. rewrite Rmult_0_l. apply sqrt_0. }
  unfold tol. lra.
Qed.
