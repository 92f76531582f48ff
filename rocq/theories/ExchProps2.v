(** C92: PMFTR12 seen from the other side; nearest neighbours are not mutual. *)
From Coq Require Import Reals ZArith List Permutation Lia Lra Psatz.
From Verif Require Import PmftProofs PmftProps HistProofs HistProps MArrayProofs BoxProofs SymmProps ExchProofs.
From Verif Require Import ExchSpec PmftSpec.
Import ListNotations.
Local Open Scope R_scope.

Lemma calls_exchanged h h' : Forall2 exchanged_pop h h' -> forall acc acc', Forall2 exchanged_angles acc acc' -> Forall2 exchanged_angles (calls h acc) (calls h' acc').
Proof.
  induction 1 as [|o o' h h' O _ IH]; intros acc acc' F; simpl; auto. destruct O as [[|] fr fr' D|]; apply IH; auto.
  apply Forall2_app; auto.
Qed.
Lemma shaped_exchanged f f' : exchanged_angles f f' -> shaped R12 f = pf_ok f /\ shaped R12 f' = pf_ok f.
Proof.
  intros (_ & E1 & E2 & _ & E4 & E5 & E6 & _ & L1 & L2).
  assert (G : forall g, length (pf_o g) = pd_np (pf_data g) -> length (pm_query_orientations g) = pd_nqp (pf_data g) -> shaped R12 g = pf_ok g).
  { clear. intros g A B. unfold shaped, pm_shapes. rewrite A, Nat.eqb_refl. cbn [andb]. unfold pm_query_orientations in B. destruct (pf_qo g) as [q|]; [rewrite B, Nat.eqb_refl|]; rewrite andb_true_r; reflexivity. }
  split; [apply G; auto|]. rewrite <- E6. apply G; congruence.
Qed.
Lemma frames_exchanged h h' : Forall2 exchanged_pop h h' -> Forall2 exchanged_angles (frames R12 h) (frames R12 h').
Proof.
  intros X. unfold frames. assert (F := calls_exchanged h h' X [] [] (Forall2_nil _)). cbv zeta. unfold counted. induction F as [|f f' fs fs' D _ IH]; simpl; auto.
  destruct (shaped_exchanged f f' D) as [S1 S2]. rewrite S1, S2. assert (E : pf_2d f' = pf_2d f) by apply D. rewrite E. destruct (_ && _ && _); auto.
Qed.
(** The point of a bond from the other side has the two angles exchanged. *)
Definition other (l : list R) : list R := match l with [d; t1; t2] => [d; t2; t1] | _ => l end.
Definition sampled (f : pin) (x : bond) : list (list R) := match pm_sample R12 f x with Some l => l | None => [] end.
Lemma sample_turned f f' x : exchanged_angles f f' -> sampled f' (turned x) = map other (sampled f x).
Proof.
  intros (_ & E1 & E2 & _). unfold sampled, pm_sample. rewrite E1, E2. unfold turned. cbn [bp bq bd bv vneg vx vy].
  destruct (nth_error (pm_query_orientations f) (bq x)), (nth_error (pf_o f) (bp x)); auto. cbn [map other]. rewrite !Ropp_involutive. reflexivity.
Qed.
Lemma cell_other a t1 t2 i j k l : in_cellb [a; t1; t2] [i; j; k] l = in_cellb [a; t2; t1] [i; k; j] (other l).
Proof.
  unfold in_cellb. destruct l as [|x [|y [|z [|w l]]]]; try reflexivity. cbn [length other combine forallb Nat.eqb andb]. rewrite !andb_true_r. f_equal. apply andb_comm.
Qed.
Lemma points_exchanged a t1 t2 i j k fs fs' : Forall2 exchanged_angles fs fs' -> points_in R12 [a; t2; t1] [i; k; j] fs' = points_in R12 [a; t1; t2] [i; j; k] fs.
Proof.
  intros F. unfold points_in.
  set (S := fun f => flat_map (fun n => flat_map (sampled f) (pf_bonds f n)) (range 0 (pf_n f))).
  change (length (filter (in_cellb [a; t2; t1] [i; k; j]) (flat_map S fs')) = length (filter (in_cellb [a; t1; t2] [i; j; k]) (flat_map S fs))).
  assert (P : Permutation (flat_map S fs') (map other (flat_map S fs))).
  { induction F as [|f f' fs fs' D _ IH]; simpl; auto. rewrite map_app. apply Permutation_app; auto. clear IH.
    assert (G : forall g, S g = flat_map (sampled g) (pin_bonds g)). { intros g. unfold S, pin_bonds. induction (range 0 (pf_n g)) as [|n l IH]; simpl; auto. rewrite flat_map_app, IH. reflexivity. }
    rewrite !G. rewrite <- (flat_map_perm _ _ _ (proj1 D)). rewrite flat_map_map', map_flat_map. apply Permutation_refl'. apply flat_map_ext. intros x. apply sample_turned; auto. }
  rewrite (Permutation_length (filter_perm _ _ _ P)). generalize (flat_map S fs). induction l as [|x l IH]; auto. cbn [map filter]. rewrite (cell_other a t1 t2). destruct (in_cellb _ _ _); cbn [length]; auto.
Qed.
(** PMFTR12 with points and query points exchanged is the same array with the two angles exchanged. *)
Theorem C92_pmft r_max n1 n2 n3 p0 p0' h h' ev ev' fs f : 0 < r_max -> pmftr12_make r_max n1 n2 n3 = Some p0 -> pmftr12_make r_max n1 n3 n2 = Some p0' -> (n1 * n2 * n3 < 4294967295)%Z ->
  let size := Z.to_nat (n1 * n2 * n3) in
  Forall (pop_ok size) h -> Forall (pop_ok size) h' -> execution 0 size ev -> execution 0 size ev' -> Forall2 exchanged_pop h h' -> frames R12 h = fs ++ [f] -> data_pos R12 f ->
  exists p p', pm_run p0 (h ++ [PRead ev]) = Some p /\ pm_run p0' (h' ++ [PRead ev']) = Some p' /\ length (pm_pcf p) = size /\ length (pm_pcf p') = size /\
    forall i j k, (0 <= i < n1)%Z -> (0 <= j < n2)%Z -> (0 <= k < n3)%Z -> (Z.of_nat (points_in R12 (pm_axes p0) [i; j; k] (fs ++ [f])) < 2 ^ 32)%Z ->
      nth (Z.to_nat ((i * n3 + k) * n2 + j)) (pm_pcf p') 0 = nth (Z.to_nat ((i * n2 + j) * n3 + k)) (pm_pcf p) 0.
Proof.
  intros R0 M M' Sz size Hh Hh' He He' X Fr Dp.
  assert (Md : made R12 p0) by (eapply made_r12; eauto). assert (Md' : made R12 p0') by (eapply made_r12; eauto; lia).
  assert (A : pm_axes p0 = [Axis n1 0 r_max; Axis n2 0 TWO_PI; Axis n3 0 TWO_PI] /\ pm_axes p0' = [Axis n1 0 r_max; Axis n3 0 TWO_PI; Axis n2 0 TWO_PI] /\ (1 <= n1 /\ 1 <= n2 /\ 1 <= n3)%Z).
  { unfold pmftr12_make in M, M'. destruct (Z.ltb_spec n1 1); [discriminate|]. destruct (Z.ltb_spec n2 1); [discriminate|]. destruct (Z.ltb_spec n3 1); [discriminate|]. destruct (Rltb r_max 0); [discriminate|].
    apply (f_equal (option_map pm_axes)) in M, M'. cbn [option_map pm_new pm_axes] in M, M'. split; [congruence|]. split; [congruence|lia]. }
  destruct A as (A & A' & N1 & N2 & N3).
  assert (S1 : pm_size (pm_axes p0) = size).
  { rewrite A. unfold pm_size, size. cbn [map ax_n]. replace (prodz [n1; n2; n3]) with (n1 * n2 * n3)%Z; auto. cbn [prodz fold_right fold_left]. ring. }
  assert (S2 : pm_size (pm_axes p0') = size).
  { rewrite A'. unfold pm_size, size. cbn [map ax_n]. replace (prodz [n1; n3; n2]) with (n1 * n2 * n3)%Z; auto. cbn [prodz fold_right fold_left]. ring. }
  assert (F := frames_exchanged h h' X). rewrite Fr in F. apply Forall2_app_inv_l in F as (fs' & l2 & F1 & F2 & Fr'). inversion F2 as [|? f' ? l3 D F3]; subst. inversion F3; subst. clear F2 F3.
  assert (FF : Forall2 exchanged_angles (fs ++ [f]) (fs' ++ [f'])) by (apply Forall2_app; auto).
  assert (Dp' : data_pos R12 f'). { destruct Dp as (P1 & P2 & P3 & P4), D as (_ & _ & _ & E3 & E4 & E5 & _). unfold data_pos. rewrite E3, E4, E5. repeat split; auto. }
  destruct (C54_values R12 p0 h ev fs f Md) as (p & E & L & V); [try rewrite S1; auto..|]. destruct (C54_values R12 p0' h' ev' fs' f' Md') as (p' & E' & L' & V'); [try rewrite S2; auto..|].
  rewrite S1 in L. rewrite S2 in L'. exists p, p'. do 4 (split; [assumption|]). intros i j k Hi Hj Hk Small.
  destruct (made_ok R12 p0 Md) as (_ & _ & _ & _ & _ & _ & Mj).
  specialize (V [i; j; k]). specialize (V' [i; k; j]). specialize (Mj [i; j; k]). rewrite A in *. rewrite A' in *.
  assert (IS : in_shape (map ax_n [Axis n1 0 r_max; Axis n2 0 TWO_PI; Axis n3 0 TWO_PI]) [i; j; k]) by (repeat constructor; simpl; lia).
  assert (IS' : in_shape (map ax_n [Axis n1 0 r_max; Axis n3 0 TWO_PI; Axis n2 0 TWO_PI]) [i; k; j]) by (repeat constructor; simpl; lia).
  assert (PX := points_exchanged (Axis n1 0 r_max) (Axis n2 0 TWO_PI) (Axis n3 0 TWO_PI) i j k _ _ FF).
  specialize (V IS Small). rewrite PX in V'. specialize (V' IS' Small). destruct (Mj IS) as [MP _]. clear Mj.
  replace (row_major _ [i; j; k]) with ((i * n2 + j) * n3 + k)%Z in V by (unfold row_major; simpl; ring). replace (row_major _ [i; k; j]) with ((i * n3 + k) * n2 + j)%Z in V' by (unfold row_major; simpl; ring).
  assert (LF : length (fs' ++ [f']) = length (fs ++ [f])) by (symmetry; revert FF; generalize (fs ++ [f]) (fs' ++ [f']); induction 1; simpl; congruence).
  assert (ME : measure R12 [Axis n1 0 r_max; Axis n3 0 TWO_PI; Axis n2 0 TWO_PI] [i; k; j] = measure R12 [Axis n1 0 r_max; Axis n2 0 TWO_PI; Axis n3 0 TWO_PI] [i; j; k]) by (unfold measure, Rdiv; ring).
  rewrite ME, LF in V'. destruct D as (_ & _ & _ & E3 & E4 & E5 & _). rewrite E3, E4, E5, <- V in V'. destruct Dp as (P1 & P2 & P3 & P4). apply lt_0_INR in P2, P3.
  assert (NF : 0 < INR (length (fs ++ [f]))) by (apply lt_0_INR; rewrite app_length; simpl; lia). cbn [multiplicity INR] in V'.
  apply Rmult_eq_reg_r with (INR (length (fs ++ [f])) * INR (pd_np (pf_data f)) * INR (pd_nqp (pf_data f)) * 1 * measure R12 [Axis n1 0 r_max; Axis n2 0 TWO_PI; Axis n3 0 TWO_PI] [i; j; k]).
  - rewrite <- V'. ring.
  - apply Rgt_not_eq. apply Rmult_lt_0_compat; [|exact MP]. rewrite Rmult_1_r. apply Rmult_lt_0_compat; [apply Rmult_lt_0_compat|]; auto.
Qed.
Print Assumptions C92_pmft.
