(** Proofs about the Steinhardt model: the third-order sum. *)
From Verif Require Import RBase MatchEnvProofs LocalDescProps SteinProofs.
From Coq Require Import Permutation Reals ZArith List Lra Lia Bool Sorted.
From Verif Require Import HarmProofs SteinSpec.
Import ListNotations.
Local Open Scope R_scope.

Lemma in_zrange a b x : In x (zrange a b) <-> (a <= x <= b)%Z.
Proof.
  unfold zrange. rewrite in_map_iff. split.
  - intros (k & <- & Hk). apply in_seq in Hk. lia.
  - intros H. exists (Z.to_nat (x - a)). split; [lia|]. apply in_seq. lia.
Qed.
Lemma zrange_sorted a b : StronglySorted Z.lt (zrange a b).
Proof.
  unfold zrange. generalize (Z.to_nat (b - a + 1)) as n. generalize 0%nat as j. intros j n. revert j. induction n as [|n IH]; intros j; simpl; [constructor|]. constructor; [apply IH|].
  apply Forall_forall. intros x Hx. apply in_map_iff in Hx as (k & <- & Hk). apply in_seq in Hk. lia.
Qed.
Lemma in_m_pairs l m1 m2 : In (m1, m2) (m_pairs l) <-> m_ok l m1 m2.
Proof.
  unfold m_pairs, m_ok. rewrite in_flat_map. split.
  - intros (x & Hx & H). apply in_map_iff in H as (y & E & Hy). injection E as -> ->. apply in_zrange in Hx. apply in_zrange in Hy. lia.
  - intros H. exists m1. split; [apply in_zrange; lia|]. apply in_map_iff. exists m2. split; [reflexivity|]. apply in_zrange. lia.
Qed.
Lemma sorted_app {A} (P : A -> A -> Prop) l l' : StronglySorted P l -> StronglySorted P l' -> (forall x y, In x l -> In y l' -> P x y) -> StronglySorted P (l ++ l').
Proof.
  induction 1 as [|x l S IH F]; intros S' H; simpl; [exact S'|]. constructor; [apply IH; [exact S'|intros; apply H; [right|]; auto]|]. apply Forall_app. split; [exact F|].
  apply Forall_forall. intros y Hy. apply H; [left; reflexivity|exact Hy].
Qed.
Lemma m_pairs_sorted l : StronglySorted before (m_pairs l).
Proof.
  unfold m_pairs. assert (Z := zrange_sorted (- l) l). induction Z as [|m1 ms S IH F]; simpl; [constructor|]. apply sorted_app; [|exact IH|].
  - set (a := Z.max _ _). set (b := Z.min _ _). assert (Z := zrange_sorted a b). induction Z as [|m2 r S2 IH2 F2]; simpl; [constructor|]. constructor; [exact IH2|].
    apply Forall_forall. intros p Hp. apply in_map_iff in Hp as (y & <- & Hy). rewrite Forall_forall in F2. right. simpl. split; [reflexivity|apply F2; exact Hy].
  - intros p p' Hp Hp'. apply in_map_iff in Hp as (y & <- & _). apply in_flat_map in Hp' as (m' & Hm & Hp'). apply in_map_iff in Hp' as (y' & <- & _). left. simpl. rewrite Forall_forall in F. apply F. exact Hm.
Qed.
Lemma before_irr p : ~ before p p. Proof. unfold before. lia. Qed.
Lemma sorted_nodup l : StronglySorted before l -> NoDup l.
Proof. induction 1 as [|p l S IH F]; constructor; [|exact IH]. intros I. rewrite Forall_forall in F. exact (before_irr p (F p I)). Qed.
Lemma m_pairs_enum l : enumerates l (m_pairs (Z.of_nat l)).
Proof. split; [apply sorted_nodup, m_pairs_sorted|]. intros. apply in_m_pairs. Qed.
(** The ascending enumeration is unique. *)
Lemma sorted_unique l : forall l', StronglySorted before l -> StronglySorted before l' -> (forall p, In p l <-> In p l') -> l = l'.
Proof.
  induction l as [|p l IH]; intros [|p' l'] S S' H.
  - reflexivity.
  - exfalso. apply (H p'). left; reflexivity.
  - exfalso. apply (H p). left; reflexivity.
  - inversion_clear S as [|? ? S1 F1]. inversion_clear S' as [|? ? S1' F1']. rewrite Forall_forall in F1, F1'.
    assert (E : p = p').
    { destruct (proj1 (H p) (or_introl eq_refl)) as [E|I]; [auto|]. destruct (proj2 (H p') (or_introl eq_refl)) as [E|I']; [auto|]. exfalso. specialize (F1 _ I'). specialize (F1' _ I). unfold before in *. lia. }
    subst p'. f_equal. apply IH; [assumption|assumption|]. intros r. split; intros I.
    + destruct (proj1 (H r) (or_intror I)) as [<-|I']; [exfalso; exact (before_irr p (F1 p I))|exact I'].
    + destruct (proj2 (H r) (or_intror I)) as [<-|I']; [exfalso; exact (before_irr p (F1' p I))|exact I'].
Qed.
Lemma table_pairs l w t : table_ok l w t -> t = map (fun p => w (fst p) (snd p)) (m_pairs (Z.of_nat l)).
Proof.
  intros (ps & (N & I) & S & ->). f_equal. apply sorted_unique; [exact S|apply m_pairs_sorted|]. intros [m1 m2]. rewrite I, in_m_pairs. reflexivity.
Qed.
Lemma third_perm w q ps ps' : Permutation ps ps' -> third w q ps = third w q ps'.
Proof. unfold third. induction 1 as [|p a b P IH|p p2 a|a b c P1 I1 P2 I2]; cbn [fold_right]; [reflexivity|rewrite IH; reflexivity|ring|rewrite I1; exact I2]. Qed.
Lemma enum_perm l ps ps' : enumerates l ps -> enumerates l ps' -> Permutation ps ps'.
Proof. intros [N I] [N' I']. apply NoDup_Permutation; auto. intros [m1 m2]. rewrite I, I'. reflexivity. Qed.
Lemma w_value_perm nz l w q ps ps' : enumerates l ps -> enumerates l ps' -> w_value nz l w q ps = w_value nz l w q ps'.
Proof. intros E E'. unfold w_value. rewrite (third_perm w _ _ _ (enum_perm l _ _ E E')). reflexivity. Qed.

Lemma row_at l q m : (- Z.of_nat l <= m <= Z.of_nat l)%Z -> nth_error (rowval l q) (Z.to_nat (lm_index (Z.of_nat l) m)) = Some (Some (at_m l q m)).
Proof.
  intros H. assert (B : (Z.to_nat (lm_index (Z.of_nat l) m) < 2 * l + 1)%nat) by (unfold lm_index; destruct (Z.ltb_spec m 0); lia).
  rewrite (nth_error_g _ _ None) by (rewrite rowval_len; exact B). rewrite nth_rowval by exact B. unfold at_m. do 3 f_equal. unfold m_of, lm_index in *. destruct (Z.ltb_spec m 0).
  - destruct (Nat.leb_spec (Z.to_nat (Z.of_nat l - m)) l); lia.
  - destruct (Nat.leb_spec (Z.to_nat m) l); lia.
Qed.
Lemma norow_at l m : (- Z.of_nat l <= m <= Z.of_nat l)%Z -> nth_error (norow l) (Z.to_nat (lm_index (Z.of_nat l) m)) = Some None.
Proof.
  intros H. assert (B : (Z.to_nat (lm_index (Z.of_nat l) m) < 2 * l + 1)%nat) by (unfold lm_index; destruct (Z.ltb_spec m 0); lia).
  rewrite (nth_error_g _ _ None) by (rewrite norow_len; exact B). rewrite nth_norow by exact B. reflexivity.
Qed.
Definition r3_step (l : nat) (table : list R) (row : list (option cplx)) (acc : option (option R * nat)) (p : Z * Z) : option (option R * nat) :=
  let at_ m := nth_error row (Z.to_nat (lm_index (Z.of_nat l) m)) in
  match acc with
  | Some (res, counter) =>
      match nth_error table counter, at_ (fst p), at_ (snd p), at_ (- fst p - snd p)%Z with
      | Some w, Some a, Some b, Some c => Some (fadd' res (option_map fst (omul (omul (option_map (cscale w) a) b) c)), S counter)
      | _, _, _, _ => None
      end
  | None => None
  end.
Lemma reduce3j_eq l table row : reduce3j l table row = match fold_left (r3_step l table row) (m_pairs (Z.of_nat l)) (Some (Some 0, 0%nat)) with Some (res, _) => Some res | None => None end.
Proof. reflexivity. Qed.
Lemma fold_r3 l w q ps : (forall p, In p ps -> m_ok (Z.of_nat l) (fst p) (snd p)) -> forall pre suf acc,
  fold_left (r3_step l (pre ++ map (fun p => w (fst p) (snd p)) ps ++ suf) (rowval l q)) ps (Some (Some acc, length pre)) = Some (Some (acc + third w (at_m l q) ps), (length pre + length ps)%nat).
Proof.
  induction ps as [|p ps IH]; intros H pre suf acc.
  - simpl. rewrite Rplus_0_r, Nat.add_0_r. reflexivity.
  - assert (M := H p (or_introl eq_refl)). destruct M as (M1 & M2 & M3). cbn [fold_left].
    assert (X : r3_step l (pre ++ map (fun p => w (fst p) (snd p)) (p :: ps) ++ suf) (rowval l q) (Some (Some acc, length pre)) p =
      Some (Some (acc + w (fst p) (snd p) * fst (cmul (cmul (at_m l q (fst p)) (at_m l q (snd p))) (at_m l q (- fst p - snd p)%Z))), S (length pre))).
    { unfold r3_step. rewrite nth_error_app2, Nat.sub_diag by lia. cbn [map app nth_error]. rewrite !row_at by lia. cbn [option_map omul fadd']. f_equal. f_equal. f_equal. f_equal. unfold cmul, cscale; cbn [fst snd]. ring. }
    rewrite X. specialize (IH (fun p' Hp => H p' (or_intror Hp)) (pre ++ [w (fst p) (snd p)]) suf). rewrite app_length in IH. cbn [length] in IH. rewrite <- app_assoc in IH. cbn [app] in IH. rewrite Nat.add_1_r in IH.
    cbn [map app]. rewrite IH. f_equal. f_equal; [|simpl; lia]. f_equal. unfold third. cbn [fold_right]. ring.
Qed.
Lemma reduce3j_value l w t q : table_ok l w t -> reduce3j l t (rowval l q) = Some (Some (third w (at_m l q) (m_pairs (Z.of_nat l)))).
Proof.
  intros T. apply table_pairs in T. rewrite reduce3j_eq, T. assert (F := fold_r3 l w q (m_pairs (Z.of_nat l)) (fun p Hp => proj1 (in_m_pairs _ (fst p) (snd p)) ltac:(rewrite <- surjective_pairing; exact Hp)) [] [] 0).
  rewrite app_nil_r in F. cbn [app length] in F. rewrite F, Rplus_0_l. reflexivity.
Qed.
Lemma fold_r3_none l w ps : (forall p, In p ps -> m_ok (Z.of_nat l) (fst p) (snd p)) -> forall pre suf acc,
  fold_left (r3_step l (pre ++ map (fun p => w (fst p) (snd p)) ps ++ suf) (norow l)) ps (Some (acc, length pre)) = Some (match ps with [] => acc | _ => None end, (length pre + length ps)%nat).
Proof.
  induction ps as [|p ps IH]; intros H pre suf acc.
  - simpl. rewrite Nat.add_0_r. reflexivity.
  - assert (M := H p (or_introl eq_refl)). destruct M as (M1 & M2 & M3). cbn [fold_left].
    assert (X : r3_step l (pre ++ map (fun p => w (fst p) (snd p)) (p :: ps) ++ suf) (norow l) (Some (acc, length pre)) p = Some (None, S (length pre))).
    { unfold r3_step. rewrite nth_error_app2, Nat.sub_diag by lia. cbn [map app nth_error]. rewrite !norow_at by lia. destruct acc; reflexivity. }
    rewrite X. specialize (IH (fun p' Hp => H p' (or_intror Hp)) (pre ++ [w (fst p) (snd p)]) suf None). rewrite app_length in IH. cbn [length] in IH. rewrite <- app_assoc in IH. cbn [app] in IH. rewrite Nat.add_1_r in IH.
    cbn [map app]. rewrite IH. f_equal. f_equal; [destruct ps; reflexivity|simpl; lia].
Qed.
Lemma reduce3j_norow l w t : table_ok l w t -> reduce3j l t (norow l) = Some None.
Proof.
  intros T. apply table_pairs in T. rewrite reduce3j_eq, T. assert (F := fold_r3_none l w (m_pairs (Z.of_nat l)) (fun p Hp => proj1 (in_m_pairs _ (fst p) (snd p)) ltac:(rewrite <- surjective_pairing; exact Hp)) [] [] (Some 0)).
  rewrite app_nil_r in F. cbn [app length] in F. rewrite F. assert (I : In (0, 0)%Z (m_pairs (Z.of_nat l))) by (apply in_m_pairs; unfold m_ok; lia). destruct (m_pairs (Z.of_nat l)); [contradiction|reflexivity].
Qed.
Lemma norm2_nonneg l q : 0 <= nsum (2 * l + 1) (fun k => modulus2 (q k)).
Proof. generalize (2 * l + 1)%nat. induction n as [|n IH]; simpl; [lra|]. unfold modulus2 at 2. nra. Qed.
Lemma st_wl_value l w t nz q : table_ok l w t -> st_wl l t nz (rowval l q) (Some (invariant l q)) = Some (w_value nz l w q (m_pairs (Z.of_nat l))).
Proof.
  intros T. unfold st_wl, w_value. rewrite (reduce3j_value l w t q T). cbn [option_map]. destruct nz; [|reflexivity]. f_equal. set (s := nsum _ _). assert (S : 0 <= s) by apply norm2_nonneg.
  unfold invariant. fold s. set (a := 4 * PI / INR (2 * l + 1)). assert (A : 0 < a).
  { unfold a. apply Rdiv_lt_0_compat; [assert (P := PI_RGT_0); lra|]. apply lt_0_INR. lia. }
  destruct (Req_EM_T s 0) as [E|E].
  - rewrite E, Rmult_0_r, sqrt_0. destruct (Reqb_spec 0 0); [reflexivity|lra].
  - assert (SA : 0 < sqrt a) by (apply sqrt_lt_R0; exact A). assert (SS : 0 < sqrt s) by (apply sqrt_lt_R0; lra). rewrite sqrt_mult by lra.
    destruct (Reqb_spec (sqrt a * sqrt s) 0) as [Z|Z]; [exfalso; nra|]. f_equal. unfold Rdiv. f_equal. field. lra.
Qed.
Lemma st_wl_none l w t nz : table_ok l w t -> st_wl l t nz (norow l) None = Some None.
Proof. intros T. unfold st_wl. rewrite (reduce3j_norow l w t T). cbn [option_map]. destruct nz; reflexivity. Qed.
