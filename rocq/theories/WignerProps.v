(** C67: the table of Wigner 3j symbols. *)
From Coq Require Import Permutation Reals ZArith List Lra Lia Bool.
From Verif Require Import RBase Vec HarmProofs SteinProofs SteinProofs3 SteinProofs4 SteinProps SteinSpec WignerProofs WignerProofs2 WignerModel WignerSpec.
Import ListNotations.
Local Open Scope R_scope.

Lemma checked l rows : w3j_rows l = Some rows -> (shape_check (Z.of_nat l) rows && sym_check (Z.of_nat l) rows && acc_check l rows)%bool = true.
Proof. do 21 (destruct l as [|l]; [intros H; injection H as <-; vm_compute; reflexivity|]). discriminate. Qed.
Lemma checks l rows : w3j_rows l = Some rows -> shape_check (Z.of_nat l) rows = true /\ sym_check (Z.of_nat l) rows = true /\ acc_check l rows = true.
Proof. intros H. assert (C := checked l rows H). apply andb_true_iff in C as [C C3]. apply andb_true_iff in C as [C1 C2]. auto. Qed.
Definition wtable (l : nat) (rows : list (list Z)) (m1 m2 : Z) : R := IZR (entry (Z.of_nat l) rows m1 m2) / 10 ^ 20.
Lemma table_entries l rows : w3j_rows l = Some rows -> get_wigner3j l = Some (map (fun p => wtable l rows (fst p) (snd p)) (m_pairs (Z.of_nat l))).
Proof. intros H. unfold get_wigner3j. rewrite H. simpl. rewrite (concat_rows (Z.of_nat l) rows) by apply (checks l rows H). rewrite map_map. reflexivity. Qed.
Lemma table_shape l rows : w3j_rows l = Some rows -> table_ok l (wtable l rows) (map (fun p => wtable l rows (fst p) (snd p)) (m_pairs (Z.of_nat l))).
Proof. intros _. exists (m_pairs (Z.of_nat l)). split; [apply m_pairs_enum|]. split; [apply m_pairs_sorted|reflexivity]. Qed.
(** Whatever function a table represents, it is the same one on the allowed pairs. *)
Lemma table_fun l w t w' : table_ok l w t -> table_ok l w' t -> forall m1 m2, m_ok (Z.of_nat l) m1 m2 -> w m1 m2 = w' m1 m2.
Proof.
  intros A B m1 m2 M. rewrite (table_pairs l w t A) in B. apply (table_pairs l w') in B. apply in_m_pairs in M.
  induction (m_pairs (Z.of_nat l)) as [|p ps IH]; [destruct M|]. cbn [map] in B. injection B as B1 B2. destruct M as [->|M]; [exact B1|exact (IH B2 M)].
Qed.
Lemma the_rows l t : get_wigner3j l = Some t -> exists rows, w3j_rows l = Some rows /\ table_ok l (wtable l rows) t.
Proof.
  intros H. destruct (w3j_rows l) as [rows|] eqn:E; [|unfold get_wigner3j in H; rewrite E in H; discriminate]. exists rows. split; [reflexivity|].
  rewrite (table_entries l rows E) in H. injection H as <-. apply table_shape, E.
Qed.

(** The table has an entry exactly for l <= 20. *)
Theorem C67_domain l : (exists t, get_wigner3j l = Some t) <-> (l <= 20)%nat.
Proof.
  split.
  - intros (t & H). destruct (the_rows l t H) as (rows & E & _). do 21 (destruct l as [|l]; [lia|]). discriminate.
  - intros H. do 21 (destruct l as [|l]; [eexists; reflexivity|]). lia.
Qed.
(** For each l <= 20 it lists one number per (m1, m2), in the order in which the loops read it, and each is the Wigner 3j symbol with a relative error of at most 2^-51. *)
Theorem C67_table l : (l <= 20)%nat -> exists t w, get_wigner3j l = Some t /\ table_ok l w t /\
  forall m1 m2, m_ok (Z.of_nat l) m1 m2 -> Rabs (w m1 m2 - wigner l m1 m2) <= / 2 ^ 51 * Rabs (wigner l m1 m2).
Proof.
  intros H. apply C67_domain in H as (t & H). destruct (the_rows l t H) as (rows & E & T). exists t, (wtable l rows). split; [exact H|]. split; [exact T|].
  intros m1 m2 M. destruct (checks l rows E) as (_ & S & A). exact (acc_all l rows S A m1 m2 M).
Qed.
(** The symbols change by the factor (-1)^l when two columns are exchanged or all m are negated, for every l; *)
Theorem C67_symbol_symmetric l m1 m2 : wigner l m2 m1 = parity (Z.of_nat l) * wigner l m1 m2 /\ wigner l m1 (- m1 - m2) = parity (Z.of_nat l) * wigner l m1 m2 /\
  wigner l (- m1 - m2) m2 = parity (Z.of_nat l) * wigner l m1 m2 /\ wigner l (- m1) (- m2) = parity (Z.of_nat l) * wigner l m1 m2.
Proof.
  split; [apply wigner_swap|]. split; [apply wigner_turn|]. split; [|apply wigner_neg].
  rewrite (wigner_swap l m2 (- m1 - m2)). replace (- m1 - m2)%Z with (- m2 - m1)%Z by lia. rewrite (wigner_turn l m2 m1), (wigner_swap l m1 m2).
  destruct (parity_cases (Z.of_nat l)) as [-> | ->]; ring.
Qed.
(** and so do the numbers in the table, exactly. *)
Theorem C67_table_symmetric l t w : get_wigner3j l = Some t -> table_ok l w t -> forall m1 m2, m_ok (Z.of_nat l) m1 m2 ->
  w m2 m1 = parity (Z.of_nat l) * w m1 m2 /\ w m1 (- m1 - m2)%Z = parity (Z.of_nat l) * w m1 m2 /\ w (- m1 - m2)%Z m2 = parity (Z.of_nat l) * w m1 m2 /\ w (- m1)%Z (- m2)%Z = parity (Z.of_nat l) * w m1 m2.
Proof.
  intros H T m1 m2 M. destruct (the_rows l t H) as (rows & E & T'). destruct (checks l rows E) as (_ & S & _).
  assert (W : forall n1 n2, m_ok (Z.of_nat l) n1 n2 -> w n1 n2 = wtable l rows n1 n2) by (intros; apply (table_fun l w t); assumption).
  rewrite !W by (unfold m_ok in *; lia). destruct (sym_table _ rows m1 m2 S M) as (A & B & C).
  assert (M2 : m_ok (Z.of_nat l) m2 m1) by (unfold m_ok in *; lia). destruct (sym_table _ rows m2 m1 S M2) as (_ & B2 & _).
  assert (M3 : m_ok (Z.of_nat l) m2 (- m2 - m1)) by (unfold m_ok in *; lia). destruct (sym_table _ rows _ _ S M3) as (A3 & _ & _). replace (- m2 - m1)%Z with (- m1 - m2)%Z in A3, B2 by lia.
  unfold wtable. rewrite A3, B2, A, B, C, !mult_IZR, <- parity_sgn. repeat split; try (field; lra).
  destruct (parity_cases (Z.of_nat l)) as [-> | ->]; field; lra.
Qed.

(** ** Third-order invariants *)
Definition swap (p : Z * Z) : Z * Z := (snd p, fst p).
Lemma swap_enum l ps : enumerates l ps -> enumerates l (map swap ps).
Proof.
  intros [N I]. split.
  - apply FinFun.Injective_map_NoDup; [|exact N]. intros [a b] [c d] E. injection E as -> ->. reflexivity.
  - intros m1 m2. rewrite in_map_iff. split.
    + intros ([a b] & E & H). injection E as -> ->. apply I in H. unfold m_ok in *. lia.
    + intros H. exists (m2, m1). split; [reflexivity|]. apply I. unfold m_ok in *. lia.
Qed.
Lemma third_ext w w' q ps : (forall p, In p ps -> w (fst p) (snd p) = w' (fst p) (snd p)) -> third w q ps = third w' q ps.
Proof. intros H. induction ps as [|p ps IH]; [reflexivity|]. simpl. rewrite H by now left. f_equal. apply IH. intros p' Hp. apply H. now right. Qed.
Lemma third_swapped w q ps : third w q (map swap ps) = third (fun a b => w b a) q ps.
Proof.
  induction ps as [|p ps IH]; [reflexivity|]. simpl. rewrite <- IH. unfold third. f_equal. f_equal. replace (- snd p - fst p)%Z with (- fst p - snd p)%Z by lia.
  unfold cmul; simpl. ring.
Qed.
Lemma third_scale w q c ps : third (fun a b => c * w a b) q ps = c * third w q ps.
Proof. induction ps as [|p ps IH]; simpl; [ring|]. fold (third (fun a b => c * w a b) q ps). rewrite IH. unfold third. ring. Qed.
Lemma third_odd l w q ps : Nat.odd l = true -> enumerates l ps -> (forall m1 m2, m_ok (Z.of_nat l) m1 m2 -> w m2 m1 = parity (Z.of_nat l) * w m1 m2) -> third w q ps = 0.
Proof.
  intros O EN S. assert (E : third w q ps = third w q (map swap ps)) by (apply third_perm, (enum_perm l); [exact EN|apply swap_enum, EN]).
  rewrite third_swapped, (third_ext (fun a b => w b a) (fun a b => -1 * w a b)), third_scale in E; [lra|].
  intros [a b] H. apply EN in H. cbn [fst snd]. rewrite (S a b H). unfold parity. replace (Z.even (Z.of_nat l)) with false; [reflexivity|].
  rewrite <- Z.negb_odd. apply Nat.odd_spec in O as (k & ->). rewrite Nat2Z.inj_add, Nat2Z.inj_mul. rewrite Z.odd_add, Z.odd_mul. reflexivity.
Qed.
(** For odd l both the symbols and the table make the sum vanish, whatever the q_lm are; *)
Theorem C67_odd_zero l q pairs : Nat.odd l = true -> enumerates l pairs ->
  third (wigner l) q pairs = 0 /\ forall t w, get_wigner3j l = Some t -> table_ok l w t -> third w q pairs = 0.
Proof.
  intros O EN. split; [apply (third_odd l); auto; intros; apply wigner_swap|]. intros t w H T. apply (third_odd l); auto. intros m1 m2 M. apply (C67_table_symmetric l t w H T m1 m2 M).
Qed.
(** The sum with the table differs from the sum with the symbols by at most 2^-51 of the sum of the magnitudes of the terms. *)
Definition third_size (w : Z -> Z -> R) (q : Z -> cplx) (pairs : list (Z * Z)) : R :=
  fold_right (fun p a => Rabs (w (fst p) (snd p) * fst (cmul (cmul (q (fst p)) (q (snd p))) (q (- fst p - snd p)%Z))) + a) 0 pairs.
Theorem C67_error l t w q pairs : get_wigner3j l = Some t -> table_ok l w t -> enumerates l pairs ->
  Rabs (third w q pairs - third (wigner l) q pairs) <= / 2 ^ 51 * third_size (wigner l) q pairs.
Proof.
  intros H T [_ I]. assert (L : (l <= 20)%nat) by (apply C67_domain; eauto). destruct (C67_table l L) as (t' & w' & H' & T' & A). rewrite H in H'. injection H' as <-.
  assert (P : forall p, In p pairs -> Rabs (w (fst p) (snd p) - wigner l (fst p) (snd p)) <= / 2 ^ 51 * Rabs (wigner l (fst p) (snd p))).
  { intros [m1 m2] Hp. apply I in Hp. cbn [fst snd]. rewrite (table_fun l w t w' T T' m1 m2 Hp). apply A, Hp. }
  clear I. induction pairs as [|p ps IH]; [simpl; rewrite Rminus_0_r, Rabs_R0; lra|]. set (x := fst (cmul (cmul (q (fst p)) (q (snd p))) (q (- fst p - snd p)%Z))).
  change (third w q (p :: ps)) with (w (fst p) (snd p) * x + third w q ps). change (third (wigner l) q (p :: ps)) with (wigner l (fst p) (snd p) * x + third (wigner l) q ps).
  change (third_size (wigner l) q (p :: ps)) with (Rabs (wigner l (fst p) (snd p) * x) + third_size (wigner l) q ps).
  assert (IH' := IH (fun p' Hp => P p' (or_intror Hp))). assert (P0 := P p (or_introl eq_refl)). assert (X := Rabs_pos x).
  replace (w (fst p) (snd p) * x + third w q ps - (wigner l (fst p) (snd p) * x + third (wigner l) q ps)) with ((w (fst p) (snd p) - wigner l (fst p) (snd p)) * x + (third w q ps - third (wigner l) q ps)) by ring.
  eapply Rle_trans; [apply Rabs_triang|]. rewrite !Rabs_mult, Rmult_plus_distr_l. apply Rplus_le_compat; [|exact IH']. rewrite <- Rmult_assoc. apply Rmult_le_compat_r; assumption.
Qed.

(** ** Steinhardt with this table *)
Lemma real_table l : forall t, get_wigner3j l = Some t -> exists w, table_ok l w t.
Proof. intros t H. destruct (the_rows l t H) as (rows & _ & T). eauto. Qed.
(** After any history compute fails exactly when w_l is asked for with l > 20; otherwise it completes: the loops never leave the table. *)
Theorem C67_compute fsph c l h s f : fsph_ok fsph l -> Forall (st_ok l) h -> st_run fsph get_wigner3j c l stl_new h = STDone s -> st_ok l f ->
  (st_call fsph get_wigner3j c l s f = STRaised <-> sc_wl c = true /\ (20 < l)%nat) /\ (~ (sc_wl c = true /\ (20 < l)%nat) -> exists s1, st_call fsph get_wigner3j c l s f = STDone s1).
Proof.
  intros F OH RH OF. assert (D : get_wigner3j l = None <-> (20 < l)%nat).
  { destruct (get_wigner3j l) as [t|] eqn:E; split; intros X; try discriminate; try reflexivity; [|destruct (le_lt_dec l 20) as [Y|Y]; [|exact Y]]; exfalso.
    - assert (l <= 20)%nat by (apply C67_domain; eauto). lia.
    - apply C67_domain in Y as (t & Y). congruence. }
  rewrite <- D. exact (C62_accept fsph get_wigner3j c l h s f F (fun _ => real_table l) OH RH OF).
Qed.
(** With w_l and l <= 20 the values are those of coefficients within 2^-51 of the symbols, summed over every m1 + m2 + m3 = 0 once. *)
Theorem C67_values fsph c l h s s' f pairs : fsph_ok fsph l -> Forall (st_ok l) h -> st_run fsph get_wigner3j c l stl_new h = STDone s -> st_ok l f ->
  sc_wl c = true -> st_call fsph get_wigner3j c l s f = STDone s' -> enumerates l pairs ->
  exists w, (forall m1 m2, m_ok (Z.of_nat l) m1 m2 -> Rabs (w m1 m2 - wigner l m1 m2) <= / 2 ^ 51 * Rabs (wigner l m1 m2)) /\
    (forall i, (i < length (si_pts f))%nat -> ok_used c f i -> nth i (st_get_particle_order c s') None = w_value (sc_normalize c) l w (q_used c l f i) pairs) /\
    ((forall i, (i < length (si_pts f))%nat -> ok_used c f i) -> sl_order s' = w_value (sc_normalize c) l w (q_all (q_used c l f) (length (si_pts f))) pairs).
Proof.
  intros F OH RH OF W D EN. destruct (le_lt_dec l 20) as [L|L].
  - destruct (C67_table l L) as (t & w & H & T & A). exists w. split; [exact A|].
    destruct (C62_wl fsph get_wigner3j c l h s s' f F (fun _ => real_table l) OH RH OF D t w pairs W H T EN) as (_ & V & O & _). split; [|exact O]. intros i Hi. apply V, Hi.
  - exfalso. assert (X := proj2 (proj1 (C67_compute fsph c l h s f F OH RH OF)) (conj W L)). congruence.
Qed.
(** So for odd l the particle order is 0 wherever it is a number. *)
Theorem C67_odd_order fsph c l h s s' f : fsph_ok fsph l -> Forall (st_ok l) h -> st_run fsph get_wigner3j c l stl_new h = STDone s -> st_ok l f ->
  sc_wl c = true -> Nat.odd l = true -> st_call fsph get_wigner3j c l s f = STDone s' ->
  forall i, (i < length (si_pts f))%nat -> nth i (st_get_particle_order c s') None = Some 0 \/ nth i (st_get_particle_order c s') None = None.
Proof.
  intros F OH RH OF W O D i Hi. assert (L : (l <= 20)%nat) by (destruct (le_lt_dec l 20) as [L|L]; [exact L|]; exfalso; assert (X := proj2 (proj1 (C67_compute fsph c l h s f F OH RH OF)) (conj W L)); congruence).
  apply C67_domain in L as (t & H). destruct (real_table l t H) as (w & T).
  destruct (C62_wl fsph get_wigner3j c l h s s' f F (fun _ => real_table l) OH RH OF D t w _ W H T (m_pairs_enum l)) as (_ & V & _). destruct (V i Hi) as [A B].
  destruct (Classical_Prop.classic (ok_used c f i)) as [K|K]; [|right; exact (B K)]. rewrite (A K). unfold w_value. rewrite (proj2 (C67_odd_zero l _ _ O (m_pairs_enum l)) t w H T).
  destruct (sc_normalize c); [|now left]. destruct (Req_EM_T _ 0); [now right|left]. f_equal. unfold Rdiv. ring.
Qed.

(** ** Examples: (0 0 0; 0 0 0) = 1, and an entry for l = 2 *)
Example C67_ex0 : wigner 0 0 0 = 1.
Proof.
  unfold wigner, wigner3j. simpl. unfold racah_term, parity, F. simpl. replace (1 * 1 * 1 / 1) with 1 by field. replace (1 * 1 * 1 * 1 * 1 * 1) with 1 by ring. rewrite sqrt_1. field.
Qed.
Example C67_ex2 : exists t w, get_wigner3j 2 = Some t /\ table_ok 2 w t /\ Rabs (w 0%Z 0%Z - - sqrt (2 / 35)) <= / 2 ^ 51 * sqrt (2 / 35) /\ w 0%Z 0%Z <> 0.
Proof.
  destruct (C67_table 2 ltac:(lia)) as (t & w & H & T & A). exists t, w. split; [exact H|]. split; [exact T|]. assert (B := A 0%Z 0%Z ltac:(unfold m_ok; lia)).
  assert (E : wigner 2 0 0 = - sqrt (2 / 35)).
  { rewrite wigner_zsum. replace (sgn (0 + 0) * zsum 2 0 0)%Z with (-6)%Z by (vm_compute; reflexivity). replace (2 / 35) with (6 * 6 * G 2 0 0 (- 0 - 0)).
    - rewrite sqrt_mult_alt by lra. rewrite sqrt_square by lra. ring.
    - unfold G. change (Z.of_nat 2 + 0)%Z with 2%Z. change (Z.of_nat 2 - 0)%Z with 2%Z. change (Z.of_nat 2 + (- 0 - 0))%Z with 2%Z. change (Z.of_nat 2 - (- 0 - 0))%Z with 2%Z. change (Z.of_nat 2) with 2%Z. change (3 * 2 + 1)%Z with 7%Z.
      replace (F 7) with 5040 by (unfold F; rewrite INR_IZR_INZ; f_equal; vm_compute; reflexivity). replace (F 2) with 2 by (unfold F; rewrite INR_IZR_INZ; f_equal; vm_compute; reflexivity). field. }
  rewrite E, Rabs_Ropp, (Rabs_pos_eq (sqrt _)) in B by apply sqrt_pos. split; [exact B|]. intros Z0. rewrite Z0 in B. replace (0 - - sqrt (2 / 35)) with (sqrt (2 / 35)) in B by ring.
  assert (P : 0 < sqrt (2 / 35)) by (apply sqrt_lt_R0; lra). rewrite Rabs_pos_eq in B by lra. assert (/ 2 ^ 51 < 1) by (rewrite <- Rinv_1; apply Rinv_lt_contravar; lra). nra.
Qed.
Print Assumptions C67_table.
Print Assumptions C67_values.
