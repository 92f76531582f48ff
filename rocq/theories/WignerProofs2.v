(** The table checked against the exact symbols: shape, symmetries, and the entries with m1 <= m2 <= 0. *)
From Coq Require Import Reals ZArith List Lra Lia Bool.
From Verif Require Import RBase SteinProofs3 SteinSpec WignerProofs WignerModel WignerSpec.
Import ListNotations.
Local Open Scope R_scope.

(** ** Rows and entries *)
Definition lo (l m1 : Z) : Z := Z.max (- l - m1) (- l).
Definition hi (l m1 : Z) : Z := Z.min (l - m1) l.
Definition entry (l : Z) (rows : list (list Z)) (m1 m2 : Z) : Z := nth (Z.to_nat (m2 - lo l m1)) (nth (Z.to_nat (m1 + l)) rows []) 0%Z.
Definition shape_check (l : Z) (rows : list (list Z)) : bool :=
  (Z.of_nat (length rows) =? 2 * l + 1)%Z && forallb (fun m1 => Z.of_nat (length (nth (Z.to_nat (m1 + l)) rows [])) =? hi l m1 - lo l m1 + 1)%Z (zrange (- l) l).
Lemma as_map {A} (d : A) (xs : list A) : xs = map (fun k => nth k xs d) (seq 0 (length xs)).
Proof.
  apply (nth_ext _ _ d d); [now rewrite map_length, seq_length|]. intros k Hk. rewrite (nth_indep (map _ _) d (nth 0 xs d)) by now rewrite map_length, seq_length.
  rewrite (map_nth (fun k => nth k xs d)), seq_nth by exact Hk. reflexivity.
Qed.
Lemma zrange_map {A} (d : A) (xs : list A) a b : (Z.of_nat (length xs) = b - a + 1)%Z -> xs = map (fun m => nth (Z.to_nat (m - a)) xs d) (zrange a b).
Proof.
  intros H. rewrite (as_map d xs) at 1. unfold zrange. rewrite map_map. replace (Z.to_nat (b - a + 1)) with (length xs) by lia. apply map_ext. intros k. f_equal. lia.
Qed.
Lemma in_zrange a b m : In m (zrange a b) <-> (a <= m <= b)%Z.
Proof.
  unfold zrange. rewrite in_map_iff. split; [intros (k & <- & H); apply in_seq in H; lia|]. intros H. exists (Z.to_nat (m - a)). rewrite in_seq. lia.
Qed.
Lemma concat_rows l rows : shape_check l rows = true -> concat rows = map (fun p => entry l rows (fst p) (snd p)) (m_pairs l).
Proof.
  unfold shape_check. intros H. apply andb_true_iff in H as [H1 H2]. apply Z.eqb_eq in H1. rewrite forallb_forall in H2.
  rewrite (zrange_map [] rows (- l) l) at 1 by lia. unfold m_pairs. rewrite flat_map_concat_map, concat_map, map_map. f_equal. apply map_ext_in.
  intros m1 Hm. specialize (H2 m1 Hm). apply Z.eqb_eq in H2. rewrite map_map. cbn [fst snd]. replace (m1 - - l)%Z with (m1 + l)%Z by lia.
  exact (zrange_map 0%Z (nth (Z.to_nat (m1 + l)) rows []) (lo l m1) (hi l m1) H2).
Qed.

(** ** Symmetries of the table *)
Definition sym_check (l : Z) (rows : list (list Z)) : bool :=
  forallb (fun p => let e := (sgn l * entry l rows (fst p) (snd p))%Z in
    (entry l rows (snd p) (fst p) =? e)%Z && (entry l rows (fst p) (- fst p - snd p) =? e)%Z && (entry l rows (- fst p) (- snd p) =? e)%Z) (m_pairs l).
Lemma sym_table l rows m1 m2 : sym_check l rows = true -> m_ok l m1 m2 ->
  (entry l rows m2 m1 = sgn l * entry l rows m1 m2 /\ entry l rows m1 (- m1 - m2) = sgn l * entry l rows m1 m2 /\ entry l rows (- m1) (- m2) = sgn l * entry l rows m1 m2)%Z.
Proof.
  intros H M. unfold sym_check in H. rewrite forallb_forall in H. specialize (H (m1, m2) (proj2 (in_m_pairs l m1 m2) M)). cbn [fst snd] in H.
  apply andb_true_iff in H as [H H3]. apply andb_true_iff in H as [H1 H2]. apply Z.eqb_eq in H1, H2, H3. auto.
Qed.

(** ** Accuracy *)
Fixpoint rise (l : Z) (x : nat) : Z := match x with O => 1%Z | S x => (rise l x * (l + Z.of_nat (S x)))%Z end.
Fixpoint fall (l : Z) (x : nat) : Z := match x with O => 1%Z | S x => (fall l x * (l - Z.of_nat x))%Z end.
Lemma F_S z : (0 <= z)%Z -> F (z + 1) = F z * IZR (z + 1).
Proof. intros H. unfold F. replace (Z.to_nat (z + 1)) with (S (Z.to_nat z)) by lia. rewrite fact_simpl, mult_INR, Rmult_comm, (INR_IZR_INZ (S _)). do 2 f_equal. lia. Qed.
Lemma F_rise l x : (0 <= l)%Z -> F (l + Z.of_nat x) = F l * IZR (rise l x).
Proof.
  intros H. induction x as [|x IH]; [simpl; rewrite Z.add_0_r; ring|]. cbn [rise]. rewrite mult_IZR, <- Rmult_assoc, <- IH.
  replace (l + Z.of_nat (S x))%Z with (l + Z.of_nat x + 1)%Z by lia. apply F_S. lia.
Qed.
Lemma F_fall l x : (Z.of_nat x <= l)%Z -> F l = F (l - Z.of_nat x) * IZR (fall l x).
Proof.
  intros H. induction x as [|x IH]; [simpl; rewrite Z.sub_0_r; ring|]. rewrite IH by lia. cbn [fall]. rewrite mult_IZR.
  replace (l - Z.of_nat x)%Z with (l - Z.of_nat (S x) + 1)%Z at 1 by lia. rewrite F_S by lia. replace (l - Z.of_nat (S x) + 1)%Z with (l - Z.of_nat x)%Z by lia. ring.
Qed.
Lemma fall_pos l x : (Z.of_nat x <= l)%Z -> (0 < fall l x)%Z.
Proof. induction x; intros H; cbn [fall]; [lia|]. assert (0 < fall l x)%Z by (apply IHx; lia). nia. Qed.
Lemma rise_pos l x : (0 <= l)%Z -> (0 < rise l x)%Z.
Proof. intros H. induction x; cbn [rise]; [lia|]. nia. Qed.
Definition dz (l : nat) : Z := (bz (2 * l) (Z.of_nat l) * bz (3 * l) (Z.of_nat l) * (3 * Z.of_nat l + 1))%Z.
Lemma F_dz l : F (3 * Z.of_nat l + 1) = IZR (dz l) * F (Z.of_nat l) ^ 3.
Proof.
  unfold dz. rewrite F_S by lia. assert (E2 := bz_fact (2 * l) (Z.of_nat l) ltac:(lia)). assert (E3 := bz_fact (3 * l) (Z.of_nat l) ltac:(lia)).
  replace (Z.of_nat (2 * l) - Z.of_nat l)%Z with (Z.of_nat l) in E2 by lia. replace (Z.of_nat (3 * l) - Z.of_nat l)%Z with (Z.of_nat (2 * l)) in E3 by lia.
  replace (3 * Z.of_nat l)%Z with (Z.of_nat (3 * l)) at 1 by lia. rewrite <- E3, <- E2, !mult_IZR. ring.
Qed.
Lemma G_canonical l a b : (a + b <= l)%nat ->
  let L := Z.of_nat l in
  G l (- Z.of_nat a) (- Z.of_nat b) (Z.of_nat (a + b)) = IZR (rise L a * rise L b * rise L (a + b)) / (IZR (dz l) * IZR (fall L a * fall L b * fall L (a + b))).
Proof.
  intros H L. unfold G. fold L. assert (E := F_dz l). fold L in E. rewrite E. clear E. rewrite !mult_IZR.
  assert (R1 := F_rise L a ltac:(lia)). assert (R2 := F_rise L b ltac:(lia)). assert (R3 := F_rise L (a + b) ltac:(lia)).
  assert (S1 := F_fall L a ltac:(lia)). assert (S2 := F_fall L b ltac:(lia)). assert (S3 := F_fall L (a + b) ltac:(lia)).
  assert (P1 : 0 < IZR (fall L a)) by (apply IZR_lt, fall_pos; lia). assert (P2 : 0 < IZR (fall L b)) by (apply IZR_lt, fall_pos; lia). assert (P3 : 0 < IZR (fall L (a + b))) by (apply IZR_lt, fall_pos; lia).
  replace (L + - Z.of_nat a)%Z with (L - Z.of_nat a)%Z by lia. replace (L - - Z.of_nat a)%Z with (L + Z.of_nat a)%Z by lia.
  replace (L + - Z.of_nat b)%Z with (L - Z.of_nat b)%Z by lia. replace (L - - Z.of_nat b)%Z with (L + Z.of_nat b)%Z by lia. rewrite R1, R2, R3.
  replace (F (L - Z.of_nat a)) with (F L / IZR (fall L a)) by (rewrite S1; field; lra). replace (F (L - Z.of_nat b)) with (F L / IZR (fall L b)) by (rewrite S2; field; lra).
  replace (F (L - Z.of_nat (a + b))) with (F L / IZR (fall L (a + b))) by (rewrite S3; field; lra).
  assert (D : IZR (dz l) <> 0). { intros Z0. assert (E := F_dz l). rewrite Z0, Rmult_0_l in E. apply (F_neq (3 * Z.of_nat l + 1)). exact E. }
  field. repeat split; try lra; try exact D; apply F_neq.
Qed.

Definition zsum_fast (row : list Z) (l : nat) (m1 m2 : Z) : Z :=
  let L := Z.of_nat l in zs (fun t => (sgn t * (bino row L t * bino row L (t + m1) * bino row L (t - m2)))%Z) 0 (S l).
Definition acc1 (row : list Z) (D : Z) (l : nat) (rows : list (list Z)) (a b : nat) : bool :=
  let L := Z.of_nat l in let m := entry L rows (- Z.of_nat a) (- Z.of_nat b) in
  let z := (sgn (Z.of_nat (a + b)) * zsum_fast row l (- Z.of_nat a) (- Z.of_nat b))%Z in
  let X := (m * m * (D * (fall L a * fall L b * fall L (a + b))))%Z in
  let Y := (z * z * (rise L a * rise L b * rise L (a + b)) * 10 ^ 40)%Z in
  (0 <=? z * m)%Z && (2 ^ 51 * Z.abs (X - Y) <=? Y)%Z.
Definition acc_check (l : nat) (rows : list (list Z)) : bool :=
  let row := WignerProofs.pascal l in let D := dz l in
  forallb (fun a => forallb (fun b => acc1 row D l rows a b) (seq 0 (S (Nat.min a (l - a))))) (seq 0 (S l)).
Definition near (x y : R) : Prop := Rabs (x - y) <= / 2 ^ 51 * Rabs y.
Lemma near_squares x y : 0 <= x * y -> 2 ^ 51 * Rabs (x * x - y * y) <= y * y -> near x y.
Proof.
  intros H1 H2. unfold near. set (d := 2 ^ 51) in *. assert (Hd : 1 < d) by (unfold d; lra). assert (0 < / d) by (apply Rinv_0_lt_compat; lra).
  destruct (Req_dec y 0) as [->|Hy].
  - replace (x * x - 0 * 0) with (x * x) in H2 by ring. rewrite (Rabs_pos_eq (x * x)) in H2 by nra. assert (x * x <= 0) by nra. assert (x = 0) by nra. subst. rewrite Rminus_0_r, Rabs_R0. lra.
  - assert (E : Rabs (x * x - y * y) = Rabs (x - y) * (Rabs x + Rabs y)).
    { replace (x * x - y * y) with ((x - y) * (x + y)) by ring. rewrite Rabs_mult. f_equal. unfold Rabs. repeat destruct (Rcase_abs _); nra. }
    rewrite E in H2. assert (Py := Rabs_pos_lt y Hy). assert (Px := Rabs_pos x). assert (Pd := Rabs_pos (x - y)).
    assert (Y2 : y * y = Rabs y * Rabs y) by (unfold Rabs; destruct (Rcase_abs y); ring). rewrite Y2 in H2.
    apply Rmult_le_reg_l with d; [lra|]. rewrite <- Rmult_assoc, Rinv_r, Rmult_1_l by lra.
    apply Rmult_le_reg_r with (Rabs y); [exact Py|]. eapply Rle_trans; [|exact H2]. rewrite Rmult_assoc. apply Rmult_le_compat_l; [lra|]. apply Rmult_le_compat_l; lra.
Qed.
Lemma acc_canonical l rows a b : acc_check l rows = true -> (b <= a)%nat -> (a + b <= l)%nat ->
  near (IZR (entry (Z.of_nat l) rows (- Z.of_nat a) (- Z.of_nat b)) / 10 ^ 20) (wigner l (- Z.of_nat a) (- Z.of_nat b)).
Proof.
  intros H Hb Hl. unfold acc_check in H. rewrite forallb_forall in H. specialize (H a ltac:(apply in_seq; lia)). rewrite forallb_forall in H. specialize (H b ltac:(apply in_seq; lia)).
  unfold acc1 in H. set (L := Z.of_nat l) in *. set (m := entry L rows _ _) in *. change (zsum_fast (WignerProofs.pascal l) l (- Z.of_nat a) (- Z.of_nat b)) with (zsum l (- Z.of_nat a) (- Z.of_nat b)) in H.
  rewrite wigner_zsum. replace (- Z.of_nat a + - Z.of_nat b)%Z with (- Z.of_nat (a + b))%Z by lia. rewrite sgn_opp. replace (- - Z.of_nat a - - Z.of_nat b)%Z with (Z.of_nat (a + b)) by lia.
  set (z := (sgn (Z.of_nat (a + b)) * zsum l (- Z.of_nat a) (- Z.of_nat b))%Z) in *.
  rewrite (G_canonical l a b Hl). fold L. set (N := (rise L a * rise L b * rise L (a + b))%Z) in *. set (M := (fall L a * fall L b * fall L (a + b))%Z) in *.
  apply andb_true_iff in H as [H1 H2]. apply Z.leb_le in H1, H2.
  assert (PN : 0 < IZR N). { apply IZR_lt. assert (A := rise_pos L a ltac:(lia)). assert (B := rise_pos L b ltac:(lia)). assert (C := rise_pos L (a + b) ltac:(lia)). unfold N. nia. }
  assert (PM : 0 < IZR M). { apply IZR_lt. assert (A := fall_pos L a ltac:(lia)). assert (B := fall_pos L b ltac:(lia)). assert (C := fall_pos L (a + b) ltac:(lia)). unfold M. nia. }
  assert (PD : 0 < IZR (dz l)). { assert (E := F_dz l). assert (P1 := F_pos (3 * Z.of_nat l + 1)). assert (P2 := pow_lt _ 3 (F_pos (Z.of_nat l))). destruct (Rle_lt_dec (IZR (dz l)) 0); [exfalso; nra|assumption]. }
  set (D := dz l) in *. assert (PDM : 0 < IZR D * IZR M) by nra. assert (K0 : 0 <= IZR N / (IZR D * IZR M)) by (apply Rlt_le, Rdiv_lt_0_compat; assumption).
  set (K := IZR N / (IZR D * IZR M)) in *. assert (T : 0 < 10 ^ 20) by lra.
  apply near_squares.
  - replace (IZR m / 10 ^ 20 * (IZR z * sqrt K)) with (IZR (z * m) * (sqrt K / 10 ^ 20)) by (rewrite mult_IZR; field; lra).
    apply Rmult_le_pos; [now apply IZR_le|]. apply Rmult_le_pos; [apply sqrt_pos|]. apply Rlt_le, Rinv_0_lt_compat, T.
  - replace (IZR z * sqrt K * (IZR z * sqrt K)) with (IZR z * IZR z * (sqrt K * sqrt K)) by ring. rewrite sqrt_sqrt by exact K0.
    apply IZR_le in H2. rewrite mult_IZR, abs_IZR, minus_IZR, !mult_IZR in H2. 
    replace (IZR (2 ^ 51)) with (2 ^ 51) in H2 by (rewrite (pow_IZR 2 51); reflexivity).
    replace (IZR (10 ^ 40)) with (10 ^ 20 * 10 ^ 20) in H2 by (rewrite <- pow_add; change (20 + 20)%nat with 40%nat; rewrite (pow_IZR 10 40); reflexivity).
    set (c := 10 ^ 20) in *. set (dM := IZR D * IZR M) in *. assert (PC : 0 < c * c * dM) by (apply Rmult_lt_0_compat; [apply Rmult_lt_0_compat|]; assumption).
    replace (IZR m / c * (IZR m / c) - IZR z * IZR z * K) with ((IZR m * IZR m * dM - IZR z * IZR z * IZR N * (c * c)) * / (c * c * dM)) by (unfold K; field; split; lra).
    rewrite Rabs_mult, (Rabs_pos_eq (/ _)) by (apply Rlt_le, Rinv_0_lt_compat, PC).
    replace (IZR z * IZR z * K) with (IZR z * IZR z * IZR N * (c * c) * / (c * c * dM)) by (unfold K; field; split; lra).
    rewrite <- Rmult_assoc. apply Rmult_le_compat_r; [apply Rlt_le, Rinv_0_lt_compat, PC|]. exact H2.
Qed.

Lemma near_sign s x y : (s = 1 \/ s = -1) -> near x y -> near (s * x) (s * y).
Proof. unfold near. intros H N. rewrite <- Rmult_minus_distr_l, !Rabs_mult. replace (Rabs s) with 1; [lra|]. destruct H as [-> | ->]; [rewrite Rabs_R1|rewrite Rabs_left by lra]; lra. Qed.
Lemma parity_cases z : parity z = 1 \/ parity z = -1. Proof. unfold parity. destruct (Z.even z); auto. Qed.
Definition accurate (l : nat) (rows : list (list Z)) (m1 m2 : Z) : Prop := near (IZR (entry (Z.of_nat l) rows m1 m2) / 10 ^ 20) (wigner l m1 m2).
Section all.
Context (l : nat) (rows : list (list Z)) (HS : sym_check (Z.of_nat l) rows = true) (HA : acc_check l rows = true).
Lemma acc_move m1 m2 n1 n2 : entry (Z.of_nat l) rows n1 n2 = (sgn (Z.of_nat l) * entry (Z.of_nat l) rows m1 m2)%Z -> wigner l n1 n2 = parity (Z.of_nat l) * wigner l m1 m2 ->
  accurate l rows m1 m2 -> accurate l rows n1 n2.
Proof.
  unfold accurate. intros E W H. rewrite E, W, mult_IZR, <- parity_sgn. unfold Rdiv. rewrite Rmult_assoc. apply near_sign; [apply parity_cases|exact H].
Qed.
Lemma acc_swap m1 m2 : m_ok (Z.of_nat l) m1 m2 -> accurate l rows m1 m2 -> accurate l rows m2 m1.
Proof. intros M. apply acc_move; [apply (sym_table _ rows m1 m2 HS M)|apply wigner_swap]. Qed.
Lemma acc_turn m1 m2 : m_ok (Z.of_nat l) m1 m2 -> accurate l rows m1 m2 -> accurate l rows m1 (- m1 - m2).
Proof. intros M. apply acc_move; [apply (sym_table _ rows m1 m2 HS M)|apply wigner_turn]. Qed.
Lemma acc_neg m1 m2 : m_ok (Z.of_nat l) m1 m2 -> accurate l rows m1 m2 -> accurate l rows (- m1) (- m2).
Proof. intros M. apply acc_move; [apply (sym_table _ rows m1 m2 HS M)|apply wigner_neg]. Qed.
(** Both at most 0. *)
Lemma acc_low m1 m2 : (m1 <= 0)%Z -> (m2 <= 0)%Z -> m_ok (Z.of_nat l) m1 m2 -> accurate l rows m1 m2.
Proof.
  assert (G : forall m1 m2, (m1 <= m2 <= 0)%Z -> m_ok (Z.of_nat l) m1 m2 -> accurate l rows m1 m2).
  { intros n1 n2 H M. unfold m_ok in M. replace n1 with (- Z.of_nat (Z.to_nat (- n1)))%Z by lia. replace n2 with (- Z.of_nat (Z.to_nat (- n2)))%Z by lia. apply acc_canonical; [exact HA| |]; lia. }
  intros H1 H2 M. destruct (Z_le_dec m1 m2); [apply G; [lia|exact M]|]. apply acc_swap; [unfold m_ok in *; lia|]. apply G; unfold m_ok in *; lia.
Qed.
Lemma acc_two m1 m2 : ((m1 <= 0 /\ m2 <= 0) \/ (0 <= m1 /\ 0 <= m2))%Z -> m_ok (Z.of_nat l) m1 m2 -> accurate l rows m1 m2.
Proof.
  intros [[A B]|[A B]] M; [now apply acc_low|]. replace m1 with (- - m1)%Z by lia. replace m2 with (- - m2)%Z by lia. apply acc_neg; [unfold m_ok in *; lia|]. apply acc_low; unfold m_ok in *; lia.
Qed.
Lemma acc_all m1 m2 : m_ok (Z.of_nat l) m1 m2 -> accurate l rows m1 m2.
Proof.
  intros M. assert (M' := M). unfold m_ok in M'.
  destruct (Z_le_dec m1 0), (Z_le_dec m2 0); try (apply acc_two; [lia|exact M]).
  - (* m1 <= 0 < m2 *) destruct (Z_le_dec (- m1 - m2) 0).
    + replace m2 with (- m1 - (- m1 - m2))%Z by lia. apply acc_turn; [unfold m_ok; lia|]. apply acc_two; [lia|unfold m_ok; lia].
    + apply acc_swap; [unfold m_ok; lia|]. replace m1 with (- m2 - (- m2 - m1))%Z by lia. apply acc_turn; [unfold m_ok; lia|]. apply acc_two; [lia|unfold m_ok; lia].
  - (* m2 <= 0 < m1 *) destruct (Z_le_dec (- m1 - m2) 0).
    + apply acc_swap; [unfold m_ok; lia|]. replace m1 with (- m2 - (- m2 - m1))%Z by lia. apply acc_turn; [unfold m_ok; lia|]. apply acc_two; [lia|unfold m_ok; lia].
    + replace m2 with (- m1 - (- m1 - m2))%Z by lia. apply acc_turn; [unfold m_ok; lia|]. apply acc_two; [lia|unfold m_ok; lia].
Qed.
End all.
