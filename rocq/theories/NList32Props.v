(** C21 with the arithmetic of unsigned int. *)
From Coq Require Import ZArith Lia List.
From Verif Require Import MArrayProofs NListProofs NListProofs2 NListProps ParProofs.
From Verif Require Import NList32Model.
Import ListNotations.
Open Scope Z_scope.

Lemma u32_small z : 0 <= z < 2 ^ 32 -> u32 z = z.
Proof. intros H. unfold u32. apply Z.mod_small. lia. Qed.
Lemma u32_range z : 0 <= u32 z < 2 ^ 32.
Proof. unfold u32. apply Z.mod_pos_bound. reflexivity. Qed.
Lemma u32_sub_l a c : u32 (u32 a - c) = u32 (a - c).
Proof. unfold u32. apply Zminus_mod_idemp_l. Qed.
Lemma u32_add_l a c : u32 (u32 a + c) = u32 (a + c).
Proof. unfold u32. apply Zplus_mod_idemp_l. Qed.
Lemma u32_u32 a : u32 (u32 a) = u32 a.
Proof. unfold u32. apply Zmod_mod. Qed.

(** The offset of a row is the exact one modulo 2^32. *)
Lemma min_le_mul i np : (Nat.min i np <= i * np)%nat.
Proof. destruct np; [lia|]. nia. Qed.
Lemma offset32 np i excl : ap_offset32 (Z.of_nat np) (Z.of_nat i) excl = u32 (Z.of_nat (ap_offset np i excl)).
Proof.
  unfold ap_offset32, ap_offset. cbv zeta. assert (H := min_le_mul i np). destruct excl.
  - rewrite u32_sub_l. f_equal. rewrite Nat2Z.inj_sub, Nat2Z.inj_mul, Nat2Z.inj_min by lia. reflexivity.
  - rewrite Nat.sub_0_r, Nat2Z.inj_mul. reflexivity.
Qed.
Lemma offset_mono np excl i j : (i <= j)%nat -> (ap_offset np i excl <= ap_offset np j excl)%nat.
Proof. induction 1; [lia|]. rewrite ap_offset_S. lia. Qed.
(** Every number below the total is an index in one of the rows. *)
Lemma find_row np excl s n : (s < ap_offset np n excl)%nat -> exists i, (i < n)%nat /\ (ap_offset np i excl <= s < ap_offset np (S i) excl)%nat.
Proof.
  induction n as [|n IH]; intros H; [unfold ap_offset in H; destruct excl; cbn in H; lia|].
  destruct (Nat.lt_ge_cases s (ap_offset np n excl)) as [L|L]; [|exists n; lia]. destruct (IH L) as (i & Hi & Hs). exists i. split; [lia|auto].
Qed.

Section Rows.
Variables (b : box) (points qpoints : list vec3) (excl : bool).
Let kept i js := length (filter (keep excl i) js).
(** No index of the row reaches 2^32: the loop is the exact one. *)
Lemma inner_same i : forall js idx arr, Z.of_nat idx + Z.of_nat (kept i js) < 2 ^ 32 ->
  ap_inner32 b points (nth i qpoints v0) i excl js (Z.of_nat idx) arr = ap_inner b points (nth i qpoints v0) i excl js idx arr.
Proof.
  unfold kept. induction js as [|j js IH]; intros idx arr H; [reflexivity|]. cbn [ap_inner32 ap_inner]. cbn [filter] in H. unfold keep at 1 in H.
  destruct (excl && (i =? j)%nat)%bool; cbn [negb] in H; [apply IH; auto|]. cbn [length] in H. rewrite Nat2Z.id. cbv zeta.
  destruct (wr _ _ _); [|reflexivity]. rewrite u32_small by lia. replace (Z.of_nat idx + 1) with (Z.of_nat (S idx)) by lia. apply IH. lia.
Qed.
(** A row that does not raise has written all its indices inside the array. *)
Lemma inner_inside i : forall js idx arr arr', 0 <= idx < 2 ^ 32 -> ap_inner32 b points (nth i qpoints v0) i excl js idx arr = Some arr' ->
  length arr' = length arr /\ forall k, (k < kept i js)%nat -> u32 (idx + Z.of_nat k) < Z.of_nat (length arr).
Proof.
  unfold kept. induction js as [|j js IH]; intros idx arr arr' R H; [cbn in H; injection H as <-; split; auto; cbn; lia|].
  cbn [ap_inner32] in H. cbn [filter]. unfold keep at 1. destruct (excl && (i =? j)%nat)%bool; cbn [negb]; [apply IH; auto|]. cbv zeta in H.
  unfold wr in H. destruct (Nat.ltb_spec (Z.to_nat idx) (length arr)) as [L|]; [|discriminate]. apply IH in H as [HL HK]; [|apply u32_range]. rewrite upd_length in HL, HK. split; auto.
  intros [|k] Hk.
  - rewrite Z.add_0_r, u32_small by lia. lia.
  - cbn [length] in Hk. specialize (HK k ltac:(lia)). rewrite u32_add_l in HK. replace (idx + Z.of_nat (S k)) with (idx + 1 + Z.of_nat k) by lia. auto.
Qed.
End Rows.

Lemma kept_row (points : list vec3) excl i : length (filter (keep excl i) (range 0 (length points))) = row_len (length points) excl i.
Proof. unfold range. rewrite Nat.sub_0_r, keep_len. cbn. rewrite andb_true_r. reflexivity. Qed.

(** The number of pairs. *)
Definition number_of_pairs (np nq : nat) (excl : bool) : Z := Z.of_nat np * Z.of_nat nq - (if excl then Z.of_nat (Nat.min np nq) else 0).
Lemma total np nq excl : number_of_pairs np nq excl = Z.of_nat (ap_offset np nq excl).
Proof.
  unfold number_of_pairs, ap_offset. assert (H := min_le_mul nq np). destruct excl.
  - rewrite Nat2Z.inj_sub, Nat2Z.inj_mul by lia. rewrite (Nat.min_comm np nq). lia.
  - rewrite Nat.sub_0_r, Nat2Z.inj_mul. lia.
Qed.

(** In machine arithmetic all_pairs is the exact list as long as there are fewer than 2^32 pairs, and raises an exception otherwise:
    there is never a list with some of the pairs only. *)
Theorem C21_machine (b : box) (points qpoints : list vec3) (excl : bool) (ev : list (nat * nat)) :
  Z.of_nat (length points) < 2 ^ 32 -> Z.of_nat (length qpoints) < 2 ^ 32 -> execution 0 (length qpoints) ev ->
  all_pairs32 b points qpoints excl ev =
  if number_of_pairs (length points) (length qpoints) excl <? 2 ^ 32 then all_pairs b points qpoints excl ev else None.
Proof.
  intros HP HQ HE. unfold all_pairs32. rewrite (u32_small (Z.of_nat (length points))), (u32_small (Z.of_nat (length qpoints))) by lia. cbv zeta. rewrite !Nat2Z.id.
  set (np := length points) in *. set (nq := length qpoints) in *. assert (T := total np nq excl).
  assert (EN : u32 (u32 (Z.of_nat np * Z.of_nat nq) - (if excl then Z.min (Z.of_nat np) (Z.of_nat nq) else 0)) = u32 (number_of_pairs np nq excl)).
  { rewrite u32_sub_l. unfold number_of_pairs. destruct excl; rewrite ?Nat2Z.inj_min; reflexivity. }
  rewrite EN. clear EN. assert (P := execution_perm _ _ _ HE). unfold range in P. rewrite Nat.sub_0_r in P.
  destruct (Z.ltb_spec (number_of_pairs np nq excl) (2 ^ 32)) as [L|L].
  - rewrite u32_small by lia. unfold all_pairs. fold np nq. f_equal.
    replace (Z.to_nat (number_of_pairs np nq excl)) with (np * nq - (if excl then Nat.min np nq else 0))%nat
      by (rewrite T; rewrite Nat2Z.id; unfold ap_offset; rewrite (Nat.mul_comm nq np), (Nat.min_comm nq np); reflexivity).
    assert (I : forall e, In e ev -> (snd e < nq)%nat).
    { intros e He. apply (in_map snd) in He. apply (Permutation_in _ P), in_seq in He. lia. }
    clear P HE. generalize (Some (repeat bond0 (np * nq - (if excl then Nat.min np nq else 0))%nat)). induction ev as [|e ev IH]; intros o; [reflexivity|]. cbn [fold_left].
    rewrite IH by (intros; apply I; right; auto). f_equal. destruct o as [a|]; [|reflexivity]. specialize (I e (or_introl eq_refl)).
    assert (M := offset_mono np excl (S (snd e)) nq I). rewrite ap_offset_S in M.
    rewrite offset32, u32_small by lia. apply inner_same. unfold np. rewrite kept_row. fold np. lia.
  - set (s := Z.to_nat (u32 (number_of_pairs np nq excl))). assert (R := u32_range (number_of_pairs np nq excl)).
    destruct (find_row np excl s nq) as (i & Hi & Hs); [unfold s; lia|].
    assert (In i (map snd ev)) as Hin by (apply (Permutation_in _ (Permutation_sym P)), in_seq; lia). apply in_map_iff in Hin as (e & Ei & He).
    match goal with |- option_map _ (fold_left ?f ev _) = None => set (F := f) end.
    enough (G : forall ev a, length a = s -> In e ev -> fold_left F ev (Some a) = None) by (rewrite G; auto; apply repeat_length).
    assert (N : forall ev, fold_left F ev None = None) by (induction ev0; auto).
    clear - N Hs Ei R. induction ev as [|e' ev IH]; intros a La He; [destruct He|destruct He as [E|E]; cbn [fold_left]].
    + subst e'. assert (X : F (Some a) e = None); [|rewrite X; apply N]. unfold F. rewrite Ei, offset32. set (o := Z.of_nat (ap_offset np i excl)) in *.
      destruct (ap_inner32 b points (nth i qpoints v0) i excl (range 0 np) (u32 o) a) as [a'|] eqn:H; [|reflexivity]. exfalso.
      apply inner_inside in H as [_ K]; [|apply u32_range]. unfold np in K at 1. rewrite kept_row in K. fold np in K. rewrite ap_offset_S in Hs.
      specialize (K (s - ap_offset np i excl)%nat ltac:(lia)). rewrite u32_add_l in K. replace (o + Z.of_nat (s - ap_offset np i excl)) with (Z.of_nat s) in K by (unfold o; lia).
      rewrite u32_small in K by (unfold s; lia). lia.
    + destruct (F (Some a) e') as [a'|] eqn:H; [|apply N]. apply IH; auto. unfold F in H. apply inner_inside in H as [K _]; [congruence|].
      unfold ap_offset32. cbv zeta. destruct excl; apply u32_range.
Qed.
Print Assumptions C21_machine.
(** 65536 points are the most of which all pairs can be listed; 65537 are refused. *)
Example C21_machine_case : let n := Z.to_nat 65536 in number_of_pairs n n true < 2 ^ 32 /\ 2 ^ 32 <= number_of_pairs (S n) (S n) true.
Proof. cbv zeta. unfold number_of_pairs. rewrite !Nat.min_id, Nat2Z.inj_succ, Z2Nat.id by lia. lia. Qed.
