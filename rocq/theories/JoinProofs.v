(** Sums over bins, for C93. *)
From Coq Require Import Reals ZArith List Permutation Lia Lra.
From Verif Require Import HistProofs HistProps PmftProofs PmftProps BoxProofs ExchProofs ExchProps2.
From Verif Require Import JoinSpec.
From Verif Require Import HistSpec PmftSpec.
Import ListNotations.
Local Open Scope R_scope.

Definition b2n (b : bool) : nat := if b then 1%nat else 0%nat.
Definition nsum (f : nat -> nat) (n : nat) : nat := list_sum (map f (seq 0 n)).
Definition cnt {A} (P : A -> bool) (l : list A) : nat := length (filter P l).
Lemma list_sum_app l l' : list_sum (l ++ l') = (list_sum l + list_sum l')%nat.
Proof. unfold list_sum. induction l; simpl; lia. Qed.
Lemma nsum_S f n : nsum f (S n) = (nsum f n + f n)%nat.
Proof. unfold nsum. rewrite seq_S, map_app, list_sum_app. simpl. lia. Qed.
Lemma nsum_add f g n : nsum (fun i => f i + g i)%nat n = (nsum f n + nsum g n)%nat.
Proof. induction n as [|n IH]; auto. rewrite !nsum_S, IH. lia. Qed.
Lemma nsum_ext f g n : (forall i, (i < n)%nat -> f i = g i) -> nsum f n = nsum g n.
Proof. intros H. induction n as [|n IH]; auto. rewrite !nsum_S, IH, H; auto. Qed.
Lemma nsum_le f n i : (i < n)%nat -> (f i <= nsum f n)%nat.
Proof. induction n as [|n IH]; [lia|]. rewrite nsum_S. intros H. destruct (Nat.eq_dec i n) as [-> |]; [lia|]. assert (i < n)%nat by lia. specialize (IH H0). lia. Qed.
Lemma nsum_0 n : nsum (fun _ => 0%nat) n = 0%nat.
Proof. induction n as [|n IH]; auto. rewrite nsum_S, IH. reflexivity. Qed.
Lemma total_S g n : total g (S n) = total g n + g n.
Proof.
  unfold total. rewrite seq_S, map_app. simpl. generalize (map g (seq 0 n)). induction l as [|x l IH]; simpl; [ring|]. rewrite IH. ring.
Qed.
Lemma total_INR f n : total (fun i => INR (f i)) n = INR (nsum f n).
Proof. induction n as [|n IH]; auto. rewrite total_S, nsum_S, plus_INR, IH. reflexivity. Qed.
Lemma total_ext g h n : (forall i, (i < n)%nat -> g i = h i) -> total g n = total h n.
Proof. intros H. induction n as [|n IH]; auto. rewrite !total_S, IH, H; auto. Qed.
Lemma total_scale g c n : total (fun i => g i * c) n = total g n * c.
Proof. induction n as [|n IH]; [unfold total; simpl; ring|]. rewrite !total_S, IH. ring. Qed.
(** Elements counted by the group they fall in. *)
Lemma fiber {A} (P : A -> bool) (Q : nat -> A -> bool) n L : (forall x, In x L -> nsum (fun j => b2n (Q j x)) n = b2n (P x)) -> nsum (fun j => cnt (Q j) L) n = cnt P L.
Proof.
  intros H. induction L as [|x L IH].
  - unfold cnt. simpl. apply nsum_0.
  - transitivity (nsum (fun j => b2n (Q j x) + cnt (Q j) L)%nat n); [apply nsum_ext; intros i _; unfold cnt; simpl; destruct (Q i x); reflexivity|].
    rewrite nsum_add, IH by (intros y Hy; apply H; right; auto). rewrite H by (left; auto). unfold cnt. simpl. destruct (P x); reflexivity.
Qed.
(** Consecutive bins tile their range. *)
Definition binb (a : axis) (i : Z) (v : R) : bool := Rleb (interval_lo a i) v && Rltb v (interval_lo a (i + 1)).
Lemma tile a v : (0 < ax_n a)%Z -> ax_min a <= ax_max a -> forall n, nsum (fun i => b2n (binb a (Z.of_nat i) v)) n = b2n (Rleb (ax_min a) v && Rltb v (interval_lo a (Z.of_nat n))).
Proof.
  intros N M. set (w := (ax_max a - ax_min a) / IZR (ax_n a)). assert (W : 0 <= w) by (apply Rmult_le_pos; [lra|left; apply Rinv_0_lt_compat, IZR_lt; auto]).
  induction n as [|n IH].
  - unfold nsum. simpl. unfold interval_lo. rewrite Rmult_0_l, Rplus_0_r. destruct (Rleb_spec (ax_min a) v), (Rltb_spec v (ax_min a)); simpl; auto; lra.
  - rewrite nsum_S, IH. unfold binb. replace (Z.of_nat n + 1)%Z with (Z.of_nat (S n)) by lia.
    assert (L0 : ax_min a <= interval_lo a (Z.of_nat n)). { unfold interval_lo. fold w. assert (0 <= IZR (Z.of_nat n) * w) by (apply Rmult_le_pos; auto; apply IZR_le; lia). lra. }
    assert (L1 : interval_lo a (Z.of_nat n) <= interval_lo a (Z.of_nat (S n))). { unfold interval_lo. fold w. rewrite Nat2Z.inj_succ, succ_IZR. lra. }
    destruct (Rleb_spec (ax_min a) v), (Rltb_spec v (interval_lo a (Z.of_nat n))), (Rleb_spec (interval_lo a (Z.of_nat n)) v), (Rltb_spec v (interval_lo a (Z.of_nat (S n)))); simpl; auto; exfalso; lra.
Qed.
Lemma one_bin a v : (0 < ax_n a)%Z -> ax_min a <= v < ax_max a -> nsum (fun i => b2n (binb a (Z.of_nat i) v)) (Z.to_nat (ax_n a)) = 1%nat.
Proof.
  intros N V. rewrite tile by (auto; lra). rewrite Z2Nat.id by lia. assert (E : interval_lo a (ax_n a) = ax_max a). { unfold interval_lo. field. apply IZR_neq. lia. }
  rewrite E. destruct (Rleb_spec (ax_min a) v), (Rltb_spec v (ax_max a)); simpl; auto; exfalso; lra.
Qed.
Lemma cell3 a b c i j k x y z : in_cellb [a; b; c] [i; j; k] [x; y; z] = binb a i x && binb b j y && binb c k z.
Proof. unfold in_cellb, binb. cbn [length combine forallb Nat.eqb andb]. rewrite andb_true_r, !andb_assoc. reflexivity. Qed.
Lemma cell2 a b i j x y : in_cellb [a; b] [i; j] [x; y] = binb a i x && binb b j y.
Proof. unfold in_cellb, binb. cbn [length combine forallb Nat.eqb andb]. rewrite andb_true_r, !andb_assoc. reflexivity. Qed.
Lemma last_tile a b c i j L : (0 < ax_n c)%Z -> (forall l, In l L -> exists x y z, l = [x; y; z] /\ ax_min c <= z < ax_max c) ->
  nsum (fun k => cnt (in_cellb [a; b; c] [i; j; Z.of_nat k]) L) (Z.to_nat (ax_n c)) = cnt (fun l => binb a i (nth 0 l 0) && binb b j (nth 1 l 0)) L.
Proof.
  intros N H. apply fiber. intros l Hl. destruct (H l Hl) as (x & y & z & -> & Hz). cbn [nth].
  transitivity (nsum (fun k => b2n (binb a i x && binb b j y && binb c (Z.of_nat k) z)) (Z.to_nat (ax_n c))); [apply nsum_ext; intros k _; rewrite cell3; reflexivity|].
  destruct (binb a i x && binb b j y); [|simpl; apply nsum_0]. cbn [andb b2n]. apply one_bin; auto.
Qed.
Lemma two_tile a b c i L : (0 < ax_n b)%Z -> (0 < ax_n c)%Z -> (forall l, In l L -> exists x y z, l = [x; y; z] /\ ax_min b <= y < ax_max b /\ ax_min c <= z < ax_max c) ->
  nsum (fun j => nsum (fun k => cnt (in_cellb [a; b; c] [i; Z.of_nat j; Z.of_nat k]) L) (Z.to_nat (ax_n c))) (Z.to_nat (ax_n b)) = cnt (fun l => binb a i (nth 0 l 0)) L.
Proof.
  intros N N' H. transitivity (nsum (fun j => cnt (fun l => binb a i (nth 0 l 0) && binb b (Z.of_nat j) (nth 1 l 0)) L) (Z.to_nat (ax_n b))).
  - apply nsum_ext. intros j _. apply last_tile; auto. intros l Hl. destruct (H l Hl) as (x & y & z & E & _ & Hz). eauto.
  - apply fiber. intros l Hl. destruct (H l Hl) as (x & y & z & -> & Hy & _). cbn [nth].
    destruct (binb a i x); [|simpl; apply nsum_0]. cbn [andb b2n]. apply one_bin; auto.
Qed.

(** * Frames *)
Lemma calls_from h : forall acc f, In f (calls h acc) -> In f acc \/ exists re, In (PCompute re f) h.
Proof.
  induction h as [|o h IH]; intros acc f H; simpl in H; auto. destruct o as [[|] g|ev]; apply IH in H as [H|[re H]]; auto; try (right; exists re; right; auto; fail).
  - destruct H as [<-|[]]. right. exists true. left. auto.
  - apply in_app_or in H as [H|[<-|[]]]; auto. right. exists false. left. auto.
Qed.
Lemma frame_ok k size h f : Forall (pop_ok size) h -> In f (frames k h) -> shaped k f = true /\ bonds_ok f.
Proof.
  intros H F. unfold frames in F. apply filter_In in F as [F C]. unfold counted in C. apply andb_prop in C as [C _]. apply andb_prop in C as [C _]. split; auto.
  apply calls_from in F as [[]|[re F]]. rewrite Forall_forall in H. apply (H _ F).
Qed.
Lemma defined_ok' k f : shaped k f = true -> bonds_ok f -> forall x, In x (pin_bonds f) -> exists l, pm_sample k f x = Some l.
Proof.
  intros S B x H. assert (D := defined_ok k (pm_new k (repeat (Axis 1 0 1) (match k with XY => 2 | _ => 3 end)) (fun _ => 0)) eq_refl ltac:(destruct k; reflexivity) f S B). unfold pm_defined in D. rewrite forallb_forall in D. unfold pin_bonds in H. apply in_flat_map in H as (i & Hi & H).
  specialize (D i Hi). rewrite forallb_forall in D. specialize (D x H). destruct (pm_sample k f x); eauto. discriminate.
Qed.
(** All points a frame adds. *)
Definition adds (k : pkind) (f : pin) : list (list R) := flat_map (fun x => match pm_sample k f x with Some l => l | None => [] end) (pin_bonds f).
Lemma points_cnt k axes idx fs : points_in k axes idx fs = cnt (in_cellb axes idx) (flat_map (adds k) fs).
Proof.
  unfold points_in, cnt. f_equal. f_equal. apply flat_map_ext. intros f. unfold adds, pin_bonds. generalize (range 0 (pf_n f)).
  induction l as [|n l IH]; simpl; auto. rewrite flat_map_app, IH. reflexivity.
Qed.
Lemma cnt_app {A} (P : A -> bool) l l' : cnt P (l ++ l') = (cnt P l + cnt P l')%nat.
Proof. unfold cnt. rewrite filter_app, app_length. reflexivity. Qed.
Lemma cnt_perm {A} (P : A -> bool) l l' : Permutation l l' -> cnt P l = cnt P l'.
Proof. intros H. unfold cnt. induction H as [|x l l' _ IH|x y l|l m n _ IH _ IH']; simpl; auto; [destruct (P x); simpl; auto|destruct (P x), (P y); auto|congruence]. Qed.
