From Verif Require Import ParModel.

Lemma range_app b m e : b <= m <= e -> range b m ++ range m e = range b e.
Proof.
  intros H. unfold range. replace (e - b) with ((m - b) + (e - m)) by lia.
  rewrite seq_app. f_equal. f_equal. lia.
Qed.

Lemma splits_range b e cs : splits b e cs -> flat_map (fun c => range (fst c) (snd c)) cs = range b e.
Proof.
  induction 1 as [b e H|b m e l r H1 H2 Hl IHl Hr IHr]; simpl; [apply app_nil_r|].
  rewrite flat_map_app, IHl, IHr. apply range_app. lia.
Qed.

Lemma chunking_range b e cs : chunking b e cs -> flat_map (fun c => range (fst c) (snd c)) cs = range b e.
Proof.
  unfold chunking. destruct (Nat.leb_spec e b).
  - intros ->. unfold range. replace (e - b) with 0 by lia. reflexivity.
  - apply splits_range.
Qed.

(** Every index of the range is executed exactly once. *)
Lemma execution_perm b e ev : execution b e ev -> Permutation (map snd ev) (range b e).
Proof. intros (cs & Hc & HP). rewrite <- (chunking_range b e cs Hc). exact HP. Qed.

(** Chunks have the claimed order and bounds. *)
Lemma splits_bounds b e cs : splits b e cs -> forall c, In c cs -> b <= fst c < snd c /\ snd c <= e.
Proof.
  induction 1 as [b e H|b m e l r H1 H2 Hl IHl Hr IHr]; intros c Hc.
  - destruct Hc as [<-|[]]; simpl; lia.
  - apply in_app_or in Hc as [Hc|Hc]; [apply IHl in Hc|apply IHr in Hc]; lia.
Qed.

Lemma sequential_execution b e t : execution b e (map (fun i => (t, i)) (range b e)).
Proof.
  destruct (Nat.leb_spec e b) as [H|H].
  - exists []. split; [unfold chunking; destruct (Nat.leb_spec e b); [reflexivity|lia]|].
    unfold range. replace (e - b) with 0 by lia. constructor.
  - exists [(b, e)]. split; [unfold chunking; destruct (Nat.leb_spec e b); [lia|constructor; auto]|].
    simpl. rewrite app_nil_r, map_map. simpl. rewrite map_id. reflexivity.
Qed.

(** ** Sums in a commutative structure: associativity, commutativity and a unit. *)
Section Sum.
  Context {T : Type} (z : T) (op : T -> T -> T).
  Definition total (l : list T) : T := fold_left op l z.
  Hypothesis assoc : forall a b c, op a (op b c) = op (op a b) c.
  Hypothesis comm : forall a b, op a b = op b a.
  Hypothesis unit : forall a, op z a = a.

  Lemma fold_op_acc l : forall a b, fold_left op l (op a b) = op a (fold_left op l b).
  Proof. induction l as [|x l IH]; intros a b; simpl; auto. rewrite <- assoc. apply IH. Qed.

  Lemma fold_op_perm l l' : Permutation l l' -> forall a, fold_left op l a = fold_left op l' a.
  Proof.
    induction 1; intros a; simpl; auto.
    - rewrite <- !assoc. rewrite (comm y x). reflexivity.
    - rewrite IHPermutation1. auto.
  Qed.

  Lemma total_perm l l' : Permutation l l' -> total l = total l'.
  Proof. intros H. apply fold_op_perm; auto. Qed.

  Lemma fold_total l a : fold_left op l a = op a (total l).
  Proof. unfold total. rewrite <- fold_op_acc. rewrite (comm a z), unit. reflexivity. Qed.

  Lemma total_app l l' : total (l ++ l') = op (total l) (total l').
  Proof. unfold total at 1. rewrite fold_left_app. apply fold_total. Qed.

  Lemma total_cons a l : total (a :: l) = op a (total l).
  Proof. unfold total at 1. simpl. rewrite unit. apply fold_total. Qed.

  Lemma total_one a : total [a] = a.
  Proof. unfold total; simpl. apply unit. Qed.

  Lemma total_concat ll : total (map total ll) = total (concat ll).
  Proof.
    induction ll as [|l ll IH]; simpl; auto. rewrite total_cons, total_app, IH. reflexivity.
  Qed.
End Sum.
Arguments total : simpl never.
