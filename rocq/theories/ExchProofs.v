(** Proofs about bonds seen from the other side. *)
From Coq Require Import Reals ZArith List Permutation Lia Lra Psatz.
From Verif Require Import BoxProofs AABBProofs2 AABBProps QueryProps SymmProofs SymmProps SuperProofs.
From Verif Require Import ExchSpec.
From Verif Require Import BoxSpec QuerySpec.
Import ListNotations.
Local Open Scope R_scope.

Lemma turned_twice x : turned (turned x) = x.
Proof. destruct x as [q p d w [x y z]]. unfold turned, vneg. cbn. rewrite !Ropp_involutive. reflexivity. Qed.
Lemma turned_inj x y : turned x = turned y -> x = y.
Proof. intros E. rewrite <- (turned_twice x), <- (turned_twice y), E. reflexivity. Qed.
Lemma norm_neg v : norm (- v)%V = norm v.
Proof. unfold norm, dot. f_equal. simpl. ring. Qed.
Lemma allowed_neg b i j k : allowed b i j k -> allowed b (- i) (- j) (- k).
Proof. intros (A & B & C & D). repeat split; intros H; [rewrite A by auto|rewrite B by auto|rewrite C by auto|rewrite D by auto]; reflexivity. Qed.
Lemma sep_turned b points qs i j i1 i2 i3 : sep b qs (nth j points v0) i (- i1) (- i2) (- i3) = (- sep b points (nth i qs v0) j i1 i2 i3)%V.
Proof. unfold sep, shift, comb. rewrite !opp_IZR. vec_ext; ring. Qed.
(** A bond is in range from one side exactly if it is from the other. *)
Lemma range_turned b points qs i r rm excl x : (i < length qs)%nat -> in_range b points (nth i qs v0) i r rm excl all_images x ->
  (bp x < length points)%nat /\ bq x = i /\ in_range b qs (nth (bp x) points v0) (bp x) r rm excl all_images (turned x).
Proof.
  intros Hi (j & i1 & i2 & i3 & Hj & HA & _ & HE & HR & ->). cbn [bp bq]. split; auto. split; auto.
  exists i, (- i1)%Z, (- i2)%Z, (- i3)%Z. rewrite sep_turned, norm_neg. split; auto. split; [apply allowed_neg; auto|]. split; [exact I|]. split; [intros [X Y]; apply HE; auto|]. split; auto.
Qed.

Lemma concat_nth {A} (ls : list (list A)) x : In x (concat ls) <-> exists i, (i < length ls)%nat /\ In x (nth i ls []).
Proof.
  rewrite in_concat. split.
  - intros (l & Hl & Hx). apply (In_nth _ _ []) in Hl as (i & Hi & <-). eauto.
  - intros (i & Hi & Hx). exists (nth i ls []). split; auto. apply nth_In; auto.
Qed.
Lemma concat_seq {A} (ls : list (list A)) : concat ls = flat_map (fun i => nth i ls []) (seq 0 (length ls)).
Proof.
  induction ls as [|l ls IH]; auto. cbn [concat length seq flat_map nth]. f_equal. rewrite IH. rewrite <- seq_shift, flat_map_map'. reflexivity.
Qed.
(** The lists of all query points together have no bond twice. *)
Lemma concat_nodup (ls : list (list bond)) : (forall i, (i < length ls)%nat -> NoDup (nth i ls []) /\ forall x, In x (nth i ls []) -> bq x = i) -> NoDup (concat ls).
Proof.
  intros H. rewrite concat_seq. assert (G : forall s, NoDup s -> (forall i, In i s -> (i < length ls)%nat) -> NoDup (flat_map (fun i => nth i ls []) s)).
  { induction 1 as [|i s N1 N2 IH]; intros B; simpl; [constructor|]. apply nodup_app.
    - apply H, B. simpl; auto.
    - apply IH. intros; apply B; simpl; auto.
    - intros x Hx K. apply in_flat_map in K as (k & Hk & K). apply N1. rewrite <- (proj2 (H i (B i (or_introl eq_refl))) x Hx). rewrite (proj2 (H k (B k (or_intror Hk))) x K). auto. }
  apply G; [apply seq_NoDup|]. intros i Hi. apply in_seq in Hi. lia.
Qed.

(** Sums and counts. *)
Lemma exchanged_sym ls ls' : exchanged ls ls' -> exchanged ls' ls.
Proof. intros H. unfold exchanged in *. apply (Permutation_map turned) in H. rewrite map_map, (map_ext _ (fun x => x)), map_id in H by apply turned_twice. apply Permutation_sym, H. Qed.
Lemma filter_turned (f g : bond -> bool) l : (forall x, f (turned x) = g x) -> length (filter f (map turned l)) = length (filter g l).
Proof. intros E. induction l as [|x l IH]; simpl; auto. rewrite E. destruct (g x); simpl; auto. Qed.
Lemma split_three (l : list bond) : length l = (length (filter (fun x => (bq x <? bp x)%nat) l) + length (filter (fun x => (bp x <? bq x)%nat) l) + length (filter (fun x => (bq x =? bp x)%nat) l))%nat.
Proof.
  induction l as [|x l IH]; simpl; auto. destruct (Nat.ltb_spec (bq x) (bp x)), (Nat.ltb_spec (bp x) (bq x)), (Nat.eqb_spec (bq x) (bp x)); simpl; lia.
Qed.
