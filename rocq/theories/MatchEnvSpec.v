(** What matching environments means: vectors paired one to one within the threshold, clusters as connected components. *)
From Coq Require Export List Arith Lia Relations Permutation.
From Verif Require Export MatchEnvModel.
Export ListNotations.
Local Open Scope R_scope.

Definition orthonormal (m : rotm) : Prop := rmul (rtrans m) m = rid /\ rmul m (rtrans m) = rid.
Definition close (t : R) (x y : vec3) : Prop := norm (vsub x y) < Rabs t.
(** Index by index within the threshold; up to a reordering of the second list. *)
Definition aligned (t : R) (vs ws : list vec3) : Prop := Forall2 (close t) vs ws.
Definition matchable (t : R) (vs ws : list vec3) : Prop := exists ws', Permutation ws ws' /\ aligned t vs ws'.
(** Any two vectors of the list are at least two thresholds apart. *)
Definition separated (t : R) (vs : list vec3) : Prop :=
  forall i j, (i < length vs)%nat -> (j < length vs)%nat -> i <> j -> 2 * Rabs t <= norm (vsub (nth i vs v0) (nth j vs v0)).
(** The environment of point [i]: vectors of its bonds to other points. *)
Definition around (bonds : list ebond) (i : nat) : list vec3 :=
  map eb_v (filter (fun b => Nat.eqb (eb_i b) i && negb (Nat.eqb (eb_j b) i)) bonds).
Definition linked (pairs : list (nat * nat)) : nat -> nat -> Prop := clos_refl_sym_trans nat (fun a b => In (a, b) pairs).
(** A one-to-one correspondence between [0..k) and [0..k). *)
Definition correspondence (k : nat) (vm : bimap) : Prop := Permutation (map fst vm) (seq 0 k) /\ Permutation (map snd vm) (seq 0 k).
(** What is assumed of the registration search: it returns an orthonormal matrix and indices that exist. *)
Definition registers (reg : option registration) : Prop :=
  forall f, reg = Some f -> forall v1 v2, orthonormal (fst (f v1 v2)) /\
    (forall i j, In (i, j) (snd (f v1 v2)) -> (i < length v1)%nat /\ (j < length v2)%nat).
(** Labels given in order of first appearance: some point has label [l] and all points before it have smaller labels. *)
Definition numbered (idx : list nat) (num : nat) : Prop :=
  (forall i, (i < length idx)%nat -> (nth i idx 0 < num)%nat) /\
  forall l, (l < num)%nat -> exists i, (i < length idx)%nat /\ nth i idx 0%nat = l /\ forall j, (j < i)%nat -> (nth j idx 0 < l)%nat.
Definition vsum (l : list vec3) : vec3 := fold_right vadd v0 l.
Definition with_label (idx : list nat) (c : nat) : list nat := filter (fun i => Nat.eqb (nth i idx 0%nat) c) (seq 0 (length idx)).
(** Vector [k] of a cluster's environment: the mean of the vectors [k] of its members. *)
Definition mean_env (idx : list nat) (penv : list (list vec3)) (c k : nat) : vec3 :=
  let m := with_label idx c in vscale (1 / INR (length m)) (vsum (map (fun i => nth k (nth i penv []) v0) m)).
(** Two elements in the same set: find gives the same head. *)
Definition same_set (s : list env) (i j : nat) : Prop := exists r s1 s2, mfind s i = Some (r, s1) /\ mfind s j = Some (r, s2).
(** A call of merge on the environments [vss]: existing, equally long lists of vectors, and a one-to-one correspondence. *)
Record mcall := MC { mc_a : nat; mc_b : nat; mc_map : bimap; mc_rot : rotm }.
Definition mcall_ok (vss : list (list vec3)) (c : mcall) : Prop :=
  (mc_a c < length vss)%nat /\ (mc_b c < length vss)%nat /\ length (nth (mc_a c) vss []) = length (nth (mc_b c) vss []) /\
  correspondence (length (nth (mc_a c) vss [])) (mc_map c).
Definition mcalls (vss : list (list vec3)) (cs : list mcall) : option (list env * list nat) :=
  ofold (fun st c => merge st (mc_a c) (mc_b c) (mc_map c) (mc_rot c)) cs
        (map (fun k => new_env k false (nth k vss [])) (seq 0 (length vss)), repeat 0%nat (length vss)).
