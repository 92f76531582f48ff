(** What registration means: rotations, pairings, root mean square distances; independent of how the search goes. *)
From Coq Require Export Permutation Sorting.Sorted.
From Verif Require Export RegModel QuatSpec.
Local Open Scope R_scope.

(** ** Contracts of the parts that are not modelled *)
Definition rdiag (a b c : R) : rotm := RM (V3 a 0 0) (V3 0 b 0) (V3 0 0 c).
(** [A = U S V^T] with orthogonal [U], [V] and singular values in decreasing order. *)
Definition is_svd (A U V : rotm) : Prop := orthonormal U /\ orthonormal V /\
  exists s1 s2 s3, s1 >= s2 /\ s2 >= s3 /\ s3 >= 0 /\ A = rmul U (rmul (rdiag s1 s2 s3) (rtrans V)).
(** A sort of the distances: the same pairs, nearest first; the order of equal distances is free. *)
Definition sorts (srt : sort_fun) : Prop := forall l, Permutation l (srt l) /\ StronglySorted (fun a b => snd a <= snd b) (srt l).
(** Drawn indices: [min N 3] different indices of reference points. *)
Definition drawn (N : nat) (draw : list nat) : Prop := length draw = Nat.min N 3 /\ NoDup draw /\ forall i, In i draw -> (i < N)%nat.
Definition at_ (l : list vec3) (c : list nat) : list vec3 := map (fun i => nth i l v0) c.
(** The decomposition is right for every matrix the search may ask for. *)
Definition svd_on (svd : svd_fun) (draw : list nat) (refs pts : list vec3) : Prop :=
  forall c, drawn (length pts) c -> let A := cov (at_ pts c) (at_ refs draw) in is_svd A (fst (svd A)) (snd (svd A)).
Definition svd_orth (svd : svd_fun) : Prop := forall A, orthonormal (fst (svd A)) /\ orthonormal (snd (svd A)).

(** ** Rotations and distances *)
(** The sum of squared distances from each rotated point to its partner. *)
Definition misfit (m : rotm) (P Q : list vec3) : R :=
  fold_right Rplus 0 (map (fun pq => len_sq (vsub (rapply m (fst pq)) (snd pq))) (combine P Q)).
(** [s] gives for each point the index of its partner among the reference points; each reference point is used once. *)
Definition pairing (N : nat) (s : list nat) : Prop := Permutation s (seq 0 N).
Definition rms (refs pts : list vec3) (s : list nat) : R :=
  sqrt (fold_right Rplus 0 (map (fun ip => len_sq (vsub (nth (fst ip) refs v0) (snd ip))) (combine s pts)) / INR (length pts)).
(** The map lists the pairs (index of the reference point, index of the point). *)
Definition map_of (s : list nat) : bimap := combine s (seq 0 (length s)).
(** The points are the reference points turned and listed in another order. *)
Definition turned_copy (refs pts : list vec3) : Prop := exists m, rotation m /\ Permutation pts (map (rapply m) refs).
(** A rotation that leaves the drawn reference points in place leaves all of them in place. *)
Definition fixes (refs : list vec3) (draw : list nat) : Prop :=
  forall m, rotation m -> (forall i, In i draw -> rapply m (nth i refs v0) = nth i refs v0) -> forall x, In x refs -> rapply m x = x.
