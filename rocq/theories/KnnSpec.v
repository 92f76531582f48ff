(** Specification of nearest-neighbour queries. *)
From Verif Require Export QueryModel QuerySpec.
Open Scope R_scope.

(** [v] is the shortest separation of point [j] from the images of [q] among the allowed lattice translations in [imgs]. *)
Definition nearest_image (b : box) (points : list vec3) (q : vec3) (imgs : Z -> Z -> Z -> Prop) (j : nat) (v : vec3) : Prop :=
  (exists i1 i2 i3, allowed b i1 i2 i3 /\ imgs i1 i2 i3 /\ v = sep b points q j i1 i2 i3) /\
  forall i1 i2 i3, allowed b i1 i2 i3 -> imgs i1 i2 i3 -> norm v <= norm (sep b points q j i1 i2 i3).
(** Points that may be returned for query point number [qi]. *)
Definition candidate (b : box) (points : list vec3) (q : vec3) (qi : nat) (excl : bool) (r_min : R) (imgs : Z -> Z -> Z -> Prop) (j : nat) (v : vec3) : Prop :=
  (j < length points)%nat /\ ~ (excl = true /\ qi = j) /\ nearest_image b points q imgs j v /\ r_min <= norm v.
(** Different points at their nearest images, in order of distance. *)
Definition sorted_neighbors (b : box) (points : list vec3) (q : vec3) (qi : nat) (excl : bool) (r_min : R) (imgs : Z -> Z -> Z -> Prop) (l : list bond) : Prop :=
  NoDup (map bp l) /\ (forall i j, (i < j < length l)%nat -> bd (nth i l bond0) <= bd (nth j l bond0)) /\
  forall x, In x l -> candidate b points q qi excl r_min imgs (bp x) (bv x) /\ x = Bond qi (bp x) (norm (bv x)) 1 (bv x).
(** ... and no candidate left out is closer than one of them. *)
Definition k_nearest (b : box) (points : list vec3) (q : vec3) (qi : nat) (excl : bool) (r_min : R) (imgs : Z -> Z -> Z -> Prop) (k : nat) (l : list bond) : Prop :=
  length l = k /\ sorted_neighbors b points q qi excl r_min imgs l /\
  forall j v, candidate b points q qi excl r_min imgs j v -> ~ In j (map bp l) -> forall x, In x l -> bd x <= norm v.
