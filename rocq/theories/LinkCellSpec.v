(** Specification vocabulary for cell shells and cell list queries. *)
From Verif Require Export LinkCellModel QuerySpec.
Open Scope Z_scope.

(** Chebyshev norm of an integer cell offset. *)
Definition cheb (p : Z * Z * Z) : Z := let '(x, y, z) := p in Z.max (Z.abs x) (Z.max (Z.abs y) (Z.abs z)).
(** Offsets that exist in the given dimensionality. *)
Definition offset_ok (is2d : bool) (p : Z * Z * Z) : Prop := is2d = true -> snd p = 0.

(** The bond of a point whose wrapped displacement from the query point is in range. *)
Definition wrapped_in_range (b : box) (points : list vec3) (q : vec3) (qi : nat) (r_max r_min : R) (excl : bool) (x : bond) : Prop :=
  exists j, (j < length points)%nat /\ ~ (excl = true /\ qi = j) /\
    let d := wrap b (vsub (nth j points v0) q) in (r_min <= norm d < r_max)%R /\ x = Bond qi j (norm d) 1%R d.
