(** What it means to describe the same system differently: another origin, another unit of length, the opposite orientation of the axes, other
    images of the particles, another numbering (C89). *)
From Verif Require Export QuerySpec QueryModel RdfSpec.
From Coq Require Import Reals ZArith List Permutation.
Import ListNotations.
Local Open Scope R_scope.

(** The box in a unit of length [a] times smaller. *)
Definition in_units (a : R) (b : box) : box :=
  MkBox (vscale a (b_lo b)) (vscale a (b_hi b)) (vscale a (b_L b)) (vscale (/ a) (b_Linv b)) (b_xy b) (b_xz b) (b_yz b) (b_px b) (b_py b) (b_pz b) (b_2d b).
(** The query arguments in that unit. *)
Definition args_in_units (a : R) (p : pyargs) : pyargs :=
  PA (pa_mode p) (option_map (Rmult a) (pa_rmax p)) (option_map (Rmult a) (pa_rmin p)) (option_map (Rmult a) (pa_rguess p)) (pa_k p) (pa_excl p) (pa_scale p) (pa_unknown p).
(** A numbering of [n] things by each other. *)
Definition renumbers (n : nat) (f : nat -> nat) : Prop := (forall i, (i < n)%nat -> (f i < n)%nat) /\ forall i j, (i < n)%nat -> (j < n)%nat -> f i = f j -> i = j.
(** Particle [j] of the new list is particle [f j] of the old one: its new position is an image of c times the old one plus [t].
    A negative [c] points the axes the other way. *)
Definition redescribed (b : box) (c : R) (t : vec3) (f : nat -> nat) (ps ps' : list vec3) : Prop :=
  length ps' = length ps /\ renumbers (length ps) f /\
  forall j, (j < length ps)%nat -> image_of (in_units (Rabs c) b) (nth j ps' v0) (vadd (vscale c (nth (f j) ps v0)) t).
(** The same system: points and query points; with exclude_ii the numberings identify the same pairs of a point with itself. *)
Record same_system (b : box) (c : R) (t : vec3) (f g : nat -> nat) (excl : bool) (points qs points' qs' : list vec3) : Prop := {
  ss_unit : c <> 0; ss_plane : in_space b t; ss_points : redescribed b c t f points points'; ss_queries : redescribed b c t g qs qs';
  ss_excl : excl = true -> forall i j, (i < length qs)%nat -> (j < length points)%nat -> (g i = f j <-> i = j) }.
(** A bond of the new description in terms of the old. *)
Definition old_bond (c : R) (f g : nat -> nat) (x : bond) : bond := Bond (g (bq x)) (f (bp x)) (bd x / Rabs c) (bw x) (vscale (/ c) (bv x)).
(** The bonds found are the same. *)
Definition same_bonds (c : R) (f g : nat -> nat) (n : nat) (ls ls' : list (list bond)) : Prop :=
  forall i, (i < n)%nat -> Permutation (map (old_bond c f g) (nth i ls' [])) (nth (g i) ls []).
(** The distances of a frame are the same, in the other unit. *)
Definition same_distances (a : R) (fr fr' : rin) : Prop := Permutation (map (fun x => bd x / a) (ri_all fr')) (map bd (ri_all fr)).
Definition same_sizes (a : R) (d d' : rdf_data) : Prop :=
  rd_2d d' = rd_2d d /\ rd_np d' = rd_np d /\ rd_nqp d' = rd_nqp d /\ rd_vol d' = (if rd_2d d then a ^ 2 else a ^ 3) * rd_vol d.
(** The frame that RDF.compute gets from a query. *)
Definition query_frame (b : box) (np : nat) (ls : list (list bond)) (ev : list (nat * nat)) : rin :=
  RI (length ls) (fun i => nth i ls []) ev (RD (volume b) (b_2d b) np (length ls)).
