(** Specification of the static structure factors. *)
From Verif Require Export SfModel.
From Verif Require Import BoxSpec.
Local Open Scope R_scope.

Fixpoint lsum {A} (f : A -> R) (l : list A) : R := match l with [] => 0 | x :: l => f x + lsum f l end.
(** * The structure factor at a wave vector
    The formula of the documentation, S(k) = (1/N) sum over pairs of exp(i k.r_ij), as a complex number. *)
Definition pair_phase (k p q : vec3) : cplx := let a := dot k (vsub q p) in (cos a, sin a).
Definition S_re (n : nat) (P Q : list vec3) (k : vec3) : R := lsum (fun p => lsum (fun q => fst (pair_phase k p q)) Q) P / INR n.
Definition S_im (n : nat) (P Q : list vec3) (k : vec3) : R := lsum (fun p => lsum (fun q => snd (pair_phase k p q)) Q) P / INR n.

(** * Wave vectors: those with k.a an integer multiple of 2 pi for every lattice vector a *)
Definition reciprocal (b : box) (k : vec3) : Prop :=
  (exists m n : Z, dot k (a1 b) = 2 * PI * IZR m /\ dot k (a2 b) = 2 * PI * IZR n) /\
  (if b_2d b then vz k = 0 else exists l : Z, dot k (a3 b) = 2 * PI * IZR l).
(** The part of reciprocal space that is scanned: non-negative multiples of the three reciprocal vectors. *)
Definition in_octant (b : box) (k : vec3) : Prop :=
  (exists m n : nat, dot k (a1 b) = 2 * PI * INR m /\ dot k (a2 b) = 2 * PI * INR n) /\
  (if b_2d b then vz k = 0 else exists l : nat, dot k (a3 b) = 2 * PI * INR l).
Definition untilted (b : box) : Prop := b_xy b = 0 /\ b_xz b = 0 /\ b_yz b = 0.
(** [p'] is [p] moved by a lattice vector. *)
Definition lattice_image (b : box) (p' p : vec3) : Prop := exists i j l : Z, (b_2d b = true -> l = 0%Z) /\ p' = vadd p (shift b i j l).
Definition translate (t : vec3) (l : list vec3) : list vec3 := map (fun p => vadd p t) l.
(** What the processors in use do with a cast of not-a-number to an unsigned integer. *)
Definition nan_to_zero (cast : option Z -> nat) : Prop := cast None = 0%nat.

(** * Histories *)
Fixpoint sf_since (h : list sf_op) (acc : list sf_in) : list sf_in :=
  match h with
  | [] => acc
  | SfCompute true f :: h => sf_since h [f]
  | SfCompute false f :: h => sf_since h (acc ++ [f])
  | SfRead _ _ :: h => sf_since h acc
  end.
(** The wave vectors used for each of these frames: kept as long as the box stays the same, sampled again after a reset. *)
Fixpoint with_kpoints (prev : option (box * list vec3)) (fs : list sf_in) : list (sf_in * list vec3) :=
  match fs with
  | [] => []
  | f :: fs =>
      let ks := match prev with Some (b, ks) => if box_eqb (si_box f) b then ks else si_ks f | None => si_ks f end in
      (f, ks) :: with_kpoints (Some (si_box f, ks)) fs
  end.
Definition used (h : list sf_op) : list (sf_in * list vec3) := with_kpoints None (sf_since h []).
Definition sf_edge (bins : Z) (k_max k_min : R) (i : nat) : R := k_min + INR i * ((k_max - k_min) / IZR bins).
(** The (frame, wave vector) pairs that fall into bin i. *)
Definition in_bin (bins : Z) (k_max k_min : R) (i : nat) (fk : sf_in * vec3) : bool :=
  Rleb (sf_edge bins k_max k_min i) (norm (snd fk)) && Rltb (norm (snd fk)) (sf_edge bins k_max k_min (S i)).
Definition hits (bins : Z) (k_max k_min : R) (i : nat) (u : list (sf_in * list vec3)) : list (sf_in * vec3) :=
  filter (in_bin bins k_max k_min i) (flat_map (fun fk => map (fun k => (fst fk, k)) (snd fk)) u).
Definition S_at (fk : sf_in * vec3) : R := let f := fst fk in S_re (si_total f) (si_pts f) (si_query f) (snd fk).
Definition mean_over {A} (f : A -> R) (l : list A) : R := lsum f l / INR (length l).
(** All calls of a history, also those before a reset, run their loops over the wave vectors they use, and the total number is positive. *)
Fixpoint sfd_ok (bins : Z) (prev : option (box * list vec3)) (h : list sf_op) : Prop :=
  match h with
  | [] => True
  | SfCompute r f :: h =>
      let prev := if r then None else prev in
      let ks := match prev with Some (b, ks) => if box_eqb (si_box f) b then ks else si_ks f | None => si_ks f end in
      execution 0 (length ks) (si_ev f) /\ (0 < si_total f)%nat /\ sfd_ok bins (Some (si_box f, ks)) h
  | SfRead e1 e2 :: h => execution 0 (Z.to_nat bins) e1 /\ execution 0 (Z.to_nat bins) e2 /\ sfd_ok bins prev h
  end.

(** * Debye *)
(** Bessel's integral for J_0 is in SfBesselProps.v. *)
Definition deb_spec (j0 : R -> R) (f : sf_in) (k : R) : R :=
  lsum (fun p => lsum (fun q => let r := norm (wrap (si_box f) (vsub q p)) in if b_2d (si_box f) then j0 (k * r) else if Req_EM_T (k * r) 0 then 1 else sin (k * r) / (k * r)) (si_query f)) (si_pts f)
  / INR (si_total f).
Definition deb_k (bins : Z) (k_max k_min : R) (i : nat) : R := k_min + INR i * ((k_max - k_min) / IZR (bins - 1)).
Definition deb_ok (bins : Z) (o : sf_op) : Prop :=
  match o with
  | SfCompute _ f => execution 0 (Z.to_nat bins) (si_ev f) /\ (0 < si_total f)%nat
  | SfRead e1 _ => execution 0 (Z.to_nat bins) e1
  end.
(** The smallest length of the boxes of the frames. *)
Definition is_min (x : R) (l : list R) : Prop := In x l /\ forall y, In y l -> x <= y.
Definition box_length (b : box) : R := if b_2d b then Rmin (vx (b_L b)) (vy (b_L b)) else Rmin (Rmin (vx (b_L b)) (vy (b_L b))) (vz (b_L b)).
