(** Specification of the solid-liquid classification. *)
From Verif Require Export SolidModel SteinSpec ClusterSpec NListSpec.
From Coq Require Import Reals ZArith List Bool.
Import ListNotations.
Local Open Scope R_scope.

(** The calls the theorems are about. *)
Definition sq_ok (l : nat) (f : sq_in) : Prop :=
  reach (qi_nl f) /\ (forall b, In b (nl_bonds (qi_nl f)) -> bd b = len (hvec (qi_box f) (qi_pts f) (bq b) b)) /\
  execution 0 (length (qi_pts f)) (qi_ev1 f) /\ execution 0 (2 * l + 1) (qi_ev3 f) /\ execution 0 (length (qi_pts f)) (qi_ev5 f).
Definition sizes_match (f : sq_in) : Prop := nl_nq (qi_nl f) = length (qi_pts f) /\ nl_np (qi_nl f) = length (qi_pts f).
(** The object after any number of such calls, completed or rejected. *)
Inductive sq_reach fsph (c : sqconf) : stl -> Prop :=
| sq_new : sq_reach fsph c stl_new
| sq_next s f o : sq_reach fsph c s -> sq_ok (sq_l c) f -> sq_call fsph c s f = SQDone o -> sq_reach fsph c (so_st o)
| sq_failed s f : sq_reach fsph c s -> sq_ok (sq_l c) f -> sq_call fsph c s f = SQRaised -> sq_reach fsph c s.
(** The bonds of a point, its mean harmonics, products of two points. *)
Definition bonds_of (f : sq_in) (i : nat) : list bond := filter (fun b => (bq b =? i)%nat) (nl_bonds (qi_nl f)).
Definition q_pt (l : nat) (f : sq_in) (i k : nat) : cplx := qmean l false (hvec (qi_box f) (qi_pts f) i) (bonds_of f i) k.
Definition dotq (l : nat) (f : sq_in) (i j : nat) : R := nsum (2 * l + 1) (fun k => fst (cmul (q_pt l f i k) (cconj (q_pt l f j k)))).
Definition norm2 (l : nat) (f : sq_in) (i : nat) : R := nsum (2 * l + 1) (fun k => modulus2 (q_pt l f i k)).
(** q_l(i, j); NaN when the other end has no neighbours or a norm vanishes. *)
Definition qij (c : sqconf) (f : sq_in) (b : bond) : option R :=
  match bonds_of f (bp b) with
  | [] => None
  | _ => if sq_norm c then (if Req_EM_T (norm2 (sq_l c) f (bq b) * norm2 (sq_l c) f (bp b)) 0 then None
                            else Some (dotq (sq_l c) f (bq b) (bp b) / (sqrt (norm2 (sq_l c) f (bq b)) * sqrt (norm2 (sq_l c) f (bp b)))))
         else Some (dotq (sq_l c) f (bq b) (bp b))
  end.
Definition solid (c : sqconf) (f : sq_in) (b : bond) : bool := match qij c f b with Some x => if Rlt_dec (sq_q c) x then true else false | None => false end.
Definition connections (c : sqconf) (f : sq_in) (i : nat) : nat := length (filter (solid c f) (bonds_of f i)).
Definition solid_like (c : sqconf) (f : sq_in) (i : nat) : Prop := (sq_s c <= connections c f i)%nat.
Definition links (c : sqconf) (f : sq_in) : list (nat * nat) :=
  map (fun b => (bp b, bq b)) (filter (fun b => solid c f b && (sq_s c <=? connections c f (bq b))%nat && (sq_s c <=? connections c f (bp b))%nat)%bool (nl_bonds (qi_nl f))).
(** Two calls with the same neighbours whose bond vectors have the same lengths and angles; no bond vector is zero. *)
Definition bvec (f : sq_in) (b : bond) : vec3 := hvec (qi_box f) (qi_pts f) (bq b) b.
Definition congruent_systems (f f' : sq_in) : Prop :=
  nl_bonds (qi_nl f) = nl_bonds (qi_nl f') /\ (forall a b, In a (nl_bonds (qi_nl f)) -> In b (nl_bonds (qi_nl f)) -> dot (bvec f a) (bvec f b) = dot (bvec f' a) (bvec f' b)) /\
  (forall a, In a (nl_bonds (qi_nl f)) -> bvec f a <> v0).
(** The sum over pairs of bonds, one of each particle, of the Legendre polynomial of the cosine between them. *)
Definition pair_sum (l : nat) (f : sq_in) (i j : nat) : R := rsuml (fun a => rsuml (fun b => legendre l (dot (bdir (bvec f a)) (bdir (bvec f b)))) (bonds_of f j)) (bonds_of f i).
