(** Specification of system descriptions (C83): which objects describe a given box with given points. *)
From Coq Require Import Reals List.
Import ListNotations.
From Verif Require Export SystemModel BoxSpec.
Open Scope R_scope.

(** The stored inverse lengths and corners belong to the lengths. *)
Definition consistent (b : box) : Prop :=
  b = set_periodic (mk_box (vx (b_L b)) (vy (b_L b)) (vz (b_L b)) (b_xy b) (b_xz b) (b_yz b) (b_2d b)) (b_px b) (b_py b) (b_pz b).
(** A field that gives the number [x]; zeros may be left out. *)
Definition gives (o : option R) (x : R) : Prop := o = Some x \/ (o = None /\ x = 0).
Definition fields_of (f : fields) (b : box) : Prop :=
  g_Lx f = Some (vx (b_L b)) /\ g_Ly f = Some (vy (b_L b)) /\ gives (g_Lz f) (vz (b_L b)) /\ gives (g_xy f) (b_xy b) /\ gives (g_xz f) (b_xz b) /\
  gives (g_yz f) (b_yz b) /\ (g_dims f = None \/ g_dims f = Some (dimensions b)).
Definition untilted (b : box) : Prop := b_xy b = 0 /\ b_xz b = 0 /\ b_yz b = 0.
(** Tilts towards z mean nothing in two dimensions. *)
Definition planar (b : box) : Prop := b_2d b = true -> b_xz b = 0 /\ b_yz b = 0.
(** Box-like objects that describe [b].  A matrix is written by rows, the cell vectors are its columns. *)
Inductive box_described : box_like -> box -> Prop :=
| bd_box b : box_described (BLBox b) b
| bd_attr f b : fully_periodic b -> fields_of f b -> box_described (BLAttr f) b
| bd_dict f b : fully_periodic b -> fields_of f b -> box_described (BLDict f) b
| bd_six b : fully_periodic b -> box_described (BLList [vx (b_L b); vy (b_L b); vz (b_L b); b_xy b; b_xz b; b_yz b]) b
| bd_three b : fully_periodic b -> untilted b -> box_described (BLList [vx (b_L b); vy (b_L b); vz (b_L b)]) b
| bd_two b : fully_periodic b -> untilted b -> b_2d b = true -> box_described (BLList [vx (b_L b); vy (b_L b)]) b
| bd_matrix b : fully_periodic b -> planar b ->
    box_described (BLMatrix (V3 (vx (a1 b)) (vx (a2 b)) (vx (a3 b))) (V3 (vy (a1 b)) (vy (a2 b)) (vy (a3 b))) (V3 (vz (a1 b)) (vz (a2 b)) (vz (a3 b)))) b.
(** The points as rows of three numbers; there is at least one, and in two dimensions they lie in the plane. *)
Definition points_described (p : list (list R)) (b : box) (pts : list vec3) : Prop :=
  p = map (fun v => [vx v; vy v; vz v]) pts /\ pts <> [] /\ (b_2d b = true -> forall v, In v pts -> Rabs (vz v) <= 1 / 1000000).
(** Systems that describe [b] and [pts] (cell vectors in the orientation freud uses); MDAnalysis is treated apart.  In two dimensions HOOMD
    and GSD may carry any [Lz], [xz], [yz]. *)
Inductive described : system -> box -> list vec3 -> Prop :=
| ds_query k b pts : pts <> [] -> (b_2d b = true -> forall v, In v pts -> Rabs (vz v) <= 1 / 1000000) -> described (SysQuery (NQ k b pts)) b pts
| ds_pair x p b pts : box_described x b -> points_described p b pts -> described (SysPair x p) b pts
| ds_attrs x p b pts : box_described x b -> points_described p b pts -> described (SysAttrs x p) b pts
| ds_garnett x p b pts : box_described x b -> points_described p b pts -> described (SysGarnett x p) b pts
| ds_gsd3 p b pts : fully_periodic b -> b_2d b = false -> points_described p b pts ->
    described (SysGsd [vx (b_L b); vy (b_L b); vz (b_L b); b_xy b; b_xz b; b_yz b] 3 p) b pts
| ds_gsd2 Lz xz yz p b pts : fully_periodic b -> b_2d b = true -> planar b -> points_described p b pts ->
    described (SysGsd [vx (b_L b); vy (b_L b); Lz; b_xy b; xz; yz] 2 p) b pts
| ds_ovito p b pts : fully_periodic b -> planar b -> points_described p b pts ->
    described (SysOvito (V3 (vx (a1 b)) (vx (a2 b)) (vx (a3 b))) (V3 (vy (a1 b)) (vy (a2 b)) (vy (a3 b))) (V3 (vz (a1 b)) (vz (a2 b)) (vz (a3 b))) (b_2d b) p) b pts
| ds_hoomd3 f p b pts : fully_periodic b -> b_2d b = false -> fields_of f b -> g_dims f = Some 3%nat -> points_described p b pts -> described (SysHoomd2 f p) b pts
| ds_hoomd2 Lz xz yz p b pts : fully_periodic b -> b_2d b = true -> planar b -> points_described p b pts ->
    described (SysHoomd2 (Fields (Some (vx (b_L b))) (Some (vy (b_L b))) Lz (Some (b_xy b)) xz yz (Some 2%nat)) p) b pts.
(** MDAnalysis: triclinic_dimensions has the cell vectors as its rows. *)
Definition mda_described (b : box) (p : list (list R)) : system := SysMDAnalysis (a1 b) (a2 b) (a3 b) p.

(** Cell vectors of any orientation: the triple product, and integer combinations. *)
Definition triple (u v w : vec3) : R := dot w (cross u v).
Definition combination (u v w : vec3) (i j k : Z) : vec3 := (IZR i * u + (IZR j * v + IZR k * w))%V.
(** The box-like object and the rows of a system. *)
Inductive box_of : system -> box_like -> Prop :=
| bo_pair x p : box_of (SysPair x p) x
| bo_attrs x p : box_of (SysAttrs x p) x
| bo_garnett x p : box_of (SysGarnett x p) x
| bo_mda r1 r2 r3 p : box_of (SysMDAnalysis r1 r2 r3 p) (BLMatrix r1 r2 r3)
| bo_gsd l p : box_of (SysGsd l 3 p) (BLList l).
Inductive rows_of : system -> list (list R) -> Prop :=
| ro_pair x p : rows_of (SysPair x p) p
| ro_attrs x p : rows_of (SysAttrs x p) p
| ro_garnett x p : rows_of (SysGarnett x p) p
| ro_mda r1 r2 r3 p : rows_of (SysMDAnalysis r1 r2 r3 p) p
| ro_gsd l d p : rows_of (SysGsd l d p) p
| ro_ovito r1 r2 r3 f p : rows_of (SysOvito r1 r2 r3 f p) p
| ro_hoomd f p : rows_of (SysHoomd2 f p) p.
(** Refused: sequences of other lengths, objects without Lx or Ly, a zero Lx or Ly, no points, rows of other lengths, points off the plane. *)
Definition bad_box (x : box_like) : Prop :=
  (exists l, x = BLList l /\ length l <> 2%nat /\ length l <> 3%nat /\ length l <> 6%nat) \/
  (exists l, x = BLList l /\ (nth 0 l 0 = 0 \/ nth 1 l 0 = 0)) \/
  (exists f, (x = BLAttr f \/ x = BLDict f) /\ (g_Lx f = None \/ g_Ly f = None \/ g_Lx f = Some 0 \/ g_Ly f = Some 0)) \/ x = BLOther.
(** The number of dimensions an object states itself. *)
Definition stated_dimensions (x : box_like) : option nat :=
  match x with BLBox b => Some (if b_2d b then 2%nat else 3%nat) | BLAttr f | BLDict f => g_dims f | BLList _ | BLMatrix _ _ _ | BLOther => None end.
