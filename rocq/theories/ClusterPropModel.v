(** Model of freud/cluster/ClusterProperties.cc and freud/cluster.py (ClusterProperties) over exact reals.
    Arrays indexed by cluster are functions; 3x3 matrices are functions of two indices. *)
From Verif Require Export BoxPyModel.
From Coq Require Export List Arith Lia.
Export ListNotations.
Local Open Scope R_scope.

Definition fset {A} (f : nat -> A) (i : nat) (x : A) : nat -> A := fun j => if Nat.eqb j i then x else f j.
Definition mass_at (masses : option (list R)) (i : nat) : R := match masses with Some l => nth i l 0 | None => 1 end.
Definition mat := nat -> nat -> R.

(* ClusterProperties.cc:48, 54-61 *)
Record tally := TL { tl_points : nat -> list vec3; tl_size : nat -> nat; tl_mass : nat -> R }.
Definition tally_step (pts : list vec3) (idx : list nat) (masses : option (list R)) (t : tally) (i : nat) : tally :=
  let c := nth i idx 0%nat in
  TL (fset (tl_points t) c (tl_points t c ++ [nth i pts v0])) (fset (tl_size t) c (S (tl_size t c)))
     (fset (tl_mass t) c (tl_mass t c + mass_at masses i)).
Definition tally_all (pts : list vec3) (idx : list nat) (masses : option (list R)) : tally :=
  fold_left (tally_step pts idx masses) (seq 0 (length pts)) (TL (fun _ => []) (fun _ => 0%nat) (fun _ => 0)).

(* ClusterProperties.cc:64-78; the pointer into masses is an offset *)
Record centers := CT { ct_center : nat -> vec3; ct_com : nat -> vec3; ct_off : nat }.
Definition center_step (b : box) (masses : option (list R)) (t : tally) (s : centers) (c : nat) : centers :=
  let ps := tl_points t c in
  let with_masses := match masses with
                     | Some l => map (fun j => (nth j ps v0, nth (ct_off s + j)%nat l 0)) (seq 0 (length ps))
                     | None => map (fun p => (p, 1)) ps end in
  CT (fset (ct_center s) c (center_of_mass b (map (fun p => (p, 1)) ps))) (fset (ct_com s) c (center_of_mass b with_masses))
     (match masses with Some _ => (ct_off s + tl_size t c)%nat | None => ct_off s end).
Definition centers_all (b : box) (masses : option (list R)) (t : tally) (num : nat) : centers :=
  fold_left (center_step b masses t) (seq 0 num) (CT (fun _ => v0) (fun _ => v0) 0%nat).

(* ClusterProperties.cc:91-102 *)
Definition inertia_terms (d : vec3) (m : R) : mat := fun a b =>
  let x := vx d in let y := vy d in let z := vz d in
  match a, b with
  | 0%nat, 0%nat => (y * y + z * z) * m   | 0%nat, 1%nat => - (x * y * m)          | 0%nat, 2%nat => - (x * z * m)
  | 1%nat, 0%nat => - (y * x * m)         | 1%nat, 1%nat => (x * x + z * z) * m    | 1%nat, 2%nat => - (y * z * m)
  | 2%nat, 0%nat => - (z * x * m)         | 2%nat, 1%nat => - (z * y * m)          | 2%nat, 2%nat => (x * x + y * y) * m
  | _, _ => 0
  end.
(* ClusterProperties.cc:105-113 *)
Definition gyration_terms (d : vec3) : mat := fun a b =>
  let x := vx d in let y := vy d in let z := vz d in
  match a, b with
  | 0%nat, 0%nat => x * x | 0%nat, 1%nat => x * y | 0%nat, 2%nat => x * z
  | 1%nat, 0%nat => y * x | 1%nat, 1%nat => y * y | 1%nat, 2%nat => y * z
  | 2%nat, 0%nat => z * x | 2%nat, 1%nat => z * y | 2%nat, 2%nat => z * z
  | _, _ => 0
  end.
Definition madd (m m' : mat) : mat := fun a b => m a b + m' a b.
(* ClusterProperties.cc:82-114 *)
Definition moments_step (bx : box) (pts : list vec3) (idx : list nat) (masses : option (list R)) (s : centers)
    (mg : (nat -> mat) * (nat -> mat)) (i : nat) : (nat -> mat) * (nat -> mat) :=
  let mass := mass_at masses i in
  let c := nth i idx 0%nat in
  let pos := nth i pts v0 in
  let mass_delta := wrap bx (vsub pos (ct_com s c)) in
  let delta := wrap bx (vsub pos (ct_center s c)) in
  (fset (fst mg) c (madd (fst mg c) (inertia_terms mass_delta mass)), fset (snd mg) c (madd (snd mg c) (gyration_terms delta))).
Definition moments_all (bx : box) (pts : list vec3) (idx : list nat) (masses : option (list R)) (s : centers) : (nat -> mat) * (nat -> mat) :=
  fold_left (moments_step bx pts idx masses s) (seq 0 (length pts)) ((fun _ _ _ => 0), (fun _ _ _ => 0)).

Record cprops := CP { cp_num : nat; cp_centers : nat -> vec3; cp_coms : nat -> vec3; cp_inertia : nat -> mat; cp_gyrations : nat -> mat;
                      cp_sizes : nat -> nat; cp_masses : nat -> R }.
(* ClusterProperties.cc:29-130; cluster.py:178-186 (the shape of cluster_idx is checked, the length of masses is not).
   None: a Python exception, or undefined behaviour (no points, or reading beyond the end of masses). *)
Definition cluster_properties (bx : box) (pts : list vec3) (idx : list nat) (masses : option (list R)) : option cprops :=
  if negb (Nat.eqb (length idx) (length pts)) then None
  else if Nat.eqb (length pts) 0 then None
  else if (match masses with Some l => Nat.ltb (length l) (length pts) | None => false end) then None
  else
    let num := S (list_max idx) in
    let t := tally_all pts idx masses in
    let s := centers_all bx masses t num in
    let '(inertia, gyr) := moments_all bx pts idx masses s in
    Some (CP num (ct_center s) (ct_com s) inertia (fun c a b => gyr c a b / INR (tl_size t c)) (tl_size t) (tl_mass t)).
(* cluster.py:279-282  radii_of_gyration *)
Definition radius_of_gyration (r : cprops) (c : nat) : R :=
  let m := cp_inertia r c in sqrt ((m 0%nat 0%nat + m 1%nat 1%nat + m 2%nat 2%nat) / (2 * cp_masses r c)).
