(** Polar angles as computed by freud/environment/BondOrder.cc and LocalDescriptors.cc; models of BondOrder and LocalDescriptors. *)
From Verif Require Export QuatModel BoxPyModel HistModel NListModel.
Local Open Scope R_scope.

(* BondOrder.cc:142-143, LocalDescriptors.cc:128-129  atan2 wrapped into [0, 2 pi) (utils.h:29-32) *)
Definition azimuth (v : vec3) : R := modulus_positive (atan2 (vy v) (vx v)) (2 * PI).
(* BondOrder.cc:146 *)
Definition polar (v : vec3) : R := acos (vz v / sqrt (dot v v)).

(** * BondOrder *)
(* BondOrder.h:15-21 *)
Inductive bo_mode := Bod | Lbod | Obcd | Oocd.
(* BondOrder.cc:110-137 *)
Definition bo_vector (m : bo_mode) (ref_q q : quat) (v : vec3) : vec3 :=
  match m with
  | Bod => v
  | Obcd => rotate q (rotate (qconj ref_q) v)
  | Lbod => rotate (qconj ref_q) v
  | Oocd => rotate (qconj ref_q) (rotate q (V3 0 0 1))
  end.
(* BondOrder.cc:31-77  constructor: [None] models std::invalid_argument.  The later tests (dt > 2 pi, dp > pi) never fire. *)
Record bo_conf := BO { bo_nt : Z; bo_np : Z; bo_m : bo_mode }.
Definition bo_make (n_bins_theta n_bins_phi : Z) (m : bo_mode) : option bo_conf :=
  if (n_bins_theta <? 2)%Z then None else if (n_bins_phi <? 2)%Z then None else Some (BO n_bins_theta n_bins_phi m).
(* BondOrder.cc:71-72 *)
Definition bo_axes (c : bo_conf) : list axis := [Axis (bo_nt c) 0 (2 * PI); Axis (bo_np c) 0 PI].
(* BondOrder.cc:47-70  precomputed surface areas *)
Definition bo_area (c : bo_conf) (i j : Z) : R :=
  let dt := 2 * PI / IZR (bo_nt c) in let dp := PI / IZR (bo_np c) in
  let phi := IZR j * dp in dt * (cos phi - cos (phi + dp)).
(* BondOrder.cc:102-150  what one bond adds to the histogram; [None]: orientation index out of bounds *)
Definition bo_sample (c : bo_conf) (o qo : list quat) (b : bond) : option (list R) :=
  match nth_error o (bp b), nth_error qo (bq b) with
  | Some ref_q, Some q => let v := bo_vector (bo_m c) ref_q q (bv b) in Some [azimuth v; polar v]
  | _, _ => None
  end.
(* BondOrder.cc:85-90  one element of the result *)
Definition bo_value (c : bo_conf) (count : R) (frames : nat) (i j : Z) : R := count / bo_area c i j / INR frames.

(** * LocalDescriptors *)
(* LocalDescriptors.h:17-23 *)
Inductive ld_mode := LocalNeighborhood | ParticleLocal | Global.
(* LocalDescriptors.cc:128-139: acos of a number outside [-1, 1], or 0/0, is not a number and replaced *)
Definition ld_polar (z magR : R) : R :=
  if Req_bool magR 0 then (if Rlt_bool 0 z then 0 else PI)
  else if Rlt_bool 1 (Rabs (z / magR)) then (if Rlt_bool 0 z then 0 else PI) else acos (z / magR).
(* LocalDescriptors.cc:66-68, 117-119: indices of the bonds of point i that are used *)
Fixpoint ld_bonds (fuel : nat) (bs : list bond) (i bond : nat) (count limit : Z) : list nat :=
  match fuel, nth_error bs bond with
  | S fuel, Some b => if (bq b =? i)%nat && (count <? limit)%Z then bond :: ld_bonds fuel bs i (S bond) (count + 1) limit else []
  | _, _ => []
  end.
(* LocalDescriptors.cc:65-87 *)
Definition ld_tensor_step (t : rotm) (r : vec3) : rotm :=
  let r_sq := dot r r in
  RM (V3 (vx (r0 t) + r_sq - vx r * vx r) (vy (r0 t) - vx r * vy r) (vz (r0 t) - vx r * vz r))
     (V3 (vx (r1 t) - vx r * vy r) (vy (r1 t) + r_sq - vy r * vy r) (vz (r1 t) - vy r * vz r))
     (V3 (vx (r2 t) - vx r * vz r) (vy (r2 t) - vy r * vz r) (vz (r2 t) + r_sq - vz r * vz r)).
Definition ld_tensor (rs : list vec3) : rotm := fold_left ld_tensor_step rs (RM v0 v0 v0).
(* LocalDescriptors.cc:89-114.  [diag] stands for diagonalize33SymmetricMatrix (rows are eigenvectors). *)
Definition ld_frame (diag : rotm -> rotm) (m : ld_mode) (o : list quat) (i : nat) (rs : list vec3) : option rotm :=
  match m with
  | LocalNeighborhood => Some (diag (ld_tensor rs))
  | ParticleLocal => option_map (fun q => rot_of_quat (qconj q)) (nth_error o i)
  | Global => Some rid
  end.
(* LocalDescriptors.cc:116-145; [sph phi theta] stands for the spherical harmonics evaluator (fsph), a row of numbers *)
Definition ld_row {A} (sph : R -> R -> A) (m : rotm) (b : bond) : A :=
  let w := rapply m (bv b) in sph (ld_polar (vz w) (bd b)) (azimuth w).
(* LocalDescriptors.cc:54-146  one point.  (The 32-bit offset sphCount of 121 is taken to be exact.) *)
Definition ld_limit (max_num_neighbors : Z) : Z := if (max_num_neighbors =? 0)%Z then 4294967295 else max_num_neighbors.
Definition ld_point {A} (diag : rotm -> rotm) (sph : R -> R -> A) (m : ld_mode) (o : list quat) (nl : nlist) (max : Z)
    (rows : list A) (i : nat) : option (list A) :=
  let ks := ld_bonds (length (nl_bonds nl)) (nl_bonds nl) i (find_first_index nl i) 0 (ld_limit max) in
  match ld_frame diag m o i (map (fun k => bv (nth k (nl_bonds nl) bond0)) ks) with
  | Some f => Some (fold_left (fun rows k => put rows k (ld_row sph f (nth k (nl_bonds nl) bond0))) ks rows)
  | None => None
  end.
(* LocalDescriptors.cc:35-151; [np] is nq->getNPoints(), [ev] an execution of the loop; [zrow] a row of zeros.  Result: the rows and num_sphs. *)
Definition ld_compute {A} (diag : rotm -> rotm) (sph : R -> R -> A) (zrow : A) (m : ld_mode) (o : list quat) (nl : nlist) (np : nat)
    (max : Z) (ev : list (nat * nat)) : option (list A * nat) :=
  option_map (fun rows => (rows, length (nl_bonds nl)))
    (ofold (fun rows e => ld_point diag sph m o nl max rows (snd e)) ev (repeat zrow (length (nl_bonds nl)))).
