(** Model of the ready-made unit cells and of make_random_system (freud/data.py), over exact reals; what generate_system does with a cell
    is UnitCellModel.  Random numbers are any numbers of [0, 1), an exception is [None]. *)
From Verif Require Export UnitCellModel SystemModel.
Open Scope R_scope.

(* data.py:38-42  UnitCell.__init__ *)
Definition unit_cell (x : box_like) (basis : list vec3) : option (box * list vec3) := option_map (fun b => (b, basis)) (from_box_like x None).
(** numpy.deg2rad *)
Definition deg2rad (x : R) : R := x * PI / 180.
(* data.py:190-203  hcp *)
Definition uc_hcp : option (box * list vec3) :=
  match from_lengths_and_angles 1 1 (sqrt (8 / 3)) (deg2rad 90) (deg2rad 90) (deg2rad 120) None with
  | Some b => unit_cell (BLBox b) [V3 (1 / 3) (2 / 3) (1 / 4); V3 (2 / 3) (1 / 3) (3 / 4)]
  | None => None
  end.
(* data.py:205-213  fcc *)
Definition uc_fcc : option (box * list vec3) := unit_cell (BLList [1; 1; 1]) [V3 (1 / 2) (1 / 2) 0; V3 (1 / 2) 0 (1 / 2); V3 0 (1 / 2) (1 / 2); V3 0 0 0].
(* data.py:215-223  bcc *)
Definition uc_bcc : option (box * list vec3) := unit_cell (BLList [1; 1; 1]) [V3 (1 / 2) (1 / 2) (1 / 2); V3 0 0 0].
(* data.py:225-233  sc *)
Definition uc_sc : option (box * list vec3) := unit_cell (BLList [1; 1; 1]) [V3 0 0 0].
(* data.py:235-243  square *)
Definition uc_square : option (box * list vec3) := unit_cell (BLList [1; 1]) [V3 0 0 0].
(* data.py:245-266  rectangular *)
Definition uc_rectangular (aspect : R) (centered : bool) : option (box * list vec3) :=
  unit_cell (BLList [1; aspect]) (V3 0 0 0 :: if centered then [V3 (1 / 2) (1 / 2) 0] else []).
(* data.py:268-295  oblique; the angle is in degrees *)
Definition uc_oblique (aspect theta : R) : option (box * list vec3) :=
  match from_lengths_and_angles 1 aspect 0 (PI / 2) (PI / 2) (deg2rad theta) None with
  | Some b => unit_cell (BLBox b) [V3 0 0 0]
  | None => None
  end.
(* data.py:297-305  hex *)
Definition uc_hex : option (box * list vec3) := unit_cell (BLList [1; sqrt 3]) [V3 0 0 0; V3 (1 / 2) (1 / 2) 0].
(* data.py:307-322  graphene *)
Definition uc_graphene : option (box * list vec3) :=
  unit_cell (BLList [1; sqrt 3]) [V3 0 0 0; V3 0 (1 / 3) 0; V3 (1 / 2) (5 / 6) 0; V3 (1 / 2) (1 / 2) 0].
(* data.py:350-376  make_random_system; [sample] are the rows of random_sample; box.py:886-918 Box.square, Box.cube *)
Definition random_system (box_size : R) (sample : list vec3) (is2D : bool) : option (box * list vec3) :=
  let rows := if is2D then map (fun f => V3 (vx f) (vy f) 0) sample else sample in
  match (if is2D then py_box box_size box_size 0 0 0 0 (Some true) else py_box box_size box_size box_size 0 0 0 (Some false)) with
  | Some b => Some (b, map (make_absolute b) rows)
  | None => None
  end.
