(** Model of freud/util.py:11-84 (_Compute): how analysis objects guard their results, for every freud class.
    What the classes compute is not modelled here (the other model files do that); a class enters only through the
    order in which its compute method erases, marks, validates and updates.
    Simplified: a call that raises does so before it touches the results, or after erasing them and before adding
    anything; the C++ loops themselves do not raise. *)
From Coq Require Import List String Bool.
Import ListNotations.
Local Open Scope string_scope.

(** One analysis class.
    [sets_flag]: its __init__ calls _Compute.__init__ (util.py:36-37), so that _called_compute exists and is False;
      otherwise the attribute is missing until the first assignment.
    [erases]: compute has a reset argument and erases first ("if reset: self._reset()").
    [marks_early]: compute assigns self._called_compute = True itself, before it validates its arguments.
    [has_plot]: the class has a plot method (and _repr_png_). *)
Record class := mkClass { cname : string; sets_flag : bool; erases : bool; marks_early : bool; has_plot : bool }.

(** The classes deriving from _Compute, from freud/*.py at the pinned commit. *)
Definition classes : list class :=
  [ mkClass "cluster.Cluster" false false false true;                       (* cluster.py:26-123 *)
    mkClass "cluster.ClusterProperties" false false false false;            (* cluster.py:126- *)
    mkClass "density.CorrelationFunction" false true false true;            (* density.py:28-183, reset at 101-103 *)
    mkClass "density.GaussianDensity" false false false true;               (* density.py:186-314 *)
    mkClass "density.SphereVoxelization" false false false true;            (* density.py:317-415 *)
    mkClass "density.LocalDensity" false false false false;                 (* density.py:418-532 *)
    mkClass "density.RDF" false true false true;                            (* density.py:535-, reset at 637-638 *)
    mkClass "diffraction.StaticStructureFactorDebye" false true false true; (* diffraction.py:73-280, 224-225 *)
    mkClass "diffraction.StaticStructureFactorDirect" false true false true;(* diffraction.py:283-518, 447-448 *)
    mkClass "diffraction.DiffractionPattern" true true false true;          (* diffraction.py:521-903, 563, 711-713 *)
    mkClass "environment.AngularSeparationNeighbor" false false false false;(* environment.py:41-141 *)
    mkClass "environment.AngularSeparationGlobal" false false false false;  (* environment.py:144-193 *)
    mkClass "environment.BondOrder" false true false false;                 (* environment.py:196-388, 335-336 *)
    mkClass "environment.LocalDescriptors" false false false false;         (* environment.py:391-549 *)
    mkClass "environment.EnvironmentCluster" false false false true;        (* environment.py:663-849 *)
    mkClass "environment.EnvironmentMotifMatch" false false false false;    (* environment.py:852-931 *)
    mkClass "environment._EnvironmentRMSDMinimizer" false false false false;(* environment.py:934-994 *)
    mkClass "environment.LocalBondProjection" false false false false;      (* environment.py:997- *)
    mkClass "interface.Interface" false false false false;                  (* interface.py:15- *)
    mkClass "locality.PeriodicBuffer" false false false false;              (* locality.py:1094-1156 *)
    mkClass "locality.Voronoi" false false false true;                      (* locality.py:1159-1268 *)
    mkClass "locality.FilterSANN" false false false false;                  (* locality.py:1339-1376 *)
    mkClass "locality.FilterRAD" false false false false;                   (* locality.py:1379- *)
    mkClass "msd.MSD" false true true true;                                 (* msd.py:71-290, 194-197 *)
    mkClass "order.Cubatic" false false false false;                        (* order.py:36-135 *)
    mkClass "order.Nematic" false false false false;                        (* order.py:138-227 *)
    mkClass "order.Hexatic" false false false true;                         (* order.py:230-372 *)
    mkClass "order.Steinhardt" false false false true;                      (* order.py:375-642 *)
    mkClass "order.SolidLiquid" false false false true;                     (* order.py:645-813 *)
    mkClass "order.RotationalAutocorrelation" false false false false;      (* order.py:816-885 *)
    mkClass "order.ContinuousCoordination" false false false false;         (* order.py:888- *)
    mkClass "pmft.PMFTR12" false true false false;                          (* pmft.py:124-221, 191-192 *)
    mkClass "pmft.PMFTXYT" false true false false;                          (* pmft.py:224-325, 293-294 *)
    mkClass "pmft.PMFTXY" false true false true;                            (* pmft.py:328-453, 395-396 *)
    mkClass "pmft.PMFTXYZ" false true false false                           (* pmft.py:456-, 547-548 *)
  ].

Inductive error := AttributeError | OtherError.
Inductive res (A : Type) := Ok (a : A) | Err (e : error).
Arguments Ok {A}. Arguments Err {A}.

Section Objects.
(** [D]: the results held by the object; [P]: the arguments of a call that pass validation; [fresh]: the results of
    a new or erased object; [update]: what the computation makes of the old results. *)
Variables (D P : Type) (fresh : D) (update : P -> D -> D).

(** The object: its _called_compute attribute (None: missing) and its results. *)
Record obj := mkObj { flag : option bool; data : D }.

(** When a call of compute fails: not at all, before erasing (wrong number of arguments; diffraction.py:217-222,
    440-446), or while the arguments are converted and checked after erasing. *)
Inductive failure := Never | Before | After.
Record call := mkCall { creset : bool; cfail : failure; cargs : P }.

(** The constructor. *)
Definition init (c : class) : obj := mkObj (if sets_flag c then Some false else None) fresh.

(** The compute method of the class itself, e.g. density.py:637-645, msd.py:194-235. *)
Definition body (c : class) (k : call) (o : obj) : obj * res unit :=
  match cfail k with
  | Before => (o, Err OtherError)
  | f =>
      let o := if (erases c && creset k)%bool then mkObj (flag o) fresh else o in
      let o := if marks_early c then mkObj (Some true) (data o) else o in
      match f with
      | After => (o, Err OtherError)
      | _ => (mkObj (flag o) (update (cargs k) (data o)), Ok tt)
      end
  end.

(** util.py:44-54  obj.compute(...): the wrapper marks the object after the method returned. *)
Definition compute (c : class) (k : call) (o : obj) : obj * res unit :=
  match body c k o with
  | (o, Ok u) => (mkObj (Some true) (data o), Ok u)
  | r => r
  end.

(** type(obj).compute(obj, ...): the method is found on the class, so __getattribute__ of the object is not used. *)
Definition compute_unbound (c : class) (k : call) (o : obj) : obj * res unit := body c k o.

(** util.py:56, 75  [if not self._called_compute]: a missing attribute raises AttributeError by itself, a False one
    makes the code raise it. *)
Definition guard {A} (o : obj) (v : res A) : res A :=
  match flag o with
  | None => Err AttributeError
  | Some false => Err AttributeError
  | Some true => v
  end.

(** util.py:61-81  a property decorated with _computed_property; [prop] is the decorated function. *)
Definition read {A} (prop : D -> res A) (o : obj) : res A := guard o (prop (data o)).

(** util.py:55-58  obj.plot *)
Definition get_plot (c : class) (o : obj) : res unit := if has_plot c then guard o (Ok tt) else Err AttributeError.

(** hasattr(obj, name): False exactly when reading raises AttributeError; other exceptions pass through. *)
Definition hasattr {A} (r : res A) : res bool :=
  match r with Ok _ => Ok true | Err AttributeError => Ok false | Err e => Err e end.

(** What a caller can do to an object, in any order. *)
Inductive op := Compute (k : call) | Unbound (k : call).
Definition step (c : class) (o : obj) (p : op) : obj :=
  match p with Compute k => fst (compute c k o) | Unbound k => fst (compute_unbound c k o) end.
Definition run (c : class) (ps : list op) : obj := fold_left (step c) ps (init c).
End Objects.
Arguments Compute {P}. Arguments Unbound {P}. Arguments mkCall {P}. Arguments creset {P}. Arguments cfail {P}.
Arguments cargs {P}. Arguments flag {D}. Arguments data {D}. Arguments mkObj {D}. Arguments hasattr {A}.

(** diffraction.py:563-575, 770-780, 815-830  DiffractionPattern keeps the unscaled k-grid, written while
    _called_compute is still False, and scaled when read.  [grid]: the object's _k_values_orig has been written. *)
Record dpstate := mkDp { dflag : option bool; grid : bool }.
Definition dp_init : dpstate := mkDp (Some false) false.
Definition dp_compute (fails : bool) (s : dpstate) : dpstate :=
  if fails then s
  else
    let s := match dflag s with Some true => s | f => mkDp f true end in
    mkDp (Some true) (grid s).
Definition dp_run (calls : list bool) : dpstate := fold_left (fun s f => dp_compute f s) calls dp_init.
