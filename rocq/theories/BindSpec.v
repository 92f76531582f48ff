(** What it means that the attributes of freud's objects work. *)
From Coq Require Import List String Bool.
From Verif Require Import BindModel.
Import ListNotations.
Local Open Scope string_scope.

Section Failing.
Variables (cpp : list cppclass) (st : state) (self : list pyclass).

(** [Failing from k a o]: some way through the code run by the access [a] (any of the accesses that occur in the
    bodies it enters, whichever branches are taken) ends with error [o]. *)
Inductive Failing : list pyclass -> access -> string -> outcome -> Prop :=
| fail_plot from : derives_compute self = true -> called st = false -> Failing from Get "plot" NotComputed
| fail_guard from a p m rest :
    locate from a = Some (p, m, rest) -> m_kind m = Computed -> called st = false -> Failing from Get a NotComputed
| fail_missing from a :
    ~ (a = "plot" /\ derives_compute self = true /\ called st = false) ->
    locate from a = None -> ~ In a (fields st self) -> builtin a = false -> Failing from Get a (NoAttribute a)
| fail_readonly from a p m rest :
    locate from a = Some (p, m, rest) -> m_kind m <> Method -> setter p a = None -> Failing from Put a (NoSetter a)
| fail_inside from a p m rest u o :
    ~ (a = "plot" /\ derives_compute self = true /\ called st = false) ->
    locate from a = Some (p, m, rest) -> (m_kind m = Computed -> called st = true) ->
    ~ (m_kind m = Method /\ In a (fields st self)) ->
    In u (m_uses m) -> FailingUse rest u o -> Failing from Get a o
| fail_setter from a p m rest s u o :
    locate from a = Some (p, m, rest) -> m_kind m <> Method -> setter p a = Some s ->
    In u (m_uses s) -> FailingUse rest u o -> Failing from Put a o
with FailingUse : list pyclass -> use -> outcome -> Prop :=
| fail_cpp rest n : cpp_has cpp c_names self n = false -> FailingUse rest (Cpp n) (NoBinding n)
| fail_setcpp rest n : cpp_has cpp c_rw self n = false -> FailingUse rest (SetCpp n) (NoBinding n)
| fail_own rest a o : Failing self Get a o -> FailingUse rest (Own a) o
| fail_setown rest a o : Failing self Put a o -> FailingUse rest (SetOwn a) o
| fail_super rest a o : Failing rest Get a o -> FailingUse rest (Super a) o
| fail_try rest a : Failing self Get a NotImplemented -> FailingUse rest (Try a) NotImplemented
| fail_raise rest : FailingUse rest Unavailable NotImplemented.
End Failing.

(** The classes a user (or freud itself) makes objects of. *)
Definition concrete : list string :=
  ["Box"; "Cluster"; "ClusterProperties"; "UnitCell"; "CorrelationFunction"; "GaussianDensity";
   "SphereVoxelization"; "LocalDensity"; "RDF"; "StaticStructureFactorDebye"; "StaticStructureFactorDirect";
   "DiffractionPattern"; "AngularSeparationNeighbor"; "AngularSeparationGlobal"; "BondOrder"; "LocalDescriptors";
   "EnvironmentCluster"; "EnvironmentMotifMatch"; "_EnvironmentRMSDMinimizer"; "LocalBondProjection"; "Interface";
   "_QueryArgs"; "NeighborQueryResult"; "NeighborList"; "_RawPoints"; "AABBQuery"; "LinkCell"; "CellQuery";
   "PeriodicBuffer"; "Voronoi"; "FilterSANN"; "FilterRAD"; "MSD"; "Cubatic"; "Nematic"; "Hexatic"; "Steinhardt";
   "SolidLiquid"; "RotationalAutocorrelation"; "ContinuousCoordination"; "PMFTR12"; "PMFTXYT"; "PMFTXY";
   "PMFTXYZ"].

(** The attributes that ask for a function the C++ class does not export. *)
Definition unbound : list (string * string) :=
  [("CorrelationFunction", "bins"); ("CorrelationFunction", "bounds"); ("BondOrder", "bounds");
   ("LinkCell", "cell_width"); ("_EnvironmentRMSDMinimizer", "point_environments")].

(** The attributes through which a computation may ask for its default neighbours. *)
Definition asking : list string := ["compute"; "default_query_args"; "_preprocess_arguments"; "_resolve_neighbors"].

(** The classes that have no default neighbours. *)
Definition no_default : list string :=
  ["Cluster"; "AngularSeparationNeighbor"; "BondOrder"; "LocalDescriptors"; "EnvironmentCluster";
   "EnvironmentMotifMatch"; "_EnvironmentRMSDMinimizer"; "LocalBondProjection"; "Interface"; "FilterSANN";
   "FilterRAD"; "Steinhardt"; "SolidLiquid"; "ContinuousCoordination"].

(** The properties that can be assigned. *)
Definition writable : list (string * string) :=
  [("Box", "L"); ("Box", "Lx"); ("Box", "Ly"); ("Box", "Lz"); ("Box", "xy"); ("Box", "xz"); ("Box", "yz");
   ("Box", "dimensions"); ("Box", "periodic"); ("Box", "periodic_x"); ("Box", "periodic_y"); ("Box", "periodic_z");
   ("RDF", "mode"); ("_QueryArgs", "mode"); ("_QueryArgs", "r_max"); ("_QueryArgs", "r_min");
   ("_QueryArgs", "r_guess"); ("_QueryArgs", "num_neighbors"); ("_QueryArgs", "exclude_ii");
   ("_QueryArgs", "scale")].

(** [a] is a property (plain or computed) of class [c]. *)
Definition property (c a : string) : Prop :=
  exists p m rest, locate (order c) a = Some (p, m, rest) /\ (m_kind m = Getter \/ m_kind m = Computed).
Definition result (c a : string) : Prop :=
  exists p m rest, locate (order c) a = Some (p, m, rest) /\ m_kind m = Computed.

(** AttributeError, the error that makes hasattr(object, name) False. *)
Definition attribute_error (o : outcome) : Prop :=
  o = NotComputed \/ (exists n, o = NoBinding n) \/ (exists a, o = NoAttribute a) \/ (exists a, o = NoSetter a).

(** A call of compute has returned. *)
Definition returned (prog : list op) : Prop := In Returns prog.
