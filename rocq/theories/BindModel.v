(** Model of how the attributes of freud's python objects reach the compiled code: the classes of freud/*.py with
    the attributes their properties and methods touch, the tables of names that the nanobind modules export
    (freud/*/export-*.cc, freud/box/module-box.cc), python's attribute lookup, and the guard of freud/util.py:11-84.
    Every table row cites its lines; the numbers before a member are lines of the file cited above its class.
    Simplified: a body is the list of accesses to the object and to its C++ object that occur in it, in source
    order, each once, without the reads of an attribute that the same body has assigned before; an access is made
    with arguments that it accepts (C64, C72 and the models of the single classes say what arguments those are);
    accesses to other objects, class methods and static methods are left out.  Whether a compute call returns is up
    to the program. *)
From Coq Require Import List String Bool.
Import ListNotations.
Local Open Scope string_scope.

(** One access inside a body: self._cpp_obj.n; self._cpp_obj.n = ...; self.a (read, and called if a method);
    self.a = ...; super().a; self.a inside try/except AttributeError (the _repr_png_ methods); raise. *)
Inductive use := Cpp (n : string) | SetCpp (n : string) | Own (a : string) | SetOwn (a : string)
               | Super (a : string) | Try (a : string) | Unavailable.

(** @property, @_Compute._computed_property, @a.setter, def. *)
Inductive kind := Getter | Computed | Setter | Method.
Record member := Mem { m_name : string; m_kind : kind; m_uses : list use }.

(** A python class: base class, class of its _cpp_obj, attributes assigned by __init__ or in the class body,
    attributes first assigned by compute, whether compute sets _called_compute before it has finished, members. *)
Record pyclass := PC { p_name : string; p_base : option string; p_cpp : option string;
                       p_init : list string; p_late : list string; p_early : bool; p_members : list member }.

(** A class exported by nanobind: base class (nb::class_<C, Base>), the names defined, those that can be assigned
    (def_rw). *)
Record cppclass := CC { c_name : string; c_base : option string; c_names : list string; c_rw : list string }.

Definition freud_cpp : list cppclass :=
  [
    (* freud/cluster/export-Cluster.cc:34-40 *)
    CC "Cluster" None
       ["compute"; "getNumClusters"; "getClusterIdx"; "getClusterKeys"] [];
    (* freud/cluster/export-ClusterProperties.cc:35-44 *)
    CC "ClusterProperties" None
       ["compute"; "getClusterCenters"; "getClusterCentersOfMass"; "getClusterMomentsOfInertia";
         "getClusterGyrations"; "getClusterSizes"; "getClusterMasses"] [];
    (* freud/density/export-CorrelationFunction.cc:47-58 *)
    CC "CorrelationFunction" None
       ["reset"; "accumulate"; "getBinCenters"; "getAxisSizes"; "getBinCounts"; "getBinEdges"; "getBox";
         "getCorrelation"] [];
    (* freud/density/export-GaussianDensity.cc:46-53 *)
    CC "GaussianDensity" None
       ["compute"; "density"; "getBox"; "getWidth"; "getSigma"; "getRMax"] [];
    (* freud/density/export-LocalDensity.cc:37-46 *)
    CC "LocalDensity" None
       ["compute"; "getRMax"; "getDiameter"; "box"; "density"; "num_neighbors"] [];
    (* freud/density/export-RDF.cc:40-46 *)
    CC "RDF" (Some "BondHistogramCompute")
       ["accumulateRDF"; "getRDF"; "getNr"; "mode"] ["mode"];
    (* freud/density/export-SphereVoxelization.cc:32-37 *)
    CC "SphereVoxelization" None
       ["compute"; "getWidth"; "getRMax"; "box"; "voxels"] [];
    (* freud/diffraction/export-StaticStructureFactor.cc:35-42 *)
    CC "StaticStructureFactor" None
       ["accumulate"; "reset"; "getStructureFactor"; "getMinValidK"; "getBinCenters"; "getBinEdges"] [];
    (* freud/diffraction/export-StaticStructureFactorDebye.cc:15-16 *)
    CC "StaticStructureFactorDebye" (Some "StaticStructureFactor")
       [] [];
    (* freud/diffraction/export-StaticStructureFactorDirect.cc:15-18 *)
    CC "StaticStructureFactorDirect" (Some "StaticStructureFactor")
       ["getNumSampledKPoints"; "getKPoints"] [];
    (* freud/environment/export-AngularSeparationGlobal.cc:42-46 *)
    CC "AngularSeparationGlobal" None
       ["getAngles"; "compute"] [];
    (* freud/environment/export-AngularSeparationNeighbor.cc:47-53 *)
    CC "AngularSeparationNeighbor" None
       ["getNList"; "getAngles"; "compute"] [];
    (* freud/environment/export-BondOrder.cc:62-76 *)
    CC "BondOrder" None
       ["getBondOrder"; "getBinCounts"; "getBinCenters"; "getBinEdges"; "getBox"; "getAxisSizes"; "getMode";
         "accumulate"; "reset"] [];
    (* freud/environment/export-LocalBondProjection.cc:50-57 *)
    CC "LocalBondProjection" None
       ["getNList"; "getProjections"; "getNormedProjections"; "compute"] [];
    (* freud/environment/export-LocalDescriptors.cc:49-59 *)
    CC "LocalDescriptors" None
       ["getNList"; "getSph"; "getNSphs"; "getLMax"; "getNegativeM"; "getMode"; "compute"] [];
    (* freud/environment/export-MatchEnv.cc:119-121 *)
    CC "MatchEnv" None
       ["getPointEnvironments"] [];
    (* freud/environment/export-MatchEnv.cc:123-131 *)
    CC "EnvironmentCluster" None
       ["compute"; "getClusterEnvironments"; "getPointEnvironments"; "getClusters"; "getNumClusters"] [];
    (* freud/environment/export-MatchEnv.cc:133-139 *)
    CC "EnvironmentMotifMatch" None
       ["compute"; "getPointEnvironments"; "getMatches"] [];
    (* freud/environment/export-MatchEnv.cc:141-145 *)
    CC "EnvironmentRMSDMinimizer" None
       ["compute"; "getRMSDs"] [];
    (* freud/locality/export-BondHistogramCompute.cc:69-76 *)
    CC "BondHistogramCompute" None
       ["getBox"; "reset"; "getBinCounts"; "getAxisSizes"; "getBinCenters"; "getBinEdges"; "getBounds"] [];
    (* freud/locality/export-Filter.cc:57-61 *)
    CC "Filter" None
       ["compute"; "getFilteredNlist"; "getUnfilteredNlist"] [];
    (* freud/locality/export-Filter.cc:66-69 *)
    CC "FilterRAD" (Some "Filter")
       ["compute"] [];
    (* freud/locality/export-Filter.cc:74-74 *)
    CC "FilterSANN" (Some "Filter")
       [] [];
    (* freud/locality/export-NeighborList.cc:64-85 *)
    CC "NeighborList" None
       ["getNeighbors"; "getWeights"; "getDistances"; "getVectors"; "getSegments"; "getCounts"; "getNumBonds";
         "getNumQueryPoints"; "getNumPoints"; "copy"; "find_first_index"; "filter"; "filter_r"; "sort"] [];
    (* freud/locality/export-NeighborList.cc:90-96 *)
    CC "NeighborBond" None
       ["getQueryPointIdx"; "getPointIdx"; "getDistance"] [];
    (* freud/locality/export-NeighborQuery.cc:73-75 *)
    CC "NeighborQuery" None
       ["query"; "getBox"] [];
    (* freud/locality/export-NeighborQuery.cc:80-80 *)
    CC "AABBQuery" (Some "NeighborQuery")
       [] [];
    (* freud/locality/export-NeighborQuery.cc:85-87 *)
    CC "LinkCell" (Some "NeighborQuery")
       ["GetCellWidth"] [];
    (* freud/locality/export-NeighborQuery.cc:92-92 *)
    CC "RawPoints" (Some "NeighborQuery")
       [] [];
    (* freud/locality/export-NeighborQuery.cc:97-110 *)
    CC "CellQuery" (Some "NeighborQuery")
       ["getCellWidth"; "getCountsReal"; "getCounts"; "getMinPos"; "getCellInverseWidth"; "getNx"; "getNy"; "getNz";
         "getNTotal"; "getCellStarts"; "setupGrid"; "buildGrid"] [];
    (* freud/locality/export-NeighborQuery.cc:119-127 *)
    CC "QueryArgs" None
       ["mode"; "num_neighbors"; "r_max"; "r_min"; "r_guess"; "scale"; "exclude_ii"] ["mode"; "num_neighbors";
         "r_max"; "r_min"; "r_guess"; "scale"; "exclude_ii"];
    (* freud/locality/export-NeighborQuery.cc:132-134 *)
    CC "NeighborQueryIterator" None
       ["next"; "toNeighborList"] [];
    (* freud/locality/export-PeriodicBuffer.cc:16-22 *)
    CC "PeriodicBuffer" None
       ["compute"; "getBox"; "getBufferBox"; "getBufferPoints"; "getBufferIds"] [];
    (* freud/locality/export-Voronoi.cc:48-54 *)
    CC "Voronoi" None
       ["compute"; "getBox"; "getVolumes"; "getPolytopes"; "getNeighborList"] [];
    (* freud/order/export-ContinuousCoordination.cc:22-29 *)
    CC "ContinuousCoordination" None
       ["compute"; "getCoordination"; "getPowers"; "getComputeLog"; "getComputeExp"; "getNumberOfCoordinations"] [];
    (* freud/order/export-Cubatic.cc:39-51 *)
    CC "Cubatic" None
       ["compute"; "getTInitial"; "getTFinal"; "getScale"; "getNReplicates"; "getSeed"; "getCubaticOrderParameter";
         "getCubaticOrientation"; "getParticleOrderParameter"; "getGlobalTensor"; "getCubaticTensor"] [];
    (* freud/order/export-HexaticTranslational.cc:34-40 *)
    CC "Hexatic" None
       ["compute"; "getK"; "getOrder"; "isWeighted"] [];
    (* freud/order/export-Nematic.cc:40-46 *)
    CC "Nematic" None
       ["compute"; "getNematicOrderParameter"; "getNematicDirector"; "getParticleTensor"; "getNematicTensor"] [];
    (* freud/order/export-RotationalAutocorrelation.cc:36-42 *)
    CC "RotationalAutocorrelation" None
       ["compute"; "getL"; "getRotationalAutocorrelation"; "getRAArray"] [];
    (* freud/order/export-SolidLiquid.cc:13-27 *)
    CC "SolidLiquid" None
       ["compute"; "getL"; "getQThreshold"; "getSolidThreshold"; "getNormalizeQ"; "getClusterIdx"; "getQlij";
         "getQlm"; "getClusterSizes"; "getLargestClusterSize"; "getNList"; "getNumberOfConnections"] [];
    (* freud/order/export-Steinhardt.cc:21-33 *)
    CC "Steinhardt" None
       ["compute"; "isAverage"; "isWl"; "isWeighted"; "isWlNormalized"; "getL"; "getOrder"; "getParticleOrder";
         "getQlm"; "getQl"] [];
    (* freud/pmft/export-PMFTR12.cc:44-48 *)
    CC "PMFTR12" (Some "PMFT")
       ["accumulate"] [];
    (* freud/pmft/export-PMFTXY.cc:43-43 *)
    CC "PMFT" (Some "BondHistogramCompute")
       ["getPCF"] [];
    (* freud/pmft/export-PMFTXY.cc:48-51 *)
    CC "PMFTXY" (Some "PMFT")
       ["accumulate"] [];
    (* freud/pmft/export-PMFTXYT.cc:44-48 *)
    CC "PMFTXYT" (Some "PMFT")
       ["accumulate"] [];
    (* freud/pmft/export-PMFTXYZ.cc:46-50 *)
    CC "PMFTXYZ" (Some "PMFT")
       ["accumulate"] [];
    (* freud/box/module-box.cc:18-53 *)
    CC "Box" None
       ["getLx"; "getLy"; "getLz"; "setL"; "getLinv"; "getTiltFactorXY"; "getTiltFactorXZ"; "getTiltFactorYZ";
         "setTiltFactorXY"; "setTiltFactorXZ"; "setTiltFactorYZ"; "getPeriodicX"; "getPeriodicY"; "getPeriodicZ";
         "setPeriodic"; "setPeriodicX"; "setPeriodicY"; "setPeriodicZ"; "is2D"; "set2D"; "getVolume"; "center";
         "centerOfMass"; "makeAbsolute"; "makeFractional"; "wrap"; "unwrap"; "getImages"; "computeDistances";
         "computeAllDistances"; "contains"] [] ].

Definition freud_py : list pyclass :=
  [
    (* freud/box.py:28-978 *)
    PC "Box" None (Some "Box")
       [] [] false
       [
          (* 58-75 *) Mem "__init__" Method [];
          (* 78-83 *) Mem "L" Getter [Cpp "getLx"; Cpp "getLy"; Cpp "getLz"];
          (* 86-100 *) Mem "L" Setter [Own "is2D"; Cpp "setL"];
          (* 103-105 *) Mem "Lx" Getter [Cpp "getLx"];
          (* 108-109 *) Mem "Lx" Setter [SetOwn "L"; Own "Ly"; Own "Lz"];
          (* 112-114 *) Mem "Ly" Getter [Cpp "getLy"];
          (* 117-118 *) Mem "Ly" Setter [SetOwn "L"; Own "Lx"; Own "Lz"];
          (* 121-123 *) Mem "Lz" Getter [Cpp "getLz"];
          (* 126-127 *) Mem "Lz" Setter [SetOwn "L"; Own "Lx"; Own "Ly"];
          (* 130-132 *) Mem "xy" Getter [Cpp "getTiltFactorXY"];
          (* 135-136 *) Mem "xy" Setter [Cpp "setTiltFactorXY"];
          (* 139-141 *) Mem "xz" Getter [Cpp "getTiltFactorXZ"];
          (* 144-145 *) Mem "xz" Setter [Cpp "setTiltFactorXZ"];
          (* 148-150 *) Mem "yz" Getter [Cpp "getTiltFactorYZ"];
          (* 153-154 *) Mem "yz" Setter [Cpp "setTiltFactorYZ"];
          (* 156-170 *) Mem "__eq__" Method [Own "Lx"; Own "Ly"; Own "Lz"; Own "xy"; Own "xz"; Own "yz"; Own "is2D";
            Own "periodic_x"; Own "periodic_y"; Own "periodic_z"];
          (* 173-175 *) Mem "dimensions" Getter [Own "is2D"];
          (* 178-180 *) Mem "dimensions" Setter [Cpp "set2D"];
          (* 183-185 *) Mem "is2D" Getter [Cpp "is2D"];
          (* 188-192 *) Mem "L_inv" Getter [Cpp "getLinv"];
          (* 195-197 *) Mem "volume" Getter [Cpp "getVolume"];
          (* 199-224 *) Mem "make_absolute" Method [Cpp "makeAbsolute"];
          (* 226-250 *) Mem "make_fractional" Method [Cpp "makeFractional"];
          (* 252-271 *) Mem "get_images" Method [Cpp "getImages"];
          (* 273-285 *) Mem "get_box_vector" Method [Own "to_matrix"];
          (* 288-291 *) Mem "v1" Getter [Own "get_box_vector"];
          (* 294-297 *) Mem "v2" Getter [Own "get_box_vector"];
          (* 300-303 *) Mem "v3" Getter [Own "get_box_vector"];
          (* 305-333 *) Mem "wrap" Method [Cpp "wrap"];
          (* 335-368 *) Mem "unwrap" Method [Cpp "unwrap"];
          (* 370-407 *) Mem "center_of_mass" Method [Cpp "centerOfMass"];
          (* 409-446 *) Mem "center" Method [Cpp "center"];
          (* 448-473 *) Mem "compute_distances" Method [Cpp "computeDistances"];
          (* 475-502 *) Mem "compute_all_distances" Method [Cpp "computeAllDistances"];
          (* 504-541 *) Mem "contains" Method [Cpp "contains"];
          (* 544-555 *) Mem "cubic" Getter [Own "is2D"; Own "Lx"; Own "Ly"; Own "Lz"; Own "xy"; Own "yz"; Own "xz"];
          (* 558-567 *) Mem "periodic" Getter [Cpp "getPeriodicX"; Cpp "getPeriodicY"; Cpp "getPeriodicZ"];
          (* 570-576 *) Mem "periodic" Setter [Cpp "setPeriodic"];
          (* 579-581 *) Mem "periodic_x" Getter [Cpp "getPeriodicX"];
          (* 584-585 *) Mem "periodic_x" Setter [Cpp "setPeriodicX"];
          (* 588-590 *) Mem "periodic_y" Getter [Cpp "getPeriodicY"];
          (* 593-594 *) Mem "periodic_y" Setter [Cpp "setPeriodicY"];
          (* 597-599 *) Mem "periodic_z" Getter [Cpp "getPeriodicZ"];
          (* 602-603 *) Mem "periodic_z" Setter [Cpp "setPeriodicZ"];
          (* 605-626 *) Mem "to_dict" Method [Own "Lx"; Own "Ly"; Own "Lz"; Own "xy"; Own "xz"; Own "yz"; Own
            "dimensions"];
          (* 628-648 *) Mem "to_matrix" Method [Own "Lx"; Own "xy"; Own "Ly"; Own "xz"; Own "Lz"; Own "yz"];
          (* 650-666 *) Mem "to_box_params" Method [Own "Lx"; Own "Ly"; Own "Lz"; Own "xy"; Own "xz"; Own "yz"];
          (* 668-687 *) Mem "to_box_lengths_and_angles" Method [Own "xy"; Own "xz"; Own "yz"; Own "Lx"; Own "Ly"; Own
            "Lz"];
          (* 689-695 *) Mem "__repr__" Method [Own "Lx"; Own "Ly"; Own "Lz"; Own "xy"; Own "xz"; Own "yz"; Own
            "is2D"];
          (* 697-698 *) Mem "__str__" Method [Own "__repr__"];
          (* 700-712 *) Mem "__mul__" Method [Own "Lx"; Own "Ly"; Own "Lz"; Own "xy"; Own "xz"; Own "yz"; Own "is2D"];
          (* 714-715 *) Mem "__rmul__" Method [];
          (* 717-748 *) Mem "plot" Method [] ];
    (* freud/cluster.py:26-123 *)
    PC "Cluster" (Some "_PairCompute") (Some "Cluster")
       [] [] false
       [
          (* 50-51 *) Mem "__init__" Method [];
          (* 53-78 *) Mem "compute" Method [Own "_preprocess_arguments"; Cpp "compute"];
          (* 81-83 *) Mem "num_clusters" Computed [Cpp "getNumClusters"];
          (* 86-89 *) Mem "cluster_idx" Computed [Cpp "getClusterIdx"];
          (* 92-95 *) Mem "cluster_keys" Computed [Cpp "getClusterKeys"];
          (* 97-98 *) Mem "__repr__" Method [];
          (* 100-117 *) Mem "plot" Method [Own "cluster_idx"];
          (* 119-123 *) Mem "_repr_png_" Method [Try "plot"] ];
    (* freud/cluster.py:126-285 *)
    PC "ClusterProperties" (Some "_Compute") (Some "ClusterProperties")
       [] [] false
       [
          (* 144-145 *) Mem "__init__" Method [];
          (* 147-185 *) Mem "compute" Method [Cpp "compute"];
          (* 188-200 *) Mem "centers" Computed [Cpp "getClusterCenters"];
          (* 203-216 *) Mem "centers_of_mass" Computed [Cpp "getClusterCentersOfMass"];
          (* 219-234 *) Mem "gyrations" Computed [Cpp "getClusterGyrations"];
          (* 237-252 *) Mem "inertia_tensors" Computed [Cpp "getClusterMomentsOfInertia"];
          (* 255-257 *) Mem "sizes" Computed [Cpp "getClusterSizes"];
          (* 260-264 *) Mem "cluster_masses" Computed [Cpp "getClusterMasses"];
          (* 267-282 *) Mem "radii_of_gyration" Computed [Own "inertia_tensors"; Own "cluster_masses"];
          (* 284-285 *) Mem "__repr__" Method [] ];
    (* freud/data.py:21-347 *)
    PC "UnitCell" None None
       ["_box"; "_basis_positions"] [] false
       [
          (* 38-42 *) Mem "__init__" Method [SetOwn "_box"; SetOwn "_basis_positions"];
          (* 44-153 *) Mem "generate_system" Method [Own "box"; Own "basis_positions"; Own "dimensions"];
          (* 156-159 *) Mem "box" Getter [Own "_box"];
          (* 162-165 *) Mem "lattice_vectors" Getter [Own "box"];
          (* 168-170 *) Mem "basis_positions" Getter [Own "_basis_positions"];
          (* 173-175 *) Mem "a1" Getter [Own "box"];
          (* 178-180 *) Mem "a2" Getter [Own "box"];
          (* 183-185 *) Mem "a3" Getter [Own "box"];
          (* 188-190 *) Mem "dimensions" Getter [Own "box"] ];
    (* freud/density.py:28-183 *)
    PC "CorrelationFunction" (Some "_SpatialHistogram1D") (Some "CorrelationFunction")
       ["_bins"; "r_max"; "is_complex"] [] false
       [
          (* 57-61 *) Mem "__init__" Method [SetOwn "_bins"; SetOwn "r_max"; SetOwn "is_complex"];
          (* 63-136 *) Mem "compute" Method [SetOwn "is_complex"; Own "_reset"; Own "_preprocess_arguments"; Cpp
            "accumulate"];
          (* 139-143 *) Mem "correlation" Computed [Cpp "getCorrelation"; Own "is_complex"];
          (* 146-148 *) Mem "bins" Getter [Cpp "getNBins"];
          (* 150-154 *) Mem "__repr__" Method [Own "nbins"; Own "r_max"];
          (* 156-177 *) Mem "plot" Method [Own "bin_centers"; Own "correlation"];
          (* 179-183 *) Mem "_repr_png_" Method [Try "plot"] ];
    (* freud/density.py:186-314 *)
    PC "GaussianDensity" (Some "_Compute") (Some "GaussianDensity")
       [] [] false
       [
          (* 216-233 *) Mem "__init__" Method [];
          (* 236-238 *) Mem "box" Computed [Cpp "getBox"];
          (* 240-261 *) Mem "compute" Method [Cpp "compute"];
          (* 264-269 *) Mem "density" Computed [Own "box"; Cpp "density"];
          (* 272-274 *) Mem "r_max" Getter [Cpp "getRMax"];
          (* 277-279 *) Mem "sigma" Getter [Cpp "getSigma"];
          (* 282-285 *) Mem "width" Getter [Cpp "getWidth"];
          (* 287-291 *) Mem "__repr__" Method [Own "width"; Own "r_max"; Own "sigma"];
          (* 293-308 *) Mem "plot" Method [Own "box"; Own "density"];
          (* 310-314 *) Mem "_repr_png_" Method [Try "plot"] ];
    (* freud/density.py:317-415 *)
    PC "SphereVoxelization" (Some "_Compute") (Some "SphereVoxelization")
       [] [] false
       [
          (* 335-352 *) Mem "__init__" Method [];
          (* 355-357 *) Mem "box" Computed [Cpp "box"];
          (* 359-369 *) Mem "compute" Method [Cpp "compute"];
          (* 372-378 *) Mem "voxels" Computed [Cpp "voxels"; Own "box"];
          (* 381-383 *) Mem "r_max" Getter [Cpp "getRMax"];
          (* 386-389 *) Mem "width" Getter [Cpp "getWidth"];
          (* 391-392 *) Mem "__repr__" Method [Own "width"; Own "r_max"];
          (* 394-409 *) Mem "plot" Method [Own "box"; Own "voxels"];
          (* 411-415 *) Mem "_repr_png_" Method [Try "plot"] ];
    (* freud/density.py:418-532 *)
    PC "LocalDensity" (Some "_PairCompute") (Some "LocalDensity")
       [] [] false
       [
          (* 452-453 *) Mem "__init__" Method [];
          (* 456-458 *) Mem "r_max" Getter [Cpp "getRMax"];
          (* 461-463 *) Mem "diameter" Getter [Cpp "getDiameter"];
          (* 466-468 *) Mem "box" Computed [Cpp "box"];
          (* 470-508 *) Mem "compute" Method [Own "_preprocess_arguments"; Cpp "compute"];
          (* 511-514 *) Mem "default_query_args" Getter [Own "r_max"; Own "diameter"];
          (* 517-520 *) Mem "density" Computed [Cpp "density"];
          (* 523-526 *) Mem "num_neighbors" Computed [Cpp "num_neighbors"];
          (* 528-532 *) Mem "__repr__" Method [Own "r_max"; Own "diameter"] ];
    (* freud/density.py:535-696 *)
    PC "RDF" (Some "_SpatialHistogram1D") (Some "RDF")
       ["r_max"] [] false
       [
          (* 587-594 *) Mem "__init__" Method [SetOwn "mode"; SetOwn "r_max"];
          (* 597-603 *) Mem "mode" Getter [Cpp "mode"];
          (* 606-613 *) Mem "mode" Setter [SetCpp "mode"];
          (* 615-647 *) Mem "compute" Method [Own "_reset"; Own "_preprocess_arguments"; Cpp "accumulateRDF"];
          (* 650-653 *) Mem "rdf" Computed [Cpp "getRDF"];
          (* 656-662 *) Mem "n_r" Computed [Cpp "getNr"];
          (* 664-668 *) Mem "__repr__" Method [Own "bin_centers"; Own "bounds"];
          (* 670-690 *) Mem "plot" Method [Own "bin_centers"; Own "rdf"];
          (* 692-696 *) Mem "_repr_png_" Method [Try "plot"] ];
    (* freud/diffraction.py:39-70 *)
    PC "_StaticStructureFactor" (Some "_Compute") None
       [] [] false
       [
          (* 40-42 *) Mem "__init__" Method [];
          (* 45-48 *) Mem "S_k" Computed [Cpp "getStructureFactor"];
          (* 51-54 *) Mem "k_max" Getter [Own "bounds"];
          (* 57-60 *) Mem "k_min" Getter [Own "bounds"];
          (* 63-64 *) Mem "min_valid_k" Computed [Cpp "getMinValidK"];
          (* 66-70 *) Mem "_repr_png_" Method [Try "plot"] ];
    (* freud/diffraction.py:73-280 *)
    PC "StaticStructureFactorDebye" (Some "_StaticStructureFactor") (Some "StaticStructureFactorDebye")
       [] [] false
       [
          (* 141-144 *) Mem "__init__" Method [];
          (* 147-149 *) Mem "num_k_values" Getter [Own "k_values"];
          (* 152-154 *) Mem "k_values" Getter [Cpp "getBinCenters"];
          (* 157-161 *) Mem "bounds" Getter [Own "k_values"];
          (* 163-238 *) Mem "compute" Method [Own "_reset"; Cpp "accumulate"];
          (* 240-241 *) Mem "_reset" Method [Cpp "reset"];
          (* 244-248 *) Mem "min_valid_k" Computed [Cpp "getMinValidK"];
          (* 250-254 *) Mem "__repr__" Method [Own "num_k_values"; Own "k_max"; Own "k_min"];
          (* 256-280 *) Mem "plot" Method [Own "k_values"; Own "min_valid_k"; Own "S_k"] ];
    (* freud/diffraction.py:283-518 *)
    PC "StaticStructureFactorDirect" (Some "_StaticStructureFactor") (Some "StaticStructureFactorDirect")
       [] [] false
       [
          (* 361-364 *) Mem "__init__" Method [];
          (* 367-369 *) Mem "nbins" Getter [Own "bin_centers"];
          (* 372-374 *) Mem "bin_edges" Getter [Cpp "getBinEdges"];
          (* 377-379 *) Mem "bin_centers" Getter [Cpp "getBinCenters"];
          (* 382-386 *) Mem "bounds" Getter [Own "bin_edges"];
          (* 388-462 *) Mem "compute" Method [Own "_reset"; Cpp "accumulate"];
          (* 464-465 *) Mem "_reset" Method [Cpp "reset"];
          (* 468-472 *) Mem "min_valid_k" Computed [Cpp "getMinValidK"];
          (* 475-478 *) Mem "num_sampled_k_points" Getter [Cpp "getNumSampledKPoints"];
          (* 481-485 *) Mem "k_points" Computed [Cpp "getKPoints"];
          (* 487-492 *) Mem "__repr__" Method [Own "nbins"; Own "k_max"; Own "k_min"; Own "num_sampled_k_points"];
          (* 494-518 *) Mem "plot" Method [Own "bin_centers"; Own "min_valid_k"; Own "S_k"] ];
    (* freud/diffraction.py:521-903 *)
    PC "DiffractionPattern" (Some "_Compute") None
       ["_grid_size"; "_output_size"; "_k_values_orig"; "_k_vectors_orig"; "_k_values"; "_k_vectors"; "_diffraction";
         "_frame_counter"] ["_N_points"; "_box_matrix_scale_factor"; "_view_orientation"; "_k_scale_factor";
         "_k_values_cached"; "_k_vectors_cached"] false
       [
          (* 562-575 *) Mem "__init__" Method [SetOwn "_grid_size"; SetOwn "_output_size"; SetOwn "_k_values_orig";
            Own "output_size"; SetOwn "_k_vectors_orig"; SetOwn "_k_values"; SetOwn "_k_vectors"; SetOwn
            "_diffraction"; SetOwn "_frame_counter"];
          (* 577-614 *) Mem "_calc_proj" Method [];
          (* 616-675 *) Mem "_transform" Method [Own "output_size"];
          (* 677-791 *) Mem "compute" Method [SetOwn "_diffraction"; Own "output_size"; SetOwn "_frame_counter"; Own
            "_calc_proj"; Own "grid_size"; SetOwn "_N_points"; Own "_transform"; SetOwn "_k_values_orig"; SetOwn
            "_k_vectors_orig"; SetOwn "_box_matrix_scale_factor"; SetOwn "_view_orientation"; SetOwn
            "_k_scale_factor"; SetOwn "_k_values_cached"; SetOwn "_k_vectors_cached"];
          (* 794-796 *) Mem "grid_size" Getter [Own "_grid_size"];
          (* 799-801 *) Mem "output_size" Getter [Own "_output_size"];
          (* 804-809 *) Mem "diffraction" Computed [Own "_diffraction"; Own "_frame_counter"];
          (* 812-814 *) Mem "N_points" Computed [Own "_N_points"];
          (* 817-822 *) Mem "k_values" Computed [Own "_k_values_cached"; SetOwn "_k_values"; Own "_k_values_orig"; Own
            "_k_scale_factor"; SetOwn "_k_values_cached"];
          (* 825-834 *) Mem "k_vectors" Computed [Own "_k_vectors_cached"; SetOwn "_k_vectors"; Own
            "_view_orientation"; Own "_k_vectors_orig"; Own "_k_scale_factor"; SetOwn "_k_vectors_cached"];
          (* 836-840 *) Mem "__repr__" Method [Own "grid_size"; Own "output_size"];
          (* 842-868 *) Mem "to_image" Method [Own "N_points"; Own "diffraction"];
          (* 870-897 *) Mem "plot" Method [Own "N_points"; Own "diffraction"; Own "k_values"];
          (* 899-903 *) Mem "_repr_png_" Method [Try "plot"] ];
    (* freud/environment.py:41-141 *)
    PC "AngularSeparationNeighbor" (Some "_PairCompute") (Some "AngularSeparationNeighbor")
       [] [] false
       [
          (* 45-46 *) Mem "__init__" Method [];
          (* 48-123 *) Mem "compute" Method [Own "_preprocess_arguments"; Cpp "compute"];
          (* 126-130 *) Mem "angles" Computed [Cpp "getAngles"];
          (* 132-133 *) Mem "__repr__" Method [];
          (* 136-141 *) Mem "nlist" Computed [Cpp "getNList"] ];
    (* freud/environment.py:144-193 *)
    PC "AngularSeparationGlobal" (Some "_Compute") (Some "AngularSeparationGlobal")
       [] [] false
       [
          (* 148-149 *) Mem "__init__" Method [];
          (* 151-184 *) Mem "compute" Method [Cpp "compute"];
          (* 187-190 *) Mem "angles" Computed [Cpp "getAngles"];
          (* 192-193 *) Mem "__repr__" Method [] ];
    (* freud/environment.py:196-388 *)
    PC "BondOrder" (Some "_SpatialHistogram") (Some "BondOrder")
       ["known_modes"] [] false
       [
          (* 272-284 *) Mem "__init__" Method [Own "known_modes"];
          (* 287-292 *) Mem "default_query_args" Getter [Unavailable];
          (* 294-366 *) Mem "compute" Method [Own "_reset"; Own "_preprocess_arguments"; Cpp "accumulate"];
          (* 369-371 *) Mem "bond_order" Computed [Cpp "getBondOrder"];
          (* 374-376 *) Mem "box" Computed [Cpp "getBox"];
          (* 378-383 *) Mem "__repr__" Method [Own "nbins"; Own "mode"];
          (* 386-388 *) Mem "mode" Getter [Cpp "getMode"] ];
    (* freud/environment.py:391-549 *)
    PC "LocalDescriptors" (Some "_PairCompute") (Some "LocalDescriptors")
       ["known_modes"] [] false
       [
          (* 427-434 *) Mem "__init__" Method [Own "known_modes"];
          (* 436-495 *) Mem "compute" Method [Own "_preprocess_arguments"; Own "mode"; Cpp "compute"];
          (* 498-503 *) Mem "nlist" Computed [Cpp "getNList"];
          (* 506-509 *) Mem "sph" Computed [Cpp "getSph"];
          (* 512-519 *) Mem "num_sphs" Computed [Cpp "getNSphs"];
          (* 522-525 *) Mem "l_max" Getter [Cpp "getLMax"];
          (* 528-531 *) Mem "negative_m" Getter [Cpp "getNegativeM"];
          (* 534-543 *) Mem "mode" Getter [Cpp "getMode"; Own "known_modes"];
          (* 545-549 *) Mem "__repr__" Method [Own "l_max"; Own "negative_m"; Own "mode"] ];
    (* freud/environment.py:645-660 *)
    PC "_MatchEnv" (Some "_PairCompute") (Some "MatchEnv")
       [] [] false
       [
          (* 648-650 *) Mem "__init__" Method [];
          (* 653-657 *) Mem "point_environments" Computed [Cpp "getPointEnvironments"];
          (* 659-660 *) Mem "__repr__" Method [] ];
    (* freud/environment.py:663-849 *)
    PC "EnvironmentCluster" (Some "_MatchEnv") (Some "EnvironmentCluster")
       [] [] false
       [
          (* 668-669 *) Mem "__init__" Method [];
          (* 671-803 *) Mem "compute" Method [Own "_preprocess_arguments"; Own "_resolve_neighbors"; Cpp "compute"];
          (* 806-809 *) Mem "cluster_idx" Computed [Cpp "getClusters"];
          (* 812-814 *) Mem "num_clusters" Computed [Cpp "getNumClusters"];
          (* 817-821 *) Mem "cluster_environments" Computed [Cpp "getClusterEnvironments"];
          (* 823-843 *) Mem "plot" Method [Own "cluster_idx"];
          (* 845-849 *) Mem "_repr_png_" Method [Try "plot"] ];
    (* freud/environment.py:852-931 *)
    PC "EnvironmentMotifMatch" (Some "_MatchEnv") (Some "EnvironmentMotifMatch")
       [] [] false
       [
          (* 863-864 *) Mem "__init__" Method [];
          (* 866-924 *) Mem "compute" Method [Own "_preprocess_arguments"; Cpp "compute"];
          (* 927-931 *) Mem "matches" Computed [Cpp "getMatches"] ];
    (* freud/environment.py:934-994 *)
    PC "_EnvironmentRMSDMinimizer" (Some "_MatchEnv") (Some "EnvironmentRMSDMinimizer")
       [] [] false
       [
          (* 948-949 *) Mem "__init__" Method [];
          (* 951-988 *) Mem "compute" Method [Own "_preprocess_arguments"; Cpp "compute"];
          (* 991-994 *) Mem "rmsds" Computed [Cpp "getRMSDs"] ];
    (* freud/environment.py:997-1100 *)
    PC "LocalBondProjection" (Some "_PairCompute") (Some "LocalBondProjection")
       [] [] false
       [
          (* 1003-1004 *) Mem "__init__" Method [];
          (* 1006-1074 *) Mem "compute" Method [Own "_preprocess_arguments"; Cpp "compute"];
          (* 1077-1082 *) Mem "nlist" Computed [Cpp "getNList"];
          (* 1085-1089 *) Mem "projections" Computed [Cpp "getProjections"];
          (* 1092-1097 *) Mem "normed_projections" Computed [Cpp "getNormedProjections"];
          (* 1099-1100 *) Mem "__repr__" Method [] ];
    (* freud/interface.py:15-68 *)
    PC "Interface" (Some "_PairCompute") None
       ["_point_ids"; "_query_point_ids"] [] false
       [
          (* 18-20 *) Mem "__init__" Method [SetOwn "_point_ids"; SetOwn "_query_point_ids"];
          (* 22-44 *) Mem "compute" Method [SetOwn "_point_ids"; SetOwn "_query_point_ids"];
          (* 47-49 *) Mem "point_count" Computed [Own "_point_ids"];
          (* 52-54 *) Mem "point_ids" Computed [Own "_point_ids"];
          (* 57-60 *) Mem "query_point_count" Computed [Own "_query_point_ids"];
          (* 63-65 *) Mem "query_point_ids" Computed [Own "_query_point_ids"];
          (* 67-68 *) Mem "__repr__" Method [] ];
    (* freud/locality.py:39-175 *)
    PC "_QueryArgs" None (Some "QueryArgs")
       [] [] false
       [
          (* 49-78 *) Mem "__init__" Method [SetOwn "mode"; SetOwn "r_max"; SetOwn "r_min"; SetOwn "r_guess"; SetOwn
            "num_neighbors"; SetOwn "exclude_ii"; SetOwn "scale"];
          (* 80-88 *) Mem "update" Method [];
          (* 96-104 *) Mem "mode" Getter [Cpp "mode"];
          (* 107-116 *) Mem "mode" Setter [SetCpp "mode"];
          (* 119-120 *) Mem "r_guess" Getter [Cpp "r_guess"];
          (* 123-124 *) Mem "r_guess" Setter [SetCpp "r_guess"];
          (* 127-128 *) Mem "r_min" Getter [Cpp "r_min"];
          (* 131-132 *) Mem "r_min" Setter [SetCpp "r_min"];
          (* 135-136 *) Mem "r_max" Getter [Cpp "r_max"];
          (* 139-140 *) Mem "r_max" Setter [SetCpp "r_max"];
          (* 143-144 *) Mem "num_neighbors" Getter [Cpp "num_neighbors"];
          (* 147-148 *) Mem "num_neighbors" Setter [SetCpp "num_neighbors"];
          (* 151-152 *) Mem "exclude_ii" Getter [Cpp "exclude_ii"];
          (* 155-156 *) Mem "exclude_ii" Setter [SetCpp "exclude_ii"];
          (* 159-160 *) Mem "scale" Getter [Cpp "scale"];
          (* 163-164 *) Mem "scale" Setter [SetCpp "scale"];
          (* 166-172 *) Mem "__repr__" Method [Own "mode"; Own "r_max"; Own "num_neighbors"; Own "exclude_ii"; Own
            "scale"];
          (* 174-175 *) Mem "__str__" Method [Own "__repr__"] ];
    (* freud/locality.py:178-229 *)
    PC "NeighborQueryResult" None None
       ["_nq"; "_points"; "_query_args"] [] false
       [
          (* 196-199 *) Mem "__init__" Method [SetOwn "_nq"; SetOwn "_points"; SetOwn "_query_args"];
          (* 201-211 *) Mem "__iter__" Method [Own "_nq"; Own "_points"; Own "_query_args"];
          (* 213-229 *) Mem "toNeighborList" Method [Own "_nq"; Own "_points"; Own "_query_args"] ];
    (* freud/locality.py:232-440 *)
    PC "NeighborQuery" None None
       [] [] false
       [
          (* 260-265 *) Mem "__init__" Method [Unavailable];
          (* 385-388 *) Mem "box" Getter [Cpp "getBox"];
          (* 391-393 *) Mem "points" Getter [Own "_points"];
          (* 395-414 *) Mem "query" Method [];
          (* 416-440 *) Mem "plot" Method [] ];
    (* freud/locality.py:443-751 *)
    PC "NeighborList" None (Some "NeighborList")
       [] [] false
       [
          (* 600-601 *) Mem "__init__" Method [];
          (* 603-605 *) Mem "get_ptr" Method [];
          (* 607-609 *) Mem "copy_c" Method [Cpp "copy"];
          (* 611-626 *) Mem "copy" Method [Own "copy_c"];
          (* 628-630 *) Mem "__getitem__" Method [Cpp "getNeighbors"];
          (* 633-638 *) Mem "query_point_indices" Getter [Own "__getitem__"];
          (* 641-646 *) Mem "point_indices" Getter [Own "__getitem__"];
          (* 649-652 *) Mem "weights" Getter [Cpp "getWeights"];
          (* 655-658 *) Mem "distances" Getter [Cpp "getDistances"];
          (* 661-664 *) Mem "vectors" Getter [Cpp "getVectors"];
          (* 667-670 *) Mem "segments" Getter [Cpp "getSegments"];
          (* 673-676 *) Mem "neighbor_counts" Getter [Cpp "getCounts"];
          (* 678-680 *) Mem "__len__" Method [Cpp "getNumBonds"];
          (* 683-688 *) Mem "num_query_points" Getter [Cpp "getNumQueryPoints"];
          (* 691-696 *) Mem "num_points" Getter [Cpp "getNumPoints"];
          (* 698-705 *) Mem "find_first_index" Method [Cpp "find_first_index"];
          (* 707-724 *) Mem "filter" Method [Cpp "filter"];
          (* 726-737 *) Mem "filter_r" Method [Cpp "filter_r"];
          (* 739-751 *) Mem "sort" Method [Cpp "sort"] ];
    (* freud/locality.py:839-849 *)
    PC "_RawPoints" (Some "NeighborQuery") (Some "RawPoints")
       ["_points"] [] false
       [
          (* 843-849 *) Mem "__init__" Method [SetOwn "_points"] ];
    (* freud/locality.py:852-869 *)
    PC "AABBQuery" (Some "NeighborQuery") (Some "AABBQuery")
       ["_points"] [] false
       [
          (* 865-869 *) Mem "__init__" Method [SetOwn "_points"] ];
    (* freud/locality.py:872-897 *)
    PC "LinkCell" (Some "NeighborQuery") (Some "LinkCell")
       ["_points"] [] false
       [
          (* 889-892 *) Mem "__init__" Method [SetOwn "_points"];
          (* 895-897 *) Mem "cell_width" Getter [Cpp "getCellWidth"] ];
    (* freud/locality.py:900-921 *)
    PC "CellQuery" (Some "NeighborQuery") (Some "CellQuery")
       ["_points"] [] false
       [
          (* 917-921 *) Mem "__init__" Method [SetOwn "_points"] ];
    (* freud/locality.py:924-1000 *)
    PC "_PairCompute" (Some "_Compute") None
       [] [] false
       [
          (* 935-968 *) Mem "_preprocess_arguments" Method [Own "_resolve_neighbors"];
          (* 970-993 *) Mem "_resolve_neighbors" Method [Own "default_query_args"];
          (* 996-1000 *) Mem "default_query_args" Getter [Unavailable] ];
    (* freud/locality.py:1003-1058 *)
    PC "_SpatialHistogram" (Some "_PairCompute") None
       [] [] false
       [
          (* 1008-1010 *) Mem "__init__" Method [];
          (* 1013-1016 *) Mem "default_query_args" Getter [Own "r_max"];
          (* 1019-1022 *) Mem "box" Computed [Cpp "getBox"];
          (* 1025-1027 *) Mem "bin_counts" Computed [Cpp "getBinCounts"];
          (* 1030-1034 *) Mem "bin_centers" Getter [Cpp "getBinCenters"];
          (* 1037-1042 *) Mem "bin_edges" Getter [Cpp "getBinEdges"];
          (* 1045-1048 *) Mem "bounds" Getter [Cpp "getBounds"];
          (* 1051-1054 *) Mem "nbins" Getter [Cpp "getAxisSizes"];
          (* 1056-1058 *) Mem "_reset" Method [Cpp "reset"] ];
    (* freud/locality.py:1061-1091 *)
    PC "_SpatialHistogram1D" (Some "_SpatialHistogram") None
       [] [] false
       [
          (* 1066-1068 *) Mem "__init__" Method [];
          (* 1071-1074 *) Mem "bin_centers" Getter [Cpp "getBinCenters"];
          (* 1077-1081 *) Mem "bin_edges" Getter [Cpp "getBinEdges"];
          (* 1084-1086 *) Mem "bounds" Getter [Cpp "getBounds"];
          (* 1089-1091 *) Mem "nbins" Getter [Cpp "getAxisSizes"] ];
    (* freud/locality.py:1094-1156 *)
    PC "PeriodicBuffer" (Some "_Compute") (Some "PeriodicBuffer")
       [] [] false
       [
          (* 1097-1098 *) Mem "__init__" Method [];
          (* 1100-1131 *) Mem "compute" Method [Cpp "compute"];
          (* 1134-1137 *) Mem "buffer_points" Computed [Cpp "getBufferPoints"];
          (* 1141-1144 *) Mem "buffer_ids" Computed [Cpp "getBufferIds"];
          (* 1147-1150 *) Mem "buffer_box" Computed [Cpp "getBufferBox"];
          (* 1152-1153 *) Mem "__repr__" Method [];
          (* 1155-1156 *) Mem "__str__" Method [Own "__repr__"] ];
    (* freud/locality.py:1159-1268 *)
    PC "Voronoi" (Some "_Compute") (Some "Voronoi")
       [] ["_box"] false
       [
          (* 1174-1175 *) Mem "__init__" Method [];
          (* 1177-1188 *) Mem "compute" Method [Cpp "compute"; SetOwn "_box"];
          (* 1191-1205 *) Mem "polytopes" Computed [Cpp "getPolytopes"];
          (* 1208-1211 *) Mem "volumes" Computed [Cpp "getVolumes"];
          (* 1214-1232 *) Mem "nlist" Computed [Cpp "getNeighborList"];
          (* 1234-1235 *) Mem "__repr__" Method [];
          (* 1237-1238 *) Mem "__str__" Method [Own "__repr__"];
          (* 1240-1262 *) Mem "plot" Method [Own "_box"];
          (* 1264-1268 *) Mem "_repr_png_" Method [Try "plot"] ];
    (* freud/locality.py:1271-1336 *)
    PC "Filter" (Some "_PairCompute") None
       [] [] false
       [
          (* 1292-1294 *) Mem "__init__" Method [Unavailable];
          (* 1296-1301 *) Mem "_preprocess_arguments" Method [Super "_preprocess_arguments"];
          (* 1303-1326 *) Mem "compute" Method [Own "_preprocess_arguments"; Cpp "compute"];
          (* 1329-1331 *) Mem "filtered_nlist" Computed [Cpp "getFilteredNlist"];
          (* 1334-1336 *) Mem "unfiltered_nlist" Computed [Cpp "getUnfilteredNlist"] ];
    (* freud/locality.py:1339-1376 *)
    PC "FilterSANN" (Some "Filter") (Some "FilterSANN")
       [] [] false
       [
          (* 1375-1376 *) Mem "__init__" Method [] ];
    (* freud/locality.py:1379-1505 *)
    PC "FilterRAD" (Some "Filter") (Some "FilterRAD")
       [] [] false
       [
          (* 1432-1435 *) Mem "__init__" Method [];
          (* 1437-1505 *) Mem "compute" Method [Own "_preprocess_arguments"; Cpp "compute"] ];
    (* freud/msd.py:71-290 *)
    PC "MSD" (Some "_Compute") None
       ["_particle_msd"; "mode"; "_box"] [] true
       [
          (* 151-162 *) Mem "__init__" Method [SetOwn "_box"; SetOwn "_particle_msd"; SetOwn "mode"];
          (* 164-238 *) Mem "compute" Method [SetOwn "_particle_msd"; Own "_box"; Own "mode"];
          (* 241-243 *) Mem "box" Getter [Own "_box"];
          (* 246-249 *) Mem "msd" Computed [Own "_particle_msd"];
          (* 252-255 *) Mem "particle_msd" Computed [Own "_particle_msd"];
          (* 257-258 *) Mem "__repr__" Method [Own "_box"; Own "mode"];
          (* 260-284 *) Mem "plot" Method [Own "mode"; Own "msd"];
          (* 286-290 *) Mem "_repr_png_" Method [Try "plot"] ];
    (* freud/order.py:36-135 *)
    PC "Cubatic" (Some "_Compute") (Some "Cubatic")
       [] [] false
       [
          (* 55-61 *) Mem "__init__" Method [];
          (* 63-72 *) Mem "compute" Method [Cpp "compute"];
          (* 75-77 *) Mem "t_initial" Getter [Cpp "getTInitial"];
          (* 80-82 *) Mem "t_final" Getter [Cpp "getTFinal"];
          (* 85-87 *) Mem "scale" Getter [Cpp "getScale"];
          (* 90-92 *) Mem "n_replicates" Getter [Cpp "getNReplicates"];
          (* 95-97 *) Mem "seed" Getter [Cpp "getSeed"];
          (* 100-102 *) Mem "order" Computed [Cpp "getCubaticOrderParameter"];
          (* 105-109 *) Mem "orientation" Computed [Cpp "getCubaticOrientation"];
          (* 112-115 *) Mem "particle_order" Computed [Cpp "getParticleOrderParameter"];
          (* 118-122 *) Mem "global_tensor" Computed [Cpp "getGlobalTensor"];
          (* 125-128 *) Mem "cubatic_tensor" Computed [Cpp "getCubaticTensor"];
          (* 130-135 *) Mem "__repr__" Method [Own "t_initial"; Own "t_final"; Own "scale"; Own "n_replicates"; Own
            "seed"] ];
    (* freud/order.py:138-227 *)
    PC "Nematic" (Some "_Compute") (Some "Nematic")
       [] [] false
       [
          (* 163-164 *) Mem "__init__" Method [];
          (* 166-200 *) Mem "compute" Method [Cpp "compute"];
          (* 203-205 *) Mem "order" Computed [Cpp "getNematicOrderParameter"];
          (* 208-211 *) Mem "director" Computed [Cpp "getNematicDirector"];
          (* 214-218 *) Mem "particle_tensor" Computed [Cpp "getParticleTensor"];
          (* 221-224 *) Mem "nematic_tensor" Computed [Cpp "getNematicTensor"];
          (* 226-227 *) Mem "__repr__" Method [] ];
    (* freud/order.py:230-372 *)
    PC "Hexatic" (Some "_PairCompute") (Some "Hexatic")
       [] [] false
       [
          (* 281-282 *) Mem "__init__" Method [];
          (* 284-314 *) Mem "compute" Method [Own "_preprocess_arguments"; Cpp "compute"];
          (* 317-320 *) Mem "default_query_args" Getter [Own "k"];
          (* 323-326 *) Mem "particle_order" Computed [Cpp "getOrder"];
          (* 329-331 *) Mem "k" Getter [Cpp "getK"];
          (* 334-336 *) Mem "weighted" Getter [Cpp "isWeighted"];
          (* 338-341 *) Mem "__repr__" Method [Own "k"; Own "weighted"];
          (* 343-366 *) Mem "plot" Method [Own "weighted"; Own "k"; Own "particle_order"];
          (* 368-372 *) Mem "_repr_png_" Method [Try "plot"] ];
    (* freud/order.py:375-642 *)
    PC "Steinhardt" (Some "_PairCompute") (Some "Steinhardt")
       [] [] false
       [
          (* 489-495 *) Mem "__init__" Method [];
          (* 498-501 *) Mem "average" Getter [Cpp "isAverage"];
          (* 504-507 *) Mem "wl" Getter [Cpp "isWl"];
          (* 510-512 *) Mem "weighted" Getter [Cpp "isWeighted"];
          (* 515-516 *) Mem "wl_normalize" Getter [Cpp "isWlNormalized"];
          (* 519-522 *) Mem "l" Getter [Cpp "getL"];
          (* 525-532 *) Mem "order" Computed [Cpp "getOrder"];
          (* 535-540 *) Mem "particle_order" Computed [Cpp "getParticleOrder"];
          (* 543-551 *) Mem "ql" Computed [Cpp "getQl"];
          (* 554-559 *) Mem "particle_harmonics" Computed [Cpp "getQlm"];
          (* 561-589 *) Mem "compute" Method [Own "_preprocess_arguments"; Cpp "compute"];
          (* 591-596 *) Mem "__repr__" Method [Own "l"; Own "average"; Own "wl"; Own "weighted"; Own "wl_normalize"];
          (* 598-636 *) Mem "plot" Method [Own "l"; Own "weighted"; Own "wl"; Own "average"; Own "particle_order"];
          (* 638-642 *) Mem "_repr_png_" Method [Try "plot"] ];
    (* freud/order.py:645-813 *)
    PC "SolidLiquid" (Some "_PairCompute") (Some "SolidLiquid")
       [] [] false
       [
          (* 684-694 *) Mem "__init__" Method [];
          (* 696-715 *) Mem "compute" Method [Own "_preprocess_arguments"; Cpp "compute"];
          (* 718-720 *) Mem "l" Getter [Cpp "getL"];
          (* 723-725 *) Mem "q_threshold" Getter [Cpp "getQThreshold"];
          (* 728-730 *) Mem "solid_threshold" Getter [Cpp "getSolidThreshold"];
          (* 733-735 *) Mem "normalize_q" Getter [Cpp "getNormalizeQ"];
          (* 738-741 *) Mem "cluster_idx" Computed [Cpp "getClusterIdx"];
          (* 744-748 *) Mem "ql_ij" Computed [Cpp "getQlij"];
          (* 751-755 *) Mem "particle_harmonics" Computed [Cpp "getQlm"];
          (* 758-761 *) Mem "cluster_sizes" Computed [Cpp "getClusterSizes"];
          (* 764-766 *) Mem "largest_cluster_size" Computed [Cpp "getLargestClusterSize"];
          (* 769-772 *) Mem "nlist" Computed [Cpp "getNList"];
          (* 775-778 *) Mem "num_connections" Computed [Cpp "getNumberOfConnections"];
          (* 780-785 *) Mem "__repr__" Method [Own "l"; Own "q_threshold"; Own "solid_threshold"; Own "normalize_q"];
          (* 787-807 *) Mem "plot" Method [Own "cluster_idx"];
          (* 809-813 *) Mem "_repr_png_" Method [Try "plot"] ];
    (* freud/order.py:816-885 *)
    PC "RotationalAutocorrelation" (Some "_Compute") (Some "RotationalAutocorrelation")
       [] [] false
       [
          (* 846-850 *) Mem "__init__" Method [];
          (* 852-865 *) Mem "compute" Method [Cpp "compute"];
          (* 868-870 *) Mem "order" Computed [Cpp "getRotationalAutocorrelation"];
          (* 873-876 *) Mem "particle_order" Computed [Cpp "getRAArray"];
          (* 879-882 *) Mem "l" Getter [Cpp "getL"];
          (* 884-885 *) Mem "__repr__" Method [Own "l"] ];
    (* freud/order.py:888-1026 *)
    PC "ContinuousCoordination" (Some "_PairCompute") (Some "ContinuousCoordination")
       [] [] false
       [
          (* 938-943 *) Mem "__init__" Method [];
          (* 945-978 *) Mem "compute" Method [Cpp "compute"];
          (* 981-987 *) Mem "particle_order" Computed [Own "coordination"];
          (* 990-996 *) Mem "coordination" Computed [Cpp "getCoordination"];
          (* 999-1005 *) Mem "powers" Getter [Cpp "getPowers"];
          (* 1008-1010 *) Mem "compute_log" Getter [Cpp "getComputeLog"];
          (* 1013-1015 *) Mem "compute_exp" Getter [Cpp "getComputeExp"];
          (* 1018-1020 *) Mem "number_of_coordinations" Getter [Cpp "getNumberOfCoordinations"];
          (* 1022-1026 *) Mem "__repr__" Method [Own "powers"; Own "compute_log"; Own "compute_exp"] ];
    (* freud/pmft.py:97-121 *)
    PC "_PMFT" (Some "_SpatialHistogram") None
       [] [] false
       [
          (* 107-109 *) Mem "__init__" Method [];
          (* 112-116 *) Mem "pmft" Computed [Own "_pcf"];
          (* 119-121 *) Mem "_pcf" Computed [Cpp "getPCF"] ];
    (* freud/pmft.py:124-221 *)
    PC "PMFTR12" (Some "_PMFT") (Some "PMFTR12")
       ["r_max"] [] false
       [
          (* 142-148 *) Mem "__init__" Method [SetOwn "r_max"];
          (* 150-214 *) Mem "compute" Method [Own "_reset"; Own "_preprocess_arguments"; Cpp "accumulate"];
          (* 216-221 *) Mem "__repr__" Method [Own "r_max"; Own "nbins"] ];
    (* freud/pmft.py:224-325 *)
    PC "PMFTXYT" (Some "_PMFT") (Some "PMFTXYT")
       ["r_max"] [] false
       [
          (* 243-250 *) Mem "__init__" Method [SetOwn "r_max"];
          (* 252-316 *) Mem "compute" Method [Own "_reset"; Own "_preprocess_arguments"; Cpp "accumulate"];
          (* 318-325 *) Mem "__repr__" Method [Own "bounds"; Own "nbins"] ];
    (* freud/pmft.py:328-453 *)
    PC "PMFTXY" (Some "_PMFT") (Some "PMFTXY")
       ["r_max"] [] false
       [
          (* 351-358 *) Mem "__init__" Method [SetOwn "r_max"];
          (* 360-413 *) Mem "compute" Method [Own "_reset"; Own "_preprocess_arguments"; Cpp "accumulate"];
          (* 416-421 *) Mem "bin_counts" Computed [Super "bin_counts"];
          (* 423-430 *) Mem "__repr__" Method [Own "bounds"; Own "nbins"];
          (* 432-436 *) Mem "_repr_png_" Method [Try "plot"];
          (* 438-453 *) Mem "plot" Method [] ];
    (* freud/pmft.py:456-589 *)
    PC "PMFTXYZ" (Some "_PMFT") (Some "PMFTXYZ")
       ["shiftvec"; "r_max"] [] false
       [
          (* 480-497 *) Mem "__init__" Method [SetOwn "shiftvec"; SetOwn "r_max"];
          (* 499-574 *) Mem "compute" Method [Own "_reset"; Own "_preprocess_arguments"; Own "shiftvec"; Cpp
            "accumulate"];
          (* 576-589 *) Mem "__repr__" Method [Own "bounds"; Own "nbins"; Own "shiftvec"] ];
    (* freud/util.py:11-83 *)
    PC "_Compute" None None
       [] [] false
       [
          (* 36-37 *) Mem "__init__" Method [];
          (* 82-83 *) Mem "__str__" Method [Own "__repr__"] ] ].

Definition mem (a : string) (l : list string) : bool := existsb (String.eqb a) l.

Section Objects.
(** The tables: python classes and exported classes. *)
Variables (py : list pyclass) (cpp : list cppclass).

(** Method resolution order: freud uses single inheritance only, so it is the chain of base classes; the number
    bounds its length. *)
Fixpoint chain (fuel : nat) (c : string) : list pyclass :=
  match fuel with
  | O => []
  | S f => match find (fun p => String.eqb (p_name p) c) py with
           | Some p => p :: match p_base p with Some b => chain f b | None => [] end
           | None => []
           end
  end.

(** The names an exported class has, with those of its base classes. *)
Fixpoint bound (fuel : nat) (sel : cppclass -> list string) (c n : string) : bool :=
  match fuel with
  | O => false
  | S f => match find (fun p => String.eqb (c_name p) c) cpp with
           | Some p => mem n (sel p) || match c_base p with Some b => bound f sel b n | None => false end
           | None => false
           end
  end.

(** The class of self._cpp_obj: the one the nearest __init__ constructs. *)
Fixpoint cpp_of (ch : list pyclass) : option string :=
  match ch with
  | [] => None
  | p :: r => match p_cpp p with Some c => Some c | None => cpp_of r end
  end.

Definition cpp_has (sel : cppclass -> list string) (ch : list pyclass) (n : string) : bool :=
  match cpp_of ch with Some c => bound 10 sel c n | None => false end.

(** The nearest class in the order that defines the name, and what follows it. *)
Definition named (a : string) (m : member) : bool :=
  String.eqb (m_name m) a && match m_kind m with Setter => false | _ => true end.

Fixpoint locate (ch : list pyclass) (a : string) : option (pyclass * member * list pyclass) :=
  match ch with
  | [] => None
  | p :: r => match find (named a) (p_members p) with Some m => Some (p, m, r) | None => locate r a end
  end.

Definition setter (p : pyclass) (a : string) : option member :=
  find (fun m => String.eqb (m_name m) a && match m_kind m with Setter => true | _ => false end) (p_members p).

(** The object: _called_compute (missing counts as False: both raise AttributeError), and which of the attributes
    that compute assigns are there. *)
Record state := St { called : bool; late : list string }.

(** What an access gives: a value; AttributeError by the guard; AttributeError for a name the C++ object does not
    have, for a name the python object does not have, for a property without setter; NotImplementedError (or
    RuntimeError of an abstract __init__); python's recursion limit. *)
Inductive outcome := Value | NotComputed | NoBinding (n : string) | NoAttribute (a : string) | NoSetter (a : string)
                   | NotImplemented | TooDeep.

Definition fields (st : state) (ch : list pyclass) : list string := (flat_map p_init ch ++ late st)%list.

(** Attributes every python object has (object.__repr__, object.__str__). *)
Definition builtin (a : string) : bool := mem a ["__repr__"; "__str__"].

Definition derives_compute (ch : list pyclass) : bool := existsb (fun p => String.eqb (p_name p) "_Compute") ch.

Inductive access := Get | Put.

(** Accessing attribute [a]: util.py:39-59 for plot, then python's lookup: a property found in the order, the
    object's own attributes, a method found in the order.  [self]: the order of the object's class; [from]: where
    the lookup starts (super()). *)
Fixpoint eval (fuel : nat) (st : state) (self from : list pyclass) (k : access) (a : string) : outcome :=
  match fuel with
  | O => TooDeep
  | S f =>
    let run (rest : list pyclass) (us : list use) : outcome :=
      (fix go (us : list use) : outcome :=
         match us with
         | [] => Value
         | u :: r =>
           match (match u with
                  | Cpp n => if cpp_has c_names self n then Value else NoBinding n
                  | SetCpp n => if cpp_has c_rw self n then Value else NoBinding n
                  | Own b => eval f st self self Get b
                  | SetOwn b => eval f st self self Put b
                  | Super b => eval f st self rest Get b
                  | Try b => match eval f st self self Get b with
                             | NotImplemented => NotImplemented
                             | TooDeep => TooDeep
                             | _ => Value
                             end
                  | Unavailable => NotImplemented
                  end) with
           | Value => go r
           | e => e
           end
         end) us in
    match k with
    | Get =>
      if String.eqb a "plot" && derives_compute self && negb (called st) then NotComputed
      else match locate from a with
           | Some (p, m, rest) =>
             match m_kind m with
             | Computed => if called st then run rest (m_uses m) else NotComputed
             | Method => if mem a (fields st self) then Value else run rest (m_uses m)
             | _ => run rest (m_uses m)
             end
           | None => if mem a (fields st self) || builtin a then Value else NoAttribute a
           end
    | Put =>
      match locate from a with
      | Some (p, m, rest) =>
        match m_kind m with
        | Method => Value
        | _ => match setter p a with Some s => run rest (m_uses s) | None => NoSetter a end
        end
      | None => Value
      end
    end
  end.

(** The attributes compute assigns first. *)
Definition late_of (ch : list pyclass) : list string := flat_map p_late ch.

(** One step of a program: compute returns; compute raises, having assigned some of its attributes; any other
    access (reads, assignments, method calls) leaves both parts of the state as they are. *)
Inductive op := Returns | Raises (assigned : list string) | Access (k : access) (a : string).

Definition step (ch : list pyclass) (st : state) (o : op) : state :=
  match o with
  | Returns => St true (late_of ch)
  | Raises l => St (called st || existsb p_early ch) (filter (fun a => mem a (late st) || mem a l) (late_of ch))
  | Access _ _ => st
  end.

Definition run (ch : list pyclass) (prog : list op) : state := fold_left (step ch) prog (St false []).

(** dir(object), as far as freud's own classes define it. *)
Definition dir (ch : list pyclass) : list string := flat_map (fun p => (map m_name (p_members p) ++ p_init p)%list) ch.
End Objects.

(** An object of a freud class. *)
Definition order (c : string) : list pyclass := chain freud_py 10 c.
Definition freud_eval := eval freud_cpp.
Definition recursion_limit : nat := 1000.
Definition get (c : string) (st : state) (a : string) : outcome :=
  freud_eval recursion_limit st (order c) (order c) Get a.
Definition put (c : string) (st : state) (a : string) : outcome :=
  freud_eval recursion_limit st (order c) (order c) Put a.
