(** Models the fault geometry in the moment rate file: CurvilinearBoundaryHDF5Adapter (src/io/HDF5Adapter.h) and
    MomentRateWriter::write_static (app/tandem/Writer.h:306-334), on top of Curvilinear (ErrorModel.v), the
    equidistant nodes (EquidistantModel.v), the facets of the fault (VtuFieldModel.v) and HDF5 datasets
    (Hdf5Model.v). *)
Require Import Arith ZArith Reals String List.
Require Import Verif.Base Verif.LinAlg Verif.TensorModel Verif.TopoModel Verif.GeometryModel Verif.RefElementModel Verif.ErrorModel Verif.EquidistantModel Verif.VtuFieldModel Verif.Hdf5Model.
Import ListNotations.
Local Open Scope nat_scope.
Local Open Scope list_scope.
Local Open Scope opt_scope.

(** What a dataset holds: floating point numbers (reals here) or 32-bit integers. *)
Inductive number := Real (x : R) | Integer (z : Z).

(** HDF5Adapter.h:69-70: refNodes_; std::array<double, D-1> as a function of the coordinate. *)
Definition adapter_nodes (D degree : nat) : list (nat -> R) :=
  map (fun p d => nth d p 0%R) (equidistant_nodes (D - 1) VTK degree).

(** What a rank's adapter is made from: the geometry, the incidences of the local mesh, the facets of the fault
    (SEAS.cpp:140-145) and the global numbers of facets, facets().l2cg. *)
Record fault_rank := { fr_cl : curvilinear; fr_upward : nat -> list nat; fr_downward : nat -> list nat;
                       fr_fctNos : list nat; fr_l2cg : nat -> nat }.

(** HDF5Adapter.h:104-121 getVertices, [bnds] from the constructor (:71-84), [Es] from setRefNodes (:97-104).
    faultVertices is a block of D * numElements * numBasisNodes numbers; its resize zeroes it.  A write past
    its end is None. *)
Definition getVertices (D degree : nat) (x : fault_rank) (m0 : mem) : option (list R) :=
  let points := adapter_nodes D degree in
  let nb := length points in
  do bnds <- boundary_bnds (fr_upward x) (fr_downward x) (fr_fctNos x);
  do Es <- boundary_E D (fr_cl x) m0 points;
  let totalValues := D * length bnds * nb in
  do m <- fold_left (fun om elNo =>
    do m <- om;
    let start := elNo * D * D in
    if start + D * nb <=? totalValues
    then boundary_map (fr_cl x) bnds Es elNo (packed start [D; nb]) m
    else None) (seq 0 (length bnds)) (Some (fun _ => 0%R));
  Some (stored m totalValues).
(** HDF5Adapter.h:82, :122. *)
Definition getGlobalFctNos (x : fault_rank) : list nat := map (fr_l2cg x) (fr_fctNos x).

(** H5Dwrite with memory type H5T_NATIVE_LLONG and file type H5T_NATIVE_INT: the library converts, and a value the
    file's type cannot hold becomes the largest one it can (the numbers are not negative). *)
Definition to_int (n : nat) : Z := Z.min (Z.of_nat n) (2 ^ 31 - 1).

(** Writer.h:306-334 write_static, for all ranks; [order] is the order in which the parts of the collective writes
    reach the file. *)
Definition write_static (D degree procs : nat) (order : list nat) (x : nat -> fault_rank) (m0 : mem) (f : file number) : option (file number) :=
  let numFaultBasis := length (adapter_nodes D degree) in
  do vertices <- map_opt (fun r => getVertices D degree (x r) m0) (seq 0 procs);
  let numElements r := length (nth r vertices []) / (numFaultBasis * D) in
  do f <- create number (Real 0) f "faultVertices" procs (fun r => [numElements r; D; D]) 0 true;
  do f <- write_named number (Real 0) f "faultVertices" 0 (fun r => map Real (nth r vertices [])) (fun r => [numElements r; D; D]) 0 0 true order;
  let nos r := getGlobalFctNos (x r) in
  do f <- create number (Real 0) f "faultNo" procs (fun r => [length (nos r)]) 0 true;
  write_named number (Real 0) f "faultNo" 0 (fun r => map (fun n => Integer (to_int n)) (nos r)) (fun r => [length (nos r)]) 0 0 true order.
