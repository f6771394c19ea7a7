(** Models app/tandem/SeasConfig.cpp and app/common/MeshConfig.cpp:30-56: the schema of tandem's
    configuration file, over the schema model. *)
Require Import ZArith QArith Bool Ascii String List.
From Verif Require Import SchemaModel.
Import ListNotations.
Local Open Scope list_scope.
Local Open Scope string_scope.
Local Open Scope Z_scope.

Section Config.
(** DomainDimension; whether tandem is built with ENABLE_HDF5. *)
Variable D : Z.
Variable enable_hdf5 : bool.
(** The file system at start-up: std::filesystem::exists, parent_path() if there is one, and the path
    relative to the directory of the configuration file (SchemaHelper.h:31-48). *)
Variable exists_path : string -> bool.
Variable parent_path : string -> option string.
Variable path_converter : string -> string.

Definition NaN_free_le (a : Q) (f : double) : bool :=
  match f with DNan => false | DInf neg => negb neg | DRat q => Qle_bool a q end.
(** The validators [](auto&& x) { return x >= 0; } and [](auto&& x) { return x > 0; }. *)
Definition nonneg (v : val) : bool :=
  match v with VFloat f => NaN_free_le 0 f | VInt z => 0 <=? z | _ => false end.
Definition pos (v : val) : bool :=
  match v with
  | VFloat DNan => false
  | VFloat (DInf neg) => negb neg
  | VFloat (DRat q) => negb (Qle_bool q 0)
  | VInt z => 0 <? z
  | _ => false
  end.
(** SchemaHelper.h:14-19 PathExists, :21-29 ParentPathExists. *)
Definition PathExists (v : val) : bool := match v with VStr p => exists_path p | _ => false end.
Definition ParentPathExists (v : val) : bool :=
  match v with
  | VStr p => match parent_path p with None => true | Some d => exists_path d end
  | _ => false
  end.
Definition not_enum (k : nat) (v : val) : bool :=
  match v with VEnum j => negb (Nat.eqb j k) | _ => false end.

(** if (iEquals(value, a)) return x; else if ... else return unknown. *)
Fixpoint by_name (names : list (string * outcome val)) (unknown : nat) (value : string) : outcome val :=
  match names with
  | [] => Ok (VEnum unknown)
  | (a, x) :: r =>
      match iEquals value a with
      | None => Undef
      | Some true => x
      | Some false => by_name r unknown value
      end
  end.
Definition enum (k : nat) : outcome val := Ok (VEnum k).
Definition num (q : Q) : option val := Some (VFloat (DRat q)).
Definition int32 : vtype := TInt (- 2147483648) 2147483647.
Definition uint32 : vtype := TInt 0 4294967295.
Definition uint64 : vtype := TInt 0 18446744073709551615.
Definition size_max : Z := 18446744073709551615.
Definition entry := (string * (nat * bool) * schema)%type.

(** SeasConfig.cpp:14-34; members of OutputConfig (SeasConfig.h:24-29): prefix, atol, rtol, t_min,
    t_max. *)
Definition output_entries : list entry :=
  [("prefix", (0%nat, false), SValue TString None (Some ParentPathExists) None);
   ("atol", (1%nat, false), SValue TDouble None (Some nonneg) (num (1 # (10 ^ 50))));
   ("rtol", (2%nat, false), SValue TDouble None (Some nonneg) (num (1 # 100)));
   ("t_min", (3%nat, false), SValue TDouble None (Some nonneg) (num 0));
   ("t_max", (4%nat, false), SValue TDouble None (Some pos) (num 31536000))].
Definition output_schema : schema := STable [None; None; None; None; None] output_entries None None.

(** TableWriterType (SeasConfig.h:22): Tecplot, CSV, HDF5, Unknown.  SeasConfig.cpp:112-127. *)
Definition table_type : schema :=
  SValue TOther (Some (by_name [("Tecplot", enum 0); ("CSV", enum 1)] 3)) (Some (not_enum 3))
    (Some (VEnum 1)).
Definition tabular_schema : schema :=
  STable [None; None; None; None; None; None]
    (output_entries ++ [("type", (5%nat, false), table_type)]) None None.
(** SeasConfig.cpp:104-110. *)
Definition domain_schema : schema :=
  STable [None; None; None; None; None; None]
    (output_entries ++ [("jacobian", (5%nat, false), SValue TBool None None (Some (VBool false)))])
    None None.
(** SeasConfig.cpp:129-158; the members type and probes of ProbeOutputConfig, Probe.h:10-13. *)
Definition probe_type : schema :=
  SValue TOther
    (Some (by_name [("Tecplot", enum 0); ("CSV", enum 1);
                    ("HDF5", if enable_hdf5 then enum 2 else Error true [])] 3))
    (Some (not_enum 3)) (Some (VEnum 1)).
Definition point : schema := SArray D D (Some (SValue TDouble None None None)) None None.
Definition one_probe : schema :=
  STable [None; None]
    [("name", (0%nat, false), SValue TString None None None); ("x", (1%nat, false), point)] None None.
Definition probe_schema : schema :=
  STable [None; None; None; None; None; Some (VEnum 1); None]
    (output_entries ++
     [("type", (5%nat, false), probe_type);
      ("probes", (6%nat, false), SArray 0 size_max (Some one_probe) None None)]) None None.

(** SeasConfig.cpp:36-45. *)
Definition gf_checkpoint_schema : schema :=
  STable [None; None]
    [("prefix", (0%nat, false), SValue TString None None (Some (VStr "gf_checkpoint")));
     ("freq_cputime", (1%nat, false), SValue TDouble None None (num 30))] None None.
(** SeasConfig.cpp:47-102; TsCheckpointStorageType (SeasConfig.h:83): NONE, UNLIMITED, LIMITED,
    UNKNOWN. *)
Definition ts_checkpoint_schema : schema :=
  STable [None; None; None; None; None; None; None]
    [("load_directory", (0%nat, true), SValue TString None (Some PathExists) None);
     ("save_directory", (1%nat, false), SValue TString None (Some ParentPathExists) (Some (VStr "checkpoint")));
     ("freq_step", (2%nat, false), SValue int32 None (Some pos) (Some (VInt 1000)));
     ("freq_cputime", (3%nat, false), SValue TDouble None (Some pos) (num 30));
     ("freq_physical_time", (4%nat, false), SValue TDouble None (Some pos) (num 10000000000));
     ("storage_type", (5%nat, false),
        SValue TOther (Some (by_name [("none", enum 0); ("limited", enum 2); ("unlimited", enum 1)] 3))
          (Some (not_enum 3)) (Some (VEnum 2)));
     ("storage_limited_size", (6%nat, false), SValue int32 None (Some pos) (Some (VInt 2)))]
    None None.

(** MeshConfig.cpp:32-50: the first letter decides. *)
Definition bc_converter (bc : string) : outcome val :=
  match bc with
  | String c _ =>
      if Ascii.eqb (tolower c) "d" then enum 5        (* BC::Dirichlet *)
      else if Ascii.eqb (tolower c) "n" then enum 1   (* BC::Natural *)
      else if Ascii.eqb (tolower c) "f" then enum 3   (* BC::Fault *)
      else Error false []
  | EmptyString => Error false []
  end.
(** MeshConfig.cpp:30-56 setSchema; members of BCConfig and GenMeshConfig (MeshConfig.h:18-26). *)
Definition bc_schema : schema :=
  STable [None; None; None]
    [("bc", (0%nat, false), SValue TOther (Some bc_converter) None None);
     ("plane", (1%nat, false), SValue uint64 None None None);
     ("region", (2%nat, true),
        SArray (D - 1) (D - 1) (Some (SValue uint64 None None None)) None None)] None None.
Definition gen_mesh_schema : schema :=
  STable [None; None]
    [("intercepts", (0%nat, false),
        SArray D D (Some (SArray 2 size_max (Some (SValue TDouble None None None)) None None)) None None);
     ("bcs", (1%nat, false),
        SArray D D (Some (SArray 0 size_max (Some bc_schema) None None)) None None)] None None.

(** SeasConfig.cpp:204-205: the unit vector of the last direction. *)
Definition default_up : val :=
  VArr (map (fun d => VFloat (DRat (if Nat.eqb (d + 1) (Z.to_nat D) then 1 else 0)))
         (seq 0 (Z.to_nat D))).

(** SeasConfig.cpp:162-274 setConfigSchema; members of Config (SeasConfig.h:96-121) in order. *)
Definition config_entries : list entry :=
  [("resolution", (0%nat, true), SValue TDouble None (Some pos) None);
   ("final_time", (1%nat, false), SValue TDouble None (Some nonneg) None);
   ("mesh_file", (2%nat, true),
      SValue TString (Some (fun s => Ok (VStr (path_converter s)))) (Some PathExists) None);
   ("cfl", (3%nat, false), SValue TDouble None (Some pos) (num 1));
   ("mode", (4%nat, false),
      SValue TOther
        (Some (by_name [("QuasiDynamic", enum 1); ("QD", enum 1);
                        ("QuasiDynamicDiscreteGreen", enum 2); ("QDGreen", enum 2);
                        ("FullyDynamic", enum 3); ("FD", enum 3)] 0))
        (Some (not_enum 0)) None);
   ("type", (5%nat, false),
      SValue TOther
        (Some (by_name [("poisson", enum 1); ("elastic", enum 2); ("elasticity", enum 2)] 0))
        (Some (not_enum 0)) None);
   ("lib", (6%nat, false),
      SValue TString (Some (fun s => Ok (VStr (path_converter s)))) (Some PathExists) None);
   ("scenario", (7%nat, false), SValue TString None None None);
   ("up", (8%nat, false), SArray D D (Some (SValue TDouble None None None)) None (Some default_up));
   ("ref_normal", (9%nat, false), point);
   ("boundary_linear", (10%nat, false), SValue TBool None None (Some (VBool false)));
   ("matrix_free", (11%nat, false), SValue TBool None None (Some (VBool false)));
   ("mg_coarse_level", (13%nat, false), SValue uint32 None None (Some (VInt 1)));
   ("mg_strategy", (12%nat, false),
      SValue TOther
        (Some (by_name [("TwoLevel", enum 0); ("Logarithmic", enum 1); ("Full", enum 2)] 3))
        (Some (not_enum 3)) (Some (VEnum 0)));
   ("generate_mesh", (14%nat, true), gen_mesh_schema);
   ("fault_output", (15%nat, true), output_schema);
   ("fault_scalar_output", (16%nat, true), tabular_schema);
   ("domain_output", (17%nat, true), domain_schema);
   ("fault_probe_output", (18%nat, true), probe_schema);
   ("domain_probe_output", (19%nat, true), probe_schema);
   ("moment_rate_output", (20%nat, true), output_schema);
   ("gf_checkpoint", (21%nat, true), gf_checkpoint_schema);
   ("ts_checkpoint", (22%nat, false), ts_checkpoint_schema)].
Definition config_blank : list (option val) := repeat None 23.

(** tandem.cpp:58-65: the configuration of a run. *)
Definition tandem_config (stod : string -> option double) (memory : string -> list ascii)
    (raw : list (string * node)) (present : string -> option string) : outcome (list (option val)) :=
  read_config stod memory config_blank config_entries None raw present.
End Config.
