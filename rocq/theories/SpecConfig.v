(* Specification vocabulary for C79-C81: the entries of an input file, and mesh files with given references. *)
From Coq Require Import String ZArith List Reals.
From Verif Require Import Num Py Geometry Nets Driver Config Spec SpecMesh.
Import ListNotations.
Local Open Scope string_scope.
Local Open Scope R_scope.

(* [at_path y path v]: following the keys of path through the mappings of y leads to v *)
Inductive at_path : yaml -> list string -> yaml -> Prop :=
| at_here : forall y, at_path y [] y
| at_under : forall pre k y post path v, ~ In k (map fst pre) -> at_path y path v -> at_path (YMap (pre ++ (k, y) :: post)) (k :: path) v.
(* A number, written as an integer or with a decimal point *)
Definition number (y : yaml) (r : R) : Prop := y = YFloat r \/ exists z, y = YInt z /\ r = IZR z.
Definition at_number (y : yaml) (path : list string) (r : R) : Prop := exists v, at_path y path v /\ number v r.
Definition rate_entry (kv : string * yaml) (e : string * lrval) : Prop :=
  fst kv = fst e /\ match snd e with LNum r => number (snd kv) r | LBool b => snd kv = YBool b end.

(* Where a script finds its values.  [k] says which of the optional entries it wants *)
Record reads (k : reader) (y : yaml) (x : input) : Prop := {
  rd_output : at_path y ["experimentation"; "output_path"] (YStr (i_output_path (in_settings x)));
  rd_method : at_path y ["geometry"; "mesh_generation_method"] (YStr (i_method (in_settings x)));
  rd_plot : match k with Forward | HardForward => at_path y ["geometry"; "generate_mesh_plot"] (YBool (i_mesh_plot (in_settings x))) | _ => i_mesh_plot (in_settings x) = false end;
  rd_type : at_path y ["geometry"; "mesh_type"] (YStr (i_mesh_type (in_settings x)));
  rd_xmin : at_number y ["geometry"; "internal_mesh_params"; "x_min"] (fst (i_xlim (in_settings x)));
  rd_xmax : at_number y ["geometry"; "internal_mesh_params"; "x_max"] (snd (i_xlim (in_settings x)));
  rd_ymin : at_number y ["geometry"; "internal_mesh_params"; "y_min"] (fst (i_ylim (in_settings x)));
  rd_ymax : at_number y ["geometry"; "internal_mesh_params"; "y_max"] (snd (i_ylim (in_settings x)));
  rd_ncx : at_path y ["geometry"; "internal_mesh_params"; "n_cells_x"] (YInt (i_ncx (in_settings x)));
  rd_ncy : at_path y ["geometry"; "internal_mesh_params"; "n_cells_y"] (YInt (i_ncy (in_settings x)));
  rd_nb : at_path y ["geometry"; "internal_mesh_params"; "n_boundary_points"] (YInt (i_nb (in_settings x)));
  rd_ntx : at_path y ["geometry"; "internal_mesh_params"; "n_test_points_x"] (YInt (i_ntx (in_settings x)));
  rd_nty : at_path y ["geometry"; "internal_mesh_params"; "n_test_points_y"] (YInt (i_nty (in_settings x)));
  rd_generation : match k with Forward => at_path y ["geometry"; "exact_solution"; "exact_solution_generation"] (YStr (in_generation x)) | _ => in_generation x = "" end;
  rd_file : match k with
            | Forward => at_path y ["geometry"; "exact_solution"; "exact_solution_file_name"] (YStr (in_file x))
            | SensorFile => at_path y ["inverse"; "sensor_data_file"] (YStr (in_file x))
            | _ => in_file x = ""
            end;
  rd_mesh : at_path y ["geometry"; "external_mesh_params"; "mesh_file_name"] (YStr (i_mesh_file (in_settings x)));
  rd_level : at_path y ["geometry"; "external_mesh_params"; "boundary_refinement_level"] (YInt (i_level (in_settings x)));
  rd_sampling : at_path y ["geometry"; "external_mesh_params"; "boundary_sampling_method"] (YStr (i_sampling (in_settings x)));
  rd_fe : at_path y ["fe"; "fe_order"] (YInt (i_fe_order (in_settings x)));
  rd_fe_type : at_path y ["fe"; "fe_type"] (YStr (i_fe_type (in_settings x)));
  rd_quad : at_path y ["fe"; "quad_order"] (YInt (i_quad_order (in_settings x)));
  rd_quad_type : at_path y ["fe"; "quad_type"] (YStr (i_quad_type (in_settings x)));
  rd_layers : at_path y ["model"; "model_architecture"] (YList (map YInt (i_architecture (in_settings x))));
  rd_act : at_path y ["model"; "activation"] (YStr (in_activation x));
  rd_attention : at_path y ["model"; "use_attention"] (YBool (i_attention (in_settings x)));
  rd_epochs : at_path y ["model"; "epochs"] (YInt (i_epochs (in_settings x)));
  rd_dtype : at_path y ["model"; "dtype"] (YStr (i_dtype (in_settings x)));
  rd_known : i_dtype (in_settings x) = "float32" \/ i_dtype (in_settings x) = "float64";
  rd_growth : exists v, at_path y ["model"; "set_memory_growth"] v;
  rd_rates : exists d, at_path y ["model"; "learning_rate"] (YMap d) /\ List.Forall2 rate_entry d (i_rates (in_settings x));
  rd_sensors : match k with Sensors | SensorFile => at_path y ["inverse"; "num_sensor_points"] (YInt (in_sensors x)) | _ => in_sensors x = 0%Z end;
  rd_beta : at_number y ["pde"; "beta"] (i_beta (in_settings x));
  rd_update : at_path y ["logging"; "update_console_output"] (YInt (i_update (in_settings x)))
}.

(* A mesh file in the plane with at least one edge and one quadrilateral, every edge with one of the references ts *)
Record ready (mf : mesh_file R) (ts : list Z) : Prop := {
  rm_spatial : spatial mf;
  rm_parts : exists edges quads tags, edges_of mf edges /\ quads_of mf quads /\ first_refs mf tags /\ (length edges <= length tags)%nat /\
    edges <> [] /\ quads <> [] /\ forall j, (j < length edges)%nat -> In (nth j tags 0%Z) ts
}.
