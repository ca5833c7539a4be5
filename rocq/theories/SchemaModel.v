(** The schema shipped with the code, config/config-format.json, transcribed by a script: one line per field, in file
    order, with name, section, type, is_list, default, min, max, selectables and dependency, converted as in
    configuration_schema.py:341-387 (defaults and bounds of type str are lower-cased; JSON decimals are kept exact, i.e.
    not rounded to binary64).  The functions that convert texts are parameters, indexed by the type name. *)
Set Warnings "-abstract-large-number".
From Coq Require Import ZArith QArith List Bool String.
From Verif Require Import ConfigModel.
Import ListNotations.
Local Open Scope string_scope.

Section Shipped.
Variable conv : string -> string -> result scalar.
Variable conv_items : string -> string -> result (list scalar).

(** One field; [None] when its range or the field itself cannot be created. *)
Definition mk (name section type : string) (is_list : bool) (default : val) (min_v max_v : option scalar)
  (sel : option (list scalar)) (dep : option (string * list scalar)) : option field :=
  match make_range min_v max_v sel with
  | inr _ => None
  | inl r => match make_field name section default (conv type) (conv_items type) is_list r dep with
             | inl f => Some f
             | inr _ => None
             end
  end.

(** config/config-format.json (73 fields) *)
Definition shipped_fields : list (option field) := [
  mk "equations" "General" "str" false (VNone) (None) (None) (Some [SStr "euler"; SStr "shallow_water"]) (None);
  mk "depth_approx" "General" "str" false (VOne (SStr "deep")) (None) (None) (Some [SStr "deep"; SStr "shallow"]) (Some ("equations"%string, [SStr "euler"]));
  mk "desired_device" "System" "str" false (VOne (SStr "cpu")) (None) (None) (Some [SStr "cpu"; SStr "cuda"]) (None);
  mk "cuda_devices" "System" "int" true (VMany []) (None) (None) (None) (Some ("desired_device"%string, [SStr "cuda"]));
  mk "case_number" "Test_case" "int" false (VOne (SNum (Fin (- 1 # 1)))) (None) (None) (None) (None);
  mk "matsuno_wave_type" "Test_case" "str" false (VNone) (None) (None) (None) (Some ("case_number"%string, [SNum (Fin (9 # 1))]));
  mk "matsuno_amp" "Test_case" "float" false (VNone) (None) (None) (None) (Some ("case_number"%string, [SNum (Fin (9 # 1))]));
  mk "bubble_theta" "Test_case" "float" false (VOne (SNum (Fin (0 # 1)))) (None) (None) (None) (None);
  mk "bubble_rad" "Test_case" "float" false (VOne (SNum (Fin (0 # 1)))) (None) (None) (None) (None);
  mk "dt" "Time_integration" "float" false (VNone) (Some (SNum (Fin (0 # 1)))) (None) (None) (None);
  mk "t_end" "Time_integration" "float" false (VNone) (None) (None) (None) (None);
  mk "time_integrator" "Time_integration" "str" false (VNone) (None) (None) (None) (None);
  mk "tolerance" "Time_integration" "float" false (VNone) (None) (None) (None) (None);
  mk "starting_step" "Time_integration" "int" false (VOne (SNum (Fin (0 # 1)))) (None) (None) (None) (None);
  mk "exponential_solver" "Time_integration" "str" false (VOne (SStr "pmex")) (None) (None) (Some [SStr "pmex"; SStr "kiops"; SStr "exode"; SStr "pmex_ne"; SStr "cwy_1s"; SStr "cwy_ne"; SStr "cwy_ne1s"; SStr "dcgs2"; SStr "icwy_1s"; SStr "icwy_neiop"; SStr "icwy_ne"; SStr "icwy_ne1s"; SStr "kiops_ne"; SStr "pmex_1s"; SStr "pmex_ne1s"]) (None);
  mk "exode_method" "Time_integration" "str" false (VOne (SStr "bs3(2)")) (None) (None) (Some [SStr "bs3(2)"; SStr "dp5(4)"; SStr "m4(3)"; SStr "kc3(2)"; SStr "exlrk3(2)"; SStr "exlrk4(3)"; SStr "f14(12)"; SStr "dp8(7)"; SStr "f10(8)"]) (None);
  mk "exode_controller" "Time_integration" "str" false (VOne (SStr "")) (None) (None) (None) (None);
  mk "krylov_size" "Time_integration" "int" false (VOne (SNum (Fin (1 # 1)))) (Some (SNum (Fin (0 # 1)))) (None) (None) (None);
  mk "jacobian_method" "Time_integration" "str" false (VOne (SStr "complex")) (None) (None) (Some [SStr "complex"; SStr "fd"]) (None);
  mk "linear_solver" "Time_integration" "str" false (VOne (SStr "fgmres")) (None) (None) (Some [SStr "fgmres"; SStr "gcrot"]) (None);
  mk "verbose_solver" "Time_integration" "int" false (VOne (SNum (Fin (0 # 1)))) (None) (None) (None) (None);
  mk "gmres_restart" "Time_integration" "int" false (VOne (SNum (Fin (20 # 1)))) (Some (SNum (Fin (1 # 1)))) (None) (None) (None);
  mk "num_solpts" "Spatial_discretization" "int" false (VNone) (Some (SNum (Fin (1 # 1)))) (None) (None) (None);
  mk "num_elements_horizontal" "Spatial_discretization" "int" false (VNone) (Some (SNum (Fin (1 # 1)))) (None) (None) (None);
  mk "num_elements_vertical" "Spatial_discretization" "int" false (VOne (SNum (Fin (1 # 1)))) (Some (SNum (Fin (1 # 1)))) (None) (None) (None);
  mk "filter_apply" "Spatial_discretization" "bool" false (VOne (SNum (Fin (0 # 1)))) (None) (None) (None) (None);
  mk "filter_order" "Spatial_discretization" "int" false (VOne (SNum (Fin (16 # 1)))) (None) (None) (None) (Some ("filter_apply"%string, [SNum (Fin (1 # 1))]));
  mk "filter_order" "Spatial_discretization" "int" false (VOne (SNum (Fin (0 # 1)))) (None) (None) (None) (Some ("filter_apply"%string, [SNum (Fin (0 # 1))]));
  mk "filter_cutoff" "Spatial_discretization" "float" false (VOne (SNum (Fin (1 # 4)))) (None) (None) (None) (Some ("filter_apply"%string, [SNum (Fin (1 # 1))]));
  mk "filter_cutoff" "Spatial_discretization" "float" false (VOne (SNum (Fin (0 # 1)))) (None) (None) (None) (Some ("filter_apply"%string, [SNum (Fin (0 # 1))]));
  mk "expfilter_apply" "Spatial_discretization" "bool" false (VOne (SNum (Fin (0 # 1)))) (None) (None) (None) (None);
  mk "expfilter_order" "Spatial_discretization" "int" false (VNone) (None) (None) (None) (Some ("expfilter_apply"%string, [SNum (Fin (1 # 1))]));
  mk "expfilter_order" "Spatial_discretization" "int" false (VOne (SNum (Fin (0 # 1)))) (None) (None) (None) (Some ("expfilter_apply"%string, [SNum (Fin (0 # 1))]));
  mk "expfilter_cutoff" "Spatial_discretization" "float" false (VNone) (None) (None) (None) (Some ("expfilter_apply"%string, [SNum (Fin (1 # 1))]));
  mk "expfilter_cutoff" "Spatial_discretization" "float" false (VOne (SNum (Fin (0 # 1)))) (None) (None) (None) (Some ("expfilter_apply"%string, [SNum (Fin (0 # 1))]));
  mk "expfilter_strength" "Spatial_discretization" "float" false (VNone) (None) (None) (None) (Some ("expfilter_apply"%string, [SNum (Fin (1 # 1))]));
  mk "expfilter_strength" "Spatial_discretization" "float" false (VOne (SNum (Fin (0 # 1)))) (None) (None) (None) (Some ("expfilter_apply"%string, [SNum (Fin (0 # 1))]));
  mk "apply_sponge" "Spatial_discretization" "bool" false (VOne (SNum (Fin (0 # 1)))) (None) (None) (None) (None);
  mk "sponge_tscale" "Spatial_discretization" "float" false (VOne (SNum (Fin (1 # 1)))) (None) (None) (None) (None);
  mk "sponge_zscale" "Spatial_discretization" "float" false (VOne (SNum (Fin (0 # 1)))) (None) (None) (None) (None);
  mk "grid_type" "Grid" "str" false (VNone) (None) (None) (Some [SStr "cubed_sphere"; SStr "cartesian2d"]) (None);
  mk "discretization" "Grid" "str" false (VOne (SStr "dg")) (None) (None) (Some [SStr "dg"; SStr "fv"]) (None);
  mk "lambda0" "Grid" "angle24" false (VNone) (None) (None) (None) (Some ("grid_type"%string, [SStr "cubed_sphere"]));
  mk "phi0" "Grid" "angle24" false (VNone) (None) (None) (None) (Some ("grid_type"%string, [SStr "cubed_sphere"]));
  mk "alpha0" "Grid" "angle24" false (VNone) (None) (None) (None) (Some ("grid_type"%string, [SStr "cubed_sphere"]));
  mk "ztop" "Grid" "float" false (VOne (SNum (Fin (0 # 1)))) (None) (None) (None) (Some ("grid_type"%string, [SStr "cubed_sphere"]));
  mk "x0" "Grid" "float" false (VNone) (None) (None) (None) (Some ("grid_type"%string, [SStr "cartesian2d"]));
  mk "x1" "Grid" "float" false (VNone) (None) (None) (None) (Some ("grid_type"%string, [SStr "cartesian2d"]));
  mk "z0" "Grid" "float" false (VNone) (None) (None) (None) (Some ("grid_type"%string, [SStr "cartesian2d"]));
  mk "z1" "Grid" "float" false (VNone) (None) (None) (None) (Some ("grid_type"%string, [SStr "cartesian2d"]));
  mk "preconditioner" "Preconditioning" "str" false (VOne (SStr "none")) (None) (None) (Some [SStr "none"; SStr "fv"; SStr "fv-mg"; SStr "p-mg"; SStr "lu"; SStr "ilu"]) (None);
  mk "precond_flux" "Preconditioning" "str" false (VOne (SStr "ausm")) (None) (None) (Some [SStr "ausm"; SStr "upwind"; SStr "rusanov"]) (None);
  mk "num_mg_levels" "Preconditioning" "int" false (VOne (SNum (Fin (1 # 1)))) (Some (SNum (Fin (1 # 1)))) (None) (None) (Some ("preconditioner"%string, [SStr "fv-mg"; SStr "p-mg"]));
  mk "precond_tolerance" "Preconditioning" "float" false (VOne (SNum (Fin (1 # 10)))) (None) (None) (None) (None);
  mk "num_pre_smoothe" "Preconditioning" "int" false (VOne (SNum (Fin (1 # 1)))) (Some (SNum (Fin (0 # 1)))) (None) (None) (None);
  mk "num_post_smoothe" "Preconditioning" "int" false (VOne (SNum (Fin (1 # 1)))) (Some (SNum (Fin (0 # 1)))) (None) (None) (None);
  mk "mg_smoother" "Preconditioning" "str" false (VOne (SStr "exp")) (None) (None) (Some [SStr "exp"; SStr "kiops"; SStr "erk3"; SStr "erk1"; SStr "ark3"]) (None);
  mk "exp_smoothe_spectral_radii" "Preconditioning" "float" true (VMany [SNum (Fin (2 # 1))]) (None) (None) (None) (Some ("mg_smoother"%string, [SStr "exp"]));
  mk "exp_smoothe_num_iters" "Preconditioning" "int" true (VMany [SNum (Fin (4 # 1))]) (None) (None) (None) (Some ("mg_smoother"%string, [SStr "exp"]));
  mk "mg_solve_coarsest" "Preconditioning" "bool" false (VOne (SNum (Fin (0 # 1)))) (None) (None) (None) (None);
  mk "kiops_dt_factor" "Preconditioning" "float" false (VOne (SNum (Fin (11 # 10)))) (None) (None) (None) (None);
  mk "verbose_precond" "Preconditioning" "int" false (VOne (SNum (Fin (0 # 1)))) (None) (None) (None) (None);
  mk "dg_to_fv_interp" "Preconditioning" "str" false (VOne (SStr "lagrange")) (None) (None) (Some [SStr "l2-norm"; SStr "lagrange"]) (None);
  mk "pseudo_cfl" "Preconditioning" "float" false (VOne (SNum (Fin (1 # 1)))) (None) (None) (None) (None);
  mk "stat_freq" "Output_options" "int" false (VOne (SNum (Fin (0 # 1)))) (None) (None) (None) (None);
  mk "output_freq" "Output_options" "int" false (VOne (SNum (Fin (0 # 1)))) (None) (None) (None) (None);
  mk "save_state_freq" "Output_options" "int" false (VOne (SNum (Fin (0 # 1)))) (None) (None) (None) (None);
  mk "store_solver_stats" "Output_options" "bool" false (VOne (SNum (Fin (0 # 1)))) (None) (None) (None) (None);
  mk "output_dir" "Output_options" "case-sensitive-str" false (VOne (SStr "results")) (None) (None) (None) (None);
  mk "base_output_file" "Output_options" "case-sensitive-str" false (VOne (SStr "out")) (None) (None) (None) (None);
  mk "solver_stats_file" "Output_options" "case-sensitive-str" false (VOne (SStr "solver_stats.db")) (None) (None) (None) (None);
  mk "store_total_time" "Output_options" "bool" false (VOne (SNum (Fin (0 # 1)))) (None) (None) (None) (None);
  mk "output_format" "Output_options" "str" false (VOne (SStr "netcdf")) (None) (None) (None) (None)
].

Fixpoint collect (l : list (option field)) : option (list field) :=
  match l with
  | [] => Some []
  | None :: _ => None
  | Some f :: r => match collect r with Some fs => Some (f :: fs) | None => None end
  end.
(** The schema loads iff every field can be created *)
Definition shipped_schema : option (list field) := collect shipped_fields.
End Shipped.
