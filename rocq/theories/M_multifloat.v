(** Double precision: the multilayer SBM parameters, with every IEEE 754 operation rounded to nearest (ties to even).  The functions
    mirror those of M_estimation_utils.  [psum] is Python's built-in [sum] on floats, which adds from left to right up to Python 3.11
    and compensates the rounding errors since 3.12; its contract is python_sum of Spec_multifloat.  Overflow is not modelled: the
    theorems bound the sizes so that no intermediate value exceeds 2^53. *)
From Verif Require Import PyBase PyGraph M_partition M_pool M_champ M_leiden M_estimation_utils M_float.
Open Scope R_scope.

(** utilities/parameter_estimation_utilities.py:86-89: m_t. *)
Definition fl_layer_weights (g : graph) (layer_vec : list nat) (T : nat) : res (list R) :=
  let! E := wedges g in
  foldM (fun m e => let! l := py_get layer_vec (fst (fst e)) in py_update m l (fun x => fl_add x (snd e))) E (repeat 0 T).

(** utilities/parameter_estimation_utilities.py:98-102: m_t_in. *)
Definition fl_add_internal (community layer_vec : list nat) (m : list R) (e : (nat * nat) * R) : res (list R) :=
  let! s := same_label community (fst e) in
  if s then
    let! a := py_get layer_vec (fst (fst e)) in
    let! b := py_get layer_vec (snd (fst e)) in
    if Nat.eqb a b then py_update m a (fun x => fl_add x (snd e)) else Ok m
  else Ok m.

(** [kappa[layer][c] += w] *)
Definition fl_update2 (kappa : list (list R)) (l c : nat) (w : R) : res (list (list R)) :=
  let! row := py_get kappa l in
  let! row' := py_update row c (fun x => fl_add x w) in
  py_update kappa l (fun _ => row').

(** utilities/parameter_estimation_utilities.py:104-108: kappa_t_r_list. *)
Definition fl_add_strength_layered (community layer_vec : list nat) (kappa : list (list R)) (e : (nat * nat) * R)
  : res (list (list R)) :=
  let! l := py_get layer_vec (fst (fst e)) in
  let! a := py_get community (fst (fst e)) in
  let! kappa := fl_update2 kappa l a (snd e) in
  let! b := py_get community (snd (fst e)) in
  fl_update2 kappa l b (snd e).

(** utilities/parameter_estimation_utilities.py:242-244 ordinal_persistence: a quotient of ints, rounded once. *)
Definition fl_ordinal_persistence (gi : graph) (community : list nat) (N T : nat) : res R :=
  let! k := kept_edges gi community in fl_div (INR k) (INR N * (INR T - 1)).

(** utilities/parameter_estimation_utilities.py:247-253 multilevel_persistence. *)
Definition fl_multilevel_persistence (psum : list R -> R) (gi : graph) (community layer_vec Nt : list nat) (T : nat) : res R :=
  let! counts := foldM (fun acc e =>
                          let! s := same_label community e in
                          let! l := py_get layer_vec (snd e) in
                          py_update acc l (fun x => x + b2n s)%nat) (edges gi) (repeat 0%nat T) in
  let! ratios := mapM (fun layer => let! a := py_get counts layer in
                                    let! n := py_get Nt layer in
                                    fl_div (INR a) (INR n)) (seq 0 T) in
  fl_div (psum ratios) (INR T - 1).

(** utilities/parameter_estimation_utilities.py:256-258 categorical_persistence: a quotient of ints, rounded once. *)
Definition fl_categorical_persistence (gi : graph) (community : list nat) (N T : nat) : res R :=
  let! k := kept_edges gi community in fl_div (INR k) (INR N * INR T * (INR T - 1)).

(** utilities/parameter_estimation_utilities.py:288-323 persistence_function_from_model. *)
Definition fl_persistence_function_from_model (psum : list R -> R) (model : string) (gi : graph) (layer_vec : option (list nat))
  (N T : option nat) (Nt : option (list nat)) : res (list nat -> res R) :=
  if String.eqb model "temporal" then
    match N, T with
    | Some N, Some T => Ok (fun community => fl_ordinal_persistence gi community N T)
    | _, _ => Raise ValueError
    end
  else if String.eqb model "multilevel" then
    match Nt, T, layer_vec with
    | Some Nt, Some T, Some lv => Ok (fun community => fl_multilevel_persistence psum gi community lv Nt T)
    | _, _, _ => Raise ValueError
    end
  else if String.eqb model "multiplex" then
    match N, T with
    | Some N, Some T => Ok (fun community => fl_categorical_persistence gi community N T)
    | _, _ => Raise ValueError
    end
  else Raise ValueError.

(** utilities/parameter_estimation_utilities.py:123-137: the copying probability.  In the multiplex model it is the answer of scipy's
    root finder, an unspecified function here; the rounding errors in the evaluation of its equation are part of that. *)
Definition fl_estimate_p (env : est_env) (model : string) (K T : nat) (pers : R) : R :=
  if String.eqb model "multiplex" then
    let p := if Rltb pers 1 && Nat.ltb 1 K then ee_fsolve env (multiplex_equation K T pers) (1 / 2) else 1 in
    if Rlt_dec p 0 then 0 else p
  else if Rltb pers 1 && Nat.ltb 1 K then Rmax (binary64 (fl_sub (fl_mul (INR K) pers) 1 / (INR K - 1))) 0 else 1.

(** utilities/parameter_estimation_utilities.py:50-139 estimate_multilayer_SBM_parameters on a graph whose weights have been
    defaulted: theta_in, theta_out, p, K. *)
Definition fl_estimate_multilayer_weighted (psum : list R -> R) (env : est_env) (g gi : graph) (layer_vec : list nat) (partition : lpart)
  (model : string) (N T : option nat) (Nt : option (list nat)) (m_t : option (list R)) : res (R * R * R * nat) :=
  let! T := or_default T (layer_count_T layer_vec) in
  let! N := or_default N (nodes_per_layer g T) in
  let! m_t := or_default m_t (fl_layer_weights g layer_vec T) in
  let! Nt := or_default Nt (layer_nodes layer_vec T) in
  let K := part_len partition in
  let community := part_membership partition in
  let! E := wedges g in
  let! m_t_in := foldM (fl_add_internal community layer_vec) E (repeat 0 T) in
  let! kappa := foldM (fl_add_strength_layered community layer_vec) E (repeat (repeat 0 K) T) in
  let! sum_kappa := mapM (fun t => let! row := py_get kappa t in Ok (psum (map (fun x => binary64 (x ^ 2)) row))) (seq 0 T) in
  let! num_in := mapM (fun t => let! a := py_get m_t_in t in Ok (fl_mul 2 a)) (seq 0 T) in
  let! den_in := mapM (fun t => let! s := py_get sum_kappa t in let! m := py_get m_t t in fl_div s (fl_mul 2 m)) (seq 0 T) in
  let! theta_in := fl_div (psum num_in) (psum den_in) in
  let! num_out := mapM (fun t => let! m := py_get m_t t in let! a := py_get m_t_in t in
                                 Ok (fl_sub (fl_mul 2 m) (fl_mul 2 a))) (seq 0 T) in
  let! den_out := mapM (fun t => let! m := py_get m_t t in let! s := py_get sum_kappa t in
                                 let! q := fl_div s (fl_mul 2 m) in Ok (fl_sub (fl_mul 2 m) q)) (seq 0 T) in
  let! theta_out := (if Req_EM_T (psum den_out) 0 then Ok 0 else fl_div (psum num_out) (psum den_out)) in
  let! calculate_persistence := fl_persistence_function_from_model psum model gi (Some layer_vec) (Some N) (Some T) (Some Nt) in
  let! pers := calculate_persistence community in
  Ok (theta_in, theta_out, fl_estimate_p env model K T pers, K).

(** utilities/parameter_estimation_utilities.py:50-139, with the weight default (76-77). *)
Definition fl_estimate_multilayer_SBM_parameters (psum : list R -> R) (env : est_env) (g gi : graph) (layer_vec : list nat)
  (partition : lpart) (model : string) (N T : option nat) (Nt : option (list nat)) (m_t : option (list R))
  : graph * res (R * R * R * nat) :=
  match default_weights_e env g with
  | Raise e => (g, Raise e)
  | Ok g' => (g', fl_estimate_multilayer_weighted psum env g' gi layer_vec partition model N T Nt m_t)
  end.

(** [log(1 + p * K / (1 - p))] on Python floats; [flog] is math.log of a positive double. *)
Definition fl_py_log (flog : R -> R) (x : R) : res R := if Rlt_dec 0 x then Ok (flog x) else Raise ValueError.
Definition fl_coupling_log (flog : R -> R) (p : R) (K : nat) : res R :=
  let! q := fl_div (fl_mul p (INR K)) (fl_sub 1 p) in fl_py_log flog (fl_add 1 q).

(** utilities/parameter_estimation_utilities.py:185-213 multiplex_omega_estimate_from_parameters. *)
Definition fl_multiplex_omega_estimate_from_parameters (flog : R -> R) (theta_in theta_out p : R) (K T : nat) (omega_max : R) : res R :=
  if Req_EM_T p 0 then Ok 0
  else if Rle_dec 1 p then Ok omega_max
  else if Req_EM_T theta_in 1 then Ok omega_max
  else if Req_EM_T theta_out 0 then
    let! num := fl_coupling_log flog p K in
    let! l := fl_py_log flog theta_in in
    fl_div num (fl_mul (INR T) l)
  else
    let! num := fl_coupling_log flog p K in
    let! a := fl_py_log flog theta_in in
    let! b := fl_py_log flog theta_out in
    fl_div num (fl_mul (INR T) (fl_sub a b)).

(** utilities/parameter_estimation_utilities.py:216-239 temporal_multilevel_omega_estimate_from_parameters. *)
Definition fl_temporal_multilevel_omega_estimate_from_parameters (flog : R -> R) (theta_in theta_out p : R) (K : nat) (omega_max : R) : res R :=
  if Req_EM_T p 0 then Ok 0
  else if Req_EM_T theta_out 0 then
    if Rlt_dec p 1 then
      let! num := fl_coupling_log flog p K in
      let! l := fl_py_log flog theta_in in
      fl_div num (fl_mul 2 l)
    else Ok omega_max
  else if Rlt_dec p 1 then
    let! num := fl_coupling_log flog p K in
    let! a := fl_py_log flog theta_in in
    let! b := fl_py_log flog theta_out in
    fl_div num (fl_mul 2 (fl_sub a b))
  else Ok omega_max.

(** utilities/parameter_estimation_utilities.py:261-285 omega_function_from_model. *)
Definition fl_omega_function_from_model (flog : R -> R) (model : string) (omega_max : R) (T : nat) : res (R -> R -> R -> nat -> res R) :=
  if String.eqb model "multiplex" then
    Ok (fun theta_in theta_out p K => fl_multiplex_omega_estimate_from_parameters flog theta_in theta_out p K T omega_max)
  else if String.eqb model "temporal" || String.eqb model "multilevel" then
    Ok (fun theta_in theta_out p K => fl_temporal_multilevel_omega_estimate_from_parameters flog theta_in theta_out p K omega_max)
  else Raise ValueError.

(** utilities/parameter_estimation_utilities.py:326-364 gamma_omega_estimate: the intralayer graph object afterwards and the outcome.
    One function [flog] stands for numpy's logarithm in the gamma estimate and math.log in the omega estimate. *)
Definition fl_gamma_omega_estimate (psum : list R -> R) (flog : R -> R) (env : est_env) (g gi : graph) (layer_vec membership : list nat)
  (omega_max : R) (model : string) (N T : option nat) (Nt : option (list nat)) (m_t : option (list R)) : graph * res (option npf * R) :=
  match (let! T := or_default T (layer_count_T layer_vec) in
         let! partition := leiden_part_with_membership g membership in Ok (T, partition)) with
  | Raise e => (g, Raise e)
  | Ok (T, partition) =>
    let (g', r) := fl_estimate_multilayer_SBM_parameters psum env g gi layer_vec partition model N (Some T) Nt m_t in
    (g', let! (theta_in, theta_out, p, K) := r in
         let! update_omega := fl_omega_function_from_model flog model omega_max T in
         let gamma := fl_gamma_estimate_from_parameters flog theta_in theta_out in
         let! omega := update_omega theta_in theta_out p K in
         Ok (gamma, omega))
  end.
