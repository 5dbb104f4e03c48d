(** Specification of the experiments with intermediate files: contents of the working directory over any history of runs killed at any
    moment, and what the files and figures have to show. *)
From Coq Require Import String Permutation.
From Verif Require Import PyBase PyGraph M_partition M_champ M_leiden M_estimation_utils M_estimation M_checks M_generators M_plotting M_lfr M_staged Spec Spec_graph Spec_champ Spec_leiden Spec_iteration.
Open Scope list_scope.
Open Scope R_scope.

(** ** Histories *)

Definition empty_directory : directory := fun _ => Absent.

(** Every content that the directory has from the start of a run of [p] on, until the run is killed or ends. *)
Definition seen {A} (p : prog A) (d d' : directory) : Prop := d' = d \/ In d' (fst (p d)).
Definition outcome {A} (p : prog A) (d : directory) : ending A := snd (p d).
(** The content after a run that is not killed. *)
Definition final {A} (p : prog A) (d : directory) : directory := last (fst (p d)) d.

(** Any number of runs after each other; [may d d'] says that a run that finds [d] can leave [d']. *)
Inductive history (may : directory -> directory -> Prop) (d0 : directory) : directory -> Prop :=
| nothing : history may d0 d0
| another d d' : history may d0 d -> may d d' -> history may d0 d'.

(** A run of one of the scripts [rs], under conditions that satisfy [ok], killed at any moment or not at all. *)
Definition regime_run (ok : stage_env -> Prop) (rs : list regime) (d d' : directory) : Prop :=
  exists env r, ok env /\ In r rs /\ seen (regime_main env r) d d'.
Definition firm_run (ok : stage_env -> Prop) (f : law_firm) (d d' : directory) : Prop :=
  exists env, ok env /\ seen (firm_main env f) d d'.

(** Removing files. *)
Definition removed (names : list string) (d d' : directory) : Prop := forall n, (In n names -> d' n = Absent) /\ (~ In n names -> d' n = d n).

(** ** The synthetic networks *)

Definition names (r : regime) : list string := [rg_graph r; rg_iteration r; rg_louvain r; rg_domains r; rg_restricted r].
(** The files of which the figures are drawn. *)
Definition needed (r : regime) : list string := [rg_graph r; rg_iteration r; rg_domains r; rg_restricted r].

(** Every complete file is what its step answers, in a possible run, on the files that are there now. *)
Record consistent (ok : stage_env -> Prop) (r : regime) (d : directory) : Prop := mkConsistent {
  co_graph : forall v, d (rg_graph r) = Stored v -> exists env x, ok env /\ v = Network x /\
    rg_generate r (sg_est env (rg_graph r)) (sg_draws env) (sg_attempts env) = Some (Ok x);
  co_iteration : forall v, d (rg_iteration r) = Stored v -> exists env x l, ok env /\ v = Movements l /\
    d (rg_graph r) = Stored (Network x) /\ pamfil_movements env (sg_est env (rg_iteration r)) r x = Ok l;
  co_louvain : forall v, d (rg_louvain r) = Stored v -> exists env x parts, ok env /\ v = Parts parts /\
    d (rg_graph r) = Stored (Network x) /\ leiden_on_grid env (fst (fst (fst x))) (snd (fst (fst x))) (snd (fst x)) (rg_gammas r) (rg_omegas r) = Ok parts;
  co_domains : forall v, d (rg_domains r) = Stored v -> exists env x parts l, ok env /\ v = Estimates l /\
    d (rg_graph r) = Stored (Network x) /\ d (rg_louvain r) = Stored (Parts parts) /\
    domains_with_estimates (sg_est env (rg_domains r)) None x parts = Ok l;
  co_restricted : forall v, d (rg_restricted r) = Stored v -> exists env x parts l, ok env /\ v = Estimates l /\
    d (rg_graph r) = Stored (Network x) /\ d (rg_louvain r) = Stored (Parts parts) /\
    domains_with_estimates (sg_est env (rg_restricted r)) (Some 2%nat) x parts = Ok l
}.

(** What the figures show, given the network, the movements and the two lists of domains. *)
Record shows (env : stage_env) (x : network) (l : list movement) (ds rs : list domain_estimate) (f : figures) : Prop := mkShows {
  sh_arrows : fg_arrows f = map movement_arrow l;
  sh_truth : snd (gamma_omega_estimate (sg_est env "pamfil_iteration") (fst (fst (fst x))) (snd (fst (fst x))) (snd (fst x)) (snd x) 1000 "temporal" None None None None)
               = Ok (snd (fg_truth f), fst (fg_truth f));
  sh_domains : plot_2d_domains_with_estimates (sg_plot env "domains") ds (4 / 10, 16 / 10) (6 / 10, 145 / 100) true true = Ok (fg_domains f);
  sh_ami : plot_2d_domains_with_ami (sg_plot env "ami") ds (snd x) (4 / 10, 16 / 10) (6 / 10, 145 / 100) true = Ok (fg_ami f);
  sh_communities : plot_2d_domains_with_num_communities ds (4 / 10, 16 / 10) (6 / 10, 145 / 100) true None 2 = Ok (fg_communities f);
  sh_restricted : plot_2d_domains_with_estimates (sg_plot env "restricted") rs (4 / 10, 16 / 10) (6 / 10, 145 / 100) true true = Ok (fg_restricted f)
}.

(** [x] comes out of the generator in some possible run; [parts] are what Leiden finds on it in some possible run. *)
Definition generated (ok : stage_env -> Prop) (r : regime) (x : network) : Prop :=
  exists e, ok e /\ rg_generate r (sg_est e (rg_graph r)) (sg_draws e) (sg_attempts e) = Some (Ok x).
Definition found (ok : stage_env -> Prop) (r : regime) (x : network) (parts : list (list nat)) : Prop :=
  exists e, ok e /\ leiden_on_grid e (fst (fst (fst x))) (snd (fst (fst x))) (snd (fst x)) (rg_gammas r) (rg_omegas r) = Ok parts.

(** In conditions [env] every step answers on whatever the earlier ones may have left. *)
Record steps_answer (ok : stage_env -> Prop) (r : regime) (env : stage_env) : Prop := mkAnswer {
  an_network : exists x, rg_generate r (sg_est env (rg_graph r)) (sg_draws env) (sg_attempts env) = Some (Ok x);
  an_movements : forall x, generated ok r x -> exists l, pamfil_movements env (sg_est env (rg_iteration r)) r x = Ok l;
  an_parts : forall x, generated ok r x -> exists parts, leiden_on_grid env (fst (fst (fst x))) (snd (fst (fst x))) (snd (fst x)) (rg_gammas r) (rg_omegas r) = Ok parts;
  an_domains : forall x parts, generated ok r x -> found ok r x parts ->
    (exists l, domains_with_estimates (sg_est env (rg_domains r)) None x parts = Ok l) /\
    (exists l, domains_with_estimates (sg_est env (rg_restricted r)) (Some 2%nat) x parts = Ok l)
}.

(** ** Movements *)

(** Call number [k] of the iterative estimation, from (g0, o0): the optimiser's answer there is estimated; a ValueError of either yields
    nothing. *)
Inductive step_from (env : stage_env) (est : est_env) (h hi : graph) (lv : list nat) (k : nat) (g0 o0 : R) : option (npf * R) -> Prop :=
| moved ps g1 o1 : oe_multi (sg_opt env k) 0 h hi lv (Fin g0) o0 = Ok ps -> updates_multi est h hi lv "temporal" 1000 ps (Ok (g1, o1)) ->
    step_from env est h hi lv k g0 o0 (Some (g1, o1))
| not_optimised : oe_multi (sg_opt env k) 0 h hi lv (Fin g0) o0 = Raise ValueError -> step_from env est h hi lv k g0 o0 None
| not_estimated ps : oe_multi (sg_opt env k) 0 h hi lv (Fin g0) o0 = Ok ps -> updates_multi est h hi lv "temporal" 1000 ps (Raise ValueError) ->
    step_from env est h hi lv k g0 o0 None.

Definition difference (x : npf) (y : R) : npf := match x with Fin x => Fin (x - y) | NonFinite => NonFinite end.
(** The differences found at (g0, o0) by the calls number [k], ..., [k + repeats - 1]. *)
Definition differences (env : stage_env) (est : est_env) (h hi : graph) (lv : list nat) (k repeats : nat) (g0 o0 : R) (gdiffs : list npf) (odiffs : list R) : Prop :=
  exists outs, length outs = repeats /\ (forall j o, nth_error outs j = Some o -> step_from env est h hi lv (k + j) g0 o0 o) /\
    gdiffs = flat_map (fun o : option (npf * R) => match o with Some (g1, _) => [difference g1 g0] | None => [] end) outs /\
    odiffs = flat_map (fun o : option (npf * R) => match o with Some (_, o1) => [o1 - o0] | None => [] end) outs.

(** ** Partitions and domains *)

(** The partitions that CHAMP gets: all, or those with the given number of communities. *)
Definition chosen (parts : list (list nat)) (restrict : option nat) (c : list nat) : Prop :=
  In c parts /\ match restrict with None => True | Some k => has_communities c k end.

(** [domains] are the domains of the chosen partitions in the rectangle: every one belongs to a chosen partition that is the best one all over
    it, no partition has two, and they cover the rectangle. *)
Record optimal_domains (g gi : graph) (lv : list nat) (parts : list (list nat)) (restrict : option nat) (gamma_max omega_max : R) (domains : list domain) : Prop := mkOptimal {
  od_best : forall poly c, In (poly, c) domains -> chosen parts restrict c /\ poly <> [] /\ (forall v, In v poly -> 0 <= fst v <= gamma_max /\ 0 <= snd v <= omega_max) /\
    forall gamma omega c', in_polygon poly (gamma, omega) -> chosen parts restrict c' -> multilayer_modularity g gi lv gamma omega c' <= multilayer_modularity g gi lv gamma omega c;
  od_once : NoDup (map snd domains);
  od_cover : (exists c, chosen parts restrict c) -> forall gamma omega, 0 <= gamma <= gamma_max -> 0 <= omega <= omega_max -> exists poly c, In (poly, c) domains /\ in_polygon poly (gamma, omega)
}.

(** The pool works as documented on this grid, and the copies that its workers get of the graphs are new objects. *)
Record pool_works (env : stage_env) (gammas omegas : list R) : Prop := mkPool {
  pw_cpus : (0 < sg_cpus env)%nat;
  pw_order : Permutation (sg_order env) (seq 0 (length gammas * length omegas));
  pw_copies : forall j n es d l r e, In ((n, es, d, l), r) (sg_cache env j) -> In e es -> fst e <> 0%nat
}.
(** The external routines behind one of the two scripts work as documented: the pool, leidenalg (one label per vertex), and, for the two
    files of domains, the traversal of sets, CHAMP's pool, its linear programs and its intersections of half-spaces. *)
Record routines_work (env : stage_env) (r : regime) : Prop := mkRoutines {
  rw_pool : pool_works env (rg_gammas r) (rg_omegas r);
  rw_leiden : forall i objs m o, le_multiplex (sg_leiden env) i objs = Ok m -> In o objs -> length m = vcount (vp_graph (fst o));
  rw_champ : forall n, n = rg_domains r \/ n = rg_restricted r ->
    (forall l, Permutation (ee_set_order (sg_est env n) l) l) /\
    (0 < env_cpus (ee_champ (sg_est env n)))%nat /\ Permutation (env_order (ee_champ (sg_est env n))) (seq 0 (env_cpus (ee_champ (sg_est env n)))) /\
    lp_answers_all_variables (env_lp (ee_champ (sg_est env n))) /\ exact_hsi 3 (env_hsi (ee_champ (sg_est env n)))
}.
(** The generator is the one of the two scripts, for some sizes, probabilities and desired estimates. *)
Definition synthetic (r : regime) : Prop := exists n T K eta p_in p_out desired_gamma desired_omega, (0 < n)%nat /\ (1 < T)%nat /\ (0 < K)%nat /\ Nat.divide K n /\
  forall env ds fuel x, rg_generate r env ds fuel = Some (Ok x) -> synthetic_loop env ds n T K eta p_in p_out desired_gamma desired_omega 0 fuel = Some (Ok x).
(** [l] are the domains of the chosen partitions in the square [0, 2] x [0, 2], each with the estimate of its partition. *)
Definition estimated_domains (est : est_env) (x : network) (parts : list (list nat)) (restrict : option nat) (l : list domain_estimate) : Prop :=
  let '(g, gi, lv, _) := x in
  exists domains, optimal_domains g gi lv parts restrict 2 2 domains /\
    Forall2 (fun d e => exists gamma omega, e = (fst d, snd d, gamma, Some omega) /\
      snd (gamma_omega_estimate est g gi lv (snd d) 1000 "temporal" None None None None) = Ok (gamma, omega)) domains l.
(** [parts] are the canonical forms, each once, of what leidenalg answers for the points of the grid, given the layers of the network at
    resolution gamma and the couplings with weight omega. *)
Definition partitions_found (env : stage_env) (x : network) (gammas omegas : list R) (parts : list (list nat)) : Prop :=
  let '(g, gi, lv, _) := x in
  exists ws layers gi', weights g = Some ws /\ layer_graphs g ws lv layers /\ weights_defaulted (le_contains (sg_leiden env) gi) gi gi' /\ NoDup parts /\
    forall t, In t parts <-> exists i p m, nth_error (list_prod gammas omegas) i = Some p /\
      le_multiplex (sg_leiden env) i (map (fun gt => (mkVP RBConfiguration gt (fst p), 1)) layers ++ [(mkVP CPM gi' 0, snd p)]) = Ok m /\ canonical_form_of m t.
