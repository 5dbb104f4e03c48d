(** Specification of the law-firm experiment: its intermediate files, and what its figures have to show. *)
From Coq Require Import String Permutation.
From Verif Require Import PyBase PyGraph M_partition M_champ M_leiden M_estimation_utils M_estimation M_checks M_generators M_plotting M_lfr M_staged Spec Spec_graph Spec_champ Spec_leiden Spec_generators Spec_iteration Spec_staged Spec_lazega.
Open Scope list_scope.
Open Scope R_scope.

(** ** Files *)

(** The files of domains: all partitions, and those with 2, ..., 7 communities. *)
Definition firm_steps : list (string * option nat) :=
  [("lazega_CHAMP.p", None); ("lazega_CHAMP2.p", Some 2); ("lazega_CHAMP3.p", Some 3); ("lazega_CHAMP4.p", Some 4); ("lazega_CHAMP5.p", Some 5);
   ("lazega_CHAMP6.p", Some 6); ("lazega_CHAMP7.p", Some 7)]%nat%string.
Definition firm_names : list string := "lazega_1M_louvain.p"%string :: map fst firm_steps.
(** The files of which the figures are drawn. *)
Definition firm_needed : list string := ["lazega_CHAMP.p"; "lazega_CHAMP2.p"; "lazega_CHAMP3.p"; "lazega_CHAMP4.p"]%string.

(** Every complete file is what its step answers, in a possible run, on the files that are there now. *)
Record firm_consistent (ok : stage_env -> Prop) (f : law_firm) (d : directory) : Prop := mkFirmConsistent {
  fc_partitions : forall v, d "lazega_1M_louvain.p"%string = Stored v -> exists env parts, ok env /\ v = Parts parts /\ firm_partitions env f = Ok parts;
  fc_domains : forall n restrict v, In (n, restrict) firm_steps -> d n = Stored v -> exists env parts l, ok env /\ v = Domains l /\
    d "lazega_1M_louvain.p"%string = Stored (Parts parts) /\ firm_domains (sg_est env n) f restrict parts = Ok l
}.

(** In conditions [env] every step answers on whatever the earlier ones may have left. *)
Record firm_answers (ok : stage_env -> Prop) (f : law_firm) (env : stage_env) : Prop := mkFirmAnswers {
  fa_partitions : exists parts, firm_partitions env f = Ok parts;
  fa_domains : forall e parts n restrict, ok e -> firm_partitions e f = Ok parts -> In (n, restrict) firm_steps ->
    exists l, firm_domains (sg_est env n) f restrict parts = Ok l
}.

(** ** Figures *)

(** [l] are the domains with the estimates that their partitions have in the multiplex model, omega cut at 3 - [margin]; domains without an
    estimate of gamma are left out.  Every partition's estimation has to answer. *)
Definition cut_estimates (est : est_env) (g gi : graph) (lv : list nat) (margin : R) (domains : list domain) (l : list domain_estimate) : Prop :=
  exists es, Forall2 (fun d e => snd (gamma_omega_estimate est g gi lv (snd d) 1000 "multiplex" None None None None) = Ok e) domains es /\ l = flat_map (fun x : domain * (option npf * R) => match fst (snd x) with
                                                      | Some gamma => [(fst (fst x), snd (fst x), Some gamma, Some (Rmin (snd (snd x)) (3 - margin)))]
                                                      | None => []
                                                      end) (combine domains es).

(** What the figures show, given the domains without restriction and with 2, 3 and 4 communities. *)
Record firm_shows (env : stage_env) (f : law_firm) (all k2 k3 k4 : list domain) (ff : firm_figures) : Prop := mkFirmShows {
  fs_domains : exists l, firm_estimates (sg_est env "5.8") f (1 / 1000) all = Ok l /\
    plot_2d_domains_with_estimates (sg_plot env "5.8") l (4 / 10, 3) (8 / 10, 1275 / 1000) true true = Ok (ff_domains ff) /\
    plot_2d_domains_with_estimates (sg_plot env "5.8 stable") (stable_domains l) (4 / 10, 3) (8 / 10, 1275 / 1000) false true = Ok (ff_stable ff);
  fs_points : exists l2 l3 l4, Forall2 (fun k l => firm_estimates (sg_est env "5.8 K") f (1 / 100) k = Ok l) [k4; k3; k2] [l4; l3; l2] /\
    ff_points ff = map (fun l => map (fun d : domain_estimate => (snd d, snd (fst d))) (stable_domains l)) [l4; l3; l2];
  fs_restricted : exists l2 l3 l4, Forall2 (fun k l => firm_estimates (sg_est env "5.9") f (1 / 1000) k = Ok l) [k2; k3; k4] [l2; l3; l4] /\
    Forall2 (fun l p => plot_2d_domains_with_estimates (sg_plot env "5.9") (stable_domains l) (4 / 10, 3) (4 / 10, 14 / 10) true true = Ok p) [l2; l3; l4] (ff_restricted ff);
  fs_communities : exists l, firm_estimates (sg_est env "5.7") f (1 / 1000) all = Ok l /\
    plot_2d_domains_with_num_communities l (4 / 10, 3) (8 / 10, 1275 / 1000) true (Some 5%nat) 1 = Ok (ff_communities ff);
  fs_matrices : exists g gi lv l2 l3 l4, firm_network f = Ok (g, gi, lv) /\ Forall2 (fun k l => firm_estimates (sg_est env "5.10") f (1 / 1000) k = Ok l) [k2; k3; k4] [l2; l3; l4] /\
    Forall2 (fun c m => firm_matrix f lv c = Ok m) (flat_map gamma_omega_estimates_to_stable_partitions [l2; l3; l4]) (ff_matrices ff)
}.

(** The matrix of figure 5.10 for the partition [c]: the columns advice, work and friendship; row [i] is the same person in all of them. *)
Definition matrix_of (N : nat) (order : list nat) (c : list nat) (m : list (list nat)) : Prop :=
  exists advice work friends, m = [advice; work; friends] /\ length advice = N /\ length work = N /\ length friends = N /\
    forall i p, nth_error order i = Some p -> nth_error advice i = nth_error c p /\ nth_error work i = nth_error c (2 * N + p) /\ nth_error friends i = nth_error c (N + p).

(** ** Data *)

(** The firm's three matrices are square and every layer, and the last person's last layer, has a tie. *)
Record firm_data (f : law_firm) (g gi : graph) (lv : list nat) : Prop := mkFirmData {
  fd_network : firm_network f = Ok (g, gi, lv);
  fd_persons : (0 < lw_persons f)%nat;
  fd_square : square (lw_persons f) (lw_advice f) /\ square (lw_persons f) (lw_friend f) /\ square (lw_persons f) (lw_work f);
  fd_last : has_edge_at g (lw_persons f * 3 - 1);
  fd_layers : forall t, (t < 3)%nat -> layer_has_edge g lv t
}.
(** The external routines work as documented. *)
Record firm_routines (env : stage_env) (f : law_firm) : Prop := mkFirmRoutines {
  fr_pool : pool_works env (lw_gammas f) (lw_omegas f);
  fr_leiden : forall i objs m o, le_multiplex (sg_leiden env) i objs = Ok m -> In o objs -> length m = vcount (vp_graph (fst o));
  fr_champ : forall n, In n (map fst firm_steps) ->
    (forall l, Permutation (ee_set_order (sg_est env n) l) l) /\
    (0 < env_cpus (ee_champ (sg_est env n)))%nat /\ Permutation (env_order (ee_champ (sg_est env n))) (seq 0 (env_cpus (ee_champ (sg_est env n)))) /\
    lp_answers_all_variables (env_lp (ee_champ (sg_est env n))) /\ exact_hsi 3 (env_hsi (ee_champ (sg_est env n)))
}.
