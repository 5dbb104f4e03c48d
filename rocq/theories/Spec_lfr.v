(** Specification of the LFR experiment: planted partitions, and the contents of the working directory over any history of runs that
    are killed at any moment. *)
From Coq Require Import String.
From Verif Require Import PyBase PyGraph M_lfr.
Open Scope R_scope.

(** networkx hands out a partition of its nodes into communities; a connected graph with two nodes or more has an edge at every
    node. *)
Record nx_ok (G : nx_graph) : Prop := mkNxOk {
  nx_ends : forall u v, In (u, v) (nx_edges G) -> (u < nx_nodes G)%nat /\ (v < nx_nodes G)%nat;
  nx_own : forall v, (v < nx_nodes G)%nat -> In v (nx_community G v);
  nx_shared : forall u v, (v < nx_nodes G)%nat -> In u (nx_community G v) -> (u < nx_nodes G)%nat /\ nx_community G u = nx_community G v;
  nx_no_isolated : nx_connected G = true -> (1 < nx_nodes G)%nat -> forall v, (v < nx_nodes G)%nat -> exists u, In (u, v) (nx_edges G) \/ In (v, u) (nx_edges G)
}.

(** ** Histories *)

(** Nothing in the directory. *)
Definition empty_disk : disk := mkDisk (fun _ => Absent) Absent Absent.

(** Every content that the directory has from the start of a run of the script on: [d] and what the run makes of it. *)
Definition during (s : session) (runs num_graphs : nat) (mus : list R) (d : disk) : list disk := d :: fst (main s runs num_graphs mus d).
(** How a run that is not killed ends. *)
Definition outcome (s : session) (runs num_graphs : nat) (mus : list R) (d : disk) : ending four_plots := snd (main s runs num_graphs mus d).

(** The contents that can be found after any number of runs, each killed at any moment or not at all, if [d0] is there before; [ok]
    says which sessions can happen. *)
Inductive history (ok : session -> Prop) (runs num_graphs : nat) (mus : list R) (d0 : disk) : disk -> Prop :=
| no_run : history ok runs num_graphs mus d0 d0
| one_more_run s d d' : ok s -> history ok runs num_graphs mus d0 d -> In d' (during s runs num_graphs mus d) -> history ok runs num_graphs mus d0 d'.
Definition reachable (ok : session -> Prop) (runs num_graphs : nat) (mus : list R) (d : disk) : Prop := history ok runs num_graphs mus empty_disk d.

(** All benchmarks that the trials of a session produce satisfy [P]. *)
Definition produces (P : benchmark -> Prop) (s : session) : Prop :=
  forall mu l b, In (Trials l) (se_prepare s mu) \/ In (Trials l) (se_generate s mu) -> In (Some b) l -> P b.

(** One dict: its keys are the given ones, in this order, and every value has one list per graph stored for that mu, the answer of a
    call of the method on this graph by a possible session. *)
Definition complete_data (ok : session -> Prop) (runs num_graphs : nat) (d : disk) (method : string) (keys : list R) (data : plot_data) : Prop :=
  map fst data = keys /\
  forall mu lists, In (mu, lists) data -> exists graphs,
    d_graphs d (file_key num_graphs mu) = Stored graphs /\ length lists = length graphs /\
    forall i b nmis, nth_error graphs i = Some b -> nth_error lists i = Some nmis ->
      exists s, ok s /\ run_method (se_worker s mu method i) (fst b) (snd b) runs method (1 / 2) 2 = Ok nmis.
Definition complete_plots (ok : session -> Prop) (runs num_graphs : nat) (d : disk) (keys : list R) (x : four_plots) : Prop :=
  let '(d1, d2, d3, d4) := x in
  complete_data ok runs num_graphs d "modularity pruning" keys d1 /\ complete_data ok runs num_graphs d "gamma sweep" keys d2 /\
  complete_data ok runs num_graphs d "modularity pruning ground truth K" keys d3 /\ complete_data ok runs num_graphs d "ground truth gamma" keys d4.

(** [x] is a beginning of [y], dict by dict. *)
Definition continues (x y : four_plots) : Prop :=
  let '(d1, d2, d3, d4) := x in let '(e1, e2, e3, e4) := y in
  exists a1 a2 a3 a4, e1 = (d1 ++ a1)%list /\ e2 = (d2 ++ a2)%list /\ e3 = (d3 ++ a3)%list /\ e4 = (d4 ++ a4)%list.

(** No file is truncated. *)
Definition intact (num_graphs : nat) (mus : list R) (d : disk) : Prop :=
  (forall mu, In mu mus -> d_graphs d (file_key num_graphs mu) <> Torn) /\ d_partial d <> Torn /\ d_results d <> Torn.

(** Enough trials succeed for every mu whose graphs are not there yet, before one of them fails otherwise, ... *)
Definition trials_succeed (num_graphs : nat) (batches : list batch) : Prop :=
  exists before after, batches = (before ++ after)%list /\
    (forall b, In b before -> exists l, b = Trials l \/ b = TimedOut) /\
    (num_graphs <= length (flat_map (fun b => match b with Trials l => flat_map (fun o => match o with Some x => [x] | None => [] end) l | _ => [] end) before))%nat.
(** ... and every method answers on graphs that satisfy [P]. *)
Definition methods_answer (P : benchmark -> Prop) (runs : nat) (s : session) : Prop :=
  forall mu method i b, In method ["modularity pruning"; "gamma sweep"; "modularity pruning ground truth K"; "ground truth gamma"]%string -> P b ->
    exists nmis, run_method (se_worker s mu method i) (fst b) (snd b) runs method (1 / 2) 2 = Ok nmis.


(** ** Methods *)
From Verif Require Import M_leiden M_champ M_estimation_utils Spec Spec_leiden Spec_graph Spec_champ Spec_prune.

(** A graph with an edge and external routines that work as documented. *)
Record lfr_ready (env : lfr_env) (G : graph) : Prop := mkReady {
  lr_graph : wf_graph G;
  lr_edges : edges G <> [];
  lr_leiden : forall k vp m, vcount (vp_graph vp) = vcount G -> le_find (lf_leiden env) k vp = Ok m -> length m = vcount G;
  lr_order : lists_sets (ee_set_order (lf_est env));
  lr_pool : (0 < env_cpus (ee_champ (lf_est env)))%nat /\ Permutation (env_order (ee_champ (lf_est env))) (seq 0 (env_cpus (ee_champ (lf_est env))));
  lr_lp : lp_answers_all_variables (env_lp (ee_champ (lf_est env)));
  lr_hsi : exact_hsi 2 (env_hsi (ee_champ (lf_est env)))
}.

(** [parts] lists, without repetition, the canonical forms of the answers of Leiden on [G] at the given resolutions. *)
Definition all_found (env : leiden_env) (G : graph) (gammas : list R) (parts : list (list nat)) : Prop :=
  NoDup parts /\ forall t, In t parts <-> exists i gamma m, nth_error gammas i = Some gamma /\ le_find env i (mkVP RBConfiguration G gamma) = Ok m /\ canonical_form_of m t.

(** [stable] consists of different partitions of [candidates] with an estimate between [lo] and [hi] at which no candidate is better, and has
    every candidate that is better than all others at its own estimate between [lo] and [hi]. *)
Definition stable_among (env : est_env) (G : graph) (lo hi : R) (candidates : list nat -> Prop) (stable : list (list nat)) : Prop :=
  NoDup stable /\
  (forall c, In c stable -> candidates c /\ exists gamma, snd (gamma_estimate env G (Membership c)) = Ok (Some (Fin gamma)) /\ lo <= gamma <= hi /\
     forall d, candidates d -> modularity G gamma d <= modularity G gamma c) /\
  (forall c gamma, candidates c -> snd (gamma_estimate env G (Membership c)) = Ok (Some (Fin gamma)) -> lo <= gamma <= hi ->
     (forall d, candidates d -> d <> c -> modularity G gamma d < modularity G gamma c) -> In c stable).

(** ** The figure *)

(** The usual median of a list: the middle value, or the mean of the two middle values, of an increasing rearrangement. *)
Definition median_of (l : list R) (m : R) : Prop :=
  exists s, Permutation s l /\ (forall i j, (i < j < length s)%nat -> nth i s 0 <= nth j s 0) /\
  ((exists k, length s = (2 * k + 1)%nat /\ m = nth k s 0) \/ (exists k, length s = (2 * k + 2)%nat /\ m = (nth k s 0 + nth (k + 1) s 0) / 2)).

(** A value such that, of n values, at least q (n - 1) are not above it and at least (1 - q) (n - 1) are not below it. *)
Definition quantile (l : list R) (q v : R) : Prop :=
  q * INR (length l - 1) <= INR (length (filter (fun x => Rleb x v) l)) /\ (1 - q) * INR (length l - 1) <= INR (length (filter (fun x => Rleb v x) l)).
