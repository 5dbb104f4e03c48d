(** Specification of the SBM and karate club experiments. *)
From Verif Require Import PyBase PyGraph M_champ M_leiden M_estimation_utils M_sbmtests Spec Spec_graph Spec_champ Spec_prune.
Open Scope R_scope.

(** A graph with an edge and external routines that work as documented, for [iterations] runs of Leiden. *)
Record run_ready (env : run_env) (G : graph) (iterations : nat) : Prop := mkRunReady {
  rr_graph : wf_graph G;
  rr_edges : edges G <> [];
  rr_leiden : forall k vp m, vcount (vp_graph vp) = vcount G -> le_find (ru_leiden env) k vp = Ok m -> length m = vcount G;
  rr_completion : Permutation (ru_order env) (seq 0 iterations);
  rr_iterations : (Z.of_nat iterations <= 2 ^ 53)%Z;
  rr_order : lists_sets (ee_set_order (ru_est env));
  rr_pool : (0 < env_cpus (ee_champ (ru_est env)))%nat /\ Permutation (env_order (ee_champ (ru_est env))) (seq 0 (env_cpus (ee_champ (ru_est env))));
  rr_lp : lp_answers_all_variables (env_lp (ee_champ (ru_est env)));
  rr_hsi : exact_hsi 2 (env_hsi (ee_champ (ru_est env)))
}.

(** How many members of a list satisfy a decidable property. *)
Fixpoint how_many {A} (f : A -> bool) (l : list A) : nat :=
  match l with [] => 0%nat | x :: l' => ((if f x then 1 else 0) + how_many f l')%nat end.

(** The trials that a loop has used: the answers that were not skipped. *)
Fixpoint counted {A} (l : list (res (option A))) : list A :=
  match l with [] => [] | Ok (Some x) :: l' => x :: counted l' | _ :: l' => counted l' end.

(** The contents of the output file over any number of runs of the bistable experiment, each killed at any moment or not at all, from
    an empty directory: [trials] are the answers of the trials of a run. *)
Inductive file_history (N trials_per_delta : nat) : option (list line) -> Prop :=
| no_file : file_history N trials_per_delta None
| after_run file file' trials : file_history N trials_per_delta file -> In file' (fst (bistable_main N trials_per_delta trials file)) -> file_history N trials_per_delta file'.

(** Whether a partition has [K] different labels. *)
Definition with_communities (K : nat) (p : list nat) : bool := Nat.eqb (length (nodup Nat.eq_dec p)) K.
