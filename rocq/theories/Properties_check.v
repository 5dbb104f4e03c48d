(** Property theorems about the structural check of multilayer networks: C48. *)
From Verif Require Import PyBase PyGraph M_partition M_champ M_leiden M_estimation_utils M_estimation Spec Spec_graph Spec_check
  L_base L_modularity L_check.
Open Scope R_scope.

(** ** C48: accepted exactly when every rule holds; otherwise ValueError whose message lists exactly the violated rules, in
    order. *)
Theorem C48_exact : forall g gi lv model m_t T N Nt,
  (0 < T)%nat -> (forall u v, In (u, v) (edges g) -> (u < length lv)%nat /\ (v < length lv)%nat) ->
  exists lines, violated_lines (structural_rules g gi lv model m_t T N Nt) lines /\
    check_multilayer_graph_consistency g gi lv model m_t T (Some N) (Some Nt)
    = match lines with [] => Accepted | _ :: _ => Malformed lines end.
Proof. exact check_lines. Qed.
Print Assumptions C48_exact.

Theorem C48_accepted : forall g gi lv model m_t T N Nt,
  (0 < T)%nat -> (forall u v, In (u, v) (edges g) -> (u < length lv)%nat /\ (v < length lv)%nat) ->
  (check_multilayer_graph_consistency g gi lv model m_t T (Some N) (Some Nt) = Accepted <->
   Forall (fun r => fst r) (structural_rules g gi lv model m_t T N Nt)).
Proof. exact accepted_iff. Qed.
Print Assumptions C48_accepted.

(** The check cannot be evaluated without the node counts a model needs (TypeError), and on a layer vector that is too short
    for the first edge (IndexError). *)
Theorem C48_missing_counts : forall g gi lv model m_t T N Nt,
  (0 < T)%nat -> (forall u v, In (u, v) (edges g) -> (u < length lv)%nat /\ (v < length lv)%nat) ->
  ((model = "temporal" \/ model = "multiplex")%string /\ N = None) \/
  ((model = "temporal" \/ model = "multilevel" \/ model = "multiplex")%string /\ Nt = None) ->
  check_multilayer_graph_consistency g gi lv model m_t T N Nt = Failed TypeError.
Proof.
  intros g gi lv model m_t T N Nt HT Hr H. unfold check_multilayer_graph_consistency, consistency_rules.
  destruct (@all_within_ok lv (edges g) Hr) as (b6 & -> & E6). cbn [bind].
  assert (HT' : Nat.eqb T 0 = false) by (apply Nat.eqb_neq; lia). rewrite HT'.
  destruct H as [[[-> | ->] ->]|[[-> |[-> | ->]] ->]]; unfold only_for; cbn [String.eqb Ascii.eqb Bool.eqb need bind]; try reflexivity;
    try (destruct Nt; reflexivity); destruct N; reflexivity.
Qed.
Print Assumptions C48_missing_counts.

Theorem C48_short_layer_vector : forall g gi lv model m_t T N Nt u v es,
  edges g = (u, v) :: es -> (length lv <= u)%nat \/ (length lv <= v)%nat ->
  check_multilayer_graph_consistency g gi lv model m_t T N Nt = Failed IndexError.
Proof.
  intros g gi lv model m_t T N Nt u v es He H. unfold check_multilayer_graph_consistency, consistency_rules. rewrite He. cbn [all_within fst snd].
  destruct (Nat.lt_ge_cases u (length lv)) as [Hu|Hu].
  - rewrite (@py_get_ok _ lv u 0%nat Hu). cbn [bind]. rewrite (@py_get_err _ lv v) by lia. reflexivity.
  - rewrite (@py_get_err _ lv u) by lia. reflexivity.
Qed.
Print Assumptions C48_short_layer_vector.

(** A two-layer temporal network is accepted; listing an interlayer edge less and using an undirected interlayer graph gives
    exactly two lines. *)
Definition two_layers : graph := mkGraph 4 false [(0, 1); (2, 3)]%nat (Some [1; 1]).
Definition coupling : graph := mkGraph 4 true [(0, 2); (1, 3)]%nat None.
Example C48_example_accepted : check_multilayer_graph_consistency two_layers coupling [0; 0; 1; 1]%nat "temporal" [1; 1] 2 (Some 2%nat) (Some [2; 2]%nat) = Accepted.
Proof. unfold check_multilayer_graph_consistency. cbn. unfold Rltb. destruct (Rlt_dec 0 1); [reflexivity|lra]. Qed.
Example C48_example_malformed :
  check_multilayer_graph_consistency two_layers (mkGraph 4 false [(0, 2)]%nat None) [0; 0; 1; 1]%nat "temporal" [1; 1] 2 (Some 2%nat) (Some [2; 2]%nat)
  = Malformed ["Interlayer graph should be directed"; "Interlayer temporal graph must contain (nodes per layer) * (number of layers - 1) edges"]%string.
Proof. unfold check_multilayer_graph_consistency. cbn. unfold Rltb. destruct (Rlt_dec 0 1); [reflexivity|lra]. Qed.
