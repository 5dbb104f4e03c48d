(** Specification of the documentation's examples. *)
From Verif Require Import PyBase PyGraph M_champ M_leiden M_estimation_utils M_generators M_sbmtests Spec Spec_graph Spec_leiden Spec_champ Spec_prune Spec_tiling.
Open Scope R_scope.

(** How often a label occurs, and the label that is reported as the most common one: no label is more frequent and smaller ones are
    less frequent. *)
Definition occurrences (l : list nat) (x : nat) : nat := length (filter (Nat.eqb x) l).
Definition modal_label (l : list nat) (x : nat) : Prop :=
  forall y, (occurrences l y <= occurrences l x)%nat /\ ((y < x)%nat -> (occurrences l y < occurrences l x)%nat).

(** The vertices a, ..., a + n - 1 of a membership. *)
Definition window (a n : nat) (c : list nat) : list nat := firstn n (skipn a c).
(** The last 30. *)
Definition last_layer (c : list nat) : list nat := skipn (length c - 30) c.

(** What the multilayer example asserts about the stable partitions: in those with three communities the most common labels of the
    first and second ten vertices differ, and those of the second and third ten; some stable partition has at least 28 of the last 30
    vertices in one community, and in some every community has at most 14 of them. *)
Definition as_documented (stable : list (list nat)) : Prop :=
  (forall c l0 l1 l2, In c stable -> has_communities c 3 -> modal_label (window 0 10 c) l0 -> modal_label (window 10 10 c) l1 -> modal_label (window 20 10 c) l2 ->
     l0 <> l1 /\ l1 <> l2) /\
  (exists c x, In c stable /\ (28 <= occurrences (last_layer c) x)%nat) /\
  (exists c, In c stable /\ forall x, (occurrences (last_layer c) x <= 14)%nat).

(** The two vertices have the same planted community: blocks of ten in the first two layers, the whole third layer. *)
Definition planted_together (u v : nat) : Prop := (60 <= u /\ 60 <= v)%nat \/ (u / 10 = v / 10)%nat.

(** Multilayer: [stable] consists of different candidates; where the resolution estimate is a number, the estimate, with its coupling cut off
    just below [w1], is inside the rectangle and no candidate is better there; and it has every candidate that is better than all others
    at its own estimate, cut off in the same way, inside the rectangle. *)
Definition multilayer_stable_among (env : est_env) (g gi : graph) (lv : list nat) (model : string) (g0 g1 w0 w1 : R) (candidates : list nat -> Prop)
  (stable : list (list nat)) : Prop :=
  let estimate c := snd (gamma_omega_estimate env g gi lv c 1000 model None None None None) in
  NoDup stable /\
  (forall c, In c stable -> candidates c /\ exists gamma_est omega_est, estimate c = Ok (Some gamma_est, omega_est) /\
     forall gamma, gamma_est = Fin gamma -> let omega := Rmin omega_est (w1 - 1 / 1000) in
       g0 < gamma < g1 /\ w0 < omega < w1 /\ forall d, candidates d -> multilayer_modularity g gi lv gamma omega d <= multilayer_modularity g gi lv gamma omega c) /\
  (forall c gamma omega_est, candidates c -> estimate c = Ok (Some (Fin gamma), omega_est) -> let omega := Rmin omega_est (w1 - 1 / 1000) in
     g0 < gamma < g1 -> w0 < omega < w1 ->
     (forall d, candidates d -> d <> c -> multilayer_modularity g gi lv gamma omega d < multilayer_modularity g gi lv gamma omega c) -> In c stable).

(** Routines that work as documented, for 1024 runs of Leiden: the pool completes every chunk once, the optimiser labels every vertex of the graphs that it
    is given, sets are listed in some order, and the routines behind CHAMP_3D meet their contracts. *)
Record multilayer_ready (env : run_env) : Prop := mkMReady {
  mr_cpus : (0 < ru_cpus env)%nat;
  mr_completion : Permutation (ru_order env) (seq 0 1024);
  mr_leiden : forall k objs m o, le_multiplex (ru_leiden env) k objs = Ok m -> In o objs -> length m = vcount (vp_graph (fst o));
  mr_order : lists_sets (ee_set_order (ru_est env));
  mr_pool : (0 < env_cpus (ee_champ (ru_est env)))%nat /\ Permutation (env_order (ee_champ (ru_est env))) (seq 0 (env_cpus (ee_champ (ru_est env))));
  mr_lp : lp_answers_all_variables (env_lp (ee_champ (ru_est env)));
  mr_hsi : exact_hsi 3 (env_hsi (ee_champ (ru_est env)));
  mr_irredundant : irredundant_hsi 3 (env_hsi (ee_champ (ru_est env)));
  mr_facets : full_facets_hsi 3 (env_hsi (ee_champ (ru_est env)))
}.
(** [parts] lists, without repetition, the canonical forms of what leidenalg answers at the points of the grid, given the layers at resolution gamma and the
    couplings [gi] with weight omega. *)
Definition grid_found (env : leiden_env) (layers : list graph) (gi : graph) (gammas omegas : list R) (parts : list (list nat)) : Prop :=
  NoDup parts /\ forall t, In t parts <-> exists i p m, nth_error (list_prod gammas omegas) i = Some p /\
    le_multiplex env i (map (fun gt => (mkVP RBConfiguration gt (fst p), 1)) layers ++ [(mkVP CPM gi 0, snd p)]) = Ok m /\ canonical_form_of m t.
