(** Theorems about utilities/leiden_utilities.py: C05, C06, C09, C10, C11, C51. *)
From Verif Require Import PyBase PyGraph M_partition M_pool M_champ M_leiden Spec Spec_graph Spec_leiden Spec_objective.
From Verif Require Import L_base L_canon L_parallel L_modularity L_modularity3 L_leiden L_split L_multileiden L_objective.
Open Scope R_scope.

(** ** C05: for every scheduler and optimiser, each gamma is run exactly once (the log lists (position, gamma) of the runs)
    and the answer is the set of canonical forms of the optimiser's answers.  [order] is the order in which the pool
    finishes its chunks (there are at most as many chunks as gammas). *)
Theorem C05_parallel_gammas : forall env cpus order g g' gammas show_progress,
  (0 < cpus)%nat -> Permutation order (seq 0 (length gammas)) -> weights_defaulted (le_contains env g) g g' ->
  let (log, r) := repeated_parallel_leiden_from_gammas env cpus order g gammas show_progress in
  Permutation log (enumerate gammas) /\
  collects (fun i gamma => le_find env i (mkVP RBConfiguration g' gamma)) gammas r.
Proof.
  intros env cpus order g g' gammas show _ Ho Hd. pose proof (@parallel_gammas env cpus order g g' gammas show Ho Hd) as H.
  destruct (repeated_parallel_leiden_from_gammas env cpus order g gammas show) as [log r]. exact H.
Qed.
Print Assumptions C05_parallel_gammas.

Theorem C05_serial_gammas : forall env g g' gammas, weights_defaulted (le_contains env g) g g' ->
  collects (fun i gamma => le_find env i (mkVP RBConfiguration g' gamma)) gammas (snd (repeated_leiden_from_gammas env g gammas)).
Proof. exact serial_gammas. Qed.
Print Assumptions C05_serial_gammas.

Lemma collects_same {A} (out : nat -> A -> res (list nat)) tasks r1 r2 :
  (forall i x, nth_error tasks i = Some x -> exists m, out i x = Ok m) -> collects out tasks r1 -> collects out tasks r2 ->
  exists S1 S2, r1 = Ok S1 /\ r2 = Ok S2 /\ Permutation S1 S2.
Proof.
  intros H [H1 _] [H2 _]. destruct (H1 H) as (S1 & E1 & N1 & I1). destruct (H2 H) as (S2 & E2 & N2 & I2).
  exists S1, S2. split; auto. split; auto. apply NoDup_Permutation; auto. intros t. rewrite I1, I2. reflexivity.
Qed.

(** Parallel and serial give the same set, whatever the schedule. *)
Theorem C05_parallel_equals_serial : forall env cpus order g gammas show_progress,
  (0 < cpus)%nat -> Permutation order (seq 0 (length gammas)) ->
  (forall k vp, exists m, le_find env k vp = Ok m) ->
  exists S1 S2, snd (repeated_parallel_leiden_from_gammas env cpus order g gammas show_progress) = Ok S1 /\
    snd (repeated_leiden_from_gammas env g gammas) = Ok S2 /\ Permutation S1 S2.
Proof.
  intros env cpus order g gammas show Hc Ho Hf. pose proof (weighted_defaulted env g) as Hd.
  eapply collects_same; [|exact (proj2 (@parallel_gammas env cpus order g _ gammas show Ho Hd))|exact (@serial_gammas env g _ gammas Hd)].
  intros i x _. apply Hf.
Qed.
Print Assumptions C05_parallel_equals_serial.

Definition path3 : graph := mkGraph 3 false [(0, 1); (1, 2)]%nat None.
(** an optimiser whose answer depends on the run: a renamed copy of the same partition in run 1, another one in run 2 *)
Definition env3 : leiden_env := mkLeiden (fun _ => false)
  (fun k _ => Ok (nth k [[5; 5; 2]; [1; 1; 7]; [0; 1; 1]] [0; 0; 0])%nat) (fun k _ => Ok (nth k [[5; 5; 2]; [1; 1; 7]; [0; 1; 1]] [0; 0; 0])%nat).
Example C05_example : exists S, snd (repeated_parallel_leiden_from_gammas env3 2 [2; 0; 1]%nat path3 [1; 2; 1] true) = Ok S /\
  Permutation S [[0; 0; 1]; [0; 1; 1]]%nat.
Proof. eexists. split; [reflexivity|]. cbn. apply perm_swap || apply Permutation_refl. Qed.

(** ** C06: the same for the product grid.  [worker_cache j] is the layer-split cache of the worker that runs chunk [j],
    inherited from the parent or from earlier chunks; the only thing assumed is that an entry which would be used for
    the worker's own copy of the graph holds its layers (C06_fresh_copies: automatic for new graph objects). *)
Theorem C06_parallel_grid : forall env worker_cache cpus order g ge g' ge' ws lv layers gammas omegas show_progress,
  (0 < cpus)%nat -> Permutation order (seq 0 (length gammas * length omegas)) ->
  wf_graph g -> length lv = vcount g -> lv <> [] ->
  weights_defaulted (le_contains env g) g g' -> weights_defaulted (le_contains env ge) ge ge' ->
  weights g' = Some ws -> layer_graphs g' ws lv layers ->
  (forall j v, In (key_of 0 g' lv, v) (worker_cache j) -> v = layers) ->
  let (log, r) := repeated_parallel_leiden_from_gammas_omegas env worker_cache cpus order g ge lv gammas omegas show_progress in
  Permutation log (enumerate (list_prod gammas omegas)) /\
  collects (fun i x => le_multiplex env i (map (fun gt => (mkVP RBConfiguration gt (fst x), 1)) layers ++ [(mkVP CPM ge' 0, snd x)]))
    (list_prod gammas omegas) r.
Proof.
  intros env wc cpus order g ge g' ge' ws lv layers gammas omegas show _ Ho Hwf Hlen Hne Hd Hde Hw Hl Hc.
  apply defaulted_weighted in Hd. apply defaulted_weighted in Hde. subst g' ge'.
  assert (Hs : split_of (weighted env g) lv = Ok layers) by (eapply weighted_split; eauto).
  pose proof (@parallel_grid env wc cpus order g ge lv gammas omegas show) as H.
  rewrite grid_length in H. specialize (H Ho). destruct H as [H1 H2].
  { intros j v Hin. rewrite (Hc j v Hin). auto. }
  destruct (repeated_parallel_leiden_from_gammas_omegas env wc cpus order g ge lv gammas omegas show) as [log r]. cbn [fst snd] in *.
  rewrite grid_list_prod in *. rewrite Hs in H2. split; auto.
Qed.
Print Assumptions C06_parallel_grid.

Theorem C06_serial_grid : forall env w a b g ge g' ge' ws lv layers gammas omegas,
  a <> b -> nth_error (heap w) a = Some g -> nth_error (heap w) b = Some ge ->
  wf_graph g -> length lv = vcount g -> lv <> [] ->
  weights_defaulted (le_contains env g) g g' -> weights_defaulted (le_contains env ge) ge ge' ->
  weights g' = Some ws -> layer_graphs g' ws lv layers ->
  (forall v, In (key_of a g' lv, v) (cache w) -> v = layers) ->
  collects (fun i x => le_multiplex env i (map (fun gt => (mkVP RBConfiguration gt (fst x), 1)) layers ++ [(mkVP CPM ge' 0, snd x)]))
    (list_prod gammas omegas) (snd (repeated_leiden_from_gammas_omegas env w a b lv gammas omegas)).
Proof.
  intros env w a b g ge g' ge' ws lv layers gammas omegas Hab Ha Hb Hwf Hlen Hne Hd Hde Hw Hl Hc.
  apply defaulted_weighted in Hd. apply defaulted_weighted in Hde. subst g' ge'.
  assert (Hs : split_of (weighted env g) lv = Ok layers) by (eapply weighted_split; eauto).
  pose proof (@serial_grid env w a b g ge lv gammas omegas Hab Ha Hb) as H. rewrite Hs, grid_list_prod in H. apply H.
  intros v Hin. rewrite (Hc v Hin). auto.
Qed.
Print Assumptions C06_serial_grid.

Theorem C06_parallel_equals_serial : forall env worker_cache cpus order w a b g ge g' ws lv layers gammas omegas show_progress,
  (0 < cpus)%nat -> Permutation order (seq 0 (length gammas * length omegas)) ->
  a <> b -> nth_error (heap w) a = Some g -> nth_error (heap w) b = Some ge ->
  wf_graph g -> length lv = vcount g -> lv <> [] ->
  weights_defaulted (le_contains env g) g g' -> weights g' = Some ws -> layer_graphs g' ws lv layers ->
  (forall j v, In (key_of 0 g' lv, v) (worker_cache j) -> v = layers) ->
  (forall v, In (key_of a g' lv, v) (cache w) -> v = layers) ->
  (forall k objs, exists m, le_multiplex env k objs = Ok m) ->
  exists S1 S2,
    snd (repeated_parallel_leiden_from_gammas_omegas env worker_cache cpus order g ge lv gammas omegas show_progress) = Ok S1 /\
    snd (repeated_leiden_from_gammas_omegas env w a b lv gammas omegas) = Ok S2 /\ Permutation S1 S2.
Proof.
  intros env wc cpus order w a b g ge g' ws lv layers gammas omegas show Hcp Ho Hab Ha Hb Hwf Hlen Hne Hd Hw Hl Hc1 Hc2 Hok.
  pose proof (weighted_defaulted env ge) as Hde.
  pose proof (C06_parallel_grid env wc cpus order g ge g' _ ws lv layers gammas omegas show Hcp Ho Hwf Hlen Hne Hd Hde Hw Hl Hc1) as P.
  pose proof (C06_serial_grid env w a b g ge g' _ ws lv layers gammas omegas Hab Ha Hb Hwf Hlen Hne Hd Hde Hw Hl Hc2) as Q.
  destruct (repeated_parallel_leiden_from_gammas_omegas env wc cpus order g ge lv gammas omegas show) as [log r]. cbn [snd].
  eapply collects_same; [|exact (proj2 P)|exact Q]. intros i x _. apply Hok.
Qed.
Print Assumptions C06_parallel_equals_serial.

(** Every pair (gammas[i], omegas[j]) is task number i * len(omegas) + j. *)
Theorem C06_grid_positions : forall (gammas omegas : list R) i j gamma omega,
  nth_error gammas i = Some gamma -> nth_error omegas j = Some omega ->
  nth_error (grid gammas omegas) (i * length omegas + j) = Some (gamma, omega).
Proof.
  intros gammas omegas i j ga om Hi Hj. rewrite grid_nth; [rewrite Hi, Hj; auto|]. apply nth_error_Some. congruence.
Qed.
Print Assumptions C06_grid_positions.

(** The assumption on the worker's cache holds for new graph objects: no entry mentions them. *)
Theorem C06_fresh_copies : forall (c : split_cache) gid g lv (layers v : list graph),
  edges g <> [] -> (forall n es d l r e, In ((n, es, d, l), r) c -> In e es -> fst e <> gid) ->
  In (key_of gid g lv, v) c -> v = layers.
Proof.
  intros c gid g lv layers v He Hf Hin. exfalso. unfold key_of, ecount in Hin. destruct (edges g) as [|e E]; [congruence|].
  cbn [length seq map] in Hin. apply (Hf _ _ _ _ _ (gid, 0%nat) Hin); simpl; auto.
Qed.
Print Assumptions C06_fresh_copies.

Definition two_layers : graph := mkGraph 4 false [(0, 1); (2, 3)]%nat None.
Definition coupling : graph := mkGraph 4 true [(0, 2); (1, 3)]%nat None.
Example C06_example :
  snd (repeated_parallel_leiden_from_gammas_omegas env3 (fun _ => []) 2 [1; 0; 2; 3]%nat two_layers coupling [0; 0; 1; 1]%nat [1; 2] [0; 1] false)
  = Ok [[0; 0; 0]; [0; 1; 1]; [0; 0; 1]]%nat /\
  weights_defaulted (le_contains env3 two_layers) two_layers (mkGraph 4 false [(0, 1); (2, 3)]%nat (Some [1; 1])) /\
  layer_graphs (mkGraph 4 false [(0, 1); (2, 3)]%nat (Some [1; 1])) [1; 1] [0; 0; 1; 1]%nat
    [mkGraph 4 false [(0, 1)]%nat (Some [1]); mkGraph 4 false [(2, 3)]%nat (Some [1])].
Proof.
  split; [reflexivity|]. split.
  - cbn. repeat split; auto. exists [1; 1]. repeat split; auto. intros w [<-|[<-|[]]]; auto.
  - split; [|split].
    + intros l Hl. simpl in *. lia.
    + exists 1%nat. simpl. auto.
    + intros [|[|t]] gt H; cbn in H; [inversion H; subst; cbn; auto..|]. destruct t; discriminate.
Qed.

(** ** C09: the split is lossless. *)
Theorem C09_split_by_layer : forall g ws lv,
  wf_graph g -> weights g = Some ws -> length lv = vcount g -> lv <> [] ->
  exists gs, snd (split_intralayer_leiden_graph (mkWorld [g] []) 0 lv) = Ok gs /\ layer_graphs g ws lv gs /\
    Permutation (flat_map (fun gt => combine (edges gt) (match weights gt with Some w => w | None => [] end)) gs) (combine (edges g) ws).
Proof.
  intros g ws lv Hwf Hw Hlen Hne. rewrite fresh_call. destruct (@split_layer_graphs g ws lv Hwf Hw Hne) as (gs & Hs & Hl); [lia|].
  exists gs. split; auto. split; auto. apply (layer_graphs_lossless Hl).
  - intros u v Hin. destruct (proj1 Hwf u v Hin). lia.
  - apply (proj2 Hwf). auto.
Qed.
Print Assumptions C09_split_by_layer.

(** The remaining cases raise. *)
Theorem C09_errors : forall g lv,
  (lv = [] -> snd (split_intralayer_leiden_graph (mkWorld [g] []) 0 lv) = Raise ValueError) /\
  (lv <> [] -> (exists ws, weights g = Some ws /\ length ws = length (edges g)) ->
   (exists u v, In (u, v) (edges g) /\ (length lv <= u)%nat) -> snd (split_intralayer_leiden_graph (mkWorld [g] []) 0 lv) = Raise IndexError) /\
  (lv <> [] -> weights g = None -> edges g <> [] -> (forall u v, In (u, v) (edges g) -> (u < length lv)%nat) ->
   snd (split_intralayer_leiden_graph (mkWorld [g] []) 0 lv) = Raise KeyError).
Proof.
  intros g lv. rewrite fresh_call. split; [|split].
  - intros ->. reflexivity.
  - intros Hne (ws & Hw & Hl) (u & v & Hin & Hu). apply In_nth_error in Hin as [i Hi]. eapply split_short_layers; eauto.
  - intros Hne Hw He Hs. apply split_no_weights; auto.
Qed.
Print Assumptions C09_errors.

Example C09_example : exists gs, snd (split_intralayer_leiden_graph (mkWorld [mkGraph 4 true [(2, 3); (0, 1); (3, 2); (1, 0)]%nat (Some [5; 6; 7; 8])] []) 0 [0; 0; 2; 2]%nat) = Ok gs /\
  gs = [mkGraph 4 true [(0, 1); (1, 0)]%nat (Some [6; 8]); mkGraph 4 true [] (Some []); mkGraph 4 true [(2, 3); (3, 2)]%nat (Some [5; 7])].
Proof. eexists. split; reflexivity. Qed.

(** ** C10: a history is any sequence of creating graph objects, changing them in place and splitting them.  If no object
    is split again with the same layer vector after a change that keeps its vertex count, edge count and directedness,
    every split answers what a new process would answer for the graph as it is at that moment (errors included). *)
Theorem C10_cache_is_current : forall evs,
  (forall gid g g' lv r r', In (gid, g, lv, r) (history (mkWorld [] []) evs) -> In (gid, g', lv, r') (history (mkWorld [] []) evs) ->
     vcount g = vcount g' -> length (edges g) = length (edges g') -> directed g = directed g' -> g = g') ->
  forall gid g lv r, In (gid, g, lv, r) (history (mkWorld [] []) evs) ->
    r = snd (split_intralayer_leiden_graph (mkWorld [g] []) 0 lv).
Proof. intros evs H gid g lv r Hin. rewrite fresh_call. apply (history_fresh evs) with (gid := gid) (w := mkWorld [] []); auto. intros k v []. Qed.
Print Assumptions C10_cache_is_current.

Definition edge2 (w : R) : graph := mkGraph 2 false [(0, 1)]%nat (Some [w]).
Example C10_example : (* two graphs, alternating splits and an edge added in place: the hypothesis holds *)
  let evs := [New (edge2 1%R); New (edge2 7%R); Split 0 [0; 0]; Split 1 [0; 0]; Split 0 [0; 0];
              Mutate 0 (mkGraph 2 false [(0, 1); (1, 0)] (Some [1%R; 3%R])); Split 0 [0; 0]; Split 0 [0; 0]]%nat in
  length (history (mkWorld [] []) evs) = 5%nat /\
  forall gid g g' lv r r', In (gid, g, lv, r) (history (mkWorld [] []) evs) -> In (gid, g', lv, r') (history (mkWorld [] []) evs) ->
     vcount g = vcount g' -> length (edges g) = length (edges g') -> directed g = directed g' -> g = g'.
Proof.
  split; [reflexivity|]. intros gid g g' lv r r' H H'. cbn in H, H'.
  intuition; repeat match goal with E : (_, _, _, _) = (_, _, _, _) |- _ => inversion E; clear E; subst end; cbn in *; congruence || reflexivity.
Qed.

(** The unrestricted claim is false of the code: changing a weight in place leaves the old layers in the cache. *)
Theorem C10_stale_after_reweighting : exists evs gid g lv r,
  In (gid, g, lv, r) (history (mkWorld [] []) evs) /\ r <> snd (split_intralayer_leiden_graph (mkWorld [g] []) 0 lv).
Proof.
  exists [New (edge2 1%R); Split 0 [0; 0]; Mutate 0 (edge2 2%R); Split 0 [0; 0]]%nat, 0%nat, (edge2 2), [0; 0]%nat, (Ok [edge2 1]).
  split; [right; left; reflexivity|]. cbn. intros E. inversion E. lra.
Qed.
Print Assumptions C10_stale_after_reweighting.

(** ** C11: weight defaulting, at every entry point of this module; [le_contains] is the answer of [in]. *)
Theorem C11_singlelayer : forall env k g gamma, weights_defaulted (le_contains env g) g (fst (singlelayer_leiden env k g gamma)).
Proof. intros. rewrite singlelayer_out. apply weighted_defaulted. Qed.
Print Assumptions C11_singlelayer.

Theorem C11_multilayer : forall env k w a b g ge lv gamma omega,
  a <> b -> nth_error (heap w) a = Some g -> nth_error (heap w) b = Some ge ->
  let h := heap (fst (multilayer_leiden env k w a b lv gamma omega)) in
  (exists g', nth_error h a = Some g' /\ weights_defaulted (le_contains env g) g g') /\
  (exists ge', nth_error h b = Some ge' /\ weights_defaulted (le_contains env ge) ge ge') /\
  (forall i, i <> a -> i <> b -> nth_error h i = nth_error (heap w) i).
Proof.
  intros env k w a b g ge lv gamma omega Hab Ha Hb h. unfold h. rewrite (multilayer_graphs env k w lv gamma omega Hab Ha Hb).
  assert (a < length (heap w))%nat by (apply nth_error_Some; congruence). assert (b < length (heap w))%nat by (apply nth_error_Some; congruence).
  split; [|split].
  - exists (weighted env g). split; [|apply weighted_defaulted]. rewrite heap_set_nth. destruct (Nat.eq_dec b a); [congruence|].
    rewrite heap_set_nth. destruct (Nat.eq_dec a a); [|congruence]. destruct (lt_dec a (length (heap w))); tauto.
  - exists (weighted env ge). split; [|apply weighted_defaulted]. rewrite heap_set_nth. destruct (Nat.eq_dec b b); [|congruence].
    destruct (lt_dec b _) as [|Hn]; auto. exfalso. apply Hn. apply nth_error_Some. rewrite heap_set_nth. destruct (Nat.eq_dec a b); congruence.
  - intros i Hi1 Hi2. rewrite !heap_set_nth. destruct (Nat.eq_dec b i), (Nat.eq_dec a i); congruence.
Qed.
Print Assumptions C11_multilayer.

(** gamma_estimate assigns a list as long as the number of vertices (parameter_estimation_utilities.py:94-95): every edge
    still gets weight 1. *)
Theorem C11_vertex_count_list : forall g, wf_graph g -> exists g', set_weights g (repeat 1 (vcount g)) = Ok g' /\ weights_defaulted false g g'.
Proof.
  intros g [Hwf _]. eexists. split.
  - apply set_weights_ones. intros He. destruct (edges g) as [|[u v] E]; [congruence|]. destruct (Hwf u v); simpl; auto. lia.
  - cbn. repeat split; auto. exists (repeat 1 (ecount g)). split; auto. split; [apply repeat_length|]. intros w H. apply repeat_spec in H. auto.
Qed.
Print Assumptions C11_vertex_count_list.
Example C11_example : weights (fst (singlelayer_leiden env3 0 path3 1)) = Some [1; 1] /\ wf_graph path3.
Proof. split; [reflexivity|]. split; [|discriminate]. intros u v H; cbn in H |- *. repeat (destruct H as [H|H]; [inversion H; subst; lia|]). destruct H. Qed.

(** ** C51: what the optimiser is asked to optimise is multilayer modularity (hence A - gamma P + omega C, by C12-C14).
    [ks] lists the communities once each. *)
Theorem C51_multilayer_objective : forall g ge lv c ks layers gamma omega,
  wf_graph g -> wf_graph ge -> vcount ge = vcount g -> length lv = vcount g -> edges_within_layers g lv ->
  weights ge = Some (repeat 1 (length (edges ge))) -> layer_graphs g (repeat 1 (length (edges g))) lv layers ->
  NoDup ks -> (forall v, (v < vcount g)%nat -> In (nth v c 0%nat) ks) ->
  objective_value (multiplex_objective layers ge gamma omega) c ks = multilayer_modularity g ge lv gamma omega c.
Proof. exact objective_modularity. Qed.
Print Assumptions C51_multilayer_objective.

Theorem C51_singlelayer_objective : forall g c ks gamma,
  wf_graph g -> weights g = Some (repeat 1 (length (edges g))) -> NoDup ks -> (forall v, (v < vcount g)%nat -> In (nth v c 0%nat) ks) ->
  quality (mkVP RBConfiguration g gamma) c ks = modularity g gamma c.
Proof. intros g c ks gamma Hwf Hw Hn Hk. unfold quality. cbn [vp_type vp_graph vp_gamma]. rewrite Hw. apply rb_quality_modularity; auto. Qed.
Print Assumptions C51_singlelayer_objective.

Example C51_example : wf_graph two_layers /\ wf_graph coupling /\ edges_within_layers two_layers [0; 0; 1; 1]%nat /\
  layer_graphs two_layers [1; 1] [0; 0; 1; 1]%nat [mkGraph 4 false [(0, 1)]%nat (Some [1]); mkGraph 4 false [(2, 3)]%nat (Some [1])] /\
  (forall v, (v < 4)%nat -> In (nth v [0; 0; 1; 0] 0)%nat [0; 1]%nat).
Proof.
  split; [|split; [|split; [|split]]].
  - split; [|discriminate]. intros u v H; cbn in H |- *. repeat (destruct H as [H|H]; [inversion H; subst; lia|]). destruct H.
  - split; [|discriminate]. intros u v H; cbn in H |- *. repeat (destruct H as [H|H]; [inversion H; subst; lia|]). destruct H.
  - intros u v H; cbn in H. repeat (destruct H as [H|H]; [inversion H; reflexivity|]). destruct H.
  - split; [|split].
    + intros l Hl. simpl in *. lia.
    + exists 1%nat. simpl. auto.
    + intros [|[|t]] gt H; cbn in H; [inversion H; subst; cbn; auto..|]. destruct t; discriminate.
  - intros [|[|[|[|v]]]] H; cbn; auto; lia.
Qed.

(** The optimiser's objective and the coefficients CHAMP computes for the same partition describe the same function. *)
Theorem C51_objective_equals_coefficients : forall g ge lv c ks layers gamma omega,
  wf_graph g -> wf_graph ge -> vcount ge = vcount g -> length lv = vcount g -> lv <> [] -> length c = vcount g ->
  edges_within_layers g lv ->
  (forall l, In l lv -> exists u v, In (u, v) (edges g) /\ nth u lv 0%nat = l) ->
  weights ge = Some (repeat 1 (length (edges ge))) -> layer_graphs g (repeat 1 (length (edges g))) lv layers ->
  NoDup ks -> (forall v, (v < vcount g)%nat -> In (nth v c 0%nat) ks) ->
  exists a p k, partition_coefficients_3D_serial g ge lv [c] = Ok ([a], [Fin p], [k]) /\
    objective_value (multiplex_objective layers ge gamma omega) c ks = a - gamma * p + omega * k.
Proof.
  intros g ge lv c ks layers gamma omega Hg Hge Hv Hl Hne Hc Hw Hh Hwe Hlg Hn Hk.
  exists (A_of g c), (P3_of g lv c), (A_of ge c). split.
  - rewrite (@coefficients_3D_ok g ge lv [c]); auto; [lia|]. intros x [<-|[]]. auto.
  - rewrite (@objective_modularity g ge lv c ks layers gamma omega Hg Hge Hv Hl Hw Hwe Hlg Hn Hk). apply multilayer_APC.
Qed.
Print Assumptions C51_objective_equals_coefficients.
