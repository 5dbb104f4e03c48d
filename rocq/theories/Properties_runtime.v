(** C118: the runtime comparison. *)
From Coq Require Import String Lia Permutation.
From Verif Require Import PyBase PyGraph M_partition M_champ M_leiden M_estimation_utils M_checks M_generators M_sbmtests M_studies M_docs M_bench
  Spec Spec_graph Spec_leiden Spec_champ Spec_lp Spec_prune Spec_stability Spec_sbm Spec_generators Spec_lfr Spec_sbmtests Spec_docs Spec_bench
  L_base L_canon L_leiden L_multileiden L_sbm L_sbm2 L_prune L_generators2 L_sbmtests L_bench
  Properties_sbm Properties_leiden Properties_prune Properties_sbmtests Properties_docs.
Open Scope list_scope.
Open Scope R_scope.

(** ** C118: the Leiden function behind the Louvain name has no parameter chunk_dispatch: the first call is a TypeError, and no result is ever stored ... *)
Theorem C118_type_error : forall env order louvain_time pruning_time G n nums,
  generate_runtimes env order louvain_time pruning_time G (n :: nums) = Raise TypeError.
Proof. reflexivity. Qed.
Print Assumptions C118_type_error.
Theorem C118_never_stored : forall env order louvain_time pruning_time G,
  runtime_comparison env order louvain_time pruning_time G None = (None, Raise TypeError) /\
  forall data, runtime_comparison env order louvain_time pruning_time G (Some data) = (Some data, Ok data).
Proof. intros. split; [|reflexivity]. unfold runtime_comparison. change (seq 0 26) with (0%nat :: seq 1 25). cbn [map]. rewrite C118_type_error. reflexivity. Qed.
Print Assumptions C118_never_stored.

(** *** Without that argument *)
Definition repaired : list string := ["G"; "gammas"; "show_progress"]%string.

Lemma mapG_graph env : forall ranges g, wf_graph g -> fst (ranges_to_gamma_estimates env g ranges) = g \/ fst (ranges_to_gamma_estimates env g ranges) = weighted_e env g.
Proof.
  unfold ranges_to_gamma_estimates. induction ranges as [|r l IH]; intros g Hw; [left; reflexivity|]. right. cbn [mapG].
  destruct (gamma_estimate env g (Membership (snd r))) as [g1 est] eqn:E.
  assert (g1 = weighted_e env g) by (rewrite gamma_estimate_graph in E by auto; inversion E; auto). subst g1.
  destruct est as [x|]; cbn [bind]; [|reflexivity].
  specialize (IH (weighted_e env g) (@weighted_e_wf env g Hw)). rewrite weighted_e_idem in IH.
  destruct (mapG _ (weighted_e env g) l) as [g2 rs]. cbn [fst] in *. destruct IH; assumption.
Qed.
Lemma prune_graph env g parts lo hi restrict st : wf_graph g ->
  snd (fst (prune_to_stable_partitions env g parts lo hi restrict st)) = g \/ snd (fst (prune_to_stable_partitions env g parts lo hi restrict st)) = weighted_e env g.
Proof.
  intros Hw. unfold prune_to_stable_partitions. destruct (considered_parts env parts restrict) as [[|p ps]|]; cbn [fst snd]; auto.
  destruct (CHAMP_2D _ _ _ _ _ _) as [ranges|]; cbn [fst snd]; auto. pose proof (mapG_graph env ranges g Hw) as M.
  destruct (ranges_to_gamma_estimates env g ranges) as [g' ests]. exact M.
Qed.

(** The graph stays as it is or gets unit weights. *)
Definition still (env : run_env) (G H : graph) : Prop := H = G \/ H = weighted_e (ru_est env) G.
Lemma still_wf env G H : wf_graph G -> still env G H -> wf_graph H.
Proof. intros W [-> | ->]; [exact W|apply weighted_e_wf; exact W]. Qed.
Lemma still_step env G H parts : wf_graph G -> still env G H -> still env G (snd (fst (prune_to_stable_partitions (ru_est env) H parts 0 3 None false))).
Proof.
  intros W S. destruct (prune_graph (ru_est env) H parts 0 3 None false (still_wf _ _ _ W S)) as [-> | ->]; [exact S|]. right. destruct S as [-> | ->]; [reflexivity|apply weighted_e_idem].
Qed.
Lemma still_found env G H : still env G H ->
  (weighted (ru_leiden env) H = G \/ weighted (ru_leiden env) H = unit_weighted G) /\
  (le_contains (ru_leiden env) G = false -> weighted (ru_leiden env) H = unit_weighted G) /\
  (le_contains (ru_leiden env) G = true -> ee_contains (ru_est env) G = true -> weighted (ru_leiden env) H = G).
Proof.
  assert (U : weighted (ru_leiden env) (unit_weighted G) = unit_weighted G) by (unfold weighted; destruct (le_contains _ _); reflexivity).
  assert (A : forall b : bool, (if b then G else unit_weighted G) = G \/ (if b then G else unit_weighted G) = unit_weighted G) by (intros [|]; auto).
  assert (WG : weighted (ru_leiden env) G = if le_contains (ru_leiden env) G then G else unit_weighted G) by reflexivity.
  assert (WE : weighted_e (ru_est env) G = if ee_contains (ru_est env) G then G else unit_weighted G) by reflexivity.
  intros [-> | ->].
  - rewrite WG. split; [apply A|]. destruct (le_contains (ru_leiden env) G); split; intros; congruence || reflexivity.
  - rewrite WE. destruct (ee_contains (ru_est env) G).
    + rewrite WG. split; [apply A|]. destruct (le_contains (ru_leiden env) G); split; intros; congruence || reflexivity.
    + rewrite U. split; [right; reflexivity|]. split; intros; congruence.
Qed.

(** How many partitions the runs on the graph, given unit weights where it has none, have found. *)
Definition counts_found (env : run_env) (G : graph) (n k : nat) : Prop :=
  (k <= n)%nat /\ exists H parts, (H = G \/ H = unit_weighted G) /\
    (le_contains (ru_leiden env) G = false -> H = unit_weighted G) /\ (le_contains (ru_leiden env) G = true -> ee_contains (ru_est env) G = true -> H = G) /\
    all_found (ru_leiden env) H (linspace 0 3 n) parts /\ k = length parts.

Section Rounds.
Variables (env : run_env) (order : nat -> list nat) (lt pt : nat -> R) (G : graph).
Hypothesis W : wf_graph G.

Lemma rounds_out : forall nums H l p c H' out, (forall n, In n nums -> Permutation (order n) (seq 0 n)) -> still env G H ->
  foldM (runtime_step env order repaired lt pt) nums (H, (l, p, c)) = Ok (H', out) ->
  exists c', out = (l ++ map lt nums, p ++ map pt nums, c ++ c') /\ Forall2 (counts_found env G) nums c'.
Proof.
  induction nums as [|n nums IH]; intros H l p c H' out Ho S E; cbn [foldM] in E.
  - injection E as <- <-. exists []. cbn [map]. rewrite !app_nil_r. split; [reflexivity|constructor].
  - apply bind_ok in E as (s & E1 & E2). unfold runtime_step in E1. apply bind_ok in E1 as (parts & HP & E1).
    destruct (prune_to_stable_partitions _ _ _ _ _ _ _) as [[w H1] pruned] eqn:EP. apply bind_ok in E1 as (x & _ & E1). injection E1 as <-.
    assert (S1 : still env G H1) by (replace H1 with (snd (fst (w, H1, pruned))) by reflexivity; rewrite <- EP; apply still_step; assumption).
    destruct (IH H1 _ _ _ _ _ (fun m Hm => Ho m (or_intror Hm)) S1 E2) as (c' & -> & F).
    exists (length parts :: c'). cbn [map]. rewrite <- !app_assoc. split; [reflexivity|]. constructor; [|exact F].
    destruct (@parallel_found (in_round env order n) H (linspace 0 3 n) repaired parts) as [A L].
    + intros k Hk. exact Hk.
    + rewrite linspace_length. apply Ho. left. reflexivity.
    + exact HP.
    + rewrite linspace_length in L. split; [exact L|]. exists (weighted (ru_leiden env) H), parts. destruct (still_found env G H S) as (X & Y & Z). auto.
Qed.
End Rounds.

(** ... without that argument, what it returns are the two durations of every round in order, and the number of different partitions that Leiden found, at most one
    for each resolution. *)
Theorem C118_repaired : forall env order louvain_time pruning_time G nums louvains prunings counts, wf_graph G ->
  (forall n, In n nums -> Permutation (order n) (seq 0 n)) ->
  generate_runtimes_with repaired env order louvain_time pruning_time G nums = Ok (louvains, prunings, counts) ->
  louvains = map louvain_time nums /\ prunings = map pruning_time nums /\ Forall2 (counts_found env G) nums counts.
Proof.
  intros env order lt pt G nums l p c W Ho E. unfold generate_runtimes_with in E. apply bind_ok in E as ([H' out] & E & Q). cbn [snd] in Q. injection Q as ->.
  destruct (rounds_out env order lt pt G W nums G [] [] [] H' _ Ho (or_introl eq_refl) E) as (c' & X & F). cbn [app] in X. injection X as -> -> ->. auto.
Qed.
Print Assumptions C118_repaired.

(** It returns when no vertex is isolated and the routines behind Leiden and CHAMP answer. *)
Lemma every_partition_estimated env G c : wf_graph G -> edges G <> [] -> ee_contains env G = false -> (forall v, (v < vcount G)%nat -> has_edge_at G v) ->
  length c = vcount G -> canonical c -> c <> [] -> exists x, snd (gamma_estimate env G (Membership c)) = Ok x.
Proof.
  intros W NE Hw Hv Lc Cc Nc. set (h := unit_weighted G).
  assert (WD : weights_defaulted (ee_contains env G) G h).
  { rewrite Hw. split; [reflexivity|]. split; [reflexivity|]. split; [reflexivity|]. exists (repeat 1 (length (edges G))). split; [reflexivity|]. split; [apply repeat_length|]. intros w I. apply repeat_spec in I. exact I. }
  destruct (C30_exact env G h (repeat 1 (length (edges G))) c W WD eq_refl) as [_ X]; [intros w I; apply repeat_spec in I; lra|exact Lc|].
  apply X. intros [E|[M E]]; [exact (NE E)|].
  assert (EP : forall v, (v < vcount G)%nat -> end_point (weighted_edges h (repeat 1 (length (edges G)))) v).
  { intros v Hv'. destruct (Hv v Hv') as ([a b] & I & Q). exists a, b, 1. split; [|cbn [fst snd] in Q; intuition congruence]. unfold weighted_edges. change (edges h) with (edges G). rewrite unit_edges. apply in_map_iff. exists (a, b). split; [reflexivity|exact I]. }
  destruct (canonical_range Cc Nc) as (k & Hk & Q).
  assert (Z : forall x, In x c -> x = 0%nat).
  { intros x Hx. destruct (In_nth c x 0%nat Hx) as (i & Li & Ei). assert (H0 : In 0%nat c) by (apply Q; lia). destruct (In_nth c 0%nat 0%nat H0) as (j & Lj & Ej).
    apply eq_trans with (nth i c 0%nat); [symmetry; exact Ei|]. apply eq_trans with (nth j c 0%nat); [|exact Ej]. apply E; apply EP; lia. }
  assert (list_max c <= 0)%nat; [|lia]. apply list_max_le. apply Forall_forall. intros x Hx. rewrite (Z x Hx). lia.
Qed.
Lemma still_ready env order G H n : run_ready (in_round env order n) G n -> still env G H -> run_ready (in_round env order n) H n.
Proof. intros R [-> | ->]; [exact R|]. exact (run_ready_weighted _ _ _ R). Qed.
Lemma still_estimate env G H c : wf_graph G -> still env G H -> gamma_estimate (ru_est env) H (Membership c) = gamma_estimate (ru_est env) G (Membership c).
Proof. intros W [-> | ->]; [reflexivity|]. apply gamma_estimate_twice. exact W. Qed.

Theorem C118_repaired_returns : forall env order louvain_time pruning_time G nums most,
  (forall n, In n nums -> (n <= most)%nat /\ run_ready (in_round env order n) G n) -> wf_graph G -> directed G = false -> ee_contains (ru_est env) G = false ->
  (forall v, (v < vcount G)%nat -> has_edge_at G v) ->
  (forall i vp, vcount (vp_graph vp) = vcount G -> exists m, le_find (ru_leiden env) i vp = Ok m) ->
  working_solver (ee_champ (ru_est env)) most -> hsi_answers 2 (ee_champ (ru_est env)) ->
  exists data, generate_runtimes_with repaired env order louvain_time pruning_time G nums = Ok data.
Proof.
  intros env order lt pt G nums most Hn W Hd Hw Hv Hl WS HA. unfold generate_runtimes_with.
  assert (K : forall nums H out, (forall n, In n nums -> (n <= most)%nat /\ run_ready (in_round env order n) G n) -> still env G H ->
    exists s, foldM (runtime_step env order repaired lt pt) nums (H, out) = Ok s).
  { clear nums Hn. induction nums as [|n nums IH]; intros H [[l p] c] Hn S; [eexists; reflexivity|]. cbn [foldM].
    destruct (Hn n (or_introl eq_refl)) as [Ln RG]. pose proof (still_ready _ _ _ _ _ RG S) as RH. set (e := in_round env order n) in *.
    assert (VH : vcount H = vcount G) by (destruct S as [-> | ->]; [reflexivity|apply weighted_e_vcount]).
    assert (EP : exists parts, call_parallel_louvain e H (linspace 0 3 n) repaired = Ok parts).
    { destruct (@parallel_gammas (ru_leiden e) (ru_cpus e) (ru_order e) H (weighted (ru_leiden e) H) (linspace 0 3 n) false) as [_ [C _]].
      - rewrite linspace_length. apply (rr_completion _ _ _ RH).
      - apply weighted_defaulted.
      - destruct C as (parts & E & _); [|exists parts; exact E]. intros i x _. apply Hl. cbn [vp_graph]. rewrite weighted_vcount. exact VH. }
    destruct EP as (parts & HP). destruct (@parallel_found e H (linspace 0 3 n) repaired parts) as [F L]; [intros k Hk; exact Hk|rewrite linspace_length; apply (rr_completion _ _ _ RH)|exact HP|].
    rewrite linspace_length in L. pose proof (found_shape _ _ _ _ _ RH (weighted_vcount _ _) F) as SH.
    assert (CI : forall c, considered (map (map Z.of_nat) parts) None c <-> In c parts) by (intros c0; apply considered_canonical; intros q Hq; apply SH; exact Hq).
    assert (OK : prune_ok_2D (ru_est env) H (map (map Z.of_nat) parts)).
    { pose proof (rr_iterations _ _ _ RH) as IT. destruct RH as [R1 R2 R3 R4 R5 R6 R7 R8 R9]. constructor; auto.
      - intros t Ht. apply in_map_iff in Ht as (q & <- & Hq). rewrite map_length. apply SH. exact Hq.
      - rewrite map_length. apply Z.le_trans with (Z.of_nat n); [apply inj_le; exact L|exact IT]. }
    unfold runtime_step at 1. fold e. rewrite HP. cbn [bind].
    destruct (C41_prune_returns (ru_est env) H (map (map Z.of_nat) parts) 0 3 None false) as (r & Er).
    - exact OK.
    - destruct S as [-> | ->]; [exact Hd|unfold weighted_e; destruct (ee_contains _ _); exact Hd].
    - lra.
    - eapply working_solver_le; [|exact WS]. rewrite map_length. lia.
    - exact HA.
    - intros q Hq. apply CI in Hq. destruct (SH q Hq) as (Lq & Cq & Nq). rewrite (still_estimate env G H q W S). apply every_partition_estimated; auto; [exact (rr_edges _ _ _ RG)|congruence].
    - assert (S1 := still_step env G H (Tuples (map (map Z.of_nat) parts)) W S).
      destruct (prune_to_stable_partitions (ru_est env) H (Tuples (map (map Z.of_nat) parts)) 0 3 None false) as [[w H1] pruned]. cbn [fst snd] in Er, S1. subst pruned. cbn [bind].
      apply IH; [intros m Hm; apply Hn; right; exact Hm|exact S1]. }
  destruct (K nums G ([], [], []) Hn (or_introl eq_refl)) as (s & E). rewrite E. cbn [bind]. eexists. reflexivity.
Qed.
Print Assumptions C118_repaired_returns.

(** On the ring of six nodes, whose pairs are all that Leiden finds, with 0 and 20 resolutions: 0 and 1 partitions. *)
Example C118_example : exists env order, (forall n, run_ready (in_round env order n) bare_ring n \/ (1000 < n)%nat) /\
  exists data, generate_runtimes_with repaired env order INR (fun n => INR n / 20) bare_ring [0; 20]%nat = Ok data /\
    data = ([INR 0; INR 20], [INR 0 / 20; INR 20 / 20], [0; 1]%nat).
Proof.
  destruct (ring_world (fun _ => false)) as (env & E1 & E2 & HR & WS & HA & HI).
  assert (W : wf_graph bare_ring) by (split; [literal_edges|discriminate]). specialize (HR bare_ring eq_refl W ltac:(discriminate)).
  assert (RR : forall n, (n <= 1000)%nat -> run_ready (in_round env (seq 0) n) bare_ring n).
  { intros n Hn. destruct HR as [R1 R2 R3 R4 R5 R6 R7 R8 R9]. constructor; try assumption; try apply Permutation_refl.
    apply Z.le_trans with (Z.of_nat 1000); [apply inj_le; exact Hn|exact R5]. }
  exists env, (seq 0). split; [intros n; destruct (le_lt_dec n 1000); [left; apply RR|right]; assumption|].
  assert (Hn : forall n, In n [0; 20]%nat -> (n <= 1000)%nat) by (intros n [<-|[<-|[]]]; apply Nat.leb_le; vm_compute; reflexivity).
  destruct (C118_repaired_returns env (seq 0) INR (fun n => INR n / 20) bare_ring [0; 20]%nat 1000) as (data & E); auto.
  - rewrite E2. reflexivity.
  - intros v Hv. assert (v = 0 \/ v = 1 \/ v = 2 \/ v = 3 \/ v = 4 \/ v = 5)%nat as [-> | [-> | [-> | [-> | [-> | ->]]]]] by (cbn in Hv; lia).
    all: first [exists (0, 1)%nat; split; [cbn; tauto|cbn; tauto]|exists (2, 3)%nat; split; [cbn; tauto|cbn; tauto]|exists (4, 5)%nat; split; [cbn; tauto|cbn; tauto]].
  - intros i vp _. rewrite E1. eexists; reflexivity.
  - exists data. split; [exact E|]. destruct data as [[l p] c]. apply C118_repaired in E as (-> & -> & F); [|exact W|intros n Hn'; apply Permutation_refl].
    cbn [map]. f_equal. inversion F as [|a k nums1 c1 (L0 & _) F1]; subst. inversion F1 as [|b k' nums2 c2 X F2]; subst. inversion F2; subst.
    assert (k = 0%nat) by lia. subst k. do 2 f_equal. destruct X as (L & H & parts & _ & _ & _ & [Nd FP] & Ek). subst k'.
    assert (Cr : canonical ring_c) by (apply (@sorted_tuple_canonical [0; 0; 1; 1; 2; 2]%Z ring_c); reflexivity).
    rewrite (singleton_list parts ring_c Nd); [reflexivity|]. intros q. rewrite FP, E1. split.
    + intros (i & g & m & _ & Hm & Hs & Hc). cbn in Hm. injection Hm as <-. symmetry. eapply canonical_unique; [exact Cr|exact Hc|exact Hs].
    + intros ->. exists 0%nat, (0 + INR 0 * ((3 - 0) / INR (20 - 1))), ring_c. split; [reflexivity|]. split; [reflexivity|]. split; [|exact Cr].
      split; [reflexivity|]. intros i j a a' b b' Ha Ha' Hb Hb'. rewrite Ha in Hb. rewrite Ha' in Hb'. inversion Hb; inversion Hb'; subst; tauto.
Qed.
