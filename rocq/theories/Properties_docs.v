(** C112-C114: the worked examples of the documentation. *)
From Coq Require Import String Classical Sorted.
From Verif Require Import PyBase PyGraph M_partition M_champ M_leiden M_estimation_utils M_checks M_generators M_sbmtests M_studies M_docs
  Spec Spec_graph Spec_leiden Spec_champ Spec_lp Spec_prune Spec_stability Spec_sbm Spec_multisbm Spec_check Spec_valid Spec_tiling Spec_generators Spec_lfr Spec_sbmtests Spec_docs
  L_base L_canon L_leiden L_multileiden L_modularity L_sbm L_sbm2 L_prune L_generators L_generators2 L_sbmtests L_champ_total
  Properties_sbm Properties_leiden Properties_pipeline Properties_interior Properties_prune Properties_multiprune Properties_tiling Properties_reproducible Properties_sbmtests.
Open Scope list_scope.
Open Scope R_scope.

(** ** C112 *)

Definition documented_lv : list nat := map (fun i => (i / 30)%nat) (seq 0 (30 * 3)).
Lemma documented_labels : forallb (fun i => Nat.eqb (nth i documented_communities 0%nat) (if Nat.ltb i 60 then (i mod 30) / 10 else 0)%nat) (seq 0 90) = true /\ length documented_communities = 90%nat.
Proof. split; reflexivity. Qed.
Lemma documented_label i : (i < 90)%nat -> nth i documented_communities 0%nat = if Nat.ltb i 60 then ((i mod 30) / 10)%nat else 0%nat.
Proof. intros H. apply Nat.eqb_eq. apply (proj1 (forallb_forall _ _) (proj1 documented_labels)). apply in_seq. lia. Qed.
Lemma planted_label u v : (v < u < 90)%nat -> (u / 30 = v / 30)%nat -> (nth v documented_communities 0 = nth u documented_communities 0)%nat <-> planted_together u v.
Proof.
  intros H E. rewrite !documented_label by lia. unfold planted_together. destruct (Nat.ltb_spec v 60), (Nat.ltb_spec u 60).
  - assert (Q : forall x, (x / 10 = 3 * (x / 30) + x mod 30 / 10)%nat).
    { intros x. rewrite (Nat.div_mod x 30) at 1 by lia. replace (30 * (x / 30) + x mod 30)%nat with (x mod 30 + (3 * (x / 30)) * 10)%nat by lia. rewrite Nat.div_add by lia. lia. }
    rewrite (Q u), (Q v), E. split; intros; [right; lia|]. lia.
  - exfalso. assert (v / 30 < 2)%nat by (apply Nat.div_lt_upper_bound; lia). assert (2 <= u / 30)%nat by (apply Nat.div_le_lower_bound; lia). lia.
  - lia.
  - split; [left; lia|reflexivity].
Qed.
Lemma documented_bounds d u v : In (u, v) (sbm_edges d (1 / 2) (1 / 20) documented_lv documented_communities) -> (u < 30 * 3 /\ v < 30 * 3 /\ u / 30 = v / 30)%nat.
Proof.
  intros H. apply sbm_edges_in in H. change (length documented_communities) with 90%nat in H. destruct H as (H1 & H2 & _). unfold documented_lv in H2. rewrite !lv_nth in H2 by lia. lia.
Qed.

(** Whatever is drawn, the network of the documentation is the one with three layers of 30 vertices, three planted blocks of ten in the first two
    layers and one of thirty in the last, where every pair of a layer is linked as its draw says, and every vertex is coupled with its copy
    in the next layer; it is a valid temporal network exactly when its last vertex and every layer have an edge. *)
Theorem C112_documented_network : forall d g gi lv, generate_basic_multilayer_network d = (g, gi, lv) ->
  length lv = 90%nat /\ (forall i, (i < 90)%nat -> nth i lv 0%nat = (i / 30)%nat) /\
  wf_graph g /\ (vcount g <= 90)%nat /\ directed g = false /\ weights g = None /\ NoDup (edges g) /\
  (forall u v, In (u, v) (edges g) <-> (v < u < 90)%nat /\ (u / 30 = v / 30)%nat /\
     (planted_together u v /\ d_pair d v u < 1 / 2 \/ ~ planted_together u v /\ d_pair d v u < 1 / 20)) /\
  wf_graph gi /\ vcount gi = 90%nat /\ weights gi = None /\ temporal_couplings gi 30 3 /\
  (vcount g = 90%nat <-> has_edge_at g 89) /\
  forall model, model = "temporal"%string \/ model = "multilevel"%string ->
    (valid_multilayer g gi (repeat 1 (length (edges g))) lv model <-> has_edge_at g 89 /\ forall t, (t < 3)%nat -> layer_has_edge g lv t).
Proof.
  intros d g gi lv H. unfold generate_basic_multilayer_network in H. fold documented_lv in H. injection H as <- <- <-.
  assert (B : forall u v, In (u, v) (sbm_edges d (1 / 2) (1 / 20) documented_lv documented_communities) -> (u < 90 /\ v < 90)%nat) by (intros u v H; apply documented_bounds in H; lia).
  split; [reflexivity|]. split; [intros i Hi; unfold documented_lv; apply lv_nth; lia|]. split; [apply graph_of_edges_wf|].
  split; [apply graph_of_edges_le; exact B|]. split; [reflexivity|]. split; [reflexivity|]. split; [apply sbm_edges_nodup|]. split.
  { intros u v. cbn [graph_of_edges edges]. rewrite sbm_edges_in. change (length documented_communities) with 90%nat.
    split.
    - intros (H1 & H2 & H3). assert (E : (u / 30 = v / 30)%nat) by (unfold documented_lv in H2; rewrite !lv_nth in H2 by lia; lia). split; [lia|]. split; [exact E|].
      pose proof (planted_label u v H1 E) as P. destruct (Nat.eqb_spec (nth v documented_communities 0%nat) (nth u documented_communities 0%nat)) as [Q|Q]; [left|right]; (split; [tauto|exact H3]).
    - intros (H1 & E & H3). split; [lia|]. split; [unfold documented_lv; rewrite !lv_nth by lia; lia|]. pose proof (planted_label u v H1 E) as P.
      destruct (Nat.eqb_spec (nth v documented_communities 0%nat) (nth u documented_communities 0%nat)) as [Q|Q]; destruct H3 as [[H3 H4]|[H3 H4]]; tauto. }
  split; [apply graph_of_edges_wf|]. split; [apply next_copies_vcount; lia|]. split; [reflexivity|]. split; [apply next_copies_couplings; lia|].
  split; [apply (@graph_of_edges_full false _ 90); [lia|exact B]|].
  intros model Hm. unfold documented_lv at 2 3. rewrite (@valid_generated 30 3 (sbm_edges d (1 / 2) (1 / 20) documented_lv documented_communities) false (graph_of_edges true (next_copies 30 3)) model).
  - split; [intros (_ & X); exact X|]. intros X. split; [lia|exact X].
  - lia.
  - lia.
  - intros u v H. apply (documented_bounds d). exact H.
  - reflexivity.
  - intros _. apply next_copies_vcount; lia.
  - intros _. apply next_copies_length.
  - intros _ v. apply next_copies_valid.
  - intros ->. destruct Hm; discriminate.
Qed.
Print Assumptions C112_documented_network.

(** The number of vertices is not passed on either: if the last vertex gets no edge the network is too small and is no valid temporal network, although
    every layer has edges. *)
Theorem C112_refuted_size : exists d g gi lv, generate_basic_multilayer_network d = (g, gi, lv) /\ (forall t, (t < 3)%nat -> layer_has_edge g lv t) /\
  (vcount g < length lv)%nat /\ ~ valid_multilayer g gi (repeat 1 (length (edges g))) lv "temporal".
Proof.
  exists (mkDraws (fun _ _ => 0) (fun _ _ => 0%nat) (fun v u => if Nat.eqb u 89 then 1 else 0)).
  destruct (generate_basic_multilayer_network (mkDraws (fun _ _ => 0) (fun _ _ => 0%nat) (fun v u => if Nat.eqb u 89 then 1 else 0))) as [[g gi] lv] eqn:E. exists g, gi, lv. split; [reflexivity|].
  destruct (C112_documented_network _ _ _ _ E) as (L & LV & W & V & _ & _ & _ & HE & _ & _ & _ & _ & F & VM). cbn [d_pair] in HE.
  assert (N : ~ has_edge_at g 89).
  { intros ([a b] & I & H). apply HE in I as (I1 & I2 & I3). destruct H as [H|H]; cbn [fst snd] in H; subst.
    - cbn [Nat.eqb] in I3. destruct I3 as [[_ X]|[_ X]]; lra.
    - lia. }
  split; [|split].
  - intros t Ht. exists (30 * t + 1)%nat, (30 * t)%nat. split.
    + apply HE. split; [lia|]. split; [rewrite !(Nat.mul_comm 30 t), Nat.div_add_l, Nat.div_mul by lia; cbn; lia|]. left. split.
      * right. replace (30 * t + 1)%nat with (1 + (3 * t) * 10)%nat by lia. replace (30 * t)%nat with (0 + (3 * t) * 10)%nat by lia. rewrite !Nat.div_add by lia. reflexivity.
      * destruct (Nat.eqb_spec (30 * t + 1) 89); [lia|lra].
    + rewrite LV by lia. rewrite (Nat.mul_comm 30 t), Nat.div_add_l by lia. cbn. lia.
  - rewrite L. destruct (Nat.eq_dec (vcount g) 90) as [X|X]; [apply F in X; contradiction|lia].
  - intros X. apply VM in X; [|left; reflexivity]. destruct X as [X _]. exact (N X).
Qed.
Print Assumptions C112_refuted_size.
(** With every pair linked the network is valid; the ground truth of the plotting example is the planted partition. *)
Lemma all_linked : exists d g gi lv, generate_basic_multilayer_network d = (g, gi, lv) /\ (forall u v, (v < u < 90)%nat -> (u / 30 = v / 30)%nat -> In (u, v) (edges g)) /\ has_edge_at g 89 /\ (forall t, (t < 3)%nat -> layer_has_edge g lv t).
Proof.
  exists (mkDraws (fun _ _ => 0) (fun _ _ => 0%nat) (fun v u => 0)).
  destruct (generate_basic_multilayer_network (mkDraws (fun _ _ => 0) (fun _ _ => 0%nat) (fun v u => 0))) as [[g gi] lv] eqn:E. exists g, gi, lv. split; [reflexivity|].
  destruct (C112_documented_network _ _ _ _ E) as (L & LV & W & V & _ & _ & _ & HE & _). cbn [d_pair] in HE.
  assert (All : forall u v, (v < u < 90)%nat -> (u / 30 = v / 30)%nat -> In (u, v) (edges g)) by (intros u v H1 H2; apply HE; split; [exact H1|]; split; [exact H2|]; destruct (classic (planted_together u v)); [left|right]; (split; [assumption|lra])).
  split; [exact All|]. split.
  - exists (89, 88)%nat. split; [apply All; [lia|reflexivity]|left; reflexivity].
  - intros t Ht. exists (30 * t + 1)%nat, (30 * t)%nat. split.
    + apply All; [lia|]. rewrite !(Nat.mul_comm 30 t), Nat.div_add_l, Nat.div_mul by lia; cbn; lia.
    + rewrite LV by lia. rewrite (Nat.mul_comm 30 t), Nat.div_add_l by lia. cbn. lia.
Qed.
Example C112_documented_network_example : (exists d g gi lv, generate_basic_multilayer_network d = (g, gi, lv) /\ valid_multilayer g gi (repeat 1 (length (edges g))) lv "temporal") /\
  documented_communities = (repeat 0 10 ++ repeat 1 10 ++ repeat 2 10 ++ repeat 0 10 ++ repeat 1 10 ++ repeat 2 10 ++ repeat 0 30)%nat.
Proof.
  split; [|reflexivity]. destruct all_linked as (d & g & gi & lv & E & _ & H1 & H2). exists d, g, gi, lv. split; [exact E|].
  destruct (C112_documented_network _ _ _ _ E) as (_ & _ & _ & _ & _ & _ & _ & _ & _ & _ & _ & _ & _ & VM). apply VM; [left; reflexivity|]. split; assumption.
Qed.

(** ** C113 *)

Lemma considered_canonical parts c : (forall p, In p parts -> canonical p) -> (considered (map (map Z.of_nat) parts) None c <-> In c parts).
Proof.
  intros H. unfold considered. split.
  - intros (Hc & (t & Ht & Hs) & _). apply in_map_iff in Ht as (p & <- & Hp). apply same_partition_Z in Hs. rewrite <- (canonical_unique (H p Hp) Hc Hs). exact Hp.
  - intros Hc. split; [apply H; exact Hc|]. split; [|intros k E; discriminate]. exists (map Z.of_nat c). split; [apply in_map; exact Hc|]. apply same_partition_Z.
    split; [reflexivity|]. intros i j a a' b b' Ha Ha' Hb Hb'. rewrite Ha in Hb. rewrite Ha' in Hb'. injection Hb as ->. injection Hb' as ->. tauto.
Qed.

Lemma documented_inputs env G parts : run_ready env G 1000 ->
  snd (repeated_parallel_leiden_from_gammas (ru_leiden env) (ru_cpus env) (ru_order env) G (linspace 0 2 1000) false) = Ok parts ->
  all_found (ru_leiden env) (weighted (ru_leiden env) G) (linspace 0 2 1000) parts /\ prune_ok_2D (ru_est env) G (map (map Z.of_nat) parts) /\
  (forall c, considered (map (map Z.of_nat) parts) None c <-> In c parts).
Proof.
  intros HR HP. destruct (@parallel_found env G (linspace 0 2 1000) [] parts) as [F L].
  - intros k [].
  - unfold linspace. rewrite map_length, seq_length. apply (rr_completion _ _ _ HR).
  - exact HP.
  - unfold linspace in L. rewrite map_length, seq_length in L. pose proof (found_shape _ _ _ _ _ HR (weighted_vcount _ _) F) as SH.
    split; [exact F|]. split; [|intros c; apply considered_canonical; intros p Hp; apply SH; exact Hp]. pose proof (rr_iterations _ _ _ HR) as IT.
    destruct HR as [R1 R2 R3 R4 R5 R6 R7 R8 R9]. constructor; auto.
    + intros t Ht. apply in_map_iff in Ht as (p & <- & Hp). rewrite map_length. apply SH. exact Hp.
    + rewrite map_length. apply Z.le_trans with (Z.of_nat 1000); [apply inj_le; exact L|exact IT].
Qed.

(** The stable partitions of the single-layer example are partitions that some of the thousand runs found, each of them optimal among all of these at its own
    estimate between 0 and 2, without repetition, and no strictly optimal one is missing; the graph is the one the caller has. *)
Theorem C113_documented_stable : forall env G H stable, run_ready env G 1000 -> weights_defaulted (le_contains (ru_leiden env) G) G H ->
  documented_stable env G = Ok stable ->
  exists parts, all_found (ru_leiden env) H (linspace 0 2 1000) parts /\ stable_among (ru_est env) G 0 2 (fun c => In c parts) stable.
Proof.
  intros env G H stable HR HD HS. apply defaulted_weighted in HD. subst H. unfold documented_stable in HS. apply bind_ok in HS as (parts & HP & HS).
  destruct (documented_inputs _ _ _ HR HP) as (F & OK & CI). exists parts. split; [exact F|].
  destruct (prune_to_stable_partitions (ru_est env) G (Tuples (map (map Z.of_nat) parts)) 0 2 None false) as [[w g'] r] eqn:E. cbn [snd] in HS. subst r.
  split; [|split].
  - destruct (@prune_2D_ok (ru_est env) G (map (map Z.of_nat) parts) 0 2 None false OK stable) as (_ & _ & _ & _ & _ & _ & _ & Nd); [rewrite E; reflexivity|exact Nd].
  - intros c Hc. destruct (C40_prune_sound _ _ _ _ _ _ _ _ _ _ OK E c Hc) as (C1 & x & C2 & C3 & C4). split; [apply CI; exact C1|]. exists x. split; [exact C2|]. split; [exact C3|]. intros d Hd. apply C4. apply CI. exact Hd.
  - intros c x Hc Hx Hb Ho. apply (C41_prune_complete _ _ _ _ _ _ _ _ _ _ c x OK E); [apply CI; exact Hc|exact Hx|exact Hb|]. intros d Hd. apply Ho. apply CI. exact Hd.
Qed.
Print Assumptions C113_documented_stable.

(** When no vertex is isolated and the routines behind CHAMP and Leiden answer, the example returns: no estimate can fail. *)
Theorem C113_returns : forall env G, run_ready env G 1000 -> directed G = false -> ee_contains (ru_est env) G = false ->
  (forall v, (v < vcount G)%nat -> has_edge_at G v) ->
  (forall i vp, vcount (vp_graph vp) = vcount G -> exists m, le_find (ru_leiden env) i vp = Ok m) ->
  working_solver (ee_champ (ru_est env)) 1000 -> hsi_answers 2 (ee_champ (ru_est env)) ->
  exists stable, documented_stable env G = Ok stable.
Proof.
  intros env G HR Hd Hw Hv Hl WS HA.
  assert (EP : exists parts, snd (repeated_parallel_leiden_from_gammas (ru_leiden env) (ru_cpus env) (ru_order env) G (linspace 0 2 1000) false) = Ok parts).
  { destruct (@parallel_gammas (ru_leiden env) (ru_cpus env) (ru_order env) G (weighted (ru_leiden env) G) (linspace 0 2 1000) false) as [_ [C _]].
    - unfold linspace. rewrite map_length, seq_length. apply (rr_completion _ _ _ HR).
    - apply weighted_defaulted.
    - destruct C as (parts & E & _); [|exists parts; exact E]. intros i x _. apply Hl. apply weighted_vcount. }
  destruct EP as (parts & HP). unfold documented_stable. rewrite HP. cbn [bind]. destruct (documented_inputs _ _ _ HR HP) as (F & OK & CI).
  pose proof (found_shape _ _ _ _ _ HR (weighted_vcount _ _) F) as SH.
  apply C41_prune_returns; auto; [lra| |].
  - assert (L : (length (map (map Z.of_nat) parts) <= 1000)%nat).
    { destruct (@parallel_found env G (linspace 0 2 1000) [] parts) as [_ L]; [intros k []| |exact HP|unfold linspace in L; rewrite map_length, seq_length in L; rewrite map_length; exact L].
      unfold linspace. rewrite map_length, seq_length. apply (rr_completion _ _ _ HR). }
    eapply working_solver_le; eassumption.
  - intros c Hc. apply CI in Hc. destruct (SH c Hc) as (Lc & Cc & Nc). pose proof (rr_graph _ _ _ HR) as W.
    set (h := mkGraph (vcount G) (directed G) (edges G) (Some (repeat 1 (length (edges G))))).
    assert (WD : weights_defaulted (ee_contains (ru_est env) G) G h).
    { rewrite Hw. split; [reflexivity|]. split; [reflexivity|]. split; [reflexivity|]. exists (repeat 1 (length (edges G))). split; [reflexivity|]. split; [apply repeat_length|]. intros w I. apply repeat_spec in I. exact I. }
    destruct (C30_exact (ru_est env) G h (repeat 1 (length (edges G))) c W WD eq_refl) as [_ X]; [intros w I; apply repeat_spec in I; lra|exact Lc|].
    apply X. intros [E|[M E]]; [exact (rr_edges _ _ _ HR E)|].
    assert (EP : forall v, (v < vcount G)%nat -> end_point (weighted_edges h (repeat 1 (length (edges G)))) v).
    { intros v Hv'. destruct (Hv v Hv') as ([a b] & I & Q). exists a, b, 1. split; [|cbn [fst snd] in Q; intuition congruence]. unfold weighted_edges. change (edges h) with (edges G). rewrite unit_edges. apply in_map_iff. exists (a, b). split; [reflexivity|exact I]. }
    destruct (canonical_range Cc Nc) as (k & Hk & Q).
    assert (Z : forall x, In x c -> x = 0%nat).
    { intros x Hx. destruct (In_nth c x 0%nat Hx) as (i & Li & Ei). assert (H0 : In 0%nat c) by (apply Q; lia). destruct (In_nth c 0%nat 0%nat H0) as (j & Lj & Ej).
      apply eq_trans with (nth i c 0%nat); [symmetry; exact Ei|]. apply eq_trans with (nth j c 0%nat); [|exact Ej]. apply E; apply EP; lia. }
    assert (list_max c <= 0)%nat; [|lia]. apply list_max_le. apply Forall_forall. intros x Hx. rewrite (Z x Hx). lia.
Qed.
Print Assumptions C113_returns.

(** The test passes exactly when the documented partition is the only stable one; then it is one of the partitions found, optimal among them at its own
    estimate between 0 and 2, and no other partition found is strictly optimal at its own. *)
Theorem C113_passes : forall env G, test_basic_singlelayer_example env G = Ok tt <-> documented_stable env G = Ok [documented_partition].
Proof.
  intros env G. unfold test_basic_singlelayer_example. destruct (documented_stable env G) as [stable|e]; cbn [bind]; [|split; discriminate].
  destruct (list_eq_dec (list_eq_dec Nat.eq_dec) stable [documented_partition]) as [->|N]; split; try reflexivity; intros X; [discriminate|]. exfalso. apply N. injection X as ->. reflexivity.
Qed.
Print Assumptions C113_passes.
Theorem C113_passing : forall env G H, run_ready env G 1000 -> weights_defaulted (le_contains (ru_leiden env) G) G H -> test_basic_singlelayer_example env G = Ok tt ->
  vcount G = 34%nat /\
  exists parts gamma, all_found (ru_leiden env) H (linspace 0 2 1000) parts /\ In documented_partition parts /\
    snd (gamma_estimate (ru_est env) G (Membership documented_partition)) = Ok (Some (Fin gamma)) /\ 0 <= gamma <= 2 /\
    (forall d, In d parts -> modularity G gamma d <= modularity G gamma documented_partition) /\
    forall c x, In c parts -> snd (gamma_estimate (ru_est env) G (Membership c)) = Ok (Some (Fin x)) -> 0 <= x <= 2 ->
      (forall d, In d parts -> d <> c -> modularity G x d < modularity G x c) -> c = documented_partition.
Proof.
  intros env G H HR HD HT. apply C113_passes in HT. destruct (C113_documented_stable _ _ _ _ HR HD HT) as (parts & F & (_ & S2 & S3)).
  destruct (S2 documented_partition) as (I & x & X1 & X2 & X3); [left; reflexivity|]. apply defaulted_weighted in HD. subst H. split.
  - destruct (found_shape _ _ _ _ _ HR (weighted_vcount _ _) F documented_partition I) as (L & _). symmetry. exact L.
  - exists parts, x. split; [exact F|]. split; [exact I|]. split; [exact X1|]. split; [exact X2|]. split; [exact X3|].
    intros c y Hc Hy Hb Ho. destruct (S3 c y Hc Hy Hb Ho) as [E|[]]. symmetry. exact E.
Qed.
Print Assumptions C113_passing.

(** With an intersection routine that lists every corner once, and partitions that some resolution tells apart: the test passes exactly when the documented partition is
    the only one among those found that is optimal at its own estimate between 0 and 2 and at a second resolution. *)
Definition optimal_around_estimate (env : est_env) (G : graph) (lo hi : R) (parts : list (list nat)) (c : list nat) : Prop :=
  In c parts /\ exists gamma gamma', snd (gamma_estimate env G (Membership c)) = Ok (Some (Fin gamma)) /\ lo <= gamma <= hi /\ lo <= gamma' <= hi /\ gamma' <> gamma /\
    forall d, In d parts -> modularity G gamma d <= modularity G gamma c /\ modularity G gamma' d <= modularity G gamma' c.
Lemma singleton_list {A} (l : list A) a : NoDup l -> (forall x, In x l <-> x = a) -> l = [a].
Proof.
  intros Nd H. destruct l as [|x l]; [exfalso; apply (H a); reflexivity|]. assert (x = a) by (apply H; left; reflexivity). subst x. destruct l as [|y l]; [reflexivity|]. exfalso.
  assert (y = a) by (apply H; right; left; reflexivity). subst y. inversion Nd; subst. apply H2. left. reflexivity.
Qed.
Theorem C113_passes_exactly : forall env G H parts stable, run_ready env G 1000 -> weights_defaulted (le_contains (ru_leiden env) G) G H ->
  irredundant_hsi 2 (env_hsi (ee_champ (ru_est env))) -> all_found (ru_leiden env) H (linspace 0 2 1000) parts ->
  (forall c c', In c parts -> In c' parts -> c <> c' -> exists gamma, modularity G gamma c <> modularity G gamma c') ->
  documented_stable env G = Ok stable ->
  (forall c, In c stable <-> optimal_around_estimate (ru_est env) G 0 2 parts c) /\
  (test_basic_singlelayer_example env G = Ok tt <-> forall c, optimal_around_estimate (ru_est env) G 0 2 parts c <-> c = documented_partition).
Proof.
  intros env G H parts stable HR HD HI F TA HS. pose proof HD as HD'. apply defaulted_weighted in HD'. subst H.
  destruct (C113_documented_stable _ _ _ _ HR HD HS) as (_ & _ & (Nd & _)).
  pose proof HS as HS'. unfold documented_stable in HS. apply bind_ok in HS as (parts' & HP & HS).
  destruct (documented_inputs _ _ _ HR HP) as (F' & OK & CI).
  assert (PP : forall c, In c parts' <-> In c parts) by (intros c; destruct F as [_ F], F' as [_ F']; rewrite F, F'; tauto).
  assert (X : forall c, In c stable <-> optimal_around_estimate (ru_est env) G 0 2 parts c).
  { intros c. destruct (prune_to_stable_partitions (ru_est env) G (Tuples (map (map Z.of_nat) parts')) 0 2 None false) as [[w g'] r] eqn:E. cbn [snd] in HS. subst r.
    assert (TA' : told_apart G (map (map Z.of_nat) parts') None) by (intros a b Ha Hb; apply TA; apply PP, CI; assumption).
    rewrite (C70_prune_characterised _ _ _ _ _ _ _ _ _ _ c OK HI TA' E).
    rewrite CI, PP. unfold optimal_around_estimate. split.
    - intros (I & x & X1 & X2 & X3 & y & Y1 & Y2 & Y3). split; [exact I|]. exists x, y. repeat (split; [assumption|]). intros d Hd. apply PP, CI in Hd. split; [apply X3|apply Y3]; exact Hd.
    - intros (I & x & y & X1 & X2 & Y2 & Y1 & Z). split; [exact I|]. exists x. split; [exact X1|]. split; [exact X2|]. split; [intros d Hd; apply CI, PP in Hd; apply Z; exact Hd|].
        exists y. split; [exact Y1|]. split; [exact Y2|]. intros d Hd. apply CI, PP in Hd. apply Z. exact Hd.
    }
  split; [exact X|]. rewrite C113_passes, HS'. split.
  - intros E c. injection E as ->. rewrite <- X. cbn [In]. split; [intros [<-|[]]; reflexivity|intros ->; left; reflexivity].
  - intros Q. f_equal. apply singleton_list; [exact Nd|]. intros c. rewrite X. apply Q.
Qed.
Print Assumptions C113_passes_exactly.

(** *** Examples: on the ring of six nodes the pairs are the only stable partition; every condition of C113_returns can be met. *)
Definition bare_ring : graph := mkGraph 6 false (edges ring) None.
Lemma ring_world contains : exists env, ru_leiden env = ring_leiden /\ ee_contains (ru_est env) = contains /\
  (forall G, vcount G = 6%nat -> wf_graph G -> edges G <> [] -> run_ready env G 1000) /\
  working_solver (ee_champ (ru_est env)) 1000 /\ hsi_answers 2 (ee_champ (ru_est env)) /\ irredundant_hsi 2 (env_hsi (ee_champ (ru_est env))).
Proof.
  destruct (C72_working_routines_exist 2 1000 (or_introl eq_refl)) as (ce & E1 & E2 & W & L & X & I & _ & A).
  exists (mkRun ring_leiden (seq 0 1000) 1 (mkEst contains (fun _ x => x) ce (fun l => l) (fun _ => true))). cbn [ru_leiden ru_est ee_contains ee_champ]. split; [reflexivity|]. split; [reflexivity|]. split; [|repeat (split; [assumption|]); exact I].
  intros G HV HW HE. constructor; cbn [ru_leiden ru_est ru_order ee_champ ee_set_order].
  - exact HW.
  - exact HE.
  - intros k vp m _ E. cbn in E. injection E as <-. rewrite HV. reflexivity.
  - apply Permutation_refl.
  - lia.
  - intros l. apply Permutation_refl.
  - rewrite E1, E2. split; [lia|apply Permutation_refl].
  - exact L.
  - exact X.
Qed.
Example C113_documented_stable_example : exists env, run_ready env ring 1000 /\ irredundant_hsi 2 (env_hsi (ee_champ (ru_est env))) /\ documented_stable env ring = Ok [ring_c].
Proof.
  destruct (ring_world (fun _ => true)) as (env & E1 & E2 & HR & WS & HA & HI). specialize (HR ring eq_refl ring_wf ltac:(discriminate)). exists env. split; [exact HR|]. split; [exact HI|].
  assert (Cr : canonical ring_c) by (apply (@sorted_tuple_canonical [0; 0; 1; 1; 2; 2]%Z ring_c); reflexivity).
  assert (EP : snd (repeated_parallel_leiden_from_gammas (ru_leiden env) (ru_cpus env) (ru_order env) ring (linspace 0 2 1000) false) = Ok [ring_c]).
  { destruct (@parallel_gammas (ru_leiden env) (ru_cpus env) (ru_order env) ring (weighted (ru_leiden env) ring) (linspace 0 2 1000) false) as [_ [C _]].
    - unfold linspace. rewrite map_length, seq_length. apply (rr_completion _ _ _ HR).
    - apply weighted_defaulted.
    - destruct C as (parts & E & Nd & F); [intros i x _; rewrite E1; eexists; reflexivity|]. rewrite E. f_equal. apply singleton_list; [exact Nd|]. intros c. rewrite F, E1. split.
      + intros (i & g & m & _ & Hm & Hs & Hc). cbn in Hm. injection Hm as <-. symmetry. eapply canonical_unique; [exact Cr|exact Hc|exact Hs].
      + intros ->. exists 0%nat, (0 + INR 0 * ((2 - 0) / INR (1000 - 1))), ring_c. split; [reflexivity|]. split; [reflexivity|]. split; [|exact Cr].
        split; [reflexivity|]. intros i j a a' b b' Ha Ha' Hb Hb'. rewrite Ha in Hb. rewrite Ha' in Hb'. inversion Hb; inversion Hb'; subst; tauto. }
  destruct (documented_inputs _ _ _ HR EP) as (F & OK & CI).
  destruct (ring_estimates (ru_est env)) as [(x & Hx & Bx) _]; [rewrite E2; reflexivity|].
  assert (EQ : exists stable, documented_stable env ring = Ok stable).
  { unfold documented_stable. rewrite EP. cbn [bind]. apply C41_prune_returns; auto; [lra| |].
    - eapply working_solver_le; [|exact WS]. cbn [map length]. lia.
    - intros c Hc. apply CI in Hc as [<-|[]]. rewrite Hx. eexists; reflexivity. }
  destruct EQ as (stable & EQ). rewrite EQ. f_equal. destruct (C113_documented_stable _ _ _ _ HR (weighted_defaulted _ _) EQ) as (parts & FP & (Nd & S2 & S3)).
  assert (PP : forall c, In c parts <-> c = ring_c) by (intros c; destruct FP as [_ FP], F as [_ F]; rewrite FP, <- F; cbn [In]; intuition congruence).
  apply singleton_list; [exact Nd|]. intros c. split.
  - intros Hc. apply PP. apply S2. exact Hc.
  - intros ->. apply (S3 ring_c x); [apply PP; reflexivity|rewrite Hx; reflexivity|lra|]. intros d Hd N. apply PP in Hd. contradiction.
Qed.
Example C113_returns_example : exists env stable, run_ready env bare_ring 1000 /\ documented_stable env bare_ring = Ok stable.
Proof.
  destruct (ring_world (fun _ => false)) as (env & E1 & E2 & HR & WS & HA & HI).
  assert (W : wf_graph bare_ring) by (split; [literal_edges|discriminate]). specialize (HR bare_ring eq_refl W ltac:(discriminate)).
  destruct (C113_returns env bare_ring HR eq_refl) as (stable & E); [rewrite E2; reflexivity| | |exact WS|exact HA|exists env, stable; split; [exact HR|exact E]].
  - intros v Hv. assert (v = 0 \/ v = 1 \/ v = 2 \/ v = 3 \/ v = 4 \/ v = 5)%nat as [-> | [-> | [-> | [-> | [-> | ->]]]]] by (cbn in Hv; lia).
    all: first [exists (0, 1)%nat; split; [cbn; tauto|cbn; tauto]|exists (2, 3)%nat; split; [cbn; tauto|cbn; tauto]|exists (4, 5)%nat; split; [cbn; tauto|cbn; tauto]].
  - intros i vp _. rewrite E1. eexists. reflexivity.
Qed.
