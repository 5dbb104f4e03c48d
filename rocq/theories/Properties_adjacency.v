(** Property theorems: results depend on the graph only through its adjacency matrix; directed consistency: C85. *)
From Verif Require Import PyBase PyGraph M_partition M_pool M_champ M_estimation_utils Spec Spec_leiden Spec_graph Spec_adjacency Spec_champ Spec_sbm Spec_prune
  Spec_multisbm Spec_check Spec_valid
  L_base L_canon L_leiden L_modularity L_modularity3 L_champ L_champ2 L_champ3 L_sbm L_sbm2 L_multisbm L_prune L_accepted L_omega L_adjacency
  Properties_coefficients Properties_sbm Properties_multisbm Properties_multiprune.
From Coq Require Import Permutation.
Open Scope R_scope.

(** ** C85 *)
(** igraph's to_directed() keeps the adjacency matrix; so does listing the edges in another order, or an undirected graph's edges
    with their ends swapped. *)
Theorem C85_same_network : forall g d, wf_graph g ->
  symmetric_version g d \/
  (vcount d = vcount g /\ directed d = directed g /\ Permutation (edges d) (edges g)) \/
  (vcount d = vcount g /\ directed d = false /\ directed g = false /\ Forall2 (fun e e' => e' = e \/ e' = (snd e, fst e)) (edges g) (edges d)) ->
  same_adjacency g d.
Proof.
  intros g d W H.
  assert (P : forall E E' i j, Permutation E' E -> arcs E' i j = arcs E i j).
  { intros E E' i j HP. unfold arcs. f_equal. apply Permutation_count_occ; auto. }
  destruct H as [(Dg & Dd & V & HP)|[(V & D & HP)|(V & Dd & Dg & HF)]]; (split; [auto|]); intros i j _ _; unfold adjacency.
  - rewrite Dg, Dd, (P _ _ i j HP). unfold arcs. rewrite count_occ_app, plus_INR. f_equal. f_equal. clear.
    induction (edges g) as [|[u v] E IH]; [reflexivity|]. cbn [map fst snd count_occ]. rewrite IH.
    destruct (pair_dec (v, u) (i, j)) as [Q|Q], (pair_dec (u, v) (j, i)) as [Q'|Q']; auto; exfalso; [inversion Q; subst; auto|inversion Q'; subst; auto].
  - rewrite D, !(P _ _ _ _ HP). reflexivity.
  - rewrite Dg, Dd. induction HF as [|[u v] e E E' He HF IH]; [reflexivity|]. cbn [fst snd] in He. rewrite !arcs_cons.
    assert (Q : (if pair_dec e (i, j) then 1 else 0) + (if pair_dec e (j, i) then 1 else 0) = (if pair_dec (u, v) (i, j) then 1 else 0) + (if pair_dec (u, v) (j, i) then 1 else 0)).
    { destruct He as [-> | ->]; auto. destruct (pair_dec (v, u) (i, j)), (pair_dec (v, u) (j, i)), (pair_dec (u, v) (i, j)), (pair_dec (u, v) (j, i)); congruence || lra. }
    lra.
Qed.
Print Assumptions C85_same_network.

(** Modularity and the CHAMP coefficients. *)
Theorem C85_coefficients : forall g g' parts, wf_graph g -> wf_graph g' -> same_adjacency g g' -> edges g <> [] ->
  (forall c, In c parts -> length c = vcount g) ->
  (forall gamma c, modularity g' gamma c = modularity g gamma c) /\
  partition_coefficients_2D_serial g' parts = partition_coefficients_2D_serial g parts /\
  forall gi lv, wf_graph gi -> (vcount gi <= vcount g)%nat -> length lv = vcount g -> lv <> [] -> edges_within_layers g lv ->
    (forall l, In l lv -> exists u v, In (u, v) (edges g) /\ nth u lv 0%nat = l) ->
    (forall gamma omega c, multilayer_modularity g' gi lv gamma omega c = multilayer_modularity g gi lv gamma omega c) /\
    partition_coefficients_3D_serial g' gi lv parts = partition_coefficients_3D_serial g gi lv parts.
Proof.
  intros g g' parts W W' S Ne Hl. pose proof (proj1 S) as V.
  split; [intros; apply sa_modularity; auto|]. split.
  - rewrite (@coefficients_2D_ok g parts W Ne Hl), (@coefficients_2D_ok g' parts W' (sa_edges W W' S Ne)) by (intros; rewrite V; auto).
    f_equal. f_equal; apply map_ext; intros c; [apply sa_A; auto|f_equal; apply sa_P; auto].
  - intros gi lv Wi Hi Hlv Hlv0 Hw Hhas. split; [intros; apply sa_multilayer; auto|].
    rewrite (@coefficients_3D_ok g gi lv parts), (@coefficients_3D_ok g' gi lv parts); auto; try (rewrite V; auto); try (intros; rewrite V; auto).
    + rewrite (map_ext (A_of g') (A_of g)) by (intros c; apply sa_A; auto).
      rewrite (map_ext (fun c => Fin (P3_of g' lv c)) (fun c => Fin (P3_of g lv c))) by (intros c; f_equal; apply sa_P3; auto). reflexivity.
    + eapply sa_within; eauto.
    + intros l Hin. eapply sa_has with (g := g); eauto.
Qed.
Print Assumptions C85_coefficients.

(** CHAMP: the same ranges and the same domains (the coefficients are all that reaches the solver), as outcomes: also the same
    exceptions. *)
Lemma sa_champ_2D env g g' parts : wf_graph g' -> same_adjacency g g' -> champ_ok_2D env g parts -> champ_ok_2D env g' parts.
Proof. intros W' A []. constructor; auto; [eapply sa_edges; eauto|]. intros c Hc. rewrite (proj1 A). auto. Qed.
Lemma sa_champ_3D env g g' gi lv parts : wf_graph g' -> same_adjacency g g' -> champ_ok_3D env g gi lv parts -> champ_ok_3D env g' gi lv parts.
Proof.
  intros W' A []. pose proof (proj1 A) as V. constructor; auto; try (rewrite V; auto); try (intros; rewrite V; auto).
  - eapply sa_within with (g := g); eauto.
  - intros l Hl. eapply sa_has with (g := g); eauto.
Qed.

Theorem C85_CHAMP : forall env g g' parts, wf_graph g' -> same_adjacency g g' ->
  (forall g0 gf single_threaded, champ_ok_2D env g parts -> CHAMP_2D env g' parts g0 gf single_threaded = CHAMP_2D env g parts g0 gf single_threaded) /\
  (forall gi lv g0 gf o0 of, champ_ok_3D env g gi lv parts -> CHAMP_3D env g' gi lv parts g0 gf o0 of = CHAMP_3D env g gi lv parts g0 gf o0 of).
Proof.
  intros env g g' parts W' A. split.
  - intros g0 gf st H. destruct parts as [|c ps].
    + unfold CHAMP_2D. reflexivity.
    + rewrite (@CHAMP_2D_unfold env g _ g0 gf st H), (@CHAMP_2D_unfold env g' _ g0 gf st (sa_champ_2D _ _ _ _ W' A H)) by discriminate.
      rewrite (map_ext (A_of g') (A_of g)) by (intros; apply sa_A; auto). rewrite (map_ext (P_of g') (P_of g)) by (intros; apply sa_P; auto; apply H). reflexivity.
  - intros gi lv g0 gf o0 of H. destruct parts as [|c ps].
    + unfold CHAMP_3D. reflexivity.
    + rewrite (@CHAMP_3D_unfold env g gi lv _ g0 gf o0 of H), (@CHAMP_3D_unfold env g' gi lv _ g0 gf o0 of (sa_champ_3D _ _ _ _ _ _ W' A H)) by discriminate.
      rewrite (map_ext (A_of g') (A_of g)) by (intros; apply sa_A; auto). rewrite (map_ext (P3_of g' lv) (P3_of g lv)) by (intros; apply sa_P3; auto; apply H). reflexivity.
Qed.
Print Assumptions C85_CHAMP.

(** The estimates, on graphs without weights (or with all weights 1). *)
Lemma counted env g : counts_edges (ee_contains env g) g -> weights (weighted_e env g) = Some (repeat 1 (length (edges g))).
Proof. unfold counts_edges, weighted_e. destruct (ee_contains env g); auto. Qed.

Theorem C85_gamma_estimate : forall env g g' c, wf_graph g -> wf_graph g' -> same_adjacency g g' ->
  counts_edges (ee_contains env g) g -> counts_edges (ee_contains env g') g' ->
  snd (gamma_estimate env g' (Membership c)) = snd (gamma_estimate env g (Membership c)).
Proof.
  intros env g g' c W W' A C C'. pose proof (proj1 A) as V. destruct (Nat.eq_dec (length c) (vcount g)) as [L|L].
  - apply C28_gamma_estimate with (h := weighted_e env g) (h' := weighted_e env g') (ws := repeat 1 (length (edges g))) (ws' := repeat 1 (length (edges g'))) (s := sa_scale g g'); auto.
    + apply weighted_e_defaulted; auto.
    + apply weighted_e_defaulted; auto.
    + apply counted; auto.
    + apply counted; auto.
    + split; [reflexivity|]. intros i j a a' b b' H1 H2 H3 H4. split; congruence.
    + pose proof (sa_scale_pos g g'). lra.
    + intros i j Hi Hj. unfold weighted_edges. rewrite !weighted_e_edges. apply sa_w_adj; auto.
  - rewrite !gamma_estimate_graph by auto. cbn [snd]. unfold leiden_part_with_membership. rewrite !weighted_e_vcount, V.
    destruct (Nat.eqb_spec (length c) (vcount g)); [contradiction|]. reflexivity.
Qed.
Print Assumptions C85_gamma_estimate.

Theorem C85_gamma_omega_estimate : forall env g g' gi lv c omega_max model, wf_graph g -> wf_graph g' -> wf_graph gi -> same_adjacency g g' ->
  counts_edges (ee_contains env g) g -> counts_edges (ee_contains env g') g' ->
  valid_multilayer g gi (repeat 1 (length (edges g))) lv model -> is_model model ->
  snd (gamma_omega_estimate env g' gi lv c omega_max model None None None None) = snd (gamma_omega_estimate env g gi lv c omega_max model None None None None).
Proof.
  intros env g g' gi lv c omega_max model W W' Wi A C C' Hv Hm. pose proof (proj1 A) as V.
  destruct (Nat.eq_dec (length c) (vcount g)) as [L|L].
  2: { unfold gamma_omega_estimate, leiden_part_with_membership. rewrite V. destruct (or_default None (layer_count_T lv)); [|reflexivity]. cbn [bind].
       destruct (Nat.eqb_spec (length c) (vcount g)); [contradiction|]. reflexivity. }
  assert (Hwi : edges_within_layers g lv) by (apply (@acc_facts g gi lv model (repeat 1 (length (edges g))) W (valid_accepted W Hv))).
  pose proof (counted env g C) as Hw. pose proof (counted env g' C') as Hw'.
  assert (Hv' : valid_multilayer g' gi (repeat 1 (length (edges g'))) lv model) by (eapply sa_valid with (g := g); eauto).
  assert (T : forall h, wf_graph h -> vcount h = vcount g -> weights (weighted_e env h) = Some (repeat 1 (length (edges h))) -> valid_multilayer h gi (repeat 1 (length (edges h))) lv model ->
    exists pers p, is_persistence model gi lv (vcount g / S (list_max lv)) (S (list_max lv)) c pers /\ is_copying_probability (ee_fsolve env) model (list_max (map S c)) (S (list_max lv)) pers p /\
      snd (estimate_multilayer_SBM_parameters env h gi lv (mkPart (list_max (map S c)) c) model None (Some (S (list_max lv))) None None) =
      (let n := vcount g in let T := S (list_max lv) in let E := combine (edges h) (repeat 1 (length (edges h))) in
       Ok (observed_within_layers n E lv T c / expected_within_layers n E lv T c,
           (if Req_EM_T (expected_between_layers n E lv T c) 0 then 0 else observed_between_layers n E lv T c / expected_between_layers n E lv T c), p, list_max (map S c)))).
  { intros h Wh Vh Hwh Hvh.
    assert (Sh : weighted_e env h = mkGraph (vcount h) (directed h) (edges h) (Some (repeat 1 (length (edges h))))).
    { unfold weighted_e in *. destruct (ee_contains env h); [|reflexivity]. destruct h as [x y z t]. cbn in *. subst. reflexivity. }
    assert (Hvh' : valid_multilayer (weighted_e env h) gi (repeat 1 (length (edges h))) lv model) by (rewrite Sh; exact Hvh).
    assert (P1 : forall w, In w (repeat 1 (length (edges h))) -> 0 < w) by (intros w Hin; apply repeat_spec in Hin; lra).
    pose proof (C31_positive_weights (weighted_e env h) gi (repeat 1 (length (edges h))) lv c model (weighted_e_wf env Wh) Hwh P1 Hvh' ltac:(rewrite weighted_e_vcount; congruence)) as PW.
    cbv zeta in PW. destruct PW as (PW & _). unfold weighted_edges in PW. rewrite weighted_e_vcount, weighted_e_edges, Vh in PW.
    destruct (C31_estimates env h (weighted_e env h) gi (repeat 1 (length (edges h))) lv c (list_max (map S c)) model None (Some (S (list_max lv))) None None Wh Wi) as (pers & p & Q1 & Q2 & Q3); auto.
    - apply weighted_e_defaulted; auto.
    - congruence.
    - intros l Hl. apply In_nth with (d := 0%nat) in Hl as (v & Hv1 & <-). apply list_max_label; auto.
    - left; auto.
    - right; auto.
    - left; auto.
    - left; auto.
    - unfold weighted_edges. rewrite weighted_e_edges, Vh. lra.
    - exists pers, p. rewrite Vh in Q1. split; [exact Q1|]. split; [exact Q2|]. rewrite Q3. cbn [snd]. unfold weighted_edges. rewrite weighted_e_edges, Vh. reflexivity. }
  destruct (T g W eq_refl Hw Hv) as (pers & p & P1 & P2 & P3). destruct (T g' W' V Hw' Hv') as (pers' & p' & P1' & P2' & P3'). clear T.
  assert (pers' = pers) by (eapply persistence_fun; eauto). subst pers'. assert (p' = p) by (eapply copying_fun; eauto). subst p'.
  destruct (@sa_sums g g' W' A lv Hwi c (S (list_max lv))) as (E1 & E2 & E3 & E4).
  { intros t Ht. apply (@acc_total g gi lv model (repeat 1 (length (edges g))) W (valid_accepted W Hv) t Ht). }
  cbv zeta in P3, P3'. rewrite E1, E2, E3, E4 in P3'. clear E1 E2 E3 E4. pose proof (sa_scale_pos g g') as Sp.
  unfold gamma_omega_estimate, leiden_part_with_membership. rewrite V, L, Nat.eqb_refl.
  assert (ET : or_default None (layer_count_T lv) = Ok (S (list_max lv))).
  { cbn [or_default]. unfold layer_count_T. rewrite (@py_max_list lv (list_max lv)); auto; [cbn [bind]; f_equal; lia|].
    intros Z. pose proof (@acc_facts g gi lv model (repeat 1 (length (edges g))) W (valid_accepted W Hv)) as (F1 & _). rewrite Z in F1. cbn in F1. lia. }
  rewrite ET. cbn [bind].
  destruct (estimate_multilayer_SBM_parameters env g' gi lv (mkPart (list_max (map S c)) c) model None (Some (S (list_max lv))) None None) as [h1 r1].
  destruct (estimate_multilayer_SBM_parameters env g gi lv (mkPart (list_max (map S c)) c) model None (Some (S (list_max lv))) None None) as [h2 r2].
  cbn [snd] in P3, P3' |- *. subst r1 r2.
  set (OW := observed_within_layers _ _ _ _ _) in *. set (EW := expected_within_layers _ _ _ _ _) in *. set (OB := observed_between_layers _ _ _ _ _) in *. set (EB := expected_between_layers _ _ _ _ _) in *.
  assert (R1 : sa_scale g g' * OW / (sa_scale g g' * EW) = OW / EW).
  { assert (0 < EW).
    { assert (Hones : forall w, In w (repeat 1 (length (edges g))) -> 0 < w) by (intros w Hin; apply repeat_spec in Hin; lra).
      exact (@acc_EW g gi lv model _ W (valid_accepted W Hv) c L Hones). }
    field. split; lra. }
  assert (R2 : (if Req_EM_T (sa_scale g g' * EB) 0 then 0 else sa_scale g g' * OB / (sa_scale g g' * EB)) = (if Req_EM_T EB 0 then 0 else OB / EB)).
  { destruct (Req_EM_T EB 0) as [Z|Z]; destruct (Req_EM_T (sa_scale g g' * EB) 0) as [Y|Y]; auto.
    - exfalso. apply Y. rewrite Z. ring.
    - exfalso. apply Rmult_integral in Y as [Y|Y]; [lra|auto].
    - field. split; [auto|lra]. }
  rewrite R1, R2. reflexivity.
Qed.
Print Assumptions C85_gamma_omega_estimate.

(** The whole pruning, outcomes and exceptions included. *)
Theorem C85_prune : forall env g g' inputs restrict, wf_graph g' -> same_adjacency g g' ->
  counts_edges (ee_contains env g) g -> counts_edges (ee_contains env g') g' ->
  (forall gamma_start gamma_end single_threaded, prune_ok_2D env g inputs ->
   snd (prune_to_stable_partitions env g' (Tuples inputs) gamma_start gamma_end restrict single_threaded)
   = snd (prune_to_stable_partitions env g (Tuples inputs) gamma_start gamma_end restrict single_threaded)) /\
  (forall gi lv model gamma_start gamma_end omega_start omega_end, prune_ok_3D env g gi lv inputs ->
   valid_multilayer g gi (repeat 1 (length (edges g))) lv model -> is_model model ->
   snd (prune_to_multilayer_stable_partitions env g' gi lv model (Tuples inputs) gamma_start gamma_end omega_start omega_end restrict false)
   = snd (prune_to_multilayer_stable_partitions env g gi lv model (Tuples inputs) gamma_start gamma_end omega_start omega_end restrict false)).
Proof.
  intros env g g' inputs restrict W' A C C'. pose proof (proj1 A) as V. split.
  - intros gs ge st H. assert (H' : prune_ok_2D env g' inputs).
    { destruct H. constructor; auto; [intros; rewrite V; auto|eapply sa_edges; eauto]. }
    assert (W : wf_graph g) by apply H.
    destruct (@prune_2D_unfold env g inputs gs ge restrict st H) as (ps & _ & _ & K & E & U). destruct (@prune_2D_unfold env g' inputs gs ge restrict st H') as (ps' & _ & _ & K' & E' & U').
    assert (ps' = ps) by congruence. subst ps'. rewrite U, U'. rewrite (proj1 (C85_CHAMP _ _ _ _ W' A) gs ge st K).
    destruct (CHAMP_2D (ee_champ env) g ps gs ge st) as [ranges|]; [|reflexivity]. cbn [bind]. rewrite !ranges_loop by auto. f_equal. apply mapM_ext.
    intros r _. rewrite (C85_gamma_estimate env g g' (snd r)); auto.
  - intros gi lv model gs ge os oe H Hv Hm. assert (W : wf_graph g) by apply H. assert (H' : prune_ok_3D env g' gi lv inputs).
    { destruct H. constructor; auto; try (rewrite V; auto); try (intros; rewrite V; auto).
      - eapply sa_within with (g := g); eauto.
      - intros l Hl. eapply sa_has with (g := g); eauto. }
    destruct (@prune_3D_unfold env g gi lv model inputs gs ge os oe restrict H) as (ps & _ & _ & K & E & U). destruct (@prune_3D_unfold env g' gi lv model inputs gs ge os oe restrict H') as (ps' & _ & _ & K' & E' & U').
    assert (ps' = ps) by congruence. subst ps'. rewrite U, U'. rewrite (proj2 (C85_CHAMP _ _ _ _ W' A) gi lv gs ge os oe K).
    destruct (CHAMP_3D (ee_champ env) g gi lv ps gs ge os oe) as [domains|]; [|reflexivity]. cbn [bind]. rewrite !domains_loop. f_equal. apply mapM_ext.
    intros d _. rewrite (C85_gamma_omega_estimate env g g' gi lv (snd d) 1000 model); auto. apply H.
Qed.
Print Assumptions C85_prune.

(** *** Example: the two paths of C43's example as a directed graph with both arcs for every edge. *)
Definition two_paths_d : graph := mkGraph 6 true [(0, 1); (1, 0); (1, 2); (2, 1); (3, 4); (4, 3); (4, 5); (5, 4)]%nat (Some [1; 1; 1; 1; 1; 1; 1; 1]).
Example C85_example : wf_graph two_paths_d /\ symmetric_version two_paths two_paths_d /\ same_adjacency two_paths two_paths_d /\
  exists env result, prune_ok_3D env two_paths two_paths_i two_paths_lv [kept_input] /\
    counts_edges (ee_contains env two_paths) two_paths /\ counts_edges (ee_contains env two_paths_d) two_paths_d /\
    snd (prune_to_multilayer_stable_partitions env two_paths_d two_paths_i two_paths_lv "temporal" (Tuples [kept_input]) 0 2 0 2 None false) = Ok result /\
    forall c, In c result <-> c = kept_c.
Proof.
  destruct two_paths_valid as (W1 & W2 & V).
  assert (W : wf_graph two_paths_d) by (apply wf_literal; [literal_edges|reflexivity]). split; auto.
  assert (S : symmetric_version two_paths two_paths_d).
  { split; [reflexivity|]. split; [reflexivity|]. split; [reflexivity|]. cbn.
    apply NoDup_Permutation; [| |intros x; cbn; tauto]; repeat (apply NoDup_cons; [cbn; intros H; repeat (destruct H as [H|H]; [discriminate|]); destruct H|]); apply NoDup_nil. }
  split; auto. assert (A : same_adjacency two_paths two_paths_d) by (apply C85_same_network; auto). split; auto.
  destruct C43_C57_example as (env & result & H1 & _ & H2 & H3). exists env, result.
  assert (C : counts_edges (ee_contains env two_paths) two_paths) by (intros _; reflexivity).
  assert (C' : counts_edges (ee_contains env two_paths_d) two_paths_d) by (intros _; reflexivity).
  split; auto. split; auto. split; auto. split; auto. rewrite <- H2.
  apply (proj2 (C85_prune env two_paths two_paths_d [kept_input] None W A C C')); auto. left. reflexivity.
Qed.
