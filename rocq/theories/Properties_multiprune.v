(** Property theorems about multilayer pruning: C43, C44, C57, C58. *)
From Verif Require Import PyBase PyGraph M_partition M_pool M_champ M_estimation_utils Spec Spec_leiden Spec_graph Spec_champ Spec_polygon Spec_lp Spec_stability Spec_sbm Spec_multisbm Spec_check Spec_valid Spec_prune Spec_tiling
  L_base L_canon L_leiden L_modularity L_champ L_champ2 L_champ3 L_champ_total L_angular L_convex L_sbm L_logmean L_sbm2 L_multisbm L_check L_copying L_accepted L_omega L_stability L_prune L_complete
  Properties_champ Properties_sbm Properties_multisbm Properties_prune.
From Coq Require Import Classical.
Open Scope R_scope.

(** The (gamma, omega) estimate that the pipeline uses: default omega_max, nothing precomputed. *)
Definition estimate_of (env : est_env) (g gi : graph) (lv : list nat) (model : string) (c : list nat) : res (option npf * R) :=
  snd (gamma_omega_estimate env g gi lv c 1000 model None None None None).

(** ** C43: every returned partition is a considered one with a gamma estimate, and -- when that estimate is a number and the
    partition's CHAMP_3D domain is not degenerate -- the point (gamma estimate, min(omega estimate, omega_end - 0.001)) is in
    the requested rectangle, in the partition's domain, and no considered partition has larger multilayer modularity there. *)
Theorem C43_multilayer_prune_sound : forall env g gi lv model inputs gamma_start gamma_end omega_start omega_end restrict warnings g' result,
  prune_ok_3D env g gi lv inputs ->
  prune_to_multilayer_stable_partitions env g gi lv model (Tuples inputs) gamma_start gamma_end omega_start omega_end restrict false
    = (warnings, g', Ok result) ->
  NoDup result /\
  exists parts domains, (forall c, In c parts <-> considered inputs restrict c) /\
  CHAMP_3D (ee_champ env) g gi lv parts gamma_start gamma_end omega_start omega_end = Ok domains /\
  forall c, In c result ->
  considered inputs restrict c /\
  exists poly gamma_est omega_est, In (poly, c) domains /\ estimate_of env g gi lv model c = Ok (Some gamma_est, omega_est) /\
    forall gamma, gamma_est = Fin gamma -> nondegenerate poly ->
    let omega := Rmin omega_est (omega_end - 1 / 1000) in
    in_polygon poly (gamma, omega) /\ gamma_start <= gamma <= gamma_end /\ omega_start <= omega <= omega_end /\
    forall d, considered inputs restrict d -> multilayer_modularity g gi lv gamma omega d <= multilayer_modularity g gi lv gamma omega c.
Proof.
  intros env g gi lv model inputs gs ge os oe restrict w g' result Hok H.
  destruct (@prune_3D_ok env g gi lv model inputs gs ge os oe restrict Hok result) as (ps & domains & Nd & I & C & HD & Hin & Hnd & _); [rewrite H; reflexivity|].
  split; auto. exists ps, domains. split; auto. split; auto. intros c Hc.
  apply Hin in Hc as (poly & x & o & Hp & He & Hss). destruct (C24_domains_are_optimal _ _ _ _ _ _ _ _ _ _ C HD poly c Hp) as (Hcp & Hne & Hbox & Hopt).
  split; [apply I; auto|]. exists poly, x, o. split; auto. split; auto. intros gamma -> Hdeg omega.
  assert (Hpol : in_polygon poly (gamma, omega)).
  { apply stable_in_polygon; auto. intros p q Hf. pose proof (C26_turns_clockwise _ _ _ _ _ _ _ _ _ _ _ _ p q C HD Hp Hf) as Q. unfold orient in *. lra. }
  split; auto.
  assert (B : gs <= gamma <= ge /\ os <= omega <= oe).
  { destruct Hpol as (ws & L & W & S1 & E1 & E2). cbn [fst snd] in E1, E2.
    assert (G : forall (h : R * R -> R) lo hi, (forall v, In v poly -> lo <= h v <= hi) -> lo <= rsum (map (fun wv => fst wv * h (snd wv)) (combine ws poly)) <= hi).
    { intros h lo hi Hh. assert (Q : rsum ws * lo <= rsum (map (fun wv => fst wv * h (snd wv)) (combine ws poly)) <= rsum ws * hi); [|rewrite S1 in Q; lra].
      clear - L W Hh. revert ws L W. induction poly as [|v l IH]; intros [|a ws] L W; try discriminate; cbn [combine map]; rewrite ?rsum_cons, ?rsum_nil; [lra|]. cbn [fst snd].
      destruct (IH (fun u Hu => Hh u (or_intror Hu)) ws) as [A B]; [cbn in L; lia|intros; apply W; right; auto|].
      pose proof (W a (or_introl eq_refl)). pose proof (Hh v (or_introl eq_refl)). nra. }
    rewrite E1, E2. split; apply G; intros v Hv; apply Hbox; auto. }
  destruct B as [B1 B2]. split; auto. split; auto. intros d Hd. apply Hopt; auto. apply I; auto.
Qed.
Print Assumptions C43_multilayer_prune_sound.

(** ** C57: completeness: a considered partition that is strictly the best one at the (truncated) estimate, inside the open
    rectangle, is returned, if the intersection routine reports each corner of a facet once and nothing else. *)
Theorem C57_multilayer_prune_complete : forall env g gi lv model inputs gamma_start gamma_end omega_start omega_end restrict warnings g' result c gamma omega_est,
  prune_ok_3D env g gi lv inputs -> irredundant_hsi 3 (env_hsi (ee_champ env)) ->
  prune_to_multilayer_stable_partitions env g gi lv model (Tuples inputs) gamma_start gamma_end omega_start omega_end restrict false
    = (warnings, g', Ok result) ->
  considered inputs restrict c -> estimate_of env g gi lv model c = Ok (Some (Fin gamma), omega_est) ->
  let omega := Rmin omega_est (omega_end - 1 / 1000) in
  gamma_start < gamma < gamma_end -> omega_start < omega < omega_end ->
  (forall d, considered inputs restrict d -> d <> c -> multilayer_modularity g gi lv gamma omega d < multilayer_modularity g gi lv gamma omega c) ->
  In c result.
Proof.
  intros env g gi lv model inputs gs ge os oe restrict w g' result c x o Hok Hir H Hc He omega Hg Ho Hb.
  destruct (@prune_3D_ok env g gi lv model inputs gs ge os oe restrict Hok result) as (ps & domains & Nd & I & C & HD & Hin & Hnd & Hnd2); [rewrite H; reflexivity|].
  destruct (@best_interior (ee_champ env) g gi lv ps gs ge os oe domains c (x, omega) C HD Hnd2) as (poly & Hp & Hint); auto; [apply I; auto|intros d Hd N; apply Hb; auto; apply I; auto|].
  pose proof (@domains_convex _ _ _ _ _ _ _ _ _ _ poly c C Hir HD Hp) as Hconv.
  apply Hin. exists poly, (Fin x), o. split; auto. split; auto. apply stable_convex; auto.
  split; [apply interior_three with (x, omega); auto|]. split; [apply convex_position_nodup; auto|]. left. intros p q r Hf Hr N1 N2.
  eapply C26_consecutive_are_edges; eauto.
Qed.
Print Assumptions C57_multilayer_prune_complete.

(** The pipeline returns whenever every considered partition has an estimate and the solver and the intersection routine answer. *)
Theorem C57_multilayer_prune_returns : forall env g gi lv model inputs gamma_start gamma_end omega_start omega_end restrict,
  prune_ok_3D env g gi lv inputs -> directed g = false -> gamma_start < gamma_end -> omega_start < omega_end ->
  working_solver (ee_champ env) (length inputs) -> hsi_answers 3 (ee_champ env) ->
  (forall c, considered inputs restrict c -> exists x, estimate_of env g gi lv model c = Ok x) ->
  exists result, snd (prune_to_multilayer_stable_partitions env g gi lv model (Tuples inputs) gamma_start gamma_end omega_start omega_end restrict false) = Ok result.
Proof.
  intros env g gi lv model inputs gs ge os oe restrict Hok Hd Hg Ho H1 H2 H3.
  destruct (@prune_3D_unfold env g gi lv model inputs gs ge os oe restrict Hok) as (ps & Nd & I & C & _ & E). rewrite E.
  assert (HR : exists domains, CHAMP_3D (ee_champ env) g gi lv ps gs ge os oe = Ok domains).
  { destruct (classic (ps = [])) as [->|N]; [exists []; reflexivity|]. apply CHAMP_3D_returns; auto.
    apply working_solver_le with (length inputs); auto. apply considered_count with restrict; auto. intros c Hc. apply I. auto. }
  destruct HR as (domains & HR). rewrite HR. cbn [bind].
  destruct (@domains_estimates_total env gi lv model domains g) as (g' & ests & EE).
  - intros [poly c] Hr. apply H3. apply I. apply (C24_domains_are_optimal _ _ _ _ _ _ _ _ _ _ C HR poly c Hr).
  - rewrite EE. cbn [snd bind]. eauto.
Qed.
Print Assumptions C57_multilayer_prune_returns.

(** *** The exception in C43 is real: a partition whose gamma estimate is nan is always returned if it has a domain. *)
Theorem C43_nan_is_returned : forall env g gi lv model inputs gamma_start gamma_end omega_start omega_end restrict warnings g' result c omega_est,
  prune_ok_3D env g gi lv inputs ->
  prune_to_multilayer_stable_partitions env g gi lv model (Tuples inputs) gamma_start gamma_end omega_start omega_end restrict false
    = (warnings, g', Ok result) ->
  considered inputs restrict c -> estimate_of env g gi lv model c = Ok (Some NonFinite, omega_est) ->
  (exists gamma omega, gamma_start <= gamma <= gamma_end /\ omega_start <= omega <= omega_end /\
     forall d, considered inputs restrict d -> d <> c -> multilayer_modularity g gi lv gamma omega d < multilayer_modularity g gi lv gamma omega c) ->
  In c result.
Proof.
  intros env g gi lv model inputs gs ge os oe restrict w g' result c o Hok H Hc He (x & y & Hx & Hy & Hb).
  destruct (@prune_3D_ok env g gi lv model inputs gs ge os oe restrict Hok result) as (ps & domains & Nd & I & C & HD & Hin & Hnd & Hnd2); [rewrite H; reflexivity|].
  destruct (C25_strictly_best_is_returned _ _ _ _ _ _ _ _ _ _ x y c C HD Hx Hy) as (poly & Hp & _); [apply I; auto|intros d Hd N; apply Hb; auto; apply I; auto|].
  apply Hin. exists poly, NonFinite, o. split; auto. split; auto. apply same_side_nan.
Qed.
Print Assumptions C43_nan_is_returned.

Lemma C43_realisable_full : forall g gi lv model inputs gamma_start gamma_end omega_start omega_end restrict contains fsolve connected,
  wf_graph g -> wf_graph gi -> directed g = false -> length lv = vcount g -> lv <> [] -> (vcount gi <= vcount g)%nat -> edges_within_layers g lv ->
  (forall l, In l lv -> exists u v, In (u, v) (edges g) /\ nth u lv 0%nat = l) ->
  (forall t, In t inputs -> length t = vcount g) -> (Z.of_nat (length inputs) <= 2 ^ 53)%Z ->
  gamma_start < gamma_end -> omega_start < omega_end ->
  exists env, prune_ok_3D env g gi lv inputs /\ irredundant_hsi 3 (env_hsi (ee_champ env)) /\ full_facets_hsi 3 (env_hsi (ee_champ env)) /\ ee_contains env = contains /\ ee_fsolve env = fsolve /\ ee_connected env = connected /\
    ((forall c, considered inputs restrict c -> exists x, estimate_of env g gi lv model c = Ok x) ->
     exists result, snd (prune_to_multilayer_stable_partitions env g gi lv model (Tuples inputs) gamma_start gamma_end omega_start omega_end restrict false) = Ok result).
Proof.
  intros g gi lv model inputs gs ge os oe restrict contains fsolve connected Hw Hwi Hd Hlv Hlne Hv Hel Hhas Hi Hn Hg Ho.
  assert (He : edges g <> []).
  { destruct lv as [|l lv']; [congruence|]. destruct (Hhas l (or_introl eq_refl)) as (u & v & Hin & _). intros E. rewrite E in Hin. destruct Hin. }
  set (mk := fun ce => mkEst contains fsolve ce (fun l => l) connected).
  set (ce0 := known_env [] [0; 0; 0] []).
  assert (Hord : forall ce, lists_sets (ee_set_order (mk ce))) by (intros ce l; apply Permutation_refl).
  destruct (@considered_parts_ok (mk ce0) inputs restrict (Hord ce0) (prune_inputs_ne inputs Hw He Hi)) as (ps & Hps & Nd & Hl & I).
  assert (HE : exists ce, champ_ok_3D ce g gi lv ps /\ irredundant_hsi 3 (env_hsi ce) /\ full_facets_hsi 3 (env_hsi ce) /\ exists domains, CHAMP_3D ce g gi lv ps gs ge os oe = Ok domains).
  { destruct (classic (ps = [])) as [->|N].
    - destruct (@champ_3D_realisable_full g gi lv [repeat 0%nat (vcount g)] gs ge os oe) as (ce & _ & P & P' & P'' & _); auto; try discriminate; try (cbn; lia).
      + intros c [<-|[]]. apply repeat_length.
      + exists ce. split; [|split; [exact P'|split; [exact P''|exists []; reflexivity]]]. destruct (c3_pool P) as (Q1 & Q2 & _). pose proof (c3_lp P). pose proof (c3_hsi P). constructor; auto; try (intros c []; fail). split; auto. split; auto. cbn; lia.
    - destruct (@champ_3D_realisable_full g gi lv ps gs ge os oe) as (ce & domains & H1 & H2 & H2' & H3); auto; [|lia|eauto 8].
      intros c Hc. eapply considered_length; [exact Hi|apply I; eauto]. }
  destruct HE as (ce & C & Hir & Hff & domains & HR). exists (mk ce). split; [|split; [exact Hir|split; [exact Hff|split; [reflexivity|split; [reflexivity|split; [reflexivity|]]]]]].
  - destruct (c3_pool C) as (Q1 & Q2 & _). constructor; auto; [apply (c3_lp C)|apply (c3_hsi C)].
  - intros Hest. unfold prune_to_multilayer_stable_partitions. change (considered_parts (mk ce) (Tuples inputs) restrict) with (considered_parts (mk ce0) (Tuples inputs) restrict). rewrite Hps.
    destruct ps as [|c ps]; [eexists; reflexivity|]. change (ee_champ (mk ce)) with ce. rewrite HR.
    destruct (@domains_estimates_total (mk ce) gi lv model domains g) as (g' & ests & EE).
    + intros [poly d] Hr. apply Hest. apply I. apply (C24_domains_are_optimal _ _ _ _ _ _ _ _ _ _ C HR poly d Hr).
    + rewrite EE. cbn [bind snd]. eauto.
Qed.
Theorem C43_realisable : forall g gi lv model inputs gamma_start gamma_end omega_start omega_end restrict contains fsolve connected,
  wf_graph g -> wf_graph gi -> directed g = false -> length lv = vcount g -> lv <> [] -> (vcount gi <= vcount g)%nat -> edges_within_layers g lv ->
  (forall l, In l lv -> exists u v, In (u, v) (edges g) /\ nth u lv 0%nat = l) ->
  (forall t, In t inputs -> length t = vcount g) -> (Z.of_nat (length inputs) <= 2 ^ 53)%Z ->
  gamma_start < gamma_end -> omega_start < omega_end ->
  exists env, prune_ok_3D env g gi lv inputs /\ irredundant_hsi 3 (env_hsi (ee_champ env)) /\ ee_contains env = contains /\ ee_fsolve env = fsolve /\ ee_connected env = connected /\
    ((forall c, considered inputs restrict c -> exists x, estimate_of env g gi lv model c = Ok x) ->
     exists result, snd (prune_to_multilayer_stable_partitions env g gi lv model (Tuples inputs) gamma_start gamma_end omega_start omega_end restrict false) = Ok result).
Proof.
  intros. destruct (C43_realisable_full g gi lv model inputs gamma_start gamma_end omega_start omega_end restrict contains fsolve connected) as (env & K1 & K2 & _ & K3); auto. exists env. auto.
Qed.
Print Assumptions C43_realisable.

(** *** Examples: one input partition, of two layers, that keeps every node's label: the copying probability is 1 and the omega
    estimate is omega_max = 1000, which the pipeline truncates. *)
Lemma considered_one t c d : sorted_tuple t = Ok c -> (considered [t] None d <-> d = c).
Proof.
  intros S. split.
  - intros (Hc & (t' & [<-|[]] & Hs) & _). eapply canonical_unique; auto; [eapply sorted_tuple_canonical; apply S|].
    eapply same_partition_trans; [apply same_partition_sym; apply Hs|eapply sorted_tuple_same_partition; apply S].
  - intros ->. split; [eapply sorted_tuple_canonical; apply S|]. split; [|discriminate].
    eexists. split; [left; reflexivity|]. eapply sorted_tuple_same_partition; apply S.
Qed.

(** Two paths 0-1-2 with communities {0, 1} and {2}: theta_in = 4/5, theta_out = 4/3; returned, since the truncated estimate is
    in the rectangle [0, 2] x [0, 2]. *)
Definition kept_c : list nat := [0; 0; 1; 0; 0; 1]%nat.
Definition kept_input : list Z := [4; 4; 2; 4; 4; 2]%Z.
Lemma kept_sums : let E := weighted_edges two_paths [1; 1; 1; 1] in
  observed_within_layers 6 E two_paths_lv 2 kept_c = 4 /\ expected_within_layers 6 E two_paths_lv 2 kept_c = 5 /\
  observed_between_layers 6 E two_paths_lv 2 kept_c = 4 /\ expected_between_layers 6 E two_paths_lv 2 kept_c = 3.
Proof.
  destruct two_paths_valid as (W & _ & V). intros E.
  assert (R : forall t, in_range_E 6 (layer_edges E two_paths_lv t)) by (intros t; apply layer_range; apply (@range_E_of two_paths); auto).
  assert (O : observed_within_layers 6 E two_paths_lv 2 kept_c = 4).
  { unfold observed_within_layers. rewrite !sum_to_S. rewrite !observed_within_w by auto. unfold inner_w, sum_to. cbn. rewrite ?rsum_cons, ?rsum_nil. cbn. lra. }
  assert (X : expected_within_layers 6 E two_paths_lv 2 kept_c = 5).
  { unfold expected_within_layers. rewrite !sum_to_S.
    rewrite !(@expected_within_w 6 _ kept_c 2%nat); auto; [|intros v Hv; do 6 (destruct v as [|v]; [cbn; lia|]); lia..].
    unfold kappa_w, total_w, sum_to. cbn. rewrite ?rsum_cons, ?rsum_nil. cbn. field. }
  assert (P : forall t, (t < 2)%nat -> total_strength 6 (layer_edges E two_paths_lv t) = 4).
  { intros t Ht. rewrite total_strength_w by auto. destruct t as [|[|t]]; [| |lia]; unfold total_w; cbn; rewrite ?rsum_cons, ?rsum_nil; cbn; lra. }
  assert (Q : observed_within_layers 6 E two_paths_lv 2 kept_c + observed_between_layers 6 E two_paths_lv 2 kept_c = 8).
  { unfold observed_within_layers, observed_between_layers. rewrite <- sum_to_plus. rewrite !sum_to_S. rewrite !observed_split, !P by lia. unfold sum_to. cbn. lra. }
  assert (Q' : expected_within_layers 6 E two_paths_lv 2 kept_c + expected_between_layers 6 E two_paths_lv 2 kept_c = 8).
  { unfold expected_within_layers, expected_between_layers. rewrite <- sum_to_plus. rewrite !sum_to_S. rewrite !expected_split; [rewrite !P by lia; unfold sum_to; cbn; lra|rewrite P; [lra|lia]..]. }
  split; auto. split; auto. split; lra.
Qed.

Lemma kept_estimate env : ee_contains env two_paths = true ->
  exists x, estimate_of env two_paths two_paths_i two_paths_lv "temporal" kept_c = Ok (Some (Fin x), 1000) /\ 4 / 5 < x < 4 / 3.
Proof.
  intros He. destruct two_paths_valid as (W1 & W2 & V). destruct kept_sums as (S1 & S2 & S3 & S4).
  assert (Hh : weights_defaulted (ee_contains env two_paths) two_paths two_paths) by (rewrite He; reflexivity).
  destruct (C37_exact env two_paths two_paths two_paths_i [1; 1; 1; 1] two_paths_lv kept_c "temporal" 1000 None None None None) as (pers & p & r & A & B & _ & C & _ & _ & D);
    auto; try (left; reflexivity).
  { intros w H. cbn in H. destruct H as [<-|[<-|[<-|[<-|[]]]]]; lra. }
  unfold estimate_of. rewrite C. cbn [snd]. clear C. cbv zeta in D. change (vcount two_paths) with 6%nat in D. change (S (list_max two_paths_lv)) with 2%nat in D.
  change (list_max (map S kept_c)) with 2%nat in D. rewrite S1, S2, S3, S4 in D.
  assert (Pe : pers = 1) by (destruct A as [[_ ->]|[[E _]|[E _]]]; try discriminate; cbn; lra).
  assert (P : p = 1) by (destruct B as [(_ & E)|[(E & _)|(E & _)]]; auto; lra).
  destruct D as (o & -> & I); [left; lra|]. destruct (Req_EM_T 3 0) as [Z|_]; [lra|].
  destruct (C29_log_mean (4 / 5) (4 / 3)) as (x & -> & _ & Bx & _); try lra. exists x.
  split; [|rewrite Rmin_left, Rmax_right in Bx by lra; exact Bx].
  destruct I as [(Z & _)|[(_ & ->)|[(Z & _)|(Z & _)]]]; try lra. reflexivity.
Qed.

Example C43_C57_example : exists env result, prune_ok_3D env two_paths two_paths_i two_paths_lv [kept_input] /\
  irredundant_hsi 3 (env_hsi (ee_champ env)) /\
  snd (prune_to_multilayer_stable_partitions env two_paths two_paths_i two_paths_lv "temporal" (Tuples [kept_input]) 0 2 0 2 None false) = Ok result /\
  forall c, In c result <-> c = kept_c.
Proof.
  assert (S : sorted_tuple kept_input = Ok kept_c) by reflexivity. pose proof (fun d => considered_one kept_input kept_c d S) as HC.
  destruct two_paths_valid as (W1 & W2 & V).
  destruct (C43_realisable two_paths two_paths_i two_paths_lv "temporal" [kept_input] 0 2 0 2 None (fun _ => true) (fun _ x => x) (fun _ => true)) as (env & Hok & Hir & Hc & _ & _ & H); auto; try lra; try discriminate.
  - intros u v [E|[E|[E|[E|[]]]]]; inversion E; reflexivity.
  - intros l Hl. cbn in Hl. repeat (destruct Hl as [<-|Hl]); try (destruct Hl); [exists 0%nat, 1%nat|exists 0%nat, 1%nat|exists 0%nat, 1%nat|exists 3%nat, 4%nat|exists 3%nat, 4%nat|exists 3%nat, 4%nat]; cbn; auto.
  - intros t [<-|[]]; reflexivity.
  - destruct (kept_estimate env) as (x & Hx & Hb); [rewrite Hc; reflexivity|].
    destruct H as (result & H); [intros c Hcc; apply HC in Hcc; subst; eauto|]. exists env, result. split; auto. split; auto. split; auto.
    destruct (prune_to_multilayer_stable_partitions env two_paths two_paths_i two_paths_lv "temporal" (Tuples [kept_input]) 0 2 0 2 None false) as [[w g'] r] eqn:E. cbn [snd] in H. subst r.
    intros c. split.
    + intros Hin. destruct (C43_multilayer_prune_sound _ _ _ _ _ _ _ _ _ _ _ _ _ _ Hok E) as (_ & ps & ds & _ & _ & Hs). apply HC. apply (Hs c Hin).
    + intros ->. assert (M : Rmin 1000 (2 - 1 / 1000) = 2 - 1 / 1000) by (apply Rmin_right; lra).
      eapply (C57_multilayer_prune_complete _ _ _ _ _ _ _ _ _ _ _ _ _ _ _ _ _ Hok Hir E); [apply HC; auto|exact Hx|lra|rewrite M; lra|].
      intros d Hd N. apply HC in Hd. contradiction.
Qed.

(** Two 4-cycles, communities {0, 1} and {2, 3} in both layers: theta_in = theta_out = 1, so the gamma estimate is nan, and the
    partition is returned for every rectangle -- in particular for rectangles far from any sensible parameter.  So the claim
    "every returned partition has its estimate in the requested rectangle" is false of the code. *)
Definition two_cycles : graph := mkGraph 8 false [(0, 1); (1, 2); (2, 3); (3, 0); (4, 5); (5, 6); (6, 7); (7, 4)]%nat (Some [1; 1; 1; 1; 1; 1; 1; 1]).
Definition two_cycles_i : graph := mkGraph 8 true [(0, 4); (1, 5); (2, 6); (3, 7)]%nat None.
Definition two_cycles_lv : list nat := [0; 0; 0; 0; 1; 1; 1; 1]%nat.
Definition two_cycles_c : list nat := [0; 0; 1; 1; 0; 0; 1; 1]%nat.
Definition two_cycles_input : list Z := [0; 0; 1; 1; 0; 0; 1; 1]%Z.
Lemma two_cycles_valid : wf_graph two_cycles /\ wf_graph two_cycles_i /\ valid_multilayer two_cycles two_cycles_i [1; 1; 1; 1; 1; 1; 1; 1] two_cycles_lv "temporal".
Proof.
  split; [apply wf_literal; [literal_edges|reflexivity]|]. split; [split; [literal_edges|discriminate]|].
  unfold valid_multilayer, structural_rules. rules; cbn; try lia; try discriminate; auto.
  - intros m [<-|[<-|[]]]; lra.
  - intros u v H. repeat (destruct H as [E|H]; [inversion E; reflexivity|]). destruct H.
  - intros _. split; divides.
Qed.
Lemma two_cycles_sums : let E := weighted_edges two_cycles [1; 1; 1; 1; 1; 1; 1; 1] in
  observed_within_layers 8 E two_cycles_lv 2 two_cycles_c = 8 /\ expected_within_layers 8 E two_cycles_lv 2 two_cycles_c = 8 /\
  observed_between_layers 8 E two_cycles_lv 2 two_cycles_c = 8 /\ expected_between_layers 8 E two_cycles_lv 2 two_cycles_c = 8.
Proof.
  destruct two_cycles_valid as (W & _ & V). intros E.
  assert (R : forall t, in_range_E 8 (layer_edges E two_cycles_lv t)) by (intros t; apply layer_range; apply (@range_E_of two_cycles); auto).
  assert (O : observed_within_layers 8 E two_cycles_lv 2 two_cycles_c = 8).
  { unfold observed_within_layers. rewrite !sum_to_S. rewrite !observed_within_w by auto. unfold inner_w, sum_to. cbn. rewrite ?rsum_cons, ?rsum_nil. cbn. lra. }
  assert (X : expected_within_layers 8 E two_cycles_lv 2 two_cycles_c = 8).
  { unfold expected_within_layers. rewrite !sum_to_S.
    rewrite !(@expected_within_w 8 _ two_cycles_c 2%nat); auto; [|intros v Hv; do 8 (destruct v as [|v]; [cbn; lia|]); lia..].
    unfold kappa_w, total_w, sum_to. cbn. rewrite ?rsum_cons, ?rsum_nil. cbn. field. }
  assert (P : forall t, (t < 2)%nat -> total_strength 8 (layer_edges E two_cycles_lv t) = 8).
  { intros t Ht. rewrite total_strength_w by auto. destruct t as [|[|t]]; [| |lia]; unfold total_w; cbn; rewrite ?rsum_cons, ?rsum_nil; cbn; lra. }
  assert (Q : observed_within_layers 8 E two_cycles_lv 2 two_cycles_c + observed_between_layers 8 E two_cycles_lv 2 two_cycles_c = 16).
  { unfold observed_within_layers, observed_between_layers. rewrite <- sum_to_plus. rewrite !sum_to_S. rewrite !observed_split, !P by lia. unfold sum_to. cbn. lra. }
  assert (Q' : expected_within_layers 8 E two_cycles_lv 2 two_cycles_c + expected_between_layers 8 E two_cycles_lv 2 two_cycles_c = 16).
  { unfold expected_within_layers, expected_between_layers. rewrite <- sum_to_plus. rewrite !sum_to_S. rewrite !expected_split; [rewrite !P by lia; unfold sum_to; cbn; lra|rewrite P; [lra|lia]..]. }
  split; auto. split; auto. split; lra.
Qed.
Lemma two_cycles_estimate env : ee_contains env two_cycles = true ->
  estimate_of env two_cycles two_cycles_i two_cycles_lv "temporal" two_cycles_c = Ok (Some NonFinite, 1000).
Proof.
  intros He. destruct two_cycles_valid as (W1 & W2 & V). destruct two_cycles_sums as (S1 & S2 & S3 & S4).
  assert (Hh : weights_defaulted (ee_contains env two_cycles) two_cycles two_cycles) by (rewrite He; reflexivity).
  destruct (C37_exact env two_cycles two_cycles two_cycles_i [1; 1; 1; 1; 1; 1; 1; 1] two_cycles_lv two_cycles_c "temporal" 1000 None None None None) as (pers & p & r & A & B & _ & C & _ & _ & D);
    auto; try (left; reflexivity).
  { intros w H. cbn in H. repeat (destruct H as [<-|H]; [lra|]). destruct H. }
  unfold estimate_of. rewrite C. cbn [snd]. clear C. cbv zeta in D. change (vcount two_cycles) with 8%nat in D. change (S (list_max two_cycles_lv)) with 2%nat in D.
  change (list_max (map S two_cycles_c)) with 2%nat in D. rewrite S1, S2, S3, S4 in D.
  assert (Pe : pers = 1) by (destruct A as [[_ ->]|[[E _]|[E _]]]; try discriminate; cbn; lra).
  assert (P : p = 1) by (destruct B as [(_ & E)|[(E & _)|(E & _)]]; auto; lra).
  destruct D as (o & -> & I); [left; lra|]. destruct (Req_EM_T 8 0) as [Z|_]; [lra|].
  rewrite (proj2 (proj2 (C29_degenerate (8 / 8) (8 / 8)))) by lra.
  destruct I as [(Z & _)|[(_ & ->)|[(Z & _)|(Z & _)]]]; try lra. reflexivity.
Qed.
Theorem C43_refuted : forall gamma_start gamma_end omega_start omega_end, gamma_start < gamma_end -> omega_start < omega_end ->
  exists env result, prune_ok_3D env two_cycles two_cycles_i two_cycles_lv [two_cycles_input] /\
  snd (prune_to_multilayer_stable_partitions env two_cycles two_cycles_i two_cycles_lv "temporal" (Tuples [two_cycles_input])
         gamma_start gamma_end omega_start omega_end None false) = Ok result /\
  In two_cycles_c result /\ estimate_of env two_cycles two_cycles_i two_cycles_lv "temporal" two_cycles_c = Ok (Some NonFinite, 1000).
Proof.
  intros gs ge os oe Hg Ho.
  assert (S : sorted_tuple two_cycles_input = Ok two_cycles_c) by reflexivity. pose proof (fun d => considered_one two_cycles_input two_cycles_c d S) as HC.
  destruct two_cycles_valid as (W1 & W2 & V).
  destruct (C43_realisable two_cycles two_cycles_i two_cycles_lv "temporal" [two_cycles_input] gs ge os oe None (fun _ => true) (fun _ x => x) (fun _ => true)) as (env & Hok & Hir & Hc & _ & _ & H); auto; try lra; try discriminate.
  - intros u v Huv. cbn in Huv. repeat (destruct Huv as [E|Huv]; [inversion E; reflexivity|]). destruct Huv.
  - intros l Hl. assert (l = 0 \/ l = 1)%nat as [-> | ->] by (cbn in Hl; repeat (destruct Hl as [<-|Hl]; [auto|]); destruct Hl); [exists 0%nat, 1%nat|exists 4%nat, 5%nat]; cbn; auto 10.
  - intros t [<-|[]]; reflexivity.
  - pose proof (two_cycles_estimate env ltac:(rewrite Hc; reflexivity)) as Hx.
    destruct H as (result & H); [intros c Hcc; apply HC in Hcc; subst; eauto|]. exists env, result. split; auto. split; auto. split; auto.
    destruct (prune_to_multilayer_stable_partitions env two_cycles two_cycles_i two_cycles_lv "temporal" (Tuples [two_cycles_input]) gs ge os oe None false) as [[w g'] r] eqn:E. cbn [snd] in H. subst r.
    eapply (C43_nan_is_returned _ _ _ _ _ _ _ _ _ _ _ _ _ _ _ _ Hok E); [apply HC; auto|exact Hx|].
    exists gs, os. split; [lra|]. split; [lra|]. intros d Hd N. apply HC in Hd. contradiction.
Qed.
Print Assumptions C43_refuted.
