(** Property theorems about the tests that compare undirected and directed versions of a network: C115. *)
From Coq Require Import String Permutation.
From Verif Require Import PyBase PyGraph M_partition M_champ M_leiden M_parts M_estimation_utils M_estimation M_checks M_generators M_studies M_esttests
  Spec Spec_graph Spec_leiden Spec_sbm Spec_multisbm Spec_check Spec_valid Spec_adjacency L_base L_modularity L_leiden L_sbm L_sbm2 L_prune L_iteration Properties_sbm Properties_multisbm Properties_adjacency Properties_defaults.
From Coq Require Import Classical.
Open Scope list_scope.
Open Scope R_scope.

Lemma assert_same x : assert_almost_equal_or_both_none_or_nan x x = Ok tt.
Proof.
  destruct x as [[x|]|]; try reflexivity. cbn. unfold assert_almost_equal, Rleb. rewrite Rminus_diag_eq, Rabs_R0 by reflexivity.
  destruct (Rle_dec _ _) as [_|N]; [reflexivity|]. exfalso. apply N. apply Rlt_le, Rdiv_lt_0_compat; [lra|apply pow_lt; lra].
Qed.

(** The graph an estimate leaves: weights that count are all 1, and to_directed gives another graph of the same network with the same property. *)
Definition settled (h : graph) : Prop := wf_graph h /\ weights h = Some (repeat 1 (length (edges h))).

Lemma settled_weighted env G : wf_graph G -> counts_edges (ee_contains env G) G -> settled (weighted_e env G).
Proof.
  intros W C. split; [apply weighted_e_wf; auto|]. rewrite weighted_e_edges. unfold weighted_e, counts_edges in *. destruct (ee_contains env G); [auto|reflexivity].
Qed.
Lemma settled_counts b h : settled h -> counts_edges b h.
Proof. intros [_ H] _. exact H. Qed.

Lemma to_directed_same h : wf_graph h -> same_adjacency h (to_directed h).
Proof.
  intros W. unfold to_directed. destruct (directed h) eqn:D; [split; auto|]. apply C85_same_network; [auto|]. left. split; [auto|]. split; [reflexivity|]. split; [reflexivity|]. apply Permutation_refl.
Qed.
Lemma to_directed_settled h : settled h -> settled (to_directed h).
Proof.
  intros [W H]. unfold to_directed. destruct (directed h); [split; auto|]. assert (H' : option_map (fun ws => ws ++ ws) (weights h) = Some (repeat 1 (length (edges h ++ map (fun e => (snd e, fst e)) (edges h))))).
  { rewrite H, app_length, map_length, repeat_app. reflexivity. }
  split; [|exact H']. destruct W as [We Ww]. split; cbn [edges vcount weights].
  - intros u v Hin. apply in_app_or in Hin. destruct Hin as [Hin|Hin]; [apply We; auto|]. apply in_map_iff in Hin. destruct Hin as ([a b] & E & Hin). inversion E. subst. destruct (We _ _ Hin). auto.
  - intros ws Hws. rewrite H' in Hws. inversion Hws. rewrite repeat_length. reflexivity.
Qed.
Lemma same_adjacency_trans a b c : same_adjacency a b -> same_adjacency b c -> same_adjacency a c.
Proof. intros [V A] [V' A']. split; [congruence|]. intros i j Hi Hj. rewrite A' by (rewrite V; auto). apply A; auto. Qed.
Lemma weighted_same env G : same_adjacency G (weighted_e env G).
Proof. unfold weighted_e. destruct (ee_contains env G); split; auto. Qed.

(** ** Single layer: both estimates are the same, so the test passes exactly if all estimates of the undirected graphs return; otherwise it ends with
    the exception of one of them, never with a failed assertion of its own. *)
Theorem C115_singlelayer : forall env cases, (forall G c, In (G, c) cases -> wf_graph G /\ counts_edges (ee_contains env G) G) ->
  (test_directed_consistency_igraph_famous env cases = Ok tt <-> forall G c, In (G, c) cases -> exists x, snd (gamma_estimate env G (Membership c)) = Ok x) /\
  (forall e, test_directed_consistency_igraph_famous env cases = Raise e -> exists G c, In (G, c) cases /\ snd (gamma_estimate env G (Membership c)) = Raise e).
Proof.
  intros env cases. unfold test_directed_consistency_igraph_famous, directed_consistency. induction cases as [|[G c] cases IH]; intros H.
  - split; [split; [intros _ G c []|reflexivity]|]. intros e E. discriminate.
  - destruct (H G c (or_introl eq_refl)) as [W C]. destruct (IH (fun G' c' Hin => H G' c' (or_intror Hin))) as [I1 I2]. cbn [foldM].
    pose proof (@settled_weighted env G W C) as S0. set (h := weighted_e env G) in *.
    assert (Eg : fst (gamma_estimate env G (Membership c)) = h) by (rewrite gamma_estimate_graph by auto; reflexivity).
    assert (Es : snd (gamma_estimate env (to_directed h) (Membership c)) = snd (gamma_estimate env G (Membership c))).
    { apply C85_gamma_estimate; auto; [apply to_directed_settled; auto| |apply settled_counts, to_directed_settled; auto].
      eapply same_adjacency_trans; [apply weighted_same|apply to_directed_same, S0]. }
    destruct (gamma_estimate env G (Membership c)) as [h' r] eqn:E. cbn [fst snd] in *. subst h'. rewrite Es. destruct r as [x|e]; cbn [bind].
    + rewrite assert_same. cbn [bind]. split.
      * rewrite I1. split; [intros K G' c' [Q|Q]; [inversion Q; subst; rewrite E; eexists; reflexivity|apply K; auto]|intros K G' c' Q; apply K; right; auto].
      * intros e Q. destruct (I2 e Q) as (G' & c' & Hin & Q'). exists G', c'. split; [right|]; auto.
    + split.
      * split; [discriminate|]. intros K. destruct (K G c (or_introl eq_refl)) as [x Q]. rewrite E in Q. discriminate.
      * intros e' Q. inversion Q. subst. exists G, c. split; [left; auto|]. rewrite E. reflexivity.
Qed.
Print Assumptions C115_singlelayer.

(** On undirected networks in which no vertex is isolated it passes with all memberships that use the label 0: no estimate can fail. *)
Theorem C115_passes : forall env cases,
  (forall G c, In (G, c) cases -> wf_graph G /\ directed G = false /\ counts_edges (ee_contains env G) G /\ edges G <> [] /\ length c = vcount G /\ In 0%nat c /\
     forall v, (v < vcount G)%nat -> exists e, In e (edges G) /\ (fst e = v \/ snd e = v)) ->
  test_directed_consistency_igraph_famous env cases = Ok tt.
Proof.
  intros env cases H. apply (@C115_singlelayer env cases); [intros G c Hin; destruct (H G c Hin); tauto|].
  intros G c Hin. destruct (H G c Hin) as (W & D & C & Ne & L & L0 & NI). pose proof (@settled_weighted env G W C) as [_ Sw]. rewrite weighted_e_edges in Sw.
  apply (@C30_exact env G (weighted_e env G) (repeat 1 (length (edges G))) c); auto.
  - apply weighted_e_defaulted. reflexivity.
  - intros w Hw. apply repeat_spec in Hw. lra.
  - intros [E|(Pm & Q)]; [contradiction|].
    assert (EP : forall v, (v < vcount G)%nat -> end_point (weighted_edges (weighted_e env G) (repeat 1 (length (edges G)))) v).
    { intros v Hv. destruct (NI v Hv) as ([a b] & Hin' & Hab). unfold end_point, weighted_edges. rewrite weighted_e_edges.
      assert (X : In ((a, b), 1) (combine (edges G) (repeat 1 (length (edges G))))).
      { clear -Hin'. induction (edges G) as [|e l IH]; [destruct Hin'|]. cbn [length repeat combine]. destruct Hin' as [->|Hin']; [left; auto|right; auto]. }
      cbn [fst snd] in Hab. exists a, b, 1. split; [exact X|]. destruct Hab; auto. }
    destruct (In_nth _ _ 0%nat L0) as (i & Hi & Ei).
    assert (Z : forall j, (j < length c)%nat -> nth j c 0%nat = 0%nat) by (intros j Hj; transitivity (nth i c 0%nat); [apply Q; apply EP; lia|exact Ei]).
    cut (list_max c <= 0)%nat; [lia|]. apply list_max_le, Forall_forall. intros l Hl. destruct (In_nth _ _ 0%nat Hl) as (j & Hj & <-). rewrite Z; auto.
Qed.
Print Assumptions C115_passes.

Example C115_passes_example : forall env, (forall g, ee_contains env g = false) ->
  test_directed_consistency_igraph_famous env [(mkGraph 3 false [(0, 1); (1, 2)]%nat None, [0; 1; 1]%nat); (mkGraph 2 false [(1, 0)]%nat None, [1; 0]%nat)] = Ok tt.
Proof.
  intros env He. apply C115_passes. intros G c [Q|[Q|[]]]; inversion Q; subst; cbn [edges vcount directed];
    (split; [split; [intros a b Hin; cbn in Hin; repeat (destruct Hin as [Hin|Hin]; [inversion Hin; subst; cbn; lia|]); destruct Hin|discriminate]|]);
    (split; [reflexivity|]); (split; [intros Hc; rewrite He in Hc; discriminate|]); (split; [discriminate|]); (split; [reflexivity|]); (split; [cbn; tauto|]);
    intros v Hv; destruct v as [|[|[|v]]]; try lia.
  1: exists (0, 1)%nat. 2: exists (0, 1)%nat. 3: exists (1, 2)%nat. 4: exists (1, 0)%nat. 5: exists (1, 0)%nat. all: cbn; tauto.
Qed.

(** ** Several layers *)
Lemma valid_nonempty g gi ws model : valid_multilayer g gi ws [] model -> False.
Proof. intros Hv. unfold valid_multilayer, structural_rules in Hv. rewrite Forall_cons_iff in Hv. destruct Hv as [Hv _]. cbn in Hv. lia. Qed.

Section Multi.
Variables (env : est_env) (gi : graph) (lv : list nat) (G0 : graph).
Let estimate := fun G c model => gamma_omega_estimate env G gi lv c 1000 model None None None None.
Hypothesis (W0 : wf_graph G0) (Wi : wf_graph gi) (C0 : counts_edges (ee_contains env G0) G0).

Lemma multi_left G c model : lv <> [] -> length c = vcount G -> fst (estimate G c model) = weighted_e env G.
Proof.
  intros Hlv Hc. unfold estimate, gamma_omega_estimate. cbn [or_default]. rewrite numbers_T by auto. cbn [bind]. unfold leiden_part_with_membership. rewrite Hc, Nat.eqb_refl. cbn [bind].
  unfold estimate_multilayer_SBM_parameters. rewrite default_weights_weighted. reflexivity.
Qed.

Lemma comparisons : forall l G, lv <> [] -> (forall c model, In (c, model) l -> length c = vcount G0 /\ is_model model /\ valid_multilayer G0 gi (repeat 1 (length (edges G0))) lv model) ->
  wf_graph G -> counts_edges (ee_contains env G) G -> same_adjacency G0 G ->
  ((exists r, snd (mapG (compare_directions estimate) G l) = Ok r) <-> forall c model, In (c, model) l -> exists x, snd (estimate G0 c model) = Ok x) /\
  (forall e, snd (mapG (compare_directions estimate) G l) = Raise e -> exists c model, In (c, model) l /\ snd (estimate G0 c model) = Raise e).
Proof.
  induction l as [|[c model] l IH]; intros G Hlv H W C A.
  - cbn. split; [split; [intros _ c m []|intros _; eauto]|intros e E; discriminate].
  - destruct (H c model (or_introl eq_refl)) as (Hc & Hm & Hv). cbn [mapG].
    pose proof (@settled_weighted env G W C) as S1. set (h := weighted_e env G) in *.
    assert (A1 : same_adjacency G0 h) by (eapply same_adjacency_trans; [exact A|apply weighted_same]).
    pose proof (@to_directed_settled _ S1) as S2. assert (A2 : same_adjacency G0 (to_directed h)) by (eapply same_adjacency_trans; [exact A1|apply to_directed_same, S1]).
    pose proof (@settled_weighted env _ (proj1 S2) (@settled_counts _ _ S2)) as S3. assert (A3 : same_adjacency G0 (weighted_e env (to_directed h))) by (eapply same_adjacency_trans; [exact A2|apply weighted_same]).
    pose proof (@multi_left G c model Hlv ltac:(rewrite (proj1 A); auto)) as L1. pose proof (@multi_left (to_directed h) c model Hlv ltac:(rewrite (proj1 A2); auto)) as L2.
    assert (E1 : snd (estimate G c model) = snd (estimate G0 c model)) by (apply C85_gamma_omega_estimate; auto).
    assert (E2 : snd (estimate (to_directed h) c model) = snd (estimate G0 c model)) by (apply C85_gamma_omega_estimate; auto; [apply S2|apply settled_counts; auto]).
    unfold compare_directions at 1 3. destruct (estimate G c model) as [h' r] eqn:X. cbn [fst snd] in L1, E1. subst h'. fold h.
    destruct r as [[ga om]|e].
    + destruct (estimate (to_directed h) c model) as [h2 r2] eqn:X2. cbn [fst snd] in L2, E2. subst h2. rewrite E2, <- E1. cbn [bind]. rewrite !assert_same. cbn [bind].
      destruct (IH (weighted_e env (to_directed h)) Hlv (fun c' m' Hin => H c' m' (or_intror Hin)) (proj1 S3) (@settled_counts _ _ S3) A3) as [I1 I2].
      destruct (mapG (compare_directions estimate) (weighted_e env (to_directed h)) l) as [g2 rs]. cbn [snd] in *. split.
      * split.
        { intros [r Hr] c' m' [Q|Q]; [inversion Q; subst; eauto|]. apply I1; auto. destruct rs as [ys|]; [eauto|discriminate]. }
        { intros K. destruct (proj2 I1 (fun c' m' Hin => K c' m' (or_intror Hin))) as [ys ->]. cbn [bind]. eauto. }
      * intros e He. destruct rs as [ys|e']; [discriminate|]. cbn [bind] in He. inversion He. subst e'. destruct (I2 e eq_refl) as (c' & m' & Hin & Q). exists c', m'. split; [right|]; auto.
    + cbn [snd]. split.
      * split; [intros [r Hr]; discriminate|]. intros K. destruct (K c model (or_introl eq_refl)) as [x Q]. rewrite <- E1 in Q. discriminate.
      * intros e' He. inversion He. subst e'. exists c, model. split; [left|]; auto.
Qed.
End Multi.

(** On every valid network, whatever the partitions are, the tests pass exactly if all the estimates (of the undirected network) return, and otherwise end with the
    exception of one of them. *)
Theorem C115_temporal : forall env g gi lv parts, wf_graph g -> wf_graph gi -> counts_edges (ee_contains env g) g ->
  valid_multilayer g gi (repeat 1 (length (edges g))) lv "temporal" -> valid_multilayer g gi (repeat 1 (length (edges g))) lv "multilevel" ->
  (forall c, In c parts -> length c = vcount g) ->
  let estimate c model := snd (gamma_omega_estimate env g gi lv c 1000 model None None None None) in
  (test_directed_consistency_temporal env g gi lv parts = Ok tt <->
   forall c, In c parts -> (exists x, estimate c "temporal"%string = Ok x) /\ (exists x, estimate c "multilevel"%string = Ok x)) /\
  (forall e, test_directed_consistency_temporal env g gi lv parts = Raise e ->
   exists c, In c parts /\ (estimate c "temporal"%string = Raise e \/ estimate c "multilevel"%string = Raise e)).
Proof.
  intros env g gi lv parts W Wi C V1 V2 Hl estimate. unfold test_directed_consistency_temporal, directed_consistency_multilayer.
  assert (Hlv : lv <> []) by (intros ->; apply valid_nonempty in V1; contradiction).
  destruct (@comparisons env gi lv g W Wi C (list_prod parts ["temporal"; "multilevel"]%string) g Hlv) as [I1 I2]; auto.
  - intros c m Hin. apply in_prod_iff in Hin. destruct Hin as [Hc [<-|[<-|[]]]]; (split; [auto|]); (split; [unfold is_model; auto|auto]).
  - split; auto.
  - fold estimate in I1, I2. set (r := snd (mapG _ g _)) in *. split.
    + transitivity (exists x, r = Ok x). { destruct r as [x|e]; cbn [bind]; split; intros Q; eauto; [discriminate|destruct Q; discriminate]. }
      rewrite I1. split.
      * intros K c Hc. split; apply K, in_prod; cbn; auto.
      * intros K c m Hin. apply in_prod_iff in Hin. destruct Hin as [Hc [<-|[<-|[]]]]; apply K; auto.
    + intros e He. destruct (I2 e) as (c & m & Hin & Q). { destruct r as [x|e']; cbn [bind] in He; [discriminate|]. congruence. }
      apply in_prod_iff in Hin. destruct Hin as [Hc [<-|[<-|[]]]]; exists c; auto.
Qed.
Print Assumptions C115_temporal.

Example C115_temporal_example : forall env, ee_contains env two_paths = true -> test_directed_consistency_temporal env two_paths two_paths_i two_paths_lv [two_paths_c] = Ok tt.
Proof.
  intros env He. destruct two_paths_valid as (W1 & W2 & V).
  assert (V' : valid_multilayer two_paths two_paths_i [1; 1; 1; 1] two_paths_lv "multilevel").
  { clear V. unfold valid_multilayer, structural_rules. rules; cbn; try lia; try discriminate; auto.
    - intros m [<-|[<-|[]]]; lra.
    - intros u v [E|[E|[E|[E|[]]]]]; inversion E; reflexivity.
    - intros _ v Hv. do 6 (destruct v as [|v]; [cbn; lia|]). lia. }
  apply C115_temporal; auto; [intros _; reflexivity| |]; [intros c [<-|[]]; reflexivity|].
  intros c [<-|[]]. split; [rewrite C37_example by auto; cbn; eauto|].
  destruct two_paths_sums as (S1 & S2 & S3 & S4).
  assert (Hh : weights_defaulted (ee_contains env two_paths) two_paths two_paths) by (rewrite He; reflexivity).
  destruct (C37_exact env two_paths two_paths two_paths_i [1; 1; 1; 1] two_paths_lv two_paths_c "multilevel" 1000 None None None None) as (pers & p & r & _ & _ & _ & C & _ & _ & D);
    auto; try (left; reflexivity).
  { intros w H. cbn in H. destruct H as [<-|[<-|[<-|[<-|[]]]]]; lra. }
  { unfold is_model; auto. }
  rewrite C. clear C. cbv zeta in D. change (vcount two_paths) with 6%nat in D. change (S (list_max two_paths_lv)) with 2%nat in D. rewrite S1, S2, S3, S4 in D.
  destruct D as (o & -> & _); [right; split; [lra|left; lra]|]. cbn [snd]. eauto.
Qed.

Theorem C115_multiplex : forall env g gi lv parts, wf_graph g -> wf_graph gi -> counts_edges (ee_contains env g) g ->
  valid_multilayer g gi (repeat 1 (length (edges g))) lv "multiplex" -> (forall c, In c parts -> length c = vcount g) ->
  let estimate c := snd (gamma_omega_estimate env g gi lv c 1000 "multiplex" None None None None) in
  (test_directed_consistency_multiplex env g gi lv parts = Ok tt <-> forall c, In c parts -> exists x, estimate c = Ok x) /\
  (forall e, test_directed_consistency_multiplex env g gi lv parts = Raise e -> exists c, In c parts /\ estimate c = Raise e).
Proof.
  intros env g gi lv parts W Wi C V1 Hl estimate. unfold test_directed_consistency_multiplex, directed_consistency_multilayer.
  assert (Hlv : lv <> []) by (intros ->; apply valid_nonempty in V1; contradiction).
  destruct (@comparisons env gi lv g W Wi C (list_prod parts ["multiplex"]%string) g Hlv) as [I1 I2]; auto.
  - intros c m Hin. apply in_prod_iff in Hin. destruct Hin as [Hc [<-|[]]]; (split; [auto|]); (split; [unfold is_model; auto|auto]).
  - split; auto.
  - set (r := snd (mapG _ g _)) in *. split.
    + transitivity (exists x, r = Ok x). { destruct r as [x|e]; cbn [bind]; split; intros Q; eauto; [discriminate|destruct Q; discriminate]. }
      rewrite I1. split.
      * intros K c Hc. apply K, in_prod; cbn; auto.
      * intros K c m Hin. apply in_prod_iff in Hin. destruct Hin as [Hc [<-|[]]]; apply K; auto.
    + intros e He. destruct (I2 e) as (c & m & Hin & Q). { destruct r as [x|e']; cbn [bind] in He; [discriminate|]. congruence. }
      apply in_prod_iff in Hin. destruct Hin as [Hc [<-|[]]]; exists c; auto.
Qed.
Print Assumptions C115_multiplex.

(** The loops make the graph directed at their first comparison and never go back, so all later comparisons are of the directed graph with itself: any other
    estimate passes too if it is right in the first comparison only. *)
Theorem C115_first_only : forall estimate models G c model cs,
  (forall G c model, directed (fst (estimate G c model)) = directed G) ->
  (forall G c model, snd (estimate (fst (estimate G c model)) c model) = snd (estimate G c model)) ->
  (forall G c model, directed G = true -> exists x, snd (estimate G c model) = Ok x) ->
  snd (compare_directions estimate G (c, model)) = Ok tt ->
  directed_consistency_multilayer estimate (model :: models) G (c :: cs) = Ok tt.
Proof.
  intros estimate models G c model cs D I O F.
  assert (L : forall l H, directed H = true -> exists r, snd (mapG (compare_directions estimate) H l) = Ok r).
  { induction l as [|[c' m'] l IH]; intros H HD; [cbn; eauto|]. cbn [mapG]. unfold compare_directions at 1.
    pose proof (D H c' m') as D1. pose proof (I H c' m') as I1. destruct (O H c' m' HD) as [[ga om] E]. destruct (estimate H c' m') as [h r]. cbn [fst snd] in *. rewrite E in *. clear E r.
    assert (T : to_directed h = h) by (unfold to_directed; rewrite D1, HD; reflexivity). rewrite T. pose proof (D h c' m') as D2.
    destruct (estimate h c' m') as [h2 r2]. cbn [fst snd] in *. rewrite I1. cbn [bind]. rewrite !assert_same. cbn [bind].
    destruct (IH h2) as [r Hr]; [congruence|]. destruct (mapG (compare_directions estimate) h2 l) as [g2 rs]. cbn [snd] in *. subst rs. cbn [bind]. eauto. }
  unfold directed_consistency_multilayer. cbn [list_prod map app mapG].
  assert (DF : directed (fst (compare_directions estimate G (c, model))) = true).
  { unfold compare_directions in *. destruct (estimate G c model) as [h r]. destruct r as [[ga om]|e]; [|discriminate F]. pose proof (D (to_directed h) c model) as Q.
    destruct (estimate (to_directed h) c model) as [h2 r2]. cbn [fst] in *. rewrite Q. unfold to_directed. destruct (directed h) eqn:DD; auto. }
  destruct (compare_directions estimate G (c, model)) as [h r]. cbn [fst snd] in *. subst r.
  destruct (L (map (fun y => (c, y)) models ++ list_prod cs (model :: models)) h DF) as [r Hr]. cbn [list_prod] in Hr. destruct (mapG _ h _) as [g2 rs]. cbn [snd] in *. rewrite Hr. reflexivity.
Qed.
Print Assumptions C115_first_only.

(** For example one that depends on the direction for every partition with several communities. *)
Theorem C115_refuted_coverage : exists (estimate : graph -> list nat -> string -> graph * res (option npf * R)) G c cs d,
  directed_consistency_multilayer estimate ["temporal"%string; "multilevel"%string] G (c :: cs) = Ok tt /\ In d cs /\
  exists x y, snd (estimate G d "temporal"%string) = Ok (Some (Fin x), 0) /\ snd (estimate (to_directed G) d "temporal"%string) = Ok (Some (Fin y), 0) /\ 1 <= Rabs (x - y).
Proof.
  exists (fun G c _ => (G, Ok (Some (Fin (if directed G then 0 else INR (list_max c))), 0))), (mkGraph 2 false [(0, 1)]%nat None), [0; 0]%nat, [[0; 1]%nat], [0; 1]%nat. split.
  - apply C115_first_only; auto; [intros; cbn; eauto|]. cbn [compare_directions directed snd to_directed bind]. cbn [list_max fold_right Nat.max INR]. rewrite !assert_same. reflexivity.
  - split; [left; auto|]. exists 1, 0. cbn. repeat split. rewrite Rabs_right; lra.
Qed.
Print Assumptions C115_refuted_coverage.

(** ** What the comparisons accept, for any estimate: both estimates return, and the numbers agree to 5e-11, or both are nan, or both None. *)
Definition estimates_agree (x y : option npf) : Prop :=
  (x = None /\ y = None) \/ (x = Some NonFinite /\ y = Some NonFinite) \/ exists a b, x = Some (Fin a) /\ y = Some (Fin b) /\ Rabs (a - b) <= 5 / 10 ^ 11.

Lemma assert_agree x y : assert_almost_equal_or_both_none_or_nan x y = Ok tt <-> estimates_agree x y.
Proof.
  unfold estimates_agree. destruct x as [[a|]|], y as [[b|]|]; cbn [assert_almost_equal_or_both_none_or_nan].
  1:{ unfold assert_almost_equal, Rleb. destruct (Rle_dec (Rabs (a - b)) (5 / 10 ^ 11)) as [L|L].
      - split; [|auto]. intros _. right. right. exists a, b. auto.
      - split; [discriminate|]. intros [[Q _]|[[Q _]|(a' & b' & Q & Q' & L')]]; [discriminate|discriminate|]. inversion Q. inversion Q'. subst. contradiction. }
  all: split; intros H; try discriminate; auto;
    destruct H as [[Q Q']|[[Q Q']|(a' & b' & Q & Q' & _)]]; discriminate.
Qed.

Theorem C115_exact : forall (estimate : graph -> list nat -> graph * res (option npf)) cases,
  directed_consistency estimate cases = Ok tt <->
  forall G c, In (G, c) cases -> exists x y, snd (estimate G c) = Ok x /\ snd (estimate (to_directed (fst (estimate G c))) c) = Ok y /\ estimates_agree x y.
Proof.
  intros estimate cases. unfold directed_consistency. induction cases as [|[G c] cases IH]; [split; [intros _ G c []|reflexivity]|].
  cbn [foldM]. split.
  - intros H. destruct (estimate G c) as [h r] eqn:E. destruct r as [x|e]; cbn [bind] in H; [|discriminate].
    destruct (snd (estimate (to_directed h) c)) as [y|e] eqn:E2; cbn [bind] in H; [|discriminate].
    destruct (assert_almost_equal_or_both_none_or_nan x y) as [[]|e] eqn:E3; cbn [bind] in H; [|discriminate].
    intros G' c' [Q|Q]; [|apply (proj1 IH H); auto]. inversion Q. subst. exists x, y. rewrite E. cbn [fst snd]. rewrite <- assert_agree. auto.
  - intros H. destruct (H G c (or_introl eq_refl)) as (x & y & E1 & E2 & A). destruct (estimate G c) as [h r]. cbn [fst snd] in *. subst r. cbn [bind].
    rewrite E2. cbn [bind]. rewrite (proj2 (assert_agree x y) A). cbn [bind]. apply IH. intros G' c' Hin. apply H. right. auto.
Qed.
Print Assumptions C115_exact.

Theorem C115_exact_multilayer : forall estimate G c model,
  snd (compare_directions estimate G (c, model)) = Ok tt <->
  exists x y omega omega', snd (estimate G c model) = Ok (x, omega) /\
    snd (estimate (to_directed (fst (estimate G c model))) c model) = Ok (y, omega') /\ estimates_agree x y /\ Rabs (omega - omega') <= 5 / 10 ^ 11.
Proof.
  intros estimate G c model. unfold compare_directions. destruct (estimate G c model) as [h [[x om]|e]]; cbn [fst snd].
  2:{ split; [discriminate|]. intros (x & y & om & om' & E & _). discriminate. }
  destruct (estimate (to_directed h) c model) as [h2 [[y om']|e]]; cbn [fst snd bind].
  2:{ split; [discriminate|]. intros (x' & y & om1 & om' & _ & E & _). discriminate. }
  split.
  - intros H. destruct (assert_almost_equal_or_both_none_or_nan x y) as [[]|e] eqn:E3; cbn [bind] in H; [|discriminate].
    exists x, y, om, om'. split; [auto|]. split; [auto|]. split; [apply assert_agree; auto|].
    apply assert_agree in H. destruct H as [[Q _]|[[Q _]|(a & b & Q & Q' & L)]]; [discriminate|discriminate|]. inversion Q. inversion Q'. subst. exact L.
  - intros (x1 & y1 & o1 & o2 & E1 & E2 & A & L). inversion E1. inversion E2. subst. rewrite (proj2 (assert_agree x1 y1) A). cbn [bind].
    apply assert_agree. right. right. exists o1, o2. auto.
Qed.
Print Assumptions C115_exact_multilayer.
