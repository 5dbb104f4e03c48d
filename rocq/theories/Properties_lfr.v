(** C99: benchmark graphs, methods and figure of the LFR experiment. *)
From Coq Require Import String.
From Flocq Require Import Core.
From Verif Require Import PyBase PyGraph M_partition M_champ M_leiden M_estimation_utils M_checks M_generators M_lfr
  Spec Spec_graph Spec_leiden Spec_champ Spec_prune Spec_plotting Spec_lfr L_base L_canon L_leiden L_multileiden L_sbm2 L_plotting L_prune L_multisbm L_lfr L_lfr2 Properties_leiden Properties_sbm Properties_prune Properties_pipeline Properties_lfrfiles.
Open Scope list_scope.
Open Scope R_scope.

(** ** Benchmark graphs *)

(** From a connected graph with communities the vertices keep their numbers, the edges are the same, and two vertices have the same
    label exactly if they share a community; the labels are 0, 1, ..., K-1. *)
Theorem C99_benchmark : forall set_order G, (forall l, Permutation (set_order l) l) -> nx_ok G -> (1 < nx_nodes G)%nat ->
  (nx_connected G = false -> LFR_benchmark_igraph set_order (Some G) = Ok None) /\
  (nx_connected G = true -> exists g c, LFR_benchmark_igraph set_order (Some G) = Ok (Some (g, c)) /\
     vcount g = nx_nodes G /\ edges g = nx_edges G /\ directed g = false /\ weights g = None /\ length c = nx_nodes G /\
     (forall u v, (u < nx_nodes G)%nat -> (v < nx_nodes G)%nat -> (nth u c 0%nat = nth v c 0%nat <-> nx_community G u = nx_community G v)) /\
     exists K, labelled c K).
Proof.
  intros so G Hso [H1 H2 H3 H4] Hn. unfold LFR_benchmark_igraph. split; intros Hc; rewrite Hc; cbn [negb]; [reflexivity|].
  set (n := nx_nodes G) in *. set (cs := so (py_set (map (nx_community G) (seq 0 n)))).
  assert (Ics : forall c, In c cs <-> exists v, (v < n)%nat /\ c = nx_community G v).
  { intros c. assert (E : In c cs <-> In c (py_set (map (nx_community G) (seq 0 n)))). { split; apply Permutation_in; [apply Hso|apply Permutation_sym, Hso]. }
    rewrite E, py_set_in, in_map_iff. split; [intros (v & <- & Hv); exists v; split; [apply in_seq in Hv; lia|reflexivity]|intros (v & Hv & ->); exists v; split; [reflexivity|apply in_seq; lia]]. }
  assert (Nd : NoDup cs) by (eapply Permutation_NoDup; [apply Permutation_sym, Hso|apply py_set_nodup]).
  assert (Dj : forall i j c c' v, nth_error cs i = Some c -> nth_error cs j = Some c' -> In v c -> In v c' -> i = j).
  { intros i j c c' v Hi Hj Hv Hv'. pose proof (nth_error_In _ _ Hi) as I1. pose proof (nth_error_In _ _ Hj) as I2. apply Ics in I1 as (a & Ha & ->). apply Ics in I2 as (b & Hb & ->).
    destruct (H3 v a Ha Hv) as [_ E1]. destruct (H3 v b Hb Hv') as [_ E2]. eapply NoDup_nth_error; eauto; [apply nth_error_Some; congruence|congruence]. }
  destruct (@write_all cs 0 (repeat None n)) as (vec & EW & LW & _ & VW).
  { intros c Hc'. apply Ics in Hc' as (v & Hv & ->). intros E. pose proof (H2 v Hv) as X. rewrite E in X. destruct X. }
  { intros c v Hc' Hv. apply Ics in Hc' as (w & Hw & ->). rewrite repeat_length. apply (H3 v w Hw Hv). }
  specialize (VW Dj). cbn [Nat.add] in VW. unfold write_communities, enumerate. rewrite EW. cbn [bind]. rewrite (check_all cs vec VW). cbn [bind].
  rewrite repeat_length in LW.
  assert (Idx : forall v, (v < n)%nat -> exists i, nth_error cs i = Some (nx_community G v) /\ nth_error vec v = Some (Some i)).
  { intros v Hv. assert (In (nx_community G v) cs) as X by (apply Ics; eauto). apply In_nth_error in X as (i & Hi). exists i. split; [exact Hi|]. eapply VW; eauto. }
  destruct (extract_all vec) as (c & EC & LC & NC). { intros v Hv. destruct (Idx v) as (i & _ & Hi); [lia|]. eauto. }
  rewrite EC. cbn [bind].
  assert (EV : vcount (graph_of_edges false (nx_edges G)) = n).
  { cbn [vcount graph_of_edges]. apply Nat.le_antisymm.
    - apply list_max_le. apply Forall_forall. intros x Hx. apply in_map_iff in Hx as ([u v] & <- & He). destruct (H1 u v He). cbn [fst snd]. lia.
    - destruct (H4 Hc Hn (n - 1)%nat) as (u & He); [lia|]. assert (X := proj1 (list_max_le (map (fun e => S (Nat.max (fst e) (snd e))) (nx_edges G)) _) (Nat.le_refl _)). rewrite Forall_forall in X.
      destruct He as [He|He]; specialize (X _ (in_map _ _ _ He)); cbn [fst snd] in X; lia. }
  rewrite EV, Nat.eqb_refl. exists (graph_of_edges false (nx_edges G)), c. split; [reflexivity|]. split; [exact EV|]. split; [reflexivity|]. split; [reflexivity|]. split; [reflexivity|].
  assert (NN : forall v, (v < n)%nat -> exists i, nth_error cs i = Some (nx_community G v) /\ nth v c 0%nat = i).
  { intros v Hv. destruct (Idx v Hv) as (i & A & B). exists i. split; [exact A|]. apply nth_error_nth. apply NC. exact B. }
  split; [congruence|]. split.
  - intros u v Hu Hv. destruct (NN u Hu) as (i & A & B). destruct (NN v Hv) as (j & A' & B'). rewrite B, B'. split; [intros ->; congruence|].
    intros E. rewrite E in A. apply (proj1 (NoDup_nth_error cs) Nd i j); [apply nth_error_Some; congruence|congruence].
  - exists (length cs). split.
    + assert (X : In (nx_community G 0%nat) cs) by (apply Ics; exists 0%nat; split; [lia|reflexivity]). destruct cs; [destruct X|cbn; lia].
    + intros x. split.
      * intros Hx. apply In_nth_error in Hx as (v & Hv). assert (Lv : (v < n)%nat) by (assert (v < length c)%nat by (apply nth_error_Some; congruence); lia).
        destruct (NN v Lv) as (i & A & B). apply nth_error_nth with (d := 0%nat) in Hv. apply nth_error_Some. replace x with i by congruence. congruence.
      * intros Hx. destruct (nth_error cs x) as [k|] eqn:Ek; [|apply nth_error_None in Ek; lia]. pose proof (nth_error_In _ _ Ek) as X. apply Ics in X as (v & Hv & ->).
        destruct (NN v Hv) as (i & A & B). assert (i = x). { eapply Dj; eauto. } subst i. rewrite <- H. apply nth_In. lia.
Qed.
Print Assumptions C99_benchmark.

(** Running out of attempts is reported as None; a single node has no edge from which igraph could learn that it exists. *)
Theorem C99_benchmark_failures : forall set_order, (forall l, Permutation (set_order l) l) ->
  LFR_benchmark_igraph set_order None = Ok None /\
  forall G, nx_ok G -> nx_nodes G = 1%nat -> nx_connected G = true -> nx_edges G = [] -> LFR_benchmark_igraph set_order (Some G) = Raise AssertionError.
Proof.
  intros so Hso. split; [reflexivity|]. intros G [H1 H2 H3 H4] Hn Hc He. unfold LFR_benchmark_igraph. rewrite Hc, Hn. cbn [negb seq map].
  assert (EC : nx_community G 0 <> []). { intros E. pose proof (H2 0%nat ltac:(lia)) as X. rewrite E in X. destruct X. }
  assert (EZ : forall v, In v (nx_community G 0) -> v = 0%nat). { intros v Hv. destruct (H3 v 0%nat ltac:(lia) Hv). lia. }
  assert (ES : so (py_set [nx_community G 0]) = [nx_community G 0]). { apply Permutation_length_1_inv. apply Permutation_sym. apply Hso. }
  rewrite ES. destruct (@write_all [nx_community G 0] 0 [None]) as (vec & EW & LW & _ & VW).
  { intros c [<-|[]]. exact EC. } { intros c v [<-|[]] Hv. rewrite (EZ v Hv). cbn. lia. }
  unfold write_communities, enumerate. change (repeat None 1) with [@None nat]. rewrite EW. cbn [bind].
  assert (VW' : forall i c v, nth_error [nx_community G 0] i = Some c -> In v c -> nth_error vec v = Some (Some i)).
  { apply VW. intros [|i] [|j] c c' v A B _ _; auto; try (destruct i; discriminate); destruct j; discriminate. }
  rewrite (check_all _ vec VW'). cbn [bind]. destruct (extract_all vec) as (c & E & _).
  { intros v Hv. cbn in LW. assert (v = 0%nat) by lia. subst v. exists 0%nat. apply (VW' 0%nat (nx_community G 0) 0%nat eq_refl). apply H2. lia. }
  rewrite E, He. reflexivity.
Qed.
Print Assumptions C99_benchmark_failures.

(** ** Methods *)
Lemma lfr_found env g gammas g2 parts : gammas <> [] -> repeated_leiden_from_gammas env g gammas = (g2, Ok parts) ->
  g2 = weighted env g /\ all_found env g2 gammas parts /\ (length parts <= length gammas)%nat.
Proof.
  intros N E.
  assert (X : forall gammas k g acc g2 parts, leiden_serial_loop env k g gammas acc = (g2, Ok parts) ->
    (gammas <> [] -> g2 = weighted env g) /\ (NoDup acc -> NoDup parts) /\ (length parts <= length acc + length gammas)%nat).
  { clear. induction gammas as [|x gammas IH]; intros k g acc g2 parts E; cbn [leiden_serial_loop] in E.
    - injection E as <- <-. split; [contradiction|]. split; [auto|]. cbn. lia.
    - rewrite singlelayer_out in E. destruct (le_find env k _) as [m|e]; cbn [bind] in E; [|discriminate]. destruct (sorted_tuple (map Z.of_nat m)) as [t|e]; [|discriminate].
      destruct (IH _ _ _ _ _ E) as (A & B & C). split; [|split].
      + intros _. destruct gammas as [|y gammas]; [cbn in E; injection E as <- _; reflexivity|]. rewrite A by discriminate. apply weighted_idem.
      + intros Nd. apply B. apply L_canon.set_add_nodup. exact Nd.
      + cbn [length]. assert (length (set_add t acc) <= S (length acc))%nat by (unfold set_add; destruct (in_dec _ _ _); cbn; lia). lia. }
  unfold repeated_leiden_from_gammas in E. destruct (X _ _ _ _ _ _ E) as (A & B & C). specialize (A N). split; [exact A|]. split; [|cbn in C; exact C].
  split; [apply B; constructor|]. pose proof (@serial_gammas env g (weighted env g) gammas (weighted_defaulted env g)) as S. unfold repeated_leiden_from_gammas in S. rewrite E in S. cbn [snd] in S.
  rewrite A. apply collects_Ok. exact S.
Qed.
Lemma linspace_first a b n : (2 <= n)%nat -> py_get (linspace a b n) 0 = Ok a.
Proof. intros H. unfold linspace. destruct n as [|n]; [lia|]. cbn [seq map py_get nth_error]. unfold py_get. cbn [nth_error INR]. f_equal. lra. Qed.
Lemma linspace_length a b n : length (linspace a b n) = n.
Proof. unfold linspace. rewrite map_length, seq_length. reflexivity. Qed.
Lemma linspace_last a b n : (2 <= n)%nat -> py_get (linspace a b n) (length (linspace a b n) - 1) = Ok b.
Proof.
  intros H. rewrite linspace_length. unfold linspace, py_get. rewrite nth_error_map, (nth_error_nth' _ 0%nat) by (rewrite seq_length; lia). cbn [option_map]. rewrite seq_nth by lia. f_equal.
  cbn [Nat.add]. assert (INR (n - 1) <> 0) by (apply not_0_INR; lia). field. exact H0.
Qed.
Lemma linspace_same x n y : In y (linspace x x n) -> y = x.
Proof. unfold linspace. intros H. apply in_map_iff in H as (i & <- & _). unfold Rdiv. lra. Qed.

(** The sweep reports the similarity to the truth of all partitions found at the given resolutions, each once; modularity pruning
    only of those that are stable among them, and with the true number of communities only of those that are stable among the ones
    with this number; at the true resolution all runs use the estimate of the truth. *)
Theorem C99_methods : forall env G truth runs method lo hi nmis G1 x G2,
  lfr_ready env G -> (2 <= runs)%nat -> (Z.of_nat runs <= 2 ^ 53)%Z ->
  gamma_estimate (lf_est env) G (Membership truth) = (G1, Ok (Some (Fin x))) -> weights_defaulted (le_contains (lf_leiden env) G1) G1 G2 ->
  run_method env G truth runs method lo hi = Ok nmis ->
  exists parts reported, nmis = map (lf_nmi env truth) reported /\
  (method = "gamma sweep"%string -> all_found (lf_leiden env) G2 (linspace lo hi runs) parts /\ reported = parts) /\
  (method = "ground truth gamma"%string -> all_found (lf_leiden env) G2 (repeat x runs) parts /\ reported = parts) /\
  (method = "modularity pruning"%string -> all_found (lf_leiden env) G2 (linspace lo hi runs) parts /\
     stable_among (lf_est env) G2 lo hi (fun c => In c parts) reported) /\
  (method = "modularity pruning ground truth K"%string -> all_found (lf_leiden env) G2 (linspace lo hi runs) parts /\
     exists K, labelled truth K /\ stable_among (lf_est env) G2 lo hi (fun c => In c parts /\ has_communities c K) reported) /\
  In method ["gamma sweep"; "ground truth gamma"; "modularity pruning"; "modularity pruning ground truth K"]%string.
Proof.
  intros env G truth runs method lo hi nmis G1 x G2 [W1 W2 W3 W4 W5 W6 W7] Hr Hb HE HD HR. apply defaulted_weighted in HD.
  assert (EG1 : G1 = weighted_e (lf_est env) G). { rewrite gamma_estimate_graph in HE by exact W1. congruence. }
  assert (WF1 : wf_graph G1) by (rewrite EG1; apply weighted_e_wf; exact W1).
  assert (ED1 : edges G1 = edges G) by (rewrite EG1; unfold weighted_e; destruct (ee_contains _ _); reflexivity).
  assert (WF2 : wf_graph G2) by (rewrite HD; apply weighted_wf; exact WF1).
  assert (ED2 : edges G2 <> []). { rewrite HD. destruct (weighted_fields (lf_leiden env) G1) as (_ & _ & ->). rewrite ED1. exact W2. }
  assert (EV2 : vcount G2 = vcount G). { rewrite HD. destruct (weighted_fields (lf_leiden env) G1) as (-> & _ & _). rewrite EG1. unfold weighted_e. destruct (ee_contains _ _); reflexivity. }
  assert (NE : forall a b, linspace a b runs <> []). { intros a b E. apply (f_equal (@length R)) in E. rewrite linspace_length in E. cbn in E. lia. }
  unfold run_method in HR. rewrite HE in HR. cbn [bind] in HR.
  assert (PR : forall k parts reported, all_found (lf_leiden env) G2 (linspace lo hi runs) parts -> (length parts <= length (linspace lo hi runs))%nat ->
    (let! first := py_get (linspace lo hi runs) 0 in let! final := py_get (linspace lo hi runs) (length (linspace lo hi runs) - 1) in
     snd (prune_to_stable_partitions (lf_est env) G2 (Tuples (map (map Z.of_nat) parts)) first final k true)) = Ok reported ->
    stable_among (lf_est env) G2 lo hi (fun c => In c parts /\ forall K, k = Some K -> has_communities c K) reported).
  { intros k parts reported HF HL HP. rewrite linspace_first, linspace_last in HP by exact Hr. cbn [bind] in HP. rewrite linspace_length in HL.
    destruct (prune_to_stable_partitions _ _ _ _ _ _ _) as [[w g'] r] eqn:EP. cbn [snd] in HP. subst r.
    assert (CC : forall c, considered (map (map Z.of_nat) parts) k c <-> In c parts /\ forall K, k = Some K -> has_communities c K).
    { intros c. split.
      - intros (A & (t & Ht & B) & C). split; [|exact C]. apply in_map_iff in Ht as (p & <- & Hp). apply same_partition_Z in B.
        assert (canonical p) as Cp by (apply HF in Hp as (? & ? & ? & _ & _ & _ & ?); assumption). replace c with p; [exact Hp|]. apply canonical_unique; assumption.
      - intros [A C]. assert (canonical c) as Cp by (apply HF in A as (? & ? & ? & _ & _ & _ & ?); assumption). split; [exact Cp|]. split; [|exact C]. exists (map Z.of_nat c). split; [apply in_map; exact A|]. apply same_partition_Z. split; [reflexivity|]. intros i j a a' b b' Ha Ha' Hc Hc'. replace b with a by congruence. replace b' with a' by congruence. reflexivity. }
    assert (OK : prune_ok_2D (lf_est env) G2 (map (map Z.of_nat) parts)).
    { constructor; auto.
      - intros t Ht. apply in_map_iff in Ht as (p & <- & Hp). rewrite map_length. apply HF in Hp as (i & gm & m & _ & Hm & [[Hl _] _]). rewrite <- Hl. rewrite (W3 _ (mkVP RBConfiguration G2 gm) _ EV2 Hm). symmetry. exact EV2.
      - rewrite map_length. lia. }
    split; [|split].
    - apply (proj1 (C42_guarantees_transfer _ _ _ (map (map Z.of_nat) parts) _ _ _ _ _ _ _ OK ltac:(split; intros t Ht; exists t; (split; [exact Ht|split; [reflexivity|intros i j a a' b b' Ha Ha' Hc Hc'; replace b with a by congruence; replace b' with a' by congruence; reflexivity]])) EP)).
    - intros c Hc. destruct (C40_prune_sound _ _ _ _ _ _ _ _ _ _ OK EP c Hc) as (A & gm & B & C & D). split; [apply CC; exact A|]. exists gm. split; [exact B|]. split; [exact C|]. intros d Hd. apply D. apply CC. exact Hd.
    - intros c gm Hc B C D. eapply (C41_prune_complete _ _ _ _ _ _ _ _ _ _ c gm OK EP); [apply CC; exact Hc|exact B|exact C|]. intros d Hd. apply D. apply CC. exact Hd. }
  assert (WK : forall G lo hi (P Q : list nat -> Prop) l, (forall c, P c <-> Q c) -> stable_among (lf_est env) G lo hi P l -> stable_among (lf_est env) G lo hi Q l).
  { clear. intros G lo hi P Q l E [Nd [A B]]. split; [exact Nd|]. split.
    - intros c Hc. destruct (A c Hc) as (A1 & gm & A2 & A3 & A4). split; [apply E; exact A1|]. exists gm. split; [exact A2|]. split; [exact A3|]. intros d Hd. apply A4. apply E. exact Hd.
    - intros c gm Hc H1 H2 H3. apply (B c gm); auto; [apply E; exact Hc|]. intros d Hd. apply H3. apply E. exact Hd. }
  destruct (String.eqb method pruning || String.eqb method pruning_K || String.eqb method sweep)%bool eqn:EM.
  - destruct (repeated_leiden_from_gammas (lf_leiden env) G1 (linspace lo hi runs)) as [G2' [parts|e]] eqn:EL; cbn [bind] in HR; [|discriminate].
    destruct (lfr_found _ _ _ _ _ (NE lo hi) EL) as (E2 & HF & HL). rewrite <- HD in E2. subst G2'.
    destruct (reported_partitions env G2 truth method (linspace lo hi runs) parts) as [reported|e] eqn:ER; cbn [bind] in HR; [|discriminate].
    exists parts, reported. split; [congruence|]. unfold reported_partitions in ER.
    destruct (String.eqb_spec method pruning) as [Em|Em]; [|destruct (String.eqb_spec method pruning_K) as [Em'|Em']].
    + subst method. split; [discriminate|]. split; [discriminate|]. split; [|split; [discriminate|cbn; tauto]]. intros _. split; [exact HF|].
      eapply WK; [|apply (PR None parts reported HF HL ER)]. intros c. split; [intros [? _]; assumption|intros Hc; split; [exact Hc|discriminate]].
    + subst method. split; [discriminate|]. split; [discriminate|]. split; [discriminate|]. split; [|cbn; tauto]. intros _. split; [exact HF|].
      destruct (num_communities truth) as [K|e] eqn:EK; cbn [bind] in ER; [|discriminate]. exists K. split; [apply num_communities_labelled; exact EK|].
      eapply WK; [|apply (PR (Some K) parts reported HF HL ER)]. intros c. split; [intros [? H]; split; [assumption|apply H; reflexivity]|intros [Hc H]; split; [exact Hc|intros K' E; injection E as <-; exact H]].
    + cbn [orb] in EM. apply String.eqb_eq in EM. subst method. injection ER as <-. split; [intros _; split; [exact HF|reflexivity]|]. split; [discriminate|]. split; [discriminate|]. split; [discriminate|cbn; tauto].
  - destruct (String.eqb_spec method truth_gamma) as [Em|Em]; [|discriminate]. subst method.
    destruct (repeated_leiden_from_gammas (lf_leiden env) G1 (linspace x x runs)) as [G2' [parts|e]] eqn:EL; cbn [bind snd] in HR; [|discriminate].
    destruct (lfr_found _ _ _ _ _ (NE x x) EL) as (E2 & HF & HL). rewrite <- HD in E2. subst G2'. exists parts, parts. split; [congruence|]. split; [discriminate|]. split; [|split; [discriminate|split; [discriminate|cbn; tauto]]].
    intros _. split; [|reflexivity]. replace (repeat x runs) with (linspace x x runs); [exact HF|].
    apply nth_ext with (d := 0) (d' := 0); rewrite linspace_length; [rewrite repeat_length; reflexivity|]. intros i Hi. replace (nth i (repeat x runs) 0) with x by (symmetry; apply (repeat_spec runs); apply nth_In; rewrite repeat_length; exact Hi). apply (linspace_same x runs). apply nth_In. rewrite linspace_length. exact Hi.
Qed.
Print Assumptions C99_methods.

(** An estimate None is compared with a number before it is tested: a TypeError, not the ValueError meant for it.  This is the case
    for a truth with one community on every graph on which the estimate returns. *)
Theorem C99_degenerate : forall env G truth runs method lo hi,
  (forall G1, gamma_estimate (lf_est env) G (Membership truth) = (G1, Ok None) -> run_method env G truth runs method lo hi = Raise TypeError) /\
  (forall G1 e, gamma_estimate (lf_est env) G (Membership truth) = (G1, Raise e) -> run_method env G truth runs method lo hi = Raise e) /\
  (wf_graph G -> labelled truth 1 -> exists e, run_method env G truth runs method lo hi = Raise e) /\
  (forall G1 x, gamma_estimate (lf_est env) G (Membership truth) = (G1, Ok (Some x)) ->
     (~ In method ["gamma sweep"; "ground truth gamma"; "modularity pruning"; "modularity pruning ground truth K"]%string -> run_method env G truth runs method lo hi = Raise ValueError) /\
     (runs = 0%nat -> method = "gamma sweep"%string -> run_method env G truth runs method lo hi = Ok []) /\
     (runs = 0%nat -> method = "modularity pruning"%string -> run_method env G truth runs method lo hi = Raise IndexError)).
Proof.
  intros env G truth runs method lo hi.
  assert (A1 : forall G1, gamma_estimate (lf_est env) G (Membership truth) = (G1, Ok None) -> run_method env G truth runs method lo hi = Raise TypeError).
  { intros G1 E. unfold run_method. rewrite E. reflexivity. }
  assert (A2 : forall G1 e, gamma_estimate (lf_est env) G (Membership truth) = (G1, Raise e) -> run_method env G truth runs method lo hi = Raise e).
  { intros G1 e E. unfold run_method. rewrite E. reflexivity. }
  split; [exact A1|]. split; [exact A2|]. split.
  - intros W L. destruct (gamma_estimate (lf_est env) G (Membership truth)) as [G1 [o|e]] eqn:E; [|eauto]. destruct o as [y|]; [exfalso|eauto].
    rewrite gamma_estimate_graph in E by exact W. apply (f_equal snd) in E. cbn [snd] in E.
    destruct (leiden_part_with_membership (weighted_e (lf_est env) G) truth) as [q|e] eqn:EQ; cbn [bind] in E; [|discriminate].
    assert (PL : part_len q = 1%nat).
    { unfold leiden_part_with_membership in EQ. destruct (Nat.eqb _ _); [|discriminate]. injection EQ as <-. cbn [part_len]. destruct L as [_ L]. apply Nat.le_antisymm.
      - apply list_max_le. apply Forall_forall. intros v Hv. apply in_map_iff in Hv as (u & <- & Hu). apply L in Hu. lia.
      - assert (X := proj1 (list_max_le (map S truth) _) (Nat.le_refl _)). rewrite Forall_forall in X. apply X. apply in_map_iff. exists 0%nat. split; [reflexivity|]. apply L. lia. }
    unfold estimate_singlelayer_SBM_parameters in E. rewrite PL in E. change (Nat.ltb 1 1) with false in E. cbv iota in E.
    destruct (weights (weighted_e (lf_est env) G)) as [ws|]; cbn [bind] in E; [|discriminate]. destruct (wedges _) as [E0|e]; cbn [bind] in E; [|discriminate].
    destruct (mapM _ E0) as [inner|e]; cbn [bind] in E; [|discriminate]. destruct (foldM _ E0 _) as [kappa|e]; cbn [bind] in E; [|discriminate].
    destruct (py_div (sum_squares kappa) _) as [a|e]; cbn [bind] in E; [|discriminate]. destruct (py_div _ a) as [b|e]; cbn [bind] in E; [|discriminate].
    unfold gamma_estimate_from_parameters in E. destruct (Req_EM_T b 0); [discriminate|]. destruct (Req_EM_T 0 0); [discriminate|contradiction].
  - intros G1 x E. unfold run_method. rewrite E. cbn [bind]. split; [|split].
    + intros N. destruct (String.eqb_spec method pruning) as [->|_]; [exfalso; apply N; cbn; tauto|]. destruct (String.eqb_spec method pruning_K) as [->|_]; [exfalso; apply N; cbn; tauto|].
      destruct (String.eqb_spec method sweep) as [->|_]; [exfalso; apply N; cbn; tauto|]. destruct (String.eqb_spec method truth_gamma) as [->|_]; [exfalso; apply N; cbn; tauto|]. reflexivity.
    + intros -> ->. reflexivity.
    + intros -> ->. reflexivity.
Qed.
Print Assumptions C99_degenerate.

(** ** The figure *)

Lemma foldM_plot d : forall p, (forall mu lists, In (mu, lists) d -> lists <> []) ->
  exists q, foldM plot_mu d p = Ok q /\
    pn_fractions q = pn_fractions p ++ map (fun item => INR (length (filter (fun l : list R => Nat.ltb 0 (length l)) (snd item))) / INR (length (snd item))) d /\
    pn_points q = pn_points p ++ map (fun item => let data := concat (snd item) in
      (fst item, percentile data (1 / 2), (percentile data (1 / 2) - percentile data (1 / 4), percentile data (3 / 4) - percentile data (1 / 2))))
      (filter (fun item : R * list (list R) => match concat (snd item) with [] => false | _ => true end) d).
Proof.
  induction d as [|[mu lists] d IH]; intros p H; cbn [foldM].
  - exists p. cbn [map filter]. rewrite !app_nil_r. auto.
  - unfold plot_mu at 1. assert (NL : INR (length lists) <> 0). { apply not_0_INR. pose proof (H mu lists (or_introl eq_refl)). destruct lists; [contradiction|cbn; lia]. }
    rewrite py_div_ok by exact NL. cbn [bind]. match goal with |- context [foldM plot_mu d ?p'] => destruct (IH p') as (q & E & F1 & F2) end; [intros m l Hm; apply (H m l); right; exact Hm|].
    exists q. split; [exact E|]. rewrite F1, F2. cbn [pn_points pn_fractions map filter fst snd]. split; [rewrite <- app_assoc; reflexivity|].
    destruct (concat lists) as [|x data] eqn:EC; [reflexivity|]. cbn [map fst snd]. rewrite EC, <- app_assoc. reflexivity.
Qed.
(** From similarities between 0 and 1: one fraction of graphs with data for every mu, between 0 and 1; a point for exactly those mus
    with data, in order, at the median of all data for this mu, with error bars that are not negative and stay between 0 and 1.  A dict
    of an experiment without graphs is a ZeroDivisionError. *)
Lemma Forall2_map_r' {A B} (R : A -> B -> Prop) (f : A -> B) l : (forall x, In x l -> R x (f x)) -> Forall2 R l (map f l).
Proof. induction l as [|x l IH]; intros H; cbn [map]; constructor; [apply H; left; reflexivity|apply IH; intros y Hy; apply H; right; exact Hy]. Qed.
Theorem C99_panel : forall d, (forall mu lists, In (mu, lists) d -> lists <> [] /\ forall l x, In l lists -> In x l -> 0 <= x <= 1) ->
  exists p, panel_of d = Ok p /\
  Forall2 (fun item f => f = INR (length (filter (fun l => negb (Nat.eqb (length l) 0)) (snd item))) / INR (length (snd item)) /\ 0 <= f <= 1) d (pn_fractions p) /\
  Forall2 (fun item pt => let '(mu, med, (down, up)) := pt in
      mu = fst item /\ median_of (concat (snd item)) med /\ 0 <= down /\ 0 <= up /\ 0 <= med - down /\ med + up <= 1 /\
      quantile (concat (snd item)) (1 / 4) (med - down) /\ quantile (concat (snd item)) (3 / 4) (med + up))
    (filter (fun item => negb (Nat.eqb (length (concat (snd item))) 0)) d) (pn_points p).
Proof.
  intros d H. destruct (foldM_plot d (mkPanel [] []) (fun mu lists Hi => proj1 (H mu lists Hi))) as (p & E & F1 & F2). exists p. split; [exact E|]. cbn [pn_fractions pn_points app] in F1, F2. rewrite F1, F2. split.
  - apply Forall2_map_r'. intros [mu lists] Hi. cbn [snd]. destruct (H mu lists Hi) as [N _]. assert (EF : filter (fun l : list R => Nat.ltb 0 (length l)) lists = filter (fun l => negb (Nat.eqb (length l) 0)) lists) by (apply filter_ext; intros [|]; reflexivity).
    rewrite EF. split; [reflexivity|]. assert (LL : (length (filter (fun l : list R => negb (Nat.eqb (length l) 0)) lists) <= length lists)%nat) by (apply filter_short).
    assert (LP : 0 < INR (length lists)) by (apply lt_0_INR; destruct lists; [contradiction|cbn; lia]). apply le_INR in LL. pose proof (pos_INR (length (filter (fun l : list R => negb (Nat.eqb (length l) 0)) lists))). split.
    + apply Rmult_le_pos; [lra|]. left. apply Rinv_0_lt_compat. exact LP.
    + apply (Rmult_le_reg_r (INR (length lists))); [exact LP|]. unfold Rdiv. rewrite Rmult_assoc, Rinv_l by lra. lra.
  - assert (EF : filter (fun item : R * list (list R) => match concat (snd item) with [] => false | _ => true end) d = filter (fun item => negb (Nat.eqb (length (concat (snd item))) 0)) d) by (apply filter_ext; intros [mu l]; cbn [snd]; destruct (concat l); reflexivity).
    rewrite EF. apply Forall2_map_r'. intros [mu lists] Hi. apply filter_In in Hi as [Hi Hn]. cbn [fst snd] in *. destruct (H mu lists Hi) as [_ HR]. set (data := concat lists) in *.
    assert (ND : data <> []) by (intros X; rewrite X in Hn; discriminate). assert (RG : forall x, In x data -> 0 <= x <= 1). { intros x Hx. apply in_concat in Hx as (l & Hl & Hx). eapply HR; eauto. }
    cbv zeta. pose proof (@percentile_mono data (1 / 4) (1 / 2) ND ltac:(lra) ltac:(lra)). pose proof (@percentile_mono data (1 / 2) (3 / 4) ND ltac:(lra) ltac:(lra)).
    pose proof (@percentile_range data (1 / 4) 0 1 ND ltac:(lra) RG). pose proof (@percentile_range data (3 / 4) 0 1 ND ltac:(lra) RG).
    split; [reflexivity|]. split; [apply percentile_median; exact ND|]. split; [lra|]. split; [lra|]. split; [lra|]. split; [lra|]. split.
    + replace (percentile data (1 / 2) - (percentile data (1 / 2) - percentile data (1 / 4))) with (percentile data (1 / 4)) by ring. apply percentile_quantile; [exact ND|lra].
    + replace (percentile data (1 / 2) + (percentile data (3 / 4) - percentile data (1 / 2))) with (percentile data (3 / 4)) by ring. apply percentile_quantile; [exact ND|lra].
Qed.
Print Assumptions C99_panel.
Theorem C99_panel_no_graphs : forall mu d, panel_of ((mu, []) :: d) = Raise ZeroDivisionError.
Proof. intros mu d. unfold panel_of. cbn [foldM plot_mu concat filter length INR]. unfold py_div. destruct (Req_EM_T 0 0); [reflexivity|contradiction]. Qed.
Print Assumptions C99_panel_no_graphs.

(** The four panels fill the four places of the two by two figure. *)
Theorem C99_places : forall row col, (0 <= row <= 1)%Z -> (0 <= col <= 1)%Z -> exists i, (i < 4)%nat /\ panel_position i = (row, col) /\ forall j, (j < 4)%nat -> panel_position j = (row, col) -> j = i.
Proof.
  intros r c Hr Hc. assert (X : forall a b, (a < 4)%nat -> (b < 4)%nat -> panel_position a = panel_position b -> a = b).
  { intros a b Ha Hb. do 4 (destruct a as [|a]; [do 4 (destruct b as [|b]; [try reflexivity; discriminate|]); lia|]). lia. }
  assert (Y : exists i, (i < 4)%nat /\ panel_position i = (r, c)).
  { assert (r = 0 \/ r = 1)%Z as [-> | ->] by lia; assert (c = 0 \/ c = 1)%Z as [-> | ->] by lia; [exists 1%nat|exists 3%nat|exists 0%nat|exists 2%nat]; split; (lia || reflexivity). }
  destruct Y as (i & Hi & E). exists i. split; [exact Hi|]. split; [exact E|]. intros j Hj Ej. apply X; auto. congruence.
Qed.
Print Assumptions C99_places.

(** ** Examples *)

(** Two triangles joined by an edge, with the triangles as communities. *)
Definition nx_barbell : nx_graph := mkNx 6 [(0, 1); (1, 2); (0, 2); (3, 4); (4, 5); (3, 5); (2, 3)]%nat (fun v => if Nat.ltb v 3 then [0; 1; 2] else [3; 4; 5])%nat true.
Example C99_benchmark_example : nx_ok nx_barbell /\ exists g, LFR_benchmark_igraph (fun l => l) (Some nx_barbell) = Ok (Some (g, [1; 1; 1; 0; 0; 0]%nat)).
Proof.
  split; [|eexists; vm_compute; reflexivity]. split.
  - intros u v H. cbn in H. repeat (destruct H as [H|H]; [injection H as <- <-; cbn; lia|]). destruct H.
  - intros v Hv. cbn in Hv. do 6 (destruct v as [|v]; [cbn; tauto|]). lia.
  - intros u v Hv Hu. cbn in Hv. do 6 (destruct v as [|v]; [cbn in Hu; (destruct Hu as [<-|[<-|[<-|[]]]]; (split; [cbn; lia|reflexivity]))|]). lia.
  - intros _ _ v Hv. cbn in Hv. do 6 (destruct v as [|v]; [first [exists 0%nat; cbn; tauto|exists 1%nat; cbn; tauto|exists 3%nat; cbn; tauto|exists 4%nat; cbn; tauto]|]). lia.
Qed.
(** Three of the methods with one environment (C98_example has all four). *)
Example C99_methods_example : exists env x, lfr_ready env barbell /\ gamma_estimate (lf_est env) barbell (Membership barbell_c) = (barbell, Ok (Some (Fin x))) /\
  weights_defaulted (le_contains (lf_leiden env) barbell) barbell barbell /\ forall method, In method ["gamma sweep"; "ground truth gamma"; "modularity pruning"]%string ->
  exists r, run_method env barbell barbell_c 2 method (1 / 2) 2 = Ok r.
Proof.
  destruct (C40_realisable barbell barbell_found (1 / 2) 2 None true (fun _ => true) (fun _ x => x) (fun _ => true)) as (env & Hok & Hc & _ & _ & H).
  - apply barbell_wf.
  - reflexivity.
  - discriminate.
  - intros t [<-|[]]. reflexivity.
  - cbn. lia.
  - lra.
  - destruct H as (result & HP). { intros c Hcc. apply barbell_found_considered in Hcc as ->. destruct (barbell_estimate env) as (x & Hx & _); [rewrite Hc; reflexivity|]. eauto. }
    set (e := mkLfr barbell_leiden env (fun _ _ => 1) (fun g _ => (g, Ok [barbell_c]))). destruct (barbell_estimate env) as (x & Hx & _); [rewrite Hc; reflexivity|]. exists e, x. split; [|split; [|split]].
    + destruct Hok as [O1 O2 O3 O4 O5 O6 O7 O8]. constructor; auto. intros k vp m Hm E. cbn in E. injection E as <-. reflexivity.
    + cbn [lf_est e]. rewrite gamma_estimate_graph in * by apply barbell_wf. unfold weighted_e in *. rewrite Hc in *. cbn [snd] in Hx. rewrite Hx. reflexivity.
    + reflexivity.
    + destruct (barbell_methods env 2 ltac:(lia) Hc (fun _ _ => 1) (fun g _ => (g, Ok [barbell_c]))) as (B1 & B2 & B3 & _). fold e in B1, B2, B3. intros m [<-|[<-|[<-|[]]]]; [exact B1|exact B2|]. apply (B3 result eq_refl HP).
Qed.
Example C99_degenerate_example : forall env, ee_contains (lf_est env) barbell = true -> run_method env barbell [0; 0; 0; 0; 0; 0]%nat 2 "gamma sweep" (1 / 2) 2 = Raise TypeError.
Proof.
  intros env H. apply (proj1 (C99_degenerate env barbell [0; 0; 0; 0; 0; 0]%nat 2 "gamma sweep" (1 / 2) 2) barbell). rewrite gamma_estimate_graph by apply barbell_wf. unfold weighted_e. rewrite H. f_equal.
  change (leiden_part_with_membership barbell [0; 0; 0; 0; 0; 0]%nat) with (Ok (mkPart 1 [0; 0; 0; 0; 0; 0]%nat)). cbn [bind].
  assert (E : exists a, estimate_singlelayer_SBM_parameters barbell (mkPart 1 [0; 0; 0; 0; 0; 0]%nat) None = Ok (a, 0)).
  { assert (K : foldM (add_strength [0; 0; 0; 0; 0; 0]%nat) (combine (edges barbell) [1; 1; 2; 1; 1; 1; 1]) (repeat 0 1) = Ok [16]).
    { cbn. repeat (f_equal; try lra). }
    unfold estimate_singlelayer_SBM_parameters. cbn [weights barbell bind wedges part_membership part_len].
    change (combine [(0%nat, 1%nat); (1%nat, 2%nat); (0%nat, 2%nat); (3%nat, 4%nat); (4%nat, 5%nat); (3%nat, 5%nat); (2%nat, 3%nat)] [1; 1; 2; 1; 1; 1; 1]) with (combine (edges barbell) [1; 1; 2; 1; 1; 1; 1]).
    cbn [mapM internal_weight same_label py_get nth_error bind fst snd edges barbell combine Nat.eqb] in *. rewrite K. cbn [bind]. unfold sum_squares. cbn [map]. rewrite ?rsum_cons, ?rsum_nil.
    unfold py_div. match goal with |- context [Req_EM_T ?x 0] => destruct (Req_EM_T x 0) as [Z|_]; [exfalso; lra|] end. cbn [bind].
    match goal with |- context [Req_EM_T ?x 0] => destruct (Req_EM_T x 0) as [Z|_]; [exfalso; lra|] end. cbn [bind Nat.ltb Nat.leb]. eauto. }
  destruct E as (a & ->). cbn [bind]. unfold gamma_estimate_from_parameters. destruct (Req_EM_T a 0); [reflexivity|]. destruct (Req_EM_T 0 0); [reflexivity|contradiction].
Qed.
Example C99_panel_example : exists p, panel_of [(1 / 10, [[1]; [1 / 2; 1 / 2]]); (1 / 5, [[]; []])] = Ok p /\ length (pn_points p) = 1%nat /\ length (pn_fractions p) = 2%nat.
Proof.
  destruct (C99_panel [(1 / 10, [[1]; [1 / 2; 1 / 2]]); (1 / 5, [[]; []])]) as (p & E & F1 & F2).
  - intros mu lists [X|[X|[]]]; injection X as <- <-; (split; [discriminate|]); intros l x Hl Hx; cbn in Hl; repeat destruct Hl as [<-|Hl]; cbn in Hx; repeat destruct Hx as [<-|Hx]; try lra; try destruct Hx; destruct Hl.
  - exists p. split; [exact E|]. assert (LE : forall A B (R : A -> B -> Prop) l l', Forall2 R l l' -> length l = length l') by (induction 1; cbn; congruence). apply LE in F1, F2. cbn in F1, F2. split; congruence.
Qed.
