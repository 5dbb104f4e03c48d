(** C104: what the experiments on synthetic networks store about partitions and domains. *)
From Coq Require Import String Permutation.
From Verif Require Import PyBase PyGraph M_partition M_champ M_leiden M_estimation_utils M_estimation M_checks M_generators M_plotting M_lfr M_staged Spec Spec_graph Spec_leiden Spec_sbm Spec_multisbm Spec_check Spec_valid Spec_champ Spec_generators Spec_iteration Spec_staged L_base L_canon L_sbm2 L_multisbm L_leiden L_omega L_multileiden L_iteration L_generators L_generators2 L_generators3 L_parallel L_prune L_staged
  Properties_champ Properties_leiden Properties_sbm Properties_multisbm Properties_iteration Properties_generators Properties_staged Properties_movements.
Open Scope list_scope.
Open Scope R_scope.

(** ** Choosing partitions *)
Lemma chosen_none est parts sel : (forall l, Permutation (ee_set_order est l) l) -> with_communities est None parts = Ok sel -> NoDup sel /\ forall c, In c sel <-> chosen parts None c.
Proof.
  intros Hp H. cbn in H. injection H as <-. split; [apply (Permutation_NoDup (Permutation_sym (Hp _))), py_set_nodup|]. intros c. unfold chosen. split.
  - intros Hc. split; [|exact I]. apply py_set_in. apply (Permutation_in _ (Hp _) Hc).
  - intros [Hc _]. apply (Permutation_in _ (Permutation_sym (Hp _))). apply py_set_in. exact Hc.
Qed.
Lemma has_unique (c : list nat) k k' : has_communities c k -> has_communities c k' -> k = k'.
Proof.
  intros (l & N & L & H) (l' & N' & L' & H'). rewrite <- L, <- L'. apply Permutation_length. apply NoDup_Permutation; auto. intros x. rewrite H, H'. tauto.
Qed.
Lemma chosen_some est k parts sel : (forall l, Permutation (ee_set_order est l) l) -> with_communities est (Some k) parts = Ok sel -> NoDup sel /\ forall c, In c sel <-> chosen parts (Some k) c.
Proof.
  intros Hp H. unfold with_communities in H. apply bind_ok in H as (ks & Hks & H). injection H as <-. split; [apply (Permutation_NoDup (Permutation_sym (Hp _))), py_set_nodup|]. intros c. unfold chosen.
  assert (E : In c (ee_set_order est (py_set (map snd (filter (fun x => Nat.eqb (fst x) k) (combine ks parts))))) <-> exists n, In (n, c) (combine ks parts) /\ n = k).
  { split.
    - intros Hc. apply (Permutation_in _ (Hp _)), py_set_in, in_map_iff in Hc. destruct Hc as ([n c'] & <- & Hf). apply filter_In in Hf as [Hf1 Hf2]. exists n. split; [exact Hf1|]. apply Nat.eqb_eq. exact Hf2.
    - intros (n & Hc & ->). apply (Permutation_in _ (Permutation_sym (Hp _))), py_set_in, in_map_iff. exists (k, c). split; [reflexivity|]. apply filter_In. split; [exact Hc|apply Nat.eqb_refl]. }
  rewrite E. clear E.
  assert (P : forall parts ks, mapM num_communities parts = Ok ks -> ((exists n, In (n, c) (combine ks parts) /\ n = k) <-> In c parts /\ has_communities c k)).
  { clear. induction parts as [|p parts IH]; intros ks H; cbn [mapM] in H.
    - injection H as <-. split; [intros (n & [] & _)|intros [[] _]].
    - apply bind_ok in H as (n & Hn & H). apply bind_ok in H as (ns & Hns & H). injection H as <-. apply num_communities_has in Hn. cbn [combine]. split.
      + intros (m & [Hm|Hm] & ->); [injection Hm as -> ->; split; [left; reflexivity|exact Hn]|]. destruct (proj1 (IH ns Hns) (ex_intro _ k (conj Hm eq_refl))) as [A B]. split; [right; exact A|exact B].
      + intros [[->|Hc] Hk]; [exists n; split; [left; reflexivity|eapply has_unique; eauto]|]. destruct (proj2 (IH ns Hns) (conj Hc Hk)) as (m & A & B). exists m. split; [right; exact A|exact B]. }
  apply P. exact Hks.
Qed.
Lemma chosen_set est restrict parts sel : (forall l, Permutation (ee_set_order est l) l) -> with_communities est restrict parts = Ok sel -> NoDup sel /\ forall c, In c sel <-> chosen parts restrict c.
Proof. destruct restrict; [apply chosen_some|apply chosen_none]. Qed.

Lemma forall2_nodup {A B} (parts : list A) (idx : list nat) (domains : list (B * A)) : NoDup parts -> NoDup idx -> Forall2 (fun i r => nth_error parts i = Some (snd r)) idx domains -> NoDup (map snd domains).
Proof.
  intros N NI F. induction F as [|i r idx domains E F IH]; [constructor|]. inversion NI as [|? ? Ni NI']; subst. cbn [map]. constructor; [|auto].
  intros Hin. apply in_map_iff in Hin as (r' & Er & Hr). apply Ni.
  assert (X : exists i', In i' idx /\ nth_error parts i' = Some (snd r')). { clear - F Hr. induction F as [|j s idx domains E F IH]; [destruct Hr|]. destruct Hr as [->|Hr]; [exists j; split; [left; reflexivity|exact E]|]. destruct (IH Hr) as (i' & X1 & X2). exists i'. split; [right; exact X1|exact X2]. }
  destruct X as (i' & Hi' & E'). rewrite Er in E'. assert (i = i') as ->; [|exact Hi']. apply (proj1 (NoDup_nth_error parts) N); [apply nth_error_Some; congruence|congruence].
Qed.
Lemma champ_optimal est restrict g gi lv parts sel gf of domains : (forall l, Permutation (ee_set_order est l) l) ->
  with_communities est restrict parts = Ok sel -> champ_ok_3D (ee_champ est) g gi lv sel -> CHAMP_3D (ee_champ est) g gi lv sel 0 gf 0 of = Ok domains ->
  optimal_domains g gi lv parts restrict gf of domains.
Proof.
  intros Hp Hs Hok HC. destruct (chosen_set est restrict parts sel Hp Hs) as [ND Hin]. constructor.
  - intros poly c Hd. destruct (C24_domains_are_optimal _ _ _ _ _ _ _ _ _ _ Hok HC poly c Hd) as (A & B & C & D). split; [apply Hin; exact A|]. split; [exact B|]. split; [exact C|]. intros ga om c' Hpoly Hc'. apply D; [exact Hpoly|apply Hin; exact Hc'].
  - destruct (C25_each_input_at_most_once _ _ _ _ _ _ _ _ _ _ Hok HC) as (idx & NI & F). eapply forall2_nodup; eauto.
  - intros (c & Hc) ga om Hg Ho. assert (NE : sel <> []) by (intros E; apply Hin in Hc; rewrite E in Hc; destruct Hc). exact (C25_domains_cover _ _ _ _ _ _ _ _ _ _ ga om Hok NE HC Hg Ho).
Qed.

(** The domains with their estimates: the domains of the chosen partitions, each with the estimate of its partition. *)
Theorem C104_domains : forall est restrict x parts l,
  (forall l, Permutation (ee_set_order est l) l) ->
  (forall sel, NoDup sel -> (forall c, In c sel <-> chosen parts restrict c) -> champ_ok_3D (ee_champ est) (fst (fst (fst x))) (snd (fst (fst x))) (snd (fst x)) sel) ->
  domains_with_estimates est restrict x parts = Ok l -> estimated_domains est x parts restrict l.
Proof.
  intros est restrict [[[g gi] lv] truth] parts l Hp Hok H. cbn [fst snd] in Hok. unfold domains_with_estimates in H. unfold estimated_domains. apply bind_ok in H as (sel & Hs & H). apply bind_ok in H as (domains & HC & H).
  destruct (chosen_set est restrict parts sel Hp Hs) as [ND Hin]. exists domains. split; [eapply champ_optimal; eauto|].
  destruct (domains_to_gamma_omega_estimates est g gi lv domains "temporal") as [g' r] eqn:E. cbn [snd] in H. subst r. apply domains_estimates in E. exact E.
Qed.
Print Assumptions C104_domains.

(** ** Both scripts *)

(** The stored partitions: the canonical forms of what Leiden answers at the grid's points, gamma in the outer loop, each once. *)
Lemma stored_parts env r g gi lv parts ws layers : pool_works env (rg_gammas r) (rg_omegas r) -> wf_graph g -> edges g <> [] -> length lv = vcount g -> lv <> [] ->
  let g' := weighted (sg_leiden env) g in let gi' := weighted (sg_leiden env) gi in
  weights g' = Some ws -> layer_graphs g' ws lv layers ->
  leiden_on_grid env g gi lv (rg_gammas r) (rg_omegas r) = Ok parts ->
  NoDup parts /\ forall t, In t parts <-> exists i p m, nth_error (list_prod (rg_gammas r) (rg_omegas r)) i = Some p /\
    le_multiplex (sg_leiden env) i (map (fun gt => (mkVP RBConfiguration gt (fst p), 1)) layers ++ [(mkVP CPM gi' 0, snd p)]) = Ok m /\ canonical_form_of m t.
Proof.
  intros [P1 P2 P3] W E L NE g' gi' Hw HL H.
  assert (D : weights_defaulted (le_contains (sg_leiden env) g) g g') by apply weighted_defaulted. assert (Di : weights_defaulted (le_contains (sg_leiden env) gi) gi gi') by apply weighted_defaulted.
  pose proof (C06_parallel_grid (sg_leiden env) (sg_cache env) (sg_cpus env) (sg_order env) g gi g' gi' ws lv layers (rg_gammas r) (rg_omegas r) true P1 P2 W L NE D Di Hw HL) as C.
  unfold leiden_on_grid in H. destruct (repeated_parallel_leiden_from_gammas_omegas _ _ _ _ _ _ _ _ _ _) as [log res]. cbn [snd] in H. subst res.
  destruct C as [_ [C1 C2]].
  { intros j v Hin. eapply C06_fresh_copies; [|intros n es d l r0 e; apply P3|exact Hin]. assert (Eg : edges g' = edges g) by (destruct (le_contains (sg_leiden env) g) eqn:X; [rewrite D; reflexivity|destruct D as (_ & _ & -> & _); reflexivity]). rewrite Eg. exact E. }
  assert (A : forall i x, nth_error (list_prod (rg_gammas r) (rg_omegas r)) i = Some x -> exists m, le_multiplex (sg_leiden env) i (map (fun gt => (mkVP RBConfiguration gt (fst x), 1)) layers ++ [(mkVP CPM gi' 0, snd x)]) = Ok m).
  { intros i x Hx. destruct (le_multiplex _ _ _) as [m|e] eqn:M; [eauto|]. exfalso. destruct C2 as (i' & x' & e' & _ & _ & X); [exists i, x, e; auto|discriminate]. }
  destruct (C1 A) as (S & ES & ND & Hin). injection ES as <-. auto.
Qed.

Lemma synthetic_unweighted e ds n T K eta pi po dg dom fuel g gi lv truth : synthetic_loop e ds n T K eta pi po dg dom 0 fuel = Some (Ok (g, gi, lv, truth)) -> weights gi = None.
Proof.
  intros H. destruct (synthetic_loop_returns e ds n T K eta pi po dg dom fuel 0 H) as (j & g0 & gi0 & lv0 & comm0 & g' & ga & om & Hj & E & HA & _).
  injection E as -> -> -> ->. unfold synthetic_attempt in HA. destruct (equal_counts _); [|discriminate]. injection HA as <- <- <- <-. reflexivity.
Qed.
Lemma regime_network (ok : stage_env -> Prop) r d : consistent ok r d -> synthetic r ->
  forall x, d (rg_graph r) = Stored (Network x) -> exists g gi lv truth, x = (g, gi, lv, truth) /\ weights g = Some (repeat 1 (length (edges g))) /\
    wf_graph g /\ wf_graph gi /\ length lv = vcount g /\ lv <> [] /\ vcount gi = vcount g /\ edges g <> [] /\ edges_within_layers g lv /\
    (forall l, In l lv -> exists u v, In (u, v) (edges g) /\ nth u lv 0%nat = l).
Proof.
  intros C (n' & T & K & eta & pi & po & dg & dom & Hn & HT & HK & HD & HS) [[[g gi] lv] truth] Hg. destruct (co_graph _ _ _ C _ Hg) as (e & x & _ & Ex & HG). injection Ex as <-. apply HS in HG. clear HS. set (fuel := sg_attempts e) in *.
  pose proof (C92_synthetic_returned _ _ n' T K eta pi po dg dom fuel g gi lv truth Hn HT HK HD HG) as Y. cbv zeta in Y. destruct Y as (k & ga & om & _ & B & TC & W & V & _).
  unfold valid_multilayer, structural_rules in V. pose proof (Forall_inv V) as V1. apply Forall_inv_tail in V. apply Forall_inv_tail in V. pose proof (Forall_inv V) as V3. apply Forall_inv_tail in V. pose proof (Forall_inv V) as V4. apply Forall_inv_tail in V. pose proof (Forall_inv V) as V5.
  apply Forall_inv_tail in V. pose proof (Forall_inv V) as V6. cbn [fst] in V1, V3, V4, V5, V6. clear V.
  destruct B as (B1 & B2 & B3 & _ & _ & _ & _ & _ & B). cbn [edges] in B.
  assert (Hlay : forall l, In l lv -> exists u v, In (u, v) (edges g) /\ nth u lv 0%nat = l).
  { intros l Hl. assert (P : 0 < weight_in (weighted_edges g (repeat 1 (length (edges g)))) lv l).
    { apply V5. apply in_map_iff. exists l. split; [reflexivity|]. apply in_seq. split; [lia|]. assert (F : Forall (fun k => (k <= list_max lv)%nat) lv) by (apply list_max_le; lia). rewrite Forall_forall in F. specialize (F l Hl). lia. }
    apply unit_weight_pos in P. exact P. }
  exists g, gi, lv, truth. split; [reflexivity|]. split; [exact W|]. split; [|split].
  - split; [intros u v Hin; apply B in Hin; lia|]. intros ws Hw. rewrite W in Hw. injection Hw as <-. rewrite repeat_length. reflexivity.
  - destruct TC as (_ & _ & TC). split; [|].
    + intros u v Hin. apply TC in Hin. lia.
    + intros ws Hw. rewrite (synthetic_unweighted _ _ _ _ _ _ _ _ _ _ _ _ _ _ _ HG) in Hw. discriminate.
  - split; [exact V4|]. split; [intros ->; cbn in B1; nia|]. split; [exact V3|]. split; [|split; [exact V6|exact Hlay]].
    intros E. assert (N : lv <> []) by (intros ->; cbn in B1; nia). destruct lv as [|l lv]; [congruence|]. destruct (Hlay l (or_introl eq_refl)) as (u & v & Hin & _). rewrite E in Hin. destruct Hin.
Qed.

(** After any history of runs the file of partitions holds the partitions found on the stored network. *)
Theorem C104_partitions : forall (ok : stage_env -> Prop) rs d r v, NoDup (flat_map names rs) -> history (regime_run ok rs) empty_directory d ->
  In r rs -> synthetic r -> (forall env, ok env -> pool_works env (rg_gammas r) (rg_omegas r)) -> d (rg_louvain r) = Stored v ->
  exists env x parts, ok env /\ d (rg_graph r) = Stored (Network x) /\ v = Parts parts /\ partitions_found env x (rg_gammas r) (rg_omegas r) parts.
Proof.
  intros ok rs d r v ND0 H Hr HS Hpool Hv. pose proof (C102_consistent ok rs empty_directory d r ND0 (fun s _ => consistent_empty ok s) H Hr) as C. destruct (co_louvain _ _ _ C _ Hv) as (env & x & parts & Hok & -> & Hg & Hl).
  destruct (regime_network ok r d C HS x Hg) as (g & gi & lv & truth & -> & W & Wg & Wi & L & NE & _ & EN & _).
  exists env, (g, gi, lv, truth), parts. split; [exact Hok|]. split; [exact Hg|]. split; [reflexivity|]. cbn [fst snd] in Hl.
  destruct (C09_split_by_layer g _ lv Wg W L NE) as (layers & _ & HL & _).
  assert (Eg : weighted (sg_leiden env) g = g). { unfold weighted. destruct (le_contains (sg_leiden env) g); [reflexivity|]. destruct g as [a b c w]. cbn in W |- *. unfold ecount. cbn. rewrite W. reflexivity. }
  exists (repeat 1 (length (edges g))), layers, (weighted (sg_leiden env) gi). split; [exact W|]. split; [exact HL|]. split; [apply weighted_defaulted|].
  pose proof (stored_parts env r g gi lv parts (repeat 1 (length (edges g))) layers (Hpool env Hok) Wg EN L NE) as SP. cbv zeta in SP. rewrite Eg in SP. exact (SP W HL Hl).
Qed.
Print Assumptions C104_partitions.

Lemma found_count env x gammas omegas parts : partitions_found env x gammas omegas parts -> (length parts <= length gammas * length omegas)%nat.
Proof.
  destruct x as [[[g gi] lv] truth]. intros (ws & layers & gi' & _ & _ & _ & ND & H). rewrite <- prod_length.
  set (f := fun it : nat * (R * R) => match le_multiplex (sg_leiden env) (fst it) (map (fun gt => (mkVP RBConfiguration gt (fst (snd it)), 1)) layers ++ [(mkVP CPM gi' 0, snd (snd it))]) with
    | Ok m => match sorted_tuple (map Z.of_nat m) with Ok t => t | Raise _ => [] end | Raise _ => [] end).
  replace (length (list_prod gammas omegas)) with (length (map f (combine (seq 0 (length (list_prod gammas omegas))) (list_prod gammas omegas)))).
  2:{ rewrite map_length, combine_length, seq_length. lia. }
  apply NoDup_incl_length; [exact ND|]. intros t Ht. apply H in Ht as (i & p & m & Hi & Hm & Hc). apply in_map_iff. exists (i, p). split.
  - unfold f. cbn [fst snd]. rewrite Hm. apply sorted_tuple_form in Hc. rewrite Hc. reflexivity.
  - clear - Hi. revert i Hi. generalize (list_prod gammas omegas) as l. intros l. assert (G : forall s i, nth_error l i = Some p -> In ((s + i)%nat, p) (combine (seq s (length l)) l)).
    { induction l as [|y l IH]; intros s [|i] E; try discriminate; cbn [length seq combine]; [left; cbn in E; injection E as ->; f_equal; lia|]. right. rewrite <- Nat.add_succ_comm. apply IH. exact E. }
    intros i Hi. apply (G 0%nat i Hi).
Qed.
Lemma found_lengths env r g gi lv truth parts : (forall i objs m o, le_multiplex (sg_leiden env) i objs = Ok m -> In o objs -> length m = vcount (vp_graph (fst o))) -> vcount gi = vcount g ->
  partitions_found env (g, gi, lv, truth) (rg_gammas r) (rg_omegas r) parts -> forall c, In c parts -> length c = vcount g.
Proof.
  intros HL Hs (ws & layers & gi' & _ & _ & D & _ & H) c Hc. apply H in Hc as (i & p & m & _ & Hm & [[Hlen _] _]). rewrite <- Hlen, <- Hs.
  rewrite (HL i _ m (mkVP CPM gi' 0, snd p) Hm) by (apply in_app_iff; right; left; reflexivity). cbn [fst vp_graph]. destruct (le_contains (sg_leiden env) gi) eqn:X; [rewrite D; reflexivity|destruct D as (-> & _); reflexivity].
Qed.

(** The two files of domains: those of all the stored partitions, and those of the stored partitions with two communities, each with the estimate of its
    partition on the stored network. *)
Theorem C104_stored_domains : forall (ok : stage_env -> Prop) rs d r n restrict v, NoDup (flat_map names rs) -> history (regime_run ok rs) empty_directory d ->
  In r rs -> synthetic r -> (Z.of_nat (length (rg_gammas r) * length (rg_omegas r)) <= 2 ^ 53)%Z -> (forall env, ok env -> routines_work env r) ->
  n = rg_domains r /\ restrict = None \/ n = rg_restricted r /\ restrict = Some 2%nat -> d n = Stored v ->
  exists env x parts l, ok env /\ d (rg_graph r) = Stored (Network x) /\ d (rg_louvain r) = Stored (Parts parts) /\ v = Estimates l /\
    estimated_domains (sg_est env n) x parts restrict l.
Proof.
  intros ok rs d r n restrict v ND0 H Hr HS Hsize HR Hn Hv. pose proof (C102_consistent ok rs empty_directory d r ND0 (fun s _ => consistent_empty ok s) H Hr) as C.
  assert (X : exists env x parts l, ok env /\ v = Estimates l /\ d (rg_graph r) = Stored (Network x) /\ d (rg_louvain r) = Stored (Parts parts) /\ domains_with_estimates (sg_est env n) restrict x parts = Ok l).
  { destruct Hn as [[-> ->]|[-> ->]]; [apply (co_domains _ _ _ C _ Hv)|apply (co_restricted _ _ _ C _ Hv)]. }
  destruct X as (env & x & parts & l & Hok & -> & Hg & Hp & Hd). exists env, x, parts, l. split; [exact Hok|]. split; [exact Hg|]. split; [exact Hp|]. split; [reflexivity|].
  destruct (C104_partitions ok rs d r _ ND0 H Hr HS (fun e He => rw_pool _ _ (HR e He)) Hp) as (e & x' & parts' & Hoke & Hg' & Ep & PF). rewrite Hg in Hg'. injection Hg' as <-. injection Ep as <-.
  destruct (regime_network ok r d C HS x Hg) as (g & gi & lv & truth & -> & W & Wg & Wi & L & NE & VS & EN & WI & HL).
  destruct (rw_champ _ _ (HR env Hok) n) as (S1 & S2 & S3 & S4 & S5); [destruct Hn as [[-> _]|[-> _]]; auto|].
  apply C104_domains; [exact S1| |exact Hd]. intros sel ND Hin. cbn [fst snd].
  assert (LP := found_lengths e r g gi lv truth parts (rw_leiden _ _ (HR e Hoke)) VS PF).
  constructor; auto.
  - split; [exact S2|]. split; [exact S3|]. pose proof (found_count e _ _ _ parts PF) as FC.
    assert (LS : (length sel <= length parts)%nat) by (apply NoDup_incl_length; [exact ND|intros c Hc; apply Hin in Hc; apply Hc]).
    apply (Nat.le_trans _ _ _ LS) in FC. clear - FC Hsize. lia.
  - rewrite VS. lia.
  - intros c Hc. apply LP. apply Hin in Hc. apply Hc.
Qed.
Print Assumptions C104_stored_domains.

(** Both scripts are of this kind; the network of either is one whose planted communities have estimates within 0.005 of the desired ones. *)
Theorem C104_both_scripts : forall r, r = easy_regime \/ r = hard_regime ->
  synthetic r /\ (Z.of_nat (length (rg_gammas r) * length (rg_omegas r)) <= 2 ^ 53)%Z /\
  (forall gamma, In gamma (rg_gammas r ++ rg_omegas r) -> 0 <= gamma <= 2) /\
  forall (ok : stage_env -> Prop) d v, history (regime_run ok [easy_regime; hard_regime]) empty_directory d -> d (rg_graph r) = Stored v ->
  exists env g gi lv truth gamma omega, ok env /\ v = Network (g, gi, lv, truth) /\
    gamma_omega_estimate (sg_est env (rg_graph r)) (mkGraph (vcount g) (directed g) (edges g) None) gi lv truth 1000 "temporal" None None None None = (g, Ok (Some (Fin gamma), omega)) /\
    (r = easy_regime -> Rabs (gamma - 94 / 100) < 5 / 1000 /\ Rabs (omega - 98 / 100) < 5 / 1000) /\
    (r = hard_regime -> Rabs (gamma - 96 / 100) < 5 / 1000 /\ Rabs (omega - 80 / 100) < 5 / 1000).
Proof.
  intros r Hr.
  assert (G : exists eta eps dg dom, eps <> -1 /\ (r = easy_regime -> dg = 94 / 100 /\ dom = 98 / 100) /\ (r = hard_regime -> dg = 96 / 100 /\ dom = 80 / 100) /\
    forall env ds fuel, rg_generate r env ds fuel = generate_synthetic_network env ds eta eps dg dom fuel).
  { assert (N : easy_regime <> hard_regime) by (intros E; apply (f_equal rg_graph) in E; discriminate).
    destruct Hr as [-> | ->]; [exists (7 / 10), (4 / 10), (94 / 100), (98 / 100)|exists (5 / 10), (5 / 10), (96 / 100), (80 / 100)]; (split; [lra|]); (split; [|split; [|reflexivity]]); intros E; try (exfalso; congruence); split; reflexivity. }
  destruct G as (eta & eps & dg & dom & He & G1 & G2 & G). split; [|split; [|split]].
  - exists 150%nat, 15%nat, 2%nat, eta, (32 / (1 + eps) / 75), (eps * (32 / (1 + eps) / 75)), dg, dom. split; [lia|]. split; [lia|]. split; [lia|]. split; [exists 75%nat; reflexivity|].
    intros env ds fuel x Hx. rewrite G in Hx. unfold generate_synthetic_network, py_div in Hx. destruct (Req_EM_T (1 + eps) 0); [lra|]. exact Hx.
  - assert (E : exists a b, length (rg_gammas r) = a /\ length (rg_omegas r) = b /\ (Z.of_nat a = 225 /\ Z.of_nat b = 225)%Z).
    { exists 225%nat, 225%nat. destruct Hr as [-> | ->]; cbn [rg_gammas rg_omegas easy_regime hard_regime with_names]; unfold linspace; rewrite map_length, seq_length; repeat split; reflexivity. }
    destruct E as (a & b & -> & -> & Za & Zb). rewrite Nat2Z.inj_mul, Za, Zb. lia.
  - assert (E : forall x, In x (linspace 0 2 225) -> 0 <= x <= 2).
    { intros x Hx. unfold linspace in Hx. apply in_map_iff in Hx as (i & <- & Hi). apply in_seq in Hi. replace (INR (225 - 1)) with 224 by (change (225 - 1)%nat with 224%nat; rewrite INR_IZR_INZ; reflexivity).
      assert (I1 : 0 <= INR i) by apply pos_INR. assert (I2 : INR i <= 224). { replace 224 with (INR 224) by (rewrite INR_IZR_INZ; reflexivity). apply le_INR. lia. } lra. }
    intros ga Hga. destruct Hr as [-> | ->]; apply in_app_iff in Hga; destruct Hga; apply E; assumption.
  - intros ok d v H Hv. pose proof (C102_both_scripts ok d r H Hr) as C. destruct (co_graph _ _ _ C _ Hv) as (env & [[[g gi] lv] truth] & Hok & -> & HG). rewrite G in HG.
    pose proof (proj2 (C92_synthetic_network (sg_est env (rg_graph r)) (sg_draws env) eta eps dg dom (sg_attempts env)) He g gi lv truth HG) as X. cbv zeta in X. destruct X as (k & _ & _ & _ & _ & ga & om & E & A1 & A2).
    exists env, g, gi, lv, truth, ga, om. split; [exact Hok|]. split; [reflexivity|]. split; [exact E|]. split; intros Er; [destruct (G1 Er) as [-> ->]|destruct (G2 Er) as [-> ->]]; auto.
Qed.
Print Assumptions C104_both_scripts.

(** The small regime of C102 meets all hypotheses: its partition is the only one, and its domain is the whole square. *)
Example C104_example : exists champ,
  let env := paths_env champ in let d := final (regime_main env small_regime) empty_directory in
  history (regime_run (eq env) [small_regime]) empty_directory d /\ synthetic small_regime /\ routines_work env small_regime /\
  (exists parts, d (rg_louvain small_regime) = Stored (Parts parts) /\ partitions_found env paths_network [1] [1] parts /\ chosen parts (Some 2%nat) paths_c) /\
  exists l, d (rg_restricted small_regime) = Stored (Estimates l) /\ estimated_domains (paths_est champ) paths_network [paths_c] (Some 2%nat) l /\
    exists poly, In (poly, paths_c, Some (Fin paths_value), Some 1000) l /\ in_polygon poly (1, 1).
Proof.
  destruct small_run as (champ & Hok & HD & SA & ND & C0 & Hh & D1 & D2 & D3 & D4 & (ks & D5) & _). exists champ. cbv zeta. set (env := paths_env champ) in *. set (d := final (regime_main env small_regime) empty_directory) in *.
  assert (ND0 : NoDup (flat_map names [small_regime])) by (cbn [flat_map]; rewrite app_nil_r; exact ND).
  assert (SY : synthetic small_regime).
  { exists 4%nat, 2%nat, 2%nat, (1 / 2), (1 / 2), (1 / 4), paths_value, 1000. split; [lia|]. split; [lia|]. split; [lia|]. split; [exists 2%nat; reflexivity|]. intros e ds fuel x Hx. exact Hx. }
  assert (RW : routines_work env small_regime).
  { constructor.
    - constructor; [cbn; lia|apply Permutation_refl|]. intros j n es dd l r e [].
    - intros i objs m o Hm Ho. cbn in Hm. destruct (forallb _ objs) eqn:F; [|discriminate]. injection Hm as <-. rewrite forallb_forall in F. specialize (F o Ho). apply Nat.eqb_eq in F. rewrite F. reflexivity.
    - intros n _. cbn [sg_est env paths_env paths_est ee_set_order ee_champ]. destruct (c3_pool Hok) as (P1 & P2 & _). split; [intros l; apply Permutation_refl|]. split; [exact P1|]. split; [exact P2|]. split; [exact (c3_lp Hok)|exact (c3_hsi Hok)]. }
  split; [exact Hh|]. split; [exact SY|]. split; [exact RW|]. split.
  - exists [paths_c]. split; [exact D3|]. split.
    + destruct (C104_partitions (eq env) [small_regime] d small_regime _ ND0 Hh (or_introl eq_refl) SY (fun e He => match He with eq_refl => rw_pool _ _ RW end) D3) as (e & x & ps & <- & Hx & Ep & PF).
      assert (Y := eq_trans (eq_sym D1) Hx). injection Y as <-. injection Ep as <-. exact PF.
    + split; [left; reflexivity|]. apply num_communities_has. reflexivity.
  - exists ks. split; [exact D5|].
    destruct (C104_stored_domains (eq env) [small_regime] d small_regime _ (Some 2%nat) _ ND0 Hh (or_introl eq_refl) SY ltac:(cbn; lia) (fun e He => match He with eq_refl => RW end) (or_intror (conj eq_refl eq_refl)) D5) as (e & x & ps & l & <- & Hx & Hp & El & ED).
    assert (Y := eq_trans (eq_sym D1) Hx). injection Y as <-. injection El as <-. assert (Y := eq_trans (eq_sym D3) Hp). injection Y as <-. split; [exact ED|].
    destruct ED as (domains & [O1 O2 O3] & F). assert (CH : chosen [paths_c] (Some 2%nat) paths_c) by (split; [left; reflexivity|apply num_communities_has; reflexivity]).
    destruct (O3 (ex_intro _ _ CH) 1 1 ltac:(lra) ltac:(lra)) as (poly & c & Hin & Hpoly). assert (c = paths_c) as -> by (destruct (O1 poly c Hin) as ([[<-|[]] _] & _); reflexivity).
    exists poly. split; [|exact Hpoly]. clear - F Hin. induction F as [|d0 e0 ds es (ga & om & E1 & E2) F IH]; [destruct Hin|]. destruct Hin as [-> |Hin]; [left|right; auto].
    cbn [fst snd] in *. change (sg_est env (rg_restricted small_regime)) with (paths_est champ) in E2. rewrite paths_weighted_estimate in E2 by reflexivity. cbn [snd] in E2. injection E2 as <- <-. exact E1.
Qed.
