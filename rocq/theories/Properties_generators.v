(** Property theorems about the generated networks: C92. *)
From Coq Require Import String.
From Verif Require Import PyBase PyGraph M_partition M_champ M_leiden M_estimation_utils M_estimation M_generators Spec Spec_graph Spec_leiden Spec_sbm Spec_multisbm Spec_check Spec_valid Spec_generators
  L_base L_modularity L_modularity3 L_leiden L_sbm L_sbm2 L_check L_multisbm L_copying L_accepted L_omega L_generators L_generators2 L_generators3 Properties_sbm Properties_multisbm.
Open Scope R_scope.

(** ** C92: whatever is drawn, the random layered network is the one that the draws describe; nothing else can make the generator
    fail than its arguments. *)
Theorem C92_layered_network : forall d eta p_in p_out first T K, num_communities first = Ok K -> (0 < T)%nat ->
  exists g lv comm, generate_multilayer_intralayer_SBM d eta p_in p_out first T = Ok (g, lv) /\
    layered_sbm d eta p_in p_out (length first) T first comm g lv /\ wf_graph g /\ (vcount g <= length lv)%nat /\
    ((forall t v, (d_label d t v < K)%nat) -> forall x, In x comm -> (x < K)%nat).
Proof.
  intros d eta p_in p_out first T K HK HT. destruct T as [|more]; [lia|]. unfold generate_multilayer_intralayer_SBM. rewrite HK. cbn [bind]. rewrite lv_flat.
  eexists. eexists. exists (concat (label_layers d eta (length first) 0 more first)). split; [reflexivity|]. split; [apply layered|]. split; [apply graph_of_edges_wf|]. split.
  - rewrite map_length, seq_length. apply graph_of_edges_le. intros u v H. apply layered_bounds in H. tauto.
  - intros H. apply comm_bound; auto. intros x Hx. unfold num_communities in HK. apply bind_ok in HK. destruct HK as (m & Hm & HK).
    destruct (Nat.eqb_spec (length (nodup Nat.eq_dec first)) (m + 1)) as [E|E]; [|discriminate]. injection HK as <-. apply py_max_spec in Hm. destruct Hm as [_ Hm]. specialize (Hm x Hx). lia.
Qed.
Print Assumptions C92_layered_network.

Theorem C92_errors : forall d eta p_in p_out first T,
  (T = 0%nat -> generate_multilayer_intralayer_SBM d eta p_in p_out first T = Raise IndexError) /\
  (forall e, (0 < T)%nat -> num_communities first = Raise e -> generate_multilayer_intralayer_SBM d eta p_in p_out first T = Raise e).
Proof.
  intros d eta p_in p_out first T. split; [intros ->; reflexivity|]. intros e HT H. destruct T; [lia|]. unfold generate_multilayer_intralayer_SBM. rewrite H. reflexivity.
Qed.
Print Assumptions C92_errors.

Lemma communities_nonempty first K : num_communities first = Ok K -> (0 < length first)%nat.
Proof. destruct first; [intros H; discriminate|cbn; lia]. Qed.

(** The two networks of the tests: the couplings, and exactly when the network passes the structural check of its model. *)
Theorem C92_temporal : forall d eta p_in p_out first T K, num_communities first = Ok K -> (0 < T)%nat ->
  let n := length first in
  exists g gi lv comm, generate_temporal_SBM d eta p_in p_out first T = Ok (g, gi, lv) /\
    layered_sbm d eta p_in p_out n T first comm g lv /\ temporal_couplings gi n T /\
    forall model, model = "temporal"%string \/ model = "multilevel"%string ->
      (valid_multilayer g gi (repeat 1 (length (edges g))) lv model <->
       (1 < T)%nat /\ has_edge_at g (n * T - 1) /\ forall t, (t < T)%nat -> layer_has_edge g lv t).
Proof.
  intros d eta p_in p_out first T K HK HT n. destruct (C92_layered_network d eta p_in p_out first T K HK HT) as (g0 & lv0 & comm0 & H0 & _).
  assert (Hn : (0 < n)%nat) by (apply (communities_nonempty first K HK)). unfold generate_temporal_SBM. rewrite H0. cbn [bind].
  destruct T as [|more]; [lia|]. unfold generate_multilayer_intralayer_SBM in H0. rewrite HK in H0. cbn [bind] in H0. rewrite lv_flat in H0. injection H0 as <- <-.
  eexists. eexists. eexists. exists (concat (label_layers d eta n 0 more first)). split; [reflexivity|]. split; [apply layered|]. split; [apply next_copies_couplings; auto|].
  intros model Hm. apply valid_generated; auto.
  - intros u v H. apply layered_bounds in H. exact H.
  - intros H1. apply next_copies_vcount; auto.
  - intros _. apply next_copies_length.
  - intros _ v. apply next_copies_valid.
  - intros ->. destruct Hm; discriminate.
Qed.
Print Assumptions C92_temporal.

Theorem C92_multiplex : forall d eta p_in p_out first T K, num_communities first = Ok K -> (0 < T)%nat ->
  let n := length first in
  exists g gi lv comm, generate_multiplex_SBM d eta p_in p_out first T = Ok (g, gi, lv) /\
    layered_sbm d eta p_in p_out n T first comm g lv /\ multiplex_couplings gi n T /\
    (valid_multilayer g gi (repeat 1 (length (edges g))) lv "multiplex" <->
     (1 < T)%nat /\ has_edge_at g (n * T - 1) /\ forall t, (t < T)%nat -> layer_has_edge g lv t).
Proof.
  intros d eta p_in p_out first T K HK HT n. destruct (C92_layered_network d eta p_in p_out first T K HK HT) as (g0 & lv0 & comm0 & H0 & _).
  assert (Hn : (0 < n)%nat) by (apply (communities_nonempty first K HK)). unfold generate_multiplex_SBM. rewrite H0. cbn [bind].
  destruct T as [|more]; [lia|]. unfold generate_multilayer_intralayer_SBM in H0. rewrite HK in H0. cbn [bind] in H0. rewrite lv_flat in H0. injection H0 as <- <-.
  eexists. eexists. eexists. exists (concat (label_layers d eta n 0 more first)). split; [reflexivity|]. split; [apply layered|]. split; [apply all_copies_couplings; auto|].
  apply valid_generated; auto; try discriminate.
  - intros u v H. apply layered_bounds in H. exact H.
  - intros H1. apply all_copies_vcount; auto.
  - intros _. apply all_copies_length.
Qed.
Print Assumptions C92_multiplex.

(** The vertex count of the intralayer graph is not passed on: when the last vertex stays isolated the graph is too small and no
    model accepts it, although every layer has edges. *)
Theorem C92_refuted_size : exists d g gi lv, generate_temporal_SBM d (1 / 2) (1 / 4) (1 / 20) [0; 0; 1; 1]%nat 2 = Ok (g, gi, lv) /\
  (forall t, (t < 2)%nat -> layer_has_edge g lv t) /\ (vcount g < length lv)%nat /\
  ~ valid_multilayer g gi (repeat 1 (length (edges g))) lv "temporal".
Proof.
  set (d := mkDraws (fun _ _ => 0) (fun _ _ => 0%nat) (fun v u => if Nat.eqb (v mod 4) 0 && Nat.eqb u (v + 1) then 0 else 1)). exists d.
  destruct (C92_temporal d (1 / 2) (1 / 4) (1 / 20) [0; 0; 1; 1]%nat 2 2 eq_refl ltac:(lia)) as (g & gi & lv & comm & H1 & H2 & _ & H4).
  assert (HS : num_communities [0; 0; 1; 1]%nat = Ok 2%nat) by reflexivity.
  destruct (C92_layered_network d (1 / 2) (1 / 4) (1 / 20) [0; 0; 1; 1]%nat 2 2 HS ltac:(lia)) as (g' & lv' & comm' & G1 & _ & _ & G3 & _).
  unfold generate_temporal_SBM in H1. rewrite G1 in H1. cbn [bind] in H1. injection H1 as -> <- ->.
  set (gi := graph_of_edges true (next_copies (length [0; 0; 1; 1]%nat) 2)) in *. exists g, gi, lv. split; [unfold generate_temporal_SBM; rewrite G1; reflexivity|]. cbn [length Nat.mul] in *.
  destruct H2 as (L & Lc & Lv & F & Cp & _ & _ & _ & HE).
  assert (C0 : forall v, (v < 4)%nat -> nth (4 + v) comm 0%nat = nth v comm 0%nat).
  { intros v Hv. destruct (Cp 0%nat v ltac:(lia) Hv) as [X _]. apply X. cbn. lra. }
  assert (P : forall u v, In (u, v) (edges g) -> u = (v + 1)%nat /\ v mod 4 = 0%nat).
  { intros u v I. apply HE in I. destruct I as (_ & _ & I). destruct (Nat.eqb_spec (v mod 4) 0) as [E1|E1]; destruct (Nat.eqb_spec u (v + 1)) as [E2|E2]; auto; exfalso;
      unfold d in I; cbn [d_pair] in I; rewrite (proj2 (Nat.eqb_neq _ _) ltac:(eassumption)) in I; rewrite ?andb_false_r, ?andb_false_l in I; destruct I as [[_ I]|[_ I]]; lra. }
  assert (Ed : forall t, (t < 2)%nat -> In (4 * t + 1, 4 * t)%nat (edges g)).
  { intros t Ht. apply HE. split; [lia|]. split; [destruct t as [|[|t]]; [reflexivity|reflexivity|lia]|]. left. split.
    - destruct t as [|[|t]]; [| |lia]; cbn [Nat.mul Nat.add].
      + rewrite !F by lia. reflexivity.
      + rewrite (C0 1%nat ltac:(lia) : nth 5 comm 0%nat = _), (C0 0%nat ltac:(lia) : nth 4 comm 0%nat = _), !F by lia. reflexivity.
    - destruct t as [|[|t]]; [| |lia]; cbn; lra. }
  assert (NE : ~ has_edge_at g 7).
  { intros ([a b] & I & [E|E]); cbn [fst snd] in E; subst; apply P in I; destruct I as [I J].
    - assert (b = 6%nat) by lia. subst. discriminate.
    - discriminate. }
  split.
  - intros t Ht. exists (4 * t + 1)%nat, (4 * t)%nat. split; [apply Ed; auto|]. rewrite Lv by lia. destruct t as [|[|t]]; [reflexivity|reflexivity|lia].
  - assert (NV : ~ valid_multilayer g gi (repeat 1 (length (edges g))) lv "temporal") by (intros V; apply (H4 "temporal"%string (or_introl eq_refl)) in V; destruct V as (_ & V & _); exact (NE V)).
    split; auto. destruct (Nat.eq_dec (vcount g) (length lv)) as [E|E]; [|lia]. exfalso.
    unfold generate_multilayer_intralayer_SBM in G1. cbn [bind length] in G1. change (num_communities [0; 0; 1; 1]%nat) with (Ok 2%nat : res nat) in G1. cbn [bind] in G1. injection G1 as Eg El.
    rewrite <- Eg in E, NE. rewrite El in E, NE. rewrite L in E. apply graph_of_edges_full in E; [exact (NE E)|lia|].
    intros u v I. assert (I' : In (u, v) (edges g)) by (rewrite <- Eg, El; exact I). apply HE in I'. lia.
Qed.
Print Assumptions C92_refuted_size.

(** ** The synthetic temporal networks of the experiments: for any sizes, every returned network passed the test on its estimates,
    is the network that the draws of some attempt describe, and is a valid temporal network with unit weights. *)
Lemma blocks_equal n K : (0 < K)%nat -> (0 < n)%nat -> Nat.divide K n -> equal_counts (first_blocks n K) = true.
Proof.
  intros HK Hn [b ->]. assert (Hb : (0 < b)%nat) by nia. unfold equal_counts, first_blocks. rewrite Nat.div_mul by lia. apply forallb_forall. intros x Hx.
  apply Nat.eqb_eq. rewrite (@lv_in b K Hb) in Hx. rewrite !nodes_in_lv by lia. reflexivity.
Qed.

Theorem C92_synthetic_returned : forall env ds n T K eta p_in p_out desired_gamma desired_omega fuel g gi lv comm,
  (0 < n)%nat -> (1 < T)%nat -> (0 < K)%nat -> Nat.divide K n ->
  synthetic_loop env ds n T K eta p_in p_out desired_gamma desired_omega 0 fuel = Some (Ok (g, gi, lv, comm)) ->
  let bare := mkGraph (vcount g) (directed g) (edges g) None in
  exists attempt gamma omega, (attempt < fuel)%nat /\
    layered_sbm (ds attempt) eta p_in p_out n T (map (fun v => (v / (n / K))%nat) (seq 0 n)) comm bare lv /\ temporal_couplings gi n T /\
    weights g = Some (repeat 1 (length (edges g))) /\ valid_multilayer g gi (repeat 1 (length (edges g))) lv "temporal" /\
    gamma_omega_estimate env bare gi lv comm 1000 "temporal" None None None None = (g, Ok (Some (Fin gamma), omega)) /\
    Rabs (gamma - desired_gamma) < 5 / 1000 /\ Rabs (omega - desired_omega) < 5 / 1000.
Proof.
  intros env ds n T K eta p_in p_out dg dw fuel g gi lv comm Hn HT HK Hd H bare.
  destruct (synthetic_loop_returns env ds n T K eta p_in p_out dg dw fuel 0 H) as (j & g0 & gi0 & lv0 & comm0 & g' & ga & om & Hj & E & HA & HE & H1 & H2).
  injection E as -> -> -> ->. unfold synthetic_attempt in HA. rewrite blocks_equal in HA by auto. injection HA as <- <- <- <-.
  assert (Lf : length (first_blocks n K) = n) by (unfold first_blocks; rewrite map_length, seq_length; reflexivity).
  destruct T as [|more]; [lia|]. replace (S more - 1)%nat with more in HE |- * by lia.
  pose proof (layered (ds j) eta p_in p_out (first_blocks n K) more) as HL. rewrite Lf in HL.
  assert (HB : forall u v, In (u, v) (sbm_edges (ds j) p_in p_out (map (fun i => (i / n)%nat) (seq 0 (n * S more))) (concat (label_layers (ds j) eta n 0 more (first_blocks n K)))) -> (u < n * S more)%nat /\ (v < n * S more)%nat /\ (u / n = v / n)%nat).
  { intros u v I. pose proof (@layered_bounds (ds j) eta p_in p_out (first_blocks n K) more u v) as B. rewrite Lf in B. auto. }
  destruct (@estimated_facts env n (S more) false _ _ _ 1000 "temporal" Hn ltac:(lia) HB g' _ HE) as (F1 & F2 & F3).
  exists j, ga, om. split; [lia|]. subst g'. cbn [vcount directed edges weights] in *. subst bare.
  split; [exact HL|]. split; [apply next_copies_couplings; auto|]. split; [reflexivity|]. split; [|split; [exact HE|auto]].
  set (g1 := graph_of_edges false _) in *.
  assert (V : valid_multilayer g1 (graph_of_edges true (next_copies n (S more))) (repeat 1 (length (edges g1))) (map (fun i => (i / n)%nat) (seq 0 (n * S more))) "temporal").
  { apply valid_generated; auto; try discriminate; try lia.
    - intros _. apply next_copies_vcount; auto.
    - intros _. apply next_copies_length.
    - split; auto. split; auto. apply graph_of_edges_full; [nia| |].
      + intros u v I. apply HB in I. tauto.
      + fold g1. rewrite <- F1. pose proof (@comm_length (ds j) eta (first_blocks n K) more) as CL. rewrite Lf in CL. exact CL. }
  exact V.
Qed.
Print Assumptions C92_synthetic_returned.

(** The function itself: its sizes are 150 vertices in each of 15 layers and 2 communities, and the first layer is split 75 to 75. *)
Theorem C92_synthetic_network : forall env ds eta epsilon desired_gamma desired_omega fuel,
  (epsilon = -1 -> generate_synthetic_network env ds eta epsilon desired_gamma desired_omega fuel = Some (Raise ZeroDivisionError)) /\
  (epsilon <> -1 -> forall g gi lv comm, generate_synthetic_network env ds eta epsilon desired_gamma desired_omega fuel = Some (Ok (g, gi, lv, comm)) ->
   let p_in := 32 / (1 + epsilon) / 75 in let bare := mkGraph (vcount g) (directed g) (edges g) None in
   exists attempt, (attempt < fuel)%nat /\
     layered_sbm (ds attempt) eta p_in (epsilon * p_in) 150 15 (map (fun v => (v / 75)%nat) (seq 0 150)) comm bare lv /\ temporal_couplings gi 150 15 /\
     valid_multilayer g gi (repeat 1 (length (edges g))) lv "temporal" /\
     exists gamma omega, gamma_omega_estimate env bare gi lv comm 1000 "temporal" None None None None = (g, Ok (Some (Fin gamma), omega)) /\
       Rabs (gamma - desired_gamma) < 5 / 1000 /\ Rabs (omega - desired_omega) < 5 / 1000).
Proof.
  intros env ds eta eps dg dw fuel. split.
  - intros ->. unfold generate_synthetic_network, py_div. destruct (Req_EM_T (1 + -1) 0); [reflexivity|lra].
  - intros He g gi lv comm H p_in bare. unfold generate_synthetic_network, py_div in H. destruct (Req_EM_T (1 + eps) 0); [lra|].
    destruct (C92_synthetic_returned env ds 150 15 2 eta p_in (eps * p_in) dg dw fuel g gi lv comm ltac:(lia) ltac:(lia) ltac:(lia) ltac:(exists 75%nat; reflexivity) H)
      as (j & ga & om & A & B & C & _ & D & E). exists j. split; auto. split; auto. split; auto. split; auto. exists ga, om. auto.
Qed.
Print Assumptions C92_synthetic_network.

(** "Mean degree about 32": in a balanced layer the probabilities of a vertex's possible edges sum to 32 minus one p_in. *)
Theorem C92_mean_degree : forall epsilon v, epsilon <> -1 -> (v < 150)%nat ->
  let p_in := 32 / (1 + epsilon) / 75 in let p_out := epsilon * p_in in
  sum_to 150 (fun u => if Nat.eq_dec u v then 0 else if Nat.eq_dec (u / 75) (v / 75) then p_in else p_out) = 32 - p_in.
Proof.
  intros eps v He Hv p_in p_out.
  assert (G : forall a b c (f : nat -> bool) l, NoDup l -> In v l -> f v = true ->
    rsum (map (fun u => if Nat.eq_dec u v then a else if f u then b else c) l) = a - b + INR (length (filter f l)) * b + INR (length (filter (fun u => negb (f u)) l)) * c).
  { intros a b c f l ND I Fv.
    assert (G0 : forall l, ~ In v l -> rsum (map (fun u => if Nat.eq_dec u v then a else if f u then b else c) l) = INR (length (filter f l)) * b + INR (length (filter (fun u => negb (f u)) l)) * c).
    { clear. induction l as [|x l IH]; intros N; [cbn; rewrite rsum_nil; lra|]. cbn [map filter]. rewrite rsum_cons, IH by (intros Z; apply N; right; auto).
      destruct (Nat.eq_dec x v) as [E|E]; [exfalso; apply N; left; auto|]. destruct (f x); cbn [negb length]; rewrite S_INR; lra. }
    induction l as [|x l IH]; [destruct I|]. inversion ND; subst. cbn [map filter]. rewrite rsum_cons. destruct (Nat.eq_dec x v) as [E|E].
    - subst x. rewrite G0 by auto. rewrite Fv. cbn [negb length]. rewrite S_INR. lra.
    - destruct I as [I|I]; [congruence|]. rewrite IH by auto. destruct (f x); cbn [negb length]; rewrite S_INR; lra. }
  change (sum_to 150 ?f) with (rsum (map f (seq 0 150))).
  rewrite (map_ext _ (fun u => if Nat.eq_dec u v then 0 else if Nat.eqb (u / 75) (v / 75) then p_in else p_out)).
  2:{ intros u. destruct (Nat.eq_dec u v); auto. destruct (Nat.eq_dec (u / 75) (v / 75)), (Nat.eqb_spec (u / 75) (v / 75)); auto; congruence. }
  rewrite (G 0 p_in p_out (fun u => Nat.eqb (u / 75) (v / 75)) (seq 0 150)); [|apply seq_NoDup|apply in_seq; lia|apply Nat.eqb_refl].
  assert (Q : (v / 75 = 0 \/ v / 75 = 1)%nat). { assert (v / 75 < 2)%nat by (apply Nat.div_lt_upper_bound; lia). lia. }
  assert (N1 : length (filter (fun u => Nat.eqb (u / 75) (v / 75)) (seq 0 150)) = 75%nat) by (destruct Q as [-> | ->]; reflexivity).
  assert (N2 : length (filter (fun u => negb (Nat.eqb (u / 75) (v / 75))) (seq 0 150)) = 75%nat) by (destruct Q as [-> | ->]; reflexivity).
  rewrite N1, N2. replace (INR 75) with 75 by (rewrite INR_IZR_INZ; reflexivity). unfold p_out, p_in. field. intros Z. apply He. lra.
Qed.
Print Assumptions C92_mean_degree.

(** A run that returns: four vertices in two layers, a path in each, and communities that are copied.
    The estimates are those of the paths. *)
Definition path_draws : draws := mkDraws (fun _ _ => 0) (fun _ _ => 0%nat) (fun v u => if Nat.eqb u (v + 1) then 0 else 1).
Definition paths_edges : list (nat * nat) := [(1, 0); (2, 1); (3, 2); (5, 4); (6, 5); (7, 6)]%nat.
Definition paths_c : list nat := [0; 0; 1; 1; 0; 0; 1; 1]%nat.
Definition paths_lv : list nat := [0; 0; 0; 0; 1; 1; 1; 1]%nat.
Definition paths_g : graph := mkGraph 8 false paths_edges (Some (repeat 1 6)).
Definition paths_bare : graph := mkGraph 8 false paths_edges None.
Definition paths_gi : graph := mkGraph 8 true [(0, 4); (1, 5); (2, 6); (3, 7)]%nat None.
Lemma path_attempt : synthetic_attempt path_draws 4 2 2 (1 / 2) (1 / 2) (1 / 4) = Ok (paths_bare, paths_gi, paths_lv, paths_c).
Proof.
  unfold synthetic_attempt. change (equal_counts (first_blocks 4 2)) with true. cbv iota.
  assert (C : concat (label_layers path_draws (1 / 2) 4 0 (2 - 1) (first_blocks 4 2)) = paths_c).
  { unfold label_layers, next_layer, path_draws. cbn [Nat.sub d_copy d_label]. destruct (Rlt_dec 0 (1 / 2)) as [_|Z]; [|exfalso; lra]. reflexivity. }
  rewrite C. assert (S : sbm_edges path_draws (1 / 2) (1 / 4) (map (fun i => (i / 4)%nat) (seq 0 (4 * 2))) paths_c = paths_edges).
  { change (map (fun i => (i / 4)%nat) (seq 0 (4 * 2))) with paths_lv. unfold sbm_edges, paths_c, paths_lv.
    cbn [length seq flat_map Nat.add Nat.sub nth Nat.eqb app d_pair path_draws].
    destruct (Rlt_dec 0 (1 / 2)) as [_|Z]; [|exfalso; lra]. destruct (Rlt_dec 0 (1 / 4)) as [_|Z]; [|exfalso; lra].
    destruct (Rlt_dec 1 (1 / 4)) as [Z|_]; [exfalso; lra|]. destruct (Rlt_dec 1 (1 / 2)) as [Z|_]; [exfalso; lra|]. reflexivity. }
  rewrite S. reflexivity.
Qed.
Lemma paths_estimate env : ee_contains env paths_bare = false ->
  gamma_omega_estimate env paths_bare paths_gi paths_lv paths_c 1000 "temporal" None None None None
  = (paths_g, Ok (Some (Fin ((4 / 3 - 2 / 3) / (ln (4 / 3) - ln (2 / 3)))), 1000)).
Proof.
  intros He.
  assert (W1 : wf_graph paths_bare) by (split; [literal_edges|discriminate]).
  assert (W1' : wf_graph paths_g) by (apply wf_literal; [literal_edges|reflexivity]).
  assert (W2 : wf_graph paths_gi) by (split; [literal_edges|discriminate]).
  assert (V : valid_multilayer paths_g paths_gi (repeat 1 6) paths_lv "temporal").
  { unfold valid_multilayer, structural_rules. rules; cbn; try lia; try discriminate; auto.
    - intros m [<-|[<-|[]]]; lra.
    - intros u v H. repeat (destruct H as [E|H]; [inversion E; reflexivity|]). destruct H.
    - intros _. split; divides. }
  assert (Hh : weights_defaulted (ee_contains env paths_bare) paths_bare paths_g) by (apply weighted_e_defaulted; unfold weighted_e; rewrite He; reflexivity).
  set (E := weighted_edges paths_g (repeat 1 6)).
  assert (R : forall t, in_range_E 8 (layer_edges E paths_lv t)) by (intros t; apply layer_range; apply (@range_E_of paths_g); auto).
  assert (S1 : observed_within_layers 8 E paths_lv 2 paths_c = 8).
  { unfold observed_within_layers. rewrite !sum_to_S. rewrite !observed_within_w by auto. unfold inner_w, sum_to. cbn. rewrite ?rsum_cons, ?rsum_nil. cbn. lra. }
  assert (S2 : expected_within_layers 8 E paths_lv 2 paths_c = 6).
  { unfold expected_within_layers. rewrite !sum_to_S.
    rewrite !(@expected_within_w 8 _ paths_c 2%nat); auto; [|intros v Hv; do 8 (destruct v as [|v]; [cbn; lia|]); lia..].
    unfold kappa_w, total_w, sum_to. cbn. rewrite ?rsum_cons, ?rsum_nil. cbn. field. }
  assert (P : forall t, (t < 2)%nat -> total_strength 8 (layer_edges E paths_lv t) = 6).
  { intros t Ht. rewrite total_strength_w by auto. destruct t as [|[|t]]; [| |lia]; unfold total_w; cbn; rewrite ?rsum_cons, ?rsum_nil; cbn; lra. }
  assert (S3 : observed_between_layers 8 E paths_lv 2 paths_c = 4).
  { assert (Q : observed_within_layers 8 E paths_lv 2 paths_c + observed_between_layers 8 E paths_lv 2 paths_c = 12); [|lra].
    unfold observed_within_layers, observed_between_layers. rewrite <- sum_to_plus. rewrite !sum_to_S. rewrite !observed_split, !P by lia. unfold sum_to. cbn. lra. }
  assert (S4 : expected_between_layers 8 E paths_lv 2 paths_c = 6).
  { assert (Q : expected_within_layers 8 E paths_lv 2 paths_c + expected_between_layers 8 E paths_lv 2 paths_c = 12); [|lra].
    unfold expected_within_layers, expected_between_layers. rewrite <- sum_to_plus. rewrite !sum_to_S. rewrite !expected_split; [rewrite !P by lia; unfold sum_to; cbn; lra|rewrite P; [lra|lia]..]. }
  destruct (C37_exact env paths_bare paths_g paths_gi (repeat 1 6) paths_lv paths_c "temporal" 1000 None None None None) as (pers & p & r & A & B & _ & C & _ & _ & D);
    auto; try (left; reflexivity).
  { intros w H. apply repeat_spec in H. lra. }
  rewrite C. f_equal. clear C. cbv zeta in D. change (vcount paths_bare) with 8%nat in D, A. change (S (list_max paths_lv)) with 2%nat in D, A, B.
  change (list_max (map S paths_c)) with 2%nat in D, B. fold E in D. rewrite S1, S2, S3, S4 in D.
  assert (Pp : p = 1).
  { assert (Z : pers = 1). { destruct A as [(_ & ->)|[(Z & _)|(Z & _)]]; try discriminate. change (kept paths_gi paths_c) with 4%nat. change (8 / 2)%nat with 4%nat. cbn. field. }
    destruct B as [(_ & ->)|[(_ & _ & Z' & _)|(Z' & _)]]; [reflexivity|discriminate|lra]. }
  destruct D as (o & -> & I); [left; lra|]. destruct (Req_EM_T 6 0) as [Z|_]; [lra|].
  replace (8 / 6) with (4 / 3) by lra. replace (4 / 6) with (2 / 3) by lra.
  destruct (C29_log_mean (4 / 3) (2 / 3)) as (x & -> & -> & _); try lra. f_equal. f_equal.
  destruct I as [(Z & _)|[(_ & Z)|[(Z & _)|(Z & _)]]]; lra.
Qed.
Example C92_example : forall env, ee_contains env paths_bare = false ->
  synthetic_loop env (fun _ => path_draws) 4 2 2 (1 / 2) (1 / 2) (1 / 4) ((4 / 3 - 2 / 3) / (ln (4 / 3) - ln (2 / 3))) 1000 0 1
  = Some (Ok (paths_g, paths_gi, paths_lv, paths_c)).
Proof.
  intros env He. cbn [synthetic_loop]. rewrite path_attempt, paths_estimate by auto. rewrite !Rminus_diag_eq, Rabs_R0 by reflexivity.
  destruct (Rlt_dec 0 (5 / 1000)) as [_|Z]; [|exfalso; lra]. reflexivity.
Qed.
