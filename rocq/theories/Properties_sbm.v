(** Property theorems about the single-layer SBM and gamma estimates: C27-C30. *)
From Verif Require Import PyBase PyGraph M_partition M_champ M_leiden M_estimation_utils Spec Spec_graph Spec_leiden Spec_sbm
  L_base L_canon L_modularity L_modularity3 L_parallel L_leiden L_split L_objective L_sbm L_sbm2 L_logmean.
From Coq Require Import Classical.
Open Scope R_scope.

Lemma labels_nth c n K : length c = n -> (forall l, In l c -> (l < K)%nat) -> forall v, (v < n)%nat -> (nth v c 0 < K)%nat.
Proof. intros Hl H v Hv. apply H, nth_In. lia. Qed.

(** ** C27: on every weighted graph (any real weights) and membership with labels below K, whenever the divisions are
    defined, the estimates are observed over expected weight within communities, and between communities (0 when there
    is only one community). *)
Theorem C27_estimates : forall g ws c K m,
  wf_graph g -> weights g = Some ws -> length c = vcount g -> (forall l, In l c -> (l < K)%nat) ->
  m = None \/ m = Some (rsum ws) ->
  let n := vcount g in let E := weighted_edges g ws in
  total_strength n E <> 0 -> expected_within n E c <> 0 -> ((1 < K)%nat -> expected_between n E c <> 0) ->
  estimate_singlelayer_SBM_parameters g (mkPart K c) m
  = Ok (observed_within n E c / expected_within n E c,
        if Nat.ltb 1 K then observed_between n E c / expected_between n E c else 0).
Proof.
  intros g ws c K m Hwf Hw Hlen Hlab Hm n E H1 H2 H3. rewrite (@estimate_single g ws c K m Hwf Hw Hlen); auto.
  - unfold sbm_outcome. fold n E. destruct (Req_EM_T (total_strength n E) 0); [congruence|].
    destruct (Req_EM_T (expected_within n E c) 0); [congruence|]. destruct (Nat.ltb_spec 1 K); auto.
    destruct (Req_EM_T (expected_between n E c) 0); auto. exfalso. apply H3; auto.
  - apply labels_nth; auto.
Qed.
Print Assumptions C27_estimates.

(** The two estimates redistribute the total weight: omega_in * expected_within + omega_out * expected_between = 2m. *)
Theorem C27_balance : forall g ws c K omega_in omega_out,
  wf_graph g -> weights g = Some ws -> length c = vcount g -> (forall l, In l c -> (l < K)%nat) ->
  estimate_singlelayer_SBM_parameters g (mkPart K c) None = Ok (omega_in, omega_out) ->
  let n := vcount g in let E := weighted_edges g ws in
  omega_in * expected_within n E c + omega_out * expected_between n E c = total_strength n E /\
  expected_within n E c + expected_between n E c = total_strength n E.
Proof.
  intros g ws c K a b Hwf Hw Hlen Hlab H n E. rewrite (@estimate_single g ws c K None Hwf Hw Hlen) in H; auto; [|apply labels_nth; auto].
  unfold sbm_outcome in H. fold n E in H. destruct (Req_EM_T (total_strength n E) 0) as [|NT]; [discriminate|].
  destruct (Req_EM_T (expected_within n E c) 0) as [|NE]; [discriminate|]. pose proof (observed_split n E c) as So. split; [|apply expected_split; auto].
  destruct (Nat.ltb_spec 1 K).
  - destruct (Req_EM_T (expected_between n E c) 0) as [|NB]; [discriminate|]. inversion H. subst.
    replace (observed_within n E c / expected_within n E c * expected_within n E c) with (observed_within n E c) by (field; auto).
    replace (observed_between n E c / expected_between n E c * expected_between n E c) with (observed_between n E c) by (field; auto). auto.
  - inversion H. subst. rewrite Rmult_0_l, Rplus_0_r.
    replace (observed_within n E c / expected_within n E c * expected_within n E c) with (observed_within n E c) by (field; auto).
    rewrite <- So. assert (observed_between n E c = 0) as ->; [|ring]. unfold observed_between. apply sum_to_0. intros i Hi. apply sum_to_0. intros j Hj.
    pose proof (labels_nth c n K Hlen Hlab i Hi). pose proof (labels_nth c n K Hlen Hlab j Hj). unfold delta. destruct (Nat.eq_dec _ _); [ring|lia].
Qed.
Print Assumptions C27_balance.

(** On unit weights (undirected) they are the ratios of the coefficients that CHAMP computes. *)
Theorem C27_unit_weights : forall g c K omega_in omega_out,
  wf_graph g -> directed g = false -> edges g <> [] -> weights g = Some (repeat 1 (length (edges g))) -> length c = vcount g ->
  (forall l, In l c -> (l < K)%nat) ->
  estimate_singlelayer_SBM_parameters g (mkPart K c) None = Ok (omega_in, omega_out) ->
  exists a p, partition_coefficients_2D_serial g [c] = Ok ([a], [Fin p]) /\
    omega_in = a / p /\ ((1 < K)%nat -> omega_out = (2 * m_edges g - a) / (2 * m_edges g - p)).
Proof.
  intros g c K a b Hwf Hd Hne Hw Hlen Hlab H.
  assert (Hc : forall x, In x [c] -> length x = vcount g) by (intros x [<-|[]]; auto).
  rewrite (coefficients_2D_ok [c] Hwf Hne Hc). exists (A_of g c), (P_of g c). split; [reflexivity|].
  rewrite (@estimate_single g _ c K None Hwf Hw Hlen) in H; auto; [|apply labels_nth; auto].
  unfold weighted_edges in H. unfold sbm_outcome in H. pose proof (@observed_unit g c Hd) as E1. pose proof (@expected_unit g c Hwf Hd) as E2. pose proof (@total_unit_w g Hwf) as E3.
  set (E := combine (edges g) (repeat 1 (length (edges g)))) in *.
  pose proof (observed_split (vcount g) E c) as So. 
  destruct (Req_EM_T (total_strength (vcount g) E) 0) as [|NT]; [discriminate|]. pose proof (@expected_split (vcount g) E c NT) as Se.
  destruct (Req_EM_T (expected_within (vcount g) E c) 0) as [|NE]; [discriminate|].
  destruct (Nat.ltb_spec 1 K) as [L|L].
  - destruct (Req_EM_T (expected_between (vcount g) E c) 0) as [|NB]; [discriminate|]. inversion H. split.
    + rewrite <- E1, <- E2. reflexivity.
    + intros _. f_equal; [|f_equal]; lra.
  - inversion H. split; [rewrite <- E1, <- E2; reflexivity|lia].
Qed.
Print Assumptions C27_unit_weights.

(** Two triangles joined by an edge, split into the triangles, with one heavier edge. *)
Definition barbell : graph := mkGraph 6 false [(0, 1); (1, 2); (0, 2); (3, 4); (4, 5); (3, 5); (2, 3)]%nat (Some [1; 1; 2; 1; 1; 1; 1]).
Definition barbell_c : list nat := [0; 0; 0; 1; 1; 1]%nat.
Lemma wf_literal n d es ws : (forall u v, In (u, v) es -> (u < n)%nat /\ (v < n)%nat) -> length ws = length es -> wf_graph (mkGraph n d es (Some ws)).
Proof. intros H L. split; [exact H|]. intros ws' E. inversion E. subst. exact L. Qed.
Ltac literal_edges := let u := fresh in let v := fresh in let H := fresh in intros u v H; cbn in H; repeat (destruct H as [H|H]; [inversion H; subst; split; cbn; lia|]); destruct H.
Lemma barbell_wf : wf_graph barbell.
Proof. apply wf_literal; [literal_edges|reflexivity]. Qed.

Example C27_example : estimate_singlelayer_SBM_parameters barbell (mkPart 2 barbell_c) None = Ok (14 * 16 / 130, 2 / (16 - 130 / 16)).
Proof.
  assert (K : foldM (add_strength barbell_c) (combine (edges barbell) [1; 1; 2; 1; 1; 1; 1]) (repeat 0 2) = Ok [9; 7]).
  { cbn. repeat (f_equal; try lra). }
  unfold estimate_singlelayer_SBM_parameters. cbn [weights barbell bind wedges part_membership part_len].
  change (combine (edges barbell) [1; 1; 2; 1; 1; 1; 1]) with (combine (edges barbell) [1; 1; 2; 1; 1; 1; 1]) in K.
  change (combine [(0%nat, 1%nat); (1%nat, 2%nat); (0%nat, 2%nat); (3%nat, 4%nat); (4%nat, 5%nat); (3%nat, 5%nat); (2%nat, 3%nat)] [1; 1; 2; 1; 1; 1; 1]) with (combine (edges barbell) [1; 1; 2; 1; 1; 1; 1]).
  cbn [mapM internal_weight same_label py_get nth_error barbell_c bind fst snd edges barbell combine Nat.eqb] in *.
  rewrite K. cbn [bind]. unfold sum_squares. cbn [map]. rewrite ?rsum_cons, ?rsum_nil.
  unfold py_div. match goal with |- context [Req_EM_T ?x 0] => destruct (Req_EM_T x 0) as [Z|_]; [exfalso; lra|] end. cbn [bind].
  match goal with |- context [Req_EM_T ?x 0] => destruct (Req_EM_T x 0) as [Z|_]; [exfalso; lra|] end. cbn [bind Nat.ltb Nat.leb].
  match goal with |- context [Req_EM_T ?x 0] => destruct (Req_EM_T x 0) as [Z|_]; [exfalso; lra|] end. cbn [bind].
  f_equal. f_equal; field; lra.
Qed.

(** ** C28: the estimates depend only on the weighted adjacency matrix up to a common nonzero factor, and on the partition up
    to names. *)
Theorem C28_adjacency_and_partition : forall g g' ws ws' c c' K s,
  wf_graph g -> wf_graph g' -> weights g = Some ws -> weights g' = Some ws' -> vcount g' = vcount g ->
  length c = vcount g -> same_partition c c' -> (forall l, In l c -> (l < K)%nat) -> (forall l, In l c' -> (l < K)%nat) ->
  s <> 0 -> (forall i j, (i < vcount g)%nat -> (j < vcount g)%nat -> w_adj (weighted_edges g' ws') i j = s * w_adj (weighted_edges g ws) i j) ->
  estimate_singlelayer_SBM_parameters g' (mkPart K c') None = estimate_singlelayer_SBM_parameters g (mkPart K c) None.
Proof.
  intros g g' ws ws' c c' K s Hg Hg' Hw Hw' Hn Hlen Hs Hl Hl' Hz Ha.
  assert (Hlen' : length c' = vcount g') by (destruct Hs as [E _]; lia).
  rewrite (@estimate_single g ws c K None); auto; [|apply labels_nth; auto]. rewrite (@estimate_single g' ws' c' K None); auto; [|apply labels_nth; auto].
  rewrite Hn. apply (@sbm_outcome_scale (vcount g) K _ _ c c' s Hz); auto.
Qed.
Print Assumptions C28_adjacency_and_partition.

(** In particular: edge order, edge orientation, a common factor, and both arcs instead of an undirected edge. *)
Theorem C28_representation : forall g g' ws ws' c K,
  wf_graph g -> wf_graph g' -> weights g = Some ws -> weights g' = Some ws' -> vcount g' = vcount g ->
  length c = vcount g -> (forall l, In l c -> (l < K)%nat) ->
  let E := weighted_edges g ws in let E' := weighted_edges g' ws' in
  Permutation E E' \/ Forall2 flipped E E' \/ (exists s, s <> 0 /\ E' = map (fun ew => (fst ew, s * snd ew)) E) \/
  E' = E ++ map (fun ew => ((snd (fst ew), fst (fst ew)), snd ew)) E ->
  estimate_singlelayer_SBM_parameters g' (mkPart K c) None = estimate_singlelayer_SBM_parameters g (mkPart K c) None.
Proof.
  intros g g' ws ws' c K Hg Hg' Hw Hw' Hn Hlen Hl E E' H.
  assert (Hrefl : same_partition c c). { split; auto. intros i j a a' b b' Ha Ha' Hb Hb'. rewrite Ha in Hb. rewrite Ha' in Hb'. inversion Hb; inversion Hb'; subst; tauto. }
  assert (G : exists s, s <> 0 /\ forall i j, w_adj E' i j = s * w_adj E i j).
  { destruct H as [P|[F|[(s & Hs & ->)|Hb]]].
    - exists 1. split; [lra|]. intros i j. rewrite (w_adj_perm i j P). ring.
    - exists 1. split; [lra|]. intros i j. rewrite (w_adj_flip i j F). ring.
    - exists s. split; auto. intros i j. apply w_adj_scale.
    - exists 2. split; [lra|]. intros i j. rewrite Hb. apply w_adj_both_arcs. }
  destruct G as (s & Hs & Ha). apply (C28_adjacency_and_partition g g' ws ws' c c K s); auto.
Qed.
Print Assumptions C28_representation.

(** The same for gamma_estimate; [h] and [h'] are the graphs after weight defaulting, and both memberships use labels up
    to the same maximum (0..K-1). *)
Theorem C28_gamma_estimate : forall env g g' h h' ws ws' c c' s,
  wf_graph g -> wf_graph g' -> weights_defaulted (ee_contains env g) g h -> weights_defaulted (ee_contains env g') g' h' ->
  weights h = Some ws -> weights h' = Some ws' -> vcount g' = vcount g -> length c = vcount g ->
  same_partition c c' -> list_max c = list_max c' ->
  s <> 0 -> (forall i j, (i < vcount g)%nat -> (j < vcount g)%nat -> w_adj (weighted_edges h' ws') i j = s * w_adj (weighted_edges h ws) i j) ->
  snd (gamma_estimate env g' (Membership c')) = snd (gamma_estimate env g (Membership c)).
Proof.
  intros env g g' h h' ws ws' c c' s Hg Hg' Hh Hh' Hw Hw' Hn Hlen Hs Hmax Hz Ha.
  apply weighted_e_defaulted in Hh. apply weighted_e_defaulted in Hh'. subst h h'.
  assert (Hlen' : length c' = vcount g') by (destruct Hs as [E _]; lia).
  rewrite (@gamma_estimate_membership env g ws c), (@gamma_estimate_membership env g' ws' c') by auto. cbn [snd].
  assert (Em : list_max (map S c') = list_max (map S c)).
  { assert (G : forall l, l <> [] -> list_max (map S l) = S (list_max l)).
    { clear. induction l as [|a [|b l] IH]; intros H; [congruence|simpl; lia|]. cbn [map list_max fold_right] in *. specialize (IH ltac:(discriminate)).
      change (fold_right Nat.max 0%nat (map S (b :: l))) with (list_max (map S (b :: l))) in *. unfold list_max in *. cbn [map fold_right] in *. lia. }
    destruct Hs as [El _]. destruct c as [|x c], c' as [|y c']; try discriminate; auto. rewrite !G by discriminate. congruence. }
  rewrite Em, Hn. rewrite (@sbm_outcome_scale (vcount g) (list_max (map S c)) (combine (edges g) ws) (combine (edges g') ws') c c' s); auto.
  intros i j Hi Hj. specialize (Ha i j Hi Hj). unfold weighted_edges in Ha. rewrite !weighted_e_edges in Ha. auto.
Qed.
Print Assumptions C28_gamma_estimate.

Example C28_example : (* reversing the edge list and one orientation of the barbell *)
  Permutation (weighted_edges barbell [1; 1; 2; 1; 1; 1; 1]) (rev (weighted_edges barbell [1; 1; 2; 1; 1; 1; 1])) /\
  same_partition barbell_c [1; 1; 1; 0; 0; 0]%nat /\ list_max barbell_c = list_max [1; 1; 1; 0; 0; 0]%nat.
Proof.
  split; [apply Permutation_rev|]. split; [|reflexivity]. split; [reflexivity|]. unfold barbell_c. intros i j a a' b b' Ha Ha' Hb Hb'.
  assert (N : forall (x : nat), nth_error (@nil nat) x = None) by (intros []; reflexivity).
  do 6 (destruct i as [|i]; [do 6 (destruct j as [|j]; [cbn in *; inversion Ha; inversion Ha'; inversion Hb; inversion Hb'; subst; split; congruence|]); cbn in *; rewrite ?N in *; discriminate|]).
  cbn in *. rewrite ?N in *. discriminate.
Qed.

(** ** C29: the gamma estimate of two parameters. *)
Theorem C29_log_mean : forall a b, 0 < a -> 0 < b -> a <> b ->
  exists x, gamma_estimate_from_parameters a b = Some (Fin x) /\ x = (a - b) / (ln a - ln b) /\
    Rmin a b < x < Rmax a b /\ sqrt (a * b) < x < (a + b) / 2.
Proof.
  intros a b Ha Hb N. exists (log_mean a b). rewrite gamma_from_parameters. destruct (Req_EM_T a 0); [lra|]. destruct (Req_EM_T b 0); [lra|].
  destruct (Rlt_dec 0 a); [|lra]. destruct (Rlt_dec 0 b); [|lra]. destruct (Req_EM_T a b); [congruence|]. split; auto. split; [reflexivity|]. apply log_mean_bounds; auto.
Qed.
Print Assumptions C29_log_mean.

Theorem C29_symmetric_homogeneous : forall a b s x, 0 < a -> 0 < b -> a <> b -> 0 < s -> gamma_estimate_from_parameters a b = Some (Fin x) ->
  gamma_estimate_from_parameters b a = Some (Fin x) /\ gamma_estimate_from_parameters (s * a) (s * b) = Some (Fin (s * x)).
Proof.
  intros a b s x Ha Hb N Hs H. destruct (C29_log_mean a b Ha Hb N) as (y & Hy & Ey & _). assert (Exy : y = x) by congruence. rewrite Exy in Ey. clear y Hy Exy.
  destruct (C29_log_mean b a Hb Ha ltac:(auto)) as (y & Hy' & Ey' & _).
  assert (Ha' : 0 < s * a) by (apply Rmult_lt_0_compat; auto). assert (Hb' : 0 < s * b) by (apply Rmult_lt_0_compat; auto).
  assert (N' : s * a <> s * b) by (intros E; apply N; apply (Rmult_eq_reg_l s); auto; lra).
  destruct (C29_log_mean (s * a) (s * b) Ha' Hb' N') as (z & Hz & Ez & _).
  rewrite Hy', Hz. split; f_equal; f_equal.
  - rewrite Ey', Ey. apply (log_mean_sym b a); auto.
  - rewrite Ez, Ey. apply (log_mean_scale s a b); auto.
Qed.
Print Assumptions C29_symmetric_homogeneous.

(** None exactly for a zero parameter; not-a-number exactly for equal nonzero parameters or a negative one. *)
Theorem C29_degenerate : forall a b,
  (gamma_estimate_from_parameters a b = None <-> a = 0 \/ b = 0) /\
  (gamma_estimate_from_parameters a b = Some NonFinite <-> a <> 0 /\ b <> 0 /\ (a = b \/ a < 0 \/ b < 0)).
Proof.
  intros a b. rewrite gamma_from_parameters.
  destruct (Req_EM_T a 0), (Req_EM_T b 0), (Rlt_dec 0 a), (Rlt_dec 0 b), (Req_EM_T a b); subst; split; split; intros H; try discriminate; try tauto; try lra;
    try (repeat split; auto; fail); try (repeat split; auto; lra); try (destruct H as (? & ? & [?|[?|?]]); congruence || lra).
Qed.
Print Assumptions C29_degenerate.
Example C29_example : exists x, gamma_estimate_from_parameters 2 1 = Some (Fin x) /\ 1 < x < 3 / 2.
Proof.
  destruct (C29_log_mean 2 1) as (x & H & _ & Hb & Hc); try lra. exists x. rewrite Rmin_right in Hb by lra. split; auto. lra.
Qed.

(** ** C30: with positive weights gamma_estimate fails exactly when the graph has no edges, or when there is more than one
    label but all edge end points carry the same one (then always with ZeroDivisionError). *)
Theorem C30_exact : forall env g h ws c,
  wf_graph g -> weights_defaulted (ee_contains env g) g h -> weights h = Some ws -> (forall w, In w ws -> 0 < w) -> length c = vcount g ->
  let fails := edges g = [] \/
    (0 < list_max c)%nat /\ forall i j, end_point (weighted_edges h ws) i -> end_point (weighted_edges h ws) j -> nth i c 0%nat = nth j c 0%nat in
  (fails -> snd (gamma_estimate env g (Membership c)) = Raise ZeroDivisionError) /\
  (~ fails -> exists x, snd (gamma_estimate env g (Membership c)) = Ok x).
Proof.
  intros env g h ws c Hg Hh Hw Hpos Hlen fails. apply weighted_e_defaulted in Hh. subst h.
  rewrite (@gamma_estimate_membership env g ws c) by auto. cbn [snd].
  assert (EE : weighted_edges (weighted_e env g) ws = combine (edges g) ws) by (unfold weighted_edges; rewrite weighted_e_edges; auto).
  unfold fails. rewrite EE. clear fails EE. set (n := vcount g). set (E := combine (edges g) ws).
  assert (Hr : in_range_E n E) by (apply range_E_of; auto).
  assert (HposE : forall e w, In (e, w) E -> 0 < w) by (intros e w Hin; apply in_combine_r in Hin; auto).
  assert (Lw : length ws = length (edges g)). { rewrite <- (weighted_e_edges env g). apply (proj2 (weighted_e_wf env Hg)). auto. }
  assert (HE : E = [] <-> edges g = []).
  { unfold E. split; [|intros ->; reflexivity]. destruct (edges g), ws; simpl in *; try discriminate; auto. }
  assert (HK : Nat.ltb 1 (list_max (map S c)) = Nat.ltb 0 (list_max c)).
  { clear. assert (G : list_max (map S c) = match c with [] => 0%nat | _ => S (list_max c) end).
    { induction c as [|a c IH]; auto. unfold list_max in *. cbn [map fold_right] in *. rewrite IH. destruct c; cbn [fold_right] in *; lia. }
    rewrite G. destruct c; [reflexivity|]. destruct (Nat.ltb_spec 1 (S (list_max (n :: c)))), (Nat.ltb_spec 0 (list_max (n :: c))); auto; lia. }
  unfold sbm_outcome. rewrite HK. pose proof (@expected_between_zero n E c Hr HposE) as HB. split.
  - intros [He|[Hmx Hall]].
    + apply HE in He. assert (total_strength n E = 0) as ->; [|destruct (Req_EM_T 0 0); [reflexivity|congruence]].
      rewrite total_strength_w by auto. rewrite He. unfold total_w. cbn. rewrite rsum_nil. ring.
    + destruct (Req_EM_T (total_strength n E) 0); [reflexivity|]. destruct (Req_EM_T (expected_within n E c) 0); [reflexivity|].
      destruct (Nat.ltb_spec 0 (list_max c)); [|lia]. destruct (Req_EM_T (expected_between n E c) 0) as [|N]; [reflexivity|]. exfalso. apply N. apply HB. auto.
  - intros Hnf. assert (Hne : E <> []) by (intros He; apply Hnf; left; apply HE; auto).
    pose proof (@total_pos n E Hr HposE Hne). pose proof (@expected_within_pos n E c Hr HposE Hne).
    destruct (Req_EM_T (total_strength n E) 0); [lra|]. destruct (Req_EM_T (expected_within n E c) 0); [lra|].
    destruct (Nat.ltb_spec 0 (list_max c)); [|cbn [bind]; eauto]. destruct (Req_EM_T (expected_between n E c) 0) as [Z|N]; [|cbn [bind]; eauto].
    exfalso. apply Hnf. right. split; auto. apply HB. auto.
Qed.
Print Assumptions C30_exact.

(** The unrestricted claim is false: one edge and an isolated vertex in a community of its own. *)
Theorem C30_refuted : exists g c, wf_graph g /\ edges g <> [] /\ length c = vcount g /\ canonical c /\
  forall env, ee_contains env g = false -> snd (gamma_estimate env g (Membership c)) = Raise ZeroDivisionError.
Proof.
  exists (mkGraph 3 false [(0, 1)]%nat None), [0; 0; 1]%nat. split; [|split; [discriminate|split; [reflexivity|split]]].
  - split; [literal_edges|discriminate].
  - intros b i [Hb Hf] a Ha. destruct i as [|[|[|i]]]; cbn in Hb; try (destruct i; discriminate); inversion Hb; subst.
    + lia.
    + lia.
    + exists 0%nat. split; [lia|]. assert (a = 0%nat) by lia. subst. split; [reflexivity|]. intros j Hj. lia.
  - intros env He. destruct (C30_exact env (mkGraph 3 false [(0, 1)]%nat None) (mkGraph 3 false [(0, 1)]%nat (Some [1])) [1] [0; 0; 1]%nat) as [H _].
    + split; [literal_edges|discriminate].
    + rewrite He. cbn. repeat split; auto. exists [1]. split; auto. split; auto. intros w [<-|[]]; auto.
    + reflexivity.
    + intros w [<-|[]]; lra.
    + reflexivity.
    + apply H. right. split; [cbn; lia|].
      assert (G : forall i, end_point (weighted_edges (mkGraph 3 false [(0%nat, 1%nat)] (Some [1])) [1]) i -> nth i [0; 0; 1]%nat 0%nat = 0%nat).
      { intros i (u & v & w & [Hin|[]] & Hi). inversion Hin; subst. destruct Hi as [->| ->]; reflexivity. }
      intros i j Hi Hj. rewrite (G i Hi), (G j Hj). reflexivity.
Qed.
Print Assumptions C30_refuted.

Example C30_example : forall env, ee_contains env barbell = true -> exists x, snd (gamma_estimate env barbell (Membership barbell_c)) = Ok x.
Proof.
  intros env He. destruct (C30_exact env barbell barbell [1; 1; 2; 1; 1; 1; 1] barbell_c) as [_ H].
  - apply barbell_wf.
  - rewrite He. reflexivity.
  - reflexivity.
  - intros w Hin. cbn in Hin. repeat (destruct Hin as [<-|Hin]; [lra|]). destruct Hin.
  - reflexivity.
  - apply H. intros [Hz|[_ Hall]]; [discriminate|]. assert (C : (0 = 1)%nat); [|discriminate].
    apply (Hall 2%nat 3%nat); exists 2%nat, 3%nat, 1; (split; [cbn; tauto|tauto]).
Qed.
