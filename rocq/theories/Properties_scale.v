(** Property theorems: only relative connection strengths matter; isolated vertices: C97. *)
From Verif Require Import PyBase PyGraph M_partition M_pool M_champ M_estimation_utils Spec Spec_leiden Spec_graph Spec_adjacency Spec_scale Spec_champ Spec_polygon Spec_sbm Spec_prune
  Spec_stability Spec_tiling Spec_multisbm Spec_check Spec_valid
  L_base L_canon L_leiden L_modularity L_modularity3 L_champ L_champ2 L_champ3 L_tiling L_tiling3 L_sbm L_sbm2 L_multisbm L_prune L_accepted L_omega L_adjacency L_scale
  Properties_coefficients Properties_champ Properties_sbm Properties_multisbm Properties_multiprune Properties_tiling Properties_adjacency Properties_renumber.
From Coq Require Import Permutation Classical.
Open Scope R_scope.

(** ** C97 *)
(** Listing every edge k times multiplies the adjacency matrix by k; ... *)
Theorem C97_repeated : forall k g, wf_graph g -> (0 < k)%nat -> wf_graph (repeated k g) /\ proportional (INR k) g (repeated k g).
Proof.
  intros k g W Hk. split.
  - split.
    + intros u v H. cbn [repeated edges vcount] in *. apply in_concat in H as (l & Hl & H). apply repeat_spec in Hl. subst l. apply (proj1 W); auto.
    + intros ws H. cbn [repeated weights] in H. destruct (weights g) as [ws0|] eqn:Ew; [|discriminate]. cbn in H. inversion H; subst ws; clear H.
      unfold ecount. cbn [repeated edges]. pose proof (proj2 W ws0 Ew) as L. unfold ecount in L. clear - L. induction k as [|k IH]; [reflexivity|]. cbn [repeat concat]. rewrite !app_length. lia.
  - split; [reflexivity|]. intros i j _ _.
    assert (G : forall i j, arcs (edges (repeated k g)) i j = INR k * arcs (edges g) i j).
    { clear. intros i j. cbn [repeated edges]. unfold arcs. induction k as [|k IH]; [cbn; lra|]. cbn [repeat concat]. rewrite count_occ_app, plus_INR, IH, S_INR. lra. }
    unfold adjacency. rewrite !G. cbn [repeated directed]. destruct (directed g); lra.
Qed.
Print Assumptions C97_repeated.

(** ... modularity is multiplied too, at every resolution; in the multilayer case, with intralayer strengths multiplied by s and
    couplings by t, the coupling parameter omega becomes (s / t) omega; ... *)
Theorem C97_modularity : forall s g g', wf_graph g -> wf_graph g' -> proportional s g g' -> 0 < s ->
  (forall gamma c, modularity g' gamma c = s * modularity g gamma c) /\
  forall t gi gi' lv, wf_graph gi -> wf_graph gi' -> proportional t gi gi' -> 0 < t -> edges_within_layers g lv ->
  forall gamma omega c, multilayer_modularity g' gi' lv gamma (s / t * omega) c = s * multilayer_modularity g gi lv gamma omega c.
Proof.
  intros s g g' W W' S Hs. split; [intros; apply pr_modularity; auto|]. intros t gi gi' lv Wi Wi' Si Ht Hw gamma omega c. apply pr_multilayer; auto.
Qed.
Print Assumptions C97_modularity.

(** ... CHAMP returns the same ranges for the same partitions; ... *)
Theorem C97_CHAMP_2D : forall env env' s g g' parts gamma_0 gamma_f single_threaded single_threaded' ranges ranges',
  champ_ok_2D env g parts -> champ_ok_2D env' g' parts -> irredundant_hsi 2 (env_hsi env) -> irredundant_hsi 2 (env_hsi env') ->
  proportional s g g' -> 0 < s -> distinguishable g parts ->
  CHAMP_2D env g parts gamma_0 gamma_f single_threaded = Ok ranges -> CHAMP_2D env' g' parts gamma_0 gamma_f single_threaded' = Ok ranges' ->
  ranges' = ranges.
Proof.
  intros env env' s g g' parts g0 gf st st' r r' H1 H2 I1 I2 S Hs Hd E1 E2.
  rewrite <- (map_id parts) in H2, E2.
  rewrite (@runs_equal_f env env' g g' parts (fun c => c) s g0 gf st st' Hs H1 H2 I1 I2 (fun gamma c _ => @pr_modularity g g' s (c2_graph H1) (c2_graph H2) S Hs gamma c) r r' Hd); auto.
  - rewrite <- (map_id r) at 2. apply map_ext. intros [a b]. reflexivity.
  - rewrite map_id. apply Hd.
Qed.
Print Assumptions C97_CHAMP_2D.

(** ... in the multilayer case the domains, stretched by s / t in the direction of omega, ... *)
Theorem C97_CHAMP_3D : forall env env' s t g g' gi gi' lv parts gamma_0 gamma_f omega_0 omega_f domains domains' poly part,
  champ_ok_3D env g gi lv parts -> champ_ok_3D env' g' gi' lv parts ->
  irredundant_hsi 3 (env_hsi env) -> irredundant_hsi 3 (env_hsi env') -> full_facets_hsi 3 (env_hsi env) ->
  proportional s g g' -> proportional t gi gi' -> 0 < s -> 0 < t ->
  CHAMP_3D env g gi lv parts gamma_0 gamma_f omega_0 omega_f = Ok domains ->
  CHAMP_3D env' g' gi' lv parts gamma_0 gamma_f (s / t * omega_0) (s / t * omega_f) = Ok domains' ->
  In (poly, part) domains -> exists poly' part', In (poly', part') domains' /\
    (forall gamma omega, in_polygon poly' (gamma, s / t * omega) <-> in_polygon poly (gamma, omega)) /\
    forall gamma omega, multilayer_modularity g gi lv gamma omega part = multilayer_modularity g gi lv gamma omega part'.
Proof.
  intros env env' s t g g' gi gi' lv parts g0 gf o0 of d d' poly part H1 H2 I1 I2 F1 S Si Hs Ht E1 E2 Hin.
  assert (Hu : 0 < s / t) by (apply Rdiv_lt_0_compat; auto).
  pose proof (fun gamma omega c (_ : In c parts) => @pr_multilayer g g' gi gi' s t lv gamma omega c (c3_graph H1) (c3_graph H2) (c3_inter H1) (c3_inter H2) S Si Hs Ht (c3_within H1)) as Hobj.
  rewrite <- (map_id parts) in H2, E2.
  destruct (@runs_agree_3D_f env env' g gi g' gi' lv lv parts (fun c => c) s (s / t) g0 gf o0 of Hs Hu H1 H2 I1 F1 Hobj d d' poly part E1 E2 Hin) as (poly' & p' & _ & R1 & R2 & R3).
  exists poly', p'. auto.
Qed.
Print Assumptions C97_CHAMP_3D.

(** ... and the same polygons, corner by corner, when both graphs are scaled alike; ... *)
Theorem C97_CHAMP_3D_alike : forall env env' s g g' gi gi' lv parts gamma_0 gamma_f omega_0 omega_f domains domains',
  champ_ok_3D env g gi lv parts -> champ_ok_3D env' g' gi' lv parts ->
  irredundant_hsi 3 (env_hsi env) -> irredundant_hsi 3 (env_hsi env') -> full_facets_hsi 3 (env_hsi env) -> full_facets_hsi 3 (env_hsi env') ->
  proportional s g g' -> proportional s gi gi' -> 0 < s -> distinguishable_3D g gi lv parts ->
  CHAMP_3D env g gi lv parts gamma_0 gamma_f omega_0 omega_f = Ok domains -> CHAMP_3D env' g' gi' lv parts gamma_0 gamma_f omega_0 omega_f = Ok domains' ->
  Permutation domains' domains.
Proof.
  assert (G : forall env env' s g g' gi gi' lv parts g0 gf o0 of d d', champ_ok_3D env g gi lv parts -> champ_ok_3D env' g' gi' lv parts ->
    irredundant_hsi 3 (env_hsi env) -> irredundant_hsi 3 (env_hsi env') -> full_facets_hsi 3 (env_hsi env) ->
    proportional s g g' -> proportional s gi gi' -> 0 < s -> distinguishable_3D g gi lv parts ->
    CHAMP_3D env g gi lv parts g0 gf o0 of = Ok d -> CHAMP_3D env' g' gi' lv parts g0 gf o0 of = Ok d' -> (forall r, In r d -> In r d') /\ NoDup d).
  { intros env env' s g g' gi gi' lv parts g0 gf o0 of d d' H1 H2 I1 I2 F1 S Si Hs (ND & Hd) E1 E2. split.
    - intros [poly p] Hin.
      assert (Hobj : forall gamma omega c, In c parts -> multilayer_modularity g' gi' lv gamma (1 * omega) c = s * multilayer_modularity g gi lv gamma omega c).
      { intros gamma omega c _. rewrite <- (@pr_multilayer g g' gi gi' s s lv gamma omega c (c3_graph H1) (c3_graph H2) (c3_inter H1) (c3_inter H2) S Si Hs Hs (c3_within H1)).
        f_equal. field. lra. }
      assert (H2' : champ_ok_3D env' g' gi' lv (map (fun c => c) parts)) by (rewrite map_id; auto).
      assert (E2' : CHAMP_3D env' g' gi' lv (map (fun c => c) parts) g0 gf o0 of = Ok d') by (rewrite map_id; auto).
      destruct (@runs_agree_3D_same env env' g gi g' gi' lv lv parts (fun c => c) s 1 g0 gf o0 of Hs Rlt_0_1 H1 H2' I1 I2 F1 Hobj d d' poly p eq_refl E1 E2' Hin) as (p' & Hp' & R1 & R2).
      destruct (classic (p = p')) as [->|N]; auto. exfalso. destruct (@domain_facts _ _ _ _ _ _ _ _ _ H1 _ poly p E1 Hin) as (Hp & _).
      destruct (Hd p p' Hp Hp' N) as (a & b & Nab). apply Nab. apply R2.
    - destruct (@domain_shape _ _ _ _ _ _ _ _ _ H1 _ E1) as (idx & NDi & HF).
      clear - ND NDi HF. induction HF as [|i r idx l Hr HF IH]; [constructor|]. inversion NDi as [|? ? Ni NDi']; subst. constructor; auto.
      intros Hin. apply Ni. clear - ND HF Hin Hr. induction HF as [|j r' idx l Hr' HF IH]; [destruct Hin|].
      destruct Hin as [->|Hin]; [left|right; auto]. eapply NoDup_nth_error; [exact ND| |congruence]. apply nth_error_Some. congruence. }
  intros env env' s g g' gi gi' lv parts g0 gf o0 of d d' H1 H2 I1 I2 F1 F2 S Si Hs Hd E1 E2.
  destruct (G env env' s g g' gi gi' lv parts g0 gf o0 of d d') as (A1 & A2); auto.
  assert (B : forall h h', proportional s h h' -> proportional (/ s) h' h).
  { intros h h' [V A]. split; [auto|]. intros i j Hi Hj. rewrite V in Hi, Hj. rewrite A by auto. field. lra. }
  destruct (G env' env (/ s) g' g gi' gi lv parts g0 gf o0 of d' d) as (B1 & B2); auto.
  - apply Rinv_0_lt_compat; auto.
  - destruct Hd as (ND & Hd). split; auto. intros c c' Hc Hc' N. destruct (Hd c c' Hc Hc' N) as (a & b & Q). exists a, b.
    assert (R : forall x, multilayer_modularity g' gi' lv a b x = s * multilayer_modularity g gi lv a b x).
    { intros x. rewrite <- (@pr_multilayer g g' gi gi' s s lv a b x (c3_graph H1) (c3_graph H2) (c3_inter H1) (c3_inter H2) S Si Hs Hs (c3_within H1)). f_equal. field. lra. }
    rewrite !R. intros Z. apply Q. apply (Rmult_eq_reg_l s); lra.
  - apply NoDup_Permutation; auto. intros r. split; auto.
Qed.
Print Assumptions C97_CHAMP_3D_alike.

(** ... the estimates do not change, ... *)
Lemma pr_w_adj s g g' i j : proportional s g g' -> (i < vcount g)%nat -> (j < vcount g)%nat ->
  w_adj (combine (edges g') (repeat 1 (length (edges g')))) i j = s * sa_scale g g' * w_adj (combine (edges g) (repeat 1 (length (edges g)))) i j.
Proof.
  intros S Hi Hj. unfold sa_scale. pose proof (side_pos g). pose proof (side_pos g'). pose proof (w_adj_ones g i j) as A. pose proof (w_adj_ones g' i j) as B.
  destruct S as [V Sa]. rewrite !Sa in B by auto. rewrite <- Rmult_plus_distr_l, <- A in B. apply (Rmult_eq_reg_l (side g')); [|lra]. rewrite B. field. lra.
Qed.
Theorem C97_gamma_estimate : forall env s g g' c, wf_graph g -> wf_graph g' -> proportional s g g' -> 0 < s ->
  counts_edges (ee_contains env g) g -> counts_edges (ee_contains env g') g' ->
  snd (gamma_estimate env g' (Membership c)) = snd (gamma_estimate env g (Membership c)).
Proof.
  intros env s g g' c W W' A Hs C C'. pose proof (proj1 A) as V. destruct (Nat.eq_dec (length c) (vcount g)) as [L|L].
  - apply C28_gamma_estimate with (h := weighted_e env g) (h' := weighted_e env g') (ws := repeat 1 (length (edges g))) (ws' := repeat 1 (length (edges g'))) (s := s * sa_scale g g'); auto.
    + apply weighted_e_defaulted; auto.
    + apply weighted_e_defaulted; auto.
    + apply counted; auto.
    + apply counted; auto.
    + split; [reflexivity|]. intros i j a a' b b' H1 H2 H3 H4. split; congruence.
    + pose proof (Rmult_lt_0_compat _ _ Hs (sa_scale_pos g g')). lra.
    + intros i j Hi Hj. unfold weighted_edges. rewrite !weighted_e_edges. apply pr_w_adj; auto.
  - rewrite !gamma_estimate_graph by auto. cbn [snd]. unfold leiden_part_with_membership. rewrite !weighted_e_vcount, V.
    destruct (Nat.eqb_spec (length c) (vcount g)); [contradiction|]. reflexivity.
Qed.
Print Assumptions C97_gamma_estimate.

Lemma pr_valid s g g' gi lv model : wf_graph g -> wf_graph g' -> proportional s g g' -> 0 < s ->
  valid_multilayer g gi (repeat 1 (length (edges g))) lv model -> valid_multilayer g' gi (repeat 1 (length (edges g'))) lv model.
Proof.
  intros W W' S Hs Hv. assert (Hw : edges_within_layers g lv) by (apply (@acc_facts g gi lv model _ W (valid_accepted W Hv))).
  assert (Hwi : forall t, weight_in (weighted_edges g' (repeat 1 (length (edges g')))) lv t = s * sa_scale g g' * weight_in (weighted_edges g (repeat 1 (length (edges g)))) lv t).
  { intros t. unfold weighted_edges.
    assert (R1 : in_range_E (vcount g) (layer_edges (combine (edges g) (repeat 1 (length (edges g)))) lv t)) by (apply layer_range, ones_range; exact W).
    assert (R2 : in_range_E (vcount g) (layer_edges (combine (edges g') (repeat 1 (length (edges g')))) lv t)) by (rewrite <- (proj1 S); apply layer_range, ones_range; exact W').
    assert (Ha : forall i j, (i < vcount g)%nat -> (j < vcount g)%nat -> w_adj (layer_edges (combine (edges g') (repeat 1 (length (edges g')))) lv t) i j
      = s * sa_scale g g' * w_adj (layer_edges (combine (edges g) (repeat 1 (length (edges g)))) lv t) i j).
    { intros i j Hi Hj. apply layer_adj_scale.
      - intros [u v] w Hin. apply in_combine_l in Hin. apply Hw; auto.
      - intros [u v] w Hin. apply in_combine_l in Hin. apply (@pr_within g g' s W' S Hs lv Hw); auto.
      - apply pr_w_adj; auto. }
    pose proof (total_scale Ha) as Ts.
    rewrite (total_strength_w R1), (total_strength_w R2) in Ts.
    change (weight_in (combine (edges g') (repeat 1 (length (edges g')))) lv t) with (total_w (layer_edges (combine (edges g') (repeat 1 (length (edges g')))) lv t)).
    change (weight_in (combine (edges g) (repeat 1 (length (edges g)))) lv t) with (total_w (layer_edges (combine (edges g) (repeat 1 (length (edges g)))) lv t)). lra. }
  apply (@valid_transfer g g' gi (repeat 1 (length (edges g))) (repeat 1 (length (edges g'))) lv model); auto; [apply S|intros _; eapply pr_within with (g := g); eauto|].
  intros t Q. rewrite Hwi. apply Rmult_lt_0_compat; [apply Rmult_lt_0_compat; [exact Hs|apply sa_scale_pos]|exact Q].
Qed.

Theorem C97_gamma_omega_estimate : forall env s g g' gi lv c omega_max model, wf_graph g -> wf_graph g' -> wf_graph gi -> proportional s g g' -> 0 < s ->
  counts_edges (ee_contains env g) g -> counts_edges (ee_contains env g') g' ->
  valid_multilayer g gi (repeat 1 (length (edges g))) lv model -> is_model model ->
  snd (gamma_omega_estimate env g' gi lv c omega_max model None None None None) = snd (gamma_omega_estimate env g gi lv c omega_max model None None None None).
Proof.
  intros env s g g' gi lv c om model W W' Wi S Hs C C' Hv Hm.
  assert (Hw : edges_within_layers g lv) by (apply (@acc_facts g gi lv model _ W (valid_accepted W Hv))).
  apply (@go_scaled env g g' gi lv c om model (repeat 1 (length (edges g))) (repeat 1 (length (edges g'))) (s * sa_scale g g')); auto.
  - apply S.
  - apply counted; auto.
  - apply counted; auto.
  - intros w Hin. apply repeat_spec in Hin. lra.
  - intros w Hin. apply repeat_spec in Hin. lra.
  - eapply pr_valid with (g := g); eauto.
  - apply Rmult_lt_0_compat; [auto|apply sa_scale_pos].
  - intros t i j Hi Hj. apply layer_adj_scale.
    + intros [u v] w Hin. apply in_combine_l in Hin. apply Hw; auto.
    + intros [u v] w Hin. apply in_combine_l in Hin. apply (@pr_within g g' s W' S Hs lv Hw); auto.
    + apply pr_w_adj; auto.
Qed.
Print Assumptions C97_gamma_omega_estimate.

(** ... and pruning returns the same list. *)
Theorem C97_prune : forall env s g g' inputs gamma_start gamma_end restrict single_threaded single_threaded' result result',
  prune_ok_2D env g inputs -> irredundant_hsi 2 (env_hsi (ee_champ env)) -> wf_graph g' -> proportional s g g' -> 0 < s ->
  counts_edges (ee_contains env g) g -> counts_edges (ee_contains env g') g' -> told_apart g inputs restrict ->
  snd (prune_to_stable_partitions env g (Tuples inputs) gamma_start gamma_end restrict single_threaded) = Ok result ->
  snd (prune_to_stable_partitions env g' (Tuples inputs) gamma_start gamma_end restrict single_threaded') = Ok result' ->
  result' = result.
Proof.
  intros env s g g' inputs a b rs st st' r r' Hok Hir W' S Hs C C' Ht H H'.
  assert (W : wf_graph g) by apply Hok. assert (Hok' : prune_ok_2D env g' inputs).
  { destruct Hok. constructor; auto; [intros; rewrite (proj1 S); auto|eapply pr_edges; eauto]. }
  destruct (@prune_2D_unfold env g inputs a b rs st Hok) as (ps & Nd & I & K & E & U). destruct (@prune_2D_unfold env g' inputs a b rs st' Hok') as (ps' & _ & _ & K' & E' & U').
  assert (ps' = ps) by congruence. subst ps'. rewrite U in H. rewrite U' in H'. apply bind_ok in H as (ranges & HR & H). apply bind_ok in H' as (ranges' & HR' & H').
  assert (ranges' = ranges) as ->.
  { apply (C97_CHAMP_2D (ee_champ env) (ee_champ env) s g g' ps a b st st' ranges ranges'); auto. split; auto. intros x y Hx Hy. apply Ht; apply I; auto. }
  rewrite ranges_loop in H by auto. rewrite ranges_loop in H' by auto.
  rewrite (mapM_ext _ (fun r => let! x := snd (gamma_estimate env g (Membership (snd r))) in Ok (r, x)) ranges) in H'; [congruence|].
  intros q _. rewrite (C97_gamma_estimate env s g g' (snd q)); auto.
Qed.
Print Assumptions C97_prune.

(** Multiplying all edge weights by the same positive number changes no estimate and no pruning outcome, exceptions included. *)
Theorem C97_reweighted : forall env s g ws, wf_graph g -> weights g = Some ws -> 0 < s -> ee_contains env g = true -> ee_contains env (reweighted s g) = true ->
  (forall c, snd (gamma_estimate env (reweighted s g) (Membership c)) = snd (gamma_estimate env g (Membership c))) /\
  (forall inputs gamma_start gamma_end restrict single_threaded, prune_ok_2D env g inputs ->
   snd (prune_to_stable_partitions env (reweighted s g) (Tuples inputs) gamma_start gamma_end restrict single_threaded)
   = snd (prune_to_stable_partitions env g (Tuples inputs) gamma_start gamma_end restrict single_threaded)) /\
  (forall gi lv model, wf_graph gi -> (forall w, In w ws -> 0 < w) -> valid_multilayer g gi ws lv model -> is_model model ->
   (forall c omega_max, snd (gamma_omega_estimate env (reweighted s g) gi lv c omega_max model None None None None)
      = snd (gamma_omega_estimate env g gi lv c omega_max model None None None None)) /\
   (forall inputs gamma_start gamma_end omega_start omega_end restrict, prune_ok_3D env g gi lv inputs ->
    snd (prune_to_multilayer_stable_partitions env (reweighted s g) gi lv model (Tuples inputs) gamma_start gamma_end omega_start omega_end restrict false)
    = snd (prune_to_multilayer_stable_partitions env g gi lv model (Tuples inputs) gamma_start gamma_end omega_start omega_end restrict false))).
Proof.
  intros env s g ws W Hw Hs C C'. set (g' := reweighted s g).
  assert (Hw' : weights g' = Some (map (Rmult s) ws)) by (unfold g', reweighted; cbn [weights]; rewrite Hw; reflexivity).
  assert (W' : wf_graph g').
  { destruct W as [W1 W2]. split; [exact W1|]. intros ws' H. rewrite Hw' in H. inversion H; subst. rewrite map_length. apply (W2 ws Hw). }
  assert (A : same_adjacency g g') by (split; [reflexivity|intros; reflexivity]).
  assert (EE : weighted_edges g' (map (Rmult s) ws) = map (fun ew => (fst ew, s * snd ew)) (weighted_edges g ws)).
  { unfold weighted_edges. cbn [g' reweighted edges]. clear. revert ws. induction (edges g) as [|e E IH]; intros [|w ws]; [reflexivity..|]. cbn [map combine fst snd]. rewrite IH. reflexivity. }
  assert (Wg : weighted_e env g = g) by (unfold weighted_e; rewrite C; reflexivity).
  assert (Wg' : weighted_e env g' = g') by (unfold weighted_e; fold g' in C'; rewrite C'; reflexivity).
  assert (G1 : forall c, snd (gamma_estimate env g' (Membership c)) = snd (gamma_estimate env g (Membership c))).
  { intros c. destruct (Nat.eq_dec (length c) (vcount g)) as [L|L].
    - apply C28_gamma_estimate with (h := g) (h' := g') (ws := ws) (ws' := map (Rmult s) ws) (s := s); auto; try lra.
      + apply weighted_e_defaulted; auto.
      + apply weighted_e_defaulted; auto.
      + split; [reflexivity|]. intros i j a a' b b' H1 H2 H3 H4. split; congruence.
      + intros i j _ _. rewrite EE. apply w_adj_scale.
    - rewrite !gamma_estimate_graph by auto. cbn [snd]. unfold leiden_part_with_membership. rewrite !weighted_e_vcount. cbn [g' reweighted vcount].
      destruct (Nat.eqb_spec (length c) (vcount g)); [contradiction|]. reflexivity. }
  split; [exact G1|]. split.
  - intros inputs gs ge rs st H. assert (H' : prune_ok_2D env g' inputs) by (destruct H; constructor; auto).
    destruct (@prune_2D_unfold env g inputs gs ge rs st H) as (ps & _ & _ & K & E & U). destruct (@prune_2D_unfold env g' inputs gs ge rs st H') as (ps' & _ & _ & K' & E' & U').
    assert (ps' = ps) by congruence. subst ps'. rewrite U, U'. rewrite (proj1 (C85_CHAMP _ _ _ _ W' A) gs ge st K).
    destruct (CHAMP_2D (ee_champ env) g ps gs ge st) as [ranges|]; [|reflexivity]. cbn [bind]. rewrite !ranges_loop by auto. f_equal. apply mapM_ext.
    intros r _. rewrite G1. reflexivity.
  - intros gi lv model Wi Pw Hv Hm.
    assert (Hwi : edges_within_layers g lv) by (apply (@acc_facts g gi lv model ws W (valid_accepted W Hv))).
    assert (LE : forall t, layer_edges (weighted_edges g' (map (Rmult s) ws)) lv t = map (fun ew => (fst ew, s * snd ew)) (layer_edges (weighted_edges g ws) lv t)).
    { intros t. rewrite EE. unfold layer_edges. clear. induction (weighted_edges g ws) as [|e E IH]; [reflexivity|]. cbn [map filter fst snd]. rewrite IH. destruct (Nat.eqb _ _); reflexivity. }
    assert (Hv' : valid_multilayer g' gi (map (Rmult s) ws) lv model).
    { apply (@valid_transfer g g' gi ws (map (Rmult s) ws) lv model); auto. intros t Q. unfold weight_in in *. rewrite LE, map_map. cbn [snd].
      assert (Z : forall l, fold_right Rplus 0 (map (fun x : wedge => s * snd x) l) = s * fold_right Rplus 0 (map snd l)).
      { clear. induction l as [|x l IH]; [cbn; ring|]. cbn [map fold_right]. rewrite IH. ring. }
      rewrite Z. apply Rmult_lt_0_compat; auto. }
    assert (G2 : forall c om, snd (gamma_omega_estimate env g' gi lv c om model None None None None) = snd (gamma_omega_estimate env g gi lv c om model None None None None)).
    { intros c om. apply (@go_scaled env g g' gi lv c om model ws (map (Rmult s) ws) s); auto.
      - rewrite Wg; auto.
      - rewrite Wg'; auto.
      - intros w Hin. apply in_map_iff in Hin as (x & <- & Hx). apply Rmult_lt_0_compat; auto.
      - intros t i j _ _. rewrite LE. apply w_adj_scale. }
    split; [exact G2|]. intros inputs gs ge os oe rs H. assert (H' : prune_ok_3D env g' gi lv inputs) by (destruct H; constructor; auto).
    destruct (@prune_3D_unfold env g gi lv model inputs gs ge os oe rs H) as (ps & _ & _ & K & E & U). destruct (@prune_3D_unfold env g' gi lv model inputs gs ge os oe rs H') as (ps' & _ & _ & K' & E' & U').
    assert (ps' = ps) by congruence. subst ps'. rewrite U, U'. rewrite (proj2 (C85_CHAMP _ _ _ _ W' A) gi lv gs ge os oe K).
    destruct (CHAMP_3D (ee_champ env) g gi lv ps gs ge os oe) as [domains|]; [|reflexivity]. cbn [bind]. rewrite !domains_loop. f_equal. apply mapM_ext.
    intros d _. rewrite G2. reflexivity.
Qed.
Print Assumptions C97_reweighted.

(** *** Isolated vertices.  [c ++ d] extends the partition [c] by labels for the new vertices: modularity and the CHAMP outcome
    (exceptions included) do not depend on [d], ... *)
Theorem C97_isolated_modularity : forall g k c d, wf_graph g -> length c = vcount g -> length d = k ->
  (forall gamma, modularity (padded k g) gamma (c ++ d) = modularity g gamma c) /\
  forall gi lv lv' gamma omega, wf_graph gi -> vcount gi = vcount g -> length lv = vcount g -> length lv' = k ->
    multilayer_modularity (padded k g) (padded k gi) (lv ++ lv') gamma omega (c ++ d) = multilayer_modularity g gi lv gamma omega c.
Proof.
  intros g k c d W L Ld. split; [intros; apply pd_modularity; auto|]. intros gi lv lv' gamma omega Wi Vi Ll _.
  rewrite !multilayer_APC, pd_A, pd_P3, pd_A by (auto; lia). reflexivity.
Qed.
Print Assumptions C97_isolated_modularity.

Lemma pd_champ_2D env g k parts extend : champ_ok_2D env g parts -> (forall c, In c parts -> length (extend c) = k) ->
  champ_ok_2D env (padded k g) (map (fun c => c ++ extend c) parts).
Proof.
  intros [] Hk. constructor; auto.
  - unfold valid_pool in *. rewrite map_length. auto.
  - apply pd_wf; auto.
  - intros c Hc. apply in_map_iff in Hc as (c0 & <- & Hc). rewrite app_length, Hk by auto. cbn [padded vcount]. rewrite c2_parts; auto.
Qed.
Lemma pd_champ_3D env g gi k lv lv' parts extend : champ_ok_3D env g gi lv parts -> vcount gi = vcount g -> length lv' = k -> (forall l, In l lv' -> In l lv) ->
  (forall c, In c parts -> length (extend c) = k) -> champ_ok_3D env (padded k g) (padded k gi) (lv ++ lv') (map (fun c => c ++ extend c) parts).
Proof.
  intros [] Vi Ll Hl Hk. constructor; auto.
  - unfold valid_pool in *. rewrite map_length. auto.
  - apply pd_wf; auto.
  - apply pd_wf; auto.
  - rewrite app_length. cbn [padded vcount]. lia.
  - intros Z. apply app_eq_nil in Z as [Z _]. auto.
  - cbn [padded vcount]. lia.
  - apply pd_within; auto.
  - apply pd_has; auto.
  - intros c Hc. apply in_map_iff in Hc as (c0 & <- & Hc). rewrite app_length, Hk by auto. cbn [padded vcount]. rewrite c3_parts; auto.
Qed.
Theorem C97_isolated_CHAMP : forall env g k parts extend, (forall c, In c parts -> length (extend c) = k) ->
  let with_isolated := fun c : list nat => c ++ extend c in
  (forall g0 gf single_threaded, champ_ok_2D env g parts ->
   CHAMP_2D env (padded k g) (map with_isolated parts) g0 gf single_threaded
   = let! ranges := CHAMP_2D env g parts g0 gf single_threaded in Ok (map (fun r => (fst r, with_isolated (snd r))) ranges)) /\
  (forall gi lv lv' g0 gf o0 of, champ_ok_3D env g gi lv parts -> vcount gi = vcount g -> length lv' = k -> (forall l, In l lv' -> In l lv) ->
   CHAMP_3D env (padded k g) (padded k gi) (lv ++ lv') (map with_isolated parts) g0 gf o0 of
   = let! domains := CHAMP_3D env g gi lv parts g0 gf o0 of in Ok (map (fun d => (fst d, with_isolated (snd d))) domains)).
Proof.
  intros env g k parts extend Hk f. split.
  - intros g0 gf st H. destruct parts as [|c ps]; [reflexivity|].
    rewrite (@CHAMP_2D_unfold env g _ g0 gf st H), (@CHAMP_2D_unfold env (padded k g) (map f (c :: ps)) g0 gf st (pd_champ_2D _ _ _ _ _ H Hk)) by discriminate.
    assert (W : wf_graph g) by apply H. rewrite map_length, !(map_map f).
    rewrite (map_ext_in (fun x => A_of (padded k g) (f x)) (A_of g)) by (intros x Hx; apply pd_A; auto; rewrite (c2_parts H) by auto; lia).
    rewrite (map_ext_in (fun x => P_of (padded k g) (f x)) (P_of g)) by (intros x Hx; apply pd_P; auto; rewrite (c2_parts H) by auto; lia).
    destruct (champ_halfspaces_2D _ _ g0 gf) as [hs|]; [|reflexivity]. cbn [bind]. destruct (interior_point env hs) as [pt|]; [|reflexivity]. cbn [bind].
    destruct (env_hsi env hs pt) as [out|]; [|reflexivity]. cbn [bind]. destruct (facets_by_halfspace _ out) as [d|]; [|reflexivity]. cbn [bind].
    rewrite (mapM_map (range_of_facet (c :: ps)) (fun r => (fst r, f (snd r)))).
    + destruct (mapM (range_of_facet (c :: ps)) d) as [rs|]; [|reflexivity]. cbn [bind]. f_equal. apply sort_by_map. intros a b. reflexivity.
    + intros x. unfold range_of_facet. destruct (py_get (snd x) 0) as [v1|]; [|reflexivity]. cbn [bind]. destruct (py_get v1 0) as [x1|]; [|reflexivity]. cbn [bind].
      destruct (py_get (snd x) 1) as [v2|]; [|reflexivity]. cbn [bind]. destruct (py_get v2 0) as [x2|]; [|reflexivity]. cbn [bind]. rewrite py_get_map.
      destruct (py_get (c :: ps) (fst x)); [|reflexivity]. cbn [bind]. destruct (Rltb _ _); reflexivity.
  - intros gi lv lv' g0 gf o0 of H Vi Ll Hl. destruct parts as [|c ps]; [reflexivity|].
    rewrite (@CHAMP_3D_unfold env g gi lv _ g0 gf o0 of H), (@CHAMP_3D_unfold env (padded k g) (padded k gi) (lv ++ lv') (map f (c :: ps)) g0 gf o0 of (pd_champ_3D _ _ _ _ _ _ _ _ H Vi Ll Hl Hk)) by discriminate.
    assert (W : wf_graph g) by apply H. assert (Wi : wf_graph gi) by apply H. rewrite map_length, !(map_map f).
    rewrite (map_ext_in (fun x => A_of (padded k g) (f x)) (A_of g)) by (intros x Hx; apply pd_A; auto; rewrite (c3_parts H) by auto; lia).
    rewrite (map_ext_in (fun x => A_of (padded k gi) (f x)) (A_of gi)) by (intros x Hx; apply pd_A; auto; rewrite (c3_parts H) by auto; lia).
    rewrite (map_ext_in (fun x => P3_of (padded k g) (lv ++ lv') (f x)) (P3_of g lv)) by (intros x Hx; apply pd_P3; auto; [apply (c3_parts H); auto|apply (c3_layers H)]).
    destruct (champ_halfspaces_3D _ _ _ g0 gf o0 of) as [hs|]; [|reflexivity]. cbn [bind]. destruct (interior_point env hs) as [pt|]; [|reflexivity]. cbn [bind].
    destruct (env_hsi env hs pt) as [out|]; [|reflexivity]. cbn [bind]. destruct (facets_by_halfspace _ out) as [d|]; [|reflexivity]. cbn [bind].
    apply mapM_map. intros x. unfold domain_of_facet. destruct (mapM project (snd x)); [|reflexivity]. cbn [bind]. rewrite py_get_map.
    destruct (py_get (c :: ps) (fst x)); reflexivity.
Qed.
Print Assumptions C97_isolated_CHAMP.

(** ... and the gamma estimate is the same when the isolated vertices join existing communities, or when there were at least two
    communities already; but isolated vertices in communities of their own turn the answer for a single community (None, when its
    expected weight is not zero) into a ZeroDivisionError. *)
Theorem C97_isolated_gamma_estimate : forall env g k c d h ws, wf_graph g -> length c = vcount g -> length d = k -> (0 < vcount g)%nat ->
  weights_defaulted (ee_contains env g) g h -> weights h = Some ws -> ee_contains env (padded k g) = ee_contains env g ->
  ((0 < list_max c)%nat \/ list_max (c ++ d) = list_max c ->
   snd (gamma_estimate env (padded k g) (Membership (c ++ d))) = snd (gamma_estimate env g (Membership c))) /\
  (list_max c = 0%nat -> (0 < list_max d)%nat -> snd (gamma_estimate env (padded k g) (Membership (c ++ d))) = Raise ZeroDivisionError).
Proof.
  intros env g k c d h ws W L Ld Hn Hh Hw Hc. apply weighted_e_defaulted in Hh. subst h.
  assert (Hw' : weights (weighted_e env (padded k g)) = Some ws).
  { unfold weighted_e in *. rewrite Hc. destruct (ee_contains env g); [exact Hw|]. cbn [weights padded edges] in *. exact Hw. }
  assert (G : forall l, l <> [] -> list_max (map S l) = S (list_max l)).
  { clear. induction l as [|a [|b l] IH]; intros H; [congruence|simpl; lia|]. specialize (IH ltac:(discriminate)). unfold list_max in *. cbn [map fold_right] in *. lia. }
  rewrite (@gamma_estimate_membership env g ws c), (@gamma_estimate_membership env (padded k g) ws (c ++ d)); auto; [|apply pd_wf; auto|rewrite app_length; cbn [padded vcount]; lia].
  cbn [snd padded vcount edges]. rewrite !G by (intros Z; (apply app_eq_nil in Z as [Z _] || idtac); rewrite Z in L; cbn in L; lia).
  destruct (@pd_sbm g k W c d ws L) as (E1 & E2 & E3 & E4). pose proof (@pd_total g k W ws) as E5. unfold sbm_outcome. rewrite E1, E2, E3, E4, E5. rewrite list_max_app.
  split.
  - intros H. assert (B : Nat.ltb 1 (S (Nat.max (list_max c) (list_max d))) = Nat.ltb 1 (S (list_max c))).
    { destruct (Nat.ltb_spec 1 (S (Nat.max (list_max c) (list_max d)))), (Nat.ltb_spec 1 (S (list_max c))); auto; lia. }
    rewrite B. reflexivity.
  - intros H0 H. assert (B : Nat.ltb 1 (S (Nat.max (list_max c) (list_max d))) = true) by (apply Nat.ltb_lt; lia). rewrite B.
    assert (Z : expected_between (vcount g) (combine (edges g) ws) c = 0).
    { unfold expected_between. apply sum_to_zero. intros i Hi. apply sum_to_zero. intros j Hj. unfold delta.
      assert (Q : forall x, (x < vcount g)%nat -> nth x c 0%nat = 0%nat) by (intros x Hx; assert (In (nth x c 0%nat) c) by (apply nth_In; lia); pose proof (proj1 (list_max_le c (list_max c)) (Nat.le_refl _)) as F; rewrite Forall_forall in F; specialize (F _ H1); lia).
      rewrite (Q i), (Q j) by auto. destruct (Nat.eq_dec 0 0); [ring|congruence]. }
    destruct (Req_EM_T (total_strength _ _) 0); [reflexivity|]. destruct (Req_EM_T (expected_within _ _ _) 0); [reflexivity|].
    rewrite Z. destruct (Req_EM_T 0 0); [reflexivity|congruence].
Qed.
Print Assumptions C97_isolated_gamma_estimate.

(** *** Example: the barbell with every edge doubled has the same CHAMP ranges; the two paths of C43's example, with doubled
    intralayer edges, have domains stretched by 2; the barbell with two isolated vertices. *)
Example C97_example : proportional 2 barbell (repeated 2 barbell) /\ edges (repeated 2 barbell) <> edges barbell /\
  (exists env env' ranges, champ_ok_2D env barbell [whole; barbell_c] /\ CHAMP_2D env barbell [whole; barbell_c] 0 2 false = Ok ranges /\ ranges <> [] /\
     champ_ok_2D env' (repeated 2 barbell) [whole; barbell_c] /\ CHAMP_2D env' (repeated 2 barbell) [whole; barbell_c] 0 2 false = Ok ranges) /\
  modularity (padded 2 barbell) 1 (barbell_c ++ [7; 1]%nat) = 5.
Proof.
  assert (P : proportional 2 barbell (repeated 2 barbell)) by (destruct (C97_repeated 2 barbell barbell_wf) as [_ P]; [lia|]; replace 2 with (INR 2) by (cbn; lra); exact P).
  assert (W : wf_graph (repeated 2 barbell)) by (apply C97_repeated; auto using barbell_wf).
  split; auto. split; [discriminate|]. split.
  - destruct (C66_C67_C68_realisable barbell [whole; barbell_c] 0 2 false) as (env & r & H1 & H2 & H3); auto using barbell_wf; try discriminate; try lra; try (cbn; lia).
    { intros c [<-|[<-|[]]]; reflexivity. }
    destruct (C66_C67_C68_realisable (repeated 2 barbell) [whole; barbell_c] 0 2 false) as (env' & r' & H1' & H2' & H3'); auto; try discriminate; try lra; try (cbn; lia).
    { intros c [<-|[<-|[]]]; reflexivity. }
    exists env, env', r. split; auto. split; auto. split.
    + intros ->. pose proof (C67_ranges_tile env barbell [whole; barbell_c] 0 2 false [] H1 H2 ltac:(discriminate) barbell_distinguishable H3) as T. cbn in T. lra.
    + split; auto. rewrite H3'. f_equal. apply (C97_CHAMP_2D env env' 2 barbell (repeated 2 barbell) [whole; barbell_c] 0 2 false false r r'); auto; [lra|apply barbell_distinguishable].
  - rewrite (proj1 (C97_isolated_modularity barbell 2 barbell_c [7; 1]%nat barbell_wf eq_refl eq_refl)). rewrite barbell_split. lra.
Qed.
Example C97_example_3D : exists env env' domains domains', proportional 2 two_paths (repeated 2 two_paths) /\ proportional 1 two_paths_i two_paths_i /\
  champ_ok_3D env two_paths two_paths_i two_paths_lv [kept_c] /\ champ_ok_3D env' (repeated 2 two_paths) two_paths_i two_paths_lv [kept_c] /\
  CHAMP_3D env two_paths two_paths_i two_paths_lv [kept_c] 0 2 0 1 = Ok domains /\
  CHAMP_3D env' (repeated 2 two_paths) two_paths_i two_paths_lv [kept_c] 0 2 (2 / 1 * 0) (2 / 1 * 1) = Ok domains' /\
  exists poly poly' part', In (poly, kept_c) domains /\ In (poly', part') domains' /\ forall gamma omega, in_polygon poly' (gamma, 2 / 1 * omega) <-> in_polygon poly (gamma, omega).
Proof.
  destruct two_paths_valid as (W1 & W2 & _).
  assert (P : proportional 2 two_paths (repeated 2 two_paths)) by (destruct (C97_repeated 2 two_paths W1) as [_ P]; [lia|]; replace 2 with (INR 2) by (cbn; lra); exact P).
  assert (W : wf_graph (repeated 2 two_paths)) by (apply C97_repeated; auto).
  assert (Pi : proportional 1 two_paths_i two_paths_i) by (split; [reflexivity|]; intros; lra).
  assert (Hwi : edges_within_layers two_paths two_paths_lv) by (intros u v H; cbn in H; repeat (destruct H as [H|H]; [inversion H; reflexivity|]); destruct H).
  assert (Hh : forall l, In l two_paths_lv -> exists u v, In (u, v) (edges two_paths) /\ nth u two_paths_lv 0%nat = l).
  { intros l Hl. cbn in Hl. assert (L : l = 0%nat \/ l = 1%nat) by (repeat (destruct Hl as [<-|Hl]; [auto|]); destruct Hl).
    destruct L as [-> | ->]; [exists 0%nat, 1%nat|exists 3%nat, 4%nat]; cbn; auto 10. }
  destruct (C68_C69_realisable two_paths two_paths_i two_paths_lv [kept_c] 0 2 0 1) as (env & d & H1 & H2 & H3 & H4); auto; try discriminate; try lra; try (cbn; lia).
  { intros c [<-|[]]; reflexivity. }
  destruct (C68_C69_realisable (repeated 2 two_paths) two_paths_i two_paths_lv [kept_c] 0 2 (2 / 1 * 0) (2 / 1 * 1)) as (env' & d' & H1' & H2' & H3' & H4'); auto; try discriminate; try lra; try (cbn; lia).
  { apply (@pr_within two_paths (repeated 2 two_paths) 2 W P ltac:(lra)). auto. }
  { apply (@pr_has two_paths (repeated 2 two_paths) 2 W1 P ltac:(lra)); auto. }
  { intros c [<-|[]]; reflexivity. }
  exists env, env', d, d'. repeat (split; [assumption|]).
  destruct (@domain_cover _ _ _ _ _ _ _ _ _ H1 _ 1 (1 / 2) ltac:(discriminate) H4) as (poly & part & Hin & _); try lra.
  destruct (@domain_facts _ _ _ _ _ _ _ _ _ H1 _ poly part H4 Hin) as ([<-|[]] & _).
  destruct (C97_CHAMP_3D env env' 2 1 two_paths (repeated 2 two_paths) two_paths_i two_paths_i two_paths_lv [kept_c] 0 2 0 1 d d' poly kept_c) as (poly' & part' & R1 & R2 & _); auto; try lra.
  exists poly, poly', part'. auto.
Qed.
