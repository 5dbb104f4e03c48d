(** What an estimate that does not fail says about a generated network; the retrying generator. *)
From Verif Require Import PyBase PyGraph M_partition M_champ M_leiden M_estimation_utils M_generators Spec_graph Spec_leiden Spec_sbm Spec_multisbm Spec_check Spec_valid Spec_generators
  L_base L_modularity L_modularity3 L_leiden L_parallel L_sbm L_sbm2 L_multisbm L_generators L_generators2.
Set Implicit Arguments.
Open Scope R_scope.

Section Estimated.
Variables (env : est_env) (n T : nat) (dir : bool) (es : list (nat * nat)) (gi : graph) (comm : list nat) (omax : R) (model : string).
Hypothesis Hn : (0 < n)%nat.
Hypothesis HT : (0 < T)%nat.
Let lv := map (fun i => (i / n)%nat) (seq 0 (n * T)).
Let g := graph_of_edges dir es.
Hypothesis Hes : forall u v, In (u, v) es -> (u < n * T)%nat /\ (v < n * T)%nat /\ (u / n = v / n)%nat.

Lemma estimated_facts g' x : gamma_omega_estimate env g gi lv comm omax model None None None None = (g', Ok x) ->
  length comm = vcount g /\ g' = mkGraph (vcount g) dir es (Some (repeat 1 (length es))) /\ forall t, (t < T)%nat -> layer_has_edge g lv t.
Proof.
  assert (L : length lv = (n * T)%nat) by apply lv_length. assert (M : S (list_max lv) = T) by (apply lv_max; auto).
  assert (Ne : lv <> []) by (intros Z; rewrite Z in L; cbn in L; nia).
  assert (NP : forall h, nodes_per_layer h T = Ok (vcount h / T)%nat) by (intros h; unfold nodes_per_layer; destruct (Nat.eqb_spec T 0); [lia|reflexivity]).
  unfold gamma_omega_estimate. cbn [or_default]. unfold layer_count_T. rewrite (@py_max_list lv (list_max lv) Ne eq_refl). cbn [bind].
  replace (list_max lv + 1)%nat with T by lia. unfold leiden_part_with_membership. destruct (Nat.eqb_spec (length comm) (vcount g)) as [E|E]; [|intros Z; discriminate]. cbn [bind].
  unfold estimate_multilayer_SBM_parameters, default_weights_e. destruct (ee_contains env g) eqn:EC.
  - intros Z. exfalso. unfold estimate_multilayer_weighted in Z. cbn [or_default bind] in Z. rewrite (NP g) in Z. cbn [bind] in Z.
    unfold layer_weights at 1 in Z. change (wedges g) with (Raise KeyError : res (list wedge)) in Z. cbn [bind] in Z. discriminate.
  - rewrite set_weights_ones by (unfold ecount; destruct (edges g); [congruence|cbn; lia]). intros Z.
    set (h := mkGraph (vcount g) (directed g) (edges g) (Some (repeat 1 (ecount g)))) in *.
    injection Z as Eg Z. split; [exact E|]. split; [rewrite <- Eg; reflexivity|]. intros t Ht.
    apply bind_ok in Z. destruct Z as (q & Z & _). unfold estimate_multilayer_weighted in Z. cbn [or_default bind] in Z.
    rewrite (NP h) in Z. cbn [bind] in Z.
    assert (EM : layer_weights h lv T = Ok (map (weight_in (weighted_edges g (repeat 1 (length (edges g)))) lv) (seq 0 T))).
    { unfold layer_weights, wedges. cbn [weights h bind]. rewrite <- (map_const_repeat 0 T).
      rewrite (@layer_weights_loop (length lv) T lv lv eq_refl eq_refl).
      - f_equal. apply map_ext. intros s. rewrite Rplus_0_l. reflexivity.
      - intros v Hv. rewrite L in Hv. unfold lv. rewrite lv_nth by auto. apply Nat.div_lt_upper_bound; lia.
      - intros u v w H. apply in_combine_l in H. rewrite L. destruct (Hes _ _ H) as (? & ? & _). auto. }
    rewrite EM in Z. cbn [bind] in Z.
    apply bind_ok in Z. destruct Z as (Nt & _ & Z). apply bind_ok in Z. destruct Z as (E0 & _ & Z). apply bind_ok in Z. destruct Z as (mi & _ & Z).
    apply bind_ok in Z. destruct Z as (ka & _ & Z). apply bind_ok in Z. destruct Z as (sk & _ & Z). apply bind_ok in Z. destruct Z as (ni & _ & Z).
    apply bind_ok in Z. destruct Z as (di & Zd & _).
    destruct (mapM_ok_all _ _ t Zd) as (y & Hy); [apply in_seq; lia|]. apply bind_ok in Hy. destruct Hy as (s & _ & Hy). rewrite py_get_seq in Hy by auto. cbn [bind] in Hy.
    unfold py_div in Hy. destruct (Req_EM_T (2 * _) 0) as [Z0|Z0]; [discriminate|]. apply unit_weight_pos.
    assert (0 <= weight_in (weighted_edges g (repeat 1 (length (edges g)))) lv t) by (rewrite unit_weight_count; apply pos_INR). lra.
Qed.
End Estimated.

(** The retrying loop: what it returns passed the test at some attempt. *)
Lemma synthetic_loop_returns env ds n T K eta p_in p_out dg dw : forall fuel k r, synthetic_loop env ds n T K eta p_in p_out dg dw k fuel = Some (Ok r) ->
  exists j g gi lv comm g' gamma omega, (k <= j < k + fuel)%nat /\ r = (g', gi, lv, comm) /\ synthetic_attempt (ds j) n T K eta p_in p_out = Ok (g, gi, lv, comm) /\
    gamma_omega_estimate env g gi lv comm 1000 "temporal" None None None None = (g', Ok (Some (Fin gamma), omega)) /\
    Rabs (gamma - dg) < 5 / 1000 /\ Rabs (omega - dw) < 5 / 1000.
Proof.
  induction fuel as [|fuel IH]; intros k r H; [discriminate|]. cbn [synthetic_loop] in H.
  assert (G : synthetic_loop env ds n T K eta p_in p_out dg dw (S k) fuel = Some (Ok r) -> exists j g gi lv comm g' gamma omega, (k <= j < k + S fuel)%nat /\ r = (g', gi, lv, comm) /\ synthetic_attempt (ds j) n T K eta p_in p_out = Ok (g, gi, lv, comm) /\
    gamma_omega_estimate env g gi lv comm 1000 "temporal" None None None None = (g', Ok (Some (Fin gamma), omega)) /\
    Rabs (gamma - dg) < 5 / 1000 /\ Rabs (omega - dw) < 5 / 1000).
  { intros Q. destruct (IH _ _ Q) as (j & g & gi & lv & comm & g' & ga & om & B & R). exists j, g, gi, lv, comm, g', ga, om. split; [lia|exact R]. }
  destruct (synthetic_attempt (ds k) n T K eta p_in p_out) as [[[[g gi] lv] comm]|e] eqn:A; [|discriminate].
  destruct (gamma_omega_estimate env g gi lv comm 1000 "temporal" None None None None) as [g' [[[[ga|]|] om]|e]] eqn:B; try discriminate; auto.
  destruct (Rlt_dec (Rabs (ga - dg)) (5 / 1000)) as [C|C]; auto. destruct (Rlt_dec (Rabs (om - dw)) (5 / 1000)) as [D|D]; auto.
  injection H as <-. exists k, g, gi, lv, comm, g', ga, om. split; [lia|]. split; auto.
Qed.
