(** C11 for the estimation entry points: what the graph object is after each call, whatever the outcome of the call. *)
From Verif Require Import PyBase PyGraph M_partition M_champ M_leiden M_estimation_utils M_estimation Spec Spec_graph Spec_leiden Spec_sbm
  L_base L_leiden L_sbm2 L_prune Properties_sbm.
Open Scope R_scope.

(** ** C11 *)
Theorem C11_gamma_estimate : forall env g p, wf_graph g -> weights_defaulted (ee_contains env g) g (fst (gamma_estimate env g p)).
Proof. intros env g p Hwf. rewrite gamma_estimate_graph by auto. apply weighted_e_defaulted. reflexivity. Qed.
Print Assumptions C11_gamma_estimate.

Theorem C11_estimate_multilayer : forall env g gi lv part model N T Nt m_t,
  weights_defaulted (ee_contains env g) g (fst (estimate_multilayer_SBM_parameters env g gi lv part model N T Nt m_t)).
Proof. intros. unfold estimate_multilayer_SBM_parameters. rewrite default_weights_weighted. apply weighted_e_defaulted. reflexivity. Qed.
Print Assumptions C11_estimate_multilayer.

(** gamma_omega_estimate checks the layers and the membership first: if that fails the graph is left alone. *)
Theorem C11_gamma_omega_estimate : forall env g gi lv c omax model N T Nt m_t,
  let after := fst (gamma_omega_estimate env g gi lv c omax model N T Nt m_t) in
  (after = g \/ weights_defaulted (ee_contains env g) g after) /\
  (lv <> [] -> length c = vcount g -> weights_defaulted (ee_contains env g) g after).
Proof.
  intros env g gi lv c omax model N T Nt m_t after. unfold after, gamma_omega_estimate, leiden_part_with_membership. clear after. split.
  - destruct (bind _ _) as [[t p]|]; [|left; reflexivity]. right. unfold estimate_multilayer_SBM_parameters.
    rewrite default_weights_weighted. apply weighted_e_defaulted. reflexivity.
  - intros Hlv Hc. rewrite Hc, Nat.eqb_refl.
    assert (exists t, or_default T (layer_count_T lv) = Ok t) as [t Et].
    { destruct T as [t|]; cbn; [eauto|]. destruct lv; [congruence|]. unfold layer_count_T. cbn. eauto. }
    rewrite Et. cbn [bind]. unfold estimate_multilayer_SBM_parameters. rewrite default_weights_weighted. apply weighted_e_defaulted. reflexivity.
Qed.
Print Assumptions C11_gamma_omega_estimate.

Lemma mono_loop_graph env g maximize m tol :
  (forall k gamma, fst (maximize k (weighted_e env g) gamma) = weighted_e env g) ->
  forall fuel k gamma part last, snd (fst (mono_loop maximize m tol fuel k (weighted_e env g) gamma part last)) = weighted_e env g.
Proof.
  intros Hm. induction fuel as [|fuel IH]; intros k gamma part last; [reflexivity|]. cbn [mono_loop].
  specialize (Hm k gamma). destruct (maximize k (weighted_e env g) gamma) as [g' r]. cbn [fst] in Hm. subst g'.
  destruct (bind _ _) as [[p gamma']|e]; [|reflexivity]. destruct (close tol gamma' gamma); [reflexivity|].
  specialize (IH (S k) gamma' (Some p) (Some gamma)). destruct (mono_loop _ _ _ _ _ _ _ _ _) as [[calls g''] out]. exact IH.
Qed.

Theorem C11_iterative_monolayer : forall env opt g gamma tol max_iter verbose method,
  weights_defaulted (ee_contains env g) g
    (snd (fst (iterative_monolayer_resolution_parameter_estimation env opt g gamma tol max_iter verbose method))).
Proof.
  intros. apply weighted_e_defaulted. unfold iterative_monolayer_resolution_parameter_estimation. rewrite default_weights_weighted.
  destruct (weights (weighted_e env g)) as [ws|]; [|reflexivity].
  destruct (String.eqb method "louvain" || String.eqb method "leiden")%bool eqn:E.
  - pose proof (@mono_loop_graph env g (maximize_leiden env opt) (rsum ws) tol) as H.
    specialize (H ltac:(intros; unfold maximize_leiden; rewrite default_weights_weighted, weighted_e_idem; reflexivity)
                  (Z.to_nat max_iter) 0%nat (Fin gamma) None None).
    destruct (mono_loop _ _ _ _ _ _ _ _ _) as [[calls g''] out]. exact H.
  - destruct (String.eqb method "2-spinglass"); [|reflexivity].
    pose proof (@mono_loop_graph env g (maximize_spinglass opt) (rsum ws) tol) as H.
    specialize (H ltac:(reflexivity) (Z.to_nat max_iter) 0%nat (Fin gamma) None None).
    destruct (mono_loop _ _ _ _ _ _ _ _ _) as [[calls g''] out]. exact H.
Qed.
Print Assumptions C11_iterative_monolayer.

Lemma multi_loop_graph env opt up g gi lv model N T Nt m_t gtol otol :
  forall fuel k parts gamma omega last,
  snd (fst (multi_loop env opt up gi lv model N T Nt m_t gtol otol fuel k parts (weighted_e env g) gamma omega last)) = weighted_e env g.
Proof.
  induction fuel as [|fuel IH]; intros k parts gamma omega last; [reflexivity|]. cbn [multi_loop].
  destruct (oe_multi _ _ _ _ _ _ _) as [ps|e]; [|reflexivity]. destruct (py_get ps 0) as [part|e]; [|reflexivity].
  unfold estimate_multilayer_SBM_parameters. rewrite default_weights_weighted, weighted_e_idem.
  destruct (bind _ _) as [[gamma' omega']|e]; [|reflexivity]. destruct (_ && _)%bool; [reflexivity|].
  specialize (IH (S k) (Some ps) gamma' omega' (Some (gamma, omega))). destruct (multi_loop _ _ _ _ _ _ _ _ _ _ _ _ _ _ _ _ _ _ _) as [[[calls parts'] g''] out]. exact IH.
Qed.

Theorem C11_iterative_multilayer : forall env opt parts g gi lv gamma omega gtol otol omax max_iter model verbose,
  let '(_, _, (g', gi'), _) :=
    iterative_multilayer_resolution_parameter_estimation env opt parts g gi lv gamma omega gtol otol omax max_iter model verbose in
  weights_defaulted (ee_contains env g) g g' /\ weights_defaulted (ee_contains env gi) gi gi'.
Proof.
  intros. unfold iterative_multilayer_resolution_parameter_estimation. rewrite !default_weights_weighted.
  destruct (bind _ _) as [[[[[T m_t] N] Nt] up]|e].
  - pose proof (@multi_loop_graph env opt up g (weighted_e env gi) lv model N T Nt m_t gtol otol (Z.to_nat max_iter) 0 parts (Fin gamma) omega None) as H.
    destruct (multi_loop _ _ _ _ _ _ _ _ _ _ _ _ _ _ _ _ _ _ _) as [[[calls parts'] g''] out]. cbn in H. subst g''.
    split; apply weighted_e_defaulted; reflexivity.
  - split; apply weighted_e_defaulted; reflexivity.
Qed.
Print Assumptions C11_iterative_multilayer.

(** A loop over estimates leaves the graph alone or defaults its weights. *)
Lemma mapG_graph env {A B} (f : graph -> A -> graph * res B) g :
  (forall h x, h = g \/ h = weighted_e env g -> fst (f h x) = g \/ fst (f h x) = weighted_e env g) ->
  forall l h, h = g \/ h = weighted_e env g -> fst (mapG f h l) = g \/ fst (mapG f h l) = weighted_e env g.
Proof.
  intros Hf. induction l as [|x l IH]; intros h Hh; [exact Hh|]. cbn [mapG]. pose proof (Hf h x Hh) as H1.
  destruct (f h x) as [g1 r]. cbn [fst] in H1. destruct r as [y|e]; [|exact H1].
  specialize (IH g1 H1). destruct (mapG f g1 l) as [g2 rs]. exact IH.
Qed.

(** Pruning changes the graph it is given at most by defaulting its weights; the interlayer graph is not changed. *)
Theorem C11_prune : forall env g parts gamma_start gamma_end restrict single_threaded, wf_graph g ->
  let after := snd (fst (prune_to_stable_partitions env g parts gamma_start gamma_end restrict single_threaded)) in
  after = g \/ weights_defaulted (ee_contains env g) g after.
Proof.
  intros env g parts gs gf restrict st Hwf after. enough (after = g \/ after = weighted_e env g) as [H|H]; [left; exact H|right; apply weighted_e_defaulted; exact H|idtac].
  unfold after, prune_to_stable_partitions. clear after. destruct (considered_parts env parts restrict) as [[|p ps]|e]; auto.
  destruct (CHAMP_2D _ _ _ _ _ _) as [ranges|e]; auto. unfold ranges_to_gamma_estimates.
  match goal with |- context [mapG ?f g ranges] => pose proof (@mapG_graph env _ _ f g) as H; specialize (fun Hf => H Hf ranges g (or_introl eq_refl)) end.
  destruct (mapG _ g ranges) as [g' ests]. cbn [fst snd] in *. apply H. intros h [r x] Hh. cbn [snd].
  assert (Hw : wf_graph h) by (destruct Hh as [-> | ->]; [auto|apply weighted_e_wf; auto]).
  rewrite gamma_estimate_graph by auto. cbn [fst]. right. destruct Hh as [-> | ->]; [reflexivity|apply weighted_e_idem].
Qed.
Print Assumptions C11_prune.

Theorem C11_prune_multilayer : forall env g gi lv model parts g0 gf o0 o1 restrict single_threaded,
  let after := snd (fst (prune_to_multilayer_stable_partitions env g gi lv model parts g0 gf o0 o1 restrict single_threaded)) in
  after = g \/ weights_defaulted (ee_contains env g) g after.
Proof.
  intros env g gi lv model parts g0 gf o0 o1 restrict st after.
  enough (after = g \/ after = weighted_e env g) as [H|H]; [left; exact H|right; apply weighted_e_defaulted; exact H|idtac].
  unfold after, prune_to_multilayer_stable_partitions. clear after. destruct st; auto. destruct (considered_parts env parts restrict) as [[|p ps]|e]; auto.
  destruct (CHAMP_3D _ _ _ _ _ _ _ _ _) as [domains|e]; auto. unfold domains_to_gamma_omega_estimates.
  match goal with |- context [mapG ?f g domains] => pose proof (@mapG_graph env _ _ f g) as H; specialize (fun Hf => H Hf domains g (or_introl eq_refl)) end.
  destruct (mapG _ g domains) as [g' ests]. cbn [fst snd] in *.
  assert (E : g' = g \/ g' = weighted_e env g); [|destruct ests; exact E].
  apply H. intros h d Hh. unfold gamma_omega_estimate. destruct (bind _ _) as [[t p']|e]; [|exact Hh].
  unfold estimate_multilayer_SBM_parameters. rewrite default_weights_weighted. cbn [fst]. right. destruct Hh as [-> | ->]; [reflexivity|apply weighted_e_idem].
Qed.
Print Assumptions C11_prune_multilayer.

(** A triangle with three vertices and, after adding a parallel edge, four edges: the list of three ones is repeated. *)
Example C11_defaults_example : forall env, let g := mkGraph 3 false [(0, 1); (1, 2); (0, 2); (0, 1)]%nat None in
  wf_graph g /\ (ee_contains env g = false -> weights (fst (gamma_estimate env g (Membership [0; 0; 1]%nat))) = Some [1; 1; 1; 1]).
Proof.
  intros env g. assert (Hw : wf_graph g).
  { split; [|discriminate]. intros u v H; cbn in H |- *. repeat (destruct H as [H|H]; [inversion H; subst; lia|]). destruct H. }
  split; [exact Hw|]. intros He. rewrite gamma_estimate_graph by exact Hw. unfold weighted_e. rewrite He. reflexivity.
Qed.
