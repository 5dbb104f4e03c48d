(** The pruning pipelines. *)
From Verif Require Import PyBase PyGraph M_partition M_champ M_estimation_utils Spec Spec_leiden Spec_graph Spec_champ Spec_lp Spec_polygon Spec_stability Spec_prune
  L_base L_canon L_leiden L_champ L_champ2 L_champ3 L_angular L_sbm2 L_stability.
From Coq Require Import Classical.
Set Implicit Arguments.
Open Scope R_scope.

(** ** The considered set *)
Lemma mapM_sorted inputs : exists cs, mapM sorted_tuple inputs = Ok cs /\ length cs = length inputs /\
  forall c, In c cs <-> canonical c /\ exists t, In t inputs /\ same_partition t c.
Proof.
  induction inputs as [|t l (cs & H & L & I)].
  - exists []. split; [reflexivity|]. split; [reflexivity|]. intros c. split; [intros []|]. intros (_ & t & [] & _).
  - destruct (sorted_tuple_total t) as [c0 Hc0]. exists (c0 :: cs). cbn [mapM bind]. rewrite Hc0. cbn [bind]. rewrite H. cbn [bind]. split; [reflexivity|]. split; [cbn; lia|].
    pose proof (@sorted_tuple_canonical _ _ Hc0) as C0. pose proof (@sorted_tuple_same_partition _ _ Hc0) as S0.
    intros c. cbn [In]. rewrite I. split.
    + intros [<-|(Hc & t' & Ht & Hs)]; [split; auto; exists t; auto|split; auto; exists t'; auto].
    + intros (Hc & t' & [<-|Ht] & Hs); [left|right; split; eauto]. apply canonical_unique; auto. apply same_partition_trans with t; auto. apply same_partition_sym. auto.
Qed.

Lemma considered_parts_ok env inputs restrict : lists_sets (ee_set_order env) -> (forall t, In t inputs -> t <> []) ->
  exists ps, considered_parts env (Tuples inputs) restrict = Ok ps /\ NoDup ps /\ (length ps <= length inputs)%nat /\
    forall c, In c ps <-> considered inputs restrict c.
Proof.
  intros Ho Hne. destruct (mapM_sorted inputs) as (cs & H & L & I). unfold considered_parts. rewrite H. cbn [bind].
  set (s := ee_set_order env (py_set cs)).
  assert (Ps : Permutation s (py_set cs)) by apply Ho.
  assert (Is : forall c, In c s <-> canonical c /\ exists t, In t inputs /\ same_partition t c).
  { intros c. rewrite <- I, <- (py_set_in cs). split; apply Permutation_in; auto. apply Permutation_sym; auto. }
  assert (Nd : NoDup s) by (eapply Permutation_NoDup; [apply Permutation_sym, Ps|apply py_set_nodup]).
  assert (Ls : (length s <= length inputs)%nat).
  { rewrite <- L. apply NoDup_incl_length; auto. intros c Hc. apply I. apply Is. auto. }
  destruct restrict as [k|].
  - assert (K : exists ks, mapM num_communities s = Ok ks /\ Forall2 (fun c n => has_communities c n) s ks).
    { assert (Q : forall c, In c s -> canonical c /\ c <> []).
      { intros c Hc. apply Is in Hc as (Hc & t & Ht & Hl & _). split; auto. intros ->. apply (Hne t Ht). destruct t; auto. discriminate. }
      clear - Q. induction s as [|c s IH]; [exists []; split; auto|]. destruct IH as (ks & Hk & F); [intros; apply Q; right; auto|].
      destruct (Q c (or_introl eq_refl)) as [Cc Nc]. destruct (num_communities_canonical Cc Nc) as (n & Hn & Hh). exists (n :: ks). cbn [mapM bind]. rewrite Hn. cbn [bind]. rewrite Hk. cbn [bind]. auto. }
    destruct K as (ks & Hk & F). rewrite Hk. cbn [bind].
    set (sel := map snd (filter (fun x => Nat.eqb (fst x) k) (combine ks s))). exists (ee_set_order env sel). split; [reflexivity|].
    assert (Isel : forall c, In c sel <-> In c s /\ has_communities c k).
    { unfold sel. clear - F. induction F as [|c n s ks Hc F IH]; intros d.
      - cbn. tauto.
      - cbn [combine filter fst snd]. destruct (Nat.eqb_spec n k) as [->|N]; cbn [map snd In]; rewrite IH; split.
        + intros [<-|[A B]]; auto.
        + intros [[<-|A] B]; auto.
        + intros [A B]; auto.
        + intros [[<-|A] B]; auto. exfalso. apply N. eapply has_communities_unique; eauto. }
    assert (Ndsel : NoDup sel).
    { unfold sel. clear - Nd F. induction F as [|c n s ks Hc F IH]; [constructor|]. inversion Nd; subst. cbn [combine filter fst snd]. destruct (Nat.eqb n k); cbn [map snd]; auto.
      constructor; auto. intros Hin. apply in_map_iff in Hin as ([n' c'] & E & Hin). cbn in E. subst c'. apply filter_In in Hin as [Hin _]. apply in_combine_r in Hin. auto. }
    pose proof (Ho sel) as Pz. split; [|split].
    + eapply Permutation_NoDup; [apply Permutation_sym, Pz|auto].
    + rewrite (Permutation_length Pz). eapply Nat.le_trans; [|apply Ls]. apply NoDup_incl_length; auto. intros c Hc. apply Isel in Hc. tauto.
    + intros c. unfold considered. assert (E : In c (ee_set_order env sel) <-> In c sel) by (split; apply Permutation_in; auto; apply Permutation_sym; auto).
      rewrite E, Isel, Is. split.
      * intros ((A & B) & C). split; auto. split; auto. intros k' Ek. inversion Ek; subst; auto.
      * intros (A & B & C). auto.
  - exists s. split; auto. split; auto. split; auto. intros c. unfold considered. rewrite Is. split; [intros (A & B); split; [|split]; auto; discriminate|tauto].
Qed.

Lemma considered_length inputs restrict c n : (forall t, In t inputs -> length t = n) -> considered inputs restrict c -> length c = n.
Proof. intros H (_ & (t & Ht & Hl & _) & _). rewrite <- Hl. auto. Qed.
Lemma considered_same inputs inputs' restrict c : same_inputs inputs inputs' -> considered inputs restrict c <-> considered inputs' restrict c.
Proof.
  intros [H1 H2]. unfold considered. split; intros (A & (t & Ht & Hs) & C); split; auto; split; auto.
  - destruct (H1 t Ht) as (t' & Ht' & S). exists t'. split; auto. apply same_partition_trans with t; auto. apply same_partition_sym; auto.
  - destruct (H2 t Ht) as (t' & Ht' & S). exists t'. split; auto. apply same_partition_trans with t; auto.
Qed.

Lemma wf_vertex g : wf_graph g -> edges g <> [] -> (0 < vcount g)%nat.
Proof. intros [H _] N. destruct (edges g) as [|[u v] E] eqn:EE; [congruence|]. destruct (H u v); [left; auto|lia]. Qed.

Lemma prune_inputs_ne g (inputs : list (list Z)) : wf_graph g -> edges g <> [] -> (forall t, In t inputs -> length t = vcount g) -> forall t, In t inputs -> t <> [].
Proof. intros Hw He Hi t Ht ->. apply Hi in Ht. pose proof (wf_vertex Hw He). cbn in Ht. lia. Qed.

Lemma prune_champ_2D env g inputs restrict ps : prune_ok_2D env g inputs -> (length ps <= length inputs)%nat -> (forall c, In c ps <-> considered inputs restrict c) ->
  champ_ok_2D (ee_champ env) g ps.
Proof.
  intros H Hl Hi. destruct H as [A B C D E F G I]. constructor; auto.
  - destruct F as [F1 F2]. split; auto. split; auto. lia.
  - intros c Hc. eapply considered_length; eauto. apply Hi. auto.
Qed.
Lemma prune_champ_3D env g gi lv inputs restrict ps : prune_ok_3D env g gi lv inputs -> (length ps <= length inputs)%nat -> (forall c, In c ps <-> considered inputs restrict c) ->
  champ_ok_3D (ee_champ env) g gi lv ps.
Proof.
  intros H Hl Hi. pose proof (p3_pool H) as F. destruct F as [F1 F2]. pose proof (p3_number H). destruct H. constructor; auto.
  - split; auto. split; auto. lia.
  - intros c Hc. eapply considered_length; [|apply Hi; eauto]. auto.
Qed.

(** ** Estimates of ranges *)
Lemma Forall2_weaken {A B} (P Q : A -> B -> Prop) l l' : (forall a b, P a b -> Q a b) -> Forall2 P l l' -> Forall2 Q l l'.
Proof. intros H. induction 1; constructor; auto. Qed.
Lemma gamma_estimate_twice env g c : wf_graph g -> gamma_estimate env (weighted_e env g) (Membership c) = gamma_estimate env g (Membership c).
Proof. intros H. rewrite !gamma_estimate_graph by (auto using weighted_e_wf). rewrite weighted_e_idem. reflexivity. Qed.

Definition estimated_from env g (r : R * R * list nat) (e : R * R * list nat * option npf) : Prop :=
  fst e = r /\ snd (gamma_estimate env g (Membership (snd r))) = Ok (snd e).

Lemma ranges_estimates env : forall ranges g g' ests, wf_graph g -> ranges_to_gamma_estimates env g ranges = (g', Ok ests) -> Forall2 (estimated_from env g) ranges ests.
Proof.
  unfold ranges_to_gamma_estimates. induction ranges as [|r l IH]; intros g g' ests Hw H.
  - cbn in H. inversion H. constructor.
  - cbn [mapG] in H. destruct (gamma_estimate env g (Membership (snd r))) as [g1 est] eqn:E. destruct est as [x|]; cbn [bind] in H; [|inversion H].
    destruct (mapG _ g1 l) as [g2 rs] eqn:E2. destruct rs as [ys|]; cbn [bind] in H; [|inversion H]. inversion H; subst.
    assert (g1 = weighted_e env g) by (rewrite gamma_estimate_graph in E by auto; inversion E; auto). subst g1.
    apply IH in E2; [|apply weighted_e_wf; auto]. constructor.
    + split; [reflexivity|]. rewrite E. reflexivity.
    + eapply Forall2_weaken; [|apply E2]. intros a b [A B]. split; auto. rewrite gamma_estimate_twice in B by auto. auto.
Qed.

Lemma ranges_estimates_total env : forall ranges g, wf_graph g -> (forall r, In r ranges -> exists x, snd (gamma_estimate env g (Membership (snd r))) = Ok x) ->
  exists g' ests, ranges_to_gamma_estimates env g ranges = (g', Ok ests).
Proof.
  unfold ranges_to_gamma_estimates. induction ranges as [|r l IH]; intros g Hw H.
  - exists g, []. reflexivity.
  - cbn [mapG]. destruct (H r (or_introl eq_refl)) as [x Hx]. destruct (gamma_estimate env g (Membership (snd r))) as [g1 est] eqn:E. cbn [snd] in Hx. subst est. cbn [bind].
    assert (g1 = weighted_e env g) by (rewrite gamma_estimate_graph in E by auto; inversion E; auto). subst g1.
    destruct (IH (weighted_e env g)) as (g2 & ys & E2); [apply weighted_e_wf; auto| |].
    + intros r' Hr. rewrite gamma_estimate_twice by auto. apply H. right. auto.
    + rewrite E2. cbn [bind]. eauto.
Qed.

(** ** The filters *)
Definition in_own_range (x : R * R * list nat * option npf) : Prop :=
  exists v, snd x = Some (Fin v) /\ fst (fst (fst x)) <= v <= snd (fst (fst x)).

Lemma within_iff x : within (fst (fst (fst x))) (snd (fst (fst x))) (snd x) = true <-> in_own_range x.
Proof.
  unfold within, in_own_range, Rleb. destruct x as [[[s e] c] [[v|]|]]; cbn [fst snd].
  - destruct (Rle_dec s v), (Rle_dec v e); cbn; split; try discriminate; try (intros; exists v; auto; fail); auto; intros (v' & E & A & B); inversion E; subst; tauto.
  - split; [discriminate|]. intros (v & E & _). discriminate.
  - split; [discriminate|]. intros (v & E & _). discriminate.
Qed.

Lemma selects_filter {A B} (P : A -> Prop) (f : A -> B) (b : A -> bool) l : (forall a, In a l -> (b a = true <-> P a)) -> selects P f l (map f (filter b l)).
Proof.
  induction l as [|a l IH]; intros H; [constructor|]. cbn [filter]. destruct (b a) eqn:E; cbn [map].
  - constructor; [apply H; [left; auto|auto]|]. apply IH. intros; apply H; right; auto.
  - constructor; [intros Q; apply H in Q; [congruence|left; auto]|]. apply IH. intros; apply H; right; auto.
Qed.

Lemma selects_unique {A B} (P : A -> Prop) (f : A -> B) l k1 k2 : selects P f l k1 -> selects P f l k2 -> k1 = k2.
Proof. intros H. revert k2. induction H; intros k2 H2; inversion H2; subst; auto; try contradiction. f_equal. auto. Qed.

Lemma selects_in {A B} (P : A -> Prop) (f : A -> B) l k b : selects P f l k -> (In b k <-> exists a, In a l /\ P a /\ f a = b).
Proof.
  induction 1 as [|a l k Ha H IH|a l k Ha H IH]; cbn [In].
  - split; [tauto|]. intros (a & [] & _).
  - rewrite IH. split.
    + intros [<-|(a' & A1 & A2 & A3)]; [exists a; auto|exists a'; auto].
    + intros (a' & [<-|A1] & A2 & A3); [left; auto|right; exists a'; auto].
  - rewrite IH. split.
    + intros (a' & A1 & A2 & A3). exists a'; auto.
    + intros (a' & [<-|A1] & A2 & A3); [contradiction|exists a'; auto].
Qed.

(** ** Single-layer pruning *)
Section Prune2.
Variables (env : est_env) (g : graph) (inputs : list (list Z)) (gs ge : R) (restrict : option nat) (st : bool).
Hypothesis Hok : prune_ok_2D env g inputs.

Lemma prune_2D_unfold : exists ps, NoDup ps /\ (forall c, In c ps <-> considered inputs restrict c) /\ champ_ok_2D (ee_champ env) g ps /\
  considered_parts env (Tuples inputs) restrict = Ok ps /\
  snd (prune_to_stable_partitions env g (Tuples inputs) gs ge restrict st) =
    (let! ranges := CHAMP_2D (ee_champ env) g ps gs ge st in
     let! ests := snd (ranges_to_gamma_estimates env g ranges) in Ok (gamma_estimates_to_stable_partitions ests)).
Proof.
  destruct (@considered_parts_ok env inputs restrict (p2_order Hok) (@prune_inputs_ne g inputs (p2_graph Hok) (p2_edges Hok) (p2_inputs Hok))) as (ps & H & Nd & L & I).
  exists ps. split; auto. split; auto. split; [eapply prune_champ_2D; eauto|]. split; auto.
  unfold prune_to_stable_partitions. rewrite H. destruct ps as [|c ps]; [reflexivity|].
  destruct (CHAMP_2D (ee_champ env) g (c :: ps) gs ge st) as [ranges|]; [|reflexivity]. cbn [bind].
  destruct (ranges_to_gamma_estimates env g ranges) as [g' ests]. reflexivity.
Qed.

Lemma prune_2D_ok result : snd (prune_to_stable_partitions env g (Tuples inputs) gs ge restrict st) = Ok result ->
  exists ps ranges, NoDup ps /\ (forall c, In c ps <-> considered inputs restrict c) /\ champ_ok_2D (ee_champ env) g ps /\
    CHAMP_2D (ee_champ env) g ps gs ge st = Ok ranges /\
    (forall c, In c result <-> exists s e x, In (s, e, c) ranges /\ snd (gamma_estimate env g (Membership c)) = Ok (Some (Fin x)) /\ s <= x <= e) /\
    NoDup result.
Proof.
  intros H. destruct prune_2D_unfold as (ps & Nd & I & C & _ & E). rewrite E in H. apply bind_ok in H as (ranges & HR & H). apply bind_ok in H as (ests & HE & H). inversion H; subst. clear H.
  exists ps, ranges. split; auto. split; auto. split; auto. split; auto.
  destruct (ranges_to_gamma_estimates env g ranges) as [g' ests'] eqn:EE. cbn [snd] in HE. subst ests'.
  pose proof (ranges_estimates _ _ (p2_graph Hok) EE) as F.
  assert (Hs : selects in_own_range (fun x => snd (fst x)) ests (gamma_estimates_to_stable_partitions ests)) by (apply selects_filter; intros; apply within_iff).
  split.
  - intros c. rewrite (selects_in c Hs). split.
    + intros ([r o] & Hin & (v & Hv & Hr) & Hc). cbn [fst snd] in *. subst o.
      assert (Q : exists r', In r' ranges /\ estimated_from env g r' (r, Some (Fin v))).
      { clear - F Hin. induction F as [|a b l l' Hab F IH]; [destruct Hin|]. destruct Hin as [->|Hin]; [exists a; split; [left|]; auto|]. destruct (IH Hin) as (r' & A & B). exists r'. split; [right|]; auto. }
      destruct Q as (r' & Hr' & E1 & E2). cbn [fst snd] in *. subst r' c. destruct r as [[s e] c]. exists s, e, v. auto.
    + intros (s & e & x & Hin & Hest & Hr).
      assert (Q : exists b, In b ests /\ estimated_from env g (s, e, c) b).
      { clear - F Hin. induction F as [|a b l l' Hab F IH]; [destruct Hin|]. destruct Hin as [->|Hin]; [exists b; split; [left|]; auto|]. destruct (IH Hin) as (r' & A & B). exists r'. split; [right|]; auto. }
      destruct Q as ([r o] & Hb & E1 & E2). cbn [fst snd] in *. subst r. rewrite Hest in E2. inversion E2; subst. exists (s, e, c, Some (Fin x)). split; auto. split; [|reflexivity]. exists x. auto.
  - destruct (@shape_facts _ _ _ _ _ _ C _ HR) as [_ (idx & Nidx & F2)].
    assert (Nr : NoDup (map snd ranges)).
    { clear - Nidx F2 Nd. induction F2 as [|i r idx ranges Hi F2 IH]; [constructor|]. inversion Nidx; subst. cbn [map]. constructor; auto.
      intros Hin. apply in_map_iff in Hin as (r' & E & Hin).
      assert (Q : exists j, In j idx /\ nth_error ps j = Some (snd r')).
      { clear - F2 Hin. induction F2 as [|a b l l' Hab F IH]; [destruct Hin|]. destruct Hin as [->|Hin]; [exists a; split; [left|]; auto|]. destruct (IH Hin) as (j & A & B). exists j. split; [right|]; auto. }
      destruct Q as (j & Hj & Ej). rewrite E in Ej. assert (i = j); [|subst; contradiction].
      apply (proj1 (NoDup_nth_error ps) Nd); [|congruence]. apply nth_error_Some. congruence. }
    assert (E3 : map (fun x => snd (fst x)) ests = map snd ranges).
    { clear - F. induction F as [|a b l l' [Hab _] F IH]; [reflexivity|]. cbn [map]. rewrite Hab, IH. reflexivity. }
    unfold gamma_estimates_to_stable_partitions. rewrite <- E3 in Nr. clear - Nr. induction ests as [|a l IH]; [constructor|]. cbn [map filter] in *. inversion Nr; subst.
    destruct (within _ _ _); auto. cbn [map]. constructor; auto. intros Hin. apply H1. apply in_map_iff in Hin as (b & E & Hin). apply filter_In in Hin as [Hin _]. apply in_map_iff. eauto.
Qed.
End Prune2.

(** ** Multilayer pruning *)
Lemma default_weights_weighted env g : default_weights_e env g = Ok (weighted_e env g).
Proof. unfold default_weights_e, weighted_e. destruct (ee_contains env g); auto. apply set_weights_ones. unfold ecount. destruct (edges g); cbn; [congruence|lia]. Qed.

Lemma gamma_omega_graph env g gi lv c omax model N T Nt m_t x g' : gamma_omega_estimate env g gi lv c omax model N T Nt m_t = (g', Ok x) -> g' = weighted_e env g.
Proof.
  unfold gamma_omega_estimate. destruct (bind _ _) as [[t p]|]; [|intros H; inversion H]. unfold estimate_multilayer_SBM_parameters. rewrite default_weights_weighted. intros H. inversion H; auto.
Qed.
Lemma gamma_omega_twice env g gi lv c omax model N T Nt m_t :
  snd (gamma_omega_estimate env (weighted_e env g) gi lv c omax model N T Nt m_t) = snd (gamma_omega_estimate env g gi lv c omax model N T Nt m_t).
Proof.
  unfold gamma_omega_estimate, leiden_part_with_membership. rewrite weighted_e_vcount. destruct (bind _ _) as [[t p]|]; [|reflexivity].
  unfold estimate_multilayer_SBM_parameters. rewrite !default_weights_weighted, weighted_e_idem. reflexivity.
Qed.

Section Multi.
Variables (env : est_env) (gi : graph) (lv : list nat) (model : string).
Definition go_estimate (g : graph) (c : list nat) : res (option npf * R) := snd (gamma_omega_estimate env g gi lv c 1000 model None None None None).
Definition estimated_domain (g : graph) (d : list (R * R) * list nat) (e : domain_estimate) : Prop :=
  exists ge oe, e = (fst d, snd d, ge, Some oe) /\ go_estimate g (snd d) = Ok (ge, oe).

Lemma domains_estimates : forall domains g g' ests, domains_to_gamma_omega_estimates env g gi lv domains model = (g', Ok ests) -> Forall2 (estimated_domain g) domains ests.
Proof.
  unfold domains_to_gamma_omega_estimates. induction domains as [|d l IH]; intros g g' ests H.
  - cbn in H. inversion H. constructor.
  - cbn [mapG] in H. destruct (gamma_omega_estimate env g gi lv (snd d) 1000 model None None None None) as [g1 est] eqn:E. destruct est as [[a b]|]; cbn [bind] in H; [|inversion H].
    destruct (mapG _ g1 l) as [g2 rs] eqn:E2. destruct rs as [ys|]; cbn [bind] in H; [|inversion H]. inversion H; subst.
    pose proof (@gamma_omega_graph _ _ _ _ _ _ _ _ _ _ _ _ _ E) as ->. apply IH in E2. constructor.
    + exists a, b. split; [reflexivity|]. unfold go_estimate. rewrite E. reflexivity.
    + eapply Forall2_weaken; [|apply E2]. intros d' e (a' & b' & A & B). exists a', b'. split; auto. unfold go_estimate in *. rewrite gamma_omega_twice in B. auto.
Qed.

Lemma domains_estimates_total : forall domains g, (forall d, In d domains -> exists x, go_estimate g (snd d) = Ok x) ->
  exists g' ests, domains_to_gamma_omega_estimates env g gi lv domains model = (g', Ok ests).
Proof.
  unfold domains_to_gamma_omega_estimates. induction domains as [|d l IH]; intros g H.
  - exists g, []. reflexivity.
  - cbn [mapG]. destruct (H d (or_introl eq_refl)) as [[a b] Hx]. unfold go_estimate in Hx. destruct (gamma_omega_estimate env g gi lv (snd d) 1000 model None None None None) as [g1 est] eqn:E. cbn [snd] in Hx. subst est. cbn [bind].
    pose proof (@gamma_omega_graph _ _ _ _ _ _ _ _ _ _ _ _ _ E) as ->.
    destruct (IH (weighted_e env g)) as (g2 & ys & E2).
    + intros d' Hd. unfold go_estimate. rewrite gamma_omega_twice. apply H. right. auto.
    + rewrite E2. cbn [bind]. eauto.
Qed.
End Multi.

Definition stable_in (omega_end : R) (d : domain_estimate) : Prop :=
  exists poly c g o, d = (poly, c, Some g, Some o) /\ same_side poly g (Rmin o (omega_end - 1 / 1000)) = true.

Lemma stable_selects omega_end ests : (forall d, In d ests -> exists o, snd d = Some o) ->
  selects (stable_in omega_end) (fun d => snd (fst (fst d))) ests (gamma_omega_estimates_to_stable_partitions (truncate omega_end ests)).
Proof.
  intros H. unfold gamma_omega_estimates_to_stable_partitions, stable_domains. induction ests as [|d l IH]; [constructor|].
  assert (IH' := IH (fun e He => H e (or_intror He))). destruct d as [[[poly c] [g|]] [o|]].
  - unfold truncate. cbn [flat_map app filter]. fold (truncate omega_end l). cbn [is_stable]. destruct (same_side poly g (Rmin o (omega_end - 1 / 1000))) eqn:E.
    + cbn [map fst snd]. apply (@sel_keep _ _ (stable_in omega_end) (fun d => snd (fst (fst d))) (poly, c, Some g, Some o)); auto. exists poly, c, g, o. auto.
    + apply sel_drop; auto. intros (p' & c' & g' & o' & E1 & E2). inversion E1; subst. congruence.
  - destruct (H _ (or_introl eq_refl)) as [o E]. discriminate.
  - unfold truncate. cbn [flat_map app]. fold (truncate omega_end l). apply sel_drop; auto. intros (p' & c' & g' & o' & E1 & E2). inversion E1.
  - destruct (H _ (or_introl eq_refl)) as [o E]. discriminate.
Qed.

Section Prune3.
Variables (env : est_env) (g gi : graph) (lv : list nat) (model : string) (inputs : list (list Z)) (gs ge os oe : R) (restrict : option nat).
Hypothesis Hok : prune_ok_3D env g gi lv inputs.
Let outcome := prune_to_multilayer_stable_partitions env g gi lv model (Tuples inputs) gs ge os oe restrict false.

Lemma p3_edges : edges g <> [].
Proof. intros E. pose proof (p3_has Hok) as H. destruct lv as [|l lv'] eqn:L; [apply (p3_layers_ne Hok); auto|]. destruct (H l (or_introl eq_refl)) as (u & v & Hin & _). rewrite E in Hin. destruct Hin. Qed.

Lemma prune_3D_unfold : exists ps, NoDup ps /\ (forall c, In c ps <-> considered inputs restrict c) /\ champ_ok_3D (ee_champ env) g gi lv ps /\
  considered_parts env (Tuples inputs) restrict = Ok ps /\
  snd outcome =
    (let! domains := CHAMP_3D (ee_champ env) g gi lv ps gs ge os oe in
     let! ests := snd (domains_to_gamma_omega_estimates env g gi lv domains model) in Ok (gamma_omega_estimates_to_stable_partitions (truncate oe ests))).
Proof.
  destruct (@considered_parts_ok env inputs restrict (p3_order Hok) (@prune_inputs_ne g inputs (p3_graph Hok) p3_edges (p3_inputs Hok))) as (ps & H & Nd & L & I).
  exists ps. split; auto. split; auto. split; [eapply prune_champ_3D; eauto|]. split; auto.
  unfold outcome, prune_to_multilayer_stable_partitions. rewrite H. destruct ps as [|c ps]; [reflexivity|].
  destruct (CHAMP_3D (ee_champ env) g gi lv (c :: ps) gs ge os oe) as [domains|]; [|reflexivity]. cbn [bind].
  destruct (domains_to_gamma_omega_estimates env g gi lv domains model) as [g' ests]. destruct ests; reflexivity.
Qed.

Lemma prune_3D_ok result : snd outcome = Ok result ->
  exists ps domains, NoDup ps /\ (forall c, In c ps <-> considered inputs restrict c) /\ champ_ok_3D (ee_champ env) g gi lv ps /\
    CHAMP_3D (ee_champ env) g gi lv ps gs ge os oe = Ok domains /\
    (forall c, In c result <-> exists poly x o, In (poly, c) domains /\ go_estimate env gi lv model g c = Ok (Some x, o) /\ same_side poly x (Rmin o (oe - 1 / 1000)) = true) /\
    NoDup result /\ NoDup (map snd domains).
Proof.
  intros H. destruct prune_3D_unfold as (ps & Nd & I & C & _ & E). rewrite E in H. apply bind_ok in H as (domains & HR & H). apply bind_ok in H as (ests & HE & H).
  assert (Hres : result = gamma_omega_estimates_to_stable_partitions (truncate oe ests)) by (inversion H; auto). clear H.
  exists ps, domains. split; auto. split; auto. split; auto. split; auto.
  destruct (domains_to_gamma_omega_estimates env g gi lv domains model) as [g' ests'] eqn:EE. cbn [snd] in HE. subst ests'.
  pose proof (@domains_estimates _ _ _ _ _ _ _ _ EE) as F.
  assert (Hs : selects (stable_in oe) (fun d => snd (fst (fst d))) ests result).
  { rewrite Hres. apply stable_selects. intros d Hd. clear - F Hd. induction F as [|a b l l' (x & o & Hab & _) F IH]; [destruct Hd|]. destruct Hd as [<-|Hd]; [rewrite Hab; exists o; reflexivity|auto]. }
  assert (Nr : NoDup (map snd domains)).
  { destruct (@domain_shape _ _ _ _ _ _ _ _ _ C _ HR) as (idx & Nidx & F2).
    clear - Nidx F2 Nd. induction F2 as [|i r idx ranges Hi F2 IH]; [constructor|]. inversion Nidx; subst. cbn [map]. constructor; auto.
    intros Hin. apply in_map_iff in Hin as (r' & E & Hin).
    assert (Q : exists j, In j idx /\ nth_error ps j = Some (snd r')).
    { clear - F2 Hin. induction F2 as [|a b l l' Hab F IH]; [destruct Hin|]. destruct Hin as [->|Hin]; [exists a; split; [left|]; auto|]. destruct (IH Hin) as (j & A & B). exists j. split; [right|]; auto. }
    destruct Q as (j & Hj & Ej). rewrite E in Ej. assert (i = j); [|subst; contradiction].
    apply (proj1 (NoDup_nth_error ps) Nd); [|congruence]. apply nth_error_Some. congruence. }
  split; [|split; auto].
  - intros c. rewrite (selects_in c Hs). split.
    + intros (d & Hin & (poly & c' & x & o & -> & Hss) & Hc). cbn [fst snd] in Hc. subst c'.
      assert (Q : exists r', In r' domains /\ estimated_domain env gi lv model g r' (poly, c, Some x, Some o)).
      { clear - F Hin. induction F as [|a b l l' Hab F IH]; [destruct Hin|]. destruct Hin as [->|Hin]; [exists a; split; [left|]; auto|]. destruct (IH Hin) as (r' & A & B). exists r'. split; [right|]; auto. }
      destruct Q as ([p' c'] & Hr' & ge' & oe' & E1 & E2). cbn [fst snd] in *. inversion E1; subst. exists p', x, oe'. auto.
    + intros (poly & x & o & Hin & Hest & Hss).
      assert (Q : exists b, In b ests /\ estimated_domain env gi lv model g (poly, c) b).
      { clear - F Hin. induction F as [|a b l l' Hab F IH]; [destruct Hin|]. destruct Hin as [->|Hin]; [exists b; split; [left|]; auto|]. destruct (IH Hin) as (r' & A & B). exists r'. split; [right|]; auto. }
      destruct Q as (b & Hb & ge' & oe' & E1 & E2). cbn [fst snd] in *. rewrite Hest in E2. inversion E2; subst. exists (poly, c, Some x, Some oe'). split; auto. split; [|reflexivity]. exists poly, c, x, oe'. auto.
  - assert (E3 : map (fun x => snd (fst (fst x))) ests = map snd domains).
    { clear - F. induction F as [|a b l l' (x & o & -> & _) F IH]; [reflexivity|]. cbn [map fst snd]. rewrite IH. reflexivity. }
    rewrite <- E3 in Nr. clear - Nr Hs. revert Nr. induction Hs as [|a l k Ha H IH|a l k Ha H IH]; intros Nr; [constructor| |].
    + cbn [map] in Nr. inversion Nr; subst. constructor; auto. intros Hin. apply H2. apply (selects_in _ H) in Hin as (b & Hb & _ & E). apply in_map_iff. eauto.
    + cbn [map] in Nr. inversion Nr; subst. auto.
Qed.
End Prune3.

(** There are at most as many considered partitions as inputs. *)
Lemma considered_count inputs restrict ps : NoDup ps -> (forall c, In c ps -> considered inputs restrict c) -> (length ps <= length inputs)%nat.
Proof.
  revert ps. induction inputs as [|t inputs IH]; intros ps Nd H.
  - destruct ps as [|c ps]; [auto|]. destruct (H c (or_introl eq_refl)) as (_ & (t & [] & _) & _).
  - destruct (Classical_Prop.classic (exists c, In c ps /\ same_partition t c)) as [(c & Hc & Sc)|N].
    + apply in_split in Hc as (l1 & l2 & ->). rewrite app_length. cbn [length]. rewrite Nat.add_succ_r, <- app_length. apply le_n_S. apply IH.
      * apply NoDup_remove_1 in Nd. auto.
      * intros d Hd. assert (Hd' : In d (l1 ++ c :: l2)) by (apply in_app_iff; apply in_app_iff in Hd as [|]; [left|right; right]; auto).
        destruct (H d Hd') as (Cd & (t' & [<-|Ht'] & Sd) & Kd); [|split; auto; split; eauto]. exfalso.
        assert (c = d).
        { apply canonical_unique; auto; [apply H; apply in_app_iff; right; left; auto|]. apply same_partition_trans with t; auto. apply same_partition_sym; auto. }
        subst d. apply NoDup_remove_2 in Nd. auto.
    + eapply Nat.le_trans; [apply (IH ps Nd)|cbn; lia]. intros d Hd. destruct (H d Hd) as (Cd & (t' & [<-|Ht'] & Sd) & Kd); [exfalso; eauto|]. split; auto. split; eauto.
Qed.
Lemma working_solver_le env n m : (n <= m)%nat -> working_solver env m -> working_solver env n.
Proof. intros L (H1 & H2 & d & H3 & H4). split; auto. split; auto. exists d. split; [lia|auto]. Qed.
