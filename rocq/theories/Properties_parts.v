(** Theorems about the partition objects handed to the user, and about what the optimiser is called with: C51 (end to end), C64. *)
From Verif Require Import PyBase PyGraph M_partition M_pool M_champ M_leiden M_louvain M_parts Spec Spec_graph Spec_leiden Spec_objective.
From Verif Require Import L_base L_canon L_parallel L_modularity L_modularity3 L_leiden L_split L_multileiden L_objective L_louvain Properties_leiden.
Open Scope R_scope.

(** [part.quality(resolution_parameter=gamma)] *)
Definition quality_at (p : with_membership vpart) (gamma : R) (ks : list nat) : R :=
  quality (mkVP (vp_type (wm_object p)) (vp_graph (wm_object p)) gamma) (wm_membership p) ks.

(** [ks] lists the labels of the vertices 0..n-1, each once (and possibly labels that are not used). *)
Definition labels_of (n : nat) (c ks : list nat) : Prop := NoDup ks /\ forall v, (v < n)%nat -> In (nth v c 0%nat) ks.

Lemma counts_edges_weighted env g : counts_edges (le_contains env g) g -> weights (weighted env g) = Some (repeat 1 (length (edges g))).
Proof. unfold weighted, counts_edges. destruct (le_contains env g); cbn; auto. Qed.

Lemma unit_modularity_fields g w gamma c : modularity (mkGraph (vcount g) (directed g) (edges g) w) gamma c = modularity g gamma c.
Proof. reflexivity. Qed.

Lemma layer_graphs_weights g w ws lv gs : layer_graphs (mkGraph (vcount g) (directed g) (edges g) w) ws lv gs <-> layer_graphs g ws lv gs.
Proof. reflexivity. Qed.

(** ** C64 *)
(** leiden_part_with_membership: the object carries the membership, and at every resolution its quality is the modularity of
    that partition of the unweighted graph, whether or not the graph has weights; its own resolution is 1. *)
Theorem C64_leiden_part : forall g c, wf_graph g ->
  (length c = vcount g -> exists p, leiden_part_object g c = Ok p /\ wm_membership p = c /\
     vp_gamma (wm_object p) = 1 /\
     forall gamma ks, labels_of (vcount g) c ks -> quality_at p gamma ks = modularity g gamma c) /\
  (length c <> vcount g -> leiden_part_object g c = Raise ValueError).
Proof.
  intros g c Hwf. unfold leiden_part_object, set_membership. split; intros Hlen.
  - rewrite Hlen, Nat.eqb_refl. eexists. split; [reflexivity|]. split; [reflexivity|]. split; [reflexivity|]. intros gamma ks [Hn Hk].
    unfold quality_at. cbn [wm_object wm_membership leiden_part vp_type vp_graph].
    rewrite (C51_singlelayer_objective (mkGraph (vcount g) (directed g) (edges g) (Some (repeat 1 (ecount g)))) c ks gamma); auto.
    split; [exact (proj1 Hwf)|]. intros ws E. inversion E. apply repeat_length.
  - apply Nat.eqb_neq in Hlen. rewrite Hlen. reflexivity.
Qed.
Print Assumptions C64_leiden_part.

Lemma mapM_set_membership vps c n : (forall vp, In vp vps -> vcount (vp_graph vp) = n) -> length c = n ->
  mapM (fun vp => set_membership (vcount (vp_graph vp)) vp c) vps = Ok (map (fun vp => mkWM vp c) vps).
Proof.
  induction vps as [|vp vps IH]; intros H Hc; [reflexivity|]. cbn [mapM map]. unfold set_membership at 1.
  rewrite (H vp (or_introl eq_refl)), Hc, Nat.eqb_refl. cbn [bind]. rewrite IH; auto. intros x Hx. apply H. right. auto.
Qed.

Lemma parts_step env w a b g ge lv : a <> b ->
  nth_error (heap w) a = Some g -> nth_error (heap w) b = Some ge ->
  up_to_date (cache w) a (weighted env g) lv ->
  exists w', multilayer_leiden_part env w a b lv =
      (w', let! layers := split_of (weighted env g) lv in Ok (map (fun gt => mkVP RBConfiguration gt 1) layers, mkVP CPM (weighted env ge) 0)) /\
    heap w' = heap_set (heap_set (heap w) a (weighted env g)) b (weighted env ge).
Proof.
  intros Hab Ha Hb Hc. unfold multilayer_leiden_part. rewrite (default_weights_at_ok env w a Ha).
  assert (Hb1 : nth_error (heap_set (heap w) a (weighted env g)) b = Some ge).
  { rewrite heap_set_nth. destruct (Nat.eq_dec a b); [congruence|auto]. }
  rewrite (@default_weights_at_ok env (mkWorld (heap_set (heap w) a (weighted env g)) (cache w)) b ge Hb1). cbn [heap cache].
  set (h := heap_set (heap_set (heap w) a (weighted env g)) b (weighted env ge)).
  assert (La : (a < length (heap w))%nat) by (apply nth_error_Some; congruence).
  assert (Lb : (b < length (heap_set (heap w) a (weighted env g)))%nat) by (apply nth_error_Some; congruence).
  assert (Hha : nth_error h a = Some (weighted env g)).
  { unfold h. rewrite heap_set_nth. destruct (Nat.eq_dec b a); [congruence|]. rewrite heap_set_nth. destruct (Nat.eq_dec a a); [|congruence]. destruct (lt_dec a (length (heap w))); [auto|contradiction]. }
  assert (Hhb : nth_error h b = Some (weighted env ge)).
  { unfold h. rewrite heap_set_nth. destruct (Nat.eq_dec b b); [|congruence]. destruct (lt_dec b _); [auto|contradiction]. }
  destruct (@split_through_cache (mkWorld h (cache w)) a (weighted env g) lv Hha Hc) as (c & E & _). rewrite E. cbn [heap]. unfold py_get. rewrite Hhb.
  destruct (split_of (weighted env g) lv) as [layers|e]; eexists; split; try reflexivity.
Qed.

(** multilayer_leiden_part_with_membership: one object per layer and one for the coupling, all carrying the membership; their
    qualities at gamma, and omega times that of the coupling, add up to the multilayer modularity of the partition.  The
    layer-split cache must not hold outdated layers for this graph object (C10). *)
Theorem C64_multilayer_leiden_parts : forall env w a b g ge lv c,
  a <> b -> nth_error (heap w) a = Some g -> nth_error (heap w) b = Some ge ->
  wf_graph g -> wf_graph ge -> vcount ge = vcount g -> length lv = vcount g -> lv <> [] -> length c = vcount g ->
  edges_within_layers g lv ->
  counts_edges (le_contains env g) g -> counts_edges (le_contains env ge) ge ->
  (forall g' v, weights_defaulted (le_contains env g) g g' -> In (key_of a g' lv, v) (cache w) ->
     layer_graphs g (repeat 1 (length (edges g))) lv v) ->
  exists parts inter_part, snd (multilayer_leiden_part_with_membership env w a b lv c) = Ok (parts, inter_part) /\
    (exists l, In l lv /\ length parts = S l /\ forall l', In l' lv -> (l' <= l)%nat) /\
    (forall p, In p parts -> wm_membership p = c /\ vp_gamma (wm_object p) = 1) /\
    wm_membership inter_part = c /\ vp_gamma (wm_object inter_part) = 0 /\
    forall gamma omega ks, labels_of (vcount g) c ks ->
      fold_right Rplus 0 (map (fun p => quality_at p gamma ks) parts) + omega * quality_at inter_part 0 ks
      = multilayer_modularity g ge lv gamma omega c.
Proof.
  intros env w a b g ge lv c Hab Ha Hb Hg Hge Hv Hlen Hne Hc Hw Cg Cge Hcache.
  pose proof (counts_edges_weighted env g Cg) as Wg. pose proof (counts_edges_weighted env ge Cge) as Wge.
  destruct (weighted_fields env g) as (Vg & Dg & Eg). destruct (weighted_fields env ge) as (Vge & Dge & Ege).
  assert (Sg : weighted env g = mkGraph (vcount g) (directed g) (edges g) (Some (repeat 1 (length (edges g))))).
  { destruct (weighted env g) as [x y z t]. cbn in *. subst. reflexivity. }
  assert (Wfg : wf_graph (weighted env g)) by (apply weighted_wf; auto).
  destruct (@split_layer_graphs (weighted env g) (repeat 1 (length (edges g))) lv Wfg Wg Hne) as (layers & Hs & Hl); [lia|].
  assert (Hl' : layer_graphs g (repeat 1 (length (edges g))) lv layers) by (rewrite Sg in Hl; exact Hl).
  assert (U : up_to_date (cache w) a (weighted env g) lv).
  { intros v Hin. rewrite Hs. f_equal. eapply layer_graphs_unique; [exact Hl'|]. apply (Hcache (weighted env g)); auto. apply weighted_defaulted. }
  destruct (parts_step env w a b g ge lv Hab Ha Hb U) as (w' & E & _). unfold multilayer_leiden_part_with_membership. rewrite E, Hs. cbn [bind snd].
  rewrite (mapM_set_membership _ c (vcount g)).
  2: { intros vp Hin. apply in_map_iff in Hin as (gt & <- & Hin). cbn. apply In_nth_error in Hin as [t Ht]. destruct Hl' as (_ & _ & H). apply (H t gt Ht). }
  2: auto.
  cbn [bind vp_graph]. unfold set_membership. rewrite Vge, Hv, Hc, Nat.eqb_refl. cbn [bind].
  eexists _, _. split; [reflexivity|]. split; [|split; [|split; [reflexivity|split; [reflexivity|]]]].
  - destruct Hl' as (L1 & (l & L2 & L3) & _). exists l. split; auto. rewrite !map_length. split; auto. intros l' Hin. specialize (L1 l' Hin). lia.
  - intros p Hin. apply in_map_iff in Hin as (vp & <- & Hin). split; [reflexivity|]. cbn. apply in_map_iff in Hin as (gt & <- & _). reflexivity.
  - intros gamma omega ks [Hn Hk].
    assert (We : weights (weighted env ge) = Some (repeat 1 (length (edges (weighted env ge))))) by (rewrite Ege; exact Wge).
    assert (M : multilayer_modularity g ge lv gamma omega c = multilayer_modularity g (weighted env ge) lv gamma omega c).
    { unfold weighted. destruct (le_contains env ge); reflexivity. }
    rewrite M, <- (C51_multilayer_objective g (weighted env ge) lv c ks layers gamma omega); auto using weighted_wf; [|congruence].
    unfold objective_value, multiplex_objective. change (fold_right Rplus 0) with rsum. rewrite map_app, rsum_app. cbn [map]. rewrite rsum_cons, rsum_nil, !map_map. cbn [fst snd].
    unfold quality_at. cbn [wm_object wm_membership vp_type vp_graph]. rewrite Rplus_0_r. f_equal. apply rsum_map_ext. intros gt _. rewrite Rmult_1_l. reflexivity.
Qed.
Print Assumptions C64_multilayer_leiden_parts.

(** return_partition=True: the intralayer objects the optimiser worked on, each with the membership the other mode returns, for
    the same run of the optimiser; graphs and cache end up the same. *)
Theorem C64_return_partition : forall env k w a b lv gamma omega,
  let (w1, r1) := multilayer_leiden env k w a b lv gamma omega in
  let (w2, r2) := multilayer_leiden_objects env k w a b lv gamma omega in
  w1 = w2 /\ (forall e, r1 = Raise e <-> r2 = Raise e) /\
  (forall m, r1 = Ok m -> exists parts gi, r2 = Ok parts /\
     le_multiplex env k (map (fun p => (wm_object p, 1)) parts ++ [(mkVP CPM gi 0, omega)]) = Ok m /\
     forall p, In p parts -> wm_membership p = m /\ vp_gamma (wm_object p) = gamma /\ vp_type (wm_object p) = RBConfiguration).
Proof.
  intros env k w a b lv gamma omega. unfold multilayer_leiden, multilayer_leiden_objects.
  destruct (default_weights_at env w a) as [w1|e]; [|split; [auto|split; [intros e'; split; intros E; inversion E; reflexivity|discriminate]]].
  destruct (default_weights_at env w1 b) as [w2|e]; [|split; [auto|split; [intros e'; split; intros E; inversion E; reflexivity|discriminate]]].
  destruct (split_intralayer_leiden_graph w2 a lv) as [w3 [layers|e]]; [|split; [auto|split; [intros e'; split; intros E; inversion E; reflexivity|discriminate]]].
  destruct (py_get (heap w3) b) as [gi|e]; [|split; [auto|split; [intros e'; split; intros E; inversion E; reflexivity|discriminate]]].
  destruct (le_multiplex env k (multiplex_objective layers gi gamma omega)) as [m|e] eqn:Em; cbn [bind].
  - split; auto. split; [intros e; split; discriminate|]. intros m' E. inversion E; subst. eexists. exists gi. split; [reflexivity|]. split.
    + rewrite map_map. exact Em.
    + intros p Hin. apply in_map_iff in Hin as (gt & <- & _). auto.
  - split; auto. split; [intros e'; split; intros E; inversion E; reflexivity|discriminate].
Qed.
Print Assumptions C64_return_partition.

(** The legacy Louvain objects: both carry the membership; the layered one is on the intralayer graph with the given layers,
    the CPM one on the interlayer graph at resolution 0, both with defaulted weights.  Without the fork of the package there
    is nothing to build. *)
Theorem C64_multilayer_louvain_parts : forall env g ge lv c,
  let (gs, r) := multilayer_louvain_part_with_membership env g ge lv c in
  weights_defaulted (lo_contains env g) g (fst gs) /\ weights_defaulted (lo_contains env ge) ge (snd gs) /\
  match lo_package env with
  | WithLayers =>
    (length c = vcount g -> length c = vcount ge -> exists p q, r = Ok (p, q) /\ wm_membership p = c /\ wm_membership q = c /\
       wm_object p = (fst gs, lv, 1) /\ wm_object q = (snd gs, 0)) /\
    (length c <> vcount g \/ length c <> vcount ge -> r = Raise ValueError)
  | Plain => r = Raise AttributeError
  | Missing => r = Raise NameError
  end.
Proof.
  intros env g ge lv c. unfold multilayer_louvain_part_with_membership, multilayer_louvain_part.
  rewrite !default_weights_total. cbv beta iota.
  split; [exact (weighted_defaulted (leiden_of env) g)|]. split; [exact (weighted_defaulted (leiden_of env) ge)|].
  destruct (weighted_fields (leiden_of env) g) as (Vg & _). destruct (weighted_fields (leiden_of env) ge) as (Vge & _). unfold weighted in Vg, Vge.
  destruct (lo_package env); cbn [bind]; auto. cbv beta iota. cbn [bind fst snd]. unfold set_membership. rewrite Vg. split.
  - intros -> E2. rewrite Nat.eqb_refl. cbn [bind]. rewrite Vge, <- E2, Nat.eqb_refl. eexists _, _. split; [reflexivity|]. cbn. auto.
  - intros H. destruct (Nat.eqb_spec (length c) (vcount g)) as [E|E]; cbn [bind]; auto. rewrite Vge. destruct (Nat.eqb_spec (length c) (vcount ge)) as [E'|E']; cbn [bind]; auto. tauto.
Qed.
Print Assumptions C64_multilayer_louvain_parts.

Example C64_example : exists parts inter_part,
  snd (multilayer_leiden_part_with_membership env3 (mkWorld [two_layers; coupling] []) 0 1 [0; 0; 1; 1]%nat [0; 0; 1; 0]%nat) = Ok (parts, inter_part) /\
  length parts = 2%nat /\ labels_of 4 [0; 0; 1; 0]%nat [0; 1]%nat /\ counts_edges (le_contains env3 two_layers) two_layers.
Proof.
  eexists _, _. split; [reflexivity|]. split; [reflexivity|]. split; [|intros E; discriminate E].
  split; [repeat (apply NoDup_cons || apply NoDup_nil); simpl; intuition discriminate|]. intros [|[|[|[|v]]]] H; cbn; auto; lia.
Qed.

(** ** C51, end to end: the run of the optimiser that multilayer_leiden makes is on objects whose weighted qualities add up to
    multilayer modularity, hence (C14) to A_hat - gamma P_hat + omega C_hat of every partition. *)
Theorem C51_multilayer_leiden_optimises : forall env k w a b g ge lv gamma omega,
  a <> b -> nth_error (heap w) a = Some g -> nth_error (heap w) b = Some ge ->
  wf_graph g -> wf_graph ge -> vcount ge = vcount g -> length lv = vcount g -> lv <> [] -> edges_within_layers g lv ->
  counts_edges (le_contains env g) g -> counts_edges (le_contains env ge) ge ->
  (forall g' v, weights_defaulted (le_contains env g) g g' -> In (key_of a g' lv, v) (cache w) ->
     layer_graphs g (repeat 1 (length (edges g))) lv v) ->
  exists objects, snd (multilayer_leiden env k w a b lv gamma omega) = le_multiplex env k objects /\
    objects <> [] /\ (forall ow, In ow objects -> vcount (vp_graph (fst ow)) = vcount g) /\
    forall c ks, labels_of (vcount g) c ks -> objective_value objects c ks = multilayer_modularity g ge lv gamma omega c.
Proof.
  intros env k w a b g ge lv gamma omega Hab Ha Hb Hg Hge Hv Hlen Hne Hw Cg Cge Hcache.
  pose proof (counts_edges_weighted env g Cg) as Wg. pose proof (counts_edges_weighted env ge Cge) as Wge.
  destruct (weighted_fields env g) as (Vg & Dg & Eg). destruct (weighted_fields env ge) as (Vge & Dge & Ege).
  assert (Sg : weighted env g = mkGraph (vcount g) (directed g) (edges g) (Some (repeat 1 (length (edges g))))).
  { destruct (weighted env g) as [x y z t]. cbn in *. subst. reflexivity. }
  assert (Wfg : wf_graph (weighted env g)) by (apply weighted_wf; auto).
  destruct (@split_layer_graphs (weighted env g) (repeat 1 (length (edges g))) lv Wfg Wg Hne) as (layers & Hs & Hl); [lia|].
  assert (Hl' : layer_graphs g (repeat 1 (length (edges g))) lv layers) by (rewrite Sg in Hl; exact Hl).
  assert (U : up_to_date (cache w) a (weighted env g) lv).
  { intros v Hin. rewrite Hs. f_equal. eapply layer_graphs_unique; [exact Hl'|]. apply (Hcache (weighted env g)); auto. apply weighted_defaulted. }
  destruct (@multilayer_step env k w a b g ge lv gamma omega Hab Ha Hb U) as (c0 & E & _). rewrite E. cbn [snd]. unfold multi_outcome. rewrite Hs. cbn [bind].
  eexists. split; [reflexivity|]. split.
  { unfold multiplex_objective. destruct (map _ layers); discriminate. }
  split.
  { intros ow Hin. unfold multiplex_objective in Hin. apply in_app_or in Hin as [Hin|[<-|[]]].
    - apply in_map_iff in Hin as (gt & <- & Hin). cbn. apply In_nth_error in Hin as [t Ht]. destruct Hl' as (_ & _ & H). apply (H t gt Ht).
    - cbn. congruence. }
  intros c ks [Hn Hk].
  assert (We : weights (weighted env ge) = Some (repeat 1 (length (edges (weighted env ge))))) by (rewrite Ege; exact Wge).
  assert (M : multilayer_modularity g ge lv gamma omega c = multilayer_modularity g (weighted env ge) lv gamma omega c).
  { unfold weighted. destruct (le_contains env ge); reflexivity. }
  rewrite M. apply C51_multilayer_objective; auto using weighted_wf. congruence.
Qed.
Print Assumptions C51_multilayer_leiden_optimises.

Theorem C51_singlelayer_leiden_optimises : forall env k g gamma, wf_graph g -> counts_edges (le_contains env g) g ->
  exists object, snd (singlelayer_leiden env k g gamma) = le_find env k object /\ vcount (vp_graph object) = vcount g /\
    forall c ks, labels_of (vcount g) c ks -> quality object c ks = modularity g gamma c.
Proof.
  intros env k g gamma Hwf C. rewrite singlelayer_out. cbn [snd].
  pose proof (counts_edges_weighted env g C) as W. destruct (weighted_fields env g) as (V & D & E).
  eexists. split; [reflexivity|]. split; [exact V|]. intros c ks [Hn Hk].
  rewrite C51_singlelayer_objective; auto using weighted_wf; [|rewrite E; auto|rewrite V; auto].
  unfold weighted. destruct (le_contains env g); reflexivity.
Qed.
Print Assumptions C51_singlelayer_leiden_optimises.
