(** The checks on actual graphs: qualities are modularities. *)
From Verif Require Import PyBase PyGraph M_partition M_champ M_leiden M_parts M_estimation_utils M_checks Spec Spec_graph Spec_champ Spec_polygon Spec_stability
  Spec_leiden Spec_objective Spec_checks L_base L_canon L_modularity L_modularity3 L_leiden L_split L_multileiden L_objective L_checks Properties_leiden Properties_parts.
Set Implicit Arguments.
Open Scope R_scope.

Lemma nodup_labels n c : length c = n -> labels_of n c (nodup Nat.eq_dec c).
Proof. intros H. split; [apply NoDup_nodup|]. intros v Hv. apply nodup_In. apply nth_In. lia. Qed.

Lemma mapM_ok {A B} (f : A -> res B) (P : A -> B -> Prop) l : (forall a, In a l -> exists b, f a = Ok b /\ P a b) ->
  exists bs, mapM f l = Ok bs /\ Forall2 P l bs.
Proof.
  induction l as [|a l IH]; intros H; [exists []; split; constructor|]. cbn [mapM].
  destruct (H a (or_introl eq_refl)) as (b & -> & Hb). destruct (IH (fun x h => H x (or_intror h))) as (bs & -> & F).
  exists (b :: bs). split; [reflexivity|constructor; auto].
Qed.

Lemma Forall2_keys {V} (P : list nat -> V -> Prop) l (d : list (list nat * V)) : Forall2 (fun p kv => fst kv = p /\ P p (snd kv)) l d ->
  map fst d = l /\ forall k o, In (k, o) d -> P k o.
Proof.
  intros F. induction F as [|p [k o] l d [E H] F [IH1 IH2]]; [split; auto; intros _ _ []|]. cbn in *. subst k. rewrite IH1. split; auto.
  intros k' o' [Q|Q]; [inversion Q; subst; auto|auto].
Qed.

Lemma parts_2D g parts : wf_graph g -> (forall c, In c parts -> length c = vcount g) ->
  exists d, leiden_parts_by_membership g parts = Ok d /\ map fst d = parts /\ forall k o, In (k, o) d -> forall gamma, part_quality o gamma = modularity g gamma k.
Proof.
  intros Hg Hp. unfold leiden_parts_by_membership.
  destruct (@mapM_ok _ _ (fun p => let! o := leiden_part_object g p in Ok (p, o)) (fun p kv => fst kv = p /\ forall gamma, part_quality (snd kv) gamma = modularity g gamma p) parts) as (d & Ed & F).
  - intros c Hc. destruct (C64_leiden_part g c Hg) as [H _]. destruct (H (Hp c Hc)) as (p & E & E1 & _ & E2). rewrite E. exists (c, p). split; [reflexivity|]. split; auto.
    intros gamma. cbn [snd]. rewrite <- (E2 gamma (nodup Nat.eq_dec c)) by (apply nodup_labels; apply Hp; auto). unfold part_quality, quality_at. rewrite E1. reflexivity.
  - exists d. split; auto. apply (@Forall2_keys _ (fun p o => forall gamma, part_quality o gamma = modularity g gamma p)). exact F.
Qed.

(** *** several layers *)
Lemma parts_step' env w a b g ge lv : a <> b ->
  nth_error (heap w) a = Some g -> nth_error (heap w) b = Some ge ->
  up_to_date (cache w) a (weighted env g) lv ->
  exists w', multilayer_leiden_part env w a b lv =
      (w', let! layers := split_of (weighted env g) lv in Ok (map (fun gt => mkVP RBConfiguration gt 1) layers, mkVP CPM (weighted env ge) 0)) /\
    nth_error (heap w') a = Some (weighted env g) /\ nth_error (heap w') b = Some (weighted env ge) /\
    length (heap w') = length (heap w) /\ (forall i, i <> a -> i <> b -> nth_error (heap w') i = nth_error (heap w) i) /\
    up_to_date (cache w') a (weighted env g) lv.
Proof.
  intros Hab Ha Hb Hc. unfold multilayer_leiden_part. rewrite (default_weights_at_ok env w a Ha).
  assert (Hb1 : nth_error (heap_set (heap w) a (weighted env g)) b = Some ge).
  { rewrite heap_set_nth. destruct (Nat.eq_dec a b); [congruence|auto]. }
  rewrite (@default_weights_at_ok env (mkWorld (heap_set (heap w) a (weighted env g)) (cache w)) b ge Hb1). cbn [heap cache].
  set (h := heap_set (heap_set (heap w) a (weighted env g)) b (weighted env ge)).
  assert (La : (a < length (heap w))%nat) by (apply nth_error_Some; congruence).
  assert (Lb : (b < length (heap_set (heap w) a (weighted env g)))%nat) by (apply nth_error_Some; congruence).
  assert (Hha : nth_error h a = Some (weighted env g)).
  { unfold h. rewrite heap_set_nth. destruct (Nat.eq_dec b a); [congruence|]. rewrite heap_set_nth. destruct (Nat.eq_dec a a); [|congruence]. destruct (lt_dec a (length (heap w))); [auto|contradiction]. }
  assert (Hhb : nth_error h b = Some (weighted env ge)).
  { unfold h. rewrite heap_set_nth. destruct (Nat.eq_dec b b); [|congruence]. destruct (lt_dec b _); [auto|contradiction]. }
  assert (Hl : length h = length (heap w)).
  { assert (L : forall l i x, length (heap_set l i x) = length l).
    { induction l as [|y l IH]; intros [|i] x; cbn [heap_set length]; auto. }
    unfold h. rewrite !L. auto. }
  assert (Ho : forall i, i <> a -> i <> b -> nth_error h i = nth_error (heap w) i).
  { intros i N1 N2. unfold h. rewrite !heap_set_nth. destruct (Nat.eq_dec b i); [congruence|]. destruct (Nat.eq_dec a i); [congruence|]. auto. }
  destruct (@split_through_cache (mkWorld h (cache w)) a (weighted env g) lv Hha Hc) as (c & E & Hc'). rewrite E. cbn [heap]. unfold py_get. rewrite Hhb.
  destruct (split_of (weighted env g) lv) as [layers|e]; eexists; (split; [reflexivity|]); cbn [heap cache]; auto 10.
Qed.

Section Multi.
Variables (env : leiden_env) (a b : nat) (g ge : graph) (lv : list nat) (layers : list graph).
Hypothesis Hab : a <> b.
Hypothesis Hs : split_of (weighted env g) lv = Ok layers.
Hypothesis Hlay : forall gt, In gt layers -> vcount gt = vcount g.
Hypothesis Hv : vcount ge = vcount g.

Lemma parts_3D parts : (forall c, In c parts -> length c = vcount g) ->
  forall w g0 ge0, nth_error (heap w) a = Some g0 -> nth_error (heap w) b = Some ge0 -> weighted env g0 = weighted env g -> weighted env ge0 = weighted env ge ->
  up_to_date (cache w) a (weighted env g) lv ->
  exists w', multilayer_parts_by_membership env w a b lv parts =
    (w', Ok (map (fun c => (c, (map (fun gt => mkWM (mkVP RBConfiguration gt 1) c) layers, mkWM (mkVP CPM (weighted env ge) 0) c))) parts)) /\
    (parts <> [] -> nth_error (heap w') a = Some (weighted env g) /\ nth_error (heap w') b = Some (weighted env ge)) /\
    length (heap w') = length (heap w) /\ (forall i, i <> a -> i <> b -> nth_error (heap w') i = nth_error (heap w) i).
Proof.
  induction parts as [|c parts IH]; intros Hp w g0 ge0 Ha Hb E1 E2 U.
  - exists w. split; [reflexivity|]. split; [congruence|]. auto.
  - cbn [multilayer_parts_by_membership map]. unfold multilayer_leiden_part_with_membership.
    destruct (@parts_step' env w a b g0 ge0 lv Hab Ha Hb) as (w1 & E & Ha1 & Hb1 & L1 & O1 & U1); [rewrite E1; auto|]. rewrite E, E1, E2, Hs. cbn [bind].
    rewrite (mapM_set_membership _ c (vcount g)).
    2: { intros vp Hin. apply in_map_iff in Hin as (gt & <- & Hin). cbn. auto. }
    2: { apply Hp. left. auto. }
    cbn [bind vp_graph]. unfold set_membership. destruct (weighted_fields env ge) as (Vge & _). rewrite Vge, Hv, (Hp c (or_introl eq_refl)), Nat.eqb_refl. cbn [bind].
    destruct (IH (fun x h => Hp x (or_intror h)) w1 (weighted env g0) (weighted env ge0) Ha1 Hb1) as (w2 & Er & Hh & L2 & O2).
    + rewrite weighted_idem. auto.
    + rewrite weighted_idem. auto.
    + rewrite <- E1. auto.
    + rewrite Er. cbn [bind]. exists w2. split; [rewrite map_map; reflexivity|]. split; [|split; [congruence|]].
      * intros _. destruct parts as [|c' parts']; [|apply Hh; discriminate]. cbn in Er. inversion Er; subst w2. rewrite <- E1, <- E2. auto.
      * intros i N1 N2. rewrite O2, O1; auto.
Qed.
End Multi.

Lemma check_parts_3D env w a b g ge lv parts : a <> b -> nth_error (heap w) a = Some g -> nth_error (heap w) b = Some ge ->
  wf_graph g -> wf_graph ge -> vcount ge = vcount g -> length lv = vcount g -> lv <> [] -> (forall c, In c parts -> length c = vcount g) ->
  edges_within_layers g lv ->
  counts_edges (le_contains env g) g -> counts_edges (le_contains env ge) ge ->
  (forall g' v, weights_defaulted (le_contains env g) g g' -> In (key_of a g' lv, v) (cache w) ->
     layer_graphs g (repeat 1 (length (edges g))) lv v) ->
  exists w' d, multilayer_parts_by_membership env w a b lv parts = (w', Ok d) /\ map fst d = parts /\
    (forall k o, In (k, o) d -> forall gamma omega, multilayer_part_quality o gamma omega = multilayer_modularity g ge lv gamma omega k) /\
    (parts <> [] -> nth_error (heap w') a = Some (weighted env g) /\ nth_error (heap w') b = Some (weighted env ge)) /\
    length (heap w') = length (heap w) /\ (forall i, i <> a -> i <> b -> nth_error (heap w') i = nth_error (heap w) i).
Proof.
  intros Hab Ha Hb Hg Hge Hv Hlen Hne Hc Hw Cg Cge Hcache.
  pose proof (counts_edges_weighted env g Cg) as Wg. pose proof (counts_edges_weighted env ge Cge) as Wge.
  destruct (weighted_fields env g) as (Vg & Dg & Eg). destruct (weighted_fields env ge) as (Vge & Dge & Ege).
  assert (Sg : weighted env g = mkGraph (vcount g) (directed g) (edges g) (Some (repeat 1 (length (edges g))))).
  { destruct (weighted env g) as [x y z t]. cbn in *. subst. reflexivity. }
  assert (Wfg : wf_graph (weighted env g)) by (apply weighted_wf; auto).
  destruct (@split_layer_graphs (weighted env g) (repeat 1 (length (edges g))) lv Wfg Wg Hne) as (layers & Hs & Hl); [lia|].
  assert (Hl' : layer_graphs g (repeat 1 (length (edges g))) lv layers) by (rewrite Sg in Hl; exact Hl).
  assert (U : up_to_date (cache w) a (weighted env g) lv).
  { intros v Hin. rewrite Hs. f_equal. eapply layer_graphs_unique; [exact Hl'|]. apply (Hcache (weighted env g)); auto. apply weighted_defaulted. }
  assert (Hlay : forall gt, In gt layers -> vcount gt = vcount g).
  { intros gt Hin. apply In_nth_error in Hin as [t Ht]. destruct Hl' as (_ & _ & H). apply (H t gt Ht). }
  destruct (@parts_3D env a b g ge lv layers Hab Hs Hlay Hv parts Hc w g ge Ha Hb eq_refl eq_refl U) as (w' & E & Hh & L & O).
  exists w'. eexists. split; [exact E|]. split; [rewrite map_map; cbn [fst]; apply map_id|]. split; [|auto].
  intros k o Hin gamma omega. apply in_map_iff in Hin as (c & E1 & Hin). inversion E1; subst k o.
  assert (We : weights (weighted env ge) = Some (repeat 1 (length (edges (weighted env ge))))) by (rewrite Ege; exact Wge).
  assert (M : multilayer_modularity g ge lv gamma omega c = multilayer_modularity g (weighted env ge) lv gamma omega c).
  { unfold weighted. destruct (le_contains env ge); reflexivity. }
  destruct (@nodup_labels (vcount g) c (Hc c Hin)) as [Hn Hk].
  rewrite M, <- (C51_multilayer_objective g (weighted env ge) lv c (nodup Nat.eq_dec c) layers gamma omega); auto using weighted_wf; [|congruence].
  unfold objective_value, multiplex_objective. change (fold_right Rplus 0) with rsum. rewrite map_app, rsum_app. cbn [map]. rewrite rsum_cons, rsum_nil, !map_map. cbn [fst snd].
  unfold multilayer_part_quality, part_quality. cbn [fst snd wm_object wm_membership vp_type vp_graph]. rewrite map_map. cbn [wm_object wm_membership vp_type vp_graph]. rewrite Rplus_0_r. f_equal. apply rsum_map_ext. intros gt _. rewrite Rmult_1_l. reflexivity.
Qed.

(** ** The exhaustive grid *)
Lemma grid_cells intra_q inter_q parts : forall (F : R -> R -> option (R * list nat)) gammas omegas,
  fold_left (fun grid p => map (fun row => map (fun cell =>
         let gamma := fst (snd cell) in let omega := snd (snd cell) in
         (update_cell (fst cell) (intra_q p gamma + omega * inter_q p 0) p, (gamma, omega))) row) grid)
    parts (map (fun gamma => map (fun omega => (F gamma omega, (gamma, omega))) omegas) gammas)
  = map (fun gamma => map (fun omega => (fold_left (fun cell p => update_cell cell (intra_q p gamma + omega * inter_q p 0) p) parts (F gamma omega), (gamma, omega))) omegas) gammas.
Proof.
  induction parts as [|p parts IH]; intros F gammas omegas; cbn [fold_left]; auto.
  rewrite map_map. rewrite <- (IH (fun gamma omega => update_cell (F gamma omega) (intra_q p gamma + omega * inter_q p 0) p)). f_equal.
  apply map_ext. intros gamma. rewrite map_map. reflexivity.
Qed.

Lemma manual_grid_cells intra_q inter_q parts gammas omegas : manual_grid intra_q inter_q gammas omegas parts
  = map (fun gamma => map (fun omega => (fold_left (fun cell p => update_cell cell (intra_q p gamma + omega * inter_q p 0) p) parts None, (gamma, omega))) omegas) gammas.
Proof. exact (@grid_cells intra_q inter_q parts (fun _ _ => None) gammas omegas). Qed.

Lemma cell_best (Q : list nat -> R) parts : forall l1 p0 l2, (forall c, In c l1 -> Q c < Q p0) -> (forall c, In c l2 -> Q c <= Q p0) ->
  exists p, fold_left (fun cell p => update_cell cell (Q p) p) parts (Some (Q p0, p0)) = Some (Q p, p) /\
    exists m1 m2, l1 ++ p0 :: l2 ++ parts = m1 ++ p :: m2 /\ (forall c, In c m1 -> Q c < Q p) /\ (forall c, In c m2 -> Q c <= Q p).
Proof.
  induction parts as [|x parts IH]; intros l1 p0 l2 H1 H2; cbn [fold_left].
  - exists p0. split; auto. exists l1, l2. rewrite app_nil_r. auto.
  - unfold update_cell at 2. unfold Rltb. destruct (Rlt_dec (Q p0) (Q x)) as [L|L].
    + destruct (IH (l1 ++ p0 :: l2) x []) as (p & E & m1 & m2 & A & B).
      * intros c Hc. apply in_app_or in Hc as [Hc|[<-|Hc]]; auto; [specialize (H1 c Hc)|specialize (H2 c Hc)]; lra.
      * intros c [].
      * exists p. split; auto. exists m1, m2. split; auto. rewrite <- A. rewrite <- app_assoc. reflexivity.
    + destruct (IH l1 p0 (l2 ++ [x])) as (p & E & m1 & m2 & A & B); auto.
      * intros c Hc. apply in_app_or in Hc as [Hc|[<-|[]]]; auto. lra.
      * exists p. split; auto. exists m1, m2. split; auto. rewrite <- A. rewrite <- app_assoc. reflexivity.
Qed.

Lemma cell_spec (Q : list nat -> R) parts : parts <> [] ->
  exists p, fold_left (fun cell p => update_cell cell (Q p) p) parts None = Some (Q p, p) /\ first_best Q parts p.
Proof.
  destruct parts as [|p0 parts]; [congruence|]. intros _. cbn [fold_left update_cell].
  destruct (@cell_best Q parts [] p0 []) as (p & E & m1 & m2 & A & B); [intros c []|intros c []|]. exists p. split; auto. exists m1, m2. auto.
Qed.

Lemma Forall2_concat {A B} (P : A -> B -> Prop) l1 l2 : Forall2 (Forall2 P) l1 l2 -> Forall2 P (concat l1) (concat l2).
Proof. intros F. induction F; cbn; [constructor|]. apply Forall2_app; auto. Qed.
Lemma Forall2_map_l {A B C} (P : B -> C -> Prop) (f : A -> B) l l2 : Forall2 P (map f l) l2 <-> Forall2 (fun a c => P (f a) c) l l2.
Proof.
  split.
  - revert l2. induction l as [|a l IH]; intros l2 F; inversion F; subst; constructor; auto.
  - intros F. induction F; constructor; auto.
Qed.
Lemma Forall2_len {A B} (P : A -> B -> Prop) l1 l2 : Forall2 P l1 l2 -> length l1 = length l2.
Proof. intros F. induction F; cbn; auto. Qed.
