(** Theorems about the whole pipeline with an optimiser that finds maxima: C65. *)
From Verif Require Import PyBase PyGraph M_partition M_pool M_champ M_leiden M_louvain M_parts Spec Spec_graph Spec_leiden Spec_objective Spec_champ Spec_pipeline.
From Verif Require Import L_base L_canon L_parallel L_modularity L_modularity3 L_bounds L_leiden L_split L_multileiden L_objective L_champ L_champ2 L_champ3 L_champ_total
  Properties_coefficients Properties_champ Properties_leiden Properties_parts.
Open Scope R_scope.

(** *** label vectors *)
Lemma canonical_first_le c : canonical c -> forall b i, occurs_first c b i -> (b <= i)%nat.
Proof.
  intros Hc. induction b as [|b IH]; intros i Hi; [lia|].
  destruct (Hc (S b) i Hi b ltac:(lia)) as (k & Hk & Ho). specialize (IH k Ho). lia.
Qed.
Lemma canonical_labelling c : canonical c -> labelling (length c) c.
Proof.
  intros Hc. split; auto. intros x Hx. destruct (in_occurs_first Nat.eq_dec c x Hx) as [i Hi].
  pose proof (canonical_first_le c Hc x i Hi). destruct Hi as [Hi _].
  assert (i < length c)%nat by (apply nth_error_Some; congruence). lia.
Qed.
Lemma relabel (c : list nat) : exists d, same_partition c d /\ labelling (length c) d.
Proof.
  destruct (sorted_tuple_total (map Z.of_nat c)) as [d Hd].
  pose proof (sorted_tuple_same_partition _ Hd) as Hs. apply same_partition_Z in Hs. exists d. split; auto.
  rewrite (proj1 Hs). apply canonical_labelling. eapply sorted_tuple_canonical; eauto.
Qed.
Lemma labelling_labels n c : labelling n c -> labels_of n c (seq 0 n).
Proof. intros [Hl H]. split; [apply seq_NoDup|]. intros v Hv. apply in_seq. cbn. split; [lia|]. apply H. apply nth_In. lia. Qed.

Lemma modularity_same g gamma c c' : same_partition c c' -> (vcount g <= length c)%nat -> modularity g gamma c = modularity g gamma c'.
Proof. intros H Hl. rewrite !modularity_AP. rewrite (A_of_same g H Hl), (P_of_same g H Hl). reflexivity. Qed.
Lemma multilayer_modularity_same g ge lv gamma omega c c' : same_partition c c' -> (vcount g <= length c)%nat -> (vcount ge <= length c)%nat ->
  multilayer_modularity g ge lv gamma omega c = multilayer_modularity g ge lv gamma omega c'.
Proof. intros H Hl Hl'. rewrite !multilayer_APC. rewrite (A_of_same g H Hl), (P3_of_same g lv H Hl), (A_of_same ge H Hl'). reflexivity. Qed.

(** ** One run *)
(** [c] is a best partition of the vertices of [g] at gamma, among all partitions. *)
Definition globally_optimal (g : graph) (gamma : R) (c : list nat) : Prop :=
  forall d, length d = vcount g -> modularity g gamma d <= modularity g gamma c.
Definition globally_optimal_3D (g ge : graph) (lv : list nat) (gamma omega : R) (c : list nat) : Prop :=
  forall d, length d = vcount g -> multilayer_modularity g ge lv gamma omega d <= multilayer_modularity g ge lv gamma omega c.

(** If leidenalg finds maxima, singlelayer_leiden returns a globally optimal partition. *)
Theorem C65_run_is_optimal : forall env k g gamma m, wf_graph g -> counts_edges (le_contains env g) g -> maximising_find env ->
  snd (singlelayer_leiden env k g gamma) = Ok m -> length m = vcount g /\ globally_optimal g gamma m.
Proof.
  intros env k g gamma m Hwf C Hmax Hm. destruct (C51_singlelayer_leiden_optimises env k g gamma Hwf C) as (ob & E & Hv & Hq).
  rewrite E in Hm. destruct (Hmax k ob m Hm) as [Hl Ho]. rewrite Hv in *. split; [apply Hl|]. intros d Hd.
  destruct (relabel d) as (d' & Hs & Hd'). rewrite Hd in Hd'. rewrite (modularity_same g gamma d d' Hs) by lia.
  rewrite <- (Hq d' (seq 0 (vcount g))), <- (Hq m (seq 0 (vcount g))) by (apply labelling_labels; auto). apply Ho. auto.
Qed.
Print Assumptions C65_run_is_optimal.

Theorem C65_multilayer_run_is_optimal : forall env k w a b g ge lv gamma omega m,
  a <> b -> nth_error (heap w) a = Some g -> nth_error (heap w) b = Some ge ->
  wf_graph g -> wf_graph ge -> vcount ge = vcount g -> length lv = vcount g -> lv <> [] -> edges_within_layers g lv ->
  counts_edges (le_contains env g) g -> counts_edges (le_contains env ge) ge ->
  (forall g' v, weights_defaulted (le_contains env g) g g' -> In (key_of a g' lv, v) (cache w) ->
     layer_graphs g (repeat 1 (length (edges g))) lv v) ->
  maximising_multiplex env ->
  snd (multilayer_leiden env k w a b lv gamma omega) = Ok m -> length m = vcount g /\ globally_optimal_3D g ge lv gamma omega m.
Proof.
  intros env k w a b g ge lv gamma omega m Hab Ha Hb Hg Hge Hv Hlen Hne Hw Cg Cge Hcache Hmax Hm.
  destruct (C51_multilayer_leiden_optimises env k w a b g ge lv gamma omega) as (objs & E & Hne' & Hvo & Hq); auto. rewrite E in Hm.
  destruct (Hmax k objs m (vcount g) Hne' Hvo Hm) as [Hl Ho]. split; [apply Hl|]. intros d Hd.
  destruct (relabel d) as (d' & Hs & Hd'). rewrite Hd in Hd'. rewrite (multilayer_modularity_same g ge lv gamma omega d d' Hs) by lia.
  rewrite <- (Hq d' (seq 0 (vcount g))), <- (Hq m (seq 0 (vcount g))) by (apply labelling_labels; auto). apply Ho. auto.
Qed.
Print Assumptions C65_multilayer_run_is_optimal.

(** ** Driver and CHAMP *)
(** The partitions come from one of the two drivers: [parts] lists the set it returned, in any order. *)
Definition driver_output_2D (env : leiden_env) (g : graph) (gammas : list R) (parts : list (list nat)) : Prop :=
  exists S, (forall c, In c parts <-> In c S) /\
    (snd (repeated_leiden_from_gammas env g gammas) = Ok S \/
     exists cpus order show, (0 < cpus)%nat /\ Permutation order (seq 0 (length gammas)) /\
       snd (repeated_parallel_leiden_from_gammas env cpus order g gammas show) = Ok S).

Lemma collects_Ok {A} (out : nat -> A -> res (list nat)) tasks S : collects out tasks (Ok S) ->
  forall t, In t S <-> exists i x m, nth_error tasks i = Some x /\ out i x = Ok m /\ canonical_form_of m t.
Proof.
  intros [H1 H2].
  assert (All : forall i x, nth_error tasks i = Some x -> exists m, out i x = Ok m).
  { intros i x Hi. destruct (out i x) as [m|e] eqn:E; [eauto|]. exfalso. destruct H2 as (? & ? & ? & _ & _ & F); eauto. discriminate. }
  destruct (H1 All) as (S' & E & _ & H). inversion E; subst. exact H.
Qed.

Lemma driver_runs_2D env g gammas parts : driver_output_2D env g gammas parts ->
  forall i gamma, nth_error gammas i = Some gamma -> exists m t, snd (singlelayer_leiden env i g gamma) = Ok m /\ canonical_form_of m t /\ In t parts.
Proof.
  intros (S & HS & H) i gamma Hi.
  assert (C : collects (fun i gamma => le_find env i (mkVP RBConfiguration (weighted env g) gamma)) gammas (Ok S)).
  { destruct H as [H|(cpus & order & show & Hc & Ho & H)].
    - rewrite <- H. apply C05_serial_gammas. apply weighted_defaulted.
    - rewrite <- H. pose proof (C05_parallel_gammas env cpus order g _ gammas show Hc Ho (weighted_defaulted env g)) as P.
      destruct (repeated_parallel_leiden_from_gammas env cpus order g gammas show). apply P. }
  pose proof (collects_Ok _ _ _ C) as HIn. destruct C as [_ C].
  destruct (le_find env i (mkVP RBConfiguration (weighted env g) gamma)) as [m|e] eqn:E.
  2: { destruct C as (? & ? & ? & _ & _ & F); [eauto|discriminate]. }
  destruct (sorted_tuple_total (map Z.of_nat m)) as [t Ht].
  assert (F : canonical_form_of m t).
  { split; [apply same_partition_Z, sorted_tuple_same_partition; auto|eapply sorted_tuple_canonical; eauto]. }
  exists m, t. rewrite singlelayer_out. split; [exact E|]. split; [exact F|]. apply HS, HIn. exists i, gamma, m. auto.
Qed.

(** At every gamma that was run, whatever CHAMP_2D reports there is optimal among all partitions of the graph, not only among
    the ones found. *)
Theorem C65_ranges_globally_optimal_at_samples :
  forall lenv g gammas parts env gamma_0 gamma_f single_threaded ranges s e part gamma,
    wf_graph g -> counts_edges (le_contains lenv g) g -> maximising_find lenv -> driver_output_2D lenv g gammas parts ->
    champ_ok_2D env g parts -> CHAMP_2D env g parts gamma_0 gamma_f single_threaded = Ok ranges ->
    In (s, e, part) ranges -> In gamma gammas -> s <= gamma <= e -> globally_optimal g gamma part.
Proof.
  intros lenv g gammas parts env g0 gf st ranges s e part gamma Hwf C Hmax Hd Hok H Hin Hg Hse d Hdl.
  apply In_nth_error in Hg as [i Hi]. destruct (driver_runs_2D _ _ _ _ Hd i gamma Hi) as (m & t & Hm & [Ht _] & Hp).
  destruct (C65_run_is_optimal lenv i g gamma m Hwf C Hmax Hm) as [Hl Ho].
  destruct (C21_ranges_are_optimal _ _ _ _ _ _ _ Hok H s e part Hin) as [_ Hr].
  apply Rle_trans with (modularity g gamma m); [apply Ho; auto|]. rewrite (modularity_same g gamma m t Ht) by lia. apply Hr; auto.
Qed.
Print Assumptions C65_ranges_globally_optimal_at_samples.

(** Between two sampled gammas in one reported range, that range's partition is optimal among all partitions. *)
Theorem C65_ranges_globally_optimal_between_samples :
  forall lenv g gammas parts env gamma_0 gamma_f single_threaded ranges s e part gamma1 gamma2 gamma,
    wf_graph g -> counts_edges (le_contains lenv g) g -> maximising_find lenv -> driver_output_2D lenv g gammas parts ->
    champ_ok_2D env g parts -> CHAMP_2D env g parts gamma_0 gamma_f single_threaded = Ok ranges ->
    In (s, e, part) ranges -> In gamma1 gammas -> In gamma2 gammas -> s <= gamma1 <= gamma -> gamma <= gamma2 <= e ->
    globally_optimal g gamma part.
Proof.
  intros lenv g gammas parts env g0 gf st ranges s e part x1 x2 x Hwf C Hmax Hd Hok H Hin H1 H2 [A1 A2] [B1 B2] d Hdl.
  pose proof (C65_ranges_globally_optimal_at_samples lenv g gammas parts env g0 gf st ranges s e part x1 Hwf C Hmax Hd Hok H Hin H1 ltac:(lra) d Hdl) as O1.
  pose proof (C65_ranges_globally_optimal_at_samples lenv g gammas parts env g0 gf st ranges s e part x2 Hwf C Hmax Hd Hok H Hin H2 ltac:(lra) d Hdl) as O2.
  rewrite !modularity_AP in *. destruct (Req_EM_T x1 x2) as [->|N]; [replace x with x2 by lra; lra|].
  assert (K : (x2 - x) * (A_of g d - x1 * P_of g d) <= (x2 - x) * (A_of g part - x1 * P_of g part)) by (apply Rmult_le_compat_l; lra).
  assert (L : (x - x1) * (A_of g d - x2 * P_of g d) <= (x - x1) * (A_of g part - x2 * P_of g part)) by (apply Rmult_le_compat_l; lra).
  apply Rmult_le_reg_l with (x2 - x1); [lra|]. lra.
Qed.
Print Assumptions C65_ranges_globally_optimal_between_samples.

(** *** Multilayer *)
Definition driver_output_3D (env : leiden_env) (g ge : graph) (lv : list nat) (gammas omegas : list R) (parts : list (list nat)) : Prop :=
  exists S, (forall c, In c parts <-> In c S) /\
    ((exists w a b, a <> b /\ nth_error (heap w) a = Some g /\ nth_error (heap w) b = Some ge /\
        (forall g' v, weights_defaulted (le_contains env g) g g' -> In (key_of a g' lv, v) (cache w) -> layer_graphs g (repeat 1 (length (edges g))) lv v) /\
        snd (repeated_leiden_from_gammas_omegas env w a b lv gammas omegas) = Ok S) \/
     exists cpus order show worker_cache, (0 < cpus)%nat /\ Permutation order (seq 0 (length gammas * length omegas)) /\
        (forall j g' v, weights_defaulted (le_contains env g) g g' -> In (key_of 0 g' lv, v) (worker_cache j) -> layer_graphs g (repeat 1 (length (edges g))) lv v) /\
        snd (repeated_parallel_leiden_from_gammas_omegas env worker_cache cpus order g ge lv gammas omegas show) = Ok S).

Lemma driver_runs_3D env g ge lv gammas omegas parts :
  wf_graph g -> wf_graph ge -> vcount ge = vcount g -> length lv = vcount g -> lv <> [] -> counts_edges (le_contains env g) g ->
  driver_output_3D env g ge lv gammas omegas parts ->
  forall gamma omega, In gamma gammas -> In omega omegas -> exists k m t,
    snd (multilayer_leiden env k (mkWorld [g; ge] []) 0 1 lv gamma omega) = Ok m /\ canonical_form_of m t /\ In t parts.
Proof.
  intros Hg Hge Hv Hlen Hne Cg (S & HS & H) gamma omega Hga Hom.
  pose proof (counts_edges_weighted env g Cg) as Wg. destruct (weighted_fields env g) as (Vg & Dg & Eg).
  assert (Sg : weighted env g = mkGraph (vcount g) (directed g) (edges g) (Some (repeat 1 (length (edges g))))).
  { destruct (weighted env g) as [x y z t]. cbn in *. subst. reflexivity. }
  assert (Wfg : wf_graph (weighted env g)) by (apply weighted_wf; auto).
  destruct (@split_layer_graphs (weighted env g) (repeat 1 (length (edges g))) lv Wfg Wg Hne) as (layers & Hs & Hl); [lia|].
  assert (Hl' : layer_graphs g (repeat 1 (length (edges g))) lv layers) by (rewrite Sg in Hl; exact Hl).
  set (out := fun i x => le_multiplex env i (map (fun gt => (mkVP RBConfiguration gt (fst x), 1)) layers ++ [(mkVP CPM (weighted env ge) 0, snd x)])).
  assert (C : collects out (list_prod gammas omegas) (Ok S)).
  { destruct H as [(w & a & b & Hab & Ha & Hb & Hc & H)|(cpus & order & show & wc & Hcp & Ho & Hc & H)].
    - rewrite <- H. apply (C06_serial_grid env w a b g ge (weighted env g) (weighted env ge) (repeat 1 (length (edges g))) lv layers gammas omegas); auto; try apply weighted_defaulted.
      intros v Hin. eapply layer_graphs_unique; [|exact Hl']. apply (Hc (weighted env g)); auto. apply weighted_defaulted.
    - rewrite <- H. pose proof (C06_parallel_grid env wc cpus order g ge (weighted env g) (weighted env ge) (repeat 1 (length (edges g))) lv layers gammas omegas show Hcp Ho Hg Hlen Hne
        (weighted_defaulted env g) (weighted_defaulted env ge) Wg Hl) as P.
      destruct (repeated_parallel_leiden_from_gammas_omegas env wc cpus order g ge lv gammas omegas show). apply P.
      intros j v Hin. eapply layer_graphs_unique; [|exact Hl']. apply (Hc j (weighted env g)); auto. apply weighted_defaulted. }
  assert (Hp : In (gamma, omega) (list_prod gammas omegas)) by (apply in_prod; auto).
  apply In_nth_error in Hp as [k Hk]. pose proof (collects_Ok _ _ _ C) as HIn. destruct C as [_ C].
  assert (Run : snd (multilayer_leiden env k (mkWorld [g; ge] []) 0 1 lv gamma omega) = out k (gamma, omega)).
  { destruct (@multilayer_step env k (mkWorld [g; ge] []) 0 1 g ge lv gamma omega ltac:(lia) eq_refl eq_refl) as (c & E & _); [intros v []|].
    rewrite E. cbn [snd]. unfold multi_outcome. rewrite Hs. reflexivity. }
  destruct (out k (gamma, omega)) as [m|e] eqn:E.
  2: { destruct C as (? & ? & ? & _ & _ & F); [eauto|discriminate]. }
  destruct (sorted_tuple_total (map Z.of_nat m)) as [t Ht].
  assert (F : canonical_form_of m t).
  { split; [apply same_partition_Z, sorted_tuple_same_partition; auto|eapply sorted_tuple_canonical; eauto]. }
  exists k, m, t. split; [exact Run|]. split; [exact F|]. apply HS, HIn. exists k, (gamma, omega), m. auto.
Qed.

(** The same for CHAMP_3D: at the sampled points of a domain, and everywhere in their convex hull, the domain's partition is
    optimal among all partitions. *)
Theorem C65_domains_globally_optimal :
  forall lenv g ge lv gammas omegas parts env gamma_0 gamma_f omega_0 omega_f domains poly part,
    wf_graph g -> wf_graph ge -> vcount ge = vcount g -> length lv = vcount g -> lv <> [] -> edges_within_layers g lv ->
    counts_edges (le_contains lenv g) g -> counts_edges (le_contains lenv ge) ge ->
    maximising_multiplex lenv -> driver_output_3D lenv g ge lv gammas omegas parts ->
    champ_ok_3D env g ge lv parts -> CHAMP_3D env g ge lv parts gamma_0 gamma_f omega_0 omega_f = Ok domains ->
    In (poly, part) domains ->
    forall samples, (forall x, In x samples -> In (fst x) gammas /\ In (snd x) omegas /\ in_polygon poly x) ->
    forall gamma omega, in_polygon samples (gamma, omega) -> globally_optimal_3D g ge lv gamma omega part.
Proof.
  intros lenv g ge lv gammas omegas parts env g0 gf o0 of domains poly part Hg Hge Hv Hlen Hne Hw Cg Cge Hmax Hd Hok H Hin samples Hs gamma omega Hx d Hdl.
  rewrite !multilayer_APC.
  enough (0 <= (A_of g part - A_of g d) + (P3_of g lv d - P3_of g lv part) * gamma + (A_of ge part - A_of ge d) * omega) by lra.
  apply (@in_polygon_affine (A_of g part - A_of g d) (P3_of g lv d - P3_of g lv part) (A_of ge part - A_of ge d) samples (gamma, omega)); auto.
  intros [x y] Hxy. destruct (Hs _ Hxy) as (H1 & H2 & H3). cbn [fst snd] in *.
  destruct (driver_runs_3D lenv g ge lv gammas omegas parts Hg Hge Hv Hlen Hne Cg Hd x y H1 H2) as (k & m & t & Hm & [Ht _] & Hp).
  destruct (C65_multilayer_run_is_optimal lenv k (mkWorld [g; ge] []) 0 1 g ge lv x y m) as [Hl Ho]; auto; [intros g' v _ []|].
  destruct (C24_domains_are_optimal _ _ _ _ _ _ _ _ _ _ Hok H poly part Hin) as (_ & _ & _ & Hr).
  assert (Q : multilayer_modularity g ge lv x y d <= multilayer_modularity g ge lv x y part).
  { apply Rle_trans with (multilayer_modularity g ge lv x y m); [apply Ho; auto|]. rewrite (multilayer_modularity_same g ge lv x y m t Ht) by lia. apply Hr; auto. }
  rewrite !multilayer_APC in Q. lra.
Qed.
Print Assumptions C65_domains_globally_optimal.

(** ** The assumption can be met: exhaustive search finds maxima. *)
Fixpoint vectors (n k : nat) : list (list nat) :=
  match n with O => [[]] | S n' => flat_map (fun c => map (fun x => x :: c) (seq 0 k)) (vectors n' k) end.
Lemma vectors_spec n k c : In c (vectors n k) <-> length c = n /\ forall x, In x c -> (x < k)%nat.
Proof.
  revert c. induction n as [|n IH]; intros c; cbn [vectors].
  - split; [intros [<-|[]]; split; [auto|intros x []]|]. intros [H _]. destruct c; [left; auto|discriminate].
  - rewrite in_flat_map. split.
    + intros (c' & H1 & H2). apply in_map_iff in H2 as (x & <- & Hx). apply in_seq in Hx. apply IH in H1 as [H1 H2]. split; [simpl; lia|].
      intros y [<-|Hy]; [lia|auto].
    + intros [H1 H2]. destruct c as [|x c]; [discriminate|]. exists c. split; [apply IH; split; [simpl in H1; lia|intros y Hy; apply H2; right; auto]|].
      apply in_map_iff. exists x. split; auto. apply in_seq. cbn. split; [lia|]. apply H2. left. auto.
Qed.
Definition argmax (f : list nat -> R) (l : list (list nat)) (d : list nat) : list nat :=
  fold_right (fun c best => if Rle_dec (f best) (f c) then c else best) d l.
Lemma argmax_spec f l d : (In (argmax f l d) l \/ argmax f l d = d) /\ f d <= f (argmax f l d) /\ forall c, In c l -> f c <= f (argmax f l d).
Proof.
  induction l as [|a l (IH1 & IH2 & IH3)]; cbn [argmax fold_right]; [split; [auto|split; [lra|intros c []]]|].
  fold (argmax f l d). destruct (Rle_dec (f (argmax f l d)) (f a)).
  - split; [left; left; auto|]. split; [lra|]. intros c [<-|Hc]; [lra|]. specialize (IH3 c Hc). lra.
  - split; [destruct IH1; [left; right|right]; auto|]. split; auto. intros c [<-|Hc]; [lra|auto].
Qed.
Definition exhaustive (n : nat) (f : list nat -> R) : list nat := argmax f (vectors n n) (repeat 0%nat n).
Lemma exhaustive_spec n f : labelling n (exhaustive n f) /\ forall c, labelling n c -> f c <= f (exhaustive n f).
Proof.
  destruct (argmax_spec f (vectors n n) (repeat 0%nat n)) as (H1 & _ & H3). fold (exhaustive n f) in *. split.
  - destruct H1 as [H1| ->]; [apply vectors_spec; auto|]. split; [apply repeat_length|]. intros x Hx. destruct n; [destruct Hx|]. apply repeat_spec in Hx. lia.
  - intros c Hc. apply H3. apply vectors_spec. exact Hc.
Qed.
Definition exhaustive_env : leiden_env := mkLeiden (fun _ => false)
  (fun _ object => let n := vcount (vp_graph object) in Ok (exhaustive n (fun c => quality object c (seq 0 n))))
  (fun _ objects => let n := match objects with [] => O | ow :: _ => vcount (vp_graph (fst ow)) end in
                    Ok (exhaustive n (fun c => objective_value objects c (seq 0 n)))).
Example C65_maximising : maximising_find exhaustive_env /\ maximising_multiplex exhaustive_env.
Proof.
  split.
  - intros k ob m H. inversion H; subst. apply exhaustive_spec.
  - intros k objs m n Hne Hv H. destruct objs as [|ow objs]; [congruence|].
    cbn [exhaustive_env le_multiplex] in H. rewrite (Hv ow (or_introl eq_refl)) in H. inversion H; subst. apply exhaustive_spec.
Qed.

(** A whole run of the pipeline that meets the hypotheses: exhaustive search at gamma = 1/2 and gamma = 1. *)
Example C65_example : exists parts env ranges,
  driver_output_2D exhaustive_env (ex_graph false) [1 / 2; 1] parts /\ champ_ok_2D env (ex_graph false) parts /\
  CHAMP_2D env (ex_graph false) parts 0 2 false = Ok ranges.
Proof.
  destruct (C12_C13_example false) as (H1 & H2 & H3 & _).
  destruct (proj1 (C05_serial_gammas exhaustive_env (ex_graph false) _ [1 / 2; 1] (weighted_defaulted exhaustive_env (ex_graph false)))) as (S & HS & Nd & HIn).
  { intros i x Hi. eexists. reflexivity. }
  assert (D : driver_output_2D exhaustive_env (ex_graph false) [1 / 2; 1] S) by (exists S; split; [tauto|left; exact HS]).
  assert (L : forall c, In c S -> length c = vcount (ex_graph false)).
  { intros c Hc. apply HIn in Hc as (i & x & m & _ & Hm & [[Hl _] _]). rewrite <- Hl. inversion Hm; subst. apply (exhaustive_spec 4 _). }
  assert (Ne : S <> []).
  { destruct (driver_runs_2D _ _ _ _ D 0 (1 / 2) eq_refl) as (m & t & _ & _ & Hin). intros ->. destruct Hin. }
  assert (Sz : (Z.of_nat (length S) <= 2 ^ 53)%Z).
  { assert (Inc : incl S (vectors 4 4)).
    { intros c Hc. apply vectors_spec. pose proof (L c Hc) as Lc. apply HIn in Hc as (i & x & m & _ & _ & [_ Hcan]).
      pose proof (canonical_labelling c Hcan) as Q. rewrite Lc in Q. exact Q. }
    pose proof (NoDup_incl_length Nd Inc) as B. replace (length (vectors 4 4)) with 256%nat in B by reflexivity. lia. }
  destruct (C21_C22_C23_realisable (ex_graph false) S 0 2 false H1 eq_refl H3 L Sz Ne ltac:(lra)) as (env & ranges & A & B).
  exists S, env, ranges. auto.
Qed.
