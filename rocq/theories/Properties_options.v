(** Property theorems about the options and warnings of pruning: C44, C58, C59. *)
From Verif Require Import PyBase PyGraph M_partition M_pool M_champ M_estimation_utils Spec Spec_leiden Spec_graph Spec_champ Spec_sbm Spec_prune
  L_base L_canon L_leiden L_modularity L_champ L_champ2 L_champ3 L_champ_total L_sbm L_logmean L_sbm2 L_prune
  Properties_champ Properties_sbm Properties_prune Properties_multiprune.
From Coq Require Import Classical.
Open Scope R_scope.

(** ** C44 *)
(** single_threaded=True raises before anything else happens: no warning, no change of the graph, whatever the arguments. *)
Theorem C44_single_threaded : forall env g gi lv model parts gamma_start gamma_end omega_start omega_end restrict,
  prune_to_multilayer_stable_partitions env g gi lv model parts gamma_start gamma_end omega_start omega_end restrict true
  = ([], g, Raise NotImplementedError).
Proof. reflexivity. Qed.
Print Assumptions C44_single_threaded.

(** Some edge weight is not 1. *)
Definition unequal_weights (g : graph) : Prop := exists ws w, weights g = Some ws /\ In w ws /\ w <> 1.

Lemma really_weighted_iff g : really_weighted g = true <-> unequal_weights g.
Proof.
  unfold really_weighted, unequal_weights. destruct (weights g) as [ws|]; [|split; [discriminate|intros (ws & w & E & _); discriminate]].
  rewrite existsb_exists. split.
  - intros (w & Hw & E). exists ws, w. split; auto. split; auto. intros ->. unfold Reqb in E. destruct (Req_EM_T 1 1); [discriminate|congruence].
  - intros (ws' & w & E & Hw & N). inversion E; subst. exists w. split; auto. unfold Reqb. destruct (Req_EM_T w 1); [contradiction|reflexivity].
Qed.

Lemma needs_truncation_iff env g gi lv model oe domains g' ests : domains_to_gamma_omega_estimates env g gi lv domains model = (g', Ok ests) ->
  (needs_truncation oe ests = true <->
   exists poly c gamma omega, In (poly, c) domains /\ estimate_of env g gi lv model c = Ok (Some gamma, omega) /\ oe <= omega).
Proof.
  intros H. apply domains_estimates in H. unfold needs_truncation. rewrite existsb_exists. split.
  - intros (e & He & Hb).
    assert (Q : exists d, In d domains /\ estimated_domain env gi lv model g d e).
    { clear - H He. induction H as [|a b l l' Hab H IH]; [destruct He|]. destruct He as [->|He]; [exists a; split; [left|]; auto|]. destruct (IH He) as (d & A & B). exists d. split; [right|]; auto. }
    destruct Q as ([poly c] & Hd & ge & o & -> & Ho). cbn [fst snd] in *. destruct ge as [x|]; [|discriminate]. exists poly, c, x, o. split; auto. split; [exact Ho|].
    unfold Rleb in Hb. destruct (Rle_dec oe o); [auto|discriminate].
  - intros (poly & c & x & o & Hd & Ho & Hle).
    assert (Q : exists e, In e ests /\ estimated_domain env gi lv model g (poly, c) e).
    { clear - H Hd. induction H as [|a b l l' Hab H IH]; [destruct Hd|]. destruct Hd as [->|Hd]; [exists b; split; [left|]; auto|]. destruct (IH Hd) as (d & A & B). exists d. split; [right|]; auto. }
    destruct Q as (e & He & ge & o' & -> & Ho'). cbn [fst snd] in *. unfold go_estimate in Ho'. unfold estimate_of in Ho. rewrite Ho in Ho'. inversion Ho'; subst.
    eexists. split; [exact He|]. cbn. unfold Rleb. destruct (Rle_dec oe o'); auto.
Qed.

(** The warnings issued: at most one of each; the first about connectivity (of the graph of all edges), the second about weights,
    and the third exactly when the pipeline returns and some domain with a gamma estimate has an omega estimate of at least
    omega_end. *)
Theorem C44_warnings : forall env g gi lv model inputs gamma_start gamma_end omega_start omega_end restrict warnings g' r,
  prune_ok_3D env g gi lv inputs ->
  prune_to_multilayer_stable_partitions env g gi lv model (Tuples inputs) gamma_start gamma_end omega_start omega_end restrict false = (warnings, g', r) ->
  NoDup warnings /\
  (In Disconnected warnings <-> ee_connected env (combined g gi) = false \/ vcount (combined g gi) <> vcount gi) /\
  (In Weighted warnings <-> unequal_weights g \/ unequal_weights gi) /\
  (In Truncation warnings <->
     (exists result, r = Ok result) /\
     exists parts domains poly c gamma omega, (forall d, In d parts <-> considered inputs restrict d) /\
       CHAMP_3D (ee_champ env) g gi lv parts gamma_start gamma_end omega_start omega_end = Ok domains /\
       In (poly, c) domains /\ estimate_of env g gi lv model c = Ok (Some gamma, omega) /\ omega_end <= omega /\
       considered_parts env (Tuples inputs) restrict = Ok parts).
Proof.
  intros env g gi lv model inputs gs ge os oe restrict w g' r Hok H.
  destruct (@prune_3D_unfold env g gi lv model inputs gs ge os oe restrict Hok) as (ps & Nd & I & C & HC & _).
  unfold prune_to_multilayer_stable_partitions in H. rewrite HC in H.
  set (w1 := if negb (ee_connected env (combined g gi)) || negb (vcount (combined g gi) =? vcount gi)%nat then [Disconnected] else []) in H.
  set (w2 := if really_weighted g || really_weighted gi then [Weighted] else []) in H.
  assert (W1 : forall x, In x w1 <-> x = Disconnected /\ (ee_connected env (combined g gi) = false \/ vcount (combined g gi) <> vcount gi)).
  { intros x. unfold w1. destruct (ee_connected env (combined g gi)); cbn [negb orb].
    - destruct (Nat.eqb_spec (vcount (combined g gi)) (vcount gi)); cbn [negb In]; split; [intros []|intros (_ & [E|E]); [discriminate|contradiction]|intros [<-|[]]; auto|intros (-> & _); auto].
    - cbn [In]. split; [intros [<-|[]]; auto|intros (-> & _); auto]. }
  assert (W2 : forall x, In x w2 <-> x = Weighted /\ (unequal_weights g \/ unequal_weights gi)).
  { intros x. unfold w2. rewrite <- !really_weighted_iff. destruct (really_weighted g), (really_weighted gi); cbn [orb In]; split; try (intros [<-|[]]; auto; fail); try (intros (-> & _); auto; fail); [intros []|].
    intros (_ & [E|E]); discriminate. }
  assert (N1 : NoDup w1) by (unfold w1; destruct (_ || _)%bool; repeat (apply NoDup_cons || apply NoDup_nil); intros []).
  assert (N2 : NoDup w2) by (unfold w2; destruct (really_weighted g || really_weighted gi)%bool; repeat (apply NoDup_cons || apply NoDup_nil); intros []).
  assert (N12 : NoDup (w1 ++ w2)).
  { clear - N1 N2 W1 W2. assert (D : forall x, In x w1 -> ~ In x w2) by (intros x A B; apply W1 in A as [-> _]; apply W2 in B as [E _]; discriminate).
    clear W1 W2. induction w1 as [|a l IH]; cbn [app]; auto. inversion N1; subst. constructor; [|apply IH; auto; intros x Hx; apply D; right; auto].
    intros Hin. apply in_app_or in Hin as [Hin|Hin]; auto. apply (D a (or_introl eq_refl) Hin). }
  assert (Base : w = w1 ++ w2 -> NoDup w /\ (In Disconnected w <-> ee_connected env (combined g gi) = false \/ vcount (combined g gi) <> vcount gi) /\
     (In Weighted w <-> unequal_weights g \/ unequal_weights gi) /\ ~ In Truncation w).
  { intros ->. split; auto. split; [|split].
    - rewrite in_app_iff, W1, W2. split; [intros [[_ A]|[A _]]; [auto|discriminate]|auto].
    - rewrite in_app_iff, W1, W2. split; [intros [[A _]|[_ A]]; [discriminate|auto]|auto].
    - rewrite in_app_iff, W1, W2. intros [[A _]|[A _]]; discriminate. }
  assert (Det : forall parts', considered_parts env (Tuples inputs) restrict = Ok parts' -> parts' = ps) by (intros p' E; rewrite HC in E; inversion E; auto).
  assert (NoT : w = w1 ++ w2 -> (forall result, r = Ok result -> ps = []) -> (In Truncation w <-> (exists result, r = Ok result) /\
     exists parts domains poly c gamma omega, (forall d, In d parts <-> considered inputs restrict d) /\
       CHAMP_3D (ee_champ env) g gi lv parts gs ge os oe = Ok domains /\ In (poly, c) domains /\ estimate_of env g gi lv model c = Ok (Some gamma, omega) /\ oe <= omega /\
       considered_parts env (Tuples inputs) restrict = Ok parts)).
  { intros Ew Hr. destruct (Base Ew) as (_ & _ & _ & B). split; [contradiction|]. intros ((res & Er) & parts & domains & poly & c & x & o & _ & HD & Hin & _ & _ & Hp).
    apply Det in Hp. subst parts. rewrite (Hr res Er) in HD. inversion HD; subst. destruct Hin. }
  destruct ps as [|c0 ps].
  { inversion H; subst w g' r. destruct (Base eq_refl) as (B1 & B2 & B3 & _). split; auto. }
  destruct (CHAMP_3D (ee_champ env) g gi lv (c0 :: ps) gs ge os oe) as [domains|ex] eqn:HD.
  2: { inversion H; subst w g' r. destruct (Base eq_refl) as (B1 & B2 & B3 & _). split; auto. split; auto. split; auto. apply NoT; auto. discriminate. }
  destruct (domains_to_gamma_omega_estimates env g gi lv domains model) as [g2 [ests|ex]] eqn:HE.
  2: { inversion H; subst w g' r. destruct (Base eq_refl) as (B1 & B2 & B3 & _). split; auto. split; auto. split; auto. apply NoT; auto. discriminate. }
  pose proof (needs_truncation_iff _ _ _ _ _ oe _ _ _ HE) as NT.
  set (w3 := if needs_truncation oe ests then [Truncation] else []) in H.
  assert (Ew : w = (w1 ++ w2) ++ w3) by congruence. assert (Er : r = Ok (gamma_omega_estimates_to_stable_partitions (truncate oe ests))) by congruence. clear H.
  assert (W3 : forall x, In x w3 <-> x = Truncation /\ needs_truncation oe ests = true).
  { intros x. unfold w3. destruct (needs_truncation oe ests); cbn [In]; split; [intros [<-|[]]; auto|intros (-> & _); auto|intros []|intros (_ & E); discriminate]. }
  subst w. split.
  { assert (D : forall x, In x (w1 ++ w2) -> ~ In x w3) by (intros x A B; apply W3 in B as [-> _]; apply in_app_or in A as [A|A]; [apply W1 in A as [A _]|apply W2 in A as [A _]]; discriminate).
    assert (N3 : NoDup w3) by (unfold w3; destruct (needs_truncation oe ests); repeat (apply NoDup_cons || apply NoDup_nil); intros []).
    clear - N12 N3 D. induction (w1 ++ w2) as [|a l IH]; cbn [app]; auto. inversion N12; subst. constructor; [|apply IH; auto; intros x Hx; apply D; right; auto].
    intros Hin. apply in_app_or in Hin as [Hin|Hin]; auto. apply (D a (or_introl eq_refl) Hin). }
  rewrite !in_app_iff, !W1, !W2, !W3. split; [|split].
  - split; [intros [[[_ A]|[A _]]|[A _]]; [auto|discriminate..]|auto].
  - split; [intros [[[A _]|[_ A]]|[A _]]; [discriminate|auto|discriminate]|auto].
  - split.
    + intros [[[A _]|[A _]]|[_ A]]; try discriminate. split; [rewrite Er; eauto|]. apply NT in A as (poly & c & x & o & A1 & A2 & A3).
      exists (c0 :: ps), domains, poly, c, x, o. repeat (split; [assumption|]). assumption.
    + intros (_ & parts & domains' & poly & c & x & o & _ & HD' & Hin & He & Hle & Hp). apply Det in Hp. subst parts. rewrite HD in HD'. inversion HD'; subst domains'.
      right. split; auto. apply NT. exists poly, c, x, o. auto.
Qed.
Print Assumptions C44_warnings.

(** Neither the connectivity of the graphs nor the interlayer weights have any other effect than these warnings. *)
Definition with_connectivity (env : est_env) (connected : graph -> bool) : est_env :=
  mkEst (ee_contains env) (ee_fsolve env) (ee_champ env) (ee_set_order env) connected.
Definition with_weights (g : graph) (w : option (list R)) : graph := mkGraph (vcount g) (directed g) (edges g) w.

Theorem C44_warnings_do_not_matter : forall env connected' g gi w' lv model parts gamma_start gamma_end omega_start omega_end restrict single_threaded,
  let (warns, outcome) := prune_to_multilayer_stable_partitions env g gi lv model parts gamma_start gamma_end omega_start omega_end restrict single_threaded in
  let (warns', outcome') := prune_to_multilayer_stable_partitions (with_connectivity env connected') g (with_weights gi w') lv model parts gamma_start gamma_end omega_start omega_end restrict single_threaded in
  snd warns = snd warns' /\ outcome = outcome'.
Proof.
  intros. unfold prune_to_multilayer_stable_partitions. destruct single_threaded; [auto|].
  change (considered_parts (with_connectivity env connected') parts restrict) with (considered_parts env parts restrict).
  destruct (considered_parts env parts restrict) as [[|c ps]|]; auto.
  change (CHAMP_3D (ee_champ (with_connectivity env connected')) g (with_weights gi w') lv (c :: ps) gamma_start gamma_end omega_start omega_end)
    with (CHAMP_3D (ee_champ env) g gi lv (c :: ps) gamma_start gamma_end omega_start omega_end).
  destruct (CHAMP_3D (ee_champ env) g gi lv (c :: ps) gamma_start gamma_end omega_start omega_end) as [domains|]; auto.
  change (domains_to_gamma_omega_estimates (with_connectivity env connected') g (with_weights gi w') lv domains model)
    with (domains_to_gamma_omega_estimates env g gi lv domains model).
  destruct (domains_to_gamma_omega_estimates env g gi lv domains model) as [g' [ests|]]; auto.
Qed.
Print Assumptions C44_warnings_do_not_matter.

(** A leidenalg partition object as [parts] never works: its elements are lists of vertices, which have no membership. *)
Theorem C44_partition_objects : forall env g gi lv model communities gamma_start gamma_end omega_start omega_end restrict single_threaded,
  communities <> [] ->
  snd (prune_to_multilayer_stable_partitions env g gi lv model (PartitionObject communities) gamma_start gamma_end omega_start omega_end restrict false) = Raise AttributeError /\
  snd (prune_to_stable_partitions env g (PartitionObject communities) gamma_start gamma_end restrict single_threaded) = Raise AttributeError.
Proof. intros env g gi lv model [|c cs] gs ge os oe restrict st N; [congruence|]. split; reflexivity. Qed.
Print Assumptions C44_partition_objects.

(** ** C58: a weighted graph is processed as though it were unweighted, which is what the warning announces, as long as
    ['weight' in G.es] answers False (with igraph it does: it looks for 'weight' among the edges); the weights are then
    overwritten. *)
Lemma set_weights_with g w ws : set_weights (with_weights g w) ws = set_weights g ws.
Proof. reflexivity. Qed.

Theorem C58_weights_are_ignored : forall env g w' parts gamma_start gamma_end restrict single_threaded,
  ee_contains env g = false -> ee_contains env (with_weights g w') = false ->
  snd (prune_to_stable_partitions env g parts gamma_start gamma_end restrict single_threaded)
  = snd (prune_to_stable_partitions env (with_weights g w') parts gamma_start gamma_end restrict single_threaded).
Proof.
  intros env g w' parts gs ge restrict st H H'. unfold prune_to_stable_partitions.
  destruct (considered_parts env parts restrict) as [[|c ps]|]; auto.
  change (CHAMP_2D (ee_champ env) (with_weights g w') (c :: ps) gs ge st) with (CHAMP_2D (ee_champ env) g (c :: ps) gs ge st).
  destruct (CHAMP_2D (ee_champ env) g (c :: ps) gs ge st) as [ranges|]; auto.
  assert (E : snd (ranges_to_gamma_estimates env g ranges) = snd (ranges_to_gamma_estimates env (with_weights g w') ranges)).
  { destruct ranges as [|r l]; [reflexivity|]. unfold ranges_to_gamma_estimates. cbn [mapG]. unfold gamma_estimate at 1 3. rewrite H, H', set_weights_with.
    change (vcount (with_weights g w')) with (vcount g). destruct (set_weights g (repeat 1 (vcount g))) as [g1|]; [reflexivity|]. reflexivity. }
  destruct (ranges_to_gamma_estimates env g ranges) as [g1 e1], (ranges_to_gamma_estimates env (with_weights g w') ranges) as [g2 e2]. cbn [snd] in *. rewrite E. reflexivity.
Qed.
Print Assumptions C58_weights_are_ignored.

Theorem C58_weights_are_ignored_multilayer : forall env g w' gi lv model parts gamma_start gamma_end omega_start omega_end restrict single_threaded,
  ee_contains env g = false -> ee_contains env (with_weights g w') = false ->
  snd (prune_to_multilayer_stable_partitions env g gi lv model parts gamma_start gamma_end omega_start omega_end restrict single_threaded)
  = snd (prune_to_multilayer_stable_partitions env (with_weights g w') gi lv model parts gamma_start gamma_end omega_start omega_end restrict single_threaded).
Proof.
  intros env g w' gi lv model parts gs ge os oe restrict st H H'. unfold prune_to_multilayer_stable_partitions. destruct st; auto.
  destruct (considered_parts env parts restrict) as [[|c ps]|]; auto.
  change (CHAMP_3D (ee_champ env) (with_weights g w') gi lv (c :: ps) gs ge os oe) with (CHAMP_3D (ee_champ env) g gi lv (c :: ps) gs ge os oe).
  destruct (CHAMP_3D (ee_champ env) g gi lv (c :: ps) gs ge os oe) as [domains|]; auto.
  assert (E : snd (domains_to_gamma_omega_estimates env g gi lv domains model) = snd (domains_to_gamma_omega_estimates env (with_weights g w') gi lv domains model)).
  { destruct domains as [|d l]; [reflexivity|]. unfold domains_to_gamma_omega_estimates. cbn [mapG]. unfold gamma_omega_estimate at 1 3.
    change (leiden_part_with_membership (with_weights g w')) with (leiden_part_with_membership g).
    destruct (bind _ _) as [[t p]|]; [|reflexivity]. unfold estimate_multilayer_SBM_parameters, default_weights_e. rewrite H, H', set_weights_with.
    change (ecount (with_weights g w')) with (ecount g). destruct (set_weights g (repeat 1 (ecount g))) as [g1|]; reflexivity. }
  destruct (domains_to_gamma_omega_estimates env g gi lv domains model) as [g1 e1], (domains_to_gamma_omega_estimates env (with_weights g w') gi lv domains model) as [g2 e2].
  cbn [snd] in *. subst e2. destruct e1; reflexivity.
Qed.
Print Assumptions C58_weights_are_ignored_multilayer.

(** ** C59: single_threaded never changes what single-layer CHAMP and pruning do. *)
Theorem C59_single_threaded_CHAMP : forall env g parts gamma_0 gamma_f, champ_ok_2D env g parts ->
  CHAMP_2D env g parts gamma_0 gamma_f true = CHAMP_2D env g parts gamma_0 gamma_f false.
Proof.
  intros env g parts g0 gf Hok. destruct (classic (parts = [])) as [->|N]; [reflexivity|].
  rewrite !(@CHAMP_2D_unfold env g parts g0 gf _ Hok N). reflexivity.
Qed.
Print Assumptions C59_single_threaded_CHAMP.

Theorem C59_single_threaded_prune : forall env g inputs gamma_start gamma_end restrict, prune_ok_2D env g inputs ->
  prune_to_stable_partitions env g (Tuples inputs) gamma_start gamma_end restrict true
  = prune_to_stable_partitions env g (Tuples inputs) gamma_start gamma_end restrict false.
Proof.
  intros env g inputs gs ge restrict Hok.
  destruct (@prune_2D_unfold env g inputs gs ge restrict true Hok) as (ps & _ & _ & C & HC & _).
  unfold prune_to_stable_partitions. rewrite HC. destruct ps as [|c ps]; auto. rewrite C59_single_threaded_CHAMP by auto. reflexivity.
Qed.
Print Assumptions C59_single_threaded_prune.

(** If ['weight' in G.es] answers True the estimates do use the weights: two triangles joined by an edge are returned for the
    range [0.69, 1] with unit weights, but not when every edge inside the triangles has weight 100. *)
Definition triangles (w : R) : graph :=
  mkGraph 6 false [(0, 1); (1, 2); (0, 2); (3, 4); (4, 5); (3, 5); (2, 3)]%nat (Some [w; w; w; w; w; w; 1]).
Lemma triangles_wf w : wf_graph (triangles w).
Proof. apply wf_literal; [literal_edges|reflexivity]. Qed.
Lemma triangles_parameters w : 0 < w ->
  estimate_singlelayer_SBM_parameters (triangles w) (mkPart 2 barbell_c) None = Ok (12 * w / (6 * w + 1), 2 / (6 * w + 1)).
Proof.
  intros Hw.
  assert (K : foldM (add_strength barbell_c) (combine (edges (triangles w)) [w; w; w; w; w; w; 1]) (repeat 0 2) = Ok [6 * w + 1; 6 * w + 1]).
  { cbn. repeat (f_equal; try lra). }
  unfold estimate_singlelayer_SBM_parameters. cbn [weights triangles bind wedges part_membership part_len].
  change (combine [(0%nat, 1%nat); (1%nat, 2%nat); (0%nat, 2%nat); (3%nat, 4%nat); (4%nat, 5%nat); (3%nat, 5%nat); (2%nat, 3%nat)] [w; w; w; w; w; w; 1]) with (combine (edges (triangles w)) [w; w; w; w; w; w; 1]).
  cbn [mapM internal_weight same_label py_get nth_error barbell_c bind fst snd edges triangles combine Nat.eqb] in *.
  rewrite K. cbn [bind]. unfold sum_squares. cbn [map]. rewrite ?rsum_cons, ?rsum_nil.
  set (q := 6 * w + 1). replace (2 * (w + (w + (w + (w + (w + (w + (1 + 0)))))))) with (2 * q) by (unfold q; ring).
  assert (Hq : 0 < q) by (unfold q; lra). replace (q ^ 2 + (q ^ 2 + 0)) with (2 * (q * q)) by ring.
  unfold py_div. destruct (Req_EM_T (2 * q) 0) as [Z|_]; [exfalso; lra|]. cbn [bind].
  assert (E : 2 * (q * q) / (2 * q) = q) by (field; lra). rewrite E.
  destruct (Req_EM_T q 0) as [Z|_]; [exfalso; lra|]. cbn [bind Nat.ltb Nat.leb].
  destruct (Req_EM_T (2 * q - q) 0) as [Z|_]; [exfalso; lra|]. cbn [bind].
  f_equal. f_equal; unfold q; field; lra.
Qed.
Lemma triangles_estimate env w : 0 < w -> ee_contains env (triangles w) = true ->
  snd (gamma_estimate env (triangles w) (Membership barbell_c)) = Ok (gamma_estimate_from_parameters (12 * w / (6 * w + 1)) (2 / (6 * w + 1))).
Proof.
  intros Hw He. unfold gamma_estimate. rewrite He. cbn [snd]. change (leiden_part_with_membership (triangles w) barbell_c) with (Ok (mkPart 2 barbell_c)). cbn [bind].
  rewrite triangles_parameters by auto. reflexivity.
Qed.
Lemma triangles_considered c : considered [[0; 0; 0; 1; 1; 1]%Z] None c <-> c = barbell_c.
Proof. apply considered_one. reflexivity. Qed.

Theorem C58_refuted : exists env result result',
  prune_ok_2D env (triangles 1) [[0; 0; 0; 1; 1; 1]%Z] /\ prune_ok_2D env (triangles 100) [[0; 0; 0; 1; 1; 1]%Z] /\
  (forall g, ee_contains env g = true) /\
  snd (prune_to_stable_partitions env (triangles 1) (Tuples [[0; 0; 0; 1; 1; 1]%Z]) (69 / 100) 1 None false) = Ok result /\
  snd (prune_to_stable_partitions env (triangles 100) (Tuples [[0; 0; 0; 1; 1; 1]%Z]) (69 / 100) 1 None false) = Ok result' /\
  In barbell_c result /\ ~ In barbell_c result'.
Proof.
  destruct (C40_realisable (triangles 1) [[0; 0; 0; 1; 1; 1]%Z] (69 / 100) 1 None false (fun _ => true) (fun _ x => x) (fun _ => true)) as (env & Hok & Hc & _ & _ & H).
  - apply triangles_wf.
  - reflexivity.
  - discriminate.
  - intros t [<-|[]]; reflexivity.
  - cbn; lia.
  - lra.
  - assert (Hcon : forall g, ee_contains env g = true) by (rewrite Hc; reflexivity).
    assert (Hok' : prune_ok_2D env (triangles 100) [[0; 0; 0; 1; 1; 1]%Z]) by (destruct Hok; constructor; auto; apply triangles_wf).
    pose proof (triangles_estimate env 1 ltac:(lra) (Hcon _)) as E1. pose proof (triangles_estimate env 100 ltac:(lra) (Hcon _)) as E2.
    destruct (C29_log_mean (12 * 1 / (6 * 1 + 1)) (2 / (6 * 1 + 1))) as (x & Hx & _ & _ & Mx); try lra.
    destruct (C29_log_mean (12 * 100 / (6 * 100 + 1)) (2 / (6 * 100 + 1))) as (y & Hy & Fy & _); try lra.
    rewrite Hx in E1. rewrite Hy in E2.
    destruct H as (result & H); [intros c Hcc; apply triangles_considered in Hcc; subst; eauto|].
    assert (R2 : exists result', snd (prune_to_stable_partitions env (triangles 100) (Tuples [[0; 0; 0; 1; 1; 1]%Z]) (69 / 100) 1 None false) = Ok result').
    { destruct (@prune_2D_unfold env (triangles 1) [[0; 0; 0; 1; 1; 1]%Z] (69 / 100) 1 None false Hok) as (ps & _ & I & C & HC & E). rewrite E in H. apply bind_ok in H as (ranges & HR & _).
      unfold prune_to_stable_partitions. rewrite HC. destruct ps as [|c ps]; [eexists; reflexivity|].
      change (CHAMP_2D (ee_champ env) (triangles 100) (c :: ps) (69 / 100) 1 false) with (CHAMP_2D (ee_champ env) (triangles 1) (c :: ps) (69 / 100) 1 false). rewrite HR.
      destruct (@ranges_estimates_total env ranges (triangles 100) (triangles_wf 100)) as (g' & ests & EE); [|rewrite EE; cbn [bind snd]; eauto].
      intros [[s e] d] Hr. cbn [snd]. assert (d = barbell_c) as -> by (apply triangles_considered, I; apply (C21_ranges_are_optimal _ _ _ _ _ _ _ C HR s e d Hr)). rewrite E2. eauto. }
    destruct R2 as (result' & H'). exists env, result, result'. split; auto. split; auto. split; auto. split; auto. split; auto.
    destruct (prune_to_stable_partitions env (triangles 1) (Tuples [[0; 0; 0; 1; 1; 1]%Z]) (69 / 100) 1 None false) as [[w1 g1] r1] eqn:P1.
    destruct (prune_to_stable_partitions env (triangles 100) (Tuples [[0; 0; 0; 1; 1; 1]%Z]) (69 / 100) 1 None false) as [[w2 g2] r2] eqn:P2. cbn [snd] in H, H'. subst r1 r2. split.
    + eapply (C41_prune_complete _ _ _ _ _ _ _ _ _ _ _ _ Hok P1); [apply triangles_considered; auto|exact E1| |].
      * split; [|lra]. left. apply Rle_lt_trans with (sqrt (12 * 1 / (6 * 1 + 1) * (2 / (6 * 1 + 1)))); [|apply Mx].
        rewrite <- (sqrt_square (69 / 100)) by lra. apply sqrt_le_1; lra.
      * intros d Hd N. apply triangles_considered in Hd. contradiction.
    + intros Hin. destruct (C40_prune_sound _ _ _ _ _ _ _ _ _ _ Hok' P2 _ Hin) as (_ & z & Hz & Bz & _). rewrite E2 in Hz. inversion Hz; subst z.
      assert (L : 3 < ln 600).
      { apply (Rlt_le_trans _ (ln (27 + 1))); [|left; apply ln_increasing; lra].
        rewrite <- (ln_exp 3). apply ln_increasing; [apply exp_pos|]. assert (exp 3 = exp 1 * exp 1 * exp 1) as -> by (rewrite <- !exp_plus; f_equal; lra).
        pose proof exp_le_3. pose proof (exp_pos 1). nra. }
      assert (D : ln (12 * 100 / (6 * 100 + 1)) - ln (2 / (6 * 100 + 1)) = ln 600).
      { replace (12 * 100 / (6 * 100 + 1)) with (600 * (2 / (6 * 100 + 1))) by field. rewrite ln_mult by lra. ring. }
      rewrite D in Fy. assert (y < 67 / 100); [|lra]. rewrite Fy. apply (Rmult_lt_reg_r (ln 600)); [lra|]. unfold Rdiv at 1. rewrite Rmult_assoc, Rinv_l by lra. lra.
Qed.
Print Assumptions C58_refuted.
