(** Property theorems: what the pruning pipelines return is determined by their input alone (C70, C71). *)
From Verif Require Import PyBase PyGraph M_partition M_pool M_champ M_estimation_utils Spec Spec_graph Spec_champ Spec_polygon Spec_stability Spec_sbm Spec_multisbm Spec_prune Spec_tiling
  L_base L_sort L_canon L_leiden L_modularity L_modularity3 L_parallel L_bounds L_halfspace L_champ L_champ2 L_champ3 L_minkowski L_champ_total L_angular L_convex L_stability L_complete L_prune
  L_tiling L_tiling3 Properties_coefficients Properties_halfspaces Properties_champ Properties_sbm Properties_multisbm Properties_prune Properties_multiprune Properties_tiling.
From Coq Require Import Sorted Classical.
Open Scope R_scope.

(** ** C70: the single-layer pipeline returns exactly the considered partitions whose gamma estimate is in the interval and that
    are optimal there, and at a second point of the interval, among the considered ones ... *)
Theorem C70_prune_characterised : forall env g inputs gamma_start gamma_end restrict single_threaded warnings g' result c,
  prune_ok_2D env g inputs -> irredundant_hsi 2 (env_hsi (ee_champ env)) -> told_apart g inputs restrict ->
  prune_to_stable_partitions env g (Tuples inputs) gamma_start gamma_end restrict single_threaded = (warnings, g', Ok result) ->
  (In c result <->
   considered inputs restrict c /\
   exists gamma, snd (gamma_estimate env g (Membership c)) = Ok (Some (Fin gamma)) /\ gamma_start <= gamma <= gamma_end /\
     (forall d, considered inputs restrict d -> modularity g gamma d <= modularity g gamma c) /\
     exists gamma', gamma' <> gamma /\ gamma_start <= gamma' <= gamma_end /\
       forall d, considered inputs restrict d -> modularity g gamma' d <= modularity g gamma' c).
Proof.
  intros env g inputs gs ge restrict st w g' result c Hok Hir Ht H.
  destruct (@prune_2D_ok env g inputs gs ge restrict st Hok result) as (ps & ranges & Nd & I & C & HR & Hin & _); [rewrite H; reflexivity|].
  assert (Hd : distinguishable g ps) by (split; auto; intros a b Ha Hb; apply Ht; apply I; auto).
  rewrite Hin. split.
  - intros (s & e & x & Hr & He & Hx). destruct (C21_ranges_are_optimal _ _ _ _ _ _ _ C HR s e c Hr) as [Hp Hopt].
    destruct (proj1 (C23_ranges_well_formed _ _ _ _ _ _ _ C HR) s e c Hr) as (B1 & B2 & B3).
    pose proof (C66_range_is_proper _ _ _ _ _ _ _ _ _ _ C Hir HR Hr) as B4.
    split; [apply I; auto|]. exists x. split; auto. split; [lra|]. split; [intros d Hd'; apply Hopt; auto; apply I; auto|].
    destruct (Req_dec x s) as [->|N].
    + exists e. split; [lra|]. split; [lra|]. intros d Hd'. apply Hopt; [lra|apply I; auto].
    + exists s. split; [lra|]. split; [lra|]. intros d Hd'. apply Hopt; [lra|apply I; auto].
  - intros (Hc & x & He & Hx & Ho & x' & N & Hx' & Ho').
    assert (Hc' : In c ps) by (apply I; auto).
    destruct (proj2 (C66_returned_iff_optimal_twice _ _ _ _ _ _ _ c C Hir Hd HR Hc')) as (s & e & Hr).
    { destruct (Rlt_le_dec x x'); [exists x, x'|exists x', x; assert (x' < x) by lra]; (split; [lra|split; [lra|split]]); intros d Hd'; first [apply Ho|apply Ho']; apply I; auto. }
    exists s, e, x. split; auto. split; auto. apply (C66_range_is_where_optimal _ _ _ _ _ _ _ _ _ _ C HR Hr x Hx). intros d Hd'. apply Ho. apply I; auto.
Qed.
Print Assumptions C70_prune_characterised.

(** ... and the multilayer pipeline exactly those that are strictly the best ones at the truncated estimate, inside the open
    rectangle, when the gamma estimate is a number; no domain is degenerate. *)
Theorem C70_multilayer_prune_characterised : forall env g gi lv model inputs gamma_start gamma_end omega_start omega_end restrict warnings g' result c gamma omega_est,
  prune_ok_3D env g gi lv inputs -> irredundant_hsi 3 (env_hsi (ee_champ env)) -> full_facets_hsi 3 (env_hsi (ee_champ env)) ->
  told_apart_3D g gi lv inputs restrict ->
  prune_to_multilayer_stable_partitions env g gi lv model (Tuples inputs) gamma_start gamma_end omega_start omega_end restrict false
    = (warnings, g', Ok result) ->
  estimate_of env g gi lv model c = Ok (Some (Fin gamma), omega_est) ->
  let omega := Rmin omega_est (omega_end - 1 / 1000) in
  (In c result <->
   considered inputs restrict c /\ gamma_start < gamma < gamma_end /\ omega_start < omega < omega_end /\
   forall d, considered inputs restrict d -> d <> c -> multilayer_modularity g gi lv gamma omega d < multilayer_modularity g gi lv gamma omega c).
Proof.
  intros env g gi lv model inputs gs ge os oe restrict w g' result c x o Hok Hir Hf Ht H He omega. split.
  - intros Hc. destruct (@prune_3D_ok env g gi lv model inputs gs ge os oe restrict Hok result) as (ps & domains & Nd & I & C & HD & Hin & Hnd & Hnd2); [rewrite H; reflexivity|].
    apply Hin in Hc as (poly & x' & o' & Hp & He' & Hss). unfold estimate_of in He. unfold go_estimate in He'. rewrite He in He'. inversion He'; subst x' o'. clear He'.
    pose proof (C69_domain_is_convex_polygon _ _ _ _ _ _ _ _ _ _ _ _ C Hir Hf HD Hp) as (Hcv & _).
    apply (stable_convex x (Rmin o (oe - 1 / 1000)) Hcv) in Hss. fold omega in Hss.
    pose proof (fun a b => C69_domain_is_where_optimal _ _ _ _ _ _ _ _ _ _ _ _ a b C HD Hp) as W.
    assert (Hcp : In c ps) by apply (C24_domains_are_optimal _ _ _ _ _ _ _ _ _ _ C HD poly c Hp).
    split; [apply I; auto|]. split; [|split].
    + destruct Hss as (eps & Heps & Q). assert (Z : Rabs (omega - omega) < eps) by (rewrite Rminus_eq_0, Rabs_R0; auto).
      assert (L : in_polygon poly (x - eps / 2, omega)) by (apply Q; cbn [fst snd]; auto; replace (x - eps / 2 - x) with (- (eps / 2)) by ring; rewrite Rabs_Ropp, Rabs_right; lra).
      assert (R : in_polygon poly (x + eps / 2, omega)) by (apply Q; cbn [fst snd]; auto; replace (x + eps / 2 - x) with (eps / 2) by ring; rewrite Rabs_right; lra).
      apply W in L. apply W in R. lra.
    + destruct Hss as (eps & Heps & Q). assert (Z : Rabs (x - x) < eps) by (rewrite Rminus_eq_0, Rabs_R0; auto).
      assert (L : in_polygon poly (x, omega - eps / 2)) by (apply Q; cbn [fst snd]; auto; replace (omega - eps / 2 - omega) with (- (eps / 2)) by ring; rewrite Rabs_Ropp, Rabs_right; lra).
      assert (R : in_polygon poly (x, omega + eps / 2)) by (apply Q; cbn [fst snd]; auto; replace (omega + eps / 2 - omega) with (eps / 2) by ring; rewrite Rabs_right; lra).
      apply W in L. apply W in R. lra.
    + intros d Hd N. assert (Hdp : In d ps) by (apply I; auto).
      destruct (C69_strictly_best_inside _ _ _ _ _ _ _ _ _ _ _ _ _ _ _ C HD Hp Hss Hdp) as [L|E]; auto.
      destruct (Ht d c Hd) as (a & b & Nab); auto; [apply I; auto|]. exfalso. apply Nab. apply E.
  - intros (Hc & Hg & Ho & Hb). eapply C57_multilayer_prune_complete; eauto.
Qed.
Print Assumptions C70_multilayer_prune_characterised.

(** So the conclusion of C43 holds with no condition on the domain when the intersection routine reports full facets by their corners: *)
Theorem C70_multilayer_prune_sound : forall env g gi lv model inputs gamma_start gamma_end omega_start omega_end restrict warnings g' result c,
  prune_ok_3D env g gi lv inputs -> irredundant_hsi 3 (env_hsi (ee_champ env)) -> full_facets_hsi 3 (env_hsi (ee_champ env)) ->
  prune_to_multilayer_stable_partitions env g gi lv model (Tuples inputs) gamma_start gamma_end omega_start omega_end restrict false
    = (warnings, g', Ok result) ->
  In c result ->
  considered inputs restrict c /\
  exists gamma_est omega_est, estimate_of env g gi lv model c = Ok (Some gamma_est, omega_est) /\
    forall gamma, gamma_est = Fin gamma ->
    let omega := Rmin omega_est (omega_end - 1 / 1000) in
    gamma_start < gamma < gamma_end /\ omega_start < omega < omega_end /\
    forall d, considered inputs restrict d -> multilayer_modularity g gi lv gamma omega d <= multilayer_modularity g gi lv gamma omega c.
Proof.
  intros env g gi lv model inputs gs ge os oe restrict w g' result c Hok Hir Hf H Hc.
  destruct (@prune_3D_ok env g gi lv model inputs gs ge os oe restrict Hok result) as (ps & domains & Nd & I & C & HD & Hin & Hnd & Hnd2); [rewrite H; reflexivity|].
  apply Hin in Hc as (poly & x' & o & Hp & He & Hss).
  assert (Hcp : In c ps) by apply (C24_domains_are_optimal _ _ _ _ _ _ _ _ _ _ C HD poly c Hp).
  split; [apply I; auto|]. exists x', o. split; auto. intros x -> omega.
  pose proof (C69_domain_is_convex_polygon _ _ _ _ _ _ _ _ _ _ _ _ C Hir Hf HD Hp) as (Hcv & _).
  apply (stable_convex x (Rmin o (oe - 1 / 1000)) Hcv) in Hss. fold omega in Hss.
  pose proof (fun a b => C69_domain_is_where_optimal _ _ _ _ _ _ _ _ _ _ _ _ a b C HD Hp) as W.
  destruct Hss as (eps & Heps & Q).
  assert (Z : Rabs (omega - omega) < eps) by (rewrite Rminus_eq_0, Rabs_R0; auto). assert (Z' : Rabs (x - x) < eps) by (rewrite Rminus_eq_0, Rabs_R0; auto).
  assert (A1 : in_polygon poly (x - eps / 2, omega)) by (apply Q; cbn [fst snd]; auto; replace (x - eps / 2 - x) with (- (eps / 2)) by ring; rewrite Rabs_Ropp, Rabs_right; lra).
  assert (A2 : in_polygon poly (x + eps / 2, omega)) by (apply Q; cbn [fst snd]; auto; replace (x + eps / 2 - x) with (eps / 2) by ring; rewrite Rabs_right; lra).
  assert (A3 : in_polygon poly (x, omega - eps / 2)) by (apply Q; cbn [fst snd]; auto; replace (omega - eps / 2 - omega) with (- (eps / 2)) by ring; rewrite Rabs_Ropp, Rabs_right; lra).
  assert (A4 : in_polygon poly (x, omega + eps / 2)) by (apply Q; cbn [fst snd]; auto; replace (omega + eps / 2 - omega) with (eps / 2) by ring; rewrite Rabs_right; lra).
  apply W in A1, A2, A3, A4. split; [lra|]. split; [lra|]. intros d Hd. assert (A0 : in_polygon poly (x, omega)) by (apply Q; auto). apply W in A0. apply A0. apply I; auto.
Qed.
Print Assumptions C70_multilayer_prune_sound.

(** ** C71: two runs on inputs that describe the same partitions -- with other labels, orders, repetitions, process pools, solvers,
    intersection routines and set orders -- return the same list, ... *)
Theorem C71_prune_reproducible : forall env env' g inputs inputs' gamma_start gamma_end restrict single_threaded single_threaded' result result',
  prune_ok_2D env g inputs -> prune_ok_2D env' g inputs' -> irredundant_hsi 2 (env_hsi (ee_champ env)) -> irredundant_hsi 2 (env_hsi (ee_champ env')) ->
  same_estimation env env' -> same_inputs inputs inputs' -> told_apart g inputs restrict ->
  snd (prune_to_stable_partitions env g (Tuples inputs) gamma_start gamma_end restrict single_threaded) = Ok result ->
  snd (prune_to_stable_partitions env' g (Tuples inputs') gamma_start gamma_end restrict single_threaded') = Ok result' ->
  result = result'.
Proof.
  intros env env' g inputs inputs' gs ge restrict st st' r r' Hok Hok' Hir Hir' (S1 & S2 & S3) Hs Ht H H'.
  destruct (@prune_2D_unfold env g inputs gs ge restrict st Hok) as (ps & Nd & I & C & _ & E). rewrite E in H. apply bind_ok in H as (ranges & HR & H).
  destruct (@prune_2D_unfold env' g inputs' gs ge restrict st' Hok') as (ps' & Nd' & I' & C' & _ & E'). rewrite E' in H'. apply bind_ok in H' as (ranges' & HR' & H').
  assert (ranges = ranges') as <-.
  { apply (@runs_equal (ee_champ env) (ee_champ env') g ps ps' gs ge st st' C C' Hir Hir'); auto.
    - intros c. rewrite I, I'. apply considered_same. auto.
    - split; auto. intros a b Ha Hb. apply Ht; apply I; auto. }
  assert (EE : ranges_to_gamma_estimates env g ranges = ranges_to_gamma_estimates env' g ranges).
  { clear - S1 S2 S3. destruct env, env'. cbn in S1, S2, S3. subst. reflexivity. }
  rewrite EE in H. rewrite H in H'. congruence.
Qed.
Print Assumptions C71_prune_reproducible.

(** ... in the multilayer case the same partitions. *)
Theorem C71_multilayer_prune_reproducible : forall env env' g gi lv model inputs inputs' gamma_start gamma_end omega_start omega_end restrict result result',
  prune_ok_3D env g gi lv inputs -> prune_ok_3D env' g gi lv inputs' ->
  irredundant_hsi 3 (env_hsi (ee_champ env)) -> irredundant_hsi 3 (env_hsi (ee_champ env')) ->
  full_facets_hsi 3 (env_hsi (ee_champ env)) -> full_facets_hsi 3 (env_hsi (ee_champ env')) ->
  same_estimation env env' -> same_inputs inputs inputs' -> told_apart_3D g gi lv inputs restrict ->
  snd (prune_to_multilayer_stable_partitions env g gi lv model (Tuples inputs) gamma_start gamma_end omega_start omega_end restrict false) = Ok result ->
  snd (prune_to_multilayer_stable_partitions env' g gi lv model (Tuples inputs') gamma_start gamma_end omega_start omega_end restrict false) = Ok result' ->
  Permutation result result'.
Proof.
  intros env env' g gi lv model inputs inputs' gs ge os oe restrict r r' Hok Hok' Hir Hir' Hf Hf' (S1 & S2 & S3) Hs Ht H H'.
  destruct (@prune_3D_ok env g gi lv model inputs gs ge os oe restrict Hok r H) as (ps & domains & Nd & I & C & HD & Hin & Hnd & _).
  destruct (@prune_3D_ok env' g gi lv model inputs' gs ge os oe restrict Hok' r' H') as (ps' & domains' & Nd' & I' & C' & HD' & Hin' & Hnd' & _).
  assert (P : Permutation domains domains').
  { apply (@runs_equal_3D (ee_champ env) (ee_champ env') g gi lv ps ps' gs ge os oe domains domains'); auto.
    - split; auto. intros a b Ha Hb. apply Ht; apply I; auto.
    - apply NoDup_Permutation; auto. intros c. rewrite I, I'. apply considered_same. auto. }
  assert (EE : forall c, go_estimate env gi lv model g c = go_estimate env' gi lv model g c).
  { intros c. clear - S1 S2 S3. destruct env, env'. cbn in S1, S2, S3. subst. reflexivity. }
  apply NoDup_Permutation; auto. intros c. rewrite Hin, Hin'. split; intros (poly & x & o & K1 & K2 & K3); exists poly, x, o; rewrite EE in *; (split; [|auto]).
  - eapply Permutation_in; eauto.
  - eapply Permutation_in; [apply Permutation_sym|]; eauto.
Qed.
Print Assumptions C71_multilayer_prune_reproducible.


(** *** Non-vacuity: for every undirected input there are external routines that meet every condition. *)
Theorem C70_C71_realisable : forall g inputs gamma_start gamma_end restrict single_threaded contains fsolve connected,
  wf_graph g -> directed g = false -> edges g <> [] -> (forall t, In t inputs -> length t = vcount g) ->
  (Z.of_nat (length inputs) <= 2 ^ 53)%Z -> gamma_start < gamma_end ->
  exists env, prune_ok_2D env g inputs /\ irredundant_hsi 2 (env_hsi (ee_champ env)) /\ ee_contains env = contains /\ ee_fsolve env = fsolve /\ ee_connected env = connected /\
    ((forall c, considered inputs restrict c -> exists x, snd (gamma_estimate env g (Membership c)) = Ok x) ->
     exists result, snd (prune_to_stable_partitions env g (Tuples inputs) gamma_start gamma_end restrict single_threaded) = Ok result).
Proof. exact C40_realisable_full. Qed.
Print Assumptions C70_C71_realisable.
Theorem C70_C71_realisable_3D : forall g gi lv model inputs gamma_start gamma_end omega_start omega_end restrict contains fsolve connected,
  wf_graph g -> wf_graph gi -> directed g = false -> length lv = vcount g -> lv <> [] -> (vcount gi <= vcount g)%nat -> edges_within_layers g lv ->
  (forall l, In l lv -> exists u v, In (u, v) (edges g) /\ nth u lv 0%nat = l) ->
  (forall t, In t inputs -> length t = vcount g) -> (Z.of_nat (length inputs) <= 2 ^ 53)%Z ->
  gamma_start < gamma_end -> omega_start < omega_end ->
  exists env, prune_ok_3D env g gi lv inputs /\ irredundant_hsi 3 (env_hsi (ee_champ env)) /\ full_facets_hsi 3 (env_hsi (ee_champ env)) /\
    ee_contains env = contains /\ ee_fsolve env = fsolve /\ ee_connected env = connected /\
    ((forall c, considered inputs restrict c -> exists x, estimate_of env g gi lv model c = Ok x) ->
     exists result, snd (prune_to_multilayer_stable_partitions env g gi lv model (Tuples inputs) gamma_start gamma_end omega_start omega_end restrict false) = Ok result).
Proof. exact C43_realisable_full. Qed.
Print Assumptions C70_C71_realisable_3D.

(** The barbell with both its partitions, given with odd labels: they are told apart, both have estimates (the one-community
    partition gets none), and the two triangles are returned. *)
Example C70_C71_example : told_apart barbell barbell_inputs None /\ exists env result,
  prune_ok_2D env barbell barbell_inputs /\ irredundant_hsi 2 (env_hsi (ee_champ env)) /\
  snd (prune_to_stable_partitions env barbell (Tuples barbell_inputs) 0 2 None false) = Ok result /\ In barbell_c result.
Proof.
  assert (HC : forall c, considered barbell_inputs None c <-> In c [whole; barbell_c]).
  { assert (S1 : sorted_tuple [5; 5; 5; -1; -1; -1]%Z = Ok barbell_c) by reflexivity.
    assert (S2 : sorted_tuple [7; 7; 7; 7; 7; 7]%Z = Ok whole) by reflexivity.
    intros c. split.
    - intros (Hc & (t & [<-|[<-|[]]] & Hs) & _); [right; left|left]; symmetry; (eapply canonical_unique; auto; [eapply sorted_tuple_canonical; eassumption|]);
        (eapply same_partition_trans; [apply same_partition_sym; apply Hs|eapply sorted_tuple_same_partition; eassumption]).
    - intros [<-|[<-|[]]]; (split; [eapply sorted_tuple_canonical; eassumption|split; [|discriminate]]); eexists; (split; [|eapply sorted_tuple_same_partition; eassumption]); cbn; auto. }
  assert (Ht : told_apart barbell barbell_inputs None) by (intros c c' H H'; apply barbell_distinguishable; apply HC; auto).
  split; auto.
  destruct (C70_C71_realisable barbell barbell_inputs 0 2 None false (fun _ => true) (fun _ x => x) (fun _ => true)) as (env & Hok & Hir & Hc & _ & _ & H);
    auto using barbell_wf; try discriminate; try lra; try (cbn; lia); [intros t [<-|[<-|[]]]; reflexivity|].
  destruct (barbell_estimate env) as (x & Hx & Hb); [rewrite Hc; reflexivity|].
  destruct H as (result & H).
  { intros c Hcc. apply HC in Hcc as [<-|[<-|[]]]; [|eauto].
    destruct (C30_exact env barbell barbell [1; 1; 2; 1; 1; 1; 1] whole) as [_ Q]; auto using barbell_wf; [rewrite Hc; reflexivity| |].
    - intros w Hin. cbn in Hin. repeat (destruct Hin as [<-|Hin]; [lra|]). destruct Hin.
    - apply Q. intros [Z|[Z _]]; [discriminate|cbn in Z; lia]. }
  exists env, result. split; auto. split; auto. split; auto.
  destruct (prune_to_stable_partitions env barbell (Tuples barbell_inputs) 0 2 None false) as [[w g'] r] eqn:E. cbn [snd] in H. subst r.
  apply (C70_prune_characterised _ _ _ _ _ _ _ _ _ _ barbell_c Hok Hir Ht E). split; [apply HC; cbn; auto|].
  assert (O : forall y, 2 / 7 <= y -> forall d, considered barbell_inputs None d -> modularity barbell y d <= modularity barbell y barbell_c).
  { intros y Hy d Hd. apply HC in Hd as [<-|[<-|[]]]; rewrite ?barbell_whole, ?barbell_split; lra. }
  exists x. split; auto. split; [lra|]. split; [apply O; lra|]. exists 2. split; [lra|]. split; [lra|]. apply O; lra.
Qed.

Example C70_C71_example_3D : told_apart_3D two_paths two_paths_i two_paths_lv [kept_input] None /\ exists env result gamma,
  prune_ok_3D env two_paths two_paths_i two_paths_lv [kept_input] /\
  irredundant_hsi 3 (env_hsi (ee_champ env)) /\ full_facets_hsi 3 (env_hsi (ee_champ env)) /\
  estimate_of env two_paths two_paths_i two_paths_lv "temporal" kept_c = Ok (Some (Fin gamma), 1000) /\
  snd (prune_to_multilayer_stable_partitions env two_paths two_paths_i two_paths_lv "temporal" (Tuples [kept_input]) 0 2 0 2 None false) = Ok result /\
  In kept_c result.
Proof.
  assert (S : sorted_tuple kept_input = Ok kept_c) by reflexivity. pose proof (fun d => considered_one kept_input kept_c d S) as HC.
  assert (Ht : told_apart_3D two_paths two_paths_i two_paths_lv [kept_input] None) by (intros c c' H H' N; apply HC in H; apply HC in H'; congruence).
  split; auto. destruct two_paths_valid as (W1 & W2 & V).
  destruct (C70_C71_realisable_3D two_paths two_paths_i two_paths_lv "temporal" [kept_input] 0 2 0 2 None (fun _ => true) (fun _ x => x) (fun _ => true)) as (env & Hok & Hir & Hf & Hc & _ & _ & H); auto; try lra; try discriminate.
  - intros u v [E|[E|[E|[E|[]]]]]; inversion E; reflexivity.
  - intros l Hl. cbn in Hl. repeat (destruct Hl as [<-|Hl]); try (destruct Hl); [exists 0%nat, 1%nat|exists 0%nat, 1%nat|exists 0%nat, 1%nat|exists 3%nat, 4%nat|exists 3%nat, 4%nat|exists 3%nat, 4%nat]; cbn; auto.
  - intros t [<-|[]]; reflexivity.
  - destruct (kept_estimate env) as (x & Hx & Hb); [rewrite Hc; reflexivity|].
    destruct H as (result & H); [intros c Hcc; apply HC in Hcc; subst; eauto|]. exists env, result, x. split; auto. split; auto. split; auto. split; auto. split; auto.
    destruct (prune_to_multilayer_stable_partitions env two_paths two_paths_i two_paths_lv "temporal" (Tuples [kept_input]) 0 2 0 2 None false) as [[w g'] r] eqn:E. cbn [snd] in H. subst r.
    assert (M : Rmin 1000 (2 - 1 / 1000) = 2 - 1 / 1000) by (apply Rmin_right; lra).
    apply (C70_multilayer_prune_characterised _ _ _ _ _ _ _ _ _ _ _ _ _ _ kept_c x 1000 Hok Hir Hf Ht E Hx). split; [apply HC; auto|]. split; [lra|]. split; [rewrite M; lra|].
    intros d Hd N. apply HC in Hd. contradiction.
Qed.
