(** Property theorems about the pruning pipelines: C40-C44, C57, C58. *)
From Verif Require Import PyBase PyGraph M_partition M_pool M_champ M_estimation_utils Spec Spec_leiden Spec_graph Spec_champ Spec_polygon Spec_lp Spec_stability Spec_prune
  L_base L_canon L_leiden L_modularity L_champ L_champ2 L_champ3 L_champ_total L_angular L_sbm2 L_stability L_prune L_complete
  Properties_champ Properties_sbm.
From Coq Require Import Classical.
Open Scope R_scope.

(** ** C40: every returned partition is a considered one, has a gamma estimate within [gamma_start, gamma_end], and no
    considered partition has larger (unweighted) modularity at that estimate. *)
Theorem C40_prune_sound : forall env g inputs gamma_start gamma_end restrict single_threaded warnings g' result,
  prune_ok_2D env g inputs ->
  prune_to_stable_partitions env g (Tuples inputs) gamma_start gamma_end restrict single_threaded = (warnings, g', Ok result) ->
  forall c, In c result ->
  considered inputs restrict c /\
  exists gamma, snd (gamma_estimate env g (Membership c)) = Ok (Some (Fin gamma)) /\ gamma_start <= gamma <= gamma_end /\
    forall d, considered inputs restrict d -> modularity g gamma d <= modularity g gamma c.
Proof.
  intros env g inputs gs ge restrict st w g' result Hok H c Hc.
  destruct (@prune_2D_ok env g inputs gs ge restrict st Hok result) as (ps & ranges & Nd & I & C & HR & Hin & _); [rewrite H; reflexivity|].
  apply Hin in Hc as (s & e & x & Hr & He & Hx). destruct (C21_ranges_are_optimal _ _ _ _ _ _ _ C HR s e c Hr) as [Hp Hopt].
  destruct (proj1 (C23_ranges_well_formed _ _ _ _ _ _ _ C HR) s e c Hr) as (B1 & B2 & B3).
  split; [apply I; auto|]. exists x. split; auto. split; [lra|]. intros d Hd. apply Hopt; auto. apply I; auto.
Qed.
Print Assumptions C40_prune_sound.

(** ** C41: a considered partition that is strictly the best one at its own estimate, within the interval, is returned. *)
Theorem C41_prune_complete : forall env g inputs gamma_start gamma_end restrict single_threaded warnings g' result c gamma,
  prune_ok_2D env g inputs ->
  prune_to_stable_partitions env g (Tuples inputs) gamma_start gamma_end restrict single_threaded = (warnings, g', Ok result) ->
  considered inputs restrict c -> snd (gamma_estimate env g (Membership c)) = Ok (Some (Fin gamma)) ->
  gamma_start <= gamma <= gamma_end ->
  (forall d, considered inputs restrict d -> d <> c -> modularity g gamma d < modularity g gamma c) ->
  In c result.
Proof.
  intros env g inputs gs ge restrict st w g' result c x Hok H Hc He Hx Hb.
  destruct (@prune_2D_ok env g inputs gs ge restrict st Hok result) as (ps & ranges & Nd & I & C & HR & Hin & _); [rewrite H; reflexivity|].
  destruct (C22_strictly_best_is_returned _ _ _ _ _ _ _ x c C HR Hx) as (s & e & Hr & Hse).
  - apply I. auto.
  - intros d Hd N. apply Hb; auto. apply I. auto.
  - apply Hin. exists s, e, x. auto.
Qed.
Print Assumptions C41_prune_complete.

(** The pipeline returns whenever every considered partition has an estimate and the solver and the intersection routine answer. *)
Theorem C41_prune_returns : forall env g inputs gamma_start gamma_end restrict single_threaded,
  prune_ok_2D env g inputs -> directed g = false -> gamma_start < gamma_end ->
  working_solver (ee_champ env) (length inputs) -> hsi_answers 2 (ee_champ env) ->
  (forall c, considered inputs restrict c -> exists x, snd (gamma_estimate env g (Membership c)) = Ok x) ->
  exists result, snd (prune_to_stable_partitions env g (Tuples inputs) gamma_start gamma_end restrict single_threaded) = Ok result.
Proof.
  intros env g inputs gs ge restrict st Hok Hd Hg H1 H2 H3.
  destruct (@prune_2D_unfold env g inputs gs ge restrict st Hok) as (ps & Nd & I & C & _ & E). rewrite E.
  assert (HR : exists ranges, CHAMP_2D (ee_champ env) g ps gs ge st = Ok ranges).
  { destruct (classic (ps = [])) as [->|N]; [exists []; reflexivity|]. apply CHAMP_2D_returns; auto.
    apply working_solver_le with (length inputs); auto. apply considered_count with restrict; auto. intros c Hc. apply I. auto. }
  destruct HR as (ranges & HR). rewrite HR. cbn [bind].
  destruct (@ranges_estimates_total env ranges g (p2_graph Hok)) as (g' & ests & EE).
  - intros [[s e] c] Hr. apply H3. apply I. apply (C21_ranges_are_optimal _ _ _ _ _ _ _ C HR s e c Hr).
  - rewrite EE. cbn [snd bind]. eauto.
Qed.
Print Assumptions C41_prune_returns.

(** ** C42: the guarantees depend on the partitions that the inputs describe, not on their order, repetition or labels: ... *)
Theorem C42_guarantees_transfer : forall env g inputs inputs' gamma_start gamma_end restrict single_threaded warnings g' result,
  prune_ok_2D env g inputs -> same_inputs inputs inputs' ->
  prune_to_stable_partitions env g (Tuples inputs) gamma_start gamma_end restrict single_threaded = (warnings, g', Ok result) ->
  NoDup result /\
  (forall c, In c result -> considered inputs' restrict c /\
     exists gamma, snd (gamma_estimate env g (Membership c)) = Ok (Some (Fin gamma)) /\ gamma_start <= gamma <= gamma_end /\
       forall d, considered inputs' restrict d -> modularity g gamma d <= modularity g gamma c) /\
  (forall c gamma, considered inputs' restrict c -> snd (gamma_estimate env g (Membership c)) = Ok (Some (Fin gamma)) ->
     gamma_start <= gamma <= gamma_end ->
     (forall d, considered inputs' restrict d -> d <> c -> modularity g gamma d < modularity g gamma c) -> In c result).
Proof.
  intros env g inputs inputs' gs ge restrict st w g' result Hok Hs H.
  assert (S : forall c, considered inputs restrict c <-> considered inputs' restrict c) by (intros; apply considered_same; auto). split; [|split].
  - destruct (@prune_2D_ok env g inputs gs ge restrict st Hok result) as (ps & ranges & Nd & I & C & HR & Hin & Hnd); [rewrite H; reflexivity|]. auto.
  - intros c Hc. destruct (C40_prune_sound _ _ _ _ _ _ _ _ _ _ Hok H c Hc) as (A & x & B1 & B2 & B3). split; [apply S; auto|]. exists x. split; auto. split; auto. intros d Hd. apply B3. apply S. auto.
  - intros c x Hc He Hx Hb. eapply C41_prune_complete; eauto; [apply S; auto|]. intros d Hd. apply Hb. apply S. auto.
Qed.
Print Assumptions C42_guarantees_transfer.

(** ... and when sets are listed in an order that depends on the set alone, the whole outcome is the same. *)
Theorem C42_same_outcome : forall env g inputs inputs' gamma_start gamma_end restrict single_threaded,
  prune_ok_2D env g inputs -> prune_ok_2D env g inputs' -> same_inputs inputs inputs' ->
  (forall l l', Permutation l l' -> ee_set_order env l = ee_set_order env l') ->
  prune_to_stable_partitions env g (Tuples inputs) gamma_start gamma_end restrict single_threaded
  = prune_to_stable_partitions env g (Tuples inputs') gamma_start gamma_end restrict single_threaded.
Proof.
  intros env g inputs inputs' gs ge restrict st Hok Hok' Hs Ho.
  assert (E : considered_parts env (Tuples inputs) restrict = considered_parts env (Tuples inputs') restrict).
  { assert (Es : forall r, considered_parts env (Tuples inputs) r = considered_parts env (Tuples inputs') r).
    { intros r. unfold considered_parts. destruct (mapM_sorted inputs) as (cs & E1 & _ & I1). destruct (mapM_sorted inputs') as (cs' & E2 & _ & I2). rewrite E1, E2. cbn [bind].
      assert (P : Permutation (py_set cs) (py_set cs')).
      { apply NoDup_Permutation; try apply py_set_nodup. intros c. rewrite !py_set_in, I1, I2. pose proof (considered_same None c Hs) as Q. unfold considered in Q.
        assert (Z : forall k : nat, None = Some k -> has_communities c k) by discriminate. tauto. }
      rewrite (Ho _ _ P). reflexivity. }
    apply Es. }
  unfold prune_to_stable_partitions. rewrite E. reflexivity.
Qed.
Print Assumptions C42_same_outcome.

(** An input without a partition of the requested size gives [] at once: no warning depends on it, the graph is not touched. *)
Theorem C42_nothing_considered : forall env g inputs gamma_start gamma_end restrict single_threaded,
  lists_sets (ee_set_order env) -> (forall t, In t inputs -> t <> []) -> (forall c, ~ considered inputs restrict c) ->
  exists warnings, prune_to_stable_partitions env g (Tuples inputs) gamma_start gamma_end restrict single_threaded = (warnings, g, Ok []).
Proof.
  intros env g inputs gs ge restrict st Ho Hne Hn. destruct (@considered_parts_ok env inputs restrict Ho Hne) as (ps & H & _ & _ & I).
  assert (ps = []) as -> by (destruct ps as [|c ps]; auto; exfalso; apply (Hn c); apply I; left; auto).
  unfold prune_to_stable_partitions. rewrite H. eexists. reflexivity.
Qed.
Print Assumptions C42_nothing_considered.

(** Relabelling, repeating and reordering the inputs are special cases of [same_inputs]. *)
Theorem C42_relabelled : forall inputs inputs' (rename : list Z -> Z -> Z),
  (forall t a b, In a t -> In b t -> rename t a = rename t b -> a = b) ->
  (forall t, In t inputs' <-> In t (map (fun t => map (rename t) t) inputs)) -> same_inputs inputs inputs'.
Proof.
  intros inputs inputs' f Hf H.
  assert (S : forall t, same_partition t (map (f t) t)).
  { intros t. split; [rewrite map_length; auto|]. intros i j a a' b b' Ha Ha' Hb Hb'. rewrite nth_error_map, Ha in Hb. rewrite nth_error_map, Ha' in Hb'. cbn in Hb, Hb'. inversion Hb; inversion Hb'; subst.
    split; [congruence|]. intros E. apply (Hf t) in E; auto; eapply nth_error_In; eauto. }
  split.
  - intros t Ht. exists (map (f t) t). split; auto. apply H. apply in_map_iff. eauto.
  - intros t' Ht. apply H in Ht. apply in_map_iff in Ht as (t & <- & Ht). eauto.
Qed.
Print Assumptions C42_relabelled.

(** *** Non-vacuity: for every undirected input there are external routines that meet [prune_ok_2D] and with which the CHAMP
    step returns, so the pipeline returns whenever the estimates do. *)
Lemma C40_realisable_full : forall g inputs gamma_start gamma_end restrict single_threaded contains fsolve connected,
  wf_graph g -> directed g = false -> edges g <> [] -> (forall t, In t inputs -> length t = vcount g) ->
  (Z.of_nat (length inputs) <= 2 ^ 53)%Z -> gamma_start < gamma_end ->
  exists env, prune_ok_2D env g inputs /\ irredundant_hsi 2 (env_hsi (ee_champ env)) /\ ee_contains env = contains /\ ee_fsolve env = fsolve /\ ee_connected env = connected /\
    ((forall c, considered inputs restrict c -> exists x, snd (gamma_estimate env g (Membership c)) = Ok x) ->
     exists result, snd (prune_to_stable_partitions env g (Tuples inputs) gamma_start gamma_end restrict single_threaded) = Ok result).
Proof.
  intros g inputs gs ge restrict st contains fsolve connected Hw Hd He Hi Hn Hg.
  set (mk := fun ce => mkEst contains fsolve ce (fun l => l) connected).
  set (ce0 := known_env [] [0; 0] []).
  assert (Ho : forall ce, lists_sets (ee_set_order (mk ce))) by (intros ce l; apply Permutation_refl).
  destruct (@considered_parts_ok (mk ce0) inputs restrict (Ho ce0) (prune_inputs_ne inputs Hw He Hi)) as (ps & Hps & Nd & Hl & I).
  assert (HE : exists ce, champ_ok_2D ce g ps /\ irredundant_hsi 2 (env_hsi ce) /\ exists ranges, CHAMP_2D ce g ps gs ge st = Ok ranges).
  { destruct (classic (ps = [])) as [->|N].
    - destruct (@champ_2D_realisable_full g [repeat 0%nat (vcount g)] gs ge st) as (ce & _ & [P1 P2 P3 P4 P5 P6] & P7 & _); auto; try discriminate; try (cbn; lia).
      + intros c [<-|[]]. apply repeat_length.
      + exists ce. split; [|split; [exact P7|exists []; reflexivity]]. destruct P1 as (Q1 & Q2 & _). constructor; auto; try (intros c []; fail). split; auto. split; auto. cbn; lia.
    - destruct (@champ_2D_realisable_full g ps gs ge st) as (ce & ranges & H1 & H1' & H2); auto; [|lia|eauto].
      intros c Hc. eapply considered_length; [exact Hi|apply I; eauto]. }
  destruct HE as (ce & C & Hir & ranges & HR). exists (mk ce). split; [|split; [exact Hir|split; [reflexivity|split; [reflexivity|split; [reflexivity|]]]]].
  - constructor; auto; [|apply (c2_lp C)|apply (c2_hsi C)]. destruct (c2_pool C) as (Q1 & Q2 & _). auto.
  - intros Hest. unfold prune_to_stable_partitions. change (considered_parts (mk ce) (Tuples inputs) restrict) with (considered_parts (mk ce0) (Tuples inputs) restrict). rewrite Hps.
    destruct ps as [|c ps]; [eexists; reflexivity|]. change (ee_champ (mk ce)) with ce. rewrite HR.
    destruct (@ranges_estimates_total (mk ce) ranges g Hw) as (g' & ests & EE).
    + intros [[s e] d] Hr. apply Hest. apply I. apply (C21_ranges_are_optimal _ _ _ _ _ _ _ C HR s e d Hr).
    + rewrite EE. cbn [bind snd]. eauto.
Qed.
Theorem C40_realisable : forall g inputs gamma_start gamma_end restrict single_threaded contains fsolve connected,
  wf_graph g -> directed g = false -> edges g <> [] -> (forall t, In t inputs -> length t = vcount g) ->
  (Z.of_nat (length inputs) <= 2 ^ 53)%Z -> gamma_start < gamma_end ->
  exists env, prune_ok_2D env g inputs /\ ee_contains env = contains /\ ee_fsolve env = fsolve /\ ee_connected env = connected /\
    ((forall c, considered inputs restrict c -> exists x, snd (gamma_estimate env g (Membership c)) = Ok x) ->
     exists result, snd (prune_to_stable_partitions env g (Tuples inputs) gamma_start gamma_end restrict single_threaded) = Ok result).
Proof.
  intros. destruct (C40_realisable_full g inputs gamma_start gamma_end restrict single_threaded contains fsolve connected) as (env & K1 & _ & K2); auto. exists env. auto.
Qed.
Print Assumptions C40_realisable.

(** For instance a weighted barbell of two triangles, given with odd labels and together with the one-community partition, which
    the restriction to two communities excludes: the two triangles are returned. *)
Definition barbell_inputs : list (list Z) := [[5; 5; 5; -1; -1; -1]; [7; 7; 7; 7; 7; 7]]%Z.
Lemma barbell_considered c : considered barbell_inputs (Some 2%nat) c <-> c = barbell_c.
Proof.
  assert (S1 : sorted_tuple [5; 5; 5; -1; -1; -1]%Z = Ok barbell_c) by reflexivity.
  assert (S2 : sorted_tuple [7; 7; 7; 7; 7; 7]%Z = Ok [0; 0; 0; 0; 0; 0]%nat) by reflexivity.
  assert (H2 : has_communities barbell_c 2).
  { exists [0; 1]%nat. split; [repeat constructor; cbn; lia|]. split; [reflexivity|]. intros x. unfold barbell_c. cbn. tauto. }
  split.
  - intros (Hc & (t & [<-|[<-|[]]] & Hs) & Hr).
    + eapply canonical_unique; auto; [eapply sorted_tuple_canonical; apply S1|]. eapply same_partition_trans; [apply same_partition_sym; apply Hs|eapply sorted_tuple_same_partition; apply S1].
    + assert (c = [0; 0; 0; 0; 0; 0]%nat) as ->.
      { eapply canonical_unique; auto; [eapply sorted_tuple_canonical; apply S2|]. eapply same_partition_trans; [apply same_partition_sym; apply Hs|eapply sorted_tuple_same_partition; apply S2]. }
      exfalso. assert (1 = 2)%nat; [|discriminate]. eapply has_communities_unique; [|apply (Hr 2%nat eq_refl)].
      exists [0]%nat. split; [repeat constructor; cbn; lia|]. split; [reflexivity|]. intros x. cbn. tauto.
  - intros ->. split; [eapply sorted_tuple_canonical; apply S1|]. split.
    + eexists. split; [left; reflexivity|]. eapply sorted_tuple_same_partition; apply S1.
    + intros k E. inversion E; subst; auto.
Qed.
Lemma barbell_estimate env : ee_contains env barbell = true ->
  exists x, snd (gamma_estimate env barbell (Membership barbell_c)) = Ok (Some (Fin x)) /\ 1 / 2 < x < 7 / 4.
Proof.
  intros He. unfold gamma_estimate. rewrite He. cbn [snd]. change (leiden_part_with_membership barbell barbell_c) with (Ok (mkPart 2 barbell_c)). cbn [bind]. rewrite C27_example. cbn [bind].
  destruct (C29_log_mean (14 * 16 / 130) (2 / (16 - 130 / 16))) as (x & Hx & _ & B & B' & _); try lra. rewrite Hx. exists x. split; auto.
  rewrite Rmin_right, Rmax_left in B by lra. assert (1 / 2 < sqrt (14 * 16 / 130 * (2 / (16 - 130 / 16)))); [|lra].
  apply Rsqr_incrst_0; [rewrite Rsqr_sqrt by lra; unfold Rsqr; lra|lra|apply sqrt_pos].
Qed.
Example C40_C41_example : exists env result, prune_ok_2D env barbell barbell_inputs /\
  snd (prune_to_stable_partitions env barbell (Tuples barbell_inputs) 0 2 (Some 2%nat) false) = Ok result /\ forall c, In c result <-> c = barbell_c.
Proof.
  destruct (C40_realisable barbell barbell_inputs 0 2 (Some 2%nat) false (fun _ => true) (fun _ x => x) (fun _ => true)) as (env & Hok & Hc & _ & _ & H).
  - apply barbell_wf.
  - reflexivity.
  - discriminate.
  - intros t [<-|[<-|[]]]; reflexivity.
  - cbn; lia.
  - lra.
  - destruct (barbell_estimate env) as (x & Hx & Hb); [rewrite Hc; reflexivity|].
    destruct H as (result & H); [intros c Hcc; apply barbell_considered in Hcc; subst; eauto|]. exists env, result. split; auto. split; auto.
    destruct (prune_to_stable_partitions env barbell (Tuples barbell_inputs) 0 2 (Some 2%nat) false) as [[w g'] r] eqn:E. cbn [snd] in H. subst r.
    intros c. split.
    + intros Hin. apply barbell_considered. apply (C40_prune_sound _ _ _ _ _ _ _ _ _ _ Hok E c Hin).
    + intros ->. eapply C41_prune_complete; eauto; [apply barbell_considered; auto|lra|]. intros d Hd N. apply barbell_considered in Hd. contradiction.
Qed.
