(** Property theorems about prune_to_stable_partitions in double precision: C80. *)
From Verif Require Import PyBase PyGraph M_partition M_pool M_champ M_leiden M_estimation_utils M_float Spec Spec_graph Spec_leiden Spec_champ Spec_prune Spec_stability Spec_float
  L_base L_sort L_canon L_modularity L_modularity3 L_parallel L_leiden L_split L_objective L_sbm L_sbm2 L_logmean L_bounds L_halfspace L_champ L_champ2 L_champ3 L_convex L_stability L_prune
  L_float L_float2 L_float3 L_float4 L_float5 L_float6 L_champ_total Properties_coefficients Properties_champ Properties_sbm Properties_prune Properties_float.
From Coq Require Import Permutation Classical.
From Flocq Require Import Core.Raux.
Open Scope R_scope.

Lemma fl_gamma_estimate_twice env flog g c : wf_graph g -> fl_gamma_estimate env flog (weighted_e env g) (Membership c) = fl_gamma_estimate env flog g (Membership c).
Proof. intros H. rewrite !fl_gamma_estimate_graph by (auto; apply weighted_e_wf; auto). rewrite weighted_e_idem. reflexivity. Qed.

Definition fl_estimated_from env flog g (r : R * R * list nat) (e : R * R * list nat * option npf) : Prop :=
  fst e = r /\ snd (fl_gamma_estimate env flog g (Membership (snd r))) = Ok (snd e).

Lemma fl_ranges_estimates env flog : forall ranges g g' ests, wf_graph g -> fl_ranges_to_gamma_estimates env flog g ranges = (g', Ok ests) -> Forall2 (fl_estimated_from env flog g) ranges ests.
Proof.
  unfold fl_ranges_to_gamma_estimates. induction ranges as [|r l IH]; intros g g' ests Hw H.
  - cbn in H. inversion H. constructor.
  - cbn [mapG] in H. destruct (fl_gamma_estimate env flog g (Membership (snd r))) as [g1 est] eqn:E. destruct est as [x|]; cbn [bind] in H; [|inversion H].
    destruct (mapG _ g1 l) as [g2 rs] eqn:E2. destruct rs as [ys|]; cbn [bind] in H; [|inversion H]. inversion H; subst.
    assert (g1 = weighted_e env g) by (rewrite fl_gamma_estimate_graph in E by auto; inversion E; auto). subst g1.
    apply IH in E2; [|apply weighted_e_wf; auto]. constructor.
    + split; [reflexivity|]. rewrite E. reflexivity.
    + eapply Forall2_weaken; [|apply E2]. intros a b [A B]. split; auto. rewrite fl_gamma_estimate_twice in B by auto. auto.
Qed.

Lemma fl_prune_ok env flog g inputs gs ge restrict st w g' result : prune_ok_double env g inputs ->
  fl_prune_to_stable_partitions env flog g (Tuples inputs) gs ge restrict st = (w, g', Ok result) ->
  exists ps ranges, (forall c, In c ps <-> considered inputs restrict c) /\ valid_pool (env_cpus (ee_champ env)) (env_order (ee_champ env)) ps /\
    fl_CHAMP_2D (ee_champ env) g ps gs ge st = Ok ranges /\
    (forall c, In c result <-> exists s e x, In (s, e, c) ranges /\ snd (fl_gamma_estimate env flog g (Membership c)) = Ok (Some (Fin x)) /\ s <= x <= e).
Proof.
  intros Hok H. destruct Hok.
  destruct (@considered_parts_ok env inputs restrict pd_order (@prune_inputs_ne g inputs pd_graph pd_edges pd_inputs)) as (ps & Hc & Nd & L & I).
  exists ps. unfold fl_prune_to_stable_partitions in H. rewrite Hc in H.
  assert (Hr : exists ranges, fl_CHAMP_2D (ee_champ env) g ps gs ge st = Ok ranges /\
     (let! ests := snd (fl_ranges_to_gamma_estimates env flog g ranges) in Ok (gamma_estimates_to_stable_partitions ests)) = Ok result).
  { destruct ps as [|c ps']; [exists []; split; [reflexivity|]; cbn; inversion H; reflexivity|].
    destruct (fl_CHAMP_2D (ee_champ env) g (c :: ps') gs ge st) as [ranges|]; [|discriminate]. exists ranges. split; [reflexivity|].
    destruct (fl_ranges_to_gamma_estimates env flog g ranges) as [g2 ests]. cbn [snd]. congruence. }
  clear H. destruct Hr as (ranges & HR & H). exists ranges. split; [auto|]. split; [split; [apply pd_pool|split; [apply pd_pool|lia]]|]. split; [auto|].
  apply bind_ok in H as (ests & HE & H). inversion H; subst result. clear H.
  destruct (fl_ranges_to_gamma_estimates env flog g ranges) as [g2 ests'] eqn:EE. cbn [snd] in HE. subst ests'.
  pose proof (fl_ranges_estimates env flog ranges g g2 ests pd_graph EE) as F.
  assert (Hs : selects in_own_range (fun x => snd (fst x)) ests (gamma_estimates_to_stable_partitions ests)) by (apply selects_filter; intros; apply within_iff).
  intros c. rewrite (selects_in c Hs). split.
  - intros ([r o] & Hin & (v & Hv & Hr) & Hcc). cbn [fst snd] in *. subst o.
    assert (Q : exists r', In r' ranges /\ fl_estimated_from env flog g r' (r, Some (Fin v))).
    { clear - F Hin. induction F as [|a b l l' Hab F IH]; [destruct Hin|]. destruct Hin as [->|Hin]; [exists a; split; [left|]; auto|]. destruct (IH Hin) as (r' & A & B). exists r'. split; [right|]; auto. }
    destruct Q as (r' & Hr' & E1 & E2). cbn [fst snd] in *. subst r' c. destruct r as [[s e] c]. exists s, e, v. auto.
  - intros (s & e & x & Hin & Hest & Hr).
    assert (Q : exists b, In b ests /\ fl_estimated_from env flog g (s, e, c) b).
    { clear - F Hin. induction F as [|a b l l' Hab F IH]; [destruct Hin|]. destruct Hin as [->|Hin]; [exists b; split; [left|]; auto|]. destruct (IH Hin) as (r' & A & B). exists r'. split; [right|]; auto. }
    destruct Q as ([r o] & Hb & E1 & E2). cbn [fst snd] in *. subst r. rewrite Hest in E2. inversion E2; subst. exists (s, e, c, Some (Fin x)). split; auto. split; [|reflexivity]. exists x. auto.
Qed.

Lemma estimate_error_small m e : (Z.of_nat m <= 2 ^ 24)%Z -> 0 <= e <= / 1024 -> 0 <= estimate_error m e <= / 256.
Proof.
  intros Hm He. unfold estimate_error. pose proof (pos_INR m). assert (INR m <= 16777216) by (rewrite INR_IZR_INZ; apply IZR_le; lia).
  pose proof u64_pos. pose proof u64_eq. split; [apply Rplus_le_le_0_compat; [apply Rmult_le_pos; lra|lra]|]. nra.
Qed.
Lemma P_two_m g c : wf_graph g -> edges g <> [] -> 0 <= P_of g c <= 2 * INR (ecount g).
Proof.
  intros Hg He. pose proof (@P_of_bounds g c Hg He) as Hb. rewrite total_eq in Hb. split; [apply Hb|]. eapply Rle_trans; [apply Hb|].
  destruct (directed g); [pose proof (pos_INR (ecount g)); lra|]. rewrite mult_INR. replace (INR 2) with 2 by (simpl; lra). lra.
Qed.

(** ** C80: what prune_to_stable_partitions keeps in double precision.  With an intersection routine accurate to [eps] and a logarithm
    accurate to [e], every returned partition is a considered one whose exact estimate gamma is, up to the relative error r of the
    computed one, within the interval widened by eps (1 + |bound|), and no considered partition beats it at gamma by more than
    eps (12 m + 2) + 2 m gamma (r + 4 * 2^-53). *)
Theorem C80_prune_sound : forall env flog e eps g inputs gamma_start gamma_end restrict single_threaded warnings g' result,
  prune_ok_double env g inputs -> 0 <= e <= / 1024 -> accurate_log e flog -> 0 <= eps -> near_hsi 2 eps (env_hsi (ee_champ env)) ->
  fl_prune_to_stable_partitions env flog g (Tuples inputs) gamma_start gamma_end restrict single_threaded = (warnings, g', Ok result) ->
  forall c, In c result ->
  let m := ecount g in let r := estimate_error m e in
  considered inputs restrict c /\
  exists gamma, snd (gamma_estimate env g (Membership c)) = Ok (Some (Fin gamma)) /\ 0 < gamma /\
    gamma_start - eps * (1 + Rabs gamma_start) <= (1 + r) * gamma /\ (1 - r) * gamma <= gamma_end + eps * (1 + Rabs gamma_end) /\
    forall d, considered inputs restrict d -> modularity g gamma d <= modularity g gamma c + eps * (12 * INR m + 2) + 2 * INR m * gamma * (r + 4 * u64).
Proof.
  intros env flog e eps g inputs gs ge restrict st w g' result Hok He Hlog Heps Hh H c Hc m r.
  destruct (fl_prune_ok env flog g inputs gs ge restrict st w g' result Hok H) as (ps & ranges & I & Hp & HR & Hin). destruct Hok.
  apply Hin in Hc as (s & t & x' & Hr & Hx' & Hst).
  assert (Hlen : forall d, In d ps -> length d = vcount g) by (intros d Hd; apply I in Hd; eapply considered_length; eauto).
  destruct (C79_ranges_double (ee_champ env) eps g ps gs ge st ranges Hp pd_graph pd_edges pd_size Hlen pd_lp Heps Hh HR s t c Hr) as (H1 & H2 & H3 & H4 & H5).
  split; [apply I; auto|].
  destruct (C78_gamma_estimate env flog e g c pd_graph pd_weights pd_size (Hlen _ H1) He Hlog) as [_ Hcl]. rewrite Hx' in Hcl. fold m in Hcl. change ((2 * INR m + 8) * u64 + 2 * e) with r in Hcl.
  unfold close_outcome in Hcl. destruct (snd (gamma_estimate env g (Membership c))) as [[[x|]|]|]; try contradiction. destruct Hcl as [Hx Hrel].
  exists x. split; [auto|]. split; [auto|]. apply Rabs_le_inv in Hrel. split; [lra|]. split; [lra|].
  intros d Hd. apply I in Hd. specialize (H5 x' d Hst Hd). rewrite !modularity_AP in *. fold m in H5.
  pose proof (P_two_m g d pd_graph pd_edges) as B1. pose proof (P_two_m g c pd_graph pd_edges) as B2. fold m in B1, B2.
  pose proof (estimate_error_small m e pd_size He) as Hrs. fold r in Hrs. pose proof u64_pos as U. pose proof (pos_INR m) as Hm.
  assert (Hd1 : (x' - x) * (P_of g d - P_of g c) <= r * x * (2 * INR m)).
  { eapply Rle_trans; [apply Rle_abs|]. rewrite Rabs_mult. apply Rmult_le_compat; try apply Rabs_pos; apply Rabs_le; lra. }
  assert (Hx2 : Rabs x' <= 2 * x) by (apply Rabs_le; nra).
  assert (Hd2 : Rabs x' * (4 * u64 * INR m) <= 2 * x * (4 * u64 * INR m)) by (apply Rmult_le_compat_r; [apply Rmult_le_pos; lra|auto]).
  lra.
Qed.
Print Assumptions C80_prune_sound.

(** With an exact intersection, a considered partition that is best by more than that error at its own estimate, the estimate being
    inside the interval by more than its relative error, is returned. *)
Theorem C80_prune_complete : forall env flog e g inputs gamma_start gamma_end restrict single_threaded warnings g' result c gamma,
  prune_ok_double env g inputs -> 0 <= e <= / 1024 -> accurate_log e flog -> exact_hsi 2 (env_hsi (ee_champ env)) ->
  fl_prune_to_stable_partitions env flog g (Tuples inputs) gamma_start gamma_end restrict single_threaded = (warnings, g', Ok result) ->
  let m := ecount g in let r := estimate_error m e in
  considered inputs restrict c -> snd (gamma_estimate env g (Membership c)) = Ok (Some (Fin gamma)) ->
  gamma_start <= (1 - r) * gamma -> (1 + r) * gamma <= gamma_end ->
  (forall d, considered inputs restrict d -> d <> c -> modularity g gamma d + 2 * INR m * gamma * (r + 4 * u64) < modularity g gamma c) ->
  In c result.
Proof.
  intros env flog e g inputs gs ge restrict st w g' result c x Hok He Hlog Hh H m r Hc Hx Hlo Hhi Hb.
  destruct (fl_prune_ok env flog g inputs gs ge restrict st w g' result Hok H) as (ps & ranges & I & Hp & HR & Hin). destruct Hok.
  assert (Hlen : forall d, In d ps -> length d = vcount g) by (intros d Hd; apply I in Hd; eapply considered_length; eauto).
  assert (Hcp : In c ps) by (apply I; auto). assert (Hne : ps <> []) by (intros ->; destruct Hcp).
  destruct (C78_gamma_estimate env flog e g c pd_graph pd_weights pd_size (Hlen _ Hcp) He Hlog) as [_ Hcl]. rewrite Hx in Hcl. fold m in Hcl. change ((2 * INR m + 8) * u64 + 2 * e) with r in Hcl.
  unfold close_outcome in Hcl. destruct (snd (fl_gamma_estimate env flog g (Membership c))) as [[[x'|]|]|] eqn:Ex'; try contradiction. destruct Hcl as [Hx0 Hrel].
  apply Rabs_le_inv in Hrel. assert (Hg : gs <= x' <= ge) by lra.
  destruct (C79_ranges_cover (ee_champ env) g ps gs ge st ranges x' Hp pd_graph pd_edges pd_size Hlen Hne pd_lp Hh HR Hg) as (s & t & part & Hr & Hst).
  destruct (C79_ranges_double (ee_champ env) 0 g ps gs ge st ranges Hp pd_graph pd_edges pd_size Hlen pd_lp (Rle_refl 0) (exact_near (Rle_refl 0) Hh) HR s t part Hr) as (H1 & _ & _ & _ & H5).
  assert (E : part = c).
  { destruct (list_eq_dec Nat.eq_dec part c) as [|N]; auto. exfalso. specialize (H5 x' c Hst Hcp). apply I in H1. specialize (Hb part H1 N). rewrite !modularity_AP in *. fold m in H5.
    pose proof (P_two_m g part pd_graph pd_edges) as B1. pose proof (P_two_m g c pd_graph pd_edges) as B2. fold m in B1, B2.
    pose proof (estimate_error_small m e pd_size He) as Hrs. fold r in Hrs. pose proof u64_pos as U. pose proof (pos_INR m) as Hm.
    assert (Hd1 : (x' - x) * (P_of g c - P_of g part) <= r * x * (2 * INR m)).
    { eapply Rle_trans; [apply Rle_abs|]. rewrite Rabs_mult. apply Rmult_le_compat; try apply Rabs_pos; apply Rabs_le; lra. }
    assert (Hx2 : Rabs x' <= 2 * x) by (apply Rabs_le; nra).
    assert (Hd2 : Rabs x' * (4 * u64 * INR m) <= 2 * x * (4 * u64 * INR m)) by (apply Rmult_le_compat_r; [apply Rmult_le_pos; lra|auto]).
    lra. }
  subst part. apply Hin. exists s, t, x'. auto.
Qed.
Print Assumptions C80_prune_complete.

(** The hypotheses can be met: for every undirected graph without weights (or counting its edges) and inputs of the right length
    there is an environment with exact geometry in which the call succeeds whenever the exact estimates do. *)
Lemma fl_ranges_estimates_total env flog : forall ranges g, wf_graph g -> (forall r, In r ranges -> exists x, snd (fl_gamma_estimate env flog g (Membership (snd r))) = Ok x) ->
  exists g' ests, fl_ranges_to_gamma_estimates env flog g ranges = (g', Ok ests).
Proof.
  unfold fl_ranges_to_gamma_estimates. induction ranges as [|r l IH]; intros g Hw H.
  - exists g, []. reflexivity.
  - cbn [mapG]. destruct (H r (or_introl eq_refl)) as [x Hx]. destruct (fl_gamma_estimate env flog g (Membership (snd r))) as [g1 est] eqn:E. cbn [snd] in Hx. subst est. cbn [bind].
    assert (g1 = weighted_e env g) by (rewrite fl_gamma_estimate_graph in E by auto; inversion E; auto). subst g1.
    destruct (IH (weighted_e env g)) as (g2 & ys & E2); [apply weighted_e_wf; auto| |].
    + intros r' Hr. rewrite fl_gamma_estimate_twice by auto. apply H. right. auto.
    + rewrite E2. cbn [bind]. eauto.
Qed.
Theorem C80_realisable : forall flog e g inputs gamma_start gamma_end restrict single_threaded contains fsolve connected,
  wf_graph g -> directed g = false -> edges g <> [] -> (Z.of_nat (ecount g) <= 2 ^ 24)%Z -> counts_edges (contains g) g ->
  (forall t, In t inputs -> length t = vcount g) -> (Z.of_nat (length inputs) <= 2 ^ 53)%Z -> gamma_start < gamma_end ->
  0 <= e <= / 1024 -> accurate_log e flog ->
  exists env, prune_ok_double env g inputs /\ exact_hsi 2 (env_hsi (ee_champ env)) /\ ee_contains env = contains /\ ee_fsolve env = fsolve /\ ee_connected env = connected /\
    ((forall c, considered inputs restrict c -> exists x, snd (gamma_estimate env g (Membership c)) = Ok x) ->
     exists result, snd (fl_prune_to_stable_partitions env flog g (Tuples inputs) gamma_start gamma_end restrict single_threaded) = Ok result).
Proof.
  intros flog e g inputs gs ge restrict st contains fsolve connected Hw Hd Hedg Hm Hcnt Hi Hn Hlt He Hlog.
  set (mk := fun ce => mkEst contains fsolve ce (fun l => l) connected).
  set (ce0 := known_env [] [0; 0] []).
  assert (Ho : forall ce, lists_sets (ee_set_order (mk ce))) by (intros ce l; apply Permutation_refl).
  destruct (@considered_parts_ok (mk ce0) inputs restrict (Ho ce0) (@prune_inputs_ne g inputs Hw Hedg Hi)) as (ps & Hps & Nd & Hl & I).
  assert (Hlen : forall d, In d ps -> length d = vcount g) by (intros d Hd'; apply I in Hd'; eapply considered_length; eauto).
  assert (HE : exists ce, valid_pool (env_cpus ce) (env_order ce) ps /\ lp_answers_all_variables (env_lp ce) /\ exact_hsi 2 (env_hsi ce) /\ exists ranges, fl_CHAMP_2D ce g ps gs ge st = Ok ranges).
  { destruct (classic (ps = [])) as [->|N].
    - destruct (C79_ranges_realisable g [repeat 0%nat (vcount g)] gs ge st) as (ce & r & P1 & P2 & P3 & _); auto; try discriminate; try (vm_compute; discriminate).
      + intros c [<-|[]]. apply repeat_length.
      + exists ce. split; [|split; [auto|split; [auto|exists []; reflexivity]]]. destruct P1 as (Q1 & Q2 & _). split; [auto|]. split; [auto|]. cbn; lia.
    - destruct (C79_ranges_realisable g ps gs ge st) as (ce & r & P1 & P2 & P3 & P4); auto; [lia|]. exists ce. eauto 6. }
  destruct HE as (ce & Hp & Hlp & Hh & ranges & HR). exists (mk ce). split; [|split; [exact Hh|split; [reflexivity|split; [reflexivity|split; [reflexivity|]]]]].
  - constructor; auto. destruct Hp as (Q1 & Q2 & _). auto.
  - intros Hest. unfold fl_prune_to_stable_partitions. change (considered_parts (mk ce) (Tuples inputs) restrict) with (considered_parts (mk ce0) (Tuples inputs) restrict). rewrite Hps.
    destruct ps as [|c ps]; [eexists; reflexivity|]. change (ee_champ (mk ce)) with ce. rewrite HR.
    destruct (fl_ranges_estimates_total (mk ce) flog ranges g Hw) as (g' & ests & EE).
    + intros [[s t] d] Hr. cbn [snd]. destruct (C79_ranges_double ce 0 g (c :: ps) gs ge st ranges Hp Hw Hedg Hm Hlen Hlp (Rle_refl 0) (exact_near (Rle_refl 0) Hh) HR s t d Hr) as (H1 & _).
      destruct (Hest d) as (x & Hx); [apply I; auto|].
      destruct (C78_gamma_estimate (mk ce) flog e g d Hw Hcnt Hm (Hlen _ H1) He Hlog) as [_ Hcl]. rewrite Hx in Hcl.
      destruct (snd (fl_gamma_estimate (mk ce) flog g (Membership d))) as [y|y]; [eauto|]. destruct x as [[]|]; contradiction.
    + rewrite EE. cbn [bind snd]. eauto.
Qed.
Print Assumptions C80_realisable.

(** Two joined triangles, with a correctly rounded logarithm: the two triangles are returned. *)
Example C80_example : exists env result, prune_ok_double env two_triangles barbell_inputs /\ exact_hsi 2 (env_hsi (ee_champ env)) /\
  snd (fl_prune_to_stable_partitions env (fun x => binary64 (ln x)) two_triangles (Tuples barbell_inputs) 0 2 (Some 2%nat) false) = Ok result /\ forall c, In c result <-> c = barbell_c.
Proof.
  assert (Hu : 0 <= u64 <= / 1024) by (pose proof u64_small; pose proof u64_pos; lra).
  destruct (C80_realisable (fun x => binary64 (ln x)) u64 two_triangles barbell_inputs 0 2 (Some 2%nat) false (fun _ => false) (fun _ x => x) (fun _ => true)) as (env & Hok & Hh & Hc & _ & _ & H).
  - apply two_triangles_wf.
  - reflexivity.
  - discriminate.
  - vm_compute; discriminate.
  - discriminate.
  - intros t [<-|[<-|[]]]; reflexivity.
  - vm_compute; discriminate.
  - lra.
  - exact Hu.
  - apply C78_log.
  - destruct (two_triangles_estimate env) as (x & Hx & Hb); [rewrite Hc; reflexivity|].
    destruct H as (result & H); [intros c Hcc; apply barbell_considered in Hcc; subst; eauto|]. exists env, result. split; [auto|]. split; [auto|]. split; [auto|].
    destruct (fl_prune_to_stable_partitions env (fun x => binary64 (ln x)) two_triangles (Tuples barbell_inputs) 0 2 (Some 2%nat) false) as [[w g'] r] eqn:E. cbn [snd] in H. subst r.
    intros c. split.
    + intros Hin. apply barbell_considered. apply (C80_prune_sound _ _ u64 0 _ _ _ _ _ _ _ _ _ Hok Hu C78_log (Rle_refl 0) (exact_near (Rle_refl 0) Hh) E c Hin).
    + intros ->. assert (Hr : 0 <= estimate_error (ecount two_triangles) u64 <= / 256) by (apply estimate_error_small; [vm_compute; discriminate|auto]).
      apply (C80_prune_complete _ _ u64 _ _ _ _ _ _ _ _ _ barbell_c x Hok Hu C78_log Hh E); [apply barbell_considered; auto|auto|nra|nra|]. intros d Hd N. apply barbell_considered in Hd. contradiction.
Qed.
