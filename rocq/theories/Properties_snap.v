(** Property theorems about SNAP_boxplot.py and the range of single estimates it asserts: C96. *)
From Verif Require Import PyBase PyGraph M_partition M_champ M_leiden M_estimation_utils M_checks M_experiments M_snap Spec Spec_graph Spec_leiden Spec_sbm Spec_check Spec_multisbm Spec_valid Spec_limits Spec_plotting Spec_snap
  L_base L_canon L_modularity L_modularity3 L_parallel L_leiden L_louvain L_split L_objective L_sbm L_sbm2 L_logmean L_multisbm L_accepted L_omega L_limits L_prune L_plotting L_snap Properties_sbm Properties_multisbm.
Open Scope R_scope.

(** ** C96: with positive weights and K > 1 labels the estimate of the between-community propensity is at most 2, and so every finite
    gamma estimate is positive and below 2 or at most the plotted curve of the expected estimates of K communities. *)
Theorem C96_between_propensity : forall g ws c K omega_in omega_out,
  wf_graph g -> weights g = Some ws -> (forall w, In w ws -> 0 < w) -> length c = vcount g -> (forall l, In l c -> (l < K)%nat) -> (1 < K)%nat ->
  estimate_singlelayer_SBM_parameters g (mkPart K c) None = Ok (omega_in, omega_out) -> 0 <= omega_out <= 2.
Proof.
  intros g ws c K a b Hwf Hw Hpos Hlen Hlab HK Hest. pose proof (labels_nth c (vcount g) K Hlen Hlab) as Hlab'.
  rewrite (@estimate_single g ws c K None Hwf Hw Hlen) in Hest; auto. unfold weighted_edges in *.
  split; [|exact (@omega_out_two g ws c K a b Hwf Hpos Hlen Hlab' HK Hest)].
  destruct (@single_balance g ws c K a b Hwf Hpos Hlen Hlab' HK Hest) as (_ & _ & _ & _ & _ & Hb & _). exact Hb.
Qed.
Print Assumptions C96_between_propensity.

(** The bound 2 is attained: one edge, its end points in different communities. *)
Example C96_between_attained : estimate_singlelayer_SBM_parameters (mkGraph 2 false [(0, 1)]%nat (Some [1])) (mkPart 2 [0; 1]%nat) None = Ok (0, 2).
Proof.
  assert (Hwf : wf_graph (mkGraph 2 false [(0, 1)]%nat (Some [1]))).
  { split; [|intros ws H; inversion H; reflexivity]. intros u v [H|[]]. inversion H. cbn. lia. }
  rewrite (@estimate_single _ [1] [0; 1]%nat 2 None Hwf eq_refl eq_refl); auto.
  - unfold sbm_outcome, weighted_edges, total_strength, expected_within, expected_between, observed_within, observed_between, null_weight, total_strength, strength, w_adj, w_arcs, delta.
    cbn. repeat match goal with |- context [pair_dec ?a ?b] => destruct (pair_dec a b); try congruence end.
    repeat (destruct (Req_EM_T _ _) as [H|H]; [exfalso; revert H; lra|clear H]). f_equal. f_equal; field.
  - intros v Hv. cbn in Hv. destruct v as [|[|v]]; cbn; lia.
Qed.

Theorem C96_gamma_estimates : forall env g h ws c x,
  wf_graph g -> weights_defaulted (ee_contains env g) g h -> weights h = Some ws -> (forall w, In w ws -> 0 < w) -> length c = vcount g -> (0 < list_max c)%nat ->
  snd (gamma_estimate env g (Membership c)) = Ok (Some (Fin x)) ->
  let K := S (list_max c) in
  0 < x /\ (x < 2 \/ exists y z, 0 < y < 1 /\ expected_gamma K y = Ok z /\ x <= z) /\ (x < 2 \/ x < INR K / 2) /\ ((K <= 70)%nat -> x < 15).
Proof.
  intros env g h ws c x Hg Hh Hw Hpos Hlen Hm Hx K. apply weighted_e_defaulted in Hh. subst h.
  destruct (@estimate_below env g ws c Hg Hw Hpos Hlen Hm x Hx) as [P D]. split; auto. split; auto. fold K in D. split.
  - destruct D as [D|(y & z & Hy & Hz & Hxz)]; [auto|]. right. apply Rle_lt_trans with z; auto. apply (@expected_gamma_below K y z); auto. unfold K. lia.
  - intros HK. destruct D as [D|(y & z & Hy & Hz & Hxz)]; [lra|]. apply Rle_lt_trans with z; auto. apply (@expected_below_15 K y z); auto. unfold K in *. lia.
Qed.
Print Assumptions C96_gamma_estimates.

(** The estimate is nan exactly when the weight within communities equals its expectation. *)
Theorem C96_nan : forall env g h ws c r,
  wf_graph g -> weights_defaulted (ee_contains env g) g h -> weights h = Some ws -> (forall w, In w ws -> 0 < w) -> length c = vcount g -> (0 < list_max c)%nat ->
  snd (gamma_estimate env g (Membership c)) = Ok r ->
  (r = Some NonFinite <-> observed_within (vcount g) (weighted_edges h ws) c = expected_within (vcount g) (weighted_edges h ws) c).
Proof.
  intros env g h ws c r Hg Hh Hw Hpos Hlen Hm Hx. apply weighted_e_defaulted in Hh. subst h. unfold weighted_edges. rewrite weighted_e_edges. split; intros H.
  - subst r. apply (@estimate_nan env g ws c); auto.
  - apply (@nan_estimate env g ws c); auto.
Qed.
Print Assumptions C96_nan.

(** ** The multilayer estimates: the same bounds for the resolution estimate of gamma_omega_estimate. *)
Theorem C96_multilayer : forall env g h gi ws lv c model omega_max oN oT oNt om x omega,
  wf_graph g -> wf_graph gi -> weights_defaulted (ee_contains env g) g h -> weights h = Some ws -> (forall w, In w ws -> 0 < w) ->
  valid_multilayer h gi ws lv model -> is_model model -> length c = vcount g ->
  let n := vcount g in let E := weighted_edges h ws in let T := S (list_max lv) in let N := (vcount g / T)%nat in let K := S (list_max c) in
  omitted_or oN N -> omitted_or oT T -> omitted_or oNt (map (nodes_in lv) (seq 0 T)) -> omitted_or om (map (weight_in E lv) (seq 0 T)) ->
  snd (gamma_omega_estimate env g gi lv c omega_max model oN oT oNt om) = Ok (Some (Fin x), omega) ->
  0 < x /\ (x < 2 \/ exists y z, 0 < y < 1 /\ expected_gamma K y = Ok z /\ x <= z) /\ ((K <= 70)%nat -> x < 15).
Proof.
  intros env g h gi ws lv c model omega_max oN oT oNt om x omega Hg Hgi Hh Hw Hpos Hv Hm Hlen n E T N K H1 H2 H3 H4 Hx.
  destruct (C37_exact env g h gi ws lv c model omega_max oN oT oNt om Hg Hgi Hh Hw Hpos Hv Hm Hlen H1 H2 H3 H4) as (pers & p & r & _ & _ & Hp & Er & R1 & R2 & R3).
  cbv zeta in R3. fold n T E in R1, R2, R3. rewrite Er in Hx. cbn [snd] in Hx. subst r.
  assert (Hwh : wf_graph h). { apply weighted_e_defaulted in Hh. subst h. apply weighted_e_wf; auto. }
  assert (Evc : vcount h = vcount g). { apply weighted_e_defaulted in Hh. subst h. apply weighted_e_vcount. }
  destruct (C31_positive_weights h gi ws lv c model Hwh Hw Hpos Hv ltac:(congruence)) as (PW & PB & QW & QB & Hsum). rewrite Evc in PW, PB, QW, QB, Hsum. fold n E T in PW, PB, QW, QB, Hsum.
  pose proof (valid_accepted Hwh Hv) as Hacc.
  assert (Hlab : forall v, (v < n)%nat -> (nth v c 0 < K)%nat).
  { intros v Hv'. unfold K. apply (proj2 (Nat.lt_succ_r _ _)). pose proof (proj1 (list_max_le c (list_max c)) (Nat.le_refl _)) as F. rewrite Forall_forall in F. apply F. apply nth_In. unfold n in Hv'. lia. }
  assert (HR : forall t, in_range_E n (layer_edges E lv t)) by (intros t; apply layer_range; unfold n; rewrite <- Evc; apply range_E_of; auto).
  assert (HT : forall t, (t < T)%nat -> 0 < total_strength n (layer_edges E lv t)).
  { intros t Ht. rewrite (total_strength_w (HR t)). destruct (@acc_facts h gi lv model ws Hwh Hacc) as (_ & _ & _ & F & _). specialize (F t Ht).
    change (0 < total_w (layer_edges E lv t)) in F. lra. }
  assert (HTwo : observed_between_layers n E lv T c <= 2 * expected_between_layers n E lv T c).
  { unfold observed_between_layers, expected_between_layers. rewrite <- sum_to_scale. apply sum_to_le. intros t Ht. apply (@between_twice _ _ _ K); auto.
    intros e w Hin. apply filter_In in Hin. destruct Hin as [Hin _]. apply in_combine_r in Hin. apply Hpos in Hin. lra. }
  assert (HShare : expected_within_layers n E lv T c + expected_between_layers n E lv T c <= INR K * expected_within_layers n E lv T c).
  { unfold expected_within_layers, expected_between_layers. rewrite <- sum_to_plus, <- sum_to_scale. apply sum_to_le. intros t Ht. specialize (HT t Ht).
    rewrite expected_split by lra. apply expected_share; auto. }
  set (EW := expected_within_layers n E lv T c) in *. set (EB := expected_between_layers n E lv T c) in *. set (OW := observed_within_layers n E lv T c) in *. set (OB := observed_between_layers n E lv T c) in *.
  assert (Hpar : Some (Fin x) = gamma_estimate_from_parameters (OW / EW) (if Req_EM_T EB 0 then 0 else OB / EB)).
  { assert (Hc : (~ (0 < p < 1) \/ (OW <> 0 /\ (OW <> EW \/ model = "multiplex"%string))) \/ (0 < p < 1) /\ (OW = 0 \/ OW = EW /\ model <> "multiplex"%string)).
    { destruct (Rlt_dec 0 p) as [P0|P0]; [|left; left; lra]. destruct (Rlt_dec p 1) as [P1|P1]; [|left; left; lra]. destruct (Req_EM_T OW 0) as [Z|Z]; [right; auto|].
      destruct (Req_EM_T OW EW) as [Y|Y]; [|left; right; auto]. destruct (String.string_dec model "multiplex") as [X|X]; [left; right; auto|right; auto]. }
    destruct Hc as [Hc|[Hp1 [Hc|[Hc Hc']]]].
    - destruct (R3 Hc) as (o & Ho & _). inversion Ho. auto.
    - specialize (R1 Hp1 Hc). discriminate.
    - specialize (R2 Hp1 Hc Hc'). discriminate. }
  rewrite gamma_from_parameters in Hpar. set (a := OW / EW) in *. set (b := if Req_EM_T EB 0 then 0 else OB / EB) in *.
  destruct (Req_EM_T a 0); [discriminate|]. destruct (Req_EM_T b 0); [discriminate|].
  destruct (Rlt_dec 0 a) as [Pa|]; [|discriminate]. destruct (Rlt_dec 0 b) as [Pb|]; [|discriminate]. destruct (Req_EM_T a b) as [|N']; [discriminate|]. inversion Hpar. subst x. clear Hpar.
  assert (HB : EB <> 0). { intros Z. unfold b in Pb. destruct (Req_EM_T EB 0); [lra|auto]. }
  assert (Eb : b = OB / EB) by (unfold b; destruct (Req_EM_T EB 0); [congruence|auto]).
  assert (HK : (1 < K)%nat).
  { destruct (Nat.le_gt_cases K 1) as [L|L]; [|lia]. exfalso. assert (HK1 : INR K <= 1) by (replace 1 with (INR 1) by reflexivity; apply le_INR; auto).
    assert (INR K * EW <= 1 * EW) by (apply Rmult_le_compat_r; lra). lra. }
  assert (Hbal : a * EW + b * (EW + EB - EW) = EW + EB).
  { rewrite Eb. unfold a. replace (OW / EW * EW) with OW by (field; lra). replace (OB / EB * (EW + EB - EW)) with OB by (field; auto). lra. }
  destruct (@log_mean_bounds a b Pa Pb N') as ([Gm GM] & _).
  assert (D : log_mean a b < 2 \/ exists y z, 0 < y < 1 /\ expected_gamma K y = Ok z /\ log_mean a b <= z).
  { destruct (Rlt_le_dec b a) as [L|L].
    - right. destruct (@estimate_bounded K (EW + EB) EW a b HK ltac:(lra) HShare ltac:(lra) Hbal Pb L) as (y & z & Hy & Hz & G1 & G2). exists y, z. auto.
    - left. rewrite Rmax_right in GM by lra. assert (b <= 2); [|lra]. rewrite Eb. apply Rmult_le_reg_r with EB; [lra|]. unfold Rdiv. rewrite Rmult_assoc, Rinv_l, Rmult_1_r by auto. lra. }
  split; [unfold Rmin in Gm; destruct (Rle_dec a b); lra|]. split; auto. intros HK70. destruct D as [D|(y & z & Hy & Hz & Hxz)]; [lra|]. apply Rle_lt_trans with z; auto. apply (@expected_below_15 K y z); auto.
Qed.
Print Assumptions C96_multilayer.

(** ** gamma_maxmean: the average and the largest gamma estimate over the grid of possible propensities; the early exit of the inner
    loop loses no point.  The two curves of the figure satisfy 0 < mean <= max, and max is at most the curve of expected estimates. *)
Theorem C96_maxmean : forall K points, (1 < K)%nat ->
  let estimates := map (fun p => log_mean (fst p) (snd p)) (possible_points K points) in
  (possible_points K points = [] -> gamma_maxmean K points = Raise ZeroDivisionError) /\
  (possible_points K points <> [] -> exists m, is_maximum estimates m /\ gamma_maxmean K points = Ok (average estimates, m) /\
     0 < average estimates <= m /\ exists y z, 0 < y < 1 /\ expected_gamma K y = Ok z /\ m <= z < INR K / 2).
Proof.
  intros K points HK l. pose proof (@maxmean_loop K points HK) as E. cbv zeta in E. fold l in E. rewrite E. clear E.
  assert (Hin : forall x, In x l -> exists a b, In (a, b) (possible_points K points) /\ x = log_mean a b /\ 1 <= a /\ possible K (a, b) = true).
  { intros x Hx. apply in_map_iff in Hx. destruct Hx as ([a b] & <- & H). exists a, b. split; auto. split; auto. destruct (@possible_points_in K points (a, b) HK H) as (Hp & i & j & _ & _ & E). split; auto. inversion E. apply in_at_ge1; auto. }
  assert (Hlen : l = [] <-> possible_points K points = []). { unfold l. destruct (possible_points K points); split; intros H; auto; discriminate. }
  split.
  - intros H. apply Hlen in H. rewrite H. cbn [length INR]. unfold py_div. destruct (Req_EM_T 0 0); [reflexivity|congruence].
  - intros H. assert (Hl : l <> []) by (intros C; apply H, Hlen; auto).
    assert (Hpos : forall x, In x l -> 0 < x). { intros x Hx. destruct (Hin x Hx) as (a & b & _ & -> & Ha & Hp). destruct (@possible_facts K a b HK Ha Hp) as (_ & _ & z & _ & _ & _ & _ & G). exact G. }
    pose proof (@maximum_fold l Hl Hpos) as Hm. exists (fold_left Rmax l 0). split; auto. split.
    + assert (P : 0 < INR (length l)) by (apply lt_0_INR; destruct l; [congruence|cbn; lia]). rewrite py_div_ok by lra. reflexivity.
    + split; [split; [apply average_pos; auto|apply average_le; auto; apply Hm]|].
      destruct Hm as [Hm _]. destruct (Hin _ Hm) as (a & b & _ & -> & Ha & Hp). destruct (@possible_facts K a b HK Ha Hp) as (_ & _ & z & Hz & H1 & H2 & H3 & _). exists (b / a), z. auto.
Qed.
Print Assumptions C96_maxmean.

(** Four points per axis are enough for every K > 1; with K = 1 or fewer than three points the call raises. *)
Theorem C96_points : forall K points, (1 < K)%nat -> ((4 <= points)%nat -> possible_points K points <> []) /\ ((points <= 2)%nat -> possible_points K points = []).
Proof.
  intros K points HK. split.
  - intros H C. pose proof (@points_suffice K points HK H) as G. rewrite C in G. exact G.
  - intros H. destruct (possible_points K points) as [|[a b] l] eqn:E; auto. exfalso.
    assert (Hin : In (a, b) (possible_points K points)) by (rewrite E; left; auto). destruct (@possible_points_in K points (a, b) HK Hin) as (Hp & i & j & Hi & Hj & Eq). inversion Eq as [[Ea Eb]].
    destruct (@possible_facts K a b HK) as (Hb & Hs & _); auto; [rewrite Ea; apply in_at_ge1; auto|]. pose proof (K_big HK) as HK1.
    assert (1 <= a) by (rewrite Ea; apply in_at_ge1; auto).
    destruct j as [|j]; [unfold omega_out_at in Eb; cbn [INR] in Eb; lra|]. assert (j = 0%nat) by lia. subst j. assert (points = 2%nat) by lia. subst points.
    assert (Eb2 : (INR K - 1) * b = INR K) by (rewrite Eb; unfold omega_out_at; cbn [INR Nat.sub]; field; lra). lra.
Qed.
Print Assumptions C96_points.

Theorem C96_one_community : forall points, (0 < points)%nat -> gamma_maxmean 1 points = Raise ZeroDivisionError.
Proof.
  intros points H. unfold gamma_maxmean, linspace. destruct points as [|points]; [lia|]. cbn [seq map foldM]. unfold py_div at 1. destruct (Req_EM_T (INR 1 - 1) 0) as [_|C]; [reflexivity|]. exfalso. apply C. cbn [INR]. ring.
Qed.
Print Assumptions C96_one_community.

(** ** find_maximum_gammas with at least four points never raises: entries 0 and 1 are zero and entry k holds the mean and maximum
    for k communities. *)
Theorem C96_maximum_gammas : forall points, (4 <= points)%nat -> exists means maxs, find_maximum_gammas points = Ok (means, maxs) /\
  length means = 71%nat /\ length maxs = 71%nat /\
  (forall k, (k < 2)%nat -> nth k means 0 = 0 /\ nth k maxs 0 = 0) /\
  (forall k, (2 <= k < 71)%nat -> gamma_maxmean k points = Ok (nth k means 0, nth k maxs 0) /\ 0 < nth k means 0 <= nth k maxs 0).
Proof.
  intros points Hp.
  assert (HM : forall k, (2 <= k)%nat -> exists r, gamma_maxmean k points = Ok r /\ 0 < fst r <= snd r).
  { intros k Hk. destruct (C96_maxmean k points ltac:(lia)) as [_ H]. destruct H as (m & _ & E & H & _); [apply (proj1 (C96_points k points ltac:(lia)) Hp)|]. exists (average (map (fun p => log_mean (fst p) (snd p)) (possible_points k points)), m). auto. }
  set (f := fun k => match gamma_maxmean k points with Ok r => r | Raise _ => (0, 0) end).
  destruct (@maximum_loop points f (seq 2 (K_MAX - 2)) (repeat 0 K_MAX, repeat 0 K_MAX)) as (s' & E & L1 & L2 & Q1 & Q2).
  - intros k Hk. apply in_seq in Hk. cbn [fst snd]. rewrite repeat_length. split; [unfold K_MAX in *; lia|]. split; [unfold K_MAX in *; lia|].
    destruct (HM k ltac:(lia)) as (r & Hr & _). unfold f. rewrite Hr. reflexivity.
  - apply seq_NoDup.
  - exists (fst s'), (snd s'). split; [unfold find_maximum_gammas; rewrite E; destruct s'; reflexivity|]. cbn [fst snd] in L1, L2, Q2. rewrite repeat_length in L1, L2. split; auto. split; auto. split.
    + intros k Hk. destruct (Q2 k) as [-> ->]; [rewrite in_seq; lia|]. rewrite nth_repeat. auto.
    + intros k Hk. destruct (Q1 k) as [G1 G2]; [apply in_seq; unfold K_MAX; lia|]. rewrite G1, G2. destruct (HM k ltac:(lia)) as (r & Hr & Hpos). unfold f. rewrite Hr. split; auto. destruct r; reflexivity.
Qed.
Print Assumptions C96_maximum_gammas.

(** ** generate_SNAP_boxplot on the gammas of find_maximum_gammas (1000 points): its assertion about two communities holds, the curves
    have one value for each K from 2 to 70, and the box of K holds exactly the estimates recorded with that K, in order. *)
Theorem C96_figure : forall gammas boxplot_results, find_maximum_gammas 1000 = Ok gammas ->
  exists Ks means maxs boxes, generate_SNAP_boxplot gammas boxplot_results = Ok (Ks, means, maxs, boxes) /\
    length Ks = 69%nat /\ length means = 69%nat /\ length maxs = 69%nat /\ length boxes = 69%nat /\
    forall i, (i < 69)%nat -> nth i Ks 0%nat = (i + 2)%nat /\ gamma_maxmean (i + 2) 1000 = Ok (nth i means 0, nth i maxs 0) /\
      nth i boxes [] = map snd (filter (fun x => Nat.eqb (fst x) (i + 2)) boxplot_results).
Proof.
  intros gammas results H. destruct (C96_maximum_gammas 1000) as (means & maxs & E & L1 & L2 & Z & G); [apply Nat.leb_le; vm_compute; reflexivity|]. rewrite H in E. inversion E. subst gammas. clear E H.
  assert (S1 : forall (l : list R) i, nth i (skipn 2 l) 0 = nth (i + 2) l 0). { intros l i. destruct l as [|x [|y l]]; [destruct i; reflexivity|rewrite Nat.add_comm; destruct i; reflexivity|]. rewrite Nat.add_comm. reflexivity. }
  assert (H2 : Rabs (nth 2 maxs 0 - 1) < 1 / 10000).
  { destruct (G 2%nat ltac:(lia)) as [E _]. destruct (C96_maxmean 2 1000 ltac:(lia)) as [_ M]. destruct two_thousand as [Hin Hlow]. destruct M as (m & [_ Hm] & E' & _ & y & z & _ & _ & Hz).
    - intros C. rewrite C in Hin. exact Hin.
    - assert (Em : nth 2 maxs 0 = m) by (rewrite E in E'; congruence). clear E E'. rewrite Em. assert (m < 1) by (cbn [INR] in Hz; lra).
      assert (log_mean (1000 / 999) (998 / 999) <= m) by (apply Hm; apply in_map_iff; exists (1000 / 999, 998 / 999); auto).
      rewrite Rabs_left by lra. lra. }
  assert (Lm : nth_error (skipn 2 maxs) 0 = Some (nth 2 maxs 0)). { rewrite (nth_error_nth' _ 0) by (rewrite skipn_length; lia). rewrite S1. reflexivity. }
  exists (seq 2 (K_MAX - 2)), (skipn 2 means), (skipn 2 maxs), (map (fun K => map snd (filter (fun x : nat * R => Nat.eqb (fst x) K) results)) (seq 2 (K_MAX - 2))).
  split; [unfold generate_SNAP_boxplot, py_get; cbn [fst snd]; rewrite Lm; cbn [bind]; destruct (Rlt_dec _ _); [reflexivity|contradiction]|].
  split; [apply seq_length|]. rewrite !skipn_length, map_length, seq_length, L1, L2. split; [reflexivity|]. split; [reflexivity|]. split; [reflexivity|].
  intros i Hi. rewrite seq_nth by (unfold K_MAX; lia). split; [lia|]. rewrite !S1. split; [apply G; lia|].
  rewrite (nth_indep _ [] (map snd (filter (fun x : nat * R => Nat.eqb (fst x) 0) results))) by (rewrite map_length, seq_length; unfold K_MAX; lia).
  rewrite (map_nth (fun K => map snd (filter (fun x : nat * R => Nat.eqb (fst x) K) results))), seq_nth by (unfold K_MAX; lia). rewrite Nat.add_comm. reflexivity.
Qed.
Print Assumptions C96_figure.

(** ** generate_boxplot_results on graphs with positive (or defaulted) weights and partitions that use each of their labels: it
    succeeds exactly when every partition has an estimate and none with 2 to 70 communities has as much weight within communities as
    expected; then it returns the finite estimates of those partitions, all between 0 and 15, in order. *)
Definition snap_input (env : est_env) (Gs : list (graph * list (list nat))) : Prop := forall g parts, In (g, parts) Gs ->
  wf_graph g /\ (exists h ws, weights_defaulted (ee_contains env g) g h /\ weights h = Some ws /\ forall w, In w ws -> 0 < w) /\
  forall p, In p parts -> length p = vcount g /\ labelled p (S (list_max p)).

Theorem C96_boxplot_results : forall env Gs, snap_input env Gs ->
  let good := forall g parts p, In (g, parts) Gs -> In p parts -> exists r, snd (gamma_estimate env g (Membership p)) = Ok r /\ ((1 <= list_max p < 70)%nat -> r <> Some NonFinite) in
  (good -> generate_boxplot_results env Gs = Ok (boxplot_entries env Gs)) /\
  (forall results, generate_boxplot_results env Gs = Ok results -> forall K x, In (K, x) results -> (2 <= K <= 70)%nat /\ 0 < x < 15) /\
  (forall e, generate_boxplot_results env Gs = Raise e -> ~ good /\ exists g parts p, In (g, parts) Gs /\ In p parts /\
     (snd (gamma_estimate env g (Membership p)) = Raise e \/
      e = AssertionError /\ (1 <= list_max p < 70)%nat /\ snd (gamma_estimate env g (Membership p)) = Ok (Some NonFinite))).
Proof.
  intros env Gs Hin good.
  assert (Hsm : forall g parts p x, In (g, parts) Gs -> In p parts -> (1 <= list_max p < 70)%nat -> snd (gamma_estimate env g (Membership p)) = Ok (Some (Fin x)) -> 0 < x < 15).
  { intros g parts p x Hg Hp Hm Hx. destruct (Hin g parts Hg) as (Hwf & (h & ws & Hh & Hw & Hpos) & Hlab). destruct (Hlab p Hp) as [Hlen _].
    destruct (C96_gamma_estimates env g h ws p x Hwf Hh Hw Hpos Hlen ltac:(lia) Hx) as (A & _ & _ & B). split; auto. apply B. lia. }
  assert (Hok : good -> generate_boxplot_results env Gs = Ok (boxplot_entries env Gs)).
  { intros Hgood. unfold generate_boxplot_results. rewrite loop_ok; [reflexivity|]. intros g parts Hg. destruct (Hin g parts Hg) as (Hwf & _ & Hlab). split; auto. intros p Hp.
    destruct (Hgood g parts p Hg Hp) as (r & Hr & Hn). exists r. split; auto. split; [apply num_communities_labelled; apply Hlab; auto|]. intros HK. split; [apply Hn; lia|].
    intros x ->. apply (Hsm g parts p x Hg Hp ltac:(lia) Hr). }
  assert (Hraise : forall e, generate_boxplot_results env Gs = Raise e -> exists g parts p, In (g, parts) Gs /\ In p parts /\
     (snd (gamma_estimate env g (Membership p)) = Raise e \/ e = AssertionError /\ (1 <= list_max p < 70)%nat /\ snd (gamma_estimate env g (Membership p)) = Ok (Some NonFinite))).
  { intros e He. unfold generate_boxplot_results in He. apply loop_raise in He; [|intros g parts Hg; apply (Hin g parts Hg)]. destruct He as (g & parts & rs & Hg & He). apply parts_raise in He; [|apply (Hin g parts Hg)].
    destruct He as (p & Hp & He). exists g, parts, p. split; auto. split; auto. destruct (Hin g parts Hg) as (Hwf & _ & Hlab). destruct (Hlab p Hp) as [Hlen Hl]. apply num_communities_labelled in Hl. rewrite Hl in He.
    destruct He as [He|[[_ He]|(-> & K & HK & HR & He)]]; [discriminate|left; auto|]. inversion HK. subst K. right. split; auto. split; [lia|]. destruct He as [He|(x & Hx & Hge)]; auto.
    exfalso. pose proof (Hsm g parts p x Hg Hp ltac:(lia) Hx). lra. }
  split; auto. split.
  - intros results Hr K x HKx.
    assert (Hsub : forall Gs' acc out, (forall g parts, In (g, parts) Gs' -> In (g, parts) Gs) -> (forall K x, In (K, x) acc -> (2 <= K <= 70)%nat /\ 0 < x < 15) -> boxplot_loop env Gs' acc = Ok out -> forall K x, In (K, x) out -> (2 <= K <= 70)%nat /\ 0 < x < 15).
    { clear - Hin Hsm. induction Gs' as [|[g parts] l IH]; intros acc out Hs Ha H; cbn [boxplot_loop] in H; [inversion H; subst; auto|].
      destruct (snd (boxplot_parts env g parts acc)) as [mid|] eqn:E; cbn [bind] in H; [|discriminate]. apply (IH mid out); auto; [intros; apply Hs; right; auto|]. clear H IH.
      assert (Hg : In (g, parts) Gs) by (apply Hs; left; auto). destruct (Hin g parts Hg) as (Hwf & _ & Hlab).
      assert (G : forall ps g1 acc1 mid1, wf_graph g1 -> (forall p, In p ps -> In p parts) -> (forall c, snd (gamma_estimate env g1 (Membership c)) = snd (gamma_estimate env g (Membership c))) ->
        (forall K x, In (K, x) acc1 -> (2 <= K <= 70)%nat /\ 0 < x < 15) -> snd (boxplot_parts env g1 ps acc1) = Ok mid1 -> forall K x, In (K, x) mid1 -> (2 <= K <= 70)%nat /\ 0 < x < 15).
      { induction ps as [|p ps IHp]; intros g1 acc1 mid1 Hw1 Hsub Heq Hacc Hm; cbn [boxplot_parts] in Hm; [inversion Hm; subst; auto|].
        destruct (Hlab p (Hsub p (or_introl eq_refl))) as [Hlen Hl]. apply num_communities_labelled in Hl. rewrite Hl in Hm.
        destruct (gamma_estimate env g1 (Membership p)) as [g2 est] eqn:Eg. assert (g2 = weighted_e env g1) by (rewrite gamma_estimate_graph in Eg by auto; inversion Eg; auto). subst g2.
        assert (Ee : snd (gamma_estimate env g (Membership p)) = est) by (rewrite <- Heq, Eg; reflexivity).
        assert (Hnext : forall acc2, (forall K x, In (K, x) acc2 -> (2 <= K <= 70)%nat /\ 0 < x < 15) -> snd (boxplot_parts env (weighted_e env g1) ps acc2) = Ok mid1 -> forall K x, In (K, x) mid1 -> (2 <= K <= 70)%nat /\ 0 < x < 15).
        { intros acc2 Ha2 Hm2. apply (IHp (weighted_e env g1) acc2 mid1); auto; [apply weighted_e_wf; auto|intros; apply Hsub; right; auto|]. intros c. rewrite gamma_estimate_twice by auto. apply Heq. }
        destruct est as [[x|]|]; [| exact (Hnext acc1 Hacc Hm) |discriminate].
        destruct (Nat.leb 2 (S (list_max p)) && Nat.ltb (S (list_max p)) K_MAX) eqn:T; [|exact (Hnext acc1 Hacc Hm)]. rewrite range_test in T. apply andb_prop in T. destruct T as [T1 T2]. apply Nat.leb_le in T1, T2.
        destruct x as [x|]; [|discriminate]. destruct (Rlt_dec x 15) as [X|]; [|discriminate]. refine (Hnext _ _ Hm). intros K y Hy. apply in_app_or in Hy. destruct Hy as [Hy|[Hy|[]]]; auto. inversion Hy; subst.
        split; [lia|]. apply (Hsm g parts p y Hg (Hsub p (or_introl eq_refl)) ltac:(lia) Ee). }
      apply (G parts g acc mid); auto. }
    apply (Hsub Gs [] results) with (K := K) (x := x); auto. intros ? ? [].
  - intros e He. split; auto. intros Hgood. rewrite (Hok Hgood) in He. discriminate.
Qed.
Print Assumptions C96_boxplot_results.

(** On a network in which every vertex has an edge (a connected component of at least two vertices) no estimate raises. *)
Theorem C96_giant_component : forall env g h ws p,
  wf_graph g -> weights_defaulted (ee_contains env g) g h -> weights h = Some ws -> (forall w, In w ws -> 0 < w) ->
  (0 < vcount g)%nat -> (forall v, (v < vcount g)%nat -> end_point (weighted_edges h ws) v) -> length p = vcount g -> labelled p (S (list_max p)) ->
  exists r, snd (gamma_estimate env g (Membership p)) = Ok r.
Proof.
  intros env g h ws p Hg Hh Hw Hpos Hv Hall Hlen [_ Hl]. apply (proj2 (C30_exact env g h ws p Hg Hh Hw Hpos Hlen)). intros [He|[Hm Hsame]].
  - destruct (Hall 0%nat Hv) as (u & v & w & Hin & _). apply weighted_e_defaulted in Hh. subst h. unfold weighted_edges in Hin. rewrite weighted_e_edges, He in Hin. exact Hin.
  - assert (H0 : In 0%nat p) by (apply Hl; lia). assert (H1 : In 1%nat p) by (apply Hl; lia). apply (In_nth _ _ 0%nat) in H0. apply (In_nth _ _ 0%nat) in H1.
    destruct H0 as (i & Hi & Ei). destruct H1 as (j & Hj & Ej). assert (nth i p 0%nat = nth j p 0%nat) by (apply Hsame; apply Hall; lia). lia.
Qed.
Print Assumptions C96_giant_component.

(** ** run_louvain: the partitions found at resolutions 10 i / 999 before the first one with more than 100 communities, in canonical
    form; if that is the very first one, the progress message divides by zero. *)
Theorem C96_run_louvain : forall find_partition, (forall gamma, labelled (find_partition gamma) (S (list_max (find_partition gamma)))) ->
  let part i := find_partition (INR i * (10 / 999)) in
  exists k, (k <= 1000)%nat /\ (forall i, (i < k)%nat -> (list_max (part i) < 100)%nat) /\ (k = 1000%nat \/ (100 <= list_max (part k))%nat) /\
    (k = 0%nat -> run_louvain find_partition = Raise ZeroDivisionError) /\
    (k <> 0%nat -> exists parts, run_louvain find_partition = Ok parts /\ NoDup parts /\ forall t, In t parts <-> exists i, (i < k)%nat /\ canonical_form_of (part i) t).
Proof.
  intros find Hlab part.
  assert (HL : forall (gammas : list R) acc, exists k, (k <= length gammas)%nat /\ (forall i, (i < k)%nat -> (list_max (find (nth i gammas 0%R)) < 100)%nat) /\
    (k = length gammas \/ (k < length gammas)%nat /\ (100 <= list_max (find (nth k gammas 0%R)))%nat) /\ louvain_loop find gammas acc = Ok (acc ++ map find (firstn k gammas))).
  { induction gammas as [|x l IH]; intros acc; cbn [louvain_loop].
    - exists 0%nat. split; auto. split; [lia|]. split; auto. cbn. rewrite app_nil_r. reflexivity.
    - rewrite (proj2 (num_communities_labelled _ _) (Hlab x)). cbn [bind]. destruct (Nat.ltb_spec 100 (S (list_max (find x)))) as [H|H].
      + exists 0%nat. split; [lia|]. split; [lia|]. split; [right; cbn [length nth]; lia|]. cbn. rewrite app_nil_r. reflexivity.
      + destruct (IH (acc ++ [find x])) as (k & K1 & K2 & K3 & K4). exists (S k). cbn [length]. split; [lia|]. split; [intros [|i] Hi; cbn [nth]; [lia|apply K2; lia]|]. split.
        * cbn [nth]. destruct K3 as [->|[A B]]; [left; reflexivity|right; split; [lia|auto]].
        * rewrite K4, <- app_assoc. reflexivity. }
  destruct (HL (linspace 0 10 1000) []) as (k & K1 & K2 & K3 & K4). cbn [app] in K4.
  assert (Ll : length (linspace 0 10 1000) = 1000%nat) by (unfold linspace; rewrite map_length, seq_length; reflexivity). rewrite Ll in K1, K3.
  assert (Ln : forall i, (i < 1000)%nat -> nth i (linspace 0 10 1000) 0 = INR i * (10 / 999)).
  { intros i Hi. unfold linspace. rewrite (nth_indep _ 0 ((fun i => 0 + INR i * ((10 - 0) / INR (1000 - 1))) 0%nat)) by (rewrite map_length, seq_length; auto). rewrite (map_nth (fun i => 0 + INR i * ((10 - 0) / INR (1000 - 1)))), seq_nth by auto.
    cbn [Nat.add]. replace (INR (1000 - 1)) with 999 by (rewrite INR_IZR_INZ; reflexivity). rewrite Rplus_0_l, Rminus_0_r. reflexivity. }
  exists k. split; auto. split; [intros i Hi; unfold part; rewrite <- Ln by lia; apply K2; auto|]. split; [destruct K3 as [K3|[A B]]; [left; auto|right; unfold part; rewrite <- Ln by auto; auto]|].
  assert (Lf : length (map find (firstn k (linspace 0 10 1000))) = k) by (rewrite map_length, firstn_length, Ll; lia).
  unfold run_louvain. rewrite K4. cbn [bind]. rewrite Lf. split.
  - intros ->. cbn [INR]. unfold py_div. destruct (Req_EM_T 0 0); [reflexivity|congruence].
  - intros Hk. rewrite py_div_ok by (apply not_0_INR; auto). cbn [bind]. destruct (@fold_set (map find (firstn k (linspace 0 10 1000))) [] (NoDup_nil _)) as (s & Hs & Hn & Ht). exists s. split; auto. split; auto.
    intros t. rewrite Ht. split.
    + intros [[]|(m & Hm & Hc)]. apply in_map_iff in Hm. destruct Hm as (x & <- & Hx). apply (In_nth _ _ 0) in Hx. destruct Hx as (i & Hi & Ei). rewrite firstn_length, Ll in Hi. exists i. split; [lia|].
      unfold part. rewrite <- Ln by lia. rewrite <- Ei in Hc. rewrite <- (firstn_skipn k (linspace 0 10 1000)) at 1. rewrite app_nth1 by (rewrite firstn_length, Ll; lia). exact Hc.
    + intros (i & Hi & Hc). right. exists (part i). split; auto. unfold part. apply in_map. rewrite <- Ln by lia. rewrite <- (firstn_skipn k (linspace 0 10 1000)) at 1. rewrite app_nth1 by (rewrite firstn_length, Ll; lia). apply nth_In. rewrite firstn_length, Ll. lia.
Qed.
Print Assumptions C96_run_louvain.

(** Non-vacuous: two disjoint edges as two communities, a triangle of single-vertex communities and an empty list of partitions; the
    first has no estimate (no edge between communities), the second none within. *)
Example C96_example : forall env, ee_contains env = (fun g => match weights g with Some _ => true | None => false end) ->
  let Gs := [(mkGraph 4 false [(0, 1); (2, 3)]%nat None, [[0; 0; 1; 1]%nat]); (mkGraph 3 false [(0, 1); (1, 2); (0, 2)]%nat None, [[0; 1; 2]%nat; [0; 0; 0]%nat])] in
  snap_input env Gs /\ forall g parts p, In (g, parts) Gs -> In p parts -> exists r, snd (gamma_estimate env g (Membership p)) = Ok r.
Proof.
  intros env He Gs.
  assert (HS : snap_input env Gs).
  { intros g parts [H|[H|[]]]; inversion H; subst; clear H.
    - split; [split; [intros u v [E|[E|[]]]; inversion E; cbn; lia|discriminate]|]. split.
      + exists (mkGraph 4 false [(0, 1); (2, 3)]%nat (Some [1; 1])), [1; 1]. split; [unfold weights_defaulted; rewrite He; cbn; repeat split; exists [1; 1]; repeat split; intros w [<-|[<-|[]]]; auto|]. split; [reflexivity|]. intros w [<-|[<-|[]]]; lra.
      + intros p [<-|[]]. split; [reflexivity|]. split; [lia|]. intros x. cbn. split; [intros [<-|[<-|[<-|[<-|[]]]]]; lia|]. intros. destruct x as [|[|x]]; [auto|auto|lia].
    - split; [split; [intros u v [E|[E|[E|[]]]]; inversion E; cbn; lia|discriminate]|]. split.
      + exists (mkGraph 3 false [(0, 1); (1, 2); (0, 2)]%nat (Some [1; 1; 1])), [1; 1; 1]. split; [unfold weights_defaulted; rewrite He; cbn; repeat split; exists [1; 1; 1]; repeat split; intros w [<-|[<-|[<-|[]]]]; auto|]. split; [reflexivity|]. intros w [<-|[<-|[<-|[]]]]; lra.
      + intros p [<-|[<-|[]]]; (split; [reflexivity|]); (split; [lia|]); intros x; cbn; (split; [intros Hx; repeat (destruct Hx as [<-|Hx]; [lia|]); contradiction|]); intros; destruct x as [|[|[|x]]]; auto; lia. }
  split; auto. intros g parts p Hg Hp. destruct (HS g parts Hg) as (Hwf & (h & ws & Hh & Hw & Hpos) & Hlab). destruct (Hlab p Hp) as [Hlen Hl].
  apply (C96_giant_component env g h ws p); auto.
  - destruct Hg as [H|[H|[]]]; inversion H; cbn; lia.
  - intros v Hv. apply weighted_e_defaulted in Hh. subst h. unfold weighted_edges. rewrite weighted_e_edges. pose proof (proj2 (weighted_e_wf env Hwf) ws Hw) as Lw. unfold ecount in Lw. rewrite weighted_e_edges in Lw.
    destruct Hg as [H|[H|[]]]; inversion H; subst g parts; cbn [edges vcount length] in *.
    + destruct ws as [|w0 [|w1 [|]]]; try discriminate. cbn [combine]. destruct v as [|[|[|[|v]]]]; [| | | |lia].
      * exists 0%nat, 1%nat, w0. cbn. auto.
      * exists 0%nat, 1%nat, w0. cbn. auto.
      * exists 2%nat, 3%nat, w1. cbn. auto.
      * exists 2%nat, 3%nat, w1. cbn. auto.
    + destruct ws as [|w0 [|w1 [|w2 [|]]]]; try discriminate. cbn [combine]. destruct v as [|[|[|v]]]; [| | |lia].
      * exists 0%nat, 1%nat, w0. cbn. auto.
      * exists 0%nat, 1%nat, w0. cbn. auto.
      * exists 1%nat, 2%nat, w1. cbn. auto.
Qed.
