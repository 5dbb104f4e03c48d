(** C75: the closed formulas of the bistable-experiment figure are what the library computes on the block model. *)
From Verif Require Import PyBase PyGraph M_partition M_champ M_leiden M_estimation_utils M_experiments Spec Spec_graph Spec_leiden Spec_sbm Spec_bistable
  L_base L_canon L_modularity L_modularity3 L_leiden L_split L_objective L_sbm L_sbm2 L_logmean L_multisbm L_limits L_bistable.
Open Scope R_scope.

(** The crossing resolution: with blocks of more than one node the formula has a value, and the merged partition has strictly larger
    modularity than the three blocks exactly below it, equal modularity exactly at it. *)
Theorem C75_crossing : forall b d, 1 < b -> 0 <= d ->
  exists x, gamma_cross b d = Ok x /\ 0 <= x /\
  forall gamma, let Q := weighted_modularity 3 (blocks b d) gamma in
    (Q three_blocks < Q two_blocks <-> gamma < x) /\ (Q three_blocks = Q two_blocks <-> gamma = x) /\ (Q two_blocks < Q three_blocks <-> x < gamma).
Proof.
  intros b d Hb Hd. destruct (@cross_value b d Hb Hd) as (Hk & Hm & Ex). eexists. split; [exact Ex|]. split.
  - apply Rmult_le_pos; [apply Rmult_le_pos; [apply Rmult_le_pos; nra|lra]|]. left. apply Rinv_0_lt_compat. apply pow_lt. exact Hk.
  - intros gamma Q. destruct (@cross_compare b d gamma _ Hb Hd Ex) as [H1 H2]. cbv zeta in H1, H2. fold Q in H1, H2.
    split; auto. split; auto. set (x := d * (b * b) * m2 b d / _ ^ 2) in *. split; intros H.
    + destruct (Rtotal_order gamma x) as [L|[Eq|G]]; auto; exfalso; [apply H1 in L|apply H2 in Eq]; lra.
    + destruct (Rtotal_order (Q two_blocks) (Q three_blocks)) as [L|[Eq|G]]; auto; exfalso; [symmetry in Eq; apply H2 in Eq|apply H1 in G]; lra.
Qed.
Print Assumptions C75_crossing.

(** The curve drawn in the figure is the limit of the crossing for large blocks. *)
Theorem C75_limit : forall d, 0 <= d -> exists l, gamma_cross_limit d = Ok l /\
  forall eps, 0 < eps -> exists B, forall b, B < b -> exists x, gamma_cross b d = Ok x /\ Rabs (x - l) < eps.
Proof.
  intros d Hd. destruct (@cross_limit d 1 Hd ltac:(lra)) as (l & _ & Hl & _). exists l. split; auto. intros eps He.
  destruct (@cross_limit d eps Hd He) as (l' & B & Hl' & HB). assert (l' = l) as -> by congruence. exists (Rmax 1 B). intros b Hb.
  pose proof (Rmax_l 1 B). pose proof (Rmax_r 1 B). destruct (@cross_value b d ltac:(lra) Hd) as (_ & _ & Ex). eexists. split; [exact Ex|]. apply (HB b); auto. lra.
Qed.
Print Assumptions C75_limit.

Lemma block_graph_wf b d : wf_graph (block_graph b d).
Proof.
  unfold wf_graph, block_graph, blocks. cbn. split.
  - intros u v H. repeat (destruct H as [H|H]; [inversion H; subst; lia|]). destruct H.
  - intros ws H. inversion H. reflexivity.
Qed.

(** The two estimate curves are the library's gamma_estimate on the block graph with blocks of 100 nodes.  The merged partition has a
    curve point for every [d]; for the three blocks the formula fails with ZeroDivisionError at the one nonnegative [d] at which the
    estimate is not a finite number, and is the estimate everywhere else. *)
Theorem C75_estimates : forall env d, 0 <= d -> ee_contains env (block_graph 100 d) = true ->
  let estimate c := snd (gamma_estimate env (block_graph 100 d) (Membership c)) in
  (exists x, gamma_2 d = Ok x /\ estimate two_blocks = Ok (Some (Fin x))) /\
  (320 * d * (80 * d - 7) <> 549 -> exists x, gamma_3 d = Ok x /\ estimate three_blocks = Ok (Some (Fin x))) /\
  (320 * d * (80 * d - 7) = 549 -> gamma_3 d = Raise ZeroDivisionError /\ estimate three_blocks = Ok (Some NonFinite)).
Proof.
  intros env d Hd He estimate.
  assert (Es : forall c K a b, length c = 3%nat -> list_max (map S c) = K -> sbm_outcome 3 (blocks 100 d) K c = Ok (a, b) -> estimate c = Ok (gamma_estimate_from_parameters a b)).
  { intros c K a b Hc HK Ho. unfold estimate. rewrite (@gamma_estimate_membership env (block_graph 100 d) (map snd (blocks 100 d)) c); auto using block_graph_wf.
    - cbn [snd]. rewrite HK. cbn [vcount block_graph edges]. rewrite combine_fst_snd, Ho. cbn [bind]. reflexivity.
    - unfold weighted_e. rewrite He. reflexivity. }
  destruct (@outcome_2 d Hd) as (O2 & B2 & A2). destruct (@outcome_3 d Hd) as (O3 & B3 & A3). pose proof (@gamma_2_mean d Hd) as G2. pose proof (@gamma_3_mean d Hd) as G3. pose proof (@gamma_3_equal d Hd) as G3'.
  apply Es in O2; auto. apply Es in O3; auto. rewrite gamma_from_parameters in O2, O3.
  set (a2 := 4 * (8 * d + 1) * (80 * d + 11) / (2560 * d ^ 2 + 416 * d + 25)) in *. set (b2 := (160 * d + 22) / (1440 * d + 117)) in *.
  set (a3 := 8 * (80 * d + 1) * (80 * d + 11) / ((160 * d + 13) * (160 * d + 49))) in *. set (b3 := 80 * (80 * d + 11) / (320 * d * (80 * d + 13) + 331)) in *.
  assert (Heq : a3 = b3 <-> 320 * d * (80 * d - 7) = 549).
  { assert (F : 0 < 320 * d * (80 * d + 13) + 331) by nra. assert (G : 0 < (160 * d + 13) * (160 * d + 49)) by nra.
    assert (N : a3 - b3 = 8 * (80 * d + 11) ^ 2 * (320 * d * (80 * d - 7) - 549) / ((160 * d + 13) * (160 * d + 49) * (320 * d * (80 * d + 13) + 331))) by (unfold a3, b3; field; repeat split; lra).
    split; intros H.
    - assert (Z : a3 - b3 = 0) by lra. rewrite N in Z. apply Rmult_integral in Z. destruct Z as [Z|Z].
      + apply Rmult_integral in Z. destruct Z as [Z|Z]; [|lra]. exfalso. assert (0 < (80 * d + 11) ^ 2) by (apply pow_lt; lra). lra.
      + exfalso. apply (Rinv_neq_0_compat ((160 * d + 13) * (160 * d + 49) * (320 * d * (80 * d + 13) + 331))); auto. apply Rgt_not_eq, Rmult_lt_0_compat; auto.
    - assert (Z : a3 - b3 = 0); [|lra]. rewrite N, H. unfold Rdiv. ring. }
  split; [|split].
  - exists (log_mean a2 b2). split; auto. rewrite O2. destruct (Req_EM_T a2 0); [lra|]. destruct (Req_EM_T b2 0); [lra|]. destruct (Rlt_dec 0 a2); [|lra]. destruct (Rlt_dec 0 b2); [|lra]. destruct (Req_EM_T a2 b2); [lra|]. reflexivity.
  - intros NE. assert (a3 <> b3) by tauto. exists (log_mean b3 a3). split; auto. rewrite O3. destruct (Req_EM_T b3 0); [lra|]. destruct (Req_EM_T a3 0); [lra|]. destruct (Rlt_dec 0 b3); [|lra]. destruct (Rlt_dec 0 a3); [|lra]. destruct (Req_EM_T b3 a3); [congruence|]. reflexivity.
  - intros EQ. apply Heq in EQ. split; auto. rewrite O3. destruct (Req_EM_T b3 0); [lra|]. destruct (Req_EM_T a3 0); [lra|]. destruct (Rlt_dec 0 b3); [|lra]. destruct (Rlt_dec 0 a3); [|lra]. destruct (Req_EM_T b3 a3); [reflexivity|congruence].
Qed.
Print Assumptions C75_estimates.

(** Non-vacuous: at d = 1/80 the estimates exist, the crossing does too, and the exceptional [d] is reached. *)
Example C75_example : (exists x, gamma_2 (1 / 80) = Ok x) /\ 320 * (1 / 80) * (80 * (1 / 80) - 7) <> 549 /\
  (exists d, 0 <= d /\ 320 * d * (80 * d - 7) = 549) /\ gamma_cross 100 0 = Ok 0 /\ gamma_cross_limit (1 / 80) = Ok (105424 / 249001).
Proof.
  split; [eexists; apply gamma_2_mean; lra|]. split; [lra|]. split.
  - exists ((7 + sqrt 598) / 160). pose proof (sqrt_pos 598). pose proof (sqrt_sqrt 598 ltac:(lra)). split; [lra|].
    replace (320 * ((7 + sqrt 598) / 160) * (80 * ((7 + sqrt 598) / 160) - 7)) with (sqrt 598 * sqrt 598 - 49) by field. lra.
  - split.
    + unfold gamma_cross. rewrite py_div_ok by (apply pow_nonzero; lra). f_equal. unfold Rdiv. ring.
    + unfold gamma_cross_limit. rewrite py_div_ok by (apply pow_nonzero; lra). f_equal. field.
Qed.
