(** Property theorems about which SBM parameters and gamma estimates are possible: C73. *)
From Verif Require Import PyBase PyGraph M_partition M_champ M_leiden M_estimation_utils M_experiments Spec Spec_graph Spec_leiden Spec_sbm Spec_check Spec_multisbm Spec_valid Spec_limits
  L_base L_canon L_modularity L_modularity3 L_parallel L_leiden L_split L_objective L_sbm L_sbm2 L_logmean L_multisbm L_accepted L_omega L_limits Properties_sbm Properties_multisbm.
Open Scope R_scope.

(** ** C73: possible parameters.  With positive weights and K > 1 communities the estimates of the within and between propensities lie
    on the side of the line (K - a)/(K - 1) that the plots shade. *)
Theorem C73_possible_parameters : forall g ws c K omega_in omega_out line,
  wf_graph g -> weights g = Some ws -> (forall w, In w ws -> 0 < w) -> length c = vcount g -> (forall l, In l c -> (l < K)%nat) -> (1 < K)%nat ->
  estimate_singlelayer_SBM_parameters g (mkPart K c) None = Ok (omega_in, omega_out) ->
  omega_line K omega_in = Ok line ->
  0 <= omega_in /\ 0 <= omega_out /\ (1 <= omega_in -> omega_out <= line) /\ (omega_in <= 1 -> line <= omega_out) /\
  (omega_out < omega_in -> omega_out < 1 < omega_in /\ omega_in <= INR K) /\
  (assortative (vcount g) (weighted_edges g ws) c <-> omega_out < omega_in).
Proof.
  intros g ws c K a b l Hwf Hw Hpos Hlen Hlab HK Hest Hl. pose proof (labels_nth c (vcount g) K Hlen Hlab) as Hlab'.
  rewrite (@estimate_single g ws c K None Hwf Hw Hlen) in Hest; auto. unfold weighted_edges in *.
  destruct (@single_balance g ws c K a b Hwf Hpos Hlen Hlab' HK Hest) as (HS & HKP & HPS & Hbal & Ha & Hb & HP). cbv zeta in *. pose proof (K_big HK) as HK1.
  unfold omega_line in Hl. rewrite py_div_ok in Hl by lra. inversion Hl; subst l.
  pose proof (@feasible_assortative K _ _ a b HK HKP HPS Hbal) as F1. pose proof (@feasible_disassortative K _ _ a b HK HKP HPS Hbal) as F2.
  split; auto. split; auto. split; auto. split; auto. split.
  - intros H. assert (Ho : b < 1 < a) by (apply (@feasible_order K _ _ a b HK HS HKP HPS Hbal); auto). split; auto.
    specialize (F1 ltac:(lra)). apply (Rmult_le_compat_r (INR K - 1)) in F1; [|lra]. unfold Rdiv in F1. rewrite Rmult_assoc, Rinv_l, Rmult_1_r in F1 by lra.
    assert (0 <= b * (INR K - 1)) by (apply Rmult_le_pos; lra). lra.
  - exact (@single_assortative g ws c K a b Hwf Hpos Hlen Hlab' HK Hest).
Qed.
Print Assumptions C73_possible_parameters.

(** The gamma estimate of an assortative partition into K communities is below K/2, and at most the expected gamma estimate of an
    equal-volume planted partition for some ratio y of propensities. *)
Theorem C73_gamma_bound : forall env g h ws c x,
  wf_graph g -> weights_defaulted (ee_contains env g) g h -> weights h = Some ws -> (forall w, In w ws -> 0 < w) -> length c = vcount g ->
  assortative (vcount g) (weighted_edges h ws) c ->
  snd (gamma_estimate env g (Membership c)) = Ok (Some (Fin x)) ->
  let K := S (list_max c) in
  exists y z, 0 < y < 1 /\ expected_gamma K y = Ok z /\ x <= z < INR K / 2.
Proof.
  intros env g h ws c x Hg Hh Hw Hpos Hlen Has Hx K. apply weighted_e_defaulted in Hh. subst h.
  rewrite (@gamma_estimate_membership env g ws c) in Hx by auto. cbn [snd] in Hx.
  apply bind_ok in Hx. destruct Hx as ([a b] & Hest & Hx). cbv beta iota in Hx. inversion Hx as [Hf]. clear Hx.
  assert (HK : list_max (map S c) = K).
  { assert (Hc : c <> []). { intros ->. unfold assortative, expected_within, observed_within in Has. cbn in Hlen. rewrite <- Hlen in Has. cbn in Has. lra. }
    clear - Hc. unfold K. clear K. induction c as [|p [|q l] IH]; [congruence|simpl; lia|]. specialize (IH ltac:(discriminate)). unfold list_max in *. cbn [map fold_right] in *. lia. }
  rewrite HK in Hest. assert (Hlab : forall v, (v < vcount g)%nat -> (nth v c 0 < K)%nat).
  { intros v Hv. rewrite <- HK. apply list_max_label. lia. }
  unfold weighted_edges in Has. rewrite weighted_e_edges in Has.
  assert (Hab : 0 < b /\ 0 < a /\ a <> b /\ x = log_mean a b).
  { rewrite gamma_from_parameters in Hf. destruct (Req_EM_T a 0); [discriminate|]. destruct (Req_EM_T b 0); [discriminate|].
    destruct (Rlt_dec 0 a); [|discriminate]. destruct (Rlt_dec 0 b); [|discriminate]. destruct (Req_EM_T a b); [discriminate|]. inversion Hf. auto. }
  destruct Hab as (Pb & Pa & N & ->).
  assert (HK2 : (1 < K)%nat).
  { unfold sbm_outcome in Hest. destruct (Req_EM_T _ 0); [discriminate|]. destruct (Req_EM_T _ 0); [discriminate|]. destruct (Nat.ltb_spec 1 K); auto. inversion Hest. lra. }
  destruct (@single_balance g ws c K a b Hg Hpos Hlen Hlab HK2 Hest) as (HS & HKP & HPS & Hbal & _). cbv zeta in *.
  assert (Hba : b < a) by (apply (@single_assortative g ws c K a b Hg Hpos Hlen Hlab HK2 Hest); auto).
  destruct (@estimate_bounded K _ _ a b HK2 HS HKP HPS Hbal Pb Hba) as (y & z & Hy & Hz & H1 & H2). exists y, z. auto.
Qed.
Print Assumptions C73_gamma_bound.

(** Two communities: below 1. *)
Theorem C73_two_communities : forall env g h ws c x,
  wf_graph g -> weights_defaulted (ee_contains env g) g h -> weights h = Some ws -> (forall w, In w ws -> 0 < w) -> length c = vcount g ->
  assortative (vcount g) (weighted_edges h ws) c -> list_max c = 1%nat ->
  snd (gamma_estimate env g (Membership c)) = Ok (Some (Fin x)) -> 0 < x < 1.
Proof.
  intros env g h ws c x Hg Hh Hw Hpos Hlen Has Hm Hx. destruct (C73_gamma_bound env g h ws c x Hg Hh Hw Hpos Hlen Has Hx) as (y & z & _ & _ & H1 & H2).
  rewrite Hm in H2. cbn [INR] in H2. split; [|lra]. clear - Hx Hg Hlen Hw Hh. apply weighted_e_defaulted in Hh. subst h.
  rewrite (@gamma_estimate_membership env g ws c) in Hx by auto. cbn [snd] in Hx.
  apply bind_ok in Hx. destruct Hx as ([a b] & _ & Hx). cbv beta iota in Hx. inversion Hx as [Hf]. rewrite gamma_from_parameters in Hf.
  destruct (Req_EM_T a 0); [discriminate|]. destruct (Req_EM_T b 0); [discriminate|].
  destruct (Rlt_dec 0 a); [|discriminate]. destruct (Rlt_dec 0 b); [|discriminate]. destruct (Req_EM_T a b); [discriminate|]. inversion Hf.
  destruct (@log_mean_bounds a b) as ([G _] & _); auto. unfold Rmin in G. destruct (Rle_dec a b); lra.
Qed.
Print Assumptions C73_two_communities.

(** Communities of equal volume: the estimate is exactly the plotted function of the ratio of propensities. *)
Theorem C73_equal_volumes : forall g ws c K omega_in omega_out,
  wf_graph g -> weights g = Some ws -> (forall w, In w ws -> 0 < w) -> length c = vcount g -> (forall l, In l c -> (l < K)%nat) -> (1 < K)%nat ->
  let n := vcount g in let E := weighted_edges g ws in
  (forall r, (r < K)%nat -> volume n E c r = total_strength n E / INR K) ->
  estimate_singlelayer_SBM_parameters g (mkPart K c) None = Ok (omega_in, omega_out) -> 0 < omega_out < omega_in ->
  exists x, gamma_estimate_from_parameters omega_in omega_out = Some (Fin x) /\ expected_gamma K (omega_out / omega_in) = Ok x.
Proof.
  intros g ws c K a b Hwf Hw Hpos Hlen Hlab HK n E Hvol Hest Hab. pose proof (labels_nth c (vcount g) K Hlen Hlab) as Hlab'.
  rewrite (@estimate_single g ws c K None Hwf Hw Hlen) in Hest; auto.
  destruct (@single_balance g ws c K a b Hwf Hpos Hlen Hlab' HK Hest) as (HS & HKP & HPS & Hbal & Ha & Hb & HP). cbv zeta in *.
  assert (Heq : INR K * expected_within n E c = total_strength n E).
  { apply equal_volumes; auto; [apply range_E_of; auto|lia|unfold n, E, weighted_edges; lra]. }
  destruct (C29_log_mean a b) as (x & Hx & Ex & _); try lra. exists x. split; auto.
  destruct (@equal_share K _ _ a b HK HS Heq Hbal ltac:(lra) ltac:(lra)) as [_ ->]. rewrite Ex. reflexivity.
Qed.
Print Assumptions C73_equal_volumes.

(** Every value of the plotted function, for K > 1 and a ratio strictly between 0 and 1, is the gamma estimate of some graph and
    assortative partition: the bound of C73_gamma_bound cannot be improved. *)
Theorem C73_attained : forall env K y, (1 < K)%nat -> 0 < y < 1 -> ee_contains env (planted K y) = true ->
  let ws := map (fun p => if Nat.eq_dec (fst p) (snd p) then 1 else y) (planted_edges K) in
  wf_graph (planted K y) /\ weights (planted K y) = Some ws /\ (forall w, In w ws -> 0 < w) /\ S (list_max (seq 0 K)) = K /\
  assortative K (weighted_edges (planted K y) ws) (seq 0 K) /\
  exists x, snd (gamma_estimate env (planted K y) (Membership (seq 0 K))) = Ok (Some (Fin x)) /\ expected_gamma K y = Ok x.
Proof.
  intros env K y HK Hy He ws. pose proof (planted_wf K y) as Hwf.
  assert (Hpos : forall w, In w ws -> 0 < w). { intros w H. apply in_map_iff in H. destruct H as (p & <- & _). destruct (Nat.eq_dec _ _); lra. }
  assert (Hmx : forall m, list_max (map S (seq 0 m)) = m).
  { intros m. rewrite seq_shift. apply Nat.le_antisymm; [apply list_max_le, Forall_forall; intros z Hz; apply in_seq in Hz; lia|].
    destruct m as [|m]; [lia|]. pose proof (proj1 (list_max_le (seq 1 (S m)) (list_max (seq 1 (S m)))) (Nat.le_refl _)) as F. rewrite Forall_forall in F. apply F. apply in_seq. lia. }
  assert (Hmx' : S (list_max (seq 0 K)) = K).
  { apply Nat.le_antisymm.
    - assert (list_max (seq 0 K) <= K - 1)%nat; [|lia]. apply list_max_le, Forall_forall. intros z Hz. apply in_seq in Hz. lia.
    - assert (K - 1 <= list_max (seq 0 K))%nat; [|lia]. pose proof (proj1 (list_max_le (seq 0 K) (list_max (seq 0 K))) (Nat.le_refl _)) as F. rewrite Forall_forall in F. apply F. apply in_seq. lia. }
  split; auto. split; [reflexivity|]. split; auto. split; auto.
  pose proof (@planted_outcome K y HK Hy) as Ho. cbv zeta in Ho. destruct (@expected_gamma_mean K y ltac:(lia) Hy) as [Eg Hb]. cbv zeta in Eg, Hb. set (a := INR K / (1 + (INR K - 1) * y)) in *.
  assert (Hlab : forall v, (v < vcount (planted K y))%nat -> (nth v (seq 0 K) 0 < K)%nat) by (intros v Hv; cbn in Hv; rewrite nth_seq_id; auto).
  assert (Hlen : length (seq 0 K) = vcount (planted K y)) by (cbn; apply seq_length).
  split.
  - apply (proj2 (@single_assortative (planted K y) ws (seq 0 K) K a (a * y) Hwf Hpos Hlen Hlab HK Ho)). lra.
  - exists (log_mean a (a * y)). split; auto. assert (Ew : weighted_e env (planted K y) = planted K y) by (unfold weighted_e; rewrite He; auto).
    rewrite (@gamma_estimate_membership env (planted K y) ws (seq 0 K)); auto; [|rewrite Ew; auto]. cbn [snd]. rewrite Hmx. cbn [vcount planted edges]. unfold ws at 1. rewrite Ho. cbn [bind].
    f_equal. rewrite gamma_from_parameters. destruct (Req_EM_T a 0); [lra|]. destruct (Req_EM_T (a * y) 0); [lra|]. destruct (Rlt_dec 0 a); [|lra]. destruct (Rlt_dec 0 (a * y)); [|lra]. destruct (Req_EM_T a (a * y)); [lra|]. reflexivity.
Qed.
Print Assumptions C73_attained.

(** Non-vacuous: the planted graph with K = 3 and ratio 1/5. *)
Example C73_example : expected_gamma 3 (1 / 5) = Ok (log_mean (3 / (1 + 2 * (1 / 5))) (3 / (1 + 2 * (1 / 5)) * (1 / 5))) /\
  estimate_singlelayer_SBM_parameters (planted 3 (1 / 5)) (mkPart 3 [0; 1; 2]%nat) None = Ok (15 / 7, 3 / 7).
Proof.
  split.
  - destruct (@expected_gamma_mean 3 (1 / 5) ltac:(lia) ltac:(lra)) as [-> _]. cbn [INR]. replace (1 + 1 + 1) with 3 by ring. replace (3 - 1) with 2 by ring. reflexivity.
  - rewrite (@estimate_single (planted 3 (1 / 5)) (map (fun p => if Nat.eq_dec (fst p) (snd p) then 1 else 1 / 5) (planted_edges 3)) [0; 1; 2]%nat 3 None (planted_wf 3 (1 / 5)) eq_refl eq_refl); auto.
    + etransitivity; [exact (@planted_outcome 3 (1 / 5) ltac:(lia) ltac:(lra))|]. cbn [INR]. f_equal. f_equal; field.
    + intros v Hv. cbn in Hv. destruct v as [|[|[|v]]]; cbn; lia.
Qed.

(** Multilayer: the same bound for the resolution estimate of gamma_omega_estimate. *)
Theorem C73_multilayer : forall env g h gi ws lv c model omega_max oN oT oNt om x omega,
  wf_graph g -> wf_graph gi -> weights_defaulted (ee_contains env g) g h -> weights h = Some ws -> (forall w, In w ws -> 0 < w) ->
  valid_multilayer h gi ws lv model -> is_model model -> length c = vcount g ->
  let n := vcount g in let E := weighted_edges h ws in let T := S (list_max lv) in let N := (vcount g / T)%nat in let K := S (list_max c) in
  omitted_or oN N -> omitted_or oT T -> omitted_or oNt (map (nodes_in lv) (seq 0 T)) -> omitted_or om (map (weight_in E lv) (seq 0 T)) ->
  expected_within_layers n E lv T c < observed_within_layers n E lv T c ->
  snd (gamma_omega_estimate env g gi lv c omega_max model oN oT oNt om) = Ok (Some (Fin x), omega) ->
  exists y z, 0 < y < 1 /\ expected_gamma K y = Ok z /\ x <= z < INR K / 2.
Proof.
  intros env g h gi ws lv c model omega_max oN oT oNt om x omega Hg Hgi Hh Hw Hpos Hv Hm Hlen n E T N K H1 H2 H3 H4 Has Hx.
  destruct (C37_exact env g h gi ws lv c model omega_max oN oT oNt om Hg Hgi Hh Hw Hpos Hv Hm Hlen H1 H2 H3 H4) as (pers & p & r & _ & _ & Hp & Er & R1 & R2 & R3).
  cbv zeta in R3. fold n T E in R1, R2, R3. rewrite Er in Hx. cbn [snd] in Hx. subst r.
  assert (Hwh : wf_graph h). { apply weighted_e_defaulted in Hh. subst h. apply weighted_e_wf; auto. }
  assert (Evc : vcount h = vcount g). { apply weighted_e_defaulted in Hh. subst h. apply weighted_e_vcount. }
  destruct (C31_positive_weights h gi ws lv c model Hwh Hw Hpos Hv ltac:(congruence)) as (PW & PB & QW & QB & Hsum). rewrite Evc in PW, PB, QW, QB, Hsum. fold n E T in PW, PB, QW, QB, Hsum.
  set (EW := expected_within_layers n E lv T c) in *. set (EB := expected_between_layers n E lv T c) in *. set (OW := observed_within_layers n E lv T c) in *. set (OB := observed_between_layers n E lv T c) in *.
  assert (Hpar : Some (Fin x) = gamma_estimate_from_parameters (OW / EW) (if Req_EM_T EB 0 then 0 else OB / EB)).
  { destruct R3 as (o & Ho & _); [|inversion Ho; auto]. right. split; [apply Rgt_not_eq; lra|]. left. apply Rgt_not_eq; lra. }
  rewrite gamma_from_parameters in Hpar. set (a := OW / EW) in *. set (b := if Req_EM_T EB 0 then 0 else OB / EB) in *.
  destruct (Req_EM_T a 0); [discriminate|]. destruct (Req_EM_T b 0); [discriminate|].
  destruct (Rlt_dec 0 a) as [Pa|]; [|discriminate]. destruct (Rlt_dec 0 b) as [Pb|]; [|discriminate]. destruct (Req_EM_T a b) as [|N']; [discriminate|]. inversion Hpar. subst x. clear Hpar.
  assert (HB : EB <> 0). { intros Z. unfold b in Pb. destruct (Req_EM_T EB 0); [lra|auto]. }
  assert (Eb : b = OB / EB) by (unfold b; destruct (Req_EM_T EB 0); [congruence|auto]).
  assert (Hlab : forall v, (v < n)%nat -> (nth v c 0 < K)%nat).
  { intros v Hv'. unfold K. apply (proj2 (Nat.lt_succ_r _ _)). pose proof (proj1 (list_max_le c (list_max c)) (Nat.le_refl _)) as F. rewrite Forall_forall in F. apply F. apply nth_In. unfold n in Hv'. lia. }
  pose proof (valid_accepted Hwh Hv) as Hacc.
  assert (HShare : EW + EB <= INR K * EW).
  { unfold EW, EB, expected_within_layers, expected_between_layers. rewrite <- sum_to_plus, <- sum_to_scale. apply sum_to_le. intros t Ht.
    assert (Hr : in_range_E n (layer_edges E lv t)). { apply layer_range. unfold n. rewrite <- Evc. apply range_E_of; auto. }
    assert (HT : 0 < total_strength n (layer_edges E lv t)).
    { rewrite (total_strength_w Hr). destruct (@acc_facts h gi lv model ws Hwh Hacc) as (_ & _ & _ & F & _). specialize (F t Ht).
      change (0 < total_w (layer_edges E lv t)) in F. lra. }
    rewrite expected_split by lra. apply expected_share; auto. }
  assert (HK : (1 < K)%nat).
  { destruct (Nat.le_gt_cases K 1) as [L|L]; [|lia]. exfalso. assert (INR K <= 1) by (replace 1 with (INR 1) by reflexivity; apply le_INR; auto). nra. }
  assert (Hbal : a * EW + b * (EW + EB - EW) = EW + EB).
  { rewrite Eb. unfold a. replace (OW / EW * EW) with OW by (field; lra). replace (OB / EB * (EW + EB - EW)) with OB by (field; auto). lra. }
  assert (Hab : b < a).
  { assert (1 < a). { unfold a. apply Rmult_lt_reg_r with EW; auto. unfold Rdiv. rewrite Rmult_assoc, Rinv_l by lra. lra. }
    assert (b < 1); [|lra]. rewrite Eb. apply Rmult_lt_reg_r with EB; [lra|]. unfold Rdiv. rewrite Rmult_assoc, Rinv_l by auto. lra. }
  destruct (@estimate_bounded K (EW + EB) EW a b HK ltac:(lra) HShare ltac:(lra) Hbal Pb Hab) as (y & z & Hy & Hz & G1 & G2). exists y, z. auto.
Qed.
Print Assumptions C73_multilayer.

(** On a graph counting its edges, a partition is better than a single community at its own estimated resolution exactly when it is
    better at resolution 1 (positive classical modularity). *)
Theorem C73_beats_one_community : forall env g c x,
  wf_graph g -> directed g = false -> counts_edges (ee_contains env g) g -> length c = vcount g ->
  snd (gamma_estimate env g (Membership c)) = Ok (Some (Fin x)) ->
  let one := repeat 0%nat (vcount g) in
  modularity g x one < modularity g x c <-> modularity g 1 one < modularity g 1 c.
Proof.
  intros env g c x Hg Hd Hu Hlen Hx one.
  assert (Hw : weights (weighted_e env g) = Some (repeat 1 (length (edges g)))).
  { unfold weighted_e. unfold counts_edges in Hu. destruct (ee_contains env g); auto. }
  rewrite (@gamma_estimate_membership env g _ c Hg Hlen Hw) in Hx. cbn [snd] in Hx.
  apply bind_ok in Hx. destruct Hx as ([a b] & Hest & Hx). cbv beta iota in Hx. inversion Hx as [Hf]. clear Hx.
  set (K := list_max (map S c)) in *. assert (Hlab : forall v, (v < vcount g)%nat -> (nth v c 0 < K)%nat) by (intros v Hv; apply list_max_label; lia).
  rewrite gamma_from_parameters in Hf. destruct (Req_EM_T a 0); [discriminate|]. destruct (Req_EM_T b 0); [discriminate|].
  destruct (Rlt_dec 0 a) as [Pa|]; [|discriminate]. destruct (Rlt_dec 0 b) as [Pb|]; [|discriminate]. destruct (Req_EM_T a b) as [|N]; [discriminate|]. inversion Hf. subst x. clear Hf.
  assert (HK2 : (1 < K)%nat).
  { unfold sbm_outcome in Hest. destruct (Req_EM_T _ 0); [discriminate|]. destruct (Req_EM_T _ 0); [discriminate|]. destruct (Nat.ltb_spec 1 K); auto. inversion Hest. lra. }
  assert (Hpos : forall w, In w (repeat 1 (length (edges g))) -> 0 < w) by (intros w H; apply repeat_spec in H; lra).
  pose proof (@single_facts g _ c K a b Hg Hpos Hlen HK2 Hest) as (Ht & Hp & Hb & Ea & Eb & Oa & Ob).
  pose proof (@single_assortative g _ c K a b Hg Hpos Hlen Hlab HK2 Hest) as Has.
  pose proof (observed_split (vcount g) (combine (edges g) (repeat 1 (length (edges g)))) c) as So.
  pose proof (@expected_split (vcount g) (combine (edges g) (repeat 1 (length (edges g)))) c ltac:(lra)) as Se.
  assert (O1 : A_of g one = 2 * m_edges g /\ P_of g one = 2 * m_edges g).
  { rewrite <- (@observed_unit g one Hd), <- (@expected_unit g one Hg Hd), <- (@total_unit_w g Hg). 
    pose proof (observed_split (vcount g) (combine (edges g) (repeat 1 (length (edges g)))) one) as So1.
    pose proof (@expected_split (vcount g) (combine (edges g) (repeat 1 (length (edges g)))) one ltac:(lra)) as Se1.
    assert (D : forall i j, delta one i j = 1). { intros i j. unfold delta, one. rewrite !nth_repeat. destruct (Nat.eq_dec 0 0); congruence. }
    assert (Z1 : observed_between (vcount g) (combine (edges g) (repeat 1 (length (edges g)))) one = 0) by (apply sum_to_0; intros; apply sum_to_0; intros; rewrite D; ring).
    assert (Z2 : expected_between (vcount g) (combine (edges g) (repeat 1 (length (edges g)))) one = 0) by (apply sum_to_0; intros; apply sum_to_0; intros; rewrite D; ring). lra. }
  destruct O1 as [O1 O2]. rewrite !modularity_AP, O1, O2.
  rewrite (@observed_unit g c Hd) in *. rewrite (@expected_unit g c Hg Hd) in *. rewrite (@total_unit_w g Hg) in *.
  set (S := 2 * m_edges g) in *. set (A := A_of g c) in *. set (P := P_of g c) in *.
  set (B := expected_between _ _ _) in *. set (Q := observed_between _ _ _) in *.
  assert (EQ : Q = b * B) by (rewrite Eb; field; lra). assert (EA : A = a * P) by (rewrite Ea; field; lra).
  assert (Hm : log_mean a b < b <-> a < b).
  { destruct (Rlt_dec a b) as [L|L].
    - rewrite (log_mean_sym a b) by auto. pose proof (@mean_between b a Pa L). tauto.
    - pose proof (@mean_between a b Pb ltac:(lra)). split; intros; exfalso; lra. }
  assert (Hm2 : a < b \/ b < log_mean a b).
  { destruct (Rlt_dec a b); auto. right. pose proof (@mean_between a b Pb ltac:(lra)). lra. }
  set (x := log_mean a b) in *.
  split; intros H.
  - assert (P < A); [|lra]. apply Has. destruct Hm2 as [L|L]; [|destruct (Rlt_dec b a); auto; exfalso; assert (a < b) by lra; apply Hm in H0; lra].
    exfalso. apply Hm in L. assert (x * B < b * B) by (apply Rmult_lt_compat_r; auto). nra.
  - assert (L : b < a) by (apply Has; lra). destruct Hm2 as [L'|L']; [lra|]. assert (b * B < x * B) by (apply Rmult_lt_compat_r; auto). nra.
Qed.
Print Assumptions C73_beats_one_community.

(** The guarded function of plot_gamma_max_derivatives.py answers for every x: 0 outside the open unit interval and the positive
    value of the curve inside, where it grows with K. *)
Theorem C73_guarded : forall K x, (1 <= K)%nat -> exists v, expected_gamma_guarded K x = Ok v /\
  (0 < x < 1 -> expected_gamma K x = Ok v /\ 0 < v /\ exists v', expected_gamma_guarded (S K) x = Ok v' /\ v < v') /\
  (~ 0 < x < 1 -> v = 0).
Proof.
  intros K x HK. unfold expected_gamma_guarded. destruct (Rlt_dec 0 x) as [H0|H0]; [destruct (Rlt_dec x 1) as [H1|H1]|].
  2, 3: exists 0; split; [reflexivity|]; split; [lra|reflexivity].
  destruct (@expected_gamma_mean K x HK ltac:(lra)) as [E B]. destruct (@expected_gamma_mean (S K) x ltac:(lia) ltac:(lra)) as [E' B']. cbv zeta in *.
  rewrite E. eexists; split; [reflexivity|]. split; [|tauto]. intros _. split; [reflexivity|].
  assert (HK1 : 1 <= INR K) by (replace 1 with (INR 1) by reflexivity; apply le_INR; auto).
  set (a := INR K / (1 + (INR K - 1) * x)) in *. set (a' := INR (S K) / (1 + (INR (S K) - 1) * x)) in *.
  destruct (@log_mean_bounds a (a * x)) as ([G _] & _); try lra. split; [unfold Rmin in G; destruct (Rle_dec a (a * x)); lra|].
  exists (log_mean a' (a' * x)). split; [exact E'|].
  assert (F : forall t, 0 < t -> log_mean t (t * x) = t * ((1 - x) / - ln x)).
  { intros t Ht. unfold log_mean. rewrite ln_mult by lra. assert (ln x < 0) by (rewrite <- ln_1; apply ln_increasing; lra). field. lra. }
  rewrite !F by lra. assert (Hl : ln x < 0) by (rewrite <- ln_1; apply ln_increasing; lra).
  apply Rmult_lt_compat_r; [apply Rdiv_lt_0_compat; lra|]. unfold a, a'. rewrite S_INR.
  assert (D1 : 0 < 1 + (INR K - 1) * x) by nra. assert (D2 : 0 < 1 + (INR K + 1 - 1) * x) by nra.
  apply Rmult_lt_reg_r with ((1 + (INR K - 1) * x) * (1 + (INR K + 1 - 1) * x)); [apply Rmult_lt_0_compat; lra|].
  replace (INR K / (1 + (INR K - 1) * x) * ((1 + (INR K - 1) * x) * (1 + (INR K + 1 - 1) * x))) with (INR K * (1 + (INR K + 1 - 1) * x)) by (field; lra).
  replace ((INR K + 1) / (1 + (INR K + 1 - 1) * x) * ((1 + (INR K - 1) * x) * (1 + (INR K + 1 - 1) * x))) with ((INR K + 1) * (1 + (INR K - 1) * x)) by (field; lra).
  nra.
Qed.
Print Assumptions C73_guarded.

(** [x] is the gamma estimate of an assortative partition into labels 0 .. K-1 of some graph with positive weights. *)
Definition assortative_estimate (env : est_env) (K : nat) (x : R) : Prop :=
  exists g h ws c, wf_graph g /\ weights_defaulted (ee_contains env g) g h /\ weights h = Some ws /\ (forall w, In w ws -> 0 < w) /\
    length c = vcount g /\ S (list_max c) = K /\ assortative (vcount g) (weighted_edges h ws) c /\
    snd (gamma_estimate env g (Membership c)) = Ok (Some (Fin x)).

(** gamma_max of plot_gamma_max_derivatives.py, the maximum of the guarded function, is the least upper bound of the gamma estimates
    of assortative partitions into K communities; it exists, and it does not decrease with K. *)
Theorem C73_gamma_max : forall env K, (1 < K)%nat -> (forall y, ee_contains env (planted K y) = true) ->
  exists M, is_lub (fun v => exists x, expected_gamma_guarded K x = Ok v) M /\ is_lub (assortative_estimate env K) M /\ 0 < M <= INR K / 2 /\
    forall M', is_lub (fun v => exists x, expected_gamma_guarded (S K) x = Ok v) M' -> M <= M'.
Proof.
  intros env K HK He.
  assert (Hb : forall x v, expected_gamma_guarded K x = Ok v -> v <= INR K / 2).
  { intros x v H. destruct (C73_guarded K x ltac:(lia)) as (v' & E & H1 & H2). rewrite E in H. inversion H; subst v'.
    assert (0 < INR K) by (apply lt_0_INR; lia).
    destruct (Rlt_dec 0 x); [destruct (Rlt_dec x 1)|]; [|rewrite H2 by lra; lra|rewrite H2 by lra; lra].
    apply Rlt_le. apply (@expected_gamma_below K x v HK); [lra|]. apply H1. lra. }
  destruct (completeness (fun v => exists x, expected_gamma_guarded K x = Ok v)) as [M HM].
  - exists (INR K / 2). intros v [x H]. exact (Hb x v H).
  - destruct (C73_guarded K 0 ltac:(lia)) as (v & E & _). exists v, 0. exact E.
  - exists M. split; [exact HM|]. destruct HM as [U L]. destruct (C73_guarded K (1 / 2) ltac:(lia)) as (v0 & E0 & H0 & _).
    destruct (H0 ltac:(lra)) as (_ & P0 & _). assert (PM : 0 < M) by (apply Rlt_le_trans with v0; [auto|apply U; exists (1 / 2); auto]).
    split; [split|split; [split; [exact PM|apply L; intros v [x H]; exact (Hb x v H)]|]].
    + intros x (g & h & ws & c & Hg & Hh & Hw & Hpos & Hlen & Hc & Has & Hx).
      destruct (C73_gamma_bound env g h ws c x Hg Hh Hw Hpos Hlen Has Hx) as (y & z & Hy & Hz & Hxz & _). rewrite Hc in Hz.
      apply Rle_trans with z; [exact Hxz|]. apply U. exists y. unfold expected_gamma_guarded. destruct (Rlt_dec 0 y); [|lra]. destruct (Rlt_dec y 1); [exact Hz|lra].
    + intros B HB. apply L. intros v [x H].
      assert (S : forall y w, 0 < y < 1 -> expected_gamma K y = Ok w -> w <= B).
      { intros y w Hy Hw. apply HB. destruct (C73_attained env K y HK Hy (He y)) as (A1 & A2 & A3 & A4 & A5 & x' & A6 & A7). rewrite Hw in A7. inversion A7; subst x'.
        exists (planted K y), (planted K y), (map (fun p => if Nat.eq_dec (fst p) (snd p) then 1 else y) (planted_edges K)), (seq 0 K).
        rewrite (He y). split; [exact A1|]. split; [reflexivity|]. split; [exact A2|]. split; [exact A3|]. split; [cbn; apply seq_length|]. auto. }
      destruct (C73_guarded K x ltac:(lia)) as (v' & E & H1 & H2). rewrite E in H. inversion H; subst v'. destruct (Rlt_dec 0 x); [destruct (Rlt_dec x 1)|].
      * apply (S x v); [lra|]. apply H1. lra.
      * rewrite H2 by lra. destruct (H0 ltac:(lra)) as (S0 & _). pose proof (S (1 / 2) v0 ltac:(lra) S0). lra.
      * rewrite H2 by lra. destruct (H0 ltac:(lra)) as (S0 & _). pose proof (S (1 / 2) v0 ltac:(lra) S0). lra.
    + intros M' [U' L']. apply L. intros v [x H]. destruct (C73_guarded K x ltac:(lia)) as (v' & E & H1 & H2). rewrite E in H. inversion H; subst v'.
      destruct (Rlt_dec 0 x); [destruct (Rlt_dec x 1)|].
      * destruct (H1 ltac:(lra)) as (_ & _ & w & Ew & Hvw). apply Rle_trans with w; [lra|]. apply U'. exists x. exact Ew.
      * rewrite H2 by lra. destruct (C73_guarded (S K) 0 ltac:(lia)) as (w & Ew & _ & Hw). rewrite <- (Hw ltac:(lra)). apply U'. exists 0. exact Ew.
      * rewrite H2 by lra. destruct (C73_guarded (S K) 0 ltac:(lia)) as (w & Ew & _ & Hw). rewrite <- (Hw ltac:(lra)). apply U'. exists 0. exact Ew.
Qed.
Print Assumptions C73_gamma_max.

(** Bounds on gamma_max: at least 1 for every K > 1, exactly 1 for two communities, and of the order of K / log K. *)
Theorem C73_gamma_max_bounds : forall K M, (1 < K)%nat -> is_lub (fun v => exists x, expected_gamma_guarded K x = Ok v) M ->
  1 <= M <= INR K / 2 /\ INR K * (INR K - 1) / ((2 * INR K - 1) * ln (INR K)) <= M /\ (K = 2%nat -> M = 1).
Proof.
  intros K M HK [U L].
  assert (H2 : 2 <= INR K) by (replace 2 with (INR 2) by (cbn; lra); apply le_INR; lia).
  assert (V : forall x, 0 < x < 1 -> INR K * (1 - x) / ((1 + (INR K - 1) * x) * - ln x) <= M).
  { intros x Hx. apply U. exists x. unfold expected_gamma_guarded. destruct (Rlt_dec 0 x); [|lra]. destruct (Rlt_dec x 1); [|lra].
    destruct (@expected_gamma_mean K x ltac:(lia) Hx) as [E B]. cbv zeta in *. rewrite E. f_equal. set (a := INR K / _) in *.
    unfold log_mean. rewrite ln_mult by lra. assert (ln x < 0) by (rewrite <- ln_1; apply ln_increasing; lra). assert (0 < 1 + (INR K - 1) * x) by nra.
    unfold a. field. split; [lra|]. split; lra. }
  assert (UB : M <= INR K / 2).
  { apply L. intros v [x H]. destruct (C73_guarded K x ltac:(lia)) as (v' & E & H1 & H2'). rewrite E in H. inversion H; subst v'.
    destruct (Rlt_dec 0 x); [destruct (Rlt_dec x 1)|]; [|rewrite H2' by lra; lra|rewrite H2' by lra; lra].
    apply Rlt_le. apply (@expected_gamma_below K x v HK); [lra|]. apply H1. lra. }
  assert (LB : 1 <= M).
  { apply Rnot_lt_le. intros HM.
    assert (G : forall x, 0 < x < 1 -> INR K * x / (1 + (INR K - 1) * x) <= M).
    { intros x Hx. apply Rle_trans with (2 := V x Hx). assert (Hl : ln x < 0) by (rewrite <- ln_1; apply ln_increasing; lra).
      assert (Hi : - ln x <= (1 - x) / x).
      { rewrite <- ln_Rinv by lra. assert (0 < / x) by (apply Rinv_0_lt_compat; lra). pose proof (exp_ineq1_le (ln (/ x))) as G. rewrite exp_ln in G by auto.
        replace ((1 - x) / x) with (/ x - 1) by (field; lra). lra. }
      assert (D : 0 < 1 + (INR K - 1) * x) by nra.
      assert (Hq : 0 < - ln x * x) by nra.
      assert (Hi' : - ln x * x <= 1 - x). { apply (Rmult_le_compat_r x) in Hi; [|lra]. unfold Rdiv in Hi. rewrite Rmult_assoc, Rinv_l, Rmult_1_r in Hi by lra. exact Hi. }
      replace (INR K * (1 - x) / ((1 + (INR K - 1) * x) * - ln x)) with (INR K * x / (1 + (INR K - 1) * x) * ((1 - x) / (- ln x * x))) by (field; lra).
      assert (1 <= (1 - x) / (- ln x * x)). { apply Rmult_le_reg_r with (- ln x * x); auto. unfold Rdiv. rewrite Rmult_assoc, Rinv_l by lra. lra. }
      assert (0 < INR K * x / (1 + (INR K - 1) * x)) by (apply Rdiv_lt_0_compat; [apply Rmult_lt_0_compat; lra|exact D]).
      set (q := INR K * x / (1 + (INR K - 1) * x)) in *. set (r := (1 - x) / (- ln x * x)) in *. assert (0 <= q * (r - 1)) by (apply Rmult_le_pos; lra). lra. }
    assert (PM : 0 < M). { pose proof (G (1 / 2) ltac:(lra)). assert (0 < INR K * (1 / 2) / (1 + (INR K - 1) * (1 / 2))) by (apply Rdiv_lt_0_compat; lra). lra. }
    set (x := (1 + M) / 2). assert (Hx : 0 < x < 1) by (unfold x; lra). specialize (G x Hx).
    assert (D : 0 < 1 + (INR K - 1) * x) by nra.
    apply (Rmult_le_compat_r (1 + (INR K - 1) * x)) in G; [|lra]. unfold Rdiv in G. rewrite Rmult_assoc, Rinv_l, Rmult_1_r in G by lra.
    assert (INR K * x > M * (1 + (INR K - 1) * x)); [|lra].
    assert (HMx : M < x) by (unfold x; lra). clearbody x.
    assert (M * (1 + (INR K - 1) * x) < x * (1 + (INR K - 1) * x)) by (apply Rmult_lt_compat_r; auto).
    assert (x * (1 + (INR K - 1) * x) < x * INR K); [|lra]. apply Rmult_lt_compat_l; [lra|].
    assert ((INR K - 1) * x < (INR K - 1) * 1) by (apply Rmult_lt_compat_l; lra). lra. }
  split; [split; auto|]. split.
  - assert (Hi : 0 < / INR K < 1). { split; [apply Rinv_0_lt_compat; lra|]. rewrite <- Rinv_1. apply Rinv_lt_contravar; lra. }
    pose proof (V (/ INR K) Hi) as G. rewrite ln_Rinv in G by lra. assert (0 < ln (INR K)) by (rewrite <- ln_1; apply ln_increasing; lra).
    replace (INR K * (INR K - 1) / ((2 * INR K - 1) * ln (INR K))) with (INR K * (1 - / INR K) / ((1 + (INR K - 1) * / INR K) * - - ln (INR K))); [exact G|].
    field. repeat split; lra.
  - intros ->. cbn in UB. lra.
Qed.
Print Assumptions C73_gamma_max_bounds.

(** Two communities: the estimates approach 1 but (C73_two_communities) never reach it. *)
Example C73_gamma_max_example : forall env, (forall y, ee_contains env (planted 2 y) = true) ->
  is_lub (assortative_estimate env 2) 1 /\ ~ assortative_estimate env 2 1.
Proof.
  intros env He. destruct (C73_gamma_max env 2 ltac:(lia) He) as (M & H1 & H2 & _). destruct (C73_gamma_max_bounds 2 M ltac:(lia) H1) as (_ & _ & E).
  rewrite E in H2 by reflexivity. split; [exact H2|]. intros (g & h & ws & c & Hg & Hh & Hw & Hpos & Hlen & Hc & Has & Hx).
  assert (0 < 1 < 1); [|lra]. apply (C73_two_communities env g h ws c 1 Hg Hh Hw Hpos Hlen Has); [congruence|exact Hx].
Qed.
