(** Property theorems about the multilayer estimates in double precision: C90. *)
From Verif Require Import PyBase PyGraph M_partition M_champ M_leiden M_estimation_utils M_estimation M_float M_multifloat Spec Spec_graph Spec_leiden Spec_sbm Spec_float Spec_multifloat
  Spec_multisbm Spec_check Spec_valid L_base L_modularity L_modularity3 L_leiden L_sbm L_sbm2 L_logmean L_check L_float L_multisbm L_copying L_accepted L_omega
  L_multifloat L_multifloat2 L_multifloat3 L_multifloat4 Properties_sbm Properties_multisbm.
Open Scope R_scope.

Lemma um_near psum env g h gi lv c K model oN oT oNt om : python_sum psum -> unit_multilayer env g h gi lv c K model ->
  let n := vcount g in let E := weighted_edges h (repeat 1 (ecount g)) in let T := S (list_max lv) in let N := (vcount g / T)%nat in
  omitted_or oN N -> omitted_or oT T -> omitted_or oNt (map (nodes_in lv) (seq 0 T)) -> omitted_or om (map (weight_in E lv) (seq 0 T)) ->
  exists a b p a' b' p' pers pers',
    estimate_multilayer_SBM_parameters env g gi lv (mkPart K c) model oN oT oNt om = (h, Ok (a, b, p, K)) /\
    a = observed_within_layers n E lv T c / expected_within_layers n E lv T c /\
    b = (if Req_EM_T (expected_between_layers n E lv T c) 0 then 0 else observed_between_layers n E lv T c / expected_between_layers n E lv T c) /\
    fl_estimate_multilayer_SBM_parameters psum env g gi lv (mkPart K c) model oN oT oNt om = (h, Ok (a', b', p', K)) /\
    near ((2 * INR T + 4) * u64) a a' /\ near ((2 * INR (ecount g) + 6) * u64) b b' /\
    is_persistence model gi lv N T c pers /\ Rabs (pers' - pers) <= persistence_error model T * pers /\ (model <> "multilevel"%string -> (pers < 1 <-> pers' < 1)) /\ 0 <= pers' /\
    p = estimate_p env model K T pers /\ p' = fl_estimate_p env model K T pers' /\
    (model <> "multiplex"%string -> Rabs (p' - p) <= 2 * (persistence_error model T * pers) + 6 * u64) /\
    (exists f, fl_persistence_function_from_model psum model gi (Some lv) (Some N) (Some T) (Some (map (nodes_in lv) (seq 0 T))) = Ok f /\ f c = Ok pers') /\
    binary64 pers' = pers' /\ (model <> "multilevel"%string -> pers' = binary64 pers /\ pers = INR (kept gi c) / INR (ecount gi) /\ (0 < ecount gi)%nat) /\
    0 <= pers /\ (model <> "multilevel"%string -> pers <= 1) /\ (model = "multilevel"%string -> pers <= INR T / (INR T - 1)) /\ (1 < T)%nat /\
    (exists f, persistence_function_from_model model gi (Some lv) (Some N) (Some T) (Some (map (nodes_in lv) (seq 0 T))) = Ok f /\ f c = Ok pers).
Proof.
  intros Hps [Hg Hgi Hh Hu Hv Hm Hc HK He Hn Hei] n E T N HoN HoT HoNt Hom.
  assert (Hh' := Hh). apply weighted_e_defaulted in Hh'. assert (Eh : edges h = edges g) by (rewrite Hh'; unfold weighted_e; destruct (ee_contains env g); reflexivity).
  assert (Vh : vcount h = vcount g) by (rewrite Hh'; apply weighted_e_vcount). assert (Wh : wf_graph h) by (rewrite Hh'; apply weighted_e_wf; auto).
  pose proof (valid_accepted Wh Hv) as Ha. assert (EC : repeat 1 (ecount g) = repeat 1 (length (edges h))) by (rewrite Eh; reflexivity).
  assert (Hpos : forall w, In w (repeat 1 (ecount g)) -> 0 < w) by (intros w Hw; apply repeat_spec in Hw; lra).
  pose proof (@acc_EW h gi lv model _ Wh Ha c ltac:(congruence) Hpos) as EW. rewrite Vh in EW.
  destruct (C31_estimates env g h gi (repeat 1 (ecount g)) lv c K model oN oT oNt om) as (pers0 & p0 & _ & _ & R0); auto; [fold n E T; fold n E T in EW; lra|].
  assert (Hu2 := Hu). assert (Ha2 := Ha). assert (Hom2 := Hom). unfold E in Hom2. rewrite EC in Hu2, Ha2, Hom2.
  destruct (@multi_near psum env h gi lv c K model Hps Wh Hgi Hu2) with (oN := oN) (oT := oT) (oNt := oNt) (om := om)
    as (a & b & p & a' & b' & p' & pers & pers' & R1 & R2 & NI & NO & Hp & PE & P1 & P0 & Ep & Ep' & PP & PF & PB & PQ); auto.
  - congruence.
  - rewrite Vh. apply labels_nth; auto.
  - rewrite Eh. exact He.
  - rewrite Vh. auto.
  - unfold ecount in Hei. lia.
  - rewrite Vh. exact HoN.
  - assert (D : default_weights_e env g = Ok h).
    { unfold estimate_multilayer_SBM_parameters in R0. destruct (default_weights_e env g) as [h0|e0]; [|congruence]. congruence. }
    unfold estimate_multilayer_SBM_parameters in R0 |- *. unfold fl_estimate_multilayer_SBM_parameters. rewrite D in R0 |- *. rewrite R1 in R0 |- *. rewrite R2.
    injection R0 as Ea Eb Ep0. rewrite Eh in NO. rewrite Vh in Hp, PF.
    pose proof (@acc_persistence h gi lv model _ Wh Hgi Ha c pers ltac:(rewrite Vh; exact Hp)) as (X0 & X1 & X2 & _).
    destruct (@acc_facts h gi lv model _ Wh Ha) as (T1 & _ & F3 & _ & _ & F6 & F7 & F8).
    exists a, b, p, a', b', p', pers, pers'. split; [reflexivity|]. split; [exact Ea|]. split; [exact Eb|]. split; [reflexivity|]. split; [exact NI|]. split; [exact NO|].
    split; [exact Hp|]. split; [exact PE|]. split; [exact P1|]. split; [exact P0|]. split; [exact Ep|]. split; [exact Ep'|]. split; [exact PP|]. split; [exact PF|].
    split; [exact PB|]. split; [exact PQ|]. split; [exact X0|]. split; [exact X1|]. split; [exact X2|]. split; [exact T1|].
    assert (Wg : weights h = Some (repeat 1 (ecount g))) by auto.
    destruct (C32_persistence h gi (repeat 1 (ecount g)) lv c model Wh Hgi Wg Hv Hm ltac:(congruence)) as (f & x & Ff & Fx & Fp & _). rewrite Vh in Ff, Fp.
    exists f. split; [exact Ff|]. rewrite Fx. f_equal. clear - Fp Hp. destruct Fp as [[A ->]|[[A ->]|[A ->]]], Hp as [[B ->]|[[B ->]|[B ->]]]; auto; congruence.
Qed.

(** ** C90: python's sum up to 3.11, which adds from left to right, meets the contract. *)
Theorem C90_sum : python_sum fl_sum.
Proof. exact fl_sum_python. Qed.
Print Assumptions C90_sum.

(** Both versions return, for the same graph object; theta_in has relative error at most (2T+4)u and theta_out at most (2m+6)u
    (u = 2^-53, T layers, m edges), and each is 0 exactly when it is without rounding. *)
Theorem C90_thetas : forall psum env g h gi lv c K model oN oT oNt om, python_sum psum -> unit_multilayer env g h gi lv c K model ->
  let n := vcount g in let E := weighted_edges h (repeat 1 (ecount g)) in let T := S (list_max lv) in
  omitted_or oN (vcount g / T)%nat -> omitted_or oT T -> omitted_or oNt (map (nodes_in lv) (seq 0 T)) -> omitted_or om (map (weight_in E lv) (seq 0 T)) ->
  let theta_in := observed_within_layers n E lv T c / expected_within_layers n E lv T c in
  let theta_out := if Req_EM_T (expected_between_layers n E lv T c) 0 then 0 else observed_between_layers n E lv T c / expected_between_layers n E lv T c in
  exists p a b q,
    estimate_multilayer_SBM_parameters env g gi lv (mkPart K c) model oN oT oNt om = (h, Ok (theta_in, theta_out, p, K)) /\
    fl_estimate_multilayer_SBM_parameters psum env g gi lv (mkPart K c) model oN oT oNt om = (h, Ok (a, b, q, K)) /\
    rounded ((2 * INR T + 4) * u64) theta_in a /\ rounded ((2 * INR (ecount g) + 6) * u64) theta_out b.
Proof.
  intros psum env g h gi lv c K model oN oT oNt om Hps Hu n E T H1 H2 H3 H4 theta_in theta_out.
  destruct (um_near psum env g h gi lv c K model oN oT oNt om Hps Hu H1 H2 H3 H4) as (a & b & p & a' & b' & p' & pers & pers' & R1 & Ea & Eb & R2 & NI & NO & _).
  exists p, a', b', p'. split; [rewrite R1, Ea, Eb; reflexivity|]. split; [exact R2|]. rewrite Ea in NI. rewrite Eb in NO. split.
  - destruct NI as (_ & _ & A & B & _). split; auto.
  - destruct NO as (_ & _ & A & B & _). split; auto.
Qed.
Print Assumptions C90_thetas.

(** Persistence: one rounding in the temporal and multiplex models, where it is below 1 exactly when it is without rounding. *)
Theorem C90_persistence : forall psum env g h gi lv c K model, python_sum psum -> unit_multilayer env g h gi lv c K model ->
  let T := S (list_max lv) in let N := (vcount g / T)%nat in
  exists f f' x x', persistence_function_from_model model gi (Some lv) (Some N) (Some T) (Some (map (nodes_in lv) (seq 0 T))) = Ok f /\ f c = Ok x /\
    fl_persistence_function_from_model psum model gi (Some lv) (Some N) (Some T) (Some (map (nodes_in lv) (seq 0 T))) = Ok f' /\ f' c = Ok x' /\
    Rabs (x' - x) <= persistence_error model T * x /\ (model <> "multilevel"%string -> x' = binary64 x /\ (x < 1 <-> x' < 1)).
Proof.
  intros psum env g h gi lv c K model Hps Hu T N.
  destruct (um_near psum env g h gi lv c K model None None None None Hps Hu) as (a & b & p & a' & b' & p' & x & x' & _ & _ & _ & _ & _ & _ & _ & PE & P1 & _ & _ & _ & _ & (f' & F1 & F2) & _ & PQ & _ & _ & _ & _ & (f & G1 & G2)); try (left; reflexivity).
  exists f, f', x, x'. split; [exact G1|]. split; [exact G2|]. split; [exact F1|]. split; [exact F2|]. split; [exact PE|]. intros Nm. split; [apply PQ; auto|apply P1; auto].
Qed.
Print Assumptions C90_persistence.

(** The copying probability outside the multiplex model: a probability, with absolute error at most 8u (temporal) or (8T+22)u
    (multilevel); 1 exactly when the computed persistence is at least 1 or there is one community.  In the temporal model it is 0, or 1,
    exactly when it is without rounding. *)
Theorem C90_probability : forall psum env g h gi lv c K model oN oT oNt om, python_sum psum -> unit_multilayer env g h gi lv c K model -> model <> "multiplex"%string ->
  (Z.of_nat K <= 2 ^ 53)%Z ->
  let E := weighted_edges h (repeat 1 (ecount g)) in let T := S (list_max lv) in let N := (vcount g / T)%nat in
  omitted_or oN N -> omitted_or oT T -> omitted_or oNt (map (nodes_in lv) (seq 0 T)) -> omitted_or om (map (weight_in E lv) (seq 0 T)) ->
  exists a b p a' b' p' f x',
    snd (estimate_multilayer_SBM_parameters env g gi lv (mkPart K c) model oN oT oNt om) = Ok (a, b, p, K) /\
    snd (fl_estimate_multilayer_SBM_parameters psum env g gi lv (mkPart K c) model oN oT oNt om) = Ok (a', b', p', K) /\
    0 <= p' <= 1 /\ Rabs (p' - p) <= (if string_dec model "multilevel" then (8 * INR T + 22) * u64 else 8 * u64) /\
    (fl_persistence_function_from_model psum model gi (Some lv) (Some N) (Some T) (Some (map (nodes_in lv) (seq 0 T))) = Ok f /\ f c = Ok x' /\ (p' = 1 <-> 1 <= x' \/ (K <= 1)%nat)) /\
    (model = "temporal"%string -> (p' = 0 <-> p = 0) /\ (p' = 1 <-> p = 1)).
Proof.
  intros psum env g h gi lv c K model oN oT oNt om Hps Hu Nm HK E T N H1 H2 H3 H4.
  destruct (um_near psum env g h gi lv c K model oN oT oNt om Hps Hu H1 H2 H3 H4) as
    (a & b & p & a' & b' & p' & x & x' & R1 & _ & _ & R2 & _ & _ & Hp & PE & P1 & P0 & Ep & Ep' & PP & (f & F1 & F2) & PB & PQ & X0 & X1 & X2 & T1 & _).
  exists a, b, p, a', b', p', f, x'. rewrite R1, R2. split; [reflexivity|]. split; [reflexivity|].
  assert (EP : p = p_clean K x) by (rewrite Ep; unfold estimate_p; destruct (String.eqb_spec model "multiplex"); [contradiction|reflexivity]).
  assert (EP' : p' = p_float K x') by (rewrite Ep'; unfold fl_estimate_p; destruct (String.eqb_spec model "multiplex"); [contradiction|reflexivity]).
  destruct (@p_float_range K x' HK PB) as [RG ONE]. rewrite <- EP' in RG, ONE. pose proof u64_pos as U. fold T in T1, X2, PP.
  assert (T2 : 2 <= INR T) by (apply (le_INR 2); lia).
  split; [exact RG|]. split.
  { apply Rle_trans with (1 := PP Nm). unfold persistence_error. destruct (string_dec model "multilevel") as [Em|Em].
    - specialize (X2 Em). assert (X3 : x <= 2). { apply Rle_trans with (1 := X2). apply Rmult_le_reg_r with (INR T - 1); [lra|]. unfold Rdiv. rewrite Rmult_assoc, Rinv_l by lra. lra. }
      assert ((2 * INR T + 4) * u64 * x <= (2 * INR T + 4) * u64 * 2) by (apply Rmult_le_compat_l; [apply Rmult_le_pos; lra|lra]). lra.
    - specialize (X1 Em). assert (u64 * x <= u64 * 1) by (apply Rmult_le_compat_l; lra). lra. }
  split; [split; [exact F1|split; [exact F2|exact ONE]]|].
  intros ->. destruct (PQ ltac:(discriminate)) as (Q1 & Q2 & Q3). destruct (P1 ltac:(discriminate)) as [L1 L2]. split.
  - destruct (Nat.le_gt_cases K 1) as [K1|K1].
    + assert (A1 : p' = 1) by (apply ONE; auto). assert (A2 : p = 1) by (rewrite EP; apply p_clean_one; auto). lra.
    + rewrite EP, EP', Q1, Q2. symmetry. apply p_zero; auto; [apply kept_le|apply (um_inter_edges _ _ _ _ _ _ _ _ Hu)].
  - rewrite ONE, EP, p_clean_one. split; intros [A|A]; auto; left; [destruct (Rlt_dec x 1) as [B|B]; [specialize (L1 B)|]; lra|destruct (Rlt_dec x' 1) as [B|B]; [specialize (L2 B)|]; lra].
Qed.
Print Assumptions C90_probability.

(** In the multiplex model the root finder gets the equation of the rounded persistence. *)
Theorem C90_multiplex : forall psum env g h gi lv c K oN oT oNt om, python_sum psum -> unit_multilayer env g h gi lv c K "multiplex" ->
  let E := weighted_edges h (repeat 1 (ecount g)) in let T := S (list_max lv) in let N := (vcount g / T)%nat in
  omitted_or oN N -> omitted_or oT T -> omitted_or oNt (map (nodes_in lv) (seq 0 T)) -> omitted_or om (map (weight_in E lv) (seq 0 T)) ->
  exists x a b p, is_persistence "multiplex" gi lv N T c x /\
    snd (fl_estimate_multilayer_SBM_parameters psum env g gi lv (mkPart K c) "multiplex" oN oT oNt om) = Ok (a, b, p, K) /\
    is_copying_probability (ee_fsolve env) "multiplex" K T (binary64 x) p /\ (x < 1 <-> binary64 x < 1).
Proof.
  intros psum env g h gi lv c K oN oT oNt om Hps Hu E T N H1 H2 H3 H4.
  destruct (um_near psum env g h gi lv c K "multiplex" oN oT oNt om Hps Hu H1 H2 H3 H4) as
    (a & b & p & a' & b' & p' & x & x' & R1 & _ & _ & R2 & _ & _ & Hp & PE & P1 & P0 & Ep & Ep' & PP & (f & F1 & F2) & PB & PQ & X0 & X1 & X2 & T1 & _).
  destruct (PQ ltac:(discriminate)) as (Q1 & _). rewrite <- Q1 in *. exists x, a', b', p'. split; [exact Hp|]. rewrite R2. split; [reflexivity|]. split; [|rewrite <- Q1; apply P1; discriminate].
  rewrite <- Q1, Ep'. change (fl_estimate_p env "multiplex" K (S (list_max lv)) x') with (estimate_p env "multiplex" K (S (list_max lv)) x'). apply estimate_p_is.
Qed.
Print Assumptions C90_multiplex.

(** Two temporal layers with a path each: the hypotheses hold, theta_in is 4/5 and theta_out 4/3; neither is a double. *)
Lemma two_paths_unit env : ee_contains env two_paths = true -> unit_multilayer env two_paths two_paths two_paths_i two_paths_lv two_paths_c 2 "temporal".
Proof.
  intros He. destruct two_paths_valid as (W1 & W2 & V).
  constructor; auto; try (cbn; lia).
  - rewrite He. reflexivity.
  - left. reflexivity.
Qed.
Example C90_example : forall psum env, python_sum psum -> ee_contains env two_paths = true ->
  exists p a b q, estimate_multilayer_SBM_parameters env two_paths two_paths_i two_paths_lv (mkPart 2 two_paths_c) "temporal" None None None None = (two_paths, Ok (4 / 5, 4 / 3, p, 2%nat)) /\
    fl_estimate_multilayer_SBM_parameters psum env two_paths two_paths_i two_paths_lv (mkPart 2 two_paths_c) "temporal" None None None None = (two_paths, Ok (a, b, q, 2%nat)) /\
    Rabs (a - 4 / 5) <= 7 * u64 /\ Rabs (b - 4 / 3) <= 19 * u64.
Proof.
  intros psum env Hps He. destruct (C90_thetas psum env _ _ _ _ _ _ _ None None None None Hps (two_paths_unit env He)) as (p & a & b & q & R1 & R2 & A & B); try (left; reflexivity).
  destruct two_paths_sums as (S1 & S2 & S3 & S4). cbv zeta in R1, A, B. change (repeat 1 (ecount two_paths)) with [1; 1; 1; 1] in R1, A, B.
  change (vcount two_paths) with 6%nat in R1, A, B. change (S (list_max two_paths_lv)) with 2%nat in R1, A, B. rewrite S1, S2, S3, S4 in R1. rewrite S1, S2 in A. rewrite S3, S4 in B.
  destruct (Req_EM_T 3 0) as [Z|_]; [lra|]. exists p, a, b, q. split; [exact R1|]. split; [exact R2|]. pose proof u64_pos. destruct A as [A _], B as [B _].
  change (INR 2) with 2 in A. replace (INR (ecount two_paths)) with 4 in B by (cbn; lra). split; [apply Rle_trans with (1 := A); lra|apply Rle_trans with (1 := B); lra].
Qed.
