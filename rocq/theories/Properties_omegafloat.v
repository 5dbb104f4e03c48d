(** Property theorems about gamma_omega_estimate in double precision: C91. *)
From Verif Require Import PyBase PyGraph M_partition M_champ M_leiden M_estimation_utils M_estimation M_float M_multifloat Spec Spec_graph Spec_leiden Spec_sbm Spec_float Spec_multifloat
  Spec_multisbm Spec_check Spec_valid L_base L_modularity L_modularity3 L_leiden L_sbm L_sbm2 L_logmean L_check L_float L_float2 L_float3 L_multisbm L_copying L_accepted L_omega
  L_multifloat L_multifloat2 L_multifloat3 L_multifloat4 L_multifloat5 L_multifloat6 Properties_sbm Properties_multisbm Properties_multifloat.
Open Scope R_scope.

(** The exact parameters are on opposite sides of 1, or both 1. *)
Lemma um_sides env g h gi lv c K model : unit_multilayer env g h gi lv c K model ->
  let n := vcount g in let E := weighted_edges h (repeat 1 (ecount g)) in let T := S (list_max lv) in
  (T <= ecount g)%nat /\ lv <> [] /\
  let a := observed_within_layers n E lv T c / expected_within_layers n E lv T c in
  let b := if Req_EM_T (expected_between_layers n E lv T c) 0 then 0 else observed_between_layers n E lv T c / expected_between_layers n E lv T c in
  0 < b -> (a = 1 /\ b = 1) \/ b < 1 < a \/ a < 1 < b.
Proof.
  intros [Hg Hgi Hh Hu Hv Hm Hc HK He Hn Hei] n E T.
  assert (Hh' := Hh). apply weighted_e_defaulted in Hh'. assert (Eh : edges h = edges g) by (rewrite Hh'; unfold weighted_e; destruct (ee_contains env g); reflexivity).
  assert (Vh : vcount h = vcount g) by (rewrite Hh'; apply weighted_e_vcount). assert (Wh : wf_graph h) by (rewrite Hh'; apply weighted_e_wf; auto).
  pose proof (valid_accepted Wh Hv) as Ha. assert (EC : repeat 1 (ecount g) = repeat 1 (length (edges h))) by (rewrite Eh; reflexivity).
  assert (Hpos : forall w, In w (repeat 1 (ecount g)) -> 0 < w) by (intros w Hw; apply repeat_spec in Hw; lra).
  assert (Hc' : length c = vcount h) by congruence.
  pose proof (@acc_EW h gi lv model _ Wh Ha c Hc' Hpos) as A1. pose proof (@acc_OB h lv _ c Hpos) as A3. pose proof (@acc_EB h lv _ Wh c Hpos) as A4. pose proof (@acc_split h gi lv model _ Wh Ha c) as A5.
  rewrite Vh in *. fold n E T in A1, A3, A4, A5.
  split. { assert (Ha2 := Ha). rewrite EC in Ha2. unfold ecount. rewrite <- Eh. eapply (@as_Tm h gi lv c model); eauto. congruence. }
  split. { intros Z. destruct (@acc_facts h gi lv model _ Wh Ha) as (T1 & _). rewrite Z in T1. cbn in T1. lia. }
  set (OW := observed_within_layers n E lv T c) in *. set (EW := expected_within_layers n E lv T c) in *. set (OB := observed_between_layers n E lv T c) in *. set (EB := expected_between_layers n E lv T c) in *.
  intros a b Hb. unfold b in *. destruct (Req_EM_T EB 0) as [Z|Z]; [lra|].
  assert (Ea : a * EW = OW) by (unfold a; field; lra). assert (Eb : OB / EB * EB = OB) by (field; lra). set (y := OB / EB) in *. assert (PE : 0 < EB) by lra.
  destruct (Rtotal_order a 1) as [L|[L|L]].
  - right. right. split; auto. assert (a * EW < 1 * EW) by (apply Rmult_lt_compat_r; lra). apply Rmult_lt_reg_r with EB; lra.
  - left. split; auto. rewrite L in Ea. apply Rmult_eq_reg_r with EB; lra.
  - right. left. split; auto. assert (1 * EW < a * EW) by (apply Rmult_lt_compat_r; lra). apply Rmult_lt_reg_r with EB; lra.
Qed.

Lemma go_unfold psum flog env g gi lv c omax model oN oT oNt om : length c = vcount g -> lv <> [] -> let T := S (list_max lv) in let K := list_max (map S c) in omitted_or oT T ->
  gamma_omega_estimate env g gi lv c omax model oN oT oNt om =
    (let (g', r) := estimate_multilayer_SBM_parameters env g gi lv (mkPart K c) model oN (Some T) oNt om in
     (g', let! (a, b, p, k) := r in let! f := omega_function_from_model model omax T in let! o := f a b p k in Ok (gamma_estimate_from_parameters a b, o))) /\
  fl_gamma_omega_estimate psum flog env g gi lv c omax model oN oT oNt om =
    (let (g', r) := fl_estimate_multilayer_SBM_parameters psum env g gi lv (mkPart K c) model oN (Some T) oNt om in
     (g', let! (a, b, p, k) := r in let! f := fl_omega_function_from_model flog model omax T in let! o := f a b p k in Ok (fl_gamma_estimate_from_parameters flog a b, o))).
Proof.
  intros Hc Hlv T K HoT.
  assert (e1 : or_default oT (layer_count_T lv) = Ok T).
  { destruct HoT as [->| ->]; [|reflexivity]. cbn [or_default]. unfold layer_count_T. rewrite (@py_max_list lv (list_max lv)); auto. cbn [bind]. f_equal. unfold T. lia. }
  unfold gamma_omega_estimate, fl_gamma_omega_estimate. rewrite e1. cbn [bind]. unfold leiden_part_with_membership. rewrite Hc, Nat.eqb_refl. cbn [bind]. fold K. split; reflexivity.
Qed.

Lemma is_persistence_det model gi lv N T c x y : is_persistence model gi lv N T c x -> is_persistence model gi lv N T c y -> x = y.
Proof. intros Fp Hp. destruct Fp as [[A ->]|[[A ->]|[A ->]]], Hp as [[B ->]|[[B ->]|[B ->]]]; auto; congruence. Qed.

(** What all three theorems start from. *)
Lemma um_start psum env g h gi lv c model oN oT oNt om theta_in theta_out p : python_sum psum -> let K := list_max (map S c) in unit_multilayer env g h gi lv c K model ->
  let E := weighted_edges h (repeat 1 (ecount g)) in let T := S (list_max lv) in let N := (vcount g / T)%nat in
  omitted_or oN N -> omitted_or oT T -> omitted_or oNt (map (nodes_in lv) (seq 0 T)) -> omitted_or om (map (weight_in E lv) (seq 0 T)) ->
  snd (estimate_multilayer_SBM_parameters env g gi lv (mkPart K c) model oN oT oNt om) = Ok (theta_in, theta_out, p, K) ->
  exists a' b' p' x x',
    estimate_multilayer_SBM_parameters env g gi lv (mkPart K c) model oN (Some T) oNt om = (h, Ok (theta_in, theta_out, p, K)) /\
    fl_estimate_multilayer_SBM_parameters psum env g gi lv (mkPart K c) model oN (Some T) oNt om = (h, Ok (a', b', p', K)) /\
    (forall a2 b2 p2, snd (fl_estimate_multilayer_SBM_parameters psum env g gi lv (mkPart K c) model oN oT oNt om) = Ok (a2, b2, p2, K) -> p2 = p') /\
    near ((2 * INR T + 4) * u64) theta_in a' /\ near ((2 * INR (ecount g) + 6) * u64) theta_out b' /\
    (0 < theta_out -> (theta_in = 1 /\ theta_out = 1) \/ theta_out < 1 < theta_in \/ theta_in < 1 < theta_out) /\
    p = estimate_p env model K T x /\ p' = fl_estimate_p env model K T x' /\ binary64 x' = x' /\
    (model <> "multiplex"%string -> Rabs (p' - p) <= probability_error model T) /\
    (T <= ecount g)%nat /\ lv <> [] /\ length c = vcount g /\ INR (ecount g) <= 16777216 /\ 0 <= x.
Proof.
  intros Hps K Hu E T N H1 H2 H3 H4 R0.
  destruct (um_near psum env g h gi lv c K model oN oT oNt om Hps Hu H1 H2 H3 H4) as
    (a0 & b0 & p0 & a0' & b0' & p0' & x0 & x0' & R1 & Ea0 & Eb0 & R2 & _ & _ & Hp0 & _ & _ & _ & Ep0 & Ep0' & _ & (f0 & F01 & F02) & _).
  rewrite R1 in R0. injection R0 as Ta Tb Tp.
  destruct (um_near psum env g h gi lv c K model oN (Some T) oNt om Hps Hu H1 (or_intror eq_refl) H3 H4) as
    (a & b & q & a' & b' & q' & x & x' & S1 & Ea & Eb & S2 & NI & NO & Hp & PE & P1 & P0 & Ep & Ep' & PP & (f & F1 & F2) & PB & PQ & X0 & X1 & X2 & T1 & _).
  assert (EX : x0 = x) by (exact (is_persistence_det _ _ _ _ _ _ _ _ Hp0 Hp)).
  assert (EX' : x0' = x') by (rewrite F01 in F1; injection F1 as ->; rewrite F02 in F2; injection F2; auto).
  destruct (um_sides env g h gi lv c K model Hu) as (Tm & Hlv & Hs).
  assert (E1 : a = theta_in) by congruence. assert (E2 : b = theta_out) by congruence. assert (E3 : q = p) by congruence.
  rewrite <- Ea, <- Eb in Hs. rewrite E1, E2 in *. rewrite E3 in *.
  exists a', b', q', x, x'. split; [exact S1|]. split; [exact S2|].
  split. { intros a2 b2 p2 Z. rewrite R2 in Z. injection Z as _ _ <-. congruence. }
  split; [exact NI|]. split; [exact NO|]. split; [exact Hs|]. split; [exact Ep|]. split; [exact Ep'|]. split; [exact PB|].
  split.
  { intros Nm. pose proof u64_pos as U. fold T in T1, X2, PP. assert (T2 : 2 <= INR T) by (apply (le_INR 2); lia).
    apply Rle_trans with (1 := PP Nm). unfold persistence_error, probability_error. destruct (string_dec model "multilevel") as [Em|Em].
    - specialize (X2 Em). assert (X3 : x <= 2). { apply Rle_trans with (1 := X2). apply Rmult_le_reg_r with (INR T - 1); [lra|]. unfold Rdiv. rewrite Rmult_assoc, Rinv_l by lra. lra. }
      assert ((2 * INR T + 4) * u64 * x <= (2 * INR T + 4) * u64 * 2) by (apply Rmult_le_compat_l; [apply Rmult_le_pos; lra|lra]). lra.
    - specialize (X1 Em). assert (u64 * x <= u64 * 1) by (apply Rmult_le_compat_l; lra). lra. }
  split; [exact Tm|]. split; [exact Hlv|]. split; [apply (um_labels _ _ _ _ _ _ _ _ Hu)|]. split; [|exact X0].
  pose proof (um_edges _ _ _ _ _ _ _ _ Hu). rewrite INR_IZR_INZ. apply IZR_le. lia.
Qed.

Lemma start_sides T m a b a' b' : near ((2 * INR T + 4) * u64) a a' -> near ((2 * INR m + 6) * u64) b b' -> (T <= m)%nat -> INR m <= 16777216 ->
  off_one ((2 * INR T + 10) * u64) a -> (b <> 0 -> off_one ((2 * INR m + 12) * u64) b) -> (0 < b -> (a = 1 /\ b = 1) \/ b < 1 < a \/ a < 1 < b) ->
  (0 < b -> (b < 1 < a /\ b' <= 1 - 4 * u64 /\ 1 + 4 * u64 <= a') \/ (a < 1 < b /\ a' <= 1 - 4 * u64 /\ 1 + 4 * u64 <= b')) /\ a <> 1 /\ a' <> 1.
Proof.
  intros NI NO Tm Mm OI OO HS. pose proof u64_pos as U. apply le_INR in Tm. pose proof (pos_INR T) as T0.
  replace ((2 * INR T + 10) * u64) with ((2 * INR T + 4) * u64 + 6 * u64) in OI by ring. replace ((2 * INR m + 12) * u64) with ((2 * INR m + 6) * u64 + 6 * u64) in OO by ring.
  assert (B1 : 0 <= (2 * INR T + 4) * u64 <= 33554440 * u64) by (split; [apply Rmult_le_pos|apply Rmult_le_compat_r]; lra).
  assert (B2 : 0 <= (2 * INR m + 6) * u64 <= 33554440 * u64) by (split; [apply Rmult_le_pos|apply Rmult_le_compat_r]; lra).
  destruct (margin NI B1 OI) as (M1 & M2 & M3 & M4). split; [|auto]. intros Hb. destruct (margin NO B2 (OO ltac:(lra))) as (M5 & M6 & M7 & M8).
  destruct (HS Hb) as [[Z _]|[S1|S1]]; [contradiction|left|right]; split; auto; split; (apply M1 || apply M2 || apply M5 || apply M6); lra.
Qed.

(** ** C91: both versions return for the same graph object; the gamma estimates have relative error at most (2m+11)u + 2e and the omega
    estimates at most 8r + 2d + 5e, where r is the relative error of the copying probability p and of 1 - p, and d the relative error of
    the logarithm of theta_in / theta_out, both at most 1/64. *)
Theorem C91_gamma_omega : forall psum flog e env g h gi lv c model oN oT oNt om omega_max theta_in theta_out p r d,
  python_sum psum -> 0 <= e <= / 1024 -> accurate_log e flog ->
  let K := list_max (map S c) in unit_multilayer env g h gi lv c K model -> model <> "multiplex"%string -> (Z.of_nat K <= 2 ^ 53)%Z ->
  let E := weighted_edges h (repeat 1 (ecount g)) in let T := S (list_max lv) in let m := INR (ecount g) in
  omitted_or oN (vcount g / T)%nat -> omitted_or oT T -> omitted_or oNt (map (nodes_in lv) (seq 0 T)) -> omitted_or om (map (weight_in E lv) (seq 0 T)) ->
  snd (estimate_multilayer_SBM_parameters env g gi lv (mkPart K c) model oN oT oNt om) = Ok (theta_in, theta_out, p, K) ->
  0 < theta_in -> off_one ((2 * INR T + 10) * u64) theta_in -> (theta_out <> 0 -> off_one ((2 * m + 12) * u64) theta_out) ->
  probability_error model T <= r * p -> probability_error model T <= r * (1 - p) -> r <= / 64 ->
  (4 * INR T + 4 * m + 20) * u64 <= d * Rabs (log_ratio theta_in theta_out) -> d <= / 64 ->
  exists gamma gamma' omega omega',
    gamma_omega_estimate env g gi lv c omega_max model oN oT oNt om = (h, Ok (gamma, omega)) /\
    fl_gamma_omega_estimate psum flog env g gi lv c omega_max model oN oT oNt om = (h, Ok (gamma', omega')) /\
    close_outcome ((2 * m + 11) * u64 + 2 * e) (Ok gamma) (Ok gamma') /\
    Rabs (omega' - omega) <= (8 * r + 2 * d + 5 * e) * Rabs omega.
Proof.
  intros psum flog e env g h gi lv c model oN oT oNt om omax ti to p r d Hps He Hl K Hu Nm HK53 E T m H1 H2 H3 H4 R0 Pti OI OO Q1 Q2 Hr Q3 Hd.
  destruct (um_start psum env g h gi lv c model oN oT oNt om ti to p Hps Hu H1 H2 H3 H4 R0) as (a' & b' & p' & x & x' & S1 & S2 & _ & NI & NO & HS & Ep & Ep' & PB & PP & Tm & Hlv & Hc & Mm & X0).
  specialize (PP Nm). fold K T in NI, S1, S2, Tm, PP, Ep, Ep'. fold m in NO, Mm.
  destruct (go_unfold psum flog env g gi lv c omax model oN oT oNt om Hc Hlv H2) as [G1 G2]. fold K T in G1, G2. rewrite S1 in G1. rewrite S2 in G2. cbn [bind] in G1, G2.
  destruct (start_sides T (ecount g) ti to a' b' NI NO Tm Mm OI OO HS) as [SS [A1 A1']].
  pose proof u64_pos as U. pose proof u64_eq as U1. assert (T0 := pos_INR T). assert (TM : INR T <= m) by (apply le_INR; exact Tm). assert (T1 : 1 <= INR T) by (apply (le_INR 1); unfold T; lia).
  assert (PE8 : 8 * u64 <= probability_error model T). { unfold probability_error. destruct (string_dec model "multilevel"); [apply Rmult_le_compat_r; lra|lra]. }
  assert (EP : p = p_clean K x) by (rewrite Ep; unfold estimate_p; destruct (String.eqb_spec model "multiplex"); [contradiction|reflexivity]).
  assert (EP' : p' = p_float K x') by (rewrite Ep'; unfold fl_estimate_p; destruct (String.eqb_spec model "multiplex"); [contradiction|reflexivity]).
  assert (Hp0 : 0 <= p). { rewrite EP. unfold p_clean. destruct (_ && _); [apply Rmax_r|lra]. }
  assert (r0 : 0 < r). { destruct (Rlt_dec 0 r); [auto|]. assert (r * p <= 0 * p) by (apply Rmult_le_compat_r; lra). lra. }
  assert (Pp : 0 < p < 1). { split; [destruct (Rlt_dec 0 p); [auto|]; assert (r * p <= r * 0) by (apply Rmult_le_compat_l; lra); lra|]. destruct (Rlt_dec p 1) as [L|L]; [auto|]. assert (r * (1 - p) <= 0); [|lra]. replace (r * (1 - p)) with (- (r * (p - 1))) by ring. assert (0 <= r * (p - 1)) by (apply Rmult_le_pos; lra). lra. }
  assert (K1 : (1 < K)%nat). { destruct (Nat.le_gt_cases K 1) as [L|L]; [|lia]. exfalso. assert (p = 1) by (rewrite EP; apply p_clean_one; auto). lra. }
  assert (Fp : binary64 p' = p'). { rewrite EP'. unfold p_float. destruct (_ && _); [|exact (b64_INR 1 ltac:(lia))]. destruct (Rle_dec (binary64 (fl_sub (fl_mul (INR K) x') 1 / (INR K - 1))) 0) as [L|L]; [rewrite Rmax_right by lra; apply b64_0|rewrite Rmax_left by lra; apply b64_idem]. }
  assert (Ra : u64 <= (2 * INR T + 4) * u64 <= / 1024). { split; [apply Rle_trans with (1 * u64); [lra|apply Rmult_le_compat_r; lra]|]. apply Rle_trans with (33554440 * u64); [apply Rmult_le_compat_r; lra|lra]. }
  assert (Rb : u64 <= (2 * m + 6) * u64 <= / 1024). { split; [apply Rle_trans with (1 * u64); [lra|apply Rmult_le_compat_r; lra]|]. apply Rle_trans with (33554440 * u64); [apply Rmult_le_compat_r; lra|lra]. }
  destruct (@temporal_rel flog e K p p' (probability_error model T) r ti to a' b' ((2 * INR T + 4) * u64) ((2 * m + 6) * u64) d omax) as (y & Y1 & Y2 & Y3); auto.
  { intros Pb. destruct (SS Pb) as [(_ & X)|(_ & X)]; [left|right]; exact X. }
  { apply Rle_trans with (2 := Q3). right. ring. }
  exists (gamma_estimate_from_parameters ti to), (fl_gamma_estimate_from_parameters flog a' b'), (ln (1 + p * INR K / (1 - p)) / (2 * log_ratio ti to)), y.
  assert (MO : model = "temporal"%string \/ model = "multilevel"%string) by (destruct (um_model _ _ _ _ _ _ _ _ Hu) as [M|[M|M]]; auto; contradiction).
  assert (F1 : omega_function_from_model model omax T = Ok (fun a b p k => temporal_multilevel_omega_estimate_from_parameters a b p k omax)) by (destruct MO as [-> | ->]; reflexivity).
  assert (F2 : fl_omega_function_from_model flog model omax T = Ok (fun a b p k => fl_temporal_multilevel_omega_estimate_from_parameters flog a b p k omax)) by (destruct MO as [-> | ->]; reflexivity).
  rewrite F1 in G1. rewrite F2 in G2. cbn [bind] in G1, G2. rewrite Y1 in G1. rewrite Y2 in G2. cbn [bind] in G1, G2.
  split; [exact G1|]. split; [exact G2|]. split; [|exact Y3].
  apply (@gamma_multi_near flog e (ecount g) ((2 * INR T + 4) * u64)); auto.
  - split; [apply pos_INR|exact Mm].
  - split; [lra|]. apply Rmult_le_compat_r; fold m; lra.
Qed.
Print Assumptions C91_gamma_omega.

(** In the temporal model, if p is 0 the omega estimate is 0 and if p is 1 it is omega_max, also in double precision, and the gamma
    estimates agree as above. *)
Theorem C91_temporal_extremes : forall psum flog e env g h gi lv c oN oT oNt om omega_max theta_in theta_out p,
  python_sum psum -> 0 <= e <= / 1024 -> accurate_log e flog ->
  let K := list_max (map S c) in unit_multilayer env g h gi lv c K "temporal" -> (Z.of_nat K <= 2 ^ 53)%Z ->
  let E := weighted_edges h (repeat 1 (ecount g)) in let T := S (list_max lv) in let m := INR (ecount g) in
  omitted_or oN (vcount g / T)%nat -> omitted_or oT T -> omitted_or oNt (map (nodes_in lv) (seq 0 T)) -> omitted_or om (map (weight_in E lv) (seq 0 T)) ->
  snd (estimate_multilayer_SBM_parameters env g gi lv (mkPart K c) "temporal" oN oT oNt om) = Ok (theta_in, theta_out, p, K) ->
  (theta_out = 0 \/ off_one ((2 * INR T + 10) * u64) theta_in /\ off_one ((2 * m + 12) * u64) theta_out) ->
  p = 0 \/ p = 1 ->
  exists gamma gamma', let omega := if Req_EM_T p 0 then 0 else omega_max in
    gamma_omega_estimate env g gi lv c omega_max "temporal" oN oT oNt om = (h, Ok (gamma, omega)) /\
    fl_gamma_omega_estimate psum flog env g gi lv c omega_max "temporal" oN oT oNt om = (h, Ok (gamma', omega)) /\
    close_outcome ((2 * m + 11) * u64 + 2 * e) (Ok gamma) (Ok gamma').
Proof.
  intros psum flog e env g h gi lv c oN oT oNt om omax ti to p Hps He Hl K Hu HK53 E T m H1 H2 H3 H4 R0 HO Hp.
  destruct (um_start psum env g h gi lv c _ oN oT oNt om ti to p Hps Hu H1 H2 H3 H4 R0) as (a' & b' & p' & x & x' & S1 & S2 & _ & NI & NO & HS & Ep & Ep' & PB & PP & Tm & Hlv & Hc & Mm & X0).
  fold K T in NI, S1, S2, Tm, Ep, Ep'. fold m in NO, Mm.
  destruct (go_unfold psum flog env g gi lv c omax "temporal" oN oT oNt om Hc Hlv H2) as [G1 G2]. fold K T in G1, G2. rewrite S1 in G1. rewrite S2 in G2. cbn [bind] in G1, G2.
  destruct (C90_probability psum env g h gi lv c K "temporal" oN (Some T) oNt om Hps Hu ltac:(discriminate) HK53 H1 (or_intror eq_refl) H3 H4) as
    (u1 & u2 & u3 & v1 & v2 & v3 & f & y & U1 & V1 & _ & _ & _ & Hz). rewrite S1 in U1. rewrite S2 in V1. cbn [snd] in U1, V1. injection U1 as <- <- <-. injection V1 as <- <- <-.
  destruct (Hz eq_refl) as [Z0 Z1].
  assert (F1 : omega_function_from_model "temporal" omax T = Ok (fun a b p k => temporal_multilevel_omega_estimate_from_parameters a b p k omax)) by reflexivity.
  assert (F2 : fl_omega_function_from_model flog "temporal" omax T = Ok (fun a b p k => fl_temporal_multilevel_omega_estimate_from_parameters flog a b p k omax)) by reflexivity.
  rewrite F1 in G1. rewrite F2 in G2. cbn [bind] in G1, G2.
  assert (X : temporal_multilevel_omega_estimate_from_parameters ti to p K omax = Ok (if Req_EM_T p 0 then 0 else omax) /\
              fl_temporal_multilevel_omega_estimate_from_parameters flog a' b' p' K omax = Ok (if Req_EM_T p 0 then 0 else omax)).
  { unfold temporal_multilevel_omega_estimate_from_parameters, fl_temporal_multilevel_omega_estimate_from_parameters. destruct Hp as [Hp|Hp].
    - assert (p' = 0) by (apply Z0; auto). destruct (Req_EM_T p 0); [|contradiction]. destruct (Req_EM_T p' 0); [auto|contradiction].
    - assert (p' = 1) by (apply Z1; auto). destruct (Req_EM_T p 0); [lra|]. destruct (Req_EM_T p' 0); [lra|]. destruct (Rlt_dec p 1); [lra|]. destruct (Rlt_dec p' 1); [lra|].
      destruct (Req_EM_T to 0), (Req_EM_T b' 0); auto. }
  destruct X as [Y1 Y2]. rewrite Y1 in G1. rewrite Y2 in G2. cbn [bind] in G1, G2.
  exists (gamma_estimate_from_parameters ti to), (fl_gamma_estimate_from_parameters flog a' b'). cbv zeta. split; [exact G1|]. split; [exact G2|].
  pose proof u64_pos as U. assert (TM : INR T <= m) by (apply le_INR; exact Tm). assert (T0 := pos_INR T).
  apply (@gamma_multi_near flog e (ecount g) ((2 * INR T + 4) * u64)); auto.
  - split; [apply pos_INR|exact Mm].
  - split; [apply Rmult_le_pos; lra|]. apply Rmult_le_compat_r; fold m; lra.
  - intros Pa Pb. destruct HO as [Z|[OI OO]]; [lra|].
    destruct (start_sides T (ecount g) ti to a' b' NI NO Tm Mm OI (fun _ => OO) HS) as [SS _]. apply SS. exact Pb.
Qed.
Print Assumptions C91_temporal_extremes.

(** In the multiplex model the probability q is whatever double the root finder returned: the omega estimate is that of q, with the
    same error bound. *)
Theorem C91_multiplex : forall psum flog e env g h gi lv c oN oT oNt om omega_max theta_in theta_out p a b q r d,
  python_sum psum -> 0 <= e <= / 1024 -> accurate_log e flog ->
  let K := list_max (map S c) in unit_multilayer env g h gi lv c K "multiplex" -> (Z.of_nat K <= 2 ^ 53)%Z ->
  let E := weighted_edges h (repeat 1 (ecount g)) in let T := S (list_max lv) in let m := INR (ecount g) in
  omitted_or oN (vcount g / T)%nat -> omitted_or oT T -> omitted_or oNt (map (nodes_in lv) (seq 0 T)) -> omitted_or om (map (weight_in E lv) (seq 0 T)) ->
  snd (estimate_multilayer_SBM_parameters env g gi lv (mkPart K c) "multiplex" oN oT oNt om) = Ok (theta_in, theta_out, p, K) ->
  snd (fl_estimate_multilayer_SBM_parameters psum env g gi lv (mkPart K c) "multiplex" oN oT oNt om) = Ok (a, b, q, K) -> binary64 q = q ->
  0 < theta_in -> off_one ((2 * INR T + 10) * u64) theta_in -> (theta_out <> 0 -> off_one ((2 * m + 12) * u64) theta_out) ->
  0 < q < 1 -> 8 * u64 <= r * q -> 8 * u64 <= r * (1 - q) -> r <= / 64 ->
  (4 * INR T + 4 * m + 20) * u64 <= d * Rabs (log_ratio theta_in theta_out) -> d <= / 64 ->
  exists gamma' omega', let omega := ln (1 + q * INR K / (1 - q)) / (INR T * log_ratio theta_in theta_out) in
    fl_gamma_omega_estimate psum flog env g gi lv c omega_max "multiplex" oN oT oNt om = (h, Ok (gamma', omega')) /\
    close_outcome ((2 * m + 11) * u64 + 2 * e) (Ok (gamma_estimate_from_parameters theta_in theta_out)) (Ok gamma') /\
    Rabs (omega' - omega) <= (8 * r + 2 * d + 5 * e) * Rabs omega.
Proof.
  intros psum flog e env g h gi lv c oN oT oNt om omax ti to p a b q r d Hps He Hl K Hu HK53 E T m H1 H2 H3 H4 R0 R2 Fq Pti OI OO Pq Q1 Q2 Hr Q3 Hd.
  destruct (um_start psum env g h gi lv c _ oN oT oNt om ti to p Hps Hu H1 H2 H3 H4 R0) as (a' & b' & p' & x & x' & S1 & S2 & SU & NI & NO & HS & Ep & Ep' & PB & PP & Tm & Hlv & Hc & Mm & X0).
  fold K T in NI, S1, S2, Tm, Ep, Ep'. fold m in NO, Mm. pose proof (SU _ _ _ R2) as <-.
  destruct (go_unfold psum flog env g gi lv c omax "multiplex" oN oT oNt om Hc Hlv H2) as [_ G2]. fold K T in G2. rewrite S2 in G2. cbn [bind] in G2.
  destruct (start_sides T (ecount g) ti to a' b' NI NO Tm Mm OI OO HS) as [SS [A1 A1']].
  pose proof u64_pos as U. pose proof u64_eq as U1. assert (T0 := pos_INR T). assert (TM : INR T <= m) by (apply le_INR; exact Tm). assert (T1 : 1 <= INR T) by (apply (le_INR 1); unfold T; lia).
  assert (K1 : (1 < K)%nat). { destruct (Nat.le_gt_cases K 1) as [L|L]; [|lia]. exfalso. assert (q = 1); [|lra]. rewrite Ep'. unfold fl_estimate_p. cbn [String.eqb]. assert (EL : Nat.ltb 1 K = false) by (apply Nat.ltb_ge; lia). rewrite EL, andb_false_r. destruct (Rlt_dec 1 0); [lra|]. reflexivity. }
  assert (Ra : u64 <= (2 * INR T + 4) * u64 <= / 1024). { split; [apply Rle_trans with (1 * u64); [lra|apply Rmult_le_compat_r; lra]|]. apply Rle_trans with (33554440 * u64); [apply Rmult_le_compat_r; lra|lra]. }
  assert (Rb : u64 <= (2 * m + 6) * u64 <= / 1024). { split; [apply Rle_trans with (1 * u64); [lra|apply Rmult_le_compat_r; lra]|]. apply Rle_trans with (33554440 * u64); [apply Rmult_le_compat_r; lra|lra]. }
  destruct (@multiplex_rel flog e K q q (8 * u64) r ti to a' b' ((2 * INR T + 4) * u64) ((2 * m + 6) * u64) d omax) with (T := T) as (y & Y1 & Y2 & Y3); auto; try lra.
  { rewrite Rminus_diag_eq, Rabs_R0 by reflexivity. lra. }
  { intros Pb. destruct (SS Pb) as [(_ & X)|(_ & X)]; [left|right]; exact X. }
  { unfold T. lia. }
  assert (F2 : fl_omega_function_from_model flog "multiplex" omax T = Ok (fun a b p k => fl_multiplex_omega_estimate_from_parameters flog a b p k T omax)) by reflexivity.
  rewrite F2 in G2. cbn [bind] in G2. rewrite Y2 in G2. cbn [bind] in G2.
  exists (fl_gamma_estimate_from_parameters flog a' b'), y. cbv zeta. split; [exact G2|]. split; [|exact Y3].
  apply (@gamma_multi_near flog e (ecount g) ((2 * INR T + 4) * u64)); auto.
  - split; [apply pos_INR|exact Mm].
  - split; [lra|]. apply Rmult_le_compat_r; fold m; lra.
Qed.
Print Assumptions C91_multiplex.

(** ... and where the formula does not apply the answer is a bound: 0 for q = 0, omega_max for q >= 1 or a rounded theta_in of 1. *)
Theorem C91_multiplex_extremes : forall psum flog env g gi lv c oN oT oNt om omega_max h a b q K,
  let T := S (list_max lv) in lv <> [] -> length c = vcount g -> omitted_or oT T ->
  fl_estimate_multilayer_SBM_parameters psum env g gi lv (mkPart (list_max (map S c)) c) "multiplex" oN (Some T) oNt om = (h, Ok (a, b, q, K)) ->
  let outcome := fl_gamma_omega_estimate psum flog env g gi lv c omega_max "multiplex" oN oT oNt om in
  (q = 0 -> exists gamma, outcome = (h, Ok (gamma, 0))) /\ (1 <= q -> exists gamma, outcome = (h, Ok (gamma, omega_max))) /\
  (0 < q -> a = 1 -> exists gamma, outcome = (h, Ok (gamma, omega_max))).
Proof.
  intros psum flog env g gi lv c oN oT oNt om omax h a b q K T Hlv Hc H2 R2 outcome.
  destruct (go_unfold psum flog env g gi lv c omax "multiplex" oN oT oNt om Hc Hlv H2) as [_ G2]. fold T in G2. rewrite R2 in G2. cbn [bind] in G2.
  assert (F2 : fl_omega_function_from_model flog "multiplex" omax T = Ok (fun a b p k => fl_multiplex_omega_estimate_from_parameters flog a b p k T omax)) by reflexivity.
  rewrite F2 in G2. cbn [bind] in G2. unfold outcome. clear outcome. unfold fl_multiplex_omega_estimate_from_parameters in G2. split; [|split].
  - intros ->. destruct (Req_EM_T 0 0); [|lra]. cbn [bind] in G2. eauto.
  - intros Q. destruct (Req_EM_T q 0); [lra|]. destruct (Rle_dec 1 q); [|lra]. cbn [bind] in G2. eauto.
  - intros Q ->. destruct (Req_EM_T q 0); [lra|]. destruct (Req_EM_T 1 1); [|lra]. destruct (Rle_dec 1 q); cbn [bind] in G2; eauto.
Qed.
Print Assumptions C91_multiplex_extremes.

(** Two temporal layers with a path each: theta_in = 4/5, theta_out = 4/3, p = 1/3; the omega estimate is ln 2 / (2 ln (3/5)). *)
Example C91_example : forall psum flog e env, python_sum psum -> 0 <= e <= / 1024 -> accurate_log e flog -> ee_contains env two_paths = true ->
  let omega := ln 2 / (2 * (ln (4 / 5) - ln (4 / 3))) in
  exists gamma' omega', fl_gamma_omega_estimate psum flog env two_paths two_paths_i two_paths_lv two_paths_c 1000 "temporal" None None None None = (two_paths, Ok (gamma', omega')) /\
    Rabs (omega' - omega) <= (412 * u64 + 5 * e) * Rabs omega.
Proof.
  intros psum flog e env Hps He Hl Hc omega. pose proof (two_paths_unit env Hc) as Hu. pose proof u64_pos as U. pose proof u64_eq as U1.
  destruct (C90_example psum env Hps Hc) as (p0 & a0 & b0 & q0 & R0 & _).
  destruct (um_near psum env _ _ _ _ _ _ _ None None None None Hps Hu) as
    (a & b & p & a' & b' & p' & x & x' & R1 & _ & _ & _ & _ & _ & Hx & _ & _ & _ & Ep & _); try (left; reflexivity).
  rewrite R1 in R0. injection R0 as Ea Eb Epp.
  assert (EX : x = 2 / 3). { destruct Hx as [(_ & ->)|[(M & _)|(M & _)]]; [|discriminate M|discriminate M]. cbn. field. }
  assert (EP : p = 1 / 3).
  { rewrite Ep. unfold estimate_p. cbn [String.eqb]. rewrite EX. change (String.eqb "temporal" "multiplex") with false. cbv iota. unfold Rltb. destruct (Rlt_dec (2 / 3) 1); [|lra]. cbn. unfold Rmax. destruct (Rle_dec _ _); lra. }
  rewrite Ea, Eb, EP in R1.
  assert (LD : 2 / 5 <= - log_ratio (4 / 5) (4 / 3)).
  { unfold log_ratio. destruct (Req_EM_T (4 / 3) 0); [lra|]. replace (- (ln (4 / 5) - ln (4 / 3))) with (- ln (3 / 5)).
    - pose proof (@ln_le_m1 (3 / 5) ltac:(lra)). lra.
    - f_equal. rewrite <- (@ln_div (4 / 5) (4 / 3)) by lra. f_equal. field. }
  assert (EL : log_ratio (4 / 5) (4 / 3) = ln (4 / 5) - ln (4 / 3)) by (unfold log_ratio; destruct (Req_EM_T (4 / 3) 0); [lra|reflexivity]).
  assert (M4 : INR (ecount two_paths) = 4) by (cbn; lra).
  destruct (C91_gamma_omega psum flog e env two_paths two_paths two_paths_i two_paths_lv two_paths_c "temporal" None None None None 1000 (4 / 5) (4 / 3) (1 / 3) (24 * u64) (110 * u64)) as (ga & ga' & om & om' & G1 & G2 & _ & B);
    auto; try (left; reflexivity); try discriminate; try (cbn; lia); try lra.
  { change (list_max (map S two_paths_c)) with 2%nat. rewrite R1. reflexivity. }
  { unfold off_one. change (S (list_max two_paths_lv)) with 2%nat. change (INR 2) with 2. rewrite Rabs_left by lra. lra. }
  { intros _. unfold off_one. rewrite M4. rewrite Rabs_pos_eq by lra. lra. }
  { unfold probability_error. destruct (string_dec _ _); [discriminate|]. lra. }
  { unfold probability_error. destruct (string_dec _ _); [discriminate|]. lra. }
  { rewrite M4. change (S (list_max two_paths_lv)) with 2%nat. change (INR 2) with 2. rewrite Rabs_left by lra. assert (110 * u64 * (2 / 5) <= 110 * u64 * - log_ratio (4 / 5) (4 / 3)) by (apply Rmult_le_compat_l; lra). lra. }
  exists ga', om'. split; [exact G2|]. assert (EO : om = omega) by (rewrite (C37_example env Hc) in G1; injection G1 as _ G; auto).
  rewrite EO in B. apply Rle_trans with (1 := B). apply Rmult_le_compat_r; [apply Rabs_pos|]. lra.
Qed.
