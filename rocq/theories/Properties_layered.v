(** Property theorems about the ground truth of the tests of multilayer parameter estimation: C116. *)
From Coq Require Import String.
From Verif Require Import PyBase PyGraph M_partition M_champ M_leiden M_parts M_estimation_utils M_estimation M_checks M_generators M_studies M_esttests
  Spec Spec_graph Spec_leiden Spec_sbm Spec_multisbm Spec_check Spec_valid Spec_iteration Spec_newman Spec_generators Spec_layered
  L_base L_modularity L_leiden L_sbm L_sbm2 L_multisbm L_copying L_logmean L_limits L_float2 L_accepted L_generators L_omega L_prune L_iteration L_newman Properties_sbm Properties_multisbm Properties_iteration Properties_generators Properties_directed L_layered.
From Coq Require Import Classical.
Open Scope list_scope.
Open Scope R_scope.

(** ** The ground truth *)

(** Scaled by the number of vertex pairs in the layers over twice the number of edges E: n = T n/T vertices in T layers. *)
Lemma true_theta_value p T G : wf_graph G -> edges G <> [] -> (0 < vcount G)%nat -> (0 < T)%nat ->
  true_theta p T G = Fin (p * (INR (vcount G) ^ 2 / (2 * INR T * INR (length (edges G))))).
Proof.
  intros W Ne Hv HT. unfold true_theta. rewrite mean_degree by auto. unfold ecount.
  assert (0 < INR (length (edges G))) by (apply (lt_INR 0); destruct (edges G); [congruence|cbn; lia]). assert (0 < INR (vcount G)) by (apply (lt_INR 0); auto). assert (0 < INR T) by (apply (lt_INR 0); auto).
  assert (0 < 2 * INR (length (edges G)) / INR (vcount G)) by (apply Rdiv_lt_0_compat; lra).
  unfold np_div at 1. destruct (Req_EM_T _ 0) as [Z|_]; [apply Rmult_integral in Z; lra|]. cbn [npf_div]. unfold np_div. destruct (Req_EM_T _ 0) as [Z|_]; [lra|]. f_equal. field. lra.
Qed.

(** The tests' true values, in a network with vertices and edges: the logarithmic mean of the two probabilities and the omega formula, both scaled as
    above; without edges gamma is nan and so is omega. *)
Theorem C116_truth : forall p_in p_out T G, wf_graph G -> (0 < vcount G)%nat -> (0 < T)%nat -> 0 < p_out < p_in ->
  (edges G <> [] ->
   let s := INR (vcount G) ^ 2 / (2 * INR T * INR (length (edges G))) in
   sbm_true_gamma p_in p_out T G = Ok (Fin (log_mean (s * p_in) (s * p_out))) /\
   gamma_estimate_from_parameters (s * p_in) (s * p_out) = Some (Fin (log_mean (s * p_in) (s * p_out))) /\
   log_mean (s * p_in) (s * p_out) = s * log_mean p_in p_out /\
   forall eta K factor, 0 <= eta < 1 -> (0 < factor)%nat ->
     sbm_true_omega eta p_in p_out K T factor G = Ok (Fin (ln (1 + eta * INR K / (1 - eta)) / (INR factor * (ln p_in - ln p_out))))) /\
  (edges G = [] -> sbm_true_gamma p_in p_out T G = Ok NonFinite).
Proof.
  intros pi po T G W Hv HT Hp. split.
  - intros Ne s. assert (HE : 0 < INR (length (edges G))) by (apply (lt_INR 0); destruct (edges G); [congruence|cbn; lia]). assert (Hn : 0 < INR (vcount G)) by (apply (lt_INR 0); auto). assert (HTr : 0 < INR T) by (apply (lt_INR 0); auto).
    assert (Hs : 0 < s) by (apply Rdiv_lt_0_compat; [apply pow_lt; auto|apply Rmult_lt_0_compat; lra]).
    assert (Pb : 0 < s * po) by (apply Rmult_lt_0_compat; lra). assert (Pab : s * po < s * pi) by (apply Rmult_lt_compat_l; lra).
    assert (Ti : true_theta pi T G = Fin (s * pi)) by (rewrite true_theta_value by auto; fold s; f_equal; ring).
    assert (To : true_theta po T G = Fin (s * po)) by (rewrite true_theta_value by auto; fold s; f_equal; ring).
    assert (Li : math_log (Fin (s * pi)) = Ok (Fin (ln (s * pi)))) by (unfold math_log, Rltb; destruct (Rlt_dec 0 (s * pi)); [reflexivity|lra]).
    assert (Lo : math_log (Fin (s * po)) = Ok (Fin (ln (s * po)))) by (unfold math_log, Rltb; destruct (Rlt_dec 0 (s * po)); [reflexivity|lra]).
    pose proof (ln_diff_nz (s * pi) (s * po) ltac:(lra) Pb ltac:(lra)) as Nz.
    split; [|split; [|split]].
    + unfold sbm_true_gamma. rewrite Ti, To, Li. cbn [bind]. rewrite Lo. cbn [bind npf_sub npf_div]. unfold np_div. destruct (Req_EM_T _ 0); [contradiction|]. reflexivity.
    + destruct (C29_log_mean (s * pi) (s * po)) as (x & Ex & Vx & _); try lra. rewrite Ex, Vx. reflexivity.
    + apply log_mean_scale; lra.
    + intros eta K factor He Hf. unfold sbm_true_omega. unfold py_div at 1. destruct (Req_EM_T (1 - eta) 0); [lra|]. cbn [bind].
      assert (0 <= eta * INR K / (1 - eta)) by (apply Rmult_le_pos; [apply Rmult_le_pos; [lra|apply pos_INR]|apply Rlt_le, Rinv_0_lt_compat; lra]).
      unfold math_log at 1, Rltb. destruct (Rlt_dec 0 _) as [_|N]; [|lra]. cbn [bind]. rewrite Ti, To, Li. cbn [bind]. rewrite Lo. cbn [bind npf_sub py_div_npf].
      assert (D : ln (s * pi) - ln (s * po) = ln pi - ln po) by (rewrite !ln_mult by lra; ring). rewrite D in *. unfold py_div. destruct (Req_EM_T _ 0) as [Z|_].
      * apply Rmult_integral in Z. assert (0 < INR factor) by (apply (lt_INR 0); auto). lra.
      * reflexivity.
  - intros Ne. unfold sbm_true_gamma, true_theta. rewrite mean_degree by auto. unfold ecount. rewrite Ne. cbn [length]. unfold np_div. destruct (Req_EM_T _ 0) as [_|N]; [reflexivity|].
    exfalso. apply N. cbn. unfold Rdiv. ring.
Qed.
Print Assumptions C116_truth.

(** ** What the library estimates *)
Lemma kept_layers gi lv c T : (forall u v, In (u, v) (edges gi) -> (nth v lv 0 < T)%nat) -> sum_to T (fun t => INR (kept_into gi lv c t)) = INR (kept gi c).
Proof.
  unfold kept_into, kept. induction (edges gi) as [|[u v] es IH]; intros H; [apply sum_to_0; reflexivity|].
  specialize (IH (fun a b Hin => H a b (or_intror Hin))). pose proof (H u v (or_introl eq_refl)) as Hv. cbn [filter snd].
  destruct (keeps_label c (u, v)); cbn [andb]; [|exact IH]. cbn [length]. rewrite S_INR, <- IH.
  rewrite (@sum_to_ext T _ (fun t => (if Nat.eq_dec (nth v lv 0%nat) t then 1 else 0) + INR (length (filter (fun e => keeps_label c e && Nat.eqb (nth (snd e) lv 0%nat) t) es)))).
  - rewrite sum_to_plus, (@sum_to_single T (nth v lv 0%nat) (fun _ => 1)) by auto. ring.
  - intros t _. destruct (Nat.eqb_spec (nth v lv 0%nat) t), (Nat.eq_dec (nth v lv 0%nat) t); try contradiction; cbn [length]; rewrite ?S_INR; lra.
Qed.

Section Est.
Variables (env : est_env) (G gi : graph) (lv c : list nat) (K : nat) (model : string) (eta : R).
Let T := S (list_max lv).
Let N := (vcount G / T)%nat.
Hypothesis (HK : (2 <= K)%nat) (W : wf_graph G) (Wi : wf_graph gi) (Fw : weights G = Some (repeat 1 (length (edges G)))).
Hypothesis (Hv : valid_multilayer G gi (repeat 1 (length (edges G))) lv model) (Hm : is_model model).
Hypothesis (Hev : evenly_layered K T G lv c) (Hk : kept_as_expected model N T K eta gi c) (He : 0 < eta < 1).
Hypothesis (Hroot : model = "multiplex"%string -> forall x, 1 / INR K <= x < 1 ->
  0 <= ee_fsolve env (fun y => multiplex_persistence K T y - x) (1 / 2) /\ multiplex_persistence K T (ee_fsolve env (fun y => multiplex_persistence K T y - x) (1 / 2)) = x).

Lemma persistence_expected x : (1 < T)%nat -> (0 < N)%nat -> is_persistence model gi lv N T c x ->
  x = if string_dec model "multiplex" then multiplex_persistence K T eta else eta + (1 - eta) / INR K.
Proof.
  intros HT HN Hx. assert (Tr : 2 <= INR T) by (apply (le_INR 2); lia). assert (Nr : 1 <= INR N) by (apply (le_INR 1); lia). assert (Kr : 2 <= INR K) by (apply (le_INR 2); lia).
  pose proof (valid_accepted W Hv) as Ha. pose proof (@acc_lv _ gi lv model _ Ha) as Hl. destruct (@acc_facts _ gi lv model _ W Ha) as (_ & _ & Vi & _).
  unfold kept_as_expected in Hk. destruct Hx as [(-> & ->)|[(-> & ->)|(-> & ->)]].
  - destruct (string_dec _ _) as [Q|_]; [discriminate|]. rewrite Hk. field. lra.
  - destruct (string_dec _ _) as [Q|_]; [discriminate|]. destruct Hev as (_ & _ & Hn & _).
    rewrite (@sum_to_ext T _ (fun t => / INR N * INR (kept_into gi lv c t))).
    + rewrite sum_to_scale, kept_layers, Hk; [field; lra|]. intros u v Huv. apply Wi in Huv. rewrite Vi in Huv. unfold T.
      assert (F : Forall (fun k => (k <= list_max lv)%nat) lv) by (apply list_max_le; auto). rewrite Forall_forall in F. specialize (F (nth v lv 0%nat) ltac:(apply nth_In; lia)). lia.
    + intros t Ht. specialize (Hn t Ht). replace (nodes_in lv t) with N by (unfold N; rewrite <- Hn, Nat.mul_comm, Nat.div_mul by lia; reflexivity). unfold Rdiv. ring.
  - destruct (string_dec _ _) as [_|Q]; [|congruence]. rewrite Hk. field. lra.
Qed.

Lemma copying_expected x p : (1 < T)%nat -> (0 < N)%nat -> is_persistence model gi lv N T c x -> is_copying_probability (ee_fsolve env) model K T x p -> p = eta.
Proof.
  intros HT HN Hx Hp. apply persistence_expected in Hx; auto. assert (Kr : 2 <= INR K) by (apply (le_INR 2); lia).
  assert (B : 1 / INR K <= x < 1).
  { destruct (string_dec model "multiplex").
    - assert (HK1 : (1 < K)%nat) by lia. pose proof (@mp_one K T HK1 HT) as Z1. pose proof (@mp_zero K T) as Z0. pose proof (@mp_strict K T HK1 HT 0 eta ltac:(lra)). pose proof (@mp_strict K T HK1 HT eta 1 ltac:(lra)). lra.
    - assert (0 < / INR K) by (apply Rinv_0_lt_compat; lra). assert (/ INR K < 1) by (rewrite <- Rinv_1; apply Rinv_lt_contravar; lra).
      rewrite Hx. replace (eta + (1 - eta) / INR K) with (/ INR K + eta * (1 - / INR K)) by (field; lra). unfold Rdiv. split; [nra|]. nra. }
  destruct Hp as [([Q|Q] & _)|[(_ & _ & M & ->)|(_ & _ & M & ->)]]; [lra|lia| |].
  - destruct (string_dec model "multiplex") as [_|Q]; [|contradiction]. destruct (Hroot M x B) as [R0 R1]. rewrite Rmax_right by auto.
    destruct (C34_unique_solution K T x ltac:(lia) HT B) as (z & _ & _ & U). transitivity z; [apply U; auto|symmetry; apply U; [lra|auto]].
  - destruct (string_dec model "multiplex") as [Q|_]; [contradiction|]. rewrite Hx. replace ((INR K * (eta + (1 - eta) / INR K) - 1) / (INR K - 1)) with eta by (field; lra). apply Rmax_right. lra.
Qed.

(** The estimates of the ground-truth partition. *)
Lemma layered_estimates om : (0 < edges_inside G c < length (edges G))%nat -> INR (length (edges G)) < INR K * INR (edges_inside G c) ->
  let E := INR (length (edges G)) in let M := INR (edges_inside G c) in let a := INR K * M / E in let b := INR K * (E - M) / ((INR K - 1) * E) in
  0 < b < a /\ 1 < a /\ forall rest, weighted_e env G = G ->
  updates_multi env G gi lv model om (mkPart K c :: rest)
    (Ok (Fin (log_mean a b), ln (1 + eta * INR K / (1 - eta)) / ((if string_dec model "multiplex" then INR T else 2) * (ln a - ln b)))).
Proof.
  intros HM HEM E M a b. assert (Kr : 2 <= INR K) by (apply (le_INR 2); lia).
  assert (Ne : edges G <> []) by (destruct (edges G); [cbn in HM; lia|congruence]).
  assert (M0 : 0 < M) by (apply (lt_INR 0); lia). assert (ME : M < E) by (apply lt_INR; lia). assert (HEM' : E < INR K * M) by exact HEM.
  assert (A1 : 1 < a). { unfold a. apply Rmult_lt_reg_r with E; [lra|]. unfold Rdiv. rewrite Rmult_assoc, Rinv_l by lra. lra. }
  assert (B0 : 0 < b) by (apply Rdiv_lt_0_compat; apply Rmult_lt_0_compat; lra).
  assert (B1 : b < 1). { unfold b. apply Rmult_lt_reg_r with ((INR K - 1) * E); [apply Rmult_lt_0_compat; lra|]. unfold Rdiv. rewrite Rmult_assoc, Rinv_l by (apply Rgt_not_eq, Rmult_lt_0_compat; lra). lra. }
  split; [lra|]. split; [auto|]. intros rest We.
  pose proof (valid_accepted W Hv) as Ha. pose proof (@acc_lv _ gi lv model _ Ha) as Hl. destruct (@acc_facts _ gi lv model _ W Ha) as (HT & _ & Vi & _ & Hin & _). fold T in HT.
  assert (Hlv : forall v, (v < vcount G)%nat -> (nth v lv 0 < T)%nat).
  { intros v Hv'. unfold T. assert (F : Forall (fun k => (k <= list_max lv)%nat) lv) by (apply list_max_le; auto). rewrite Forall_forall in F. specialize (F (nth v lv 0%nat) ltac:(apply nth_In; lia)). lia. }
  assert (HN : (0 < N)%nat).
  { destruct Hev as (_ & _ & Hn & _). specialize (Hn 0%nat ltac:(lia)). unfold N. rewrite <- Hn, Nat.mul_comm, Nat.div_mul by lia.
    destruct (nodes_in lv 0); [|lia]. exfalso. destruct (edges G) as [|[u v] es] eqn:Q; [congruence|]. destruct (proj1 W u v); [rewrite Q; left; auto|]. lia. }
  pose proof (@even_sums K T G lv c HK ltac:(lia) W Ne Hin Hlv Hev) as (S1 & S2 & S3 & S4).
  assert (D : weights_defaulted (ee_contains env G) G G) by (apply weighted_e_defaulted; auto).
  destruct (C31_estimates env G G gi (repeat 1 (length (edges G))) lv c K model None None None None W Wi D Fw Hv Hm) as (pers & p & P1 & P2 & P3); try (left; reflexivity); try apply Hev.
  { fold T. rewrite S2. apply Rgt_not_eq, Rdiv_lt_0_compat; [unfold E in *; lra|lra]. }
  fold T N in P1, P2, P3. rewrite S1, S2, S3, S4 in P3. apply copying_expected with (x := pers) in P2; auto. subst p.
  assert (X1 : 2 * INR (edges_inside G c) / (2 * INR (length (edges G)) / INR K) = a) by (unfold a, E, M in *; field; lra). rewrite X1 in P3.
  destruct (Req_EM_T _ 0) as [Z|_] in P3.
  { exfalso. apply (f_equal (fun x => x * INR K)) in Z. unfold Rdiv in Z. rewrite Rmult_assoc, Rinv_l, Rmult_1_r, Rmult_0_l in Z by lra. fold E in Z.
    assert (0 < E * (INR K - 1)) by (apply Rmult_lt_0_compat; lra). lra. }
  assert (X2 : 2 * (INR (length (edges G)) - INR (edges_inside G c)) / (2 * INR (length (edges G)) * (INR K - 1) / INR K) = b) by (unfold b, E, M in *; field; lra). rewrite X2 in P3. clear X1 X2 S1 S2 S3 S4.
  destruct (@omega_function_models model om T Hm) as [f Hf].
  destruct (C29_log_mean a b) as (x & Ex & Vx & _); [lra|lra|lra|].
  eapply both_estimates with (gamma := Fin (log_mean a b)) (p := eta) (f := f) (omega := Ok _).
  - rewrite P3. reflexivity.
  - lra.
  - rewrite Ex, Vx. reflexivity.
  - exact Hf.
  - assert (F : f a b eta K = omega_estimate model T om a b eta K) by (unfold omega_estimate; rewrite Hf; reflexivity). rewrite F.
    apply (C35_formula model T K a b eta om); auto; try lia; lra.
Qed.
End Est.

(** The optimiser always answers with the communities [c], possibly followed by other partitions. *)
Definition finds (opt : opt_env) (lv : list nat) (K : nat) (c : list nat) (rest : list lpart) : Prop :=
  forall k h hi x o, oe_multi opt k h hi lv x o = Ok (mkPart K c :: rest).
(** scipy's root finder, started at 1/2, finds a nonnegative solution of the multiplex model's equation (which is unique, C34). *)
Definition finds_root (env : est_env) (K T : nat) : Prop := forall x, 1 / INR K <= x < 1 ->
  let y := ee_fsolve env (fun y => multiplex_persistence K T y - x) (1 / 2) in 0 <= y /\ multiplex_persistence K T y = x.

(** On every valid network of the three models in which the communities are equally connected in all layers, M of the E edges are inside them (K M > E),
    and the labels persist as often as expected for copying probability eta, the iteration returns the values below if the optimiser always finds
    these communities, whatever the start, the tolerances, the limit of omega and that of iterations. *)
Theorem C116_estimate : forall env opt parts G gi lv c K model eta rest gamma0 omega0 gamma_tol omega_tol omega_max max_iter verbose,
  (2 <= K)%nat -> wf_graph G -> wf_graph gi -> counts_edges (ee_contains env G) G ->
  valid_multilayer G gi (repeat 1 (length (edges G))) lv model -> is_model model -> (1 <= max_iter)%Z ->
  let T := S (list_max lv) in
  evenly_layered K T G lv c -> 0 < eta < 1 -> kept_as_expected model (vcount G / T) T K eta gi c ->
  (0 < edges_inside G c < length (edges G))%nat -> INR (length (edges G)) < INR K * INR (edges_inside G c) ->
  (model = "multiplex"%string -> finds_root env K T) -> finds opt lv K c rest ->
  let E := INR (length (edges G)) in let M := INR (edges_inside G c) in
  let theta_in := INR K * M / E in let theta_out := INR K * (E - M) / ((INR K - 1) * E) in
  exists calls,
    iterative_multilayer_resolution_parameter_estimation env opt parts G gi lv gamma0 omega0 gamma_tol omega_tol omega_max max_iter model verbose
    = (calls, Some (mkPart K c :: rest), (weighted_e env G, weighted_e env gi),
       Ok (Fin (log_mean theta_in theta_out),
           ln (1 + eta * INR K / (1 - eta)) / ((if string_dec model "multiplex" then INR T else 2) * (ln theta_in - ln theta_out)),
           mkPart K c :: rest)).
Proof.
  intros env opt parts G gi lv c K model eta rest g0 o0 gt ot om mi verbose HK W Wi C Hv Hm Hi T Hev He Hk HM HEM Hr Hf E M a b.
  pose proof (weighted_e_wf env W) as Wh.
  assert (Fw : weights (weighted_e env G) = Some (repeat 1 (length (edges G)))).
  { unfold weighted_e, counts_edges in *. destruct (ee_contains env G); [auto|reflexivity]. }
  assert (Hvh : valid_multilayer (weighted_e env G) (weighted_e env gi) (repeat 1 (length (edges G))) lv model).
  { unfold weighted_e. destruct (ee_contains env G), (ee_contains env gi); exact Hv. }
  assert (Hev' : evenly_layered K T (weighted_e env G) lv c) by (unfold weighted_e; destruct (ee_contains env G); exact Hev).
  assert (Hk' : kept_as_expected model (vcount (weighted_e env G) / T) T K eta (weighted_e env gi) c).
  { unfold weighted_e. destruct (ee_contains env G), (ee_contains env gi); exact Hk. }
  assert (Ed : edges_inside (weighted_e env G) c = edges_inside G c) by (unfold edges_inside; rewrite weighted_e_edges; reflexivity).
  destruct (@layered_estimates env (weighted_e env G) (weighted_e env gi) lv c K model eta HK Wh (weighted_e_wf env Wi) ltac:(rewrite weighted_e_edges; exact Fw)
    ltac:(rewrite weighted_e_edges; exact Hvh) Hm Hev' Hk' He Hr om ltac:(rewrite Ed, weighted_e_edges; exact HM) ltac:(rewrite Ed, weighted_e_edges; exact HEM)) as (_ & _ & U).
  specialize (U rest (weighted_e_idem env G)). rewrite Ed, weighted_e_edges in U. fold E M T a b in U.
  destruct (@multi_constant env opt parts G gi (weighted_e env G) (weighted_e env gi) (repeat 1 (length (edges G))) lv g0 o0 gt ot om mi model verbose (mkPart K c :: rest) _ W
    ltac:(apply weighted_e_defaulted; auto) ltac:(apply weighted_e_defaulted; auto) Fw Hvh Hm Hi (fun k x o => Hf k _ _ x o) U) as [calls Q].
  exists calls. exact Q.
Qed.
Print Assumptions C116_estimate.

(** ** The gap *)
Lemma ln_upper x : 0 < x -> ln x <= x - 1.
Proof. intros H. pose proof (exp_ineq1_le (ln x)) as Q. rewrite exp_ln in Q by auto. lra. Qed.
Lemma ln_mono x y : 0 < x -> x <= y -> ln x <= ln y.
Proof. intros H [L| ->]; [apply Rlt_le, ln_increasing; auto|lra]. Qed.
Lemma ln_512 : ln 512 <= 9.
Proof.
  assert (E : 2 <= exp 1) by (pose proof (exp_ineq1_le 1); lra). assert (P : 2 ^ 9 <= exp 1 ^ 9) by (apply pow_incr; lra).
  assert (Q : exp 9 = exp 1 ^ 9). { replace 9 with (1 + (1 + (1 + (1 + (1 + (1 + (1 + (1 + 1)))))))) by lra. rewrite !exp_plus. ring. }
  rewrite <- (ln_exp 9). apply ln_mono; [lra|]. rewrite Q. lra.
Qed.
Lemma ln_3 : 1 <= ln 3.
Proof. rewrite <- (ln_exp 1). apply ln_mono; [apply exp_pos|]. apply exp_le_3. Qed.

Lemma gap_scales k s T pin pout E M : 2 <= k -> 2 <= s -> 1 <= T -> 0 < pout -> pout * s < pin * (s - 1) ->
  2 * M = pin * (T * k * s * (s - 1)) -> 2 * (E - M) = pout * (T * k * (k - 1) * s * s) ->
  let a := k * M / E in let b := k * (E - M) / ((k - 1) * E) in let sc := (k * s * T) ^ 2 / (2 * T * E) in
  0 < M < E /\ E < k * M /\ sc * pin = s / (s - 1) * a /\ sc * pout = b /\ a + b <= k.
Proof.
  intros Hk Hs HT Ho Hp HM HEM a b sc.
  assert (Hpi : 0 < pin). { assert (0 < pout * s) by (apply Rmult_lt_0_compat; lra). apply Rmult_lt_reg_r with (s - 1); lra. }
  assert (P1 : 0 < T * k * s * (s - 1)) by (repeat apply Rmult_lt_0_compat; lra). assert (P2 : 0 < T * k * (k - 1) * s * s) by (repeat apply Rmult_lt_0_compat; lra).
  assert (M0 : 0 < M) by (pose proof (Rmult_lt_0_compat _ _ Hpi P1); lra). assert (ME : M < E) by (pose proof (Rmult_lt_0_compat _ _ Ho P2); lra).
  assert (KM : E < k * M).
  { assert (P3 : 0 < T * k * (k - 1) * s) by (repeat apply Rmult_lt_0_compat; lra).
    assert (pout * s * (T * k * (k - 1) * s) < pin * (s - 1) * (T * k * (k - 1) * s)) by (apply Rmult_lt_compat_r; lra).
    assert ((k - 1) * (2 * M) = pin * (s - 1) * (T * k * (k - 1) * s)) by (rewrite HM; ring). lra. }
  split; [lra|]. split; [auto|]. split; [|split].
  - unfold sc, a. replace M with (pin * (T * k * s * (s - 1)) / 2) by lra. field. lra.
  - unfold sc, b. replace (E - M) with (pout * (T * k * (k - 1) * s * s) / 2) by lra. field. lra.
  - unfold a, b. apply Rmult_le_reg_r with ((k - 1) * E); [apply Rmult_lt_0_compat; lra|].
    replace ((k * M / E + k * (E - M) / ((k - 1) * E)) * ((k - 1) * E)) with (k * ((k - 1) * M + (E - M))) by (field; lra).
    replace (k * ((k - 1) * E)) with (k * ((k - 1) * M + (k - 1) * (E - M))) by ring. apply Rmult_le_compat_l; [lra|].
    assert (0 <= (k - 2) * (E - M)) by (apply Rmult_le_pos; lra). lra.
Qed.

(** A comparison of two omegas whose denominators differ by the logarithm of s/(s-1). *)
Lemma omega_gap L f D s : 0 < L <= 9 -> 2 <= f -> 50 <= s -> 1 <= D + ln (s / (s - 1)) -> Rabs (L / (f * (D + ln (s / (s - 1)))) - L / (f * D)) < 1 / 10.
Proof.
  intros HL Hf Hs HD. set (d := ln (s / (s - 1))) in *.
  assert (R1 : 1 < s / (s - 1)) by (apply Rmult_lt_reg_r with (s - 1); [lra|]; unfold Rdiv; rewrite Rmult_assoc, Rinv_l by lra; lra).
  assert (D0 : 0 < d) by (unfold d; rewrite <- ln_1; apply ln_increasing; lra).
  assert (D1 : d <= 1 / 49).
  { unfold d. eapply Rle_trans; [apply ln_upper; lra|]. replace (s / (s - 1) - 1) with (1 / (s - 1)) by (field; lra). unfold Rdiv. rewrite !Rmult_1_l. apply Rinv_le_contravar; lra. }
  assert (DP : 48 / 49 <= D) by lra.
  assert (Q : L / (f * (D + d)) - L / (f * D) = - (L * d / (f * (D + d) * D))) by (field; lra). rewrite Q, Rabs_Ropp.
  assert (P : 0 < f * (D + d) * D) by (repeat apply Rmult_lt_0_compat; lra).
  rewrite Rabs_right by (apply Rle_ge, Rlt_le, Rdiv_lt_0_compat; [apply Rmult_lt_0_compat; lra|auto]).
  apply Rmult_lt_reg_r with (f * (D + d) * D); auto. unfold Rdiv at 1. rewrite Rmult_assoc, Rinv_l by lra. rewrite Rmult_1_r.
  assert (2 * 1 <= f * (D + d)) by (apply Rmult_le_compat; lra). assert (2 * 1 * (48 / 49) <= f * (D + d) * D) by (apply Rmult_le_compat; lra).
  assert (L * d <= 9 * (1 / 49)) by (apply Rmult_le_compat; lra). lra.
Qed.

(** When the numbers of edges are as expected for s vertices per community and layer, the tests' "true" gamma is above what the library estimates, by
    less than one part in s - 1, because a vertex has s - 1 and not s possible neighbours in its own community, and "true" omega is below the estimate.  The differences
    are within the tests' tolerances (0.05 and 0.1; 0.1 and 0.2 for multiplex) if communities have more than 10 K and at least 50 vertices per layer,
    p_in is at least 3 p_out, and eta is not too close to 1. *)
Theorem C116_gap : forall env opt parts G gi lv c K model eta rest s p_in p_out gamma0 omega0 gamma_tol omega_tol omega_max max_iter verbose,
  (2 <= K)%nat -> wf_graph G -> wf_graph gi -> counts_edges (ee_contains env G) G ->
  valid_multilayer G gi (repeat 1 (length (edges G))) lv model -> is_model model -> (1 <= max_iter)%Z ->
  let T := S (list_max lv) in
  evenly_layered K T G lv c -> 0 < eta < 1 -> kept_as_expected model (vcount G / T) T K eta gi c ->
  layered_as_expected K T s p_in p_out G c -> (2 <= s)%nat -> 0 < p_out -> p_out * INR s < p_in * (INR s - 1) ->
  (model = "multiplex"%string -> finds_root env K T) -> finds opt lv K c rest ->
  exists calls t g w0 w,
    sbm_true_gamma p_in p_out T G = Ok (Fin t) /\
    sbm_true_omega eta p_in p_out K T (if string_dec model "multiplex" then T else 2) G = Ok (Fin w0) /\
    iterative_multilayer_resolution_parameter_estimation env opt parts G gi lv gamma0 omega0 gamma_tol omega_tol omega_max max_iter model verbose
    = (calls, Some (mkPart K c :: rest), (weighted_e env G, weighted_e env gi), Ok (Fin g, w, mkPart K c :: rest)) /\
    0 < g < t /\ t < INR s / (INR s - 1) * g /\ 0 < w0 < w /\
    ((10 * K < s)%nat -> Rabs (t - g) < 5 / 100) /\
    ((50 <= s)%nat -> 3 * p_out <= p_in -> 1 + eta * INR K / (1 - eta) <= 512 -> Rabs (w0 - w) < 1 / 10).
Proof.
  intros env opt parts G gi lv c K model eta rest s pin pout g0 o0 gt ot om mi verbose HK W Wi C Hv Hm Hi T Hev He Hk (Xv & Xi & Xo) Hs Ho Hp Hr Hf.
  assert (Kr : 2 <= INR K) by (apply (le_INR 2); lia). assert (Sr : 2 <= INR s) by (apply (le_INR 2); lia). assert (HT : (1 < T)%nat) by (apply (@acc_facts _ gi lv model _ W (valid_accepted W Hv))).
  assert (Tr : 2 <= INR T) by (apply (le_INR 2); lia).
  destruct (@gap_scales (INR K) (INR s) (INR T) pin pout (INR (length (edges G))) (INR (edges_inside G c)) Kr Sr ltac:(lra) Ho Hp Xi Xo) as (M0 & KM & Sa & Sb & AB).
  set (E := INR (length (edges G))) in *. set (M := INR (edges_inside G c)) in *. set (a := INR K * M / E) in *. set (b := INR K * (E - M) / ((INR K - 1) * E)) in *.
  assert (HM : (0 < edges_inside G c < length (edges G))%nat) by (split; apply INR_lt; [cbn [INR]; fold M; lra|fold E M; lra]).
  assert (Ne : edges G <> []) by (destruct (edges G); [cbn in HM; lia|congruence]).
  assert (Hn : (0 < vcount G)%nat) by (rewrite Xv; assert (0 < K * s)%nat by (apply Nat.mul_pos_pos; lia); apply Nat.mul_pos_pos; lia).
  destruct (@C116_estimate env opt parts G gi lv c K model eta rest g0 o0 gt ot om mi verbose HK W Wi C Hv Hm Hi Hev He Hk HM KM Hr Hf) as [calls Q]. fold T E M a b in Q.
  assert (Pp : 0 < pout < pin).
  { split; auto. apply Rmult_lt_reg_r with (INR s - 1); [lra|]. replace (pout * (INR s - 1)) with (pout * INR s - pout) by ring. lra. }
  destruct (C116_truth pin pout T G W Hn ltac:(lia) Pp) as [TT _]. specialize (TT Ne). cbv zeta in TT. fold E in TT.
  assert (Ev : INR (vcount G) = INR K * INR s * INR T) by (rewrite Xv, !mult_INR; reflexivity). rewrite Ev in TT. rewrite Sa, Sb in TT. destruct TT as (Tg & _ & _ & To).
  set (r := INR s / (INR s - 1)) in *.
  assert (R1 : 1 < r) by (unfold r; apply Rmult_lt_reg_r with (INR s - 1); [lra|]; unfold Rdiv; rewrite Rmult_assoc, Rinv_l by lra; lra).
  assert (Hb : 0 < b) by (apply Rdiv_lt_0_compat; apply Rmult_lt_0_compat; lra).
  assert (A1 : 1 < a). { unfold a. apply Rmult_lt_reg_r with E; [lra|]. unfold Rdiv. rewrite Rmult_assoc, Rinv_l by lra. lra. }
  assert (B1 : b < 1). { unfold b. apply Rmult_lt_reg_r with ((INR K - 1) * E); [apply Rmult_lt_0_compat; lra|]. unfold Rdiv. rewrite Rmult_assoc, Rinv_l by (apply Rgt_not_eq, Rmult_lt_0_compat; lra). lra. }
  assert (Hab : b < a) by lra. assert (Ra : a < r * a) by (rewrite <- (Rmult_1_l a) at 1; apply Rmult_lt_compat_r; lra).
  set (t := log_mean (r * a) b) in *. set (g := log_mean a b) in *.
  assert (T1 : g < t). { unfold g, t. rewrite (@log_mean_sym a b), (@log_mean_sym (r * a) b) by lra. apply mean_increasing; lra. }
  assert (Rb : b < r * b) by (rewrite <- (Rmult_1_l b) at 1; apply Rmult_lt_compat_r; lra). assert (Rab : r * b < r * a) by (apply Rmult_lt_compat_l; lra).
  assert (T2 : t < r * g). { unfold g, t. rewrite <- log_mean_scale by lra. apply mean_increasing; lra. }
  assert (Bg : b < g < a) by (apply mean_between; lra). assert (Ug : g < (a + b) / 2) by (apply log_mean_bounds_lt; lra).
  set (L := ln (1 + eta * INR K / (1 - eta))) in *. set (fac := (if string_dec model "multiplex" then T else 2)%nat).
  assert (Fr : INR fac = if string_dec model "multiplex" then INR T else 2) by (unfold fac; destruct (string_dec _ _); [reflexivity|cbn; lra]). assert (F2 : 2 <= INR fac) by (rewrite Fr; destruct (string_dec _ _); lra).
  rewrite <- Fr in Q. assert (L0 : 0 < L).
  { unfold L. rewrite <- ln_1. apply ln_increasing; [lra|]. assert (0 < eta * INR K / (1 - eta)) by (apply Rdiv_lt_0_compat; [apply Rmult_lt_0_compat; lra|lra]). lra. }
  assert (D : ln pin - ln pout = ln a - ln b + ln r).
  { assert (X : 0 < (INR K * INR s * INR T) ^ 2 / (2 * INR T * E)) by (apply Rdiv_lt_0_compat; [apply pow_lt; repeat apply Rmult_lt_0_compat; lra|apply Rmult_lt_0_compat; lra]).
    apply (f_equal ln) in Sa. apply (f_equal ln) in Sb. rewrite ln_mult in Sa by lra. rewrite (ln_mult r a) in Sa by lra. rewrite ln_mult in Sb by lra. lra. }
  assert (D0 : 0 < ln a - ln b) by (pose proof (ln_increasing b a Hb Hab); lra). assert (Dr : 0 < ln r) by (rewrite <- ln_1; apply ln_increasing; lra).
  exists calls, t, g, (L / (INR fac * (ln pin - ln pout))), (L / (INR fac * (ln a - ln b))).
  split; [exact Tg|]. split; [apply To; [lra|unfold fac; destruct (string_dec _ _); lia]|]. split; [exact Q|]. split; [lra|]. split; [exact T2|]. rewrite D. split; [|split].
  - assert (0 < INR fac * (ln a - ln b)) by (apply Rmult_lt_0_compat; lra). assert (INR fac * (ln a - ln b) < INR fac * (ln a - ln b + ln r)) by (apply Rmult_lt_compat_l; lra). split.
    + apply Rdiv_lt_0_compat; lra.
    + unfold Rdiv. apply Rmult_lt_compat_l; auto. apply Rinv_lt_contravar; auto. apply Rmult_lt_0_compat; lra.
  - intros B. rewrite Rabs_right by lra. assert (Bs : 10 * INR K + 1 <= INR s). { apply (le_INR (10 * K + 1)) in B || (assert (B' : (10 * K + 1 <= s)%nat) by lia; apply le_INR in B'; rewrite plus_INR, mult_INR in B'; cbn [INR] in B'; lra). }
    assert (r * g - g = g / (INR s - 1)) by (unfold r; field; lra).
    assert (g / (INR s - 1) < 5 / 100). { apply Rmult_lt_reg_r with (INR s - 1); [lra|]. unfold Rdiv at 1. rewrite Rmult_assoc, Rinv_l by lra. lra. }
    lra.
  - intros B P3 B5. apply omega_gap; auto.
    + split; auto. unfold L. eapply Rle_trans; [|apply ln_512]. apply ln_mono; auto. assert (0 < eta * INR K / (1 - eta)) by (apply Rdiv_lt_0_compat; [apply Rmult_lt_0_compat; lra|lra]). lra.
    + apply (le_INR 50) in B. replace (INR 50) with 50 in B by (rewrite INR_IZR_INZ; reflexivity). exact B.
    + change (INR s / (INR s - 1)) with r. rewrite <- D. replace (ln pin - ln pout) with (ln (pin / pout)). { eapply Rle_trans; [apply ln_3|]. apply ln_mono; [lra|]. apply Rmult_le_reg_r with pout; auto. unfold Rdiv. rewrite Rmult_assoc, Rinv_l by lra. lra. }
      unfold Rdiv. rewrite ln_mult, ln_Rinv by (try apply Rinv_0_lt_compat; lra). ring.
Qed.
Print Assumptions C116_gap.

(** ** The tests *)
Lemma layers_count (n T : nat) lv : (0 < n)%nat -> (0 < T)%nat -> length lv = (n * T)%nat -> (forall i, (i < n * T)%nat -> nth i lv 0%nat = (i / n)%nat) -> S (list_max lv) = T.
Proof.
  intros Hn HT Hl H. assert (U : (list_max lv <= T - 1)%nat).
  { apply list_max_le, Forall_forall. intros x Hx. destruct (In_nth _ _ 0%nat Hx) as (i & Hi & <-). rewrite H by lia. assert (i / n < T)%nat by (apply Nat.div_lt_upper_bound; lia). lia. }
  assert (L : (T - 1 <= list_max lv)%nat).
  { assert (F : Forall (fun k => (k <= list_max lv)%nat) lv) by (apply list_max_le; auto). rewrite Forall_forall in F.
    assert (B : (n * T - 1 < length lv)%nat) by (rewrite Hl; assert (0 < n * T)%nat by (apply Nat.mul_pos_pos; auto); lia).
    specialize (F (nth (n * T - 1) lv 0%nat) ltac:(apply nth_In; auto)). rewrite H in F by lia.
    assert (E : ((n * T - 1) / n = T - 1)%nat). { symmetry. apply (Nat.div_unique _ _ _ (n - 1)); [lia|]. destruct T; [lia|]. cbn [Nat.sub]. rewrite Nat.sub_0_r, Nat.mul_succ_r. lia. }
    lia. }
  lia.
Qed.

(** A drawn network in which every layer and the last vertex have edges, with s vertices per community and layer, and all the numbers of edges and of
    persisting labels as expected. *)
Definition drawn_as_expected (model : string) (eta p_in p_out : R) (n T K s : nat) (G gi : graph) (lv c : list nat) : Prop :=
  has_edge_at G (n * T - 1) /\ (forall t, (t < T)%nat -> layer_has_edge G lv t) /\
  evenly_layered K T G lv c /\ layered_as_expected K T s p_in p_out G c /\ kept_as_expected model n T K eta gi c.
(** The parameters of a test. *)
Definition moderate (eta p_in p_out : R) (T K s : nat) : Prop :=
  (2 <= T)%nat /\ (2 <= K)%nat /\ (50 <= s)%nat /\ (10 * K < s)%nat /\ 0 < p_out /\ 3 * p_out <= p_in /\ 0 < eta < 1 /\ 1 + eta * INR K / (1 - eta) <= 512.

Lemma moderate_order eta p_in p_out T K s : moderate eta p_in p_out T K s -> p_out * INR s < p_in * (INR s - 1).
Proof.
  intros (_ & _ & Hs & _ & Ho & H3 & _). apply (le_INR 50) in Hs. replace (INR 50) with 50 in Hs by (rewrite INR_IZR_INZ; reflexivity).
  assert (3 * p_out * (INR s - 1) <= p_in * (INR s - 1)) by (apply Rmult_le_compat_r; lra). assert (0 < p_out * (2 * INR s - 3)) by (apply Rmult_lt_0_compat; lra). lra.
Qed.

Lemma converges env opt parts G gi lv c K model eta rest s p_in p_out gamma_tol omega_tol omega0 :
  wf_graph G -> wf_graph gi -> counts_edges (ee_contains env G) G -> is_model model -> let T := S (list_max lv) in
  valid_multilayer G gi (repeat 1 (length (edges G))) lv model ->
  evenly_layered K T G lv c -> kept_as_expected model (vcount G / T) T K eta gi c -> layered_as_expected K T s p_in p_out G c -> moderate eta p_in p_out T K s ->
  (model = "multiplex"%string -> finds_root env K T) -> finds opt lv K c rest -> 5 / 100 <= gamma_tol -> 1 / 10 <= omega_tol ->
  exists t w parts', sbm_true_gamma p_in p_out T G = Ok t /\ sbm_true_omega eta p_in p_out K T (if string_dec model "multiplex" then T else 2) G = Ok w /\
    converges_to env opt lv omega0 gamma_tol omega_tol t w (parts, (G, gi)) model = (parts', (weighted_e env G, weighted_e env gi), Ok tt).
Proof.
  intros W Wi C Hm T Hv Hev Hk Hx Hmod Hr Hf Gt Ot. pose proof (moderate_order _ _ _ _ _ _ Hmod) as Hp. destruct Hmod as (HT & HK & Hs & H10 & Ho & H3 & He & H5).
  destruct (@C116_gap env opt parts G gi lv c K model eta rest s p_in p_out 1 omega0 (1 / 100) (5 / 100) 1000 25%Z false HK W Wi C Hv Hm ltac:(lia) Hev He Hk Hx ltac:(lia) Ho Hp Hr Hf)
    as (calls & t & g & w0 & w & Tg & To & Q & _ & _ & _ & D1 & D2).
  exists (Fin t), (Fin w0), (Some (mkPart K c :: rest)). split; [exact Tg|]. split; [exact To|]. unfold converges_to. rewrite Q. cbn [bind close]. specialize (D1 H10). specialize (D2 Hs H3 H5).
  unfold Rltb. destruct (Rlt_dec (Rabs (t - g)) gamma_tol); [|lra]. destruct (Rlt_dec (Rabs (w0 - w)) omega_tol); [|lra]. reflexivity.
Qed.

(** If the network is drawn as expected and the optimisers find the communities, the tests pass. *)
Theorem C116_temporal_passes : forall env opt_temporal opt_multilevel parts d eta p_in p_out first T K s G gi lv c rest rest',
  num_communities first = Ok K -> generate_temporal_SBM d eta p_in p_out first T = Ok (G, gi, lv) -> counts_edges (ee_contains env G) G ->
  moderate eta p_in p_out T K s -> drawn_as_expected "temporal" eta p_in p_out (length first) T K s G gi lv c ->
  finds opt_temporal lv K c rest -> finds opt_multilevel lv K c rest' ->
  assert_temporal_SBM_correct_convergence env opt_temporal opt_multilevel parts d first eta T p_in p_out = Ok tt.
Proof.
  intros env o1 o2 parts d eta pi po first T K s G gi lv c rest rest' HK HG C Hmod (He1 & He2 & Hev & Hx & Hk) F1 F2. pose proof Hmod as (HT & HK2 & _).
  destruct (C92_temporal d eta pi po first T K HK ltac:(lia)) as (g' & gi' & lv' & comm & HG' & (Ll & _ & Lv & _) & _ & V). rewrite HG in HG'. inversion HG'. subst g' gi' lv'. clear HG'.
  pose proof (communities_nonempty first K HK) as Hn. assert (ET : S (list_max lv) = T) by (apply (@layers_count (length first)); auto; lia).
  assert (W : wf_graph G /\ wf_graph gi).
  { unfold generate_temporal_SBM, generate_multilayer_intralayer_SBM in HG. destruct T; [lia|]. rewrite HK in HG. cbn [bind] in HG. inversion HG. split; apply graph_of_edges_wf. }
  destruct W as [W Wi].
  assert (V1 : valid_multilayer G gi (repeat 1 (length (edges G))) lv "temporal") by (apply V; auto; lia). assert (V2 : valid_multilayer G gi (repeat 1 (length (edges G))) lv "multilevel") by (apply V; auto; lia). clear V.
  assert (EN : (vcount G / T = length first)%nat). { pose proof (@acc_lv _ gi lv "temporal" _ (valid_accepted W V1)) as Q. rewrite <- Q, Ll. apply Nat.div_mul. lia. }
  rewrite <- EN in Hk. clear EN He1 He2 Ll Lv. subst T. set (T := S (list_max lv)) in *.
  assert (Hk' : kept_as_expected "multilevel" (vcount G / T) T K eta gi c). { unfold kept_as_expected in *. destruct (string_dec "multilevel" "multiplex"); [discriminate|]. destruct (string_dec "temporal" "multiplex"); [discriminate|]. exact Hk. }
  destruct (@converges env o1 parts G gi lv c K "temporal" eta rest s pi po (5 / 100) (1 / 10) 1 W Wi C (or_introl eq_refl) V1 Hev Hk Hx Hmod ltac:(discriminate) F1 ltac:(lra) ltac:(lra)) as (t & w & parts' & Tg & To & Q). fold T in Tg, To.
  set (h := weighted_e env G) in *. set (hi := weighted_e env gi) in *.
  pose proof (@settled_weighted env G W C) as Sh. fold h in Sh.
  assert (Eh : (vcount h = vcount G) /\ (edges h = edges G)) by (unfold h; rewrite weighted_e_vcount, weighted_e_edges; auto). destruct Eh as [Evh Eeh].
  destruct (@converges env o2 parts' h hi lv c K "multilevel" eta rest' s pi po (5 / 100) (1 / 10) 1 (proj1 Sh) (weighted_e_wf env Wi) (@settled_counts _ _ Sh) (or_intror (or_introl eq_refl))) as (t' & w' & parts'' & Tg' & To' & Q'); try assumption; try discriminate; try lra.
  { rewrite Eeh. unfold h, hi, weighted_e. destruct (ee_contains env G), (ee_contains env gi); exact V2. }
  { unfold h, weighted_e. destruct (ee_contains env G); exact Hev. }
  { fold T. rewrite Evh. unfold hi, weighted_e. destruct (ee_contains env gi); exact Hk'. }
  { fold T. unfold h, weighted_e. destruct (ee_contains env G); exact Hx. }
  fold T in Tg', To'. assert (G1 : sbm_true_gamma pi po T h = sbm_true_gamma pi po T G) by (unfold h, weighted_e; destruct (ee_contains env G); reflexivity).
  assert (G2 : sbm_true_omega eta pi po K T 2 h = sbm_true_omega eta pi po K T 2 G) by (unfold h, weighted_e; destruct (ee_contains env G); reflexivity).
  destruct (string_dec "temporal" "multiplex"); [discriminate|]. destruct (string_dec "multilevel" "multiplex"); [discriminate|]. rewrite G1, Tg in Tg'. rewrite G2, To in To'. inversion Tg'. inversion To'. subst t' w'.
  unfold assert_temporal_SBM_correct_convergence. rewrite HK. cbn [bind]. rewrite HG. cbn [bind]. rewrite Tg. cbn [bind]. rewrite To. cbn [bind]. rewrite Q. cbn [bind]. rewrite Q'. reflexivity.
Qed.
Print Assumptions C116_temporal_passes.

Theorem C116_multiplex_passes : forall env opt parts d eta p_in p_out first T K s G gi lv c rest,
  num_communities first = Ok K -> generate_multiplex_SBM d eta p_in p_out first T = Ok (G, gi, lv) -> counts_edges (ee_contains env G) G ->
  moderate eta p_in p_out T K s -> drawn_as_expected "multiplex" eta p_in p_out (length first) T K s G gi lv c ->
  finds_root env K T -> finds opt lv K c rest ->
  assert_multiplex_SBM_correct_convergence env opt parts d first eta T p_in p_out = Ok tt.
Proof.
  intros env o1 parts d eta pi po first T K s G gi lv c rest HK HG C Hmod (He1 & He2 & Hev & Hx & Hk) Hr F1. pose proof Hmod as (HT & HK2 & _).
  destruct (C92_multiplex d eta pi po first T K HK ltac:(lia)) as (g' & gi' & lv' & comm & HG' & (Ll & _ & Lv & _) & _ & V). rewrite HG in HG'. inversion HG'. subst g' gi' lv'. clear HG'.
  pose proof (communities_nonempty first K HK) as Hn. assert (ET : S (list_max lv) = T) by (apply (@layers_count (length first)); auto; lia).
  assert (W : wf_graph G /\ wf_graph gi).
  { unfold generate_multiplex_SBM, generate_multilayer_intralayer_SBM in HG. destruct T; [lia|]. rewrite HK in HG. cbn [bind] in HG. inversion HG. split; apply graph_of_edges_wf. }
  destruct W as [W Wi].
  assert (V1 : valid_multilayer G gi (repeat 1 (length (edges G))) lv "multiplex") by (apply V; auto; lia). clear V.
  assert (EN : (vcount G / T = length first)%nat). { pose proof (@acc_lv _ gi lv "multiplex" _ (valid_accepted W V1)) as Q. rewrite <- Q, Ll. apply Nat.div_mul. lia. }
  rewrite <- EN in Hk. clear EN He1 He2 Ll Lv. subst T. set (T := S (list_max lv)) in *.
  destruct (@converges env o1 parts G gi lv c K "multiplex" eta rest s pi po (1 / 10) (2 / 10) (1 / 10) W Wi C (or_intror (or_intror eq_refl)) V1 Hev Hk Hx Hmod (fun _ => Hr) F1 ltac:(lra) ltac:(lra)) as (t & w & parts' & Tg & To & Q). fold T in Tg, To.
  destruct (string_dec "multiplex" "multiplex"); [|congruence].
  unfold assert_multiplex_SBM_correct_convergence. rewrite HK. cbn [bind]. rewrite HG. cbn [bind]. rewrite Tg. cbn [bind]. rewrite To. cbn [bind]. rewrite Q. reflexivity.
Qed.
Print Assumptions C116_multiplex_passes.

(** Conversely a passing test means that the iteration returned, for both models, numbers within the tolerances. *)
Lemma converges_sound env opt lv omega0 gamma_tol omega_tol t w parts G gi model parts' gs :
  converges_to env opt lv omega0 gamma_tol omega_tol t w (parts, (G, gi)) model = (parts', gs, Ok tt) ->
  exists x y g o ps calls, t = Fin x /\ w = Fin y /\
    iterative_multilayer_resolution_parameter_estimation env opt parts G gi lv 1 omega0 (1 / 100) (5 / 100) 1000 25 model false = (calls, parts', gs, Ok (Fin g, o, ps)) /\
    Rabs (x - g) < gamma_tol /\ Rabs (y - o) < omega_tol.
Proof.
  unfold converges_to. destruct (iterative_multilayer_resolution_parameter_estimation _ _ _ _ _ _ _ _ _ _ _ _ _ _) as [[[calls p] g] r]. intros H. inversion H as [[H1 H2 H3]]. subst.
  destruct r as [[[ga o] ps]|]; [|discriminate]. cbn [bind] in H3. unfold close, Rltb in H3. destruct t as [x|]; [|discriminate]. destruct ga as [g|]; [|discriminate].
  destruct (Rlt_dec (Rabs (x - g)) gamma_tol); [|discriminate]. destruct w as [y|]; [|discriminate]. destruct (Rlt_dec (Rabs (y - o)) omega_tol); [|discriminate].
  exists x, y, g, o, ps, calls. auto.
Qed.

Theorem C116_temporal_sound : forall env opt_temporal opt_multilevel parts d eta p_in p_out first T,
  assert_temporal_SBM_correct_convergence env opt_temporal opt_multilevel parts d first eta T p_in p_out = Ok tt ->
  exists K G gi lv t w, num_communities first = Ok K /\ generate_temporal_SBM d eta p_in p_out first T = Ok (G, gi, lv) /\
    sbm_true_gamma p_in p_out T G = Ok (Fin t) /\ sbm_true_omega eta p_in p_out K T 2 G = Ok (Fin w) /\
    exists g o ps g' o' ps' parts1 parts2 gs gs' calls calls',
      iterative_multilayer_resolution_parameter_estimation env opt_temporal parts G gi lv 1 1 (1 / 100) (5 / 100) 1000 25 "temporal" false = (calls, parts1, gs, Ok (Fin g, o, ps)) /\
      Rabs (t - g) < 5 / 100 /\ Rabs (w - o) < 1 / 10 /\
      iterative_multilayer_resolution_parameter_estimation env opt_multilevel parts1 (fst gs) (snd gs) lv 1 1 (1 / 100) (5 / 100) 1000 25 "multilevel" false = (calls', parts2, gs', Ok (Fin g', o', ps')) /\
      Rabs (t - g') < 5 / 100 /\ Rabs (w - o') < 1 / 10.
Proof.
  intros env o1 o2 parts d eta pi po first T H. unfold assert_temporal_SBM_correct_convergence in H. destruct (num_communities first) as [K|]; [|discriminate]. cbn [bind] in H.
  destruct (generate_temporal_SBM d eta pi po first T) as [[[G gi] lv]|]; [|discriminate]. cbn [bind] in H. destruct (sbm_true_gamma pi po T G) as [t|] eqn:Et; [|discriminate]. cbn [bind] in H.
  destruct (sbm_true_omega eta pi po K T 2 G) as [w|] eqn:Ew; [|discriminate]. cbn [bind] in H.
  destruct (converges_to env o1 lv 1 (5 / 100) (1 / 10) t w (parts, (G, gi)) "temporal") as [[p1 gs] r] eqn:E1. destruct r as [[]|]; [|discriminate]. cbn [bind] in H. destruct gs as [g1 gi1].
  destruct (converges_to env o2 lv 1 (5 / 100) (1 / 10) t w (p1, (g1, gi1)) "multilevel") as [[p2 gs2] r2] eqn:E2. cbn [snd] in H. subst r2.
  destruct (converges_sound _ _ _ _ _ _ _ _ _ _ _ _ _ _ E1) as (x & y & g & o & ps & calls & -> & -> & Q & A & B). destruct (converges_sound _ _ _ _ _ _ _ _ _ _ _ _ _ _ E2) as (x' & y' & g' & o' & ps' & calls' & X & Y & Q' & A' & B'). inversion X. inversion Y. subst x' y'.
  exists K, G, gi, lv, x, y. repeat (split; [solve [auto]|]). exists g, o, ps, g', o', ps', p1, p2, (g1, gi1), gs2, calls, calls'. cbn [fst snd]. repeat (split; [assumption|]). assumption.
Qed.
Print Assumptions C116_temporal_sound.

Theorem C116_multiplex_sound : forall env opt parts d eta p_in p_out first T,
  assert_multiplex_SBM_correct_convergence env opt parts d first eta T p_in p_out = Ok tt ->
  exists K G gi lv t w g o ps parts1 gs calls, num_communities first = Ok K /\ generate_multiplex_SBM d eta p_in p_out first T = Ok (G, gi, lv) /\
    sbm_true_gamma p_in p_out T G = Ok (Fin t) /\ sbm_true_omega eta p_in p_out K T T G = Ok (Fin w) /\
    iterative_multilayer_resolution_parameter_estimation env opt parts G gi lv 1 (1 / 10) (1 / 100) (5 / 100) 1000 25 "multiplex" false = (calls, parts1, gs, Ok (Fin g, o, ps)) /\
    Rabs (t - g) < 1 / 10 /\ Rabs (w - o) < 2 / 10.
Proof.
  intros env o1 parts d eta pi po first T H. unfold assert_multiplex_SBM_correct_convergence in H. destruct (num_communities first) as [K|]; [|discriminate]. cbn [bind] in H.
  destruct (generate_multiplex_SBM d eta pi po first T) as [[[G gi] lv]|]; [|discriminate]. cbn [bind] in H. destruct (sbm_true_gamma pi po T G) as [t|] eqn:Et; [|discriminate]. cbn [bind] in H.
  destruct (sbm_true_omega eta pi po K T T G) as [w|] eqn:Ew; [|discriminate]. cbn [bind] in H.
  destruct (converges_to env o1 lv (1 / 10) (1 / 10) (2 / 10) t w (parts, (G, gi)) "multiplex") as [[p1 gs] r] eqn:E1. cbn [snd] in H. subst r.
  destruct (converges_sound _ _ _ _ _ _ _ _ _ _ _ _ _ _ E1) as (x & y & g & o & ps & calls & -> & -> & Q & A & B). exists K, G, gi, lv, x, y, g, o, ps, p1, gs, calls. repeat (split; [assumption || reflexivity|]). assumption.
Qed.
Print Assumptions C116_multiplex_sound.
