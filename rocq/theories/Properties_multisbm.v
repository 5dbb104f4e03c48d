(** Property theorems about the multilayer SBM, gamma and omega estimates: C31-C37. *)
From Verif Require Import PyBase PyGraph M_partition M_champ M_leiden M_estimation_utils M_estimation Spec Spec_graph Spec_leiden Spec_sbm Spec_multisbm Spec_check Spec_valid
  L_base L_modularity L_modularity3 L_leiden L_sbm L_sbm2 L_logmean L_check L_multisbm L_copying L_accepted L_omega Properties_sbm.
Open Scope R_scope.

(** An optional argument left out, or given with its documented value. *)
Definition omitted_or {A} (o : option A) (x : A) : Prop := o = None \/ o = Some x.

(** ** C31: on every valid multilayer network and partition, theta_in and theta_out are observed over expected weight within and
    between communities, summed over the layers (theta_out is 0 when nothing is expected between communities), whether or not
    N, T, Nt and m_t are given; the graph keeps its weights or gets unit ones. *)
Theorem C31_estimates : forall env g h gi ws lv c K model oN oT oNt om,
  wf_graph g -> wf_graph gi -> weights_defaulted (ee_contains env g) g h -> weights h = Some ws ->
  valid_multilayer h gi ws lv model -> is_model model -> length c = vcount g -> (forall l, In l c -> (l < K)%nat) ->
  let n := vcount g in let E := weighted_edges h ws in let T := S (list_max lv) in let N := (vcount g / T)%nat in
  omitted_or oN N -> omitted_or oT T -> omitted_or oNt (map (nodes_in lv) (seq 0 T)) -> omitted_or om (map (weight_in E lv) (seq 0 T)) ->
  expected_within_layers n E lv T c <> 0 ->
  exists pers p, is_persistence model gi lv N T c pers /\ is_copying_probability (ee_fsolve env) model K T pers p /\
    estimate_multilayer_SBM_parameters env g gi lv (mkPart K c) model oN oT oNt om
    = (h, Ok (observed_within_layers n E lv T c / expected_within_layers n E lv T c,
              (if Req_EM_T (expected_between_layers n E lv T c) 0 then 0
               else observed_between_layers n E lv T c / expected_between_layers n E lv T c), p, K)).
Proof.
  intros env g h gi ws lv c K model oN oT oNt om Hg Hgi Hh Hws Hv Hm Hc HK n E T N H1 H2 H3 H4 HE. apply weighted_e_defaulted in Hh. subst h.
  apply estimate_valid; auto. apply labels_nth; auto.
Qed.
Print Assumptions C31_estimates.

(** With positive weights nothing is divided by zero, and the two estimates redistribute the total weight. *)
Theorem C31_positive_weights : forall g gi ws lv c model,
  wf_graph g -> weights g = Some ws -> (forall w, In w ws -> 0 < w) -> valid_multilayer g gi ws lv model -> length c = vcount g ->
  let n := vcount g in let E := weighted_edges g ws in let T := S (list_max lv) in
  0 < expected_within_layers n E lv T c /\ 0 <= expected_between_layers n E lv T c /\
  0 <= observed_within_layers n E lv T c /\ 0 <= observed_between_layers n E lv T c /\
  observed_within_layers n E lv T c + observed_between_layers n E lv T c = expected_within_layers n E lv T c + expected_between_layers n E lv T c.
Proof.
  intros g gi ws lv c model Hg Hw Hpos Hv Hc n E T. pose proof (valid_accepted Hg Hv) as Ha.
  split; [exact (@acc_EW g gi lv model ws Hg Ha c Hc Hpos)|]. split; [exact (@acc_EB g lv ws Hg c Hpos)|]. split; [exact (@acc_OW g lv ws c Hpos)|].
  split; [exact (@acc_OB g lv ws c Hpos)|]. exact (@acc_split g gi lv model ws Hg Ha c).
Qed.
Print Assumptions C31_positive_weights.

(** ** C32: persistence is a fraction. *)
Theorem C32_persistence : forall g gi ws lv c model,
  wf_graph g -> wf_graph gi -> weights g = Some ws -> valid_multilayer g gi ws lv model -> is_model model -> length c = vcount g ->
  let T := S (list_max lv) in let N := (vcount g / T)%nat in
  exists f x, persistence_function_from_model model gi (Some lv) (Some N) (Some T) (Some (map (nodes_in lv) (seq 0 T))) = Ok f /\ f c = Ok x /\
    is_persistence model gi lv N T c x /\
    0 <= x /\ (model <> "multilevel"%string -> x <= 1) /\ (model = "multilevel"%string -> x <= INR T / (INR T - 1)) /\
    (model = "multilevel"%string -> (forall u v, In (u, v) (edges gi) -> nth v lv 0%nat <> 0%nat) -> x <= 1) /\
    (model <> "multilevel"%string -> (forall u v, In (u, v) (edges gi) -> nth u c 0%nat = nth v c 0%nat) -> x = 1).
Proof.
  intros g gi ws lv c model Hg Hgi Hw Hv Hm Hc T N. pose proof (valid_accepted Hg Hv) as Ha.
  destruct (@acc_facts g gi lv model ws Hg Ha) as (F1 & F2 & F3 & F4 & F5 & F6 & F7 & F8). pose proof (@acc_lv g gi lv model ws Ha) as Hl.
  destruct (@persistence_ok model gi lv N T c (vcount g) (map (nodes_in lv) (seq 0 T)) Hgi F3 Hl Hc) as (f & x & A & B & C); auto.
  - intros v Hv'. pose proof (@list_max_label lv v ltac:(lia)) as L. rewrite <- Hl in Hv'.
    assert (G : Forall (fun k => (k <= list_max lv)%nat) lv) by (apply list_max_le; auto). rewrite Forall_forall in G.
    specialize (G (nth v lv 0%nat) ltac:(apply nth_In; auto)). unfold T. lia.
  - apply (@acc_N g gi lv model ws Hg Ha).
  - intros Hml. apply (F7 Hml).
  - exists f, x. split; [exact A|]. split; [exact B|]. split; [exact C|]. exact (@acc_persistence g gi lv model ws Hg Hgi Ha c x C).
Qed.
Print Assumptions C32_persistence.

(** The multilevel bound T/(T-1) is attained when interlayer edges also enter the first layer: here the persistence is 2. *)
Definition swap_layers : graph := mkGraph 4 true [(0, 2); (1, 3); (2, 0); (3, 1)]%nat None.
Definition pair_layers : graph := mkGraph 4 false [(0, 1); (2, 3)]%nat (Some [1; 1]).
Ltac rules := repeat (apply Forall_cons; [cbn [fst]|]); [..|apply Forall_nil].
Lemma pair_layers_wf : wf_graph pair_layers.
Proof. apply wf_literal; [literal_edges|reflexivity]. Qed.
Lemma swap_valid : valid_multilayer pair_layers swap_layers [1; 1] [0; 0; 1; 1]%nat "multilevel".
Proof.
  unfold valid_multilayer, structural_rules. rules; cbn; try lia; try discriminate; auto.
  - intros m [<-|[<-|[]]]; lra.
  - intros u v [E|[E|[]]]; inversion E; reflexivity.
  - intros _ v Hv. destruct v as [|[|[|[|v]]]]; cbn; lia.
Qed.
Example C32_multilevel_two : exists f, persistence_function_from_model "multilevel" swap_layers (Some [0; 0; 1; 1]%nat) (Some 2%nat) (Some 2%nat) (Some [2; 2]%nat) = Ok f /\
  f [0; 1; 0; 1]%nat = Ok 2.
Proof.
  eexists. split; [reflexivity|]. unfold multilevel_persistence. cbn [foldM same_label py_get nth_error py_update bind fst snd edges swap_layers repeat Nat.eqb b2n Nat.add mapM seq].
  rewrite !py_div_ok by (cbn; lra). cbn [bind]. rewrite py_div_ok by (rewrite !S_INR; cbn; lra). f_equal. cbn. rewrite ?rsum_cons, ?rsum_nil. field.
Qed.

(** ** C33: the copying probability is a probability: always, except possibly in the multiplex model when the root finder does
    not return a root of its equation. *)
Theorem C33_probability : forall env g gi lv part model oN oT oNt om a b p K,
  snd (estimate_multilayer_SBM_parameters env g gi lv part model oN oT oNt om) = Ok (a, b, p, K) ->
  model <> "multiplex"%string -> 0 <= p <= 1.
Proof.
  intros env g gi lv part model oN oT oNt om a b p K H Hm. unfold estimate_multilayer_SBM_parameters in H.
  destruct (default_weights_e env g) as [g'|e]; [|discriminate]. cbn [snd] in H. unfold estimate_multilayer_weighted in H.
  repeat (apply bind_ok in H; destruct H as (? & _ & H)). inversion H. subst. clear H.
  match goal with |- _ <= estimate_p env model ?K ?T ?x <= _ => pose proof (estimate_p_is env model K T x) as P; set (q := estimate_p env model K T x) in * end.
  clearbody q. destruct P as [(_ & ->)|[(_ & _ & E & _)|(A & B & _ & ->)]]; [lra|congruence|].
  split; [apply Rmax_l|]. apply Rmax_lub; [lra|]. assert (1 < INR (part_len part)) by (change 1 with (INR 1); apply lt_INR; auto).
  apply (Rmult_le_reg_r (INR (part_len part) - 1)); [lra|]. unfold Rdiv. rewrite Rmult_assoc, Rinv_l by lra.
  match goal with A : ?x < 1 |- _ => assert (INR (part_len part) * x < INR (part_len part) * 1) by (apply Rmult_lt_compat_l; lra) end. lra.
Qed.
Print Assumptions C33_probability.

Theorem C33_multiplex : forall env g h gi ws lv c K oN oT oNt om,
  wf_graph g -> wf_graph gi -> weights_defaulted (ee_contains env g) g h -> weights h = Some ws ->
  valid_multilayer h gi ws lv "multiplex" -> length c = vcount g -> (forall l, In l c -> (l < K)%nat) ->
  let n := vcount g in let E := weighted_edges h ws in let T := S (list_max lv) in let N := (vcount g / T)%nat in
  omitted_or oN N -> omitted_or oT T -> omitted_or oNt (map (nodes_in lv) (seq 0 T)) -> omitted_or om (map (weight_in E lv) (seq 0 T)) ->
  expected_within_layers n E lv T c <> 0 ->
  (forall x, is_persistence "multiplex" gi lv N T c x -> x < 1 -> (1 < K)%nat ->
     multiplex_persistence K T (ee_fsolve env (fun y => multiplex_persistence K T y - x) (1 / 2)) = x) ->
  exists a b p, estimate_multilayer_SBM_parameters env g gi lv (mkPart K c) "multiplex" oN oT oNt om = (h, Ok (a, b, p, K)) /\ 0 <= p <= 1.
Proof.
  intros env g h gi ws lv c K oN oT oNt om Hg Hgi Hh Hws Hv Hc HK n E T N H1 H2 H3 H4 HE Hroot.
  destruct (C31_estimates env g h gi ws lv c K "multiplex" oN oT oNt om) as (pers & p & A & B & C); auto; [right; right; auto|].
  eexists. eexists. exists p. split; [exact C|].
  assert (HT : (1 < T)%nat).
  { apply weighted_e_defaulted in Hh. subst h. pose proof (weighted_e_wf env Hg) as Hwf. pose proof (valid_accepted Hwf Hv) as Ha. apply (@acc_facts _ gi lv "multiplex" ws Hwf Ha). }
  apply (@copying_probability_bounds (ee_fsolve env) "multiplex" K T pers p HT B). intros _. apply Hroot. auto.
Qed.
Print Assumptions C33_multiplex.

(** ** C34: the equation solved for the copying probability. *)
Theorem C34_unique_solution : forall K T pers, (1 < K)%nat -> (1 < T)%nat -> 1 / INR K <= pers < 1 ->
  exists x, 0 <= x < 1 /\ multiplex_persistence K T x = pers /\ forall y, 0 <= y -> multiplex_persistence K T y = pers -> y = x.
Proof.
  intros K T pers HK HT H. destruct (@mp_root K T HK HT pers H) as (x & Hx & E). exists x. split; auto. split; auto.
  intros y Hy Ey. apply (@mp_inj K T HK HT); auto; [lra|congruence].
Qed.
Print Assumptions C34_unique_solution.
Theorem C34_increasing : forall K T x y, (1 < K)%nat -> (1 < T)%nat -> 0 <= x -> 0 <= y ->
  (x < y <-> multiplex_persistence K T x < multiplex_persistence K T y).
Proof.
  intros K T x y HK HT Hx Hy. split; intros H; [apply mp_strict; auto|]. destruct (Rtotal_order x y) as [L|[L|L]]; auto; [subst; lra|].
  pose proof (@mp_strict K T HK HT y x ltac:(lra)). lra.
Qed.
Print Assumptions C34_increasing.
Theorem C34_small_persistence : forall K T pers y, (1 < K)%nat -> (1 < T)%nat -> pers < 1 / INR K -> multiplex_persistence K T y = pers -> y < 0.
Proof.
  intros K T pers y HK HT H E. destruct (Rlt_dec y 0) as [L|L]; auto. exfalso. pose proof (@mp_zero K T) as Z.
  destruct (Req_EM_T y 0) as [->|N]; [lra|]. pose proof (@mp_strict K T HK HT 0 y ltac:(lra)). lra.
Qed.
Print Assumptions C34_small_persistence.
(** The model's function is this equation; the code hands it to the root finder. *)
Theorem C34_equation : forall K T pers x, multiplex_equation K T pers x = multiplex_persistence K T x - pers.
Proof. exact multiplex_equation_eq. Qed.
Print Assumptions C34_equation.
(** Below 1/K there need be no real solution at all. *)
Theorem C34_no_solution : forall pers y, pers < 1 / 3 -> multiplex_persistence 2 3 y <> pers.
Proof.
  intros pers y H E. unfold multiplex_persistence in E. cbn [Nat.sub] in E. rewrite !sum_to_S in E. unfold sum_to in E. cbn [seq map fold_right] in E.
  rewrite !S_INR in E. cbn [INR pow] in E. assert (G : 0 <= (y + 1) * (y + 1)) by apply Rle_0_sqr. nra.
Qed.
Print Assumptions C34_no_solution.
Example C34_example : multiplex_persistence 2 2 (1 / 2) = 3 / 4.
Proof. unfold multiplex_persistence. cbn [Nat.sub]. rewrite !sum_to_S. unfold sum_to. cbn [seq map fold_right]. rewrite !S_INR. cbn [INR pow]. field. Qed.

(** ** C35: the omega estimate for theta_in > theta_out > 0. *)
Definition omega_estimate (model : string) (T : nat) (omega_max theta_in theta_out p : R) (K : nat) : res R :=
  let! f := omega_function_from_model model omega_max T in f theta_in theta_out p K.

Lemma omega_estimate_ok model T K ti to p omax : is_model model -> (1 <= T)%nat -> (1 <= K)%nat -> 0 <= p -> 0 < to < ti -> (model = "multiplex"%string -> ti <> 1) ->
  exists o, omega_estimate model T omax ti to p K = Ok o /\ is_omega_estimate model T K ti to p omax o.
Proof.
  intros Hm HT HK Hp Ht H1. destruct (@omega_ok model T K ti to p omax Hm HT HK Hp ltac:(lra) ltac:(lra)) as (f & Hf & _ & _ & F).
  unfold omega_estimate. rewrite Hf. cbn [bind]. apply F. right. left. split; [lra|]. unfold vanishes. lra.
Qed.

Theorem C35_formula : forall model T K theta_in theta_out p omega_max,
  is_model model -> (1 <= T)%nat -> (1 <= K)%nat -> 0 < theta_out < theta_in -> (model = "multiplex"%string -> theta_in <> 1) ->
  omega_estimate model T omega_max theta_in theta_out 0 K = Ok 0 /\
  (1 <= p -> omega_estimate model T omega_max theta_in theta_out p K = Ok omega_max) /\
  (0 < p < 1 -> omega_estimate model T omega_max theta_in theta_out p K
     = Ok (ln (1 + p * INR K / (1 - p)) / ((if string_dec model "multiplex" then INR T else 2) * (ln theta_in - ln theta_out)))).
Proof.
  intros model T K ti to p omax Hm HT HK Ht H1. split; [|split].
  - destruct (@omega_estimate_ok model T K ti to 0 omax Hm HT HK ltac:(lra) Ht H1) as (o & -> & [(_ & ->)|[(A & _)|[(A & _)|(A & _)]]]); auto; lra.
  - intros Hp. destruct (@omega_estimate_ok model T K ti to p omax Hm HT HK ltac:(lra) Ht H1) as (o & -> & [(A & _)|[(_ & ->)|[(A & _)|(A & _)]]]); auto; lra.
  - intros Hp. destruct (@omega_estimate_ok model T K ti to p omax Hm HT HK ltac:(lra) Ht H1) as (o & -> & [(A & _)|[(A & _)|[(_ & A & B & _)|(_ & _ & ->)]]]); try lra; [tauto|].
    unfold omega_formula. destruct (Req_EM_T to 0); [lra|]. reflexivity.
Qed.
Print Assumptions C35_formula.

Lemma denominator_pos model T a b : (1 <= T)%nat -> 0 < b < a -> 0 < (if string_dec model "multiplex" then INR T else 2) * (ln a - ln b).
Proof.
  intros HT H. assert (ln b < ln a) by (apply ln_increasing; lra). assert (0 < INR T) by (apply lt_0_INR; lia).
  apply Rmult_lt_0_compat; [destruct (string_dec model "multiplex"); lra|lra].
Qed.

Theorem C35_increasing : forall model T K theta_in theta_out p q omega_max,
  is_model model -> (1 <= T)%nat -> (1 <= K)%nat -> 0 < theta_out < theta_in -> (model = "multiplex"%string -> theta_in <> 1) ->
  0 <= p -> p < q -> q < 1 ->
  exists a b, omega_estimate model T omega_max theta_in theta_out p K = Ok a /\ omega_estimate model T omega_max theta_in theta_out q K = Ok b /\ 0 <= a < b.
Proof.
  intros model T K ti to p q omax Hm HT HK Ht H1 Hp Hpq Hq.
  destruct (C35_formula model T K ti to q omax Hm HT HK Ht H1) as (A & _ & B). specialize (B ltac:(lra)).
  pose proof (@denominator_pos model T ti to HT Ht) as D. set (d := _ * _) in *. destruct (Req_EM_T p 0) as [->|N].
  - exists 0. eexists. split; [exact A|]. split; [exact B|]. split; [lra|]. apply Rdiv_lt_0_compat; auto. apply (@coupling_pos q K HK). lra.
  - destruct (C35_formula model T K ti to p omax Hm HT HK Ht H1) as (_ & _ & C). specialize (C ltac:(lra)).
    eexists. eexists. split; [exact C|]. split; [exact B|]. pose proof (@coupling_pos p K HK ltac:(lra)) as P. pose proof (@coupling_mono p q K HK ltac:(lra) Hpq Hq) as M. unfold coupling in *.
    fold d. split; [left; apply Rdiv_lt_0_compat; auto|]. unfold Rdiv. apply Rmult_lt_compat_r; auto. apply Rinv_0_lt_compat. auto.
Qed.
Print Assumptions C35_increasing.

Theorem C35_layers : forall T T' K theta_in theta_out p omega_max,
  (1 <= T < T')%nat -> (1 <= K)%nat -> 0 < theta_out < theta_in -> theta_in <> 1 -> 0 < p < 1 ->
  exists a b, omega_estimate "multiplex" T omega_max theta_in theta_out p K = Ok a /\ omega_estimate "multiplex" T' omega_max theta_in theta_out p K = Ok b /\ 0 < b < a.
Proof.
  intros T T' K ti to p omax HT HK Ht H1 Hp. assert (Hm : is_model "multiplex") by (right; right; auto).
  destruct (C35_formula "multiplex" T K ti to p omax Hm ltac:(lia) HK Ht ltac:(auto)) as (_ & _ & A).
  destruct (C35_formula "multiplex" T' K ti to p omax Hm ltac:(lia) HK Ht ltac:(auto)) as (_ & _ & B). specialize (A Hp). specialize (B Hp).
  eexists. eexists. split; [exact A|]. split; [exact B|]. destruct (string_dec "multiplex" "multiplex"); [|congruence].
  pose proof (@coupling_pos p K HK Hp) as P. unfold coupling in P. assert (ln to < ln ti) by (apply ln_increasing; lra).
  assert (0 < INR T) by (apply lt_0_INR; lia). assert (INR T < INR T') by (apply lt_INR; lia).
  set (L := ln ti - ln to) in *. assert (0 < L) by (unfold L; lra). assert (0 < INR T * L) by (apply Rmult_lt_0_compat; lra).
  assert (INR T * L < INR T' * L) by (apply Rmult_lt_compat_r; lra).
  split; [apply Rdiv_lt_0_compat; lra|]. unfold Rdiv. apply Rmult_lt_compat_l; auto. apply Rinv_lt_contravar; auto. apply Rmult_lt_0_compat; lra.
Qed.
Print Assumptions C35_layers.

(** Without edges between communities (theta_out = 0) the logarithm of theta_out is dropped. *)
Theorem C35_no_between : forall model T K theta_in p omega_max,
  is_model model -> (1 <= T)%nat -> (1 <= K)%nat -> 1 < theta_in -> 0 < p < 1 ->
  omega_estimate model T omega_max theta_in 0 p K
  = Ok (ln (1 + p * INR K / (1 - p)) / ((if string_dec model "multiplex" then INR T else 2) * ln theta_in)).
Proof.
  intros model T K ti p omax Hm HT HK Ht Hp. destruct (@omega_ok model T K ti 0 p omax Hm HT HK ltac:(lra) ltac:(lra) ltac:(lra)) as (f & Hf & _ & _ & F).
  unfold omega_estimate. rewrite Hf. cbn [bind]. destruct F as (o & -> & [(A & _)|[(A & _)|[(_ & _ & A & _)|(_ & _ & ->)]]]); try lra.
  - right. left. split; [lra|]. unfold vanishes. lra.
  - unfold omega_formula. destruct (Req_EM_T 0 0); [|congruence]. rewrite Rminus_0_r. reflexivity.
Qed.
Print Assumptions C35_no_between.
Example C35_example : omega_estimate "temporal" 2 1000 (exp 1) 1 (1 / 2) 2 = Ok (ln 3 / 2).
Proof.
  assert (E : 1 < exp 1) by (pose proof (exp_ineq1 1); lra).
  destruct (C35_formula "temporal" 2 2 (exp 1) 1 (1 / 2) 1000) as (_ & _ & H); [left; auto|lia|lia|lra|discriminate|]. rewrite (H ltac:(lra)).
  f_equal. destruct (string_dec "temporal" "multiplex"); [discriminate|]. rewrite ln_exp, ln_1. replace (1 + 1 / 2 * INR 2 / (1 - 1 / 2)) with 3 by (cbn; field). f_equal. ring.
Qed.

(** ** C36: omega_max does not bound the estimates: for every model, every omega_max and all theta_in > theta_out > 0 some copying
    probability below 1 gives a larger estimate. *)
Theorem C36_refuted : forall model T K theta_in theta_out omega_max,
  is_model model -> (1 <= T)%nat -> (1 <= K)%nat -> 0 < theta_out < theta_in -> (model = "multiplex"%string -> theta_in <> 1) ->
  exists p omega, 0 < p < 1 /\ omega_estimate model T omega_max theta_in theta_out p K = Ok omega /\ omega_max < omega.
Proof.
  intros model T K ti to omax Hm HT HK Ht H1. pose proof (@denominator_pos model T ti to HT Ht) as D. set (d := _ * _) in *.
  destruct (@coupling_unbounded K (omax * d) HK) as (p & Hp & B). exists p. destruct (C35_formula model T K ti to p omax Hm HT HK Ht H1) as (_ & _ & A).
  eexists. split; [exact Hp|]. split; [exact (A Hp)|]. fold d. unfold coupling in B. apply (Rmult_lt_reg_r d); auto. unfold Rdiv. rewrite Rmult_assoc, Rinv_l by lra. lra.
Qed.
Print Assumptions C36_refuted.
(** It is returned exactly at p >= 1 (and for multiplex with theta_in = 1). *)
Theorem C36_exact : forall model T K theta_in theta_out p omega_max omega,
  is_model model -> (1 <= T)%nat -> (1 <= K)%nat -> 0 <= p -> 0 < theta_out < theta_in ->
  omega_estimate model T omega_max theta_in theta_out p K = Ok omega ->
  omega = omega_max \/ (p = 0 /\ omega = 0) \/ (0 < p < 1 /\ omega = omega_formula model T K theta_in theta_out p).
Proof.
  intros model T K ti to p omax o Hm HT HK Hp Ht H. destruct (@omega_ok model T K ti to p omax Hm HT HK Hp ltac:(lra) ltac:(lra)) as (f & Hf & _ & _ & F).
  unfold omega_estimate in H. rewrite Hf in H. cbn [bind] in H. destruct F as (o' & E & I); [right; left; split; [lra|unfold vanishes; lra]|].
  assert (o' = o) by congruence. subst o'. destruct I as [(A & ->)|[(A & ->)|[(A & _ & _ & ->)|(A & _ & ->)]]]; auto.
Qed.
Print Assumptions C36_exact.

(** ** C37: with positive weights, gamma_omega_estimate fails exactly when 0 < p < 1 and either no edge is inside a community
    (ValueError) or, outside the multiplex model, the weight within communities is exactly the expected one
    (ZeroDivisionError).  Otherwise it returns the gamma and omega estimates of theta_in and theta_out. *)
Theorem C37_exact : forall env g h gi ws lv c model omega_max oN oT oNt om,
  wf_graph g -> wf_graph gi -> weights_defaulted (ee_contains env g) g h -> weights h = Some ws -> (forall w, In w ws -> 0 < w) ->
  valid_multilayer h gi ws lv model -> is_model model -> length c = vcount g ->
  let n := vcount g in let E := weighted_edges h ws in let T := S (list_max lv) in let N := (vcount g / T)%nat in let K := list_max (map S c) in
  let OW := observed_within_layers n E lv T c in let EW := expected_within_layers n E lv T c in
  let OB := observed_between_layers n E lv T c in let EB := expected_between_layers n E lv T c in
  omitted_or oN N -> omitted_or oT T -> omitted_or oNt (map (nodes_in lv) (seq 0 T)) -> omitted_or om (map (weight_in E lv) (seq 0 T)) ->
  exists pers p r, is_persistence model gi lv N T c pers /\ is_copying_probability (ee_fsolve env) model K T pers p /\ 0 <= p /\
    gamma_omega_estimate env g gi lv c omega_max model oN oT oNt om = (h, r) /\
    (0 < p < 1 -> OW = 0 -> r = Raise ValueError) /\
    (0 < p < 1 -> OW = EW -> model <> "multiplex"%string -> r = Raise ZeroDivisionError) /\
    (~ (0 < p < 1) \/ (OW <> 0 /\ (OW <> EW \/ model = "multiplex"%string)) ->
     let theta_in := OW / EW in let theta_out := if Req_EM_T EB 0 then 0 else OB / EB in
     exists omega, r = Ok (gamma_estimate_from_parameters theta_in theta_out, omega) /\
       is_omega_estimate model T K theta_in theta_out p omega_max omega).
Proof.
  intros env g h gi ws lv c model omega_max oN oT oNt om Hg Hgi Hh Hws Hpos Hv Hm Hc. apply weighted_e_defaulted in Hh. subst h.
  intros n E T N K OW EW OB EB H1 H2 H3 H4. apply gamma_omega_whole; auto.
Qed.
Print Assumptions C37_exact.

(** Both failures happen on valid networks with unit weights: two 3-node paths with no edge inside a community, and four one-edge
    layers, each a single community, whose label changes in the last layer. *)
Definition two_paths : graph := mkGraph 6 false [(0, 1); (1, 2); (3, 4); (4, 5)]%nat (Some [1; 1; 1; 1]).
Definition two_paths_i : graph := mkGraph 6 true [(0, 3); (1, 4); (2, 5)]%nat None.
Definition two_paths_lv : list nat := [0; 0; 0; 1; 1; 1]%nat.
Definition four_edges : graph := mkGraph 8 false [(0, 1); (2, 3); (4, 5); (6, 7)]%nat (Some [1; 1; 1; 1]).
Definition four_edges_i : graph := mkGraph 8 true [(0, 2); (1, 3); (2, 4); (3, 5); (4, 6); (5, 7)]%nat None.
Definition four_edges_lv : list nat := [0; 0; 1; 1; 2; 2; 3; 3]%nat.

Ltac divides := match goal with |- Nat.divide ?a ?b => let q := eval cbv in (b / a)%nat in exists q; reflexivity end.
Lemma two_paths_valid : wf_graph two_paths /\ wf_graph two_paths_i /\ valid_multilayer two_paths two_paths_i [1; 1; 1; 1] two_paths_lv "temporal".
Proof.
  split; [apply wf_literal; [literal_edges|reflexivity]|]. split; [split; [literal_edges|discriminate]|].
  unfold valid_multilayer, structural_rules. rules; cbn; try lia; try discriminate; auto.
  - intros m [<-|[<-|[]]]; lra.
  - intros u v [E|[E|[E|[E|[]]]]]; inversion E; reflexivity.
  - intros _. split; divides.
Qed.
Lemma four_edges_valid : wf_graph four_edges /\ wf_graph four_edges_i /\ valid_multilayer four_edges four_edges_i [1; 1; 1; 1] four_edges_lv "temporal".
Proof.
  split; [apply wf_literal; [literal_edges|reflexivity]|]. split; [split; [literal_edges|discriminate]|].
  unfold valid_multilayer, structural_rules. rules; cbn; try lia; try discriminate; auto.
  - intros m [<-|[<-|[<-|[<-|[]]]]]; lra.
  - intros u v [E|[E|[E|[E|[]]]]]; inversion E; reflexivity.
  - intros _. split; divides.
Qed.

(** The persistence and copying probability of a temporal network, by counting. *)
Lemma temporal_p fs gi lv N T c K k pers p : (1 < K)%nat -> is_persistence "temporal" gi lv N T c pers -> is_copying_probability fs "temporal" K T pers p ->
  kept gi c = k -> INR k / (INR N * (INR T - 1)) < 1 -> p = Rmax 0 ((INR K * (INR k / (INR N * (INR T - 1))) - 1) / (INR K - 1)).
Proof.
  intros HK [[_ ->]|[[E _]|[E _]]] H2 <- Hlt; try discriminate. destruct H2 as [([A|A] & _)|[(_ & _ & E & _)|(_ & _ & _ & ->)]]; [lra|lia|discriminate|reflexivity].
Qed.

Ltac layer_sums := unfold observed_within_layers, expected_within_layers; rewrite !sum_to_S; unfold sum_to at 1; cbn [seq map fold_right];
  rewrite ?observed_within_w; cbn.

Theorem C37_refuted_log : exists g gi lv ws c, wf_graph g /\ wf_graph gi /\ weights g = Some ws /\ (forall w, In w ws -> w = 1) /\
  valid_multilayer g gi ws lv "temporal" /\ length c = vcount g /\
  forall env omega_max, ee_contains env g = true -> snd (gamma_omega_estimate env g gi lv c omega_max "temporal" None None None None) = Raise ValueError.
Proof.
  destruct two_paths_valid as (W1 & W2 & V). exists two_paths, two_paths_i, two_paths_lv, [1; 1; 1; 1], [0; 1; 2; 0; 1; 0]%nat.
  split; auto. split; auto. split; [reflexivity|]. split; [intros w H; cbn in H; repeat (destruct H as [<-|H]; [reflexivity|]); destruct H|]. split; auto. split; [reflexivity|]. intros env omax He.
  assert (Hh : weights_defaulted (ee_contains env two_paths) two_paths two_paths) by (rewrite He; reflexivity).
  destruct (C37_exact env two_paths two_paths two_paths_i [1; 1; 1; 1] two_paths_lv [0; 1; 2; 0; 1; 0]%nat "temporal" omax None None None None) as (pers & p & r & A & B & _ & C & D & _);
    auto; try (left; reflexivity).
  - intros w H. cbn in H. destruct H as [<-|[<-|[<-|[<-|[]]]]]; lra.
  - rewrite C. cbn [snd]. apply D.
    + rewrite (@temporal_p (ee_fsolve env) two_paths_i two_paths_lv 3%nat 2%nat [0; 1; 2; 0; 1; 0]%nat 3%nat 2%nat pers p ltac:(lia) A B eq_refl); cbn; [|lra]. unfold Rmax. destruct (Rle_dec _ _); lra.
    + unfold observed_within_layers. apply sum_to_0. intros t _. rewrite observed_within_w; [|apply layer_range; apply range_E_of; auto].
      destruct t as [|[|t]]; unfold inner_w; cbn; rewrite ?rsum_cons, ?rsum_nil; cbn; lra.
Qed.
Print Assumptions C37_refuted_log.

Theorem C37_refuted_division : exists g gi lv ws c, wf_graph g /\ wf_graph gi /\ weights g = Some ws /\ (forall w, In w ws -> w = 1) /\
  valid_multilayer g gi ws lv "temporal" /\ length c = vcount g /\
  forall env omega_max, ee_contains env g = true -> snd (gamma_omega_estimate env g gi lv c omega_max "temporal" None None None None) = Raise ZeroDivisionError.
Proof.
  destruct four_edges_valid as (W1 & W2 & V). exists four_edges, four_edges_i, four_edges_lv, [1; 1; 1; 1], [0; 0; 0; 0; 0; 0; 1; 1]%nat.
  split; auto. split; auto. split; [reflexivity|]. split; [intros w H; cbn in H; repeat (destruct H as [<-|H]; [reflexivity|]); destruct H|]. split; auto. split; [reflexivity|]. intros env omax He.
  assert (Hh : weights_defaulted (ee_contains env four_edges) four_edges four_edges) by (rewrite He; reflexivity).
  destruct (C37_exact env four_edges four_edges four_edges_i [1; 1; 1; 1] four_edges_lv [0; 0; 0; 0; 0; 0; 1; 1]%nat "temporal" omax None None None None) as (pers & p & r & A & B & _ & C & _ & D & _);
    auto; try (left; reflexivity).
  - intros w H. cbn in H. destruct H as [<-|[<-|[<-|[<-|[]]]]]; lra.
  - rewrite C. cbn [snd]. apply D; [| |discriminate].
    + rewrite (@temporal_p (ee_fsolve env) four_edges_i four_edges_lv 2%nat 4%nat [0; 0; 0; 0; 0; 0; 1; 1]%nat 2%nat 4%nat pers p ltac:(lia) A B eq_refl); cbn; [|lra]. unfold Rmax. destruct (Rle_dec _ _); lra.
    + apply sum_to_ext. intros t Ht. rewrite observed_within_w; [|apply layer_range; apply range_E_of; auto].
      rewrite (@expected_within_w _ _ _ 2%nat); [|apply layer_range; apply range_E_of; auto|].
      * destruct t as [|[|[|[|t]]]]; [| | | |cbn in Ht; lia]; unfold inner_w, kappa_w, total_w; cbn; rewrite ?rsum_cons, ?rsum_nil; cbn; field.
      * intros v Hv. cbn in Hv. do 8 (destruct v as [|v]; [cbn; lia|]). lia.
Qed.
Print Assumptions C37_refuted_division.

(** A partition of the two paths for which it succeeds: theta_in = 4/5, theta_out = 4/3, p = 1/3. *)
Definition two_paths_c : list nat := [0; 0; 1; 0; 1; 1]%nat.
Lemma two_paths_sums : let E := weighted_edges two_paths [1; 1; 1; 1] in
  observed_within_layers 6 E two_paths_lv 2 two_paths_c = 4 /\ expected_within_layers 6 E two_paths_lv 2 two_paths_c = 5 /\
  observed_between_layers 6 E two_paths_lv 2 two_paths_c = 4 /\ expected_between_layers 6 E two_paths_lv 2 two_paths_c = 3.
Proof.
  destruct two_paths_valid as (W & _ & V). intros E.
  assert (R : forall t, in_range_E 6 (layer_edges E two_paths_lv t)) by (intros t; apply layer_range; apply (@range_E_of two_paths); auto).
  assert (O : observed_within_layers 6 E two_paths_lv 2 two_paths_c = 4).
  { unfold observed_within_layers. rewrite !sum_to_S. rewrite !observed_within_w by auto. unfold inner_w, sum_to. cbn. rewrite ?rsum_cons, ?rsum_nil. cbn. lra. }
  assert (X : expected_within_layers 6 E two_paths_lv 2 two_paths_c = 5).
  { unfold expected_within_layers. rewrite !sum_to_S.
    rewrite !(@expected_within_w 6 _ two_paths_c 2%nat); auto; [|intros v Hv; do 6 (destruct v as [|v]; [cbn; lia|]); lia..].
    unfold kappa_w, total_w, sum_to. cbn. rewrite ?rsum_cons, ?rsum_nil. cbn. field. }
  assert (P : forall t, (t < 2)%nat -> total_strength 6 (layer_edges E two_paths_lv t) = 4).
  { intros t Ht. rewrite total_strength_w by auto. destruct t as [|[|t]]; [| |lia]; unfold total_w; cbn; rewrite ?rsum_cons, ?rsum_nil; cbn; lra. }
  assert (Q : observed_within_layers 6 E two_paths_lv 2 two_paths_c + observed_between_layers 6 E two_paths_lv 2 two_paths_c = 8).
  { unfold observed_within_layers, observed_between_layers. rewrite <- sum_to_plus. rewrite !sum_to_S. rewrite !observed_split, !P by lia. unfold sum_to. cbn. lra. }
  assert (Q' : expected_within_layers 6 E two_paths_lv 2 two_paths_c + expected_between_layers 6 E two_paths_lv 2 two_paths_c = 8).
  { unfold expected_within_layers, expected_between_layers. rewrite <- sum_to_plus. rewrite !sum_to_S. rewrite !expected_split; [rewrite !P by lia; unfold sum_to; cbn; lra|rewrite P; [lra|lia]..]. }
  split; auto. split; auto. split; lra.
Qed.
Example C37_example : forall env, ee_contains env two_paths = true ->
  gamma_omega_estimate env two_paths two_paths_i two_paths_lv two_paths_c 1000 "temporal" None None None None
  = (two_paths, Ok (Some (Fin ((4 / 5 - 4 / 3) / (ln (4 / 5) - ln (4 / 3)))), ln 2 / (2 * (ln (4 / 5) - ln (4 / 3))))).
Proof.
  intros env He. destruct two_paths_valid as (W1 & W2 & V). destruct two_paths_sums as (S1 & S2 & S3 & S4).
  assert (Hh : weights_defaulted (ee_contains env two_paths) two_paths two_paths) by (rewrite He; reflexivity).
  destruct (C37_exact env two_paths two_paths two_paths_i [1; 1; 1; 1] two_paths_lv two_paths_c "temporal" 1000 None None None None) as (pers & p & r & A & B & _ & C & _ & _ & D);
    auto; try (left; reflexivity).
  { intros w H. cbn in H. destruct H as [<-|[<-|[<-|[<-|[]]]]]; lra. }
  rewrite C. f_equal. clear C. cbv zeta in D. change (vcount two_paths) with 6%nat in D. change (S (list_max two_paths_lv)) with 2%nat in D.
  change (list_max (map S two_paths_c)) with 2%nat in D. rewrite S1, S2, S3, S4 in D.
  assert (P : p = 1 / 3).
  { rewrite (@temporal_p (ee_fsolve env) two_paths_i two_paths_lv 3%nat 2%nat two_paths_c 2%nat 2%nat pers p ltac:(lia) A B eq_refl); cbn; [|lra]. unfold Rmax. destruct (Rle_dec _ _); lra. }
  destruct D as (o & -> & I); [right; split; [lra|left; lra]|]. destruct (Req_EM_T 3 0) as [Z|_]; [lra|].
  destruct (C29_log_mean (4 / 5) (4 / 3)) as (x & -> & -> & _); try lra. f_equal. f_equal.
  destruct I as [(Z & _)|[(Z & _)|[(_ & Z & _)|(_ & _ & ->)]]]; try lra; [discriminate|]. unfold omega_formula. rewrite P.
  destruct (Req_EM_T (4 / 3) 0); [lra|]. destruct (string_dec "temporal" "multiplex"); [discriminate|].
  replace (1 + 1 / 3 * INR 2 / (1 - 1 / 3)) with 2 by (cbn; field). reflexivity.
Qed.
(** The same network and the structural check on the numbers computed from it (C48). *)
Example C31_example_accepted : check_multilayer_graph_consistency two_paths two_paths_i two_paths_lv "temporal" [2; 2] 2 (Some 3%nat) (Some [3; 3]%nat) = Accepted.
Proof. unfold check_multilayer_graph_consistency. cbn. unfold Rltb. destruct (Rlt_dec 0 2); [reflexivity|lra]. Qed.

(** ** C48: [valid_multilayer] is what the structural check accepts, given the numbers of layers and nodes and the layer weights. *)
Theorem C48_valid : forall g gi ws lv model, wf_graph g -> weights g = Some ws -> length lv = vcount g ->
  let T := S (list_max lv) in
  (check_multilayer_graph_consistency g gi lv model (map (weight_in (weighted_edges g ws) lv) (seq 0 T)) T
     (Some (vcount g / T)%nat) (Some (map (nodes_in lv) (seq 0 T))) = Accepted <-> valid_multilayer g gi ws lv model).
Proof.
  intros g gi ws lv model [Hwf _] Hws Hl T. apply accepted_iff; [unfold T; lia|]. intros u v H. rewrite Hl. auto.
Qed.
Print Assumptions C48_valid.
