(** The omega estimate, and gamma_omega_estimate as a whole. *)
From Verif Require Import PyBase PyGraph M_partition M_champ M_leiden M_estimation_utils M_estimation Spec Spec_graph Spec_leiden Spec_sbm Spec_multisbm Spec_check Spec_valid
  L_base L_modularity L_modularity3 L_leiden L_sbm L_sbm2 L_logmean L_check L_multisbm L_copying L_accepted.
Set Implicit Arguments.
Open Scope R_scope.

Lemma valid_accepted g gi ws lv model : wf_graph g -> valid_multilayer g gi ws lv model -> accepted g gi ws lv model.
Proof.
  intros [Hwf _] H. unfold accepted. set (T := S (list_max lv)).
  assert (Hl : length lv = vcount g).
  { unfold valid_multilayer, structural_rules in H. rewrite !Forall_cons_iff in H. cbn [fst] in H. tauto. }
  apply (@accepted_iff g gi lv model _ T (vcount g / T)%nat _); [unfold T; lia| |exact H].
  intros u v Huv. rewrite Hl. auto.
Qed.

Lemma ln_zero_iff x : 0 < x -> (ln x = 0 <-> x = 1).
Proof. intros H. split; [intros E; apply ln_inv; try lra; rewrite ln_1; auto|intros ->; apply ln_1]. Qed.

Section Omega.
Variables (model : string) (T K : nat) (ti to p omax : R).
Hypothesis Hm : is_model model.
Hypothesis HT : (1 <= T)%nat.
Hypothesis HK : (1 <= K)%nat.
Hypothesis Hp : 0 <= p.
Hypothesis Hti : 0 <= ti.
Hypothesis Hto : 0 <= to.

Definition vanishes : Prop := to = ti \/ (to = 0 /\ ti = 1).

Lemma diff_zero : 0 < ti -> (ln ti - (if Req_EM_T to 0 then 0 else ln to) = 0 <-> vanishes).
Proof.
  intros H. unfold vanishes. destruct (Req_EM_T to 0) as [->|N].
  - rewrite Rminus_0_r, ln_zero_iff by auto. split; [auto|]. intros [E|[_ E]]; lra.
  - split.
    + intros E. left. apply ln_inv; lra.
    + intros [->|[E _]]; [lra|congruence].
Qed.

Lemma omega_ok : exists f, omega_function_from_model model omax T = Ok f /\
  (0 < p < 1 -> ti = 0 -> f ti to p K = Raise ValueError) /\
  (0 < p < 1 -> 0 < ti -> model <> "multiplex"%string -> vanishes -> f ti to p K = Raise ZeroDivisionError) /\
  (~ (0 < p < 1) \/ (0 < ti /\ ~ vanishes) \/ (ti = 1 /\ model = "multiplex"%string) ->
   exists o, f ti to p K = Ok o /\ is_omega_estimate model T K ti to p omax o).
Proof.
  assert (HTR : 0 < INR T) by (apply lt_0_INR; lia).
  destruct (string_dec model "multiplex") as [Ex|Nx].
  - exists (fun a b q k => multiplex_omega_estimate_from_parameters a b q k T omax). split; [rewrite Ex; reflexivity|].
    unfold multiplex_omega_estimate_from_parameters, is_omega_estimate, omega_formula. destruct (string_dec model "multiplex"); [|congruence].
    split; [|split; [congruence|]].
    + intros Hpp ->. destruct (Req_EM_T p 0); [lra|]. destruct (Rle_dec 1 p); [lra|]. destruct (Req_EM_T 0 1); [lra|].
      rewrite coupling_log_ok by auto. cbn [bind]. rewrite (@py_log_fail 0) by lra. destruct (Req_EM_T to 0); reflexivity.
    + intros H. destruct (Req_EM_T p 0); [exists 0; split; auto|]. destruct (Rle_dec 1 p); [exists omax; split; auto|].
      destruct (Req_EM_T ti 1) as [E1|N1]; [exists omax; split; auto; right; right; left; split; [lra|auto]|].
      assert (Hpp : 0 < p < 1) by lra. destruct H as [H|[[Hpos Hv]|[H _]]]; [tauto| |congruence].
      pose proof (diff_zero Hpos) as D. rewrite coupling_log_ok by auto. cbn [bind]. rewrite (py_log_ok Hpos).
      destruct (Req_EM_T to 0) as [E0|N0]; cbn [bind].
      * rewrite py_div_ok; [|intros Z; apply Rmult_integral in Z; destruct Z; [lra|apply Hv, D; lra]].
        eexists; split; [reflexivity|]. right. right. right. split; auto. split; auto. rewrite Rminus_0_r. reflexivity.
      * rewrite (@py_log_ok to) by lra. cbn [bind]. rewrite py_div_ok; [|intros Z; apply Rmult_integral in Z; destruct Z; [lra|apply Hv, D; lra]].
        eexists; split; [reflexivity|]. right. right. right. split; auto.
  - exists (fun a b q k => temporal_multilevel_omega_estimate_from_parameters a b q k omax).
    split. { destruct Hm as [-> |[-> | ->]]; [reflexivity|reflexivity|congruence]. }
    unfold temporal_multilevel_omega_estimate_from_parameters, is_omega_estimate, omega_formula. destruct (string_dec model "multiplex"); [congruence|].
    split; [|split].
    + intros Hpp ->. destruct (Req_EM_T p 0); [lra|]. destruct (Rlt_dec p 1); [|lra].
      rewrite coupling_log_ok by auto. cbn [bind]. rewrite (@py_log_fail 0) by lra. destruct (Req_EM_T to 0); reflexivity.
    + intros Hpp Hpos _ Hv. pose proof (proj2 (diff_zero Hpos) Hv) as D. destruct (Req_EM_T p 0); [lra|]. destruct (Rlt_dec p 1); [|lra].
      rewrite coupling_log_ok by auto. cbn [bind]. rewrite (py_log_ok Hpos). destruct (Req_EM_T to 0) as [E0|N0]; cbn [bind].
      * unfold py_div. destruct (Req_EM_T (2 * ln ti) 0); [reflexivity|lra].
      * rewrite (@py_log_ok to) by lra. cbn [bind]. unfold py_div. destruct (Req_EM_T (2 * (ln ti - ln to)) 0); [reflexivity|lra].
    + intros H. destruct (Req_EM_T p 0); [exists 0; split; auto|].
      destruct (Rlt_dec p 1) as [L|L].
      * destruct H as [H|[[Hpos Hv]|[_ H]]]; [exfalso; apply H; lra| |congruence].
        pose proof (diff_zero Hpos) as D. rewrite coupling_log_ok by (auto; lra). cbn [bind]. rewrite (py_log_ok Hpos).
        destruct (Req_EM_T to 0) as [E0|N0]; cbn [bind].
        -- rewrite py_div_ok; [|intros Z; apply Hv, D; lra]. eexists; split; [reflexivity|]. right. right. right. split; [lra|]. split; [congruence|].
           rewrite Rminus_0_r. reflexivity.
        -- rewrite (@py_log_ok to) by lra. cbn [bind]. rewrite py_div_ok; [|intros Z; apply Hv, D; lra].
           eexists; split; [reflexivity|]. right. right. right. split; [lra|]. split; [congruence|auto].
      * exists omax. destruct (Req_EM_T to 0); split; auto; right; left; split; auto; lra.
Qed.
End Omega.

(** ** gamma_omega_estimate *)
Section Whole.
Variables (env : est_env) (g gi : graph) (lv c : list nat) (model : string) (ws : list R) (omax : R).
Hypothesis Hwf : wf_graph g.
Hypothesis Hwfi : wf_graph gi.
Let h := weighted_e env g.
Hypothesis Hws : weights h = Some ws.
Let n := vcount g.
Let E := weighted_edges h ws.
Let T := S (list_max lv).
Let N := (vcount g / T)%nat.
Let K := list_max (map S c).
Hypothesis Hv : valid_multilayer h gi ws lv model.
Hypothesis Hm : is_model model.
Hypothesis Hc : length c = vcount g.

Let OW := observed_within_layers n E lv T c.
Let EW := expected_within_layers n E lv T c.
Let OB := observed_between_layers n E lv T c.
Let EB := expected_between_layers n E lv T c.
Let ti := OW / EW.
Let to := if Req_EM_T EB 0 then 0 else OB / EB.

Lemma default_weights_ok : default_weights_e env g = Ok h.
Proof. unfold default_weights_e, h, weighted_e. destruct (ee_contains env g); auto. apply set_weights_ones. unfold ecount. destruct (edges g); cbn; [congruence|lia]. Qed.

Lemma estimate_valid k oN oT oNt om : EW <> 0 -> (forall v, (v < vcount g)%nat -> (nth v c 0%nat < k)%nat) ->
  oN = None \/ oN = Some N -> oT = None \/ oT = Some T -> oNt = None \/ oNt = Some (map (nodes_in lv) (seq 0 T)) ->
  om = None \/ om = Some (map (weight_in E lv) (seq 0 T)) ->
  exists pers p, is_persistence model gi lv N T c pers /\ is_copying_probability (ee_fsolve env) model k T pers p /\
    estimate_multilayer_SBM_parameters env g gi lv (mkPart k c) model oN oT oNt om = (h, Ok (ti, to, p, k)).
Proof.
  intros HEW Hk H1 H2 H3 H4. unfold estimate_multilayer_SBM_parameters. rewrite default_weights_ok.
  assert (Hwfh : wf_graph h) by (apply weighted_e_wf; auto). assert (Vh : vcount h = vcount g) by apply weighted_e_vcount.
  pose proof (valid_accepted Hwfh Hv) as Ha. destruct (@acc_facts h gi lv model ws Hwfh Ha) as (F1 & F2 & F3 & F4 & F5 & F6 & F7 & F8).
  destruct (@estimate_multi env h gi lv c k model ws) with (oN := oN) (oT := oT) (oNt := oNt) (om := om) as (pers & p & A & B & C); auto.
  - apply (@acc_lv h gi lv model ws Ha).
  - congruence.
  - rewrite Vh. auto.
  - apply (@acc_N h gi lv model ws Hwfh Ha).
  - intros Hml. apply (F7 Hml).
  - intros t Ht. apply (@acc_total h gi lv model ws Hwfh Ha t Ht).
  - rewrite Vh. exact HEW.
  - rewrite Vh. exact H1.
  - exists pers, p. rewrite Vh in A. split; [exact A|]. split; [exact B|]. rewrite C. rewrite Vh. reflexivity.
Qed.

Hypothesis Hpos : forall w, In w ws -> 0 < w.

Lemma whole_facts : 0 < EW /\ 0 <= OW /\ 0 <= OB /\ 0 <= EB /\ OW + OB = EW + EB /\ (1 < T)%nat /\ (1 <= K)%nat /\ (EB = 0 -> OB = 0).
Proof.
  assert (Hwfh : wf_graph h) by (apply weighted_e_wf; auto). assert (Vh : vcount h = vcount g) by apply weighted_e_vcount.
  pose proof (valid_accepted Hwfh Hv) as Ha.
  pose proof (@acc_EW h gi lv model ws Hwfh Ha c ltac:(congruence) Hpos) as A1. pose proof (@acc_OW h lv ws c Hpos) as A2.
  pose proof (@acc_OB h lv ws c Hpos) as A3. pose proof (@acc_EB h lv ws Hwfh c Hpos) as A4. pose proof (@acc_split h gi lv model ws Hwfh Ha c) as A5.
  pose proof (@acc_EB_zero h lv ws Hwfh c Hpos) as A6.
  destruct (@acc_facts h gi lv model ws Hwfh Ha) as (F1 & _). rewrite Vh in *. split; [exact A1|]. split; [exact A2|]. split; [exact A3|]. split; [exact A4|].
  split; [exact A5|]. split; [exact F1|]. pose proof (@acc_nodes h gi lv model ws Hwfh Ha 0%nat ltac:(lia)) as P.
  assert (0 < vcount g)%nat. { pose proof (@acc_lv h gi lv model ws Ha) as L. rewrite Vh in L. rewrite <- L. destruct lv; [cbn in P; lia|cbn; lia]. }
  split; [pose proof (@list_max_label c 0%nat ltac:(lia)); unfold K; lia|exact A6].
Qed.

Lemma ti_nonneg : 0 <= ti.
Proof. destruct whole_facts as (A & B & _). unfold ti. apply Rmult_le_pos; [auto|]. left. apply Rinv_0_lt_compat. auto. Qed.
Lemma to_nonneg : 0 <= to.
Proof. destruct whole_facts as (A & B & C & D & _). unfold to. destruct (Req_EM_T EB 0); [lra|]. apply Rmult_le_pos; [auto|]. left. apply Rinv_0_lt_compat. lra. Qed.
Lemma ti_zero : ti = 0 <-> OW = 0.
Proof.
  destruct whole_facts as (A & B & _). unfold ti. split.
  - intros Z. replace OW with (OW / EW * EW) by (field; lra). rewrite Z. ring.
  - intros ->. unfold Rdiv. ring.
Qed.
Lemma ti_one : ti = 1 <-> OW = EW.
Proof.
  destruct whole_facts as (A & B & _). unfold ti. split.
  - intros Z. replace OW with (OW / EW * EW) by (field; lra). rewrite Z. ring.
  - intros ->. field. lra.
Qed.
Lemma vanishes_iff : vanishes ti to <-> OW = EW.
Proof.
  destruct whole_facts as (A & B & C & D & S1 & _ & _ & EZ). unfold vanishes. split.
  - intros [Z|[_ Z]]; [|apply ti_one; auto]. unfold to in Z. destruct (Req_EM_T EB 0) as [E0|N0].
    + assert (OW = 0) by (apply ti_zero; auto). specialize (EZ E0). lra.
    + unfold ti in Z. assert (Q : OB = OW / EW * EB) by (rewrite <- Z; field; auto). rewrite Q in S1.
      assert (OW / EW * (EW + EB) = 1 * (EW + EB)) by (replace (OW / EW * (EW + EB)) with (OW + OW / EW * EB) by (field; lra); lra).
      apply Rmult_eq_reg_r in H; [|lra]. apply ti_one. auto.
  - intros Z. assert (Q : ti = 1) by (apply ti_one; auto). unfold to. destruct (Req_EM_T EB 0); [right; auto|]. left. rewrite Q.
    assert (OB = EB) by lra. rewrite H. field. auto.
Qed.

Lemma gamma_omega_whole oN oT oNt om :
  oN = None \/ oN = Some N -> oT = None \/ oT = Some T -> oNt = None \/ oNt = Some (map (nodes_in lv) (seq 0 T)) ->
  om = None \/ om = Some (map (weight_in E lv) (seq 0 T)) ->
  exists pers p r, is_persistence model gi lv N T c pers /\ is_copying_probability (ee_fsolve env) model K T pers p /\ 0 <= p /\
    gamma_omega_estimate env g gi lv c omax model oN oT oNt om = (h, r) /\
    (0 < p < 1 -> OW = 0 -> r = Raise ValueError) /\
    (0 < p < 1 -> OW = EW -> model <> "multiplex"%string -> r = Raise ZeroDivisionError) /\
    (~ (0 < p < 1) \/ (OW <> 0 /\ (OW <> EW \/ model = "multiplex"%string)) ->
     exists omega, r = Ok (gamma_estimate_from_parameters ti to, omega) /\ is_omega_estimate model T K ti to p omax omega).
Proof.
  intros H1 H2 H3 H4. pose proof whole_facts as (A & B & C & D & S1 & T1 & K1 & _).
  destruct (@estimate_valid K oN (Some T) oNt om ltac:(lra) ltac:(intros v Hv'; apply list_max_label; lia) H1 (or_intror eq_refl) H3 H4) as (pers & p & P1 & P2 & P3).
  assert (P0 : 0 <= p). { destruct P2 as [(_ & ->)|[(_ & _ & _ & ->)|(_ & _ & _ & ->)]]; [lra|apply Rmax_l|apply Rmax_l]. }
  destruct (@omega_ok model T K ti to p omax Hm ltac:(lia) K1 P0 ti_nonneg to_nonneg) as (f & F0 & F1 & F2 & F3).
  exists pers, p. eexists. split; [exact P1|]. split; [exact P2|]. split; [exact P0|]. split.
  { unfold gamma_omega_estimate.
    assert (e1 : or_default oT (layer_count_T lv) = Ok T).
    { destruct H2 as [->| ->]; [|reflexivity]. cbn [or_default]. unfold layer_count_T. rewrite (@py_max_list lv (list_max lv)); auto; [cbn [bind]; f_equal; unfold T; lia|].
      intros Z. unfold T in T1. rewrite Z in T1. cbn in T1. lia. }
    rewrite e1. cbn [bind]. unfold leiden_part_with_membership. rewrite Hc, Nat.eqb_refl. cbn [bind]. fold K. rewrite P3. reflexivity. }
  cbn [bind]. rewrite F0. cbn [bind]. split; [|split].
  - intros Hp Z. rewrite F1; auto. apply ti_zero. auto.
  - intros Hp Z Hmm. rewrite F2; auto.
    + assert (ti = 1) by (apply ti_one; auto). lra.
    + apply vanishes_iff. auto.
  - intros H. destruct F3 as (o & Fo & Ho).
    + destruct H as [H|[Z [H|H]]]; [left; auto| |].
      * right. left. split; [|rewrite vanishes_iff; auto]. pose proof ti_nonneg. destruct (Req_EM_T ti 0) as [Q|Q]; [apply ti_zero in Q; tauto|lra].
      * destruct (Req_EM_T OW EW) as [Q|Q]; [right; right; split; [apply ti_one|]; auto|]. right. left. split; [|rewrite vanishes_iff; auto].
        pose proof ti_nonneg. destruct (Req_EM_T ti 0) as [Q'|Q']; [apply ti_zero in Q'; tauto|lra].
    + rewrite Fo. exists o. split; auto.
Qed.
End Whole.
