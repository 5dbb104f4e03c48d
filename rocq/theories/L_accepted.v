(** Consequences of acceptance by the structural check. *)
From Verif Require Import PyBase PyGraph M_partition M_champ M_leiden M_estimation_utils M_estimation Spec Spec_graph Spec_leiden Spec_sbm Spec_multisbm Spec_check
  L_base L_modularity L_modularity3 L_leiden L_sbm L_sbm2 L_check L_multisbm L_copying.
Set Implicit Arguments.
Open Scope R_scope.

Lemma accepted_length g gi lv model m_t T N Nt : check_multilayer_graph_consistency g gi lv model m_t T N Nt = Accepted -> length lv = vcount g.
Proof.
  unfold check_multilayer_graph_consistency. destruct (consistency_rules g gi lv model m_t T N Nt) as [bs|e] eqn:E; [|discriminate].
  destruct (forallb fst bs) eqn:F; [|discriminate]. intros _. unfold consistency_rules in E.
  repeat (apply bind_ok in E; destruct E as (? & _ & E)). inversion E. subst bs. cbn [forallb fst] in F.
  rewrite !andb_true_iff in F. destruct F as (_ & _ & _ & F & _). apply Nat.eqb_eq in F. auto.
Qed.

(** The structural check on the numbers that the code computes from the graphs. *)
Definition accepted (g gi : graph) (ws : list R) (lv : list nat) (model : string) : Prop :=
  let T := S (list_max lv) in
  check_multilayer_graph_consistency g gi lv model (map (weight_in (weighted_edges g ws) lv) (seq 0 T)) T
    (Some (vcount g / T)%nat) (Some (map (nodes_in lv) (seq 0 T))) = Accepted.

Section Accepted.
Variables (g gi : graph) (lv : list nat) (model : string) (ws : list R).
Hypothesis Hwf : wf_graph g.
Hypothesis Hwfi : wf_graph gi.
Hypothesis Hws : weights g = Some ws.
Let n := vcount g.
Let E := weighted_edges g ws.
Let T := S (list_max lv).
Let N := (vcount g / T)%nat.
Hypothesis Hacc : accepted g gi ws lv model.

Lemma acc_lv : length lv = vcount g.
Proof. exact (@accepted_length g gi lv model _ _ _ _ Hacc). Qed.

Lemma acc_rules : Forall (fun r => fst r) (structural_rules g gi lv model (map (weight_in E lv) (seq 0 T)) T N (map (nodes_in lv) (seq 0 T))).
Proof.
  apply (@accepted_iff g gi lv model (map (weight_in E lv) (seq 0 T)) T N (map (nodes_in lv) (seq 0 T))); [unfold T; lia| |exact Hacc].
  intros u v H. rewrite acc_lv. apply Hwf. auto.
Qed.

Lemma acc_facts : (1 < T)%nat /\ directed gi = true /\ vcount gi = vcount g /\ (forall t, (t < T)%nat -> 0 < weight_in E lv t) /\ edges_within_layers g lv /\
  (model = "temporal"%string -> (Z.of_nat (length (edges gi)) = Z.of_nat N * (Z.of_nat T - 1))%Z /\ forall t, (t < T)%nat -> nodes_in lv t = N) /\
  (model = "multilevel"%string -> (forall t, (t < T)%nat -> (0 < nodes_in lv t)%nat) /\ forall v, (v < vcount gi)%nat -> (arriving gi v <= 1)%nat) /\
  (model = "multiplex"%string -> (Z.of_nat (length (edges gi)) = Z.of_nat N * Z.of_nat T * (Z.of_nat T - 1))%Z /\ forall t, (t < T)%nat -> nodes_in lv t = N).
Proof.
  pose proof acc_rules as F. unfold structural_rules in F. rewrite !Forall_cons_iff in F. cbn [fst] in F.
  destruct F as (F1 & F2 & F3 & F4 & F5 & F6 & F7 & F8 & F9 & F10 & F11 & F12 & F13 & _).
  assert (I : forall t, (t < T)%nat -> In (nodes_in lv t) (map (nodes_in lv) (seq 0 T))) by (intros t Ht; apply in_map, in_seq; lia).
  split; [auto|]. split; [auto|]. split; [auto|]. split; [intros t Ht; apply F5; apply in_map, in_seq; lia|]. split; [auto|].
  split; [intros Hm; split; [auto|intros t Ht; apply F9; auto]|]. split; [intros Hm; split; [intros t Ht; apply F10; auto|intros v Hv; apply F11; auto]|].
  intros Hm; split; [auto|intros t Ht; apply F12; auto].
Qed.

Lemma acc_layer_nonempty t : (t < T)%nat -> layer_edges E lv t <> [].
Proof.
  intros Ht Z. destruct acc_facts as (_ & _ & _ & F & _). specialize (F t Ht). unfold weight_in in F. rewrite Z in F. cbn in F. lra.
Qed.

Lemma acc_nodes t : (t < T)%nat -> (0 < nodes_in lv t)%nat.
Proof.
  intros Ht. pose proof (acc_layer_nonempty Ht) as Z. destruct (layer_edges E lv t) as [|[[u v] w] L] eqn:EL; [congruence|].
  assert (Hin : In ((u, v), w) (layer_edges E lv t)) by (rewrite EL; left; auto). apply filter_In in Hin. destruct Hin as [Hin Hl]. cbn [fst] in Hl. apply Nat.eqb_eq in Hl.
  apply in_combine_l in Hin. apply Hwf in Hin. apply (count_occ_In Nat.eq_dec). rewrite <- Hl. apply nth_In. rewrite acc_lv. tauto.
Qed.

Lemma acc_N : model = "temporal"%string \/ model = "multiplex"%string -> (0 < N)%nat.
Proof.
  intros Hm. destruct acc_facts as (HT & _ & _ & _ & _ & Ft & _ & Fx). pose proof (@acc_nodes 0%nat ltac:(lia)) as P.
  destruct Hm as [Hm|Hm]; [destruct (Ft Hm) as [_ G]|destruct (Fx Hm) as [_ G]]; rewrite <- (G 0%nat) by lia; auto.
Qed.

Lemma acc_total t : (t < T)%nat -> total_strength n (layer_edges E lv t) <> 0.
Proof.
  intros Ht. destruct acc_facts as (_ & _ & _ & F & _). specialize (F t Ht).
  rewrite total_strength_w; [change (weight_in E lv t) with (total_w (layer_edges E lv t)) in F; lra|]. apply layer_range. apply range_E_of. auto.
Qed.

(** *** Persistence *)
Lemma acc_persistence c x : is_persistence model gi lv N T c x ->
  0 <= x /\ (model <> "multilevel"%string -> x <= 1) /\ (model = "multilevel"%string -> x <= INR T / (INR T - 1)) /\
  (model = "multilevel"%string -> (forall u v, In (u, v) (edges gi) -> nth v lv 0%nat <> 0%nat) -> x <= 1) /\
  (model <> "multilevel"%string -> (forall u v, In (u, v) (edges gi) -> nth u c 0%nat = nth v c 0%nat) -> x = 1).
Proof.
  intros Hx. destruct acc_facts as (HT & Hd & Hv & _ & _ & Ft & Fl & Fx).
  assert (T1 : 0 < INR T - 1) by (apply lt_INR in HT; change (INR 1) with 1 in HT; lra).
  pose proof (kept_le gi c) as KL. apply le_INR in KL.
  destruct Hx as [[Hm ->]|[[Hm ->]|[Hm ->]]].
  - pose proof (acc_N (or_introl Hm)) as HN. apply lt_0_INR in HN. destruct (Ft Hm) as [Fe _].
    assert (Ee : INR (length (edges gi)) = INR N * (INR T - 1)).
    { rewrite !INR_IZR_INZ, Fe, mult_IZR, minus_IZR. reflexivity. }
    assert (D : 0 < INR N * (INR T - 1)) by (apply Rmult_lt_0_compat; auto).
    split; [apply Rmult_le_pos; [apply pos_INR|left; apply Rinv_0_lt_compat; auto]|]. split; [|split; [congruence|split; [congruence|]]].
    + intros _. apply (Rmult_le_reg_r (INR N * (INR T - 1))); auto. unfold Rdiv. rewrite Rmult_assoc, Rinv_l by lra. lra.
    + intros _ Hall. rewrite (kept_all gi c Hall), Ee. field. lra.
  - destruct (Fl Hm) as [Fn Fa].
    assert (B : forall t, (t < T)%nat -> 0 <= INR (kept_into gi lv c t) / INR (nodes_in lv t) <= 1).
    { intros t Ht. specialize (Fn t Ht). apply lt_0_INR in Fn. pose proof (@kept_into_le gi lv c t Hwfi ltac:(rewrite Hv; apply acc_lv) Hd Fa) as L. apply le_INR in L.
      split; [apply Rmult_le_pos; [apply pos_INR|left; apply Rinv_0_lt_compat; auto]|].
      apply (Rmult_le_reg_r (INR (nodes_in lv t))); auto. unfold Rdiv. rewrite Rmult_assoc, Rinv_l by lra. lra. }
    assert (S1 : forall m, sum_to m (fun _ => 1) = INR m) by (induction m; [reflexivity|rewrite sum_to_S, IHm, S_INR; lra]).
    split; [apply Rmult_le_pos; [apply sum_to_nonneg; intros t Ht; apply B; auto|left; apply Rinv_0_lt_compat; auto]|].
    split; [congruence|]. split; [|split; [|congruence]].
    + intros _. unfold Rdiv. apply Rmult_le_compat_r; [left; apply Rinv_0_lt_compat; auto|]. rewrite <- S1. apply sum_to_le. intros t Ht. apply B; auto.
    + intros _ Hfirst. apply (Rmult_le_reg_r (INR T - 1)); auto. unfold Rdiv at 1. rewrite Rmult_assoc, Rinv_l by lra. rewrite Rmult_1_r, Rmult_1_l.
      assert (Z : kept_into gi lv c 0 = 0%nat).
      { unfold kept_into. assert (G : forall l, (forall u v, In (u, v) l -> nth v lv 0%nat <> 0%nat) -> filter (fun e => keeps_label c e && Nat.eqb (nth (snd e) lv 0%nat) 0) l = []).
        { induction l as [|[u v] l IH]; intros G; auto. cbn [filter snd]. destruct (Nat.eqb_spec (nth v lv 0%nat) 0) as [Z|_]; [exfalso; apply (G u v); [left; auto|auto]|].
          rewrite andb_false_r. apply IH. intros; eapply G; right; eauto. }
        rewrite G; auto. }
      apply Rle_trans with (sum_to T (fun t => if Nat.eq_dec 0 t then 0 else 1)).
      * apply sum_to_le. intros t Ht. destruct (Nat.eq_dec 0 t); [subst; rewrite Z; cbn; unfold Rdiv; lra|apply B; auto].
      * right. transitivity (sum_to T (fun t => 1 - (if Nat.eq_dec 0 t then 1 else 0))); [apply sum_to_ext; intros; destruct (Nat.eq_dec 0 i); lra|].
        rewrite sum_to_minus, S1, (@sum_to_single T 0%nat (fun _ => 1)) by lia. auto.
  - pose proof (acc_N (or_intror Hm)) as HN. apply lt_0_INR in HN. destruct (Fx Hm) as [Fe _].
    assert (Ee : INR (length (edges gi)) = INR N * INR T * (INR T - 1)).
    { rewrite !INR_IZR_INZ, Fe, !mult_IZR, minus_IZR. reflexivity. }
    assert (D : 0 < INR N * INR T * (INR T - 1)) by (apply Rmult_lt_0_compat; auto; apply Rmult_lt_0_compat; lra).
    split; [apply Rmult_le_pos; [apply pos_INR|left; apply Rinv_0_lt_compat; auto]|]. split; [|split; [congruence|split; [congruence|]]].
    + intros _. apply (Rmult_le_reg_r (INR N * INR T * (INR T - 1))); auto. unfold Rdiv. rewrite Rmult_assoc, Rinv_l by lra. lra.
    + intros _ Hall. rewrite (kept_all gi c Hall), Ee. field. lra.
Qed.

(** *** Theta, with positive weights *)
Variable c : list nat.
Hypothesis Hc : length c = vcount g.
Hypothesis Hpos : forall w, In w ws -> 0 < w.

Lemma acc_posE t e w : In (e, w) (layer_edges E lv t) -> 0 < w.
Proof. intros H. apply filter_In in H. destruct H as [H _]. apply in_combine_r in H. auto. Qed.
Lemma acc_rangeE t : in_range_E n (layer_edges E lv t).
Proof. apply layer_range. apply range_E_of. auto. Qed.

Lemma acc_EW : 0 < expected_within_layers n E lv T c.
Proof.
  destruct acc_facts as (HT & _). apply (@sum_to_pos T _ 0%nat); [lia| |].
  - intros t Ht. left. apply expected_within_pos; [apply acc_rangeE|intros e w; apply acc_posE|apply acc_layer_nonempty; auto].
  - apply expected_within_pos; [apply acc_rangeE|intros e w; apply acc_posE|apply acc_layer_nonempty; lia].
Qed.

Lemma acc_nonneg (f : nat -> list wedge -> list nat -> R) : (forall t, (t < T)%nat -> 0 <= f n (layer_edges E lv t) c) -> 0 <= sum_to T (fun t => f n (layer_edges E lv t) c).
Proof. intros H. apply sum_to_nonneg. auto. Qed.

Lemma acc_OW : 0 <= observed_within_layers n E lv T c.
Proof.
  apply sum_to_nonneg. intros t Ht. apply sum_to_nonneg. intros i _. apply sum_to_nonneg. intros j _.
  apply Rmult_le_pos; [apply (@w_adj_nonneg (layer_edges E lv t)); intros e w; apply acc_posE|]. apply delta_nonneg.
Qed.
Lemma acc_OB : 0 <= observed_between_layers n E lv T c.
Proof.
  apply sum_to_nonneg. intros t Ht. apply sum_to_nonneg. intros i _. apply sum_to_nonneg. intros j _.
  apply Rmult_le_pos; [apply (@w_adj_nonneg (layer_edges E lv t)); intros e w; apply acc_posE|]. pose proof (delta_nonneg c i j). lra.
Qed.
Lemma acc_EB : 0 <= expected_between_layers n E lv T c.
Proof.
  apply sum_to_nonneg. intros t Ht. apply sum_to_nonneg. intros i _. apply sum_to_nonneg. intros j _.
  apply Rmult_le_pos; [|pose proof (delta_nonneg c i j); lra]. apply null_nonneg; [apply acc_rangeE|intros e w; apply acc_posE].
Qed.
Lemma acc_split : observed_within_layers n E lv T c + observed_between_layers n E lv T c = expected_within_layers n E lv T c + expected_between_layers n E lv T c.
Proof.
  unfold observed_within_layers, observed_between_layers, expected_within_layers, expected_between_layers. rewrite <- !sum_to_plus. apply sum_to_ext. intros t Ht.
  rewrite observed_split, expected_split; auto. apply acc_total; auto.
Qed.
Lemma acc_EB_zero : expected_between_layers n E lv T c = 0 -> observed_between_layers n E lv T c = 0.
Proof.
  intros Z. apply sum_to_0. intros t Ht.
  assert (Et : expected_between n (layer_edges E lv t) c = 0).
  { assert (G : forall s, (s < T)%nat -> 0 <= expected_between n (layer_edges E lv s) c).
    { intros s Hs. apply sum_to_nonneg. intros i _. apply sum_to_nonneg. intros j _.
      apply Rmult_le_pos; [|pose proof (delta_nonneg c i j); lra]. apply null_nonneg; [apply acc_rangeE|intros e w; apply acc_posE]. }
    destruct (Rle_lt_or_eq_dec _ _ (G t Ht)) as [L|L]; auto. exfalso.
    assert (0 < expected_between_layers n E lv T c); [|lra]. apply (@sum_to_pos T _ t); auto. }
  pose proof (proj1 (@expected_between_zero n (layer_edges E lv t) c (acc_rangeE t) (@acc_posE t)) Et) as S1.
  apply sum_to_0. intros i _. apply sum_to_0. intros j _. unfold delta. destruct (Nat.eq_dec (nth i c 0%nat) (nth j c 0%nat)) as [|Nq]; [ring|].
  assert (W : w_adj (layer_edges E lv t) i j = 0); [|rewrite W; ring].
  unfold w_adj. rewrite !w_arcs_rsum, !rsum_map_0; [lra| |].
  - intros [e w] Hin. cbn [fst snd]. destruct (pair_dec e (j, i)) as [->|]; auto. exfalso. apply Nq. apply S1; exists j, i, w; auto.
  - intros [e w] Hin. cbn [fst snd]. destruct (pair_dec e (i, j)) as [->|]; auto. exfalso. apply Nq. apply S1; exists i, j, w; auto.
Qed.
End Accepted.
