(** Generated networks satisfy the structural rules. *)
From Verif Require Import PyBase PyGraph M_partition M_champ M_leiden M_estimation_utils M_generators Spec_graph Spec_sbm Spec_multisbm Spec_check Spec_valid Spec_generators L_base L_generators.
Set Implicit Arguments.
Open Scope nat_scope.

Lemma unit_edges (es : list (nat * nat)) : combine es (repeat 1%R (length es)) = map (fun e => (e, 1%R)) es.
Proof. induction es as [|e es IH]; cbn; congruence. Qed.
Lemma unit_weight_count g lv t : weight_in (weighted_edges g (repeat 1%R (length (edges g)))) lv t = INR (length (filter (fun e => Nat.eqb (nth (fst e) lv 0) t) (edges g))).
Proof.
  unfold weight_in, weighted_edges, layer_edges. rewrite unit_edges. induction (edges g) as [|e es IH]; auto. cbn [map filter fst snd].
  destruct (Nat.eqb _ t); [|exact IH]. cbn [map fold_right snd length]. rewrite IH, S_INR. lra.
Qed.
Lemma unit_weight_pos g lv t : (0 < weight_in (weighted_edges g (repeat 1%R (length (edges g)))) lv t)%R <-> layer_has_edge g lv t.
Proof.
  rewrite unit_weight_count. split.
  - intros H. destruct (filter _ (edges g)) as [|[u v] l] eqn:F; [cbn in H; lra|]. assert (I : In (u, v) ((u, v) :: l)) by (left; auto). rewrite <- F in I. apply filter_In in I.
    destruct I as [I E]. apply Nat.eqb_eq in E. exists u, v. auto.
  - intros (u & v & I & E). apply lt_0_INR. assert (X : In (u, v) (filter (fun e => Nat.eqb (nth (fst e) lv 0) t) (edges g))) by (apply filter_In; split; auto; apply Nat.eqb_eq; auto).
    destruct (filter _ (edges g)); [destruct X|cbn; lia].
Qed.

Section Valid.
Variables (n T : nat) (es : list (nat * nat)) (dir : bool) (gi : graph) (model : string).
Hypothesis Hn : 0 < n.
Hypothesis HT : 0 < T.
Let lv := map (fun i => i / n) (seq 0 (n * T)).
Let g := graph_of_edges dir es.
Hypothesis Hes : forall u v, In (u, v) es -> u < n * T /\ v < n * T /\ u / n = v / n.
Hypothesis Hdir : directed gi = true.
Hypothesis Hgi : 1 < T -> vcount gi = n * T.
Hypothesis Htemp : model = "temporal"%string -> length (edges gi) = n * (T - 1).
Hypothesis Hlev : model = "multilevel"%string -> forall v, arriving gi v <= 1.
Hypothesis Hplex : model = "multiplex"%string -> length (edges gi) = n * T * (T - 1).

Lemma valid_generated : valid_multilayer g gi (repeat 1%R (length (edges g))) lv model <->
  1 < T /\ has_edge_at g (n * T - 1) /\ forall t, t < T -> layer_has_edge g lv t.
Proof.
  assert (L : length lv = n * T) by apply lv_length. assert (M : S (list_max lv) = T) by (apply lv_max; auto).
  assert (Bd : forall u v, In (u, v) es -> u < n * T /\ v < n * T) by (intros u v H; destruct (Hes _ _ H) as (? & ? & _); auto).
  assert (Hnt : 0 < n * T) by nia. pose proof (@graph_of_edges_full dir es (n * T) Hnt Bd) as Full. fold g in Full.
  assert (Nd : forall nt, In nt (map (nodes_in lv) (seq 0 T)) -> nt = n).
  { intros nt H. apply in_map_iff in H. destruct H as (t & <- & Ht). apply in_seq in Ht. apply nodes_in_lv. lia. }
  unfold valid_multilayer, structural_rules. rewrite M, !Forall_cons_iff. cbn [fst]. split.
  - intros (R1 & R2 & R3 & R4 & R5 & _). split; auto. split; [apply Full; lia|]. intros t Ht. apply unit_weight_pos. apply R5. apply in_map. apply in_seq. lia.
  - intros (R1 & R4 & R5). apply Full in R4. assert (D : vcount g / T = n) by (rewrite R4; apply Nat.div_mul; lia). rewrite D. specialize (Hgi R1).
    repeat match goal with |- _ /\ _ => split end; auto; try (rewrite Hgi, R4; reflexivity); try lia.
    + intros m Hm. apply in_map_iff in Hm. destruct Hm as (t & <- & Ht). apply in_seq in Ht. apply unit_weight_pos. apply R5. lia.
    + intros u v H. destruct (Hes _ _ H) as (? & ? & E). unfold lv. rewrite !lv_nth by auto. exact E.
    + intros E. rewrite (Htemp E). nia.
    + intros _. rewrite Hgi, R4. split; exists n; lia.
    + intros _ nt H. rewrite (Nd nt H). auto.
    + intros E. rewrite (Hplex E). nia.
Qed.
End Valid.

Lemma next_copies_valid n T v : arriving (graph_of_edges true (next_copies n T)) v <= 1.
Proof.
  unfold arriving. cbn [directed edges graph_of_edges]. rewrite Nat.add_0_r, next_copies_eq, map_map. cbn [snd].
  apply (proj1 (NoDup_count_occ Nat.eq_dec _)). apply FinFun.Injective_map_NoDup; [intros x y; lia|apply seq_NoDup].
Qed.
Lemma next_copies_length n T : length (next_copies n T) = n * (T - 1).
Proof. rewrite next_copies_eq, map_length, seq_length. reflexivity. Qed.
Lemma next_copies_vcount n T : 0 < n -> 1 < T -> vcount (graph_of_edges true (next_copies n T)) = n * T.
Proof.
  intros Hn HT. destruct (next_copies_couplings T Hn) as (_ & _ & H). cbn [edges graph_of_edges] in H. apply graph_of_edges_full.
  - nia.
  - intros u v I. apply H in I. lia.
  - exists (n * T - 1 - n, n * T - 1). split; [|right; reflexivity]. apply H. split; [nia|]. assert (n <= n * T - 1) by nia. lia.
Qed.
Lemma all_copies_vcount n T : 0 < n -> 1 < T -> vcount (graph_of_edges true (all_copies n T)) = n * T.
Proof.
  intros Hn HT. destruct (all_copies_couplings T Hn) as (_ & _ & H). cbn [edges graph_of_edges] in H. apply graph_of_edges_full.
  - nia.
  - intros u v I. apply H in I. lia.
  - exists (n * T - 1 - n, n * T - 1). split; [|right; reflexivity]. apply H. assert (n <= n * T - 1) by nia. split; [lia|]. split; [lia|]. split; [lia|].
    replace (n * T - 1) with (n * T - 1 - n + 1 * n) at 2 by lia. rewrite Nat.mod_add by lia. reflexivity.
Qed.

(** ** The generators *)
Section Layered.
Variables (d : draws) (eta p_in p_out : R) (first : list nat) (more : nat).
Let n := length first.
Let T := S more.
Let comm := concat (label_layers d eta n 0 more first).
Let lv := map (fun i => i / n) (seq 0 (n * T)).
Let g := graph_of_edges false (sbm_edges d p_in p_out lv comm).

Lemma comm_length : length comm = n * T.
Proof. unfold comm. rewrite (@concat_layers_length _ _ n), label_layers_length; auto. intros x Hx. apply (@label_layers_each d eta n 0 more first x); auto. Qed.
Lemma layered : layered_sbm d eta p_in p_out n T first comm g lv.
Proof.
  assert (E : forall x, In x (label_layers d eta n 0 more first) -> length x = n) by (intros x Hx; apply (@label_layers_each d eta n 0 more first x); auto).
  assert (LL : length (label_layers d eta n 0 more first) = T) by apply label_layers_length.
  assert (Lv : forall i, i < n * T -> nth i lv 0 = i / n) by (intros i Hi; apply lv_nth; auto).
  unfold layered_sbm. repeat match goal with |- _ /\ _ => split end.
  - unfold lv. rewrite map_length, seq_length. reflexivity.
  - apply comm_length.
  - exact Lv.
  - intros v Hv. unfold comm. change v with (0 * n + v) at 1. rewrite (@concat_layers_nth _ n) by (auto; rewrite LL; unfold T; lia). destruct more; reflexivity.
  - intros t v Ht Hv. unfold comm. rewrite !(@concat_layers_nth _ n) by (auto; rewrite LL; lia). rewrite label_layers_step by (unfold T in Ht; lia).
    rewrite next_layer_nth by auto. cbn [Nat.add]. destruct (Rlt_dec _ _); split; intros; auto; lra.
  - reflexivity.
  - reflexivity.
  - apply sbm_edges_nodup.
  - intros u v. cbn [edges g graph_of_edges]. rewrite sbm_edges_in, comm_length. split.
    + intros (A & B & C). rewrite !Lv in B by lia. split; auto. split; auto. destruct (Nat.eqb_spec (nth v comm 0) (nth u comm 0)); [left|right]; split; auto.
    + intros (A & B & C). rewrite !Lv by lia. split; auto. split; auto. destruct (Nat.eqb_spec (nth v comm 0) (nth u comm 0)); destruct C as [[? ?]|[? ?]]; auto; congruence.
Qed.
Lemma layered_bounds u v : In (u, v) (sbm_edges d p_in p_out lv comm) -> u < n * T /\ v < n * T /\ u / n = v / n.
Proof. destruct layered as (_ & _ & _ & _ & _ & _ & _ & _ & H). intros I. cbn [edges g graph_of_edges] in H. apply H in I. destruct I as (? & ? & _). lia. Qed.
Lemma comm_bound K : (forall t v, d_label d t v < K) -> (forall x, In x first -> x < K) -> forall x, In x comm -> x < K.
Proof.
  intros H1 H2 x Hx. unfold comm in Hx. apply in_concat in Hx. destruct Hx as (L & HL & Hx). exact (@label_layers_bound d eta n 0 more first K H1 H2 eq_refl L x HL Hx).
Qed.
End Layered.
