(** Renumbering the vertices. *)
From Verif Require Import PyBase PyGraph M_partition M_pool M_champ M_estimation_utils Spec Spec_leiden Spec_graph Spec_champ Spec_sbm Spec_prune
  Spec_multisbm Spec_check Spec_valid Spec_renumber
  L_base L_canon L_leiden L_modularity L_modularity3 L_champ L_champ2 L_champ3 L_sbm L_sbm2 L_multisbm L_prune L_accepted L_adjacency.
From Coq Require Import Permutation.
Set Implicit Arguments.
Open Scope R_scope.

Lemma NoDup_map_in {A B} (f : A -> B) l : (forall x y, In x l -> In y l -> f x = f y -> x = y) -> NoDup l -> NoDup (map f l).
Proof.
  intros H ND. induction ND as [|a l Na ND IH]; [constructor|]. cbn [map]. constructor; [|apply IH; intros; apply H; auto; right; auto].
  intros Hin. apply in_map_iff in Hin as (x & E & Hx). apply Na. rewrite (H a x); auto; [left|right]; auto.
Qed.

Section Renumber.
Variables (n : nat) (q : nat -> nat) (old : list nat).
Hypothesis (Hq : renumbering n q old).

Lemma q_lt v : (v < n)%nat -> (q v < n)%nat.
Proof. intros H. apply Hq; auto. Qed.
Lemma q_old v : (v < n)%nat -> nth (q v) old 0%nat = v.
Proof. intros H. apply Hq; auto. Qed.
Lemma q_inj u v : (u < n)%nat -> (v < n)%nat -> q u = q v -> u = v.
Proof. intros Hu Hv E. rewrite <- (q_old Hu), <- (q_old Hv), E. reflexivity. Qed.

Lemma q_perm : Permutation (map q (seq 0 n)) (seq 0 n).
Proof.
  apply NoDup_Permutation_bis.
  - apply NoDup_map_in; [|apply seq_NoDup]. intros x y Hx Hy. apply in_seq in Hx. apply in_seq in Hy. apply q_inj; lia.
  - rewrite map_length; auto.
  - intros x Hx. apply in_map_iff in Hx as (y & <- & Hy). apply in_seq in Hy. apply in_seq. pose proof (@q_lt y). lia.
Qed.

Lemma old_perm : Permutation old (seq 0 n).
Proof.
  symmetry. apply NoDup_Permutation_bis; [apply seq_NoDup|rewrite (proj1 Hq), seq_length; auto|].
  intros v Hv. apply in_seq in Hv. rewrite <- (@q_old v) by lia. apply nth_In. rewrite (proj1 Hq). apply q_lt. lia.
Qed.

Lemma q_surj w : (w < n)%nat -> exists v, (v < n)%nat /\ q v = w.
Proof.
  intros H. assert (In w (map q (seq 0 n))) as Hin by (eapply Permutation_in; [symmetry; apply q_perm|apply in_seq; lia]).
  apply in_map_iff in Hin as (v & E & Hv). apply in_seq in Hv. exists v. split; [lia|auto].
Qed.

Lemma old_q w : (w < n)%nat -> q (nth w old 0%nat) = w.
Proof. intros H. destruct (q_surj H) as (v & Hv & <-). rewrite q_old; auto. Qed.

Lemma sum_to_q f : sum_to n (fun v => f (q v)) = sum_to n f.
Proof. rewrite !sum_to_rsum. rewrite <- (map_map q f). apply rsum_perm, Permutation_map, q_perm. Qed.

Lemma sum2_q f : sum_to n (fun i => sum_to n (fun j => f (q i) (q j))) = sum_to n (fun i => sum_to n (fun j => f i j)).
Proof. rewrite <- (sum_to_q (fun i => sum_to n (fun j => f i j))). apply sum_to_ext; intros i _. apply (sum_to_q (fun j => f (q i) j)). Qed.

(** Vectors *)
Section Vectors.
Variable (A : Type) (d : A).
Lemma reorder_length l : length (reorder d old l) = n.
Proof. unfold reorder. rewrite map_length. apply Hq. Qed.
Lemma reorder_nth l v : (v < n)%nat -> nth (q v) (reorder d old l) d = nth v l d.
Proof.
  intros H. unfold reorder. rewrite nth_indep with (d' := (fun v => nth v l d) 0%nat) by (rewrite map_length, (proj1 Hq); apply q_lt; auto).
  rewrite (map_nth (fun v => nth v l d)). rewrite q_old; auto.
Qed.
Lemma reorder_nth_new l w : (w < n)%nat -> nth w (reorder d old l) d = nth (nth w old 0%nat) l d.
Proof. intros H. destruct (q_surj H) as (v & Hv & <-). rewrite reorder_nth, q_old; auto. Qed.
Lemma reorder_perm l : length l = n -> Permutation (reorder d old l) l.
Proof.
  intros H. unfold reorder. transitivity (map (fun v => nth v l d) (seq 0 n)); [apply Permutation_map, old_perm|].
  rewrite <- H. clear. induction l as [|x l IH]; [constructor|]. cbn [length seq map nth]. constructor. rewrite <- seq_shift, map_map. exact IH.
Qed.
End Vectors.

(** Graphs *)
Lemma pv_wf g : vcount g = n -> wf_graph g -> wf_graph (permute_vertices q g).
Proof.
  intros Hv (W & Wl). split.
  - intros u v H. apply in_map_iff in H as ([a b] & E & H). cbn [fst snd] in E. injection E as <- <-. destruct (W a b H) as [Ha Hb]. cbn [vcount permute_vertices]. rewrite Hv in Ha, Hb |- *.
    split; apply q_lt; auto.
  - unfold ecount in *. cbn [weights permute_vertices edges]. rewrite map_length. exact Wl.
Qed.

Lemma pv_arcs E i j : (forall u v, In (u, v) E -> (u < n)%nat /\ (v < n)%nat) -> (i < n)%nat -> (j < n)%nat ->
  arcs (map (fun e => (q (fst e), q (snd e))) E) (q i) (q j) = arcs E i j.
Proof.
  intros H Hi Hj. unfold arcs. f_equal. induction E as [|[u v] E IH]; [reflexivity|]. cbn [map fst snd count_occ].
  rewrite IH by (intros; apply H; right; auto). destruct (H u v (or_introl eq_refl)) as [Hu Hv].
  destruct (pair_dec (q u, q v) (q i, q j)) as [E1|N1], (pair_dec (u, v) (i, j)) as [E2|N2]; auto; exfalso.
  - inversion E1 as [[A B]]. apply N2. f_equal; apply q_inj; auto.
  - inversion E2; subst. auto.
Qed.

Section Graph.
Variables (g : graph) (W : wf_graph g) (V : vcount g = n).
Let g' := permute_vertices q g.

Lemma pv_adj i j : (i < n)%nat -> (j < n)%nat -> adjacency g' (q i) (q j) = adjacency g i j.
Proof.
  intros Hi Hj. unfold adjacency, g'. cbn [permute_vertices directed edges].
  assert (H : forall u v, In (u, v) (edges g) -> (u < n)%nat /\ (v < n)%nat) by (rewrite <- V; apply W).
  rewrite !pv_arcs by auto. reflexivity.
Qed.
Lemma pv_m : m_edges g' = m_edges g.
Proof. unfold m_edges, g'. cbn [permute_vertices edges]. rewrite map_length. reflexivity. Qed.
Lemma pv_k_out i : (i < n)%nat -> k_out g' (q i) = k_out g i.
Proof. intros Hi. unfold k_out. cbn [g' permute_vertices vcount]. rewrite V. rewrite <- (sum_to_q (fun j => adjacency g' (q i) j)). apply sum_to_ext; intros j Hj. apply pv_adj; auto. Qed.
Lemma pv_k_in i : (i < n)%nat -> k_in g' (q i) = k_in g i.
Proof. intros Hi. unfold k_in. cbn [g' permute_vertices vcount]. rewrite V. rewrite <- (sum_to_q (fun j => adjacency g' j (q i))). apply sum_to_ext; intros j Hj. apply pv_adj; auto. Qed.

Definition carried (c c' : list nat) : Prop := forall v, (v < n)%nat -> nth (q v) c' 0%nat = nth v c 0%nat.
Lemma reorder_carried c : carried c (reorder 0%nat old c).
Proof. intros v Hv. apply reorder_nth; auto. Qed.

Definition same_up (c c' : list nat) : Prop :=
  forall i j, (i < n)%nat -> (j < n)%nat -> (nth (q i) c' 0%nat = nth (q j) c' 0%nat <-> nth i c 0%nat = nth j c 0%nat).
Lemma carried_same c c' : carried c c' -> same_up c c'.
Proof. intros H i j Hi Hj. rewrite !H by auto. tauto. Qed.

Section Memberships.
Variables (c c' : list nat) (Hc : same_up c c').
Lemma pv_delta i j : (i < n)%nat -> (j < n)%nat -> delta c' (q i) (q j) = delta c i j.
Proof. intros Hi Hj. unfold delta. specialize (Hc Hi Hj). destruct (Nat.eq_dec _ _), (Nat.eq_dec _ _); tauto. Qed.

Lemma pv_A : A_of g' c' = A_of g c.
Proof.
  unfold A_of. cbn [g' permute_vertices vcount]. rewrite V. rewrite <- (sum2_q (fun i j => adjacency g' i j * delta c' i j)).
  apply sum_to_ext; intros i Hi. apply sum_to_ext; intros j Hj. rewrite pv_adj, pv_delta; auto.
Qed.
Lemma pv_P : P_of g' c' = P_of g c.
Proof.
  unfold P_of. change (vcount g') with (vcount g). rewrite V. change (directed g') with (directed g). rewrite pv_m.
  match goal with |- sum_to n (fun i => sum_to n (fun j => @?f i j)) = _ => rewrite <- (sum2_q f) end.
  apply sum_to_ext; intros i Hi. apply sum_to_ext; intros j Hj. rewrite pv_delta, !pv_k_out, pv_k_in; auto.
Qed.
Lemma pv_modularity gamma : modularity g' gamma c' = modularity g gamma c.
Proof. rewrite !modularity_AP, pv_A, pv_P. reflexivity. Qed.
End Memberships.

Section Layers.
Variables (lv lv' : list nat) (Hlv : carried lv lv').
Lemma pv_m_layer t : m_layer g' lv' t = m_layer g lv t.
Proof.
  unfold m_layer. f_equal. unfold g'. cbn [permute_vertices edges].
  assert (H : forall u v, In (u, v) (edges g) -> (u < n)%nat /\ (v < n)%nat) by (rewrite <- V; apply W).
  induction (edges g) as [|[u v] E IH]; [reflexivity|]. destruct (H u v (or_introl eq_refl)) as [Hu Hv]. cbn [map filter fst snd].
  rewrite (Hlv Hu), (Hlv Hv). specialize (IH (fun a b Hin => H a b (or_intror Hin))). destruct (_ && _); cbn [length]; congruence.
Qed.
Lemma pv_P3 c c' : same_up c c' -> P3_of g' lv' c' = P3_of g lv c.
Proof.
  intros Hc. unfold P3_of. change (vcount g') with (vcount g). rewrite V.
  match goal with |- sum_to n (fun i => sum_to n (fun j => @?f i j)) = _ => rewrite <- (sum2_q f) end.
  apply sum_to_ext; intros i Hi. apply sum_to_ext; intros j Hj. rewrite (pv_delta Hc) by auto. f_equal. unfold layer_null.
  rewrite (pv_delta (carried_same Hlv)) by auto. change (directed g') with (directed g). rewrite !pv_k_out, pv_k_in, (Hlv Hi), pv_m_layer by auto. reflexivity.
Qed.
Lemma pv_within : edges_within_layers g lv -> edges_within_layers g' lv'.
Proof.
  intros H u v Huv. unfold g' in Huv. cbn [permute_vertices edges] in Huv. apply in_map_iff in Huv as ([a b] & E & Hin). cbn [fst snd] in E. injection E as <- <-.
  destruct (proj1 W a b Hin) as [Ha Hb]. rewrite V in Ha, Hb. rewrite (Hlv Ha), (Hlv Hb). apply H; auto.
Qed.
End Layers.

(** Weighted edges *)
Let qe (ew : wedge) : wedge := ((q (fst (fst ew)), q (snd (fst ew))), snd ew).
Lemma pv_weighted ws : weighted_edges g' ws = map qe (weighted_edges g ws).
Proof.
  unfold weighted_edges, g'. cbn [permute_vertices edges]. revert ws. induction (edges g) as [|e E IH]; intros [|w ws]; try reflexivity. cbn [map combine]. rewrite IH. reflexivity.
Qed.
End Graph.

Section WeightedEdges.
Variables (E : list wedge).
Hypothesis (HE : in_range_E n E).
Let qe (ew : wedge) : wedge := ((q (fst (fst ew)), q (snd (fst ew))), snd ew).
Lemma qe_arcs i j : (i < n)%nat -> (j < n)%nat -> w_arcs (map qe E) (q i) (q j) = w_arcs E i j.
Proof.
  intros Hi Hj. unfold w_arcs. rewrite map_map. f_equal. apply map_ext_in. intros [[u v] w] Hin. cbn [qe fst snd].
  destruct (HE _ _ _ Hin) as [Hu Hv].
  destruct (pair_dec (q u, q v) (q i, q j)) as [E1|N1], (pair_dec (u, v) (i, j)) as [E2|N2]; auto; exfalso.
  - inversion E1 as [[A B]]. apply N2. f_equal; apply q_inj; auto.
  - inversion E2; subst. auto.
Qed.
Lemma qe_adj i j : (i < n)%nat -> (j < n)%nat -> w_adj (map qe E) (q i) (q j) = w_adj E i j.
Proof. intros Hi Hj. unfold w_adj. rewrite !qe_arcs by auto. reflexivity. Qed.
Lemma qe_strength i : (i < n)%nat -> strength n (map qe E) (q i) = strength n E i.
Proof. intros Hi. unfold strength. rewrite <- (sum_to_q (fun j => w_adj (map qe E) (q i) j)). apply sum_to_ext; intros j Hj. apply qe_adj; auto. Qed.
Lemma qe_total : total_strength n (map qe E) = total_strength n E.
Proof. unfold total_strength. rewrite <- (sum_to_q (fun i => strength n (map qe E) i)). apply sum_to_ext; intros i Hi. apply qe_strength; auto. Qed.
Lemma qe_null i j : (i < n)%nat -> (j < n)%nat -> null_weight n (map qe E) (q i) (q j) = null_weight n E i j.
Proof. intros Hi Hj. unfold null_weight. rewrite !qe_strength, qe_total by auto. reflexivity. Qed.

Variables (c c' : list nat) (Hc : same_up c c').
Lemma qe_sums : observed_within n (map qe E) c' = observed_within n E c /\ expected_within n (map qe E) c' = expected_within n E c /\
  observed_between n (map qe E) c' = observed_between n E c /\ expected_between n (map qe E) c' = expected_between n E c.
Proof.
  unfold observed_within, expected_within, observed_between, expected_between. repeat split;
  (match goal with |- sum_to n (fun i => sum_to n (fun j => @?f i j)) = _ => rewrite <- (sum2_q f) end;
   apply sum_to_ext; intros i Hi; apply sum_to_ext; intros j Hj; rewrite ?qe_adj, ?qe_null, (pv_delta Hc) by auto; reflexivity).
Qed.

Lemma qe_outcome K : sbm_outcome n (map qe E) K c' = sbm_outcome n E K c.
Proof. unfold sbm_outcome. destruct qe_sums as (-> & -> & -> & ->). rewrite qe_total. reflexivity. Qed.

(** Layers *)
Variables (lv lv' : list nat) (Hlv : carried lv lv').
Lemma qe_layer t : layer_edges (map qe E) lv' t = map qe (layer_edges E lv t).
Proof.
  unfold layer_edges. clear c c' Hc. induction E as [|[[u v] w] E' IH]; [reflexivity|]. cbn [map filter qe fst snd].
  destruct (HE u v w (or_introl eq_refl)) as [Hu Hv]. rewrite (Hlv Hu). rewrite IH by (intros a b x Hin; apply (HE a b x (or_intror Hin))).
  destruct (Nat.eqb _ _); reflexivity.
Qed.
Lemma qe_weight t : weight_in (map qe E) lv' t = weight_in E lv t.
Proof. unfold weight_in. rewrite qe_layer, map_map. reflexivity. Qed.
End WeightedEdges.

Section LayerSums.
Variables (E : list wedge).
Hypothesis (HE : in_range_E n E).
Let qe (ew : wedge) : wedge := ((q (fst (fst ew)), q (snd (fst ew))), snd ew).
Variables (c c' : list nat) (Hc : same_up c c') (lv lv' : list nat) (Hlv : carried lv lv') (T : nat).
Lemma qe_layer_sums :
  observed_within_layers n (map qe E) lv' T c' = observed_within_layers n E lv T c /\ expected_within_layers n (map qe E) lv' T c' = expected_within_layers n E lv T c /\ observed_between_layers n (map qe E) lv' T c' = observed_between_layers n E lv T c /\ expected_between_layers n (map qe E) lv' T c' = expected_between_layers n E lv T c.
Proof.
  unfold observed_within_layers, expected_within_layers, observed_between_layers, expected_between_layers.
  assert (Q : forall t, observed_within n (layer_edges (map qe E) lv' t) c' = observed_within n (layer_edges E lv t) c /\
    expected_within n (layer_edges (map qe E) lv' t) c' = expected_within n (layer_edges E lv t) c /\
    observed_between n (layer_edges (map qe E) lv' t) c' = observed_between n (layer_edges E lv t) c /\
    expected_between n (layer_edges (map qe E) lv' t) c' = expected_between n (layer_edges E lv t) c).
  { intros t. unfold qe. rewrite (qe_layer HE Hlv t). assert (HE' : in_range_E n (layer_edges E lv t)) by (apply layer_range; auto). exact (qe_sums HE' Hc). }
  repeat split; apply sum_to_ext; intros t _; apply (Q t).
Qed.
End LayerSums.

(** Interlayer graph *)
Section Inter.
Variables (gi : graph) (Wi : wf_graph gi) (Vi : vcount gi = n).
Variables (c c' : list nat) (Hc : same_up c c') (lv lv' : list nat) (Hlv : carried lv lv').
Let gi' := permute_vertices q gi.
Let range_i : forall u v, In (u, v) (edges gi) -> (u < n)%nat /\ (v < n)%nat.
Proof. rewrite <- Vi. apply Wi. Qed.

Lemma pv_kept : kept gi' c' = kept gi c.
Proof.
  unfold kept, gi'. cbn [permute_vertices edges]. pose proof range_i as R. clear Wi range_i. induction (edges gi) as [|[u v] E IH]; [reflexivity|].
  destruct (R u v (or_introl eq_refl)) as [Hu Hv]. specialize (IH (fun a b Hin => R a b (or_intror Hin))). cbn [map filter].
  assert (Q : keeps_label c' (q (fst (u, v)), q (snd (u, v))) = keeps_label c (u, v)).
  { unfold keeps_label. cbn [fst snd]. apply Bool.eq_iff_eq_true. rewrite !Nat.eqb_eq. apply Hc; auto. }
  rewrite Q. destruct (keeps_label c (u, v)); cbn [length]; congruence.
Qed.
Lemma pv_kept_into t : kept_into gi' lv' c' t = kept_into gi lv c t.
Proof.
  unfold kept_into, gi'. cbn [permute_vertices edges]. pose proof range_i as R. clear Wi range_i. induction (edges gi) as [|[u v] E IH]; [reflexivity|].
  destruct (R u v (or_introl eq_refl)) as [Hu Hv]. specialize (IH (fun a b Hin => R a b (or_intror Hin))). cbn [map filter].
  assert (Q : keeps_label c' (q (fst (u, v)), q (snd (u, v))) = keeps_label c (u, v)).
  { unfold keeps_label. cbn [fst snd]. apply Bool.eq_iff_eq_true. rewrite !Nat.eqb_eq. apply Hc; auto. }
  rewrite Q. cbn [snd]. rewrite (Hlv Hv). destruct (_ && _); cbn [length]; congruence.
Qed.
Lemma pv_count l v : (forall x, In x l -> (x < n)%nat) -> (v < n)%nat -> count_occ Nat.eq_dec (map q l) (q v) = count_occ Nat.eq_dec l v.
Proof.
  intros H Hv. induction l as [|x l IH]; [reflexivity|]. cbn [map count_occ]. rewrite IH by (intros; apply H; right; auto). pose proof (H x (or_introl eq_refl)) as Hx.
  destruct (Nat.eq_dec (q x) (q v)) as [Q|Q], (Nat.eq_dec x v) as [P|P]; auto; exfalso; [apply P, q_inj; auto|subst; auto].
Qed.
Lemma pv_arriving v : (v < n)%nat -> arriving gi' (q v) = arriving gi v.
Proof.
  intros Hv. unfold arriving, gi'. cbn [permute_vertices edges directed]. rewrite !map_map. cbn [fst snd].
  rewrite <- (map_map snd q), <- (map_map fst q). rewrite !pv_count; auto; intros x Hx; apply in_map_iff in Hx as ([a b] & <- & Hin); apply range_i in Hin; cbn [fst snd]; tauto.
Qed.
Hypothesis (Pl : Permutation lv' lv).
Lemma pv_nodes t : nodes_in lv' t = nodes_in lv t.
Proof. apply Permutation_count_occ; auto. Qed.
Lemma pv_persistence model N T x : is_persistence model gi lv N T c x -> is_persistence model gi' lv' N T c' x.
Proof.
  unfold is_persistence. rewrite pv_kept. intros [H|[[H1 H2]|H]]; [left; auto| |right; right; auto]. right; left. split; auto. rewrite H2. f_equal.
  apply sum_to_ext; intros t _. rewrite pv_kept_into, pv_nodes. reflexivity.
Qed.
End Inter.

Lemma list_max_perm l l' : Permutation l l' -> list_max l = list_max l'.
Proof. intros P. induction P; cbn; unfold list_max in *; cbn [fold_right] in *; lia. Qed.

Section Valid.
Variables (g gi : graph) (W : wf_graph g) (Wi : wf_graph gi) (V : vcount g = n).
Variables (ws : list R) (lv lv' : list nat) (Hlv : carried lv lv') (Pl : Permutation lv' lv).
Lemma pv_valid model : valid_multilayer g gi ws lv model -> valid_multilayer (permute_vertices q g) (permute_vertices q gi) ws lv' model.
Proof.
  unfold valid_multilayer. rewrite (list_max_perm Pl), (map_ext (nodes_in lv') (nodes_in lv) (pv_nodes Pl)), pv_weighted.
  assert (HE : in_range_E n (weighted_edges g ws)) by (rewrite <- V; apply range_E_of; auto).
  rewrite (map_ext (weight_in (map _ (weighted_edges g ws)) lv') (weight_in (weighted_edges g ws) lv) (qe_weight HE Hlv)).
  unfold structural_rules. rewrite !Forall_cons_iff. cbn [fst permute_vertices vcount directed edges]. rewrite map_length.
  intros (A1 & A2 & A3 & A4 & A5 & A6 & A7 & A8 & A9 & A10 & A11 & A12).
  split; auto. split; auto. split; auto. split; [rewrite (Permutation_length Pl); auto|]. split; auto. split; [apply (pv_within W V Hlv); auto|].
  split; auto. split; auto. split; auto. split; auto. split; [|exact A12].
  intros Hm v Hv. assert (Vi : vcount gi = n) by congruence. rewrite Vi in Hv. destruct (q_surj Hv) as (w & Hw & <-).
  change (mkGraph _ _ _ _) with (permute_vertices q gi) in *. pose proof (pv_arriving Wi Vi Hw) as Q. unfold arriving in Q |- *. cbn [permute_vertices edges directed] in Q |- *. rewrite Q.
  apply (A11 Hm w). rewrite Vi. auto.
Qed.
End Valid.

(** The estimates *)
Section Estimates.
Variables (env env' : est_env) (g : graph) (W : wf_graph g) (V : vcount g = n).
Hypothesis (Hcon : ee_contains env' (permute_vertices q g) = ee_contains env g).
Lemma pv_weighted_e : weighted_e env' (permute_vertices q g) = permute_vertices q (weighted_e env g).
Proof.
  unfold weighted_e. rewrite Hcon. destruct (ee_contains env g); [reflexivity|]. unfold permute_vertices, ecount. cbn [vcount directed edges weights]. rewrite map_length. reflexivity.
Qed.

Variables (ws : list R) (Hws : weights (weighted_e env g) = Some ws).
Lemma pv_weights' : weights (weighted_e env' (permute_vertices q g)) = Some ws.
Proof. rewrite pv_weighted_e. exact Hws. Qed.

Variables (c c' : list nat) (Hc : same_up c c') (Lc : length c = n) (Lc' : length c' = n) (Hmax : list_max (map S c') = list_max (map S c)).

Lemma pv_gamma_estimate : snd (gamma_estimate env' (permute_vertices q g) (Membership c')) = snd (gamma_estimate env g (Membership c)).
Proof.
  assert (L1 : length c' = vcount (permute_vertices q g)) by (cbn [permute_vertices vcount]; congruence).
  assert (L2 : length c = vcount g) by congruence.
  rewrite (@gamma_estimate_membership env' _ ws c' (pv_wf V W) L1 pv_weights'), (@gamma_estimate_membership env g ws c W L2 Hws).
  cbn [snd]. rewrite Hmax. change (vcount (permute_vertices q g)) with (vcount g). rewrite V.
  change (combine (edges (permute_vertices q g)) ws) with (weighted_edges (permute_vertices q g) ws). change (combine (edges g) ws) with (weighted_edges g ws). rewrite pv_weighted.
  assert (HE : in_range_E n (weighted_edges g ws)) by (rewrite <- V; apply range_E_of; auto).
  rewrite (qe_outcome HE Hc). reflexivity.
Qed.
End Estimates.
End Renumber.
