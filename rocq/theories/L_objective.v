(** The objective handed to the optimiser is the modularity that CHAMP's coefficients describe. *)
From Verif Require Import PyBase PyGraph M_partition M_pool M_champ M_leiden Spec Spec_graph Spec_leiden Spec_objective L_base L_canon L_parallel L_modularity L_modularity3 L_leiden L_split.
Set Implicit Arguments.
Open Scope R_scope.

Definition unit_weights (g : graph) : Prop := weights g = Some (repeat 1 (ecount g)).
Definition ind (b : bool) : R := if b then 1 else 0.

Lemma sum_weights_unit E p : sum_weights (combine E (repeat 1 (length E))) p = rsum (map (fun e => ind (p e)) E).
Proof.
  unfold sum_weights. induction E as [|e E IH]; simpl; auto. rewrite rsum_cons. unfold ind at 1. rewrite IH. reflexivity.
Qed.

Lemma sum_labels_single (ks : list nat) x f : NoDup ks -> In x ks -> rsum (map (fun k => ind (Nat.eqb x k) * f k) ks) = f x.
Proof.
  intros Hn Hi. rewrite <- (@rsum_single nat Nat.eq_dec ks x f Hn Hi). apply rsum_map_ext. intros k _. unfold ind.
  destruct (Nat.eqb_spec x k), (Nat.eq_dec x k); try congruence; lra.
Qed.

Section Unit.
Variables (g : graph) (c ks : list nat).
Hypothesis Hwf : wf_graph g.
Hypothesis Hn : NoDup ks.
Hypothesis Hk : forall v, (v < vcount g)%nat -> In (nth v c 0%nat) ks.
Let lab v := nth v c 0%nat.
Let E1 := combine (edges g) (repeat 1 (length (edges g))).

Lemma in_range u v : In (u, v) (edges g) -> (u < vcount g)%nat /\ (v < vcount g)%nat.
Proof. apply Hwf. Qed.

Lemma inside_sum : rsum (map (inside E1 c) ks) = rsum (map (fun e => delta c (fst e) (snd e)) (edges g)).
Proof.
  transitivity (rsum (map (fun k => rsum (map (fun e => ind (Nat.eqb (lab (fst e)) k && Nat.eqb (lab (snd e)) k)) (edges g))) ks)).
  { apply rsum_map_ext. intros k _. unfold inside, E1. rewrite sum_weights_unit. reflexivity. }
  rewrite rsum_swap. apply rsum_map_ext. intros [u v] Hin. cbn [fst snd]. destruct (in_range u v Hin) as [Hu Hv].
  rewrite (rsum_map_ext _ (fun k => ind (Nat.eqb (lab u) k) * ind (Nat.eqb (lab v) k))).
  2: { intros k _. unfold ind. destruct (Nat.eqb (lab u) k), (Nat.eqb (lab v) k); simpl; lra. }
  rewrite (@sum_labels_single ks (lab u)); auto; [|apply Hk; auto]. unfold ind, delta, lab.
  destruct (Nat.eqb_spec (nth v c 0%nat) (nth u c 0%nat)), (Nat.eq_dec (nth u c 0%nat) (nth v c 0%nat)); congruence || auto.
Qed.

Lemma product_sum (f h : nat -> R) n : (forall v, (v < n)%nat -> In (lab v) ks) ->
  rsum (map (fun k => sum_to n (fun i => f i * ind (Nat.eqb (lab i) k)) * sum_to n (fun j => h j * ind (Nat.eqb (lab j) k))) ks)
  = sum_to n (fun i => sum_to n (fun j => f i * h j * delta c i j)).
Proof.
  intros Hl.
  transitivity (rsum (map (fun k => sum_to n (fun i => sum_to n (fun j => f i * h j * (ind (Nat.eqb (lab i) k) * ind (Nat.eqb (lab j) k))))) ks)).
  { apply rsum_map_ext. intros k _. rewrite <- sum_to_scale_r. apply sum_to_ext. intros i _. rewrite <- sum_to_scale. apply sum_to_ext. intros j _. ring. }
  change (rsum (map (fun k => rsum (map (fun i => sum_to n (fun j => f i * h j * (ind (Nat.eqb (lab i) k) * ind (Nat.eqb (lab j) k)))) (seq 0 n))) ks)
    = rsum (map (fun i => sum_to n (fun j => f i * h j * delta c i j)) (seq 0 n))).
  rewrite rsum_swap. apply rsum_map_ext. intros i Hi. apply in_seq in Hi.
  change (rsum (map (fun k => rsum (map (fun j => f i * h j * (ind (Nat.eqb (lab i) k) * ind (Nat.eqb (lab j) k))) (seq 0 n))) ks)
    = rsum (map (fun j => f i * h j * delta c i j) (seq 0 n))).
  rewrite rsum_swap. apply rsum_map_ext. intros j Hj. apply in_seq in Hj.
  rewrite rsum_map_scale. f_equal. rewrite (@sum_labels_single ks (lab i)); auto; [|apply Hl; lia].
  unfold ind, delta, lab. destruct (Nat.eqb_spec (nth j c 0%nat) (nth i c 0%nat)), (Nat.eq_dec (nth i c 0%nat) (nth j c 0%nat)); congruence || auto.
Qed.

Lemma leaving_directed k : directed g = true -> leaving E1 c k = sum_to (vcount g) (fun i => k_out g i * ind (Nat.eqb (lab i) k)).
Proof.
  intros Hd. unfold leaving, E1. rewrite sum_weights_unit. unfold k_out.
  transitivity (sum_to (vcount g) (fun i => sum_to (vcount g) (fun j => adjacency g i j * ind (Nat.eqb (lab i) k)))).
  - rewrite (sum_adjacency (fun i j => ind (Nat.eqb (lab i) k)) Hwf), Hd. reflexivity.
  - apply sum_to_ext. intros i _. rewrite sum_to_scale_r. reflexivity.
Qed.
Lemma entering_directed k : directed g = true -> entering E1 c k = sum_to (vcount g) (fun i => k_in g i * ind (Nat.eqb (lab i) k)).
Proof.
  intros Hd. unfold entering, E1. rewrite sum_weights_unit. unfold k_in.
  transitivity (sum_to (vcount g) (fun i => sum_to (vcount g) (fun j => adjacency g i j * ind (Nat.eqb (lab j) k)))).
  - rewrite (sum_adjacency (fun i j => ind (Nat.eqb (lab j) k)) Hwf), Hd. reflexivity.
  - rewrite sum_to_swap. apply sum_to_ext. intros i _. rewrite sum_to_scale_r. reflexivity.
Qed.
Lemma strength_undirected k : directed g = false -> leaving E1 c k + entering E1 c k = sum_to (vcount g) (fun i => k_out g i * ind (Nat.eqb (lab i) k)).
Proof.
  intros Hd. unfold leaving, entering, E1. rewrite !sum_weights_unit, <- rsum_map_plus. unfold k_out.
  transitivity (sum_to (vcount g) (fun i => sum_to (vcount g) (fun j => adjacency g i j * ind (Nat.eqb (lab i) k)))).
  - rewrite (sum_adjacency (fun i j => ind (Nat.eqb (lab i) k)) Hwf), Hd. reflexivity.
  - apply sum_to_ext. intros i _. rewrite sum_to_scale_r. reflexivity.
Qed.

Lemma total_unit : total_weight E1 = m_edges g.
Proof.
  unfold total_weight, E1, m_edges. rewrite sum_weights_unit. induction (edges g) as [|e E IH]; [reflexivity|].
  cbn [map length]. rewrite rsum_cons, IH, S_INR. unfold ind. lra.
Qed.

Lemma A_of_edges : A_of g c = rsum (map (fun e => (if directed g then 1 else 2) * delta c (fst e) (snd e)) (edges g)).
Proof.
  unfold A_of. rewrite (sum_adjacency (delta c) Hwf). apply rsum_map_ext. intros e _. destruct (directed g); [lra|].
  rewrite (delta_sym c (snd e)). lra.
Qed.

Lemma edgeless_zero gamma : edges g = [] -> modularity g gamma c = 0.
Proof.
  intros He. rewrite modularity_AP. rewrite A_of_edges, He. cbn [map]. rewrite rsum_nil.
  assert (forall i, k_out g i = 0). { intros i. unfold k_out. apply sum_to_0. intros j _. unfold adjacency, arcs. rewrite He. simpl. destruct (directed g); lra. }
  unfold P_of. rewrite sum_to_0; [lra|]. intros i _. apply sum_to_0. intros j _. rewrite !H. unfold Rdiv. destruct (directed g); lra.
Qed.

Lemma rb_quality_modularity gamma : rb_quality (directed g) E1 c gamma ks = modularity g gamma c.
Proof.
  unfold rb_quality. rewrite total_unit.
  assert (Hcase : edges g = [] \/ edges g <> []) by (destruct (edges g); [left; reflexivity|right; discriminate]).
  destruct Hcase as [Ee|Ee].
  { destruct (Req_EM_T (m_edges g) 0) as [_|Hz]; [symmetry; apply edgeless_zero; auto|]. exfalso; apply Hz. unfold m_edges. rewrite Ee. reflexivity. }
  assert (Hm : 0 < m_edges g) by (apply m_edges_pos; auto).
  destruct (Req_EM_T (m_edges g) 0) as [Hz|_]; [lra|]. rewrite modularity_AP.
  fold (rsum (map (fun k => if directed g then inside E1 c k - gamma * (leaving E1 c k * entering E1 c k / m_edges g)
     else 2 * inside E1 c k - gamma * ((leaving E1 c k + entering E1 c k) * (leaving E1 c k + entering E1 c k) / (2 * m_edges g))) ks)).
  rewrite A_of_edges. unfold P_of. assert (Hdd : directed g = true \/ directed g = false) by (destruct (directed g); auto). destruct Hdd as [Hd|Hd]; rewrite Hd.
  - rewrite rsum_map_minus, rsum_map_scale. f_equal.
    + rewrite rsum_map_scale, <- inside_sum, Rmult_1_l. reflexivity.
    + f_equal. unfold Rdiv. rewrite rsum_map_scale_r.
      rewrite (rsum_map_ext _ (fun k => sum_to (vcount g) (fun i => k_in g i * ind (Nat.eqb (lab i) k)) * sum_to (vcount g) (fun i => k_out g i * ind (Nat.eqb (lab i) k)))).
      2: { intros k _. rewrite leaving_directed, entering_directed by auto. ring. }
      rewrite product_sum by apply Hk. rewrite <- sum_to_scale_r. apply sum_to_ext; intros i _. rewrite <- sum_to_scale_r. apply sum_to_ext; intros j _. ring.
  - rewrite rsum_map_minus, !rsum_map_scale. f_equal.
    + rewrite <- inside_sum. reflexivity.
    + f_equal. unfold Rdiv. rewrite rsum_map_scale_r.
      rewrite (rsum_map_ext _ (fun k => sum_to (vcount g) (fun i => k_out g i * ind (Nat.eqb (lab i) k)) * sum_to (vcount g) (fun i => k_out g i * ind (Nat.eqb (lab i) k)))).
      2: { intros k _. rewrite strength_undirected by auto. ring. }
      rewrite product_sum by apply Hk. rewrite <- sum_to_scale_r. apply sum_to_ext; intros i _. rewrite <- sum_to_scale_r. apply sum_to_ext; intros j _. ring.
Qed.

Lemma cpm_quality_A : cpm_quality (directed g) E1 c (vcount g) 0 ks = A_of g c.
Proof.
  unfold cpm_quality. rewrite A_of_edges, rsum_map_scale, <- inside_sum, <- rsum_map_scale. unfold rsum. f_equal. apply map_ext. intros k.
  destruct (directed g); lra.
Qed.
End Unit.

(** ** Layers *)
Lemma arcs_filter E (p : nat -> bool) i j : arcs (filter (fun e => p (fst e)) E) i j = ind (p i) * arcs E i j.
Proof.
  induction E as [|[u v] E IH]; [unfold arcs; simpl; lra|]. cbn [filter fst]. rewrite arcs_cons.
  destruct (p u) eqn:Ep; [rewrite arcs_cons|]; rewrite IH; destruct (pair_dec (u, v) (i, j)) as [Eq|]; try lra; inversion Eq; subst; rewrite Ep; unfold ind; lra.
Qed.

Lemma arcs_zero E i j : ~ In (i, j) E -> arcs E i j = 0.
Proof. intros H. unfold arcs. rewrite (proj1 (count_occ_not_In pair_dec E (i, j)) H). reflexivity. Qed.

Section Layers.
Variables (g : graph) (lv c ks : list nat).
Hypothesis Hwf : wf_graph g.
Hypothesis Hlen : length lv = vcount g.
Hypothesis Hwithin : edges_within_layers g lv.
Hypothesis Hn : NoDup ks.
Hypothesis Hk : forall v, (v < vcount g)%nat -> In (nth v c 0%nat) ks.
Let L v := nth v lv 0%nat.

Definition layer_of (t : nat) : graph :=
  let E := filter (fun e => Nat.eqb (L (fst e)) t) (edges g) in mkGraph (vcount g) (directed g) E (Some (repeat 1 (length E))).

Lemma layer_of_wf t : wf_graph (layer_of t).
Proof.
  split; cbn.
  - intros u v Hin. apply filter_In in Hin. apply Hwf, Hin.
  - intros ws H. inversion H. unfold ecount. cbn. apply repeat_length.
Qed.

Lemma adjacency_cross i j : L i <> L j -> adjacency g i j = 0.
Proof.
  intros H. unfold adjacency. rewrite !arcs_zero; [destruct (directed g); lra| |].
  - intros Hin. apply H. unfold L. symmetry. apply (Hwithin _ _ Hin).
  - intros Hin. apply H. unfold L. apply (Hwithin _ _ Hin).
Qed.

Lemma layer_adjacency t i j : adjacency (layer_of t) i j = ind (Nat.eqb (L i) t) * adjacency g i j.
Proof.
  destruct (Nat.eq_dec (L i) (L j)) as [E|E].
  - unfold adjacency. cbn [layer_of directed edges].
    rewrite !(arcs_filter (edges g) (fun u => Nat.eqb (L u) t)). rewrite <- E. destruct (directed g); lra.
  - rewrite (adjacency_cross i j E).
    unfold adjacency. cbn [layer_of directed edges]. rewrite !(arcs_filter (edges g) (fun u => Nat.eqb (L u) t)).
    pose proof (adjacency_cross j i ltac:(auto)) as Z1. pose proof (adjacency_cross i j E) as Z2. unfold adjacency in Z1, Z2.
    assert (P : forall a b, 0 <= arcs (edges g) a b) by (intros; apply pos_INR). pose proof (P i j). pose proof (P j i).
    destruct (directed g).
    + rewrite Z2. lra.
    + assert (arcs (edges g) i j = 0) as -> by lra. assert (arcs (edges g) j i = 0) as -> by lra. lra.
Qed.

Lemma layer_adjacency' t i j : adjacency (layer_of t) i j = ind (Nat.eqb (L j) t) * adjacency g i j.
Proof.
  rewrite layer_adjacency. destruct (Nat.eq_dec (L i) (L j)) as [->|E]; auto. rewrite (adjacency_cross i j E). lra.
Qed.

Lemma layer_k_out t i : k_out (layer_of t) i = ind (Nat.eqb (L i) t) * k_out g i.
Proof. unfold k_out. rewrite <- sum_to_scale. apply sum_to_ext. intros j _. apply layer_adjacency. Qed.
Lemma layer_k_in t i : k_in (layer_of t) i = ind (Nat.eqb (L i) t) * k_in g i.
Proof. unfold k_in. rewrite <- sum_to_scale. apply sum_to_ext. intros j _. apply layer_adjacency'. Qed.
Lemma layer_m t : m_edges (layer_of t) = m_layer g lv t.
Proof.
  rewrite <- (layer_count_m t Hwithin). unfold m_edges, layer_count. cbn [layer_of edges]. f_equal. unfold L.
  clear. induction (edges g) as [|e E IH]; simpl; auto. rewrite <- IH. destruct (nth (fst e) lv 0 =? t)%nat; reflexivity.
Qed.

Lemma layers_sum T gamma : (forall l, In l lv -> (l < T)%nat) ->
  rsum (map (fun t => modularity (layer_of t) gamma c) (seq 0 T)) = A_of g c - gamma * P3_of g lv c.
Proof.
  intros HT.
  assert (HL : forall i, (i < vcount g)%nat -> In (L i) (seq 0 T)).
  { intros i Hi. apply in_seq. cbn. split; [lia|]. apply HT. apply nth_In. lia. }
  rewrite (rsum_map_ext _ (fun t => A_of (layer_of t) c - gamma * P_of (layer_of t) c)) by (intros; apply modularity_AP).
  rewrite rsum_map_minus, rsum_map_scale. f_equal; [|f_equal].
  - unfold A_of. change (vcount (layer_of _)) with (vcount g).
    change (rsum (map (fun t => rsum (map (fun i => sum_to (vcount g) (fun j => adjacency (layer_of t) i j * delta c i j)) (seq 0 (vcount g)))) (seq 0 T))
      = rsum (map (fun i => sum_to (vcount g) (fun j => adjacency g i j * delta c i j)) (seq 0 (vcount g)))).
    rewrite rsum_swap. apply rsum_map_ext. intros i Hi. apply in_seq in Hi.
    rewrite (rsum_map_ext _ (fun t => ind (Nat.eqb (L i) t) * sum_to (vcount g) (fun j => adjacency g i j * delta c i j))).
    + rewrite (@sum_labels_single (seq 0 T) (L i) (fun _ => sum_to (vcount g) (fun j => adjacency g i j * delta c i j))); auto using seq_NoDup. apply HL. lia.
    + intros t _. rewrite <- sum_to_scale. apply sum_to_ext. intros j _. rewrite layer_adjacency. ring.
  - unfold P_of, P3_of. 
    change (rsum (map (fun t => rsum (map (fun i => sum_to (vcount g) (fun j =>
        (if directed g then k_in (layer_of t) i * k_out (layer_of t) j / m_edges (layer_of t) else k_out (layer_of t) i * k_out (layer_of t) j / (2 * m_edges (layer_of t))) * delta c i j)) (seq 0 (vcount g)))) (seq 0 T))
      = rsum (map (fun i => sum_to (vcount g) (fun j => layer_null g lv i j * delta c i j)) (seq 0 (vcount g)))).
    rewrite rsum_swap. apply rsum_map_ext. intros i Hi. apply in_seq in Hi.
    rewrite (rsum_map_ext _ (fun t => ind (Nat.eqb (L i) t) * sum_to (vcount g) (fun j =>
       (if directed g then k_in g i * k_out g j / m_layer g lv t else k_out g i * k_out g j / (2 * m_layer g lv t)) * ind (Nat.eqb (L j) t) * delta c i j))).
    + rewrite (@sum_labels_single (seq 0 T) (L i) (fun t => sum_to (vcount g) (fun j =>
       (if directed g then k_in g i * k_out g j / m_layer g lv t else k_out g i * k_out g j / (2 * m_layer g lv t)) * ind (Nat.eqb (L j) t) * delta c i j))); auto using seq_NoDup; [|apply HL; lia].
      apply sum_to_ext. intros j _. unfold layer_null. fold (L i). f_equal. f_equal.
      unfold ind, delta. unfold L. destruct (Nat.eqb_spec (nth j lv 0%nat) (nth i lv 0%nat)), (Nat.eq_dec (nth i lv 0%nat) (nth j lv 0%nat)); congruence || auto.
    + intros t _. rewrite <- sum_to_scale. apply sum_to_ext. intros j _. rewrite !layer_k_in, !layer_k_out, layer_m. unfold Rdiv. destruct (directed g); ring.
Qed.
End Layers.

Lemma layer_graphs_unit g lv gs : layer_graphs g (repeat 1 (length (edges g))) lv gs -> gs = map (layer_of g lv) (seq 0 (length gs)).
Proof.
  intros (_ & _ & H). apply nth_error_ext. intros t.
  rewrite nth_error_map. destruct (nth_error gs t) as [gt|] eqn:Et.
  - assert (Hlt : (t < length gs)%nat) by (apply nth_error_Some; congruence).
    rewrite (nth_error_nth' (seq 0 (length gs)) 0%nat) by (rewrite seq_length; auto). rewrite seq_nth by auto. cbn [option_map plus]. f_equal.
    destruct (H t gt Et) as (V & D & E & W). destruct gt as [vc dr es wt]. cbn in *. subst vc dr. unfold layer_of.
    assert (F : forall E0 : list (nat * nat), filter (fun ew : nat * nat * R => Nat.eqb (nth (fst (fst ew)) lv 0%nat) t) (combine E0 (repeat 1 (length E0)))
       = map (fun e => (e, 1)) (filter (fun e => Nat.eqb (nth (fst e) lv 0%nat) t) E0)).
    { clear. induction E0 as [|e E0 IH]; simpl; auto. rewrite IH. destruct (Nat.eqb _ t); reflexivity. }
    rewrite F in E, W. rewrite map_map in E, W. cbn [fst snd] in E, W. rewrite map_id in E. subst es. f_equal. rewrite W. f_equal.
    clear. induction (filter _ (edges g)) as [|e E0 IH]; simpl; auto. rewrite IH. reflexivity.
  - apply nth_error_None in Et. rewrite (proj2 (nth_error_None _ _)); auto. rewrite seq_length. auto.
Qed.

Lemma objective_modularity g ge lv c ks layers gamma omega :
  wf_graph g -> wf_graph ge -> vcount ge = vcount g -> length lv = vcount g -> edges_within_layers g lv ->
  weights ge = Some (repeat 1 (length (edges ge))) -> layer_graphs g (repeat 1 (length (edges g))) lv layers ->
  NoDup ks -> (forall v, (v < vcount g)%nat -> In (nth v c 0%nat) ks) ->
  objective_value (multiplex_objective layers ge gamma omega) c ks = multilayer_modularity g ge lv gamma omega c.
Proof.
  intros Hg Hge Hvc Hlen Hw Hwe Hl Hn Hk. rewrite multilayer_APC. unfold objective_value. change (fold_right Rplus 0) with rsum. unfold multiplex_objective. rewrite map_app, rsum_app. f_equal.
  - rewrite map_map. cbn [fst snd]. rewrite (layer_graphs_unit Hl). rewrite map_map.
    rewrite <- (@layers_sum g lv c Hlen Hw (length layers) gamma) by (destruct Hl; auto). apply rsum_map_ext. intros t _.
    unfold quality. cbn [vp_type vp_graph vp_gamma]. rewrite Rmult_1_l. cbn [layer_of weights].
    apply (@rb_quality_modularity (layer_of g lv t) c ks); auto. apply layer_of_wf; auto.
  - cbn [map]. rewrite rsum_cons, rsum_nil, Rplus_0_r. cbn [fst snd]. f_equal. unfold quality. cbn [vp_type vp_graph vp_gamma]. rewrite Hwe.
    apply cpm_quality_A; auto. intros v Hv. apply Hk. lia.
Qed.
