(** Bounds on the coefficients and their independence of label names. *)
From Verif Require Import PyBase PyGraph M_partition M_pool M_champ Spec Spec_graph L_base L_canon L_modularity L_modularity3.
Set Implicit Arguments.
Open Scope R_scope.

Lemma delta_01 c i j : 0 <= delta c i j <= 1.
Proof. unfold delta. destruct (Nat.eq_dec _ _); lra. Qed.

Lemma delta_same_partition c c' i j : same_partition c c' -> (i < length c)%nat -> (j < length c)%nat ->
  delta c i j = delta c' i j.
Proof.
  intros [Hl H] Hi Hj. unfold delta.
  assert (E : forall k, (k < length c)%nat -> nth_error c k = Some (nth k c 0%nat) /\ nth_error c' k = Some (nth k c' 0%nat)).
  { intros k Hk. split; apply nth_error_nth'; lia. }
  destruct (E i Hi) as [E1 E2], (E j Hj) as [E3 E4]. pose proof (H i j _ _ _ _ E1 E3 E2 E4) as HH.
  destruct (Nat.eq_dec (nth i c 0) (nth j c 0))%nat as [a|a], (Nat.eq_dec (nth i c' 0) (nth j c' 0))%nat as [b|b]; tauto.
Qed.

Lemma A_of_same g c c' : same_partition c c' -> (vcount g <= length c)%nat -> A_of g c = A_of g c'.
Proof.
  intros H Hl. unfold A_of. apply sum_to_ext; intros i Hi. apply sum_to_ext; intros j Hj. f_equal.
  apply delta_same_partition; auto; lia.
Qed.
Lemma P_of_same g c c' : same_partition c c' -> (vcount g <= length c)%nat -> P_of g c = P_of g c'.
Proof.
  intros H Hl. unfold P_of. apply sum_to_ext; intros i Hi. apply sum_to_ext; intros j Hj. f_equal.
  apply delta_same_partition; auto; lia.
Qed.
Lemma P3_of_same g lv c c' : same_partition c c' -> (vcount g <= length c)%nat -> P3_of g lv c = P3_of g lv c'.
Proof.
  intros H Hl. unfold P3_of. apply sum_to_ext; intros i Hi. apply sum_to_ext; intros j Hj. f_equal.
  apply delta_same_partition; auto; lia.
Qed.

Lemma adjacency_nonneg g i j : 0 <= adjacency g i j.
Proof.
  unfold adjacency, arcs. pose proof (pos_INR (count_occ pair_dec (edges g) (i, j))).
  pose proof (pos_INR (count_occ pair_dec (edges g) (j, i))). destruct (directed g); lra.
Qed.
Lemma k_out_nonneg g i : 0 <= k_out g i.
Proof. apply sum_to_nonneg. intros; apply adjacency_nonneg. Qed.
Lemma k_in_nonneg g i : 0 <= k_in g i.
Proof. apply sum_to_nonneg. intros; apply adjacency_nonneg. Qed.

Definition total (g : graph) : R := if directed g then m_edges g else 2 * m_edges g.

Lemma rsum_const {A} (l : list A) c : rsum (map (fun _ => c) l) = INR (length l) * c.
Proof.
  induction l as [|x l IH]; [simpl; rewrite rsum_nil; lra|].
  cbn [map length]. rewrite rsum_cons, IH, S_INR. lra.
Qed.

Lemma sum_k_out g : wf_graph g -> sum_to (vcount g) (k_out g) = total g.
Proof.
  intros Hw. unfold k_out, total.
  transitivity (sum_to (vcount g) (fun i => sum_to (vcount g) (fun j => adjacency g i j * (fun _ _ => 1) i j))).
  - apply sum_to_ext; intros i _. apply sum_to_ext; intros j _. lra.
  - rewrite sum_adjacency by auto. unfold m_edges.
    destruct (directed g).
    + rewrite rsum_const. lra.
    + replace (2 * INR (length (edges g))) with (INR (length (edges g)) * (1 + 1)) by lra.
      apply rsum_const.
Qed.
Lemma sum_k_in g : wf_graph g -> sum_to (vcount g) (k_in g) = total g.
Proof. intros Hw. rewrite <- sum_k_out by auto. unfold k_in, k_out. apply sum_to_swap. Qed.

Lemma A_of_bounds g c : wf_graph g -> 0 <= A_of g c <= total g.
Proof.
  intros Hw. split.
  - apply sum_to_nonneg; intros; apply sum_to_nonneg; intros. apply Rmult_le_pos; [apply adjacency_nonneg|apply delta_01].
  - rewrite <- sum_k_out by auto. apply sum_to_le; intros i _. apply sum_to_le; intros j _.
    rewrite <- (Rmult_1_r (adjacency g i j)) at 2. apply Rmult_le_compat_l; [apply adjacency_nonneg|apply delta_01].
Qed.

Lemma total_pos g : edges g <> [] -> 0 < total g.
Proof. intros H. apply m_edges_pos in H. unfold total. destruct (directed g); lra. Qed.

(** the null-model weight as one formula *)
Definition null2 (g : graph) (i j : nat) : R :=
  if directed g then k_in g i * k_out g j / m_edges g else k_out g i * k_out g j / (2 * m_edges g).
Lemma null2_eq g i j : null2 g i j = k_in g i * k_out g j / total g.
Proof. unfold null2, total. destruct (directed g) eqn:E; [auto|rewrite (k_in_undirected g i E); auto]. Qed.
Lemma P_of_null2 g c : P_of g c = sum_to (vcount g) (fun i => sum_to (vcount g) (fun j => null2 g i j * delta c i j)).
Proof. reflexivity. Qed.

Lemma null2_nonneg g i j : edges g <> [] -> 0 <= null2 g i j.
Proof.
  intros H. rewrite null2_eq. apply Rmult_le_pos.
  - apply Rmult_le_pos; [apply k_in_nonneg|apply k_out_nonneg].
  - apply Rlt_le, Rinv_0_lt_compat, total_pos; auto.
Qed.

Lemma P_of_bounds g c : wf_graph g -> edges g <> [] -> 0 <= P_of g c <= total g.
Proof.
  intros Hw He. rewrite P_of_null2. split.
  - apply sum_to_nonneg; intros; apply sum_to_nonneg; intros. apply Rmult_le_pos; [apply null2_nonneg; auto|apply delta_01].
  - apply Rle_trans with (sum_to (vcount g) (fun i => sum_to (vcount g) (fun j => null2 g i j))).
    + apply sum_to_le; intros i _. apply sum_to_le; intros j _.
      rewrite <- (Rmult_1_r (null2 g i j)) at 2. apply Rmult_le_compat_l; [apply null2_nonneg; auto|apply delta_01].
    + right. pose proof (total_pos g He) as Ht.
      transitivity (sum_to (vcount g) (fun i => k_in g i * (sum_to (vcount g) (k_out g) / total g))).
      * apply sum_to_ext; intros i _. unfold Rdiv. rewrite <- sum_to_scale_r, <- sum_to_scale.
        apply sum_to_ext; intros j _. rewrite null2_eq. unfold Rdiv. ring.
      * rewrite sum_to_scale_r, sum_k_in, sum_k_out by auto. field. lra.
Qed.

(** an undirected graph with an edge has a vertex of positive degree *)
Lemma sum_to_pos n f i : (forall k, (k < n)%nat -> 0 <= f k) -> (i < n)%nat -> 0 < f i -> 0 < sum_to n f.
Proof.
  intros H Hi Hp. rewrite sum_to_rsum. apply (rsum_map_pos f (seq 0 n) i); auto.
  - intros x Hx. apply in_seq in Hx. apply H. lia.
  - apply in_seq. lia.
Qed.
Lemma arcs_pos E u v : In (u, v) E -> 0 < arcs E u v.
Proof. intros H. unfold arcs. apply lt_0_INR. apply count_occ_In; auto. Qed.
Lemma k_out_pos g u v : wf_graph g -> In (u, v) (edges g) -> 0 < k_out g u.
Proof.
  intros [Hw _] Hin. destruct (Hw u v Hin). apply (@sum_to_pos _ _ v); auto; [intros; apply adjacency_nonneg|].
  unfold adjacency. pose proof (arcs_pos _ _ _ Hin). pose proof (pos_INR (count_occ pair_dec (edges g) (v, u))).
  unfold arcs in *. destruct (directed g); lra.
Qed.

Lemma P_of_pos g c : wf_graph g -> edges g <> [] -> directed g = false -> 0 < P_of g c.
Proof.
  intros Hw He Hd. destruct (edges g) as [|[u v] E] eqn:EE; [congruence|]. rewrite <- EE in He.
  assert (Hin : In (u, v) (edges g)) by (rewrite EE; simpl; auto).
  pose proof (@k_out_pos g u v Hw Hin) as Hk. destruct (proj1 Hw u v Hin) as [Hu Hv].
  rewrite P_of_null2.
  assert (Hnn : forall i j, 0 <= null2 g i j * delta c i j).
  { intros i j. apply Rmult_le_pos; [apply null2_nonneg; auto|apply delta_01]. }
  apply (@sum_to_pos _ _ u); auto; [intros; apply sum_to_nonneg; intros; apply Hnn|].
  apply (@sum_to_pos _ _ u); auto.
  unfold delta. destruct (Nat.eq_dec _ _) as [_|F]; [|congruence]. rewrite Rmult_1_r, null2_eq.
  rewrite (k_in_undirected g u Hd). apply Rmult_lt_0_compat; [apply Rmult_lt_0_compat; auto|].
  apply Rinv_0_lt_compat, total_pos; auto.
Qed.

(** ** Multilayer *)
Definition total_layer (g : graph) (lv : list nat) (l : nat) : R :=
  if directed g then m_layer g lv l else 2 * m_layer g lv l.

Lemma layer_null_eq g lv i j :
  layer_null g lv i j = k_in g i * k_out g j / total_layer g lv (nth i lv 0%nat) * delta lv i j.
Proof. unfold layer_null, total_layer. destruct (directed g) eqn:E; [auto|rewrite (k_in_undirected g i E); auto]. Qed.

Lemma m_layer_pos g lv l : edges_within_layers g lv -> layers_have_edges g lv -> In l lv -> 0 < m_layer g lv l.
Proof.
  intros H1 H2 Hl. rewrite <- layer_count_m by auto. apply lt_0_INR, layer_count_pos, H2; auto.
Qed.
Lemma total_layer_pos g lv l : edges_within_layers g lv -> layers_have_edges g lv -> In l lv -> 0 < total_layer g lv l.
Proof. intros H1 H2 Hl. pose proof (@m_layer_pos g lv l H1 H2 Hl). unfold total_layer. destruct (directed g); lra. Qed.

(** degrees of a layer add up to its number of edge ends *)
Lemma sum_k_out_layer g lv l : wf_graph g -> edges_within_layers g lv ->
  sum_to (vcount g) (fun j => k_out g j * (if Nat.eq_dec l (nth j lv 0%nat) then 1 else 0)) = total_layer g lv l.
Proof.
  intros Hw Hwithin.
  transitivity (sum_to (vcount g) (fun i => sum_to (vcount g) (fun j =>
     adjacency g i j * (fun i _ => if Nat.eq_dec l (nth i lv 0%nat) then 1 else 0) i j))).
  { apply sum_to_ext; intros i _. unfold k_out. rewrite <- sum_to_scale_r. reflexivity. }
  rewrite sum_adjacency by auto. unfold total_layer, m_layer. unfold edges_within_layers in Hwithin.
  destruct (directed g).
  - induction (edges g) as [|[u v] E IH]; simpl; [rewrite rsum_nil; auto|].
    rewrite rsum_cons, IH by (intros; apply Hwithin; simpl; auto). cbn [fst snd].
    rewrite <- (Hwithin u v (or_introl eq_refl)).
    destruct (Nat.eq_dec l (nth u lv 0%nat)) as [->|Hne].
    + rewrite Nat.eqb_refl. cbn [andb length]. rewrite S_INR. lra.
    + destruct (Nat.eqb_spec (nth u lv 0%nat) l); [congruence|]. simpl. lra.
  - induction (edges g) as [|[u v] E IH]; simpl; [rewrite rsum_nil; lra|].
    rewrite rsum_cons, IH by (intros; apply Hwithin; simpl; auto). cbn [fst snd].
    rewrite <- (Hwithin u v (or_introl eq_refl)).
    destruct (Nat.eq_dec l (nth u lv 0%nat)) as [->|Hne].
    + rewrite Nat.eqb_refl. cbn [andb length]. rewrite S_INR. lra.
    + destruct (Nat.eqb_spec (nth u lv 0%nat) l); [congruence|]. simpl. lra.
Qed.

Section Multi.
Variables (g : graph) (lv : list nat).
Hypothesis (Hw : wf_graph g) (Hlv : length lv = vcount g) (Hwithin : edges_within_layers g lv) (Hhas : layers_have_edges g lv).

Lemma layer_null_nonneg i j : (i < vcount g)%nat -> 0 <= layer_null g lv i j.
Proof.
  intros Hi. rewrite layer_null_eq. apply Rmult_le_pos; [|apply delta_01]. apply Rmult_le_pos.
  - apply Rmult_le_pos; [apply k_in_nonneg|apply k_out_nonneg].
  - apply Rlt_le, Rinv_0_lt_compat, total_layer_pos; auto. apply nth_In. lia.
Qed.

Lemma P3_of_bounds c : 0 <= P3_of g lv c <= total g.
Proof.
  unfold P3_of. split.
  - apply sum_to_nonneg; intros; apply sum_to_nonneg; intros. apply Rmult_le_pos; [apply layer_null_nonneg; auto|apply delta_01].
  - apply Rle_trans with (sum_to (vcount g) (fun i => sum_to (vcount g) (fun j => layer_null g lv i j))).
    + apply sum_to_le; intros i Hi. apply sum_to_le; intros j _.
      rewrite <- (Rmult_1_r (layer_null g lv i j)) at 2. apply Rmult_le_compat_l; [apply layer_null_nonneg; auto|apply delta_01].
    + right. rewrite <- sum_k_in by auto. apply sum_to_ext; intros i Hi.
      pose proof (@total_layer_pos g lv (nth i lv 0%nat) Hwithin Hhas ltac:(apply nth_In; lia)) as Ht.
      transitivity (k_in g i / total_layer g lv (nth i lv 0%nat) *
         sum_to (vcount g) (fun j => k_out g j * (if Nat.eq_dec (nth i lv 0%nat) (nth j lv 0%nat) then 1 else 0))).
      * rewrite <- sum_to_scale. apply sum_to_ext; intros j _. rewrite layer_null_eq. unfold delta, Rdiv. ring.
      * rewrite sum_k_out_layer by auto. field. lra.
Qed.

Lemma P3_of_pos c : edges g <> [] -> directed g = false -> 0 < P3_of g lv c.
Proof.
  intros He Hd. destruct (edges g) as [|[u v] E] eqn:EE; [congruence|].
  assert (Hin : In (u, v) (edges g)) by (rewrite EE; simpl; auto).
  pose proof (@k_out_pos g u v Hw Hin) as Hk. destruct (proj1 Hw u v Hin) as [Hu Hv].
  assert (Hnn : forall i j, (i < vcount g)%nat -> 0 <= layer_null g lv i j * delta c i j).
  { intros i j Hi. apply Rmult_le_pos; [apply layer_null_nonneg; auto|apply delta_01]. }
  apply (@sum_to_pos _ _ u); auto; [intros; apply sum_to_nonneg; intros; apply Hnn; auto|].
  apply (@sum_to_pos _ _ u); auto.
  rewrite layer_null_eq. unfold delta. destruct (Nat.eq_dec (nth u c 0) _)%nat as [_|F]; [|congruence].
  destruct (Nat.eq_dec (nth u lv 0) _)%nat as [_|F]; [|congruence]. rewrite !Rmult_1_r.
  rewrite (k_in_undirected g u Hd). apply Rmult_lt_0_compat; [apply Rmult_lt_0_compat; auto|].
  apply Rinv_0_lt_compat, total_layer_pos; auto. apply nth_In; lia.
Qed.
End Multi.
