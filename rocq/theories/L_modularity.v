(** Modularity identities: finite sums over vertices, edges and communities. *)
From Verif Require Import PyBase PyGraph M_partition M_pool M_champ Spec Spec_graph L_base L_canon.
Set Implicit Arguments.
Open Scope R_scope.

Lemma sum_to_rsum n f : sum_to n f = rsum (map f (seq 0 n)).
Proof. reflexivity. Qed.

Lemma sum_to_ext n f g : (forall i, (i < n)%nat -> f i = g i) -> sum_to n f = sum_to n g.
Proof. intros H. rewrite !sum_to_rsum. apply rsum_map_ext. intros i Hi. apply in_seq in Hi. apply H. lia. Qed.

Lemma sum_to_plus n f g : sum_to n (fun i => f i + g i) = sum_to n f + sum_to n g.
Proof. rewrite !sum_to_rsum. apply rsum_map_plus. Qed.
Lemma sum_to_minus n f g : sum_to n (fun i => f i - g i) = sum_to n f - sum_to n g.
Proof. rewrite !sum_to_rsum. apply rsum_map_minus. Qed.
Lemma sum_to_scale n c f : sum_to n (fun i => c * f i) = c * sum_to n f.
Proof. rewrite !sum_to_rsum. apply rsum_map_scale. Qed.
Lemma sum_to_scale_r n c f : sum_to n (fun i => f i * c) = sum_to n f * c.
Proof. rewrite !sum_to_rsum. apply rsum_map_scale_r. Qed.
Lemma sum_to_swap n m f : sum_to n (fun i => sum_to m (fun j => f i j)) = sum_to m (fun j => sum_to n (fun i => f i j)).
Proof.
  transitivity (rsum (map (fun x => rsum (map (f x) (seq 0 m))) (seq 0 n))); [reflexivity|].
  rewrite rsum_swap. reflexivity.
Qed.
Lemma sum_to_0 n f : (forall i, (i < n)%nat -> f i = 0) -> sum_to n f = 0.
Proof. intros H. rewrite sum_to_rsum. apply rsum_map_0. intros i Hi. apply in_seq in Hi. apply H; lia. Qed.
Lemma sum_to_nonneg n f : (forall i, (i < n)%nat -> 0 <= f i) -> 0 <= sum_to n f.
Proof. intros H. rewrite sum_to_rsum. apply rsum_map_nonneg. intros i Hi. apply in_seq in Hi. apply H; lia. Qed.
Lemma sum_to_le n f g : (forall i, (i < n)%nat -> f i <= g i) -> sum_to n f <= sum_to n g.
Proof. intros H. rewrite !sum_to_rsum. apply rsum_map_le. intros i Hi. apply in_seq in Hi. apply H; lia. Qed.

(** a sum with a single nonzero term *)
Lemma rsum_single {A} (eqd : forall x y : A, {x = y} + {x <> y}) (l : list A) a (f : A -> R) :
  NoDup l -> In a l -> rsum (map (fun k => if eqd a k then f k else 0) l) = f a.
Proof.
  induction 1 as [|x l Hx Hn IH]; simpl; [tauto|]. intros Hin. rewrite rsum_cons.
  destruct (eqd a x) as [->|Hne].
  - rewrite rsum_map_0; [lra|]. intros y Hy. destruct (eqd x y) as [->|]; [tauto|auto].
  - destruct Hin as [->|Hin]; [congruence|]. rewrite IH by auto. lra.
Qed.

Lemma sum_to_single n a f : (a < n)%nat -> sum_to n (fun k => if Nat.eq_dec a k then f k else 0) = f a.
Proof. intros H. rewrite sum_to_rsum. apply rsum_single; [apply seq_NoDup | apply in_seq; lia]. Qed.

(** ** Sums over the adjacency matrix are sums over edges *)
Lemma arcs_cons e E i j : arcs (e :: E) i j = (if pair_dec e (i, j) then 1 else 0) + arcs E i j.
Proof.
  unfold arcs. simpl. destruct (pair_dec e (i, j)); [rewrite S_INR; lra | lra].
Qed.

Lemma sum_arcs n E (h : nat -> nat -> R) :
  (forall u v, In (u, v) E -> (u < n)%nat /\ (v < n)%nat) ->
  sum_to n (fun i => sum_to n (fun j => arcs E i j * h i j)) = rsum (map (fun e => h (fst e) (snd e)) E).
Proof.
  intros H. induction E as [|[u v] E IH].
  - simpl. rewrite rsum_nil. apply sum_to_0. intros i _. apply sum_to_0. intros j _. unfold arcs; simpl; lra.
  - destruct (H u v (or_introl eq_refl)) as [Hu Hv].
    simpl map. rewrite rsum_cons, <- IH by (intros; apply H; simpl; auto). simpl fst; simpl snd.
    transitivity (sum_to n (fun i => (if Nat.eq_dec u i then h i v else 0) + sum_to n (fun j => arcs E i j * h i j))).
    + apply sum_to_ext. intros i Hi.
      transitivity (sum_to n (fun j => (if Nat.eq_dec v j then (if Nat.eq_dec u i then h i j else 0) else 0)
                                       + arcs E i j * h i j)).
      * apply sum_to_ext. intros j Hj. rewrite arcs_cons.
        destruct (pair_dec (u, v) (i, j)) as [E1|E1], (Nat.eq_dec v j), (Nat.eq_dec u i); subst; try congruence; lra.
      * rewrite sum_to_plus. f_equal. apply (sum_to_single (fun j => if Nat.eq_dec u i then h i j else 0) Hv).
    + rewrite sum_to_plus. f_equal. apply (sum_to_single (fun i => h i v) Hu).
Qed.

Lemma sum_arcs_t n E (h : nat -> nat -> R) :
  (forall u v, In (u, v) E -> (u < n)%nat /\ (v < n)%nat) ->
  sum_to n (fun i => sum_to n (fun j => arcs E j i * h i j)) = rsum (map (fun e => h (snd e) (fst e)) E).
Proof.
  intros H. rewrite sum_to_swap. apply (sum_arcs (n := n) E (fun a b => h b a) H).
Qed.

Lemma sum_adjacency g (h : nat -> nat -> R) : wf_graph g ->
  sum_to (vcount g) (fun i => sum_to (vcount g) (fun j => adjacency g i j * h i j)) =
  rsum (map (fun e => if directed g then h (fst e) (snd e) else h (fst e) (snd e) + h (snd e) (fst e)) (edges g)).
Proof.
  intros [Hw _]. unfold adjacency. destruct (directed g).
  - apply sum_arcs; auto.
  - transitivity (sum_to (vcount g) (fun i => sum_to (vcount g) (fun j => arcs (edges g) i j * h i j)
                                            + sum_to (vcount g) (fun j => arcs (edges g) j i * h i j))).
    + apply sum_to_ext; intros i _. rewrite <- sum_to_plus. apply sum_to_ext; intros j _. lra.
    + rewrite sum_to_plus, sum_arcs, sum_arcs_t, <- rsum_map_plus by auto. reflexivity.
Qed.

(** ** Degrees *)
Lemma row_arcs n E i : (forall u v, In (u, v) E -> (u < n)%nat /\ (v < n)%nat) ->
  sum_to n (fun j => arcs E i j) = INR (list_sum (map (fun e => b2n (fst e =? i)) E)).
Proof.
  intros H. induction E as [|[u v] E IH].
  - simpl. apply sum_to_0. reflexivity.
  - destruct (H u v (or_introl eq_refl)) as [_ Hv].
    simpl map. simpl list_sum. rewrite plus_INR, <- IH by (intros; apply H; simpl; auto). simpl fst.
    transitivity (sum_to n (fun j => (if Nat.eq_dec v j then INR (b2n (u =? i)) else 0) + arcs E i j)).
    + apply sum_to_ext. intros j _. rewrite arcs_cons. f_equal.
      destruct (pair_dec (u, v) (i, j)) as [E1|E1], (Nat.eq_dec v j), (Nat.eqb_spec u i); simpl; subst; try congruence.
    + rewrite sum_to_plus. f_equal. apply (sum_to_single (fun _ => INR (b2n (u =? i))) Hv).
Qed.

Lemma col_arcs n E i : (forall u v, In (u, v) E -> (u < n)%nat /\ (v < n)%nat) ->
  sum_to n (fun j => arcs E j i) = INR (list_sum (map (fun e => b2n (snd e =? i)) E)).
Proof.
  intros H. induction E as [|[u v] E IH].
  - simpl. apply sum_to_0. reflexivity.
  - destruct (H u v (or_introl eq_refl)) as [Hu _].
    simpl map. simpl list_sum. rewrite plus_INR, <- IH by (intros; apply H; simpl; auto). simpl snd.
    transitivity (sum_to n (fun j => (if Nat.eq_dec u j then INR (b2n (v =? i)) else 0) + arcs E j i)).
    + apply sum_to_ext. intros j _. rewrite arcs_cons. f_equal.
      destruct (pair_dec (u, v) (j, i)) as [E1|E1], (Nat.eq_dec u j), (Nat.eqb_spec v i); simpl; subst; try congruence.
    + rewrite sum_to_plus. f_equal. apply (sum_to_single (fun _ => INR (b2n (v =? i))) Hu).
Qed.

Lemma list_sum_map_plus {A} (f g : A -> nat) l :
  list_sum (map (fun x => f x + g x)%nat l) = (list_sum (map f l) + list_sum (map g l))%nat.
Proof. induction l; simpl; lia. Qed.

Lemma nth_map_seq {A} (f : nat -> A) n i d : (i < n)%nat -> nth i (map f (seq 0 n)) d = f i.
Proof.
  intros H. rewrite (nth_indep _ d (f 0%nat)) by (rewrite map_length, seq_length; auto).
  rewrite map_nth. rewrite seq_nth; auto.
Qed.

Lemma all_degrees_undirected g i : wf_graph g -> directed g = false -> (i < vcount g)%nat ->
  INR (nth i (all_degrees g) 0%nat) = k_out g i.
Proof.
  intros [Hw _] Hd Hi. unfold all_degrees. rewrite nth_map_seq by auto.
  rewrite list_sum_map_plus, plus_INR, <- (row_arcs (n := vcount g)), <- (col_arcs (n := vcount g)) by auto.
  unfold k_out, adjacency. rewrite Hd, sum_to_plus. reflexivity.
Qed.

Lemma out_degrees_directed g i : wf_graph g -> directed g = true -> (i < vcount g)%nat ->
  INR (nth i (out_degrees g) 0%nat) = k_out g i.
Proof.
  intros [Hw _] Hd Hi. unfold out_degrees. rewrite Hd. rewrite nth_map_seq by auto.
  rewrite <- (row_arcs (n := vcount g)) by auto. unfold k_out, adjacency. rewrite Hd. reflexivity.
Qed.

Lemma in_degrees_directed g i : wf_graph g -> directed g = true -> (i < vcount g)%nat ->
  INR (nth i (in_degrees g) 0%nat) = k_in g i.
Proof.
  intros [Hw _] Hd Hi. unfold in_degrees. rewrite Hd. rewrite nth_map_seq by auto.
  rewrite <- (col_arcs (n := vcount g)) by auto. unfold k_in, adjacency. rewrite Hd. reflexivity.
Qed.

Lemma all_degrees_length g : length (all_degrees g) = vcount g.
Proof. unfold all_degrees. rewrite map_length, seq_length. reflexivity. Qed.
Lemma in_degrees_length g : length (in_degrees g) = vcount g.
Proof. unfold in_degrees. destruct (directed g); [rewrite map_length, seq_length; auto | apply all_degrees_length]. Qed.
Lemma out_degrees_length g : length (out_degrees g) = vcount g.
Proof. unfold out_degrees. destruct (directed g); [rewrite map_length, seq_length; auto | apply all_degrees_length]. Qed.

Lemma k_in_undirected g i : directed g = false -> k_in g i = k_out g i.
Proof.
  intros Hd. unfold k_in, k_out. apply sum_to_ext. intros j _. unfold adjacency. rewrite Hd. lra.
Qed.

(** ** The A_hat coefficient *)
Lemma same_label_ok c e : (fst e < length c)%nat -> (snd e < length c)%nat ->
  same_label c e = Ok (nth (fst e) c 0 =? nth (snd e) c 0)%nat.
Proof. intros H1 H2. unfold same_label. rewrite (py_get_ok c 0%nat H1), (py_get_ok c 0%nat H2). reflexivity. Qed.

Lemma delta_b2n c i j : delta c i j = INR (b2n (nth i c 0 =? nth j c 0)%nat).
Proof. unfold delta. destruct (Nat.eq_dec _ _), (Nat.eqb_spec (nth i c 0) (nth j c 0))%nat; simpl; congruence. Qed.

Lemma count_internal_ok E c : (forall u v, In (u, v) E -> (u < length c)%nat /\ (v < length c)%nat) ->
  count_internal E c = Ok (list_sum (map (fun e => b2n (nth (fst e) c 0 =? nth (snd e) c 0)%nat) E)).
Proof.
  intros H. unfold count_internal.
  rewrite (mapM_ok (same_label c) (fun e => nth (fst e) c 0 =? nth (snd e) c 0)%nat).
  - cbn [bind]. rewrite map_map. reflexivity.
  - intros [u v] Hin. destruct (H u v Hin). apply same_label_ok; auto.
Qed.

Lemma INR_count_internal E c :
  INR (list_sum (map (fun e => b2n (nth (fst e) c 0 =? nth (snd e) c 0)%nat) E)) =
  rsum (map (fun e => delta c (fst e) (snd e)) E).
Proof. rewrite INR_list_sum, map_map. apply rsum_map_ext. intros e _. symmetry. apply delta_b2n. Qed.

Lemma delta_sym c i j : delta c i j = delta c j i.
Proof. unfold delta. destruct (Nat.eq_dec _ _), (Nat.eq_dec _ _); congruence. Qed.

Lemma internal_hat_ok g c : wf_graph g -> (vcount g <= length c)%nat ->
  internal_hat g c = Ok (sum_to (vcount g) (fun i => sum_to (vcount g) (fun j => adjacency g i j * delta c i j))).
Proof.
  intros Hw Hlen. unfold internal_hat. rewrite count_internal_ok.
  - cbn [bind]. f_equal. rewrite (sum_adjacency (delta c) Hw). destruct (directed g).
    + apply INR_count_internal.
    + rewrite mult_INR, INR_count_internal, <- rsum_map_scale. apply rsum_map_ext. intros e _.
      rewrite (delta_sym c (snd e)). simpl. lra.
  - intros u v Hin. destruct Hw as [Hw _]. destruct (Hw u v Hin). lia.
Qed.

(** ** Sums over communities *)
Lemma degree_sum_ok deg vs : (forall v, In v vs -> (v < length deg)%nat) ->
  degree_sum deg vs = Ok (list_sum (map (fun v => nth v deg 0%nat) vs)).
Proof.
  intros H. unfold degree_sum. rewrite (mapM_ok (py_get deg) (fun v => nth v deg 0%nat)); [reflexivity|].
  intros v Hv. apply py_get_ok. auto.
Qed.

Section Grouped.
  Context {K : Type} (eqd : forall a b : K, {a = b} + {a <> b}).

  (** Sum over groups of (sum of f in group)(sum of g in group) * w(group) = double sum over pairs in equal groups. *)
  Lemma grouped_sum (n : nat) (key : nat -> K) (d : list (K * list nat)) (f g : nat -> R) (w : K -> R) :
    NoDup (map fst d) ->
    (forall i, (i < n)%nat -> In (key i) (map fst d)) ->
    (forall k vs, In (k, vs) d -> forall h : nat -> R, rsum (map h vs) = sum_to n (fun i => if eqd (key i) k then h i else 0)) ->
    rsum (map (fun kv => rsum (map f (snd kv)) * rsum (map g (snd kv)) * w (fst kv)) d) =
    sum_to n (fun i => sum_to n (fun j => f i * g j * w (key i) * (if eqd (key i) (key j) then 1 else 0))).
  Proof.
    intros Hn Hkeys Hvs.
    transitivity (rsum (map (fun k => sum_to n (fun i => sum_to n (fun j =>
       if eqd (key i) k then (if eqd (key j) k then f i * g j * w k else 0) else 0))) (map fst d))).
    - rewrite map_map. apply rsum_map_ext. intros [k vs] Hin. simpl.
      rewrite (Hvs k vs Hin f), (Hvs k vs Hin g). rewrite <- !sum_to_scale_r. apply sum_to_ext. intros i _.
      rewrite Rmult_assoc. rewrite (Rmult_comm _ (w k)). rewrite <- Rmult_assoc. rewrite <- sum_to_scale.
      apply sum_to_ext. intros j _. destruct (eqd (key i) k), (eqd (key j) k); lra.
    - transitivity (sum_to n (fun i => rsum (map (fun k => sum_to n (fun j =>
         if eqd (key i) k then (if eqd (key j) k then f i * g j * w k else 0) else 0)) (map fst d)))).
      { unfold sum_to. apply (rsum_swap (fun k i => fold_right Rplus 0 (map (fun j =>
         if eqd (key i) k then (if eqd (key j) k then f i * g j * w k else 0) else 0) (seq 0 n)))). }
      apply sum_to_ext. intros i Hi.
      transitivity (sum_to n (fun j => rsum (map (fun k =>
         if eqd (key i) k then (if eqd (key j) k then f i * g j * w k else 0) else 0) (map fst d)))).
      { unfold sum_to. apply (rsum_swap (fun k j =>
         if eqd (key i) k then (if eqd (key j) k then f i * g j * w k else 0) else 0)). }
      apply sum_to_ext. intros j Hj.
      rewrite (rsum_single eqd (key i) (fun k => if eqd (key j) k then f i * g j * w k else 0) Hn (Hkeys i Hi)).
      destruct (eqd (key j) (key i)), (eqd (key i) (key j)); try congruence; lra.
  Qed.
End Grouped.

Lemma rsum_filter_seq (p : nat -> bool) n h : rsum (map h (filter p (seq 0 n))) = sum_to n (fun i => if p i then h i else 0).
Proof. rewrite rsum_filter. reflexivity. Qed.

Lemma communities_sum c (f g : nat -> R) :
  rsum (map (fun kv => rsum (map f (snd kv)) * rsum (map g (snd kv))) (membership_to_communities c)) =
  sum_to (length c) (fun i => sum_to (length c) (fun j => f i * g j * delta c i j)).
Proof.
  destruct (communities_spec c) as (_ & H2 & H3 & H4).
  transitivity (rsum (map (fun kv => rsum (map f (snd kv)) * rsum (map g (snd kv)) * 1) (membership_to_communities c))).
  { apply rsum_map_ext. intros; lra. }
  rewrite (grouped_sum Nat.eq_dec (n := length c) (fun i => nth i c 0%nat) (membership_to_communities c) f g (fun _ => 1)).
  - apply sum_to_ext; intros i Hi. apply sum_to_ext; intros j Hj. unfold delta. lra.
  - exact H2.
  - intros i Hi. apply H3. apply nth_In; auto.
  - intros k vs Hin h. rewrite (H4 k vs Hin), rsum_filter_seq. apply sum_to_ext. intros i Hi.
    destruct (Nat.eqb_spec (nth i c 0) k)%nat, (Nat.eq_dec (nth i c 0) k)%nat; congruence.
Qed.

Lemma communities_in_range c k vs : In (k, vs) (membership_to_communities c) -> forall v, In v vs -> (v < length c)%nat.
Proof.
  intros Hin v Hv. destruct (communities_spec c) as (_ & _ & _ & H4). rewrite (H4 k vs Hin) in Hv.
  apply filter_In in Hv as [Hv _]. apply in_seq in Hv. lia.
Qed.

Lemma INR_nth_sum deg vs : INR (list_sum (map (fun v => nth v deg 0%nat) vs)) = rsum (map (fun v => INR (nth v deg 0%nat)) vs).
Proof. rewrite INR_list_sum, map_map. reflexivity. Qed.

Lemma p_numerator_ok g c : length c = vcount g ->
  exists x, p_numerator g c = Ok x /\
  INR x = sum_to (vcount g) (fun i => sum_to (vcount g) (fun j =>
    (if directed g then INR (nth i (in_degrees g) 0%nat) * INR (nth j (out_degrees g) 0%nat)
     else INR (nth i (all_degrees g) 0%nat) * INR (nth j (all_degrees g) 0%nat)) * delta c i j)).
Proof.
  intros Hlen. unfold p_numerator. destruct (directed g).
  - rewrite (mapM_ok _ (fun kv : nat * list nat => (list_sum (map (fun v => nth v (in_degrees g) 0) (snd kv)) *
                               list_sum (map (fun v => nth v (out_degrees g) 0) (snd kv)))%nat)).
    + cbn [bind]. eexists; split; [reflexivity|]. rewrite INR_list_sum, map_map.
      rewrite <- Hlen. rewrite <- communities_sum. apply rsum_map_ext. intros [k vs] _. simpl.
      rewrite mult_INR, !INR_nth_sum. reflexivity.
    + intros [k vs] Hin. simpl snd.
      rewrite degree_sum_ok by (intros v Hv; rewrite in_degrees_length, <- Hlen; eapply communities_in_range; eauto).
      rewrite degree_sum_ok by (intros v Hv; rewrite out_degrees_length, <- Hlen; eapply communities_in_range; eauto).
      reflexivity.
  - rewrite (mapM_ok _ (fun kv : nat * list nat => (list_sum (map (fun v => nth v (all_degrees g) 0) (snd kv)) ^ 2)%nat)).
    + cbn [bind]. eexists; split; [reflexivity|]. rewrite INR_list_sum, map_map.
      rewrite <- Hlen. rewrite <- communities_sum. apply rsum_map_ext. intros [k vs] _. cbn [snd].
      rewrite pow_INR, !INR_nth_sum. simpl. lra.
    + intros [k vs] Hin. simpl snd.
      rewrite degree_sum_ok by (intros v Hv; rewrite all_degrees_length, <- Hlen; eapply communities_in_range; eauto).
      reflexivity.
Qed.

(** The mathematical coefficients. *)
Definition A_of (g : graph) (c : list nat) : R :=
  sum_to (vcount g) (fun i => sum_to (vcount g) (fun j => adjacency g i j * delta c i j)).
Definition P_of (g : graph) (c : list nat) : R :=
  sum_to (vcount g) (fun i => sum_to (vcount g) (fun j =>
    (if directed g then k_in g i * k_out g j / m_edges g else k_out g i * k_out g j / (2 * m_edges g)) * delta c i j)).

Lemma modularity_AP g gamma c : modularity g gamma c = A_of g c - gamma * P_of g c.
Proof.
  unfold modularity, modularity_directed, modularity_undirected, A_of, P_of.
  rewrite <- sum_to_scale. rewrite <- sum_to_minus.
  destruct (directed g); apply sum_to_ext; intros i Hi; rewrite <- sum_to_scale, <- sum_to_minus;
    apply sum_to_ext; intros j Hj; lra.
Qed.

Lemma m_edges_pos g : edges g <> [] -> 0 < m_edges g.
Proof. intros H. unfold m_edges. apply lt_0_INR. destruct (edges g); [congruence|simpl; lia]. Qed.

Lemma p_hat_ok g c : wf_graph g -> edges g <> [] -> length c = vcount g ->
  exists x, p_numerator g c = Ok x /\
    np_div (INR x) (INR (if directed g then ecount g else 2 * ecount g)) = Fin (P_of g c).
Proof.
  intros Hw He Hlen. destruct (p_numerator_ok g c Hlen) as (x & Hx & Hval). exists x. split; auto.
  pose proof (m_edges_pos g He) as Hm. unfold m_edges in Hm. fold (ecount g) in Hm.
  unfold np_div. destruct (Req_EM_T _ 0) as [E|E].
  - exfalso. destruct (directed g); [|rewrite mult_INR in E; simpl in E]; lra.
  - f_equal. rewrite Hval. unfold P_of, Rdiv. rewrite <- sum_to_scale_r. apply sum_to_ext; intros i Hi.
    rewrite <- sum_to_scale_r. apply sum_to_ext; intros j Hj. unfold m_edges. fold (ecount g).
    destruct (directed g) eqn:Hd.
    + rewrite (in_degrees_directed Hw Hd Hi), (out_degrees_directed Hw Hd Hj). lra.
    + rewrite (all_degrees_undirected Hw Hd Hi), (all_degrees_undirected Hw Hd Hj). rewrite mult_INR.
      replace (INR 2) with 2 by (simpl; lra). lra.
Qed.

Lemma coefficients_2D_ok g parts : wf_graph g -> edges g <> [] -> (forall c, In c parts -> length c = vcount g) ->
  partition_coefficients_2D_serial g parts = Ok (map (A_of g) parts, map (fun c => Fin (P_of g c)) parts).
Proof.
  intros Hw He Hlen. unfold partition_coefficients_2D_serial.
  rewrite (mapM_ok (internal_hat g) (A_of g)).
  - cbn [bind].
    assert (H : exists nums, mapM (p_numerator g) parts = Ok nums /\
              map (fun x => np_div (INR x) (INR (if directed g then ecount g else 2 * ecount g))) nums
              = map (fun c => Fin (P_of g c)) parts).
    { induction parts as [|c parts IH]; [exists []; auto|].
      destruct IH as (nums & Hn & Hm); [intros; apply Hlen; simpl; auto|].
      destruct (p_hat_ok c Hw He) as (x & Hx & Hv); [apply Hlen; simpl; auto|].
      exists (x :: nums). cbn [mapM map]. rewrite Hx, Hn. cbn [bind]. rewrite Hv, Hm. auto. }
    destruct H as (nums & Hn & Hm). rewrite Hn. cbn [bind]. rewrite Hm. reflexivity.
  - intros c Hc. apply internal_hat_ok; auto. rewrite (Hlen c Hc). auto.
Qed.
