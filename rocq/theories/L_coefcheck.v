(** Lemmas for Properties_coefcheck.v. *)
From Verif Require Import PyBase PyGraph M_partition M_champ M_leiden M_parts M_checks M_studies Spec Spec_graph Spec_leiden Spec_objective
  L_base L_modularity L_split L_checks L_checks2 Properties_parts.
Open Scope R_scope.

(** ** Subgraphs *)
Section Sub.
Variables (g : graph) (keep : list nat).
Hypothesis Hnd : NoDup keep.

Lemma index_in_nth i d : (i < length keep)%nat -> index_in keep (nth i keep d) = i.
Proof.
  revert i Hnd. induction keep as [|x l IH]; intros [|i] Hn Hi; cbn [length] in Hi; [lia|lia| |].
  - cbn. rewrite Nat.eqb_refl. reflexivity.
  - cbn [nth index_in]. inversion Hn as [|? ? Nx Nl]. subst. destruct (Nat.eqb_spec x (nth i l d)) as [E|N]; [exfalso; apply Nx; rewrite E; apply nth_In; lia|]. rewrite IH by (auto; lia). reflexivity.
Qed.
Lemma nth_index_in v d : In v keep -> (index_in keep v < length keep)%nat /\ nth (index_in keep v) keep d = v.
Proof.
  clear Hnd. induction keep as [|x l IH]; intros Hv; [destruct Hv|]. cbn [index_in length nth]. destruct (Nat.eqb_spec x v) as [->|N]; [split; [lia|reflexivity]|].
  destruct Hv as [Hv|Hv]; [contradiction|]. destruct (IH Hv). split; [lia|auto].
Qed.
Lemma existsb_in v : existsb (Nat.eqb v) keep = true <-> In v keep.
Proof. rewrite existsb_exists. split; [intros (x & Hx & E); apply Nat.eqb_eq in E; subst; auto|intros H; exists v; split; [auto|apply Nat.eqb_refl]]. Qed.

Lemma subgraph_wf : wf_graph (subgraph g keep).
Proof.
  split; [|discriminate]. intros u v H. cbn [edges subgraph vcount] in *. apply in_map_iff in H. destruct H as ([a b] & E & H). cbn [fst snd] in E. inversion E. subst. clear E.
  apply filter_In in H. destruct H as [_ H]. cbn [fst snd] in H. apply andb_true_iff in H. rewrite !existsb_in in H. split; apply (@nth_index_in _ 0%nat); tauto.
Qed.

Lemma subgraph_arcs i j : (i < length keep)%nat -> (j < length keep)%nat -> arcs (edges (subgraph g keep)) i j = arcs (edges g) (nth i keep 0%nat) (nth j keep 0%nat).
Proof.
  intros Hi Hj. unfold arcs. f_equal. cbn [edges subgraph]. induction (edges g) as [|[u v] E IH]; [reflexivity|]. cbn [filter fst snd].
  destruct (existsb (Nat.eqb u) keep && existsb (Nat.eqb v) keep) eqn:Ex.
  - apply andb_true_iff in Ex. rewrite !existsb_in in Ex. destruct Ex as [Eu Ev]. cbn [map count_occ fst snd]. rewrite IH.
    destruct (nth_index_in u 0%nat Eu) as [_ Nu]. destruct (nth_index_in v 0%nat Ev) as [_ Nv].
    destruct (pair_dec (index_in keep u, index_in keep v) (i, j)) as [E1|E1], (pair_dec (u, v) (nth i keep 0%nat, nth j keep 0%nat)) as [E2|E2]; auto; exfalso.
    + apply E2. inversion E1. subst. congruence.
    + apply E1. inversion E2. subst u v. rewrite !index_in_nth by auto. reflexivity.
  - cbn [count_occ]. destruct (pair_dec (u, v) (nth i keep 0%nat, nth j keep 0%nat)) as [E2|E2]; [|exact IH]. exfalso. inversion E2. subst.
    rewrite (proj2 (existsb_in _)), (proj2 (existsb_in _)) in Ex by (apply nth_In; auto). discriminate.
Qed.
Lemma subgraph_adjacency i j : (i < length keep)%nat -> (j < length keep)%nat -> adjacency (subgraph g keep) i j = adjacency g (nth i keep 0%nat) (nth j keep 0%nat).
Proof. intros Hi Hj. unfold adjacency. cbn [directed subgraph]. rewrite !subgraph_arcs by auto. reflexivity. Qed.
End Sub.

Lemma sum_over {A} (F : A -> R) l d : sum_to (length l) (fun i => F (nth i l d)) = rsum (map F l).
Proof.
  rewrite sum_to_rsum. f_equal. apply nth_ext with (d := F d) (d' := F d); [rewrite !map_length, seq_length; auto|]. intros i Hi. rewrite map_length, seq_length in Hi.
  rewrite (nth_indep _ _ (F (nth 0 l d))) by (rewrite map_length, seq_length; auto). rewrite map_nth with (f := fun i => F (nth i l d)). rewrite seq_nth by auto. rewrite map_nth. reflexivity.
Qed.

(** ** The vertices of a layer *)
Section Layer.
Variables (g : graph) (lv : list nat).
Hypothesis Hlen : length lv = vcount g.
Hypothesis Hwf : wf_graph g.
Hypothesis Hw : edges_within_layers g lv.

Definition layer_vertices (l : nat) : list nat := filter (fun i => Nat.eqb l (nth i lv 0%nat)) (seq 0 (vcount g)).

Lemma enumerate_filter l : map fst (filter (fun il => Nat.eqb l (snd il)) (enumerate lv)) = layer_vertices l.
Proof.
  unfold layer_vertices, enumerate. rewrite <- Hlen. clear. 
  assert (G : forall pre k, k = length pre -> map fst (filter (fun il => Nat.eqb l (snd il)) (enumerate_from k lv)) = filter (fun i => Nat.eqb l (nth i (pre ++ lv) 0%nat)) (seq k (length lv))).
  { induction lv as [|x L IH]; intros pre k ->; [reflexivity|]. cbn [enumerate_from filter seq length snd]. rewrite app_nth2, Nat.sub_diag by lia. cbn [nth].
    specialize (IH (pre ++ [x]) (S (length pre))). rewrite <- app_assoc in IH. cbn [app] in IH. destruct (Nat.eqb l x); cbn [map fst]; rewrite IH by (rewrite app_length; cbn; lia); reflexivity. }
  apply (G [] 0%nat eq_refl).
Qed.

Lemma layer_vertices_in l i : In i (layer_vertices l) <-> (i < vcount g)%nat /\ nth i lv 0%nat = l.
Proof. unfold layer_vertices. rewrite filter_In, in_seq, Nat.eqb_eq. intuition lia. Qed.
Lemma layer_vertices_nodup l : NoDup (layer_vertices l).
Proof. apply NoDup_filter, seq_NoDup. Qed.

Lemma adjacency_zero i j : nth i lv 0%nat <> nth j lv 0%nat -> adjacency g i j = 0.
Proof.
  intros N. assert (A : forall i j, nth i lv 0%nat <> nth j lv 0%nat -> arcs (edges g) i j = 0).
  { intros a b Nab. unfold arcs. replace (count_occ pair_dec (edges g) (a, b)) with 0%nat; [reflexivity|]. symmetry. apply count_occ_not_In. intros H. apply Nab. apply Hw. auto. }
  unfold adjacency. rewrite (A i j N), (A j i) by auto. destruct (directed g); ring.
Qed.

Lemma layer_sum l F : rsum (map F (layer_vertices l)) = sum_to (vcount g) (fun i => if Nat.eqb l (nth i lv 0%nat) then F i else 0).
Proof. unfold layer_vertices. rewrite rsum_filter. reflexivity. Qed.

Lemma sub_k_out l i : (i < length (layer_vertices l))%nat -> k_out (subgraph g (layer_vertices l)) i = k_out g (nth i (layer_vertices l) 0%nat).
Proof.
  intros Hi. unfold k_out. cbn [vcount subgraph]. set (v := nth i (layer_vertices l) 0%nat).
  assert (Hv : nth v lv 0%nat = l) by (apply layer_vertices_in, nth_In; auto).
  rewrite (@sum_to_ext _ _ (fun j => adjacency g v (nth j (layer_vertices l) 0%nat))) by (intros j Hj; apply subgraph_adjacency; auto; apply layer_vertices_nodup).
  rewrite (sum_over (adjacency g v) (layer_vertices l) 0%nat), layer_sum. apply sum_to_ext. intros j Hj. destruct (Nat.eqb_spec l (nth j lv 0%nat)) as [E|N]; [reflexivity|]. rewrite adjacency_zero; auto. congruence.
Qed.
Lemma sub_k_in l i : (i < length (layer_vertices l))%nat -> k_in (subgraph g (layer_vertices l)) i = k_in g (nth i (layer_vertices l) 0%nat).
Proof.
  intros Hi. unfold k_in. cbn [vcount subgraph]. set (v := nth i (layer_vertices l) 0%nat).
  assert (Hv : nth v lv 0%nat = l) by (apply layer_vertices_in, nth_In; auto).
  rewrite (@sum_to_ext _ _ (fun j => adjacency g (nth j (layer_vertices l) 0%nat) v)) by (intros j Hj; apply subgraph_adjacency; auto; apply layer_vertices_nodup).
  rewrite (sum_over (fun x => adjacency g x v) (layer_vertices l) 0%nat), layer_sum. apply sum_to_ext. intros j Hj. destruct (Nat.eqb_spec l (nth j lv 0%nat)) as [E|N]; [reflexivity|]. rewrite adjacency_zero; auto. congruence.
Qed.

Lemma sub_m l : m_edges (subgraph g (layer_vertices l)) = m_layer g lv l.
Proof.
  unfold m_edges, m_layer. f_equal. cbn [edges subgraph]. rewrite map_length. f_equal. apply filter_ext_in. intros [u v] Hin. cbn [fst snd].
  destruct Hwf as [Hr _]. destruct (Hr u v Hin). apply eq_iff_eq_true. rewrite !andb_true_iff, !existsb_in, !layer_vertices_in, !Nat.eqb_eq. tauto.
Qed.

(** the restricted labels *)
Lemma restricted l (c : list nat) : length c = vcount g ->
  mapM (fun ic => let! l' := py_get lv (fst ic) in Ok (Nat.eqb l' l, snd ic)) (enumerate c)
  = Ok (map (fun i => (Nat.eqb (nth i lv 0%nat) l, nth i c 0%nat)) (seq 0 (vcount g))).
Proof.
  intros Hc. assert (E : enumerate c = map (fun i => (i, nth i c 0%nat)) (seq 0 (length c))).
  { apply nth_ext with (d := (0%nat, 0%nat)) (d' := (0%nat, 0%nat)); [unfold enumerate; rewrite enumerate_from_length, map_length, seq_length; auto|].
    intros i Hi. unfold enumerate in *. rewrite enumerate_from_length in Hi. rewrite nth_map_seq by auto. apply nth_error_nth. rewrite enumerate_from_nth. rewrite (nth_error_nth' c 0%nat) by auto. reflexivity. }
  rewrite E, <- Hc. rewrite Hc.
  assert (H : forall i, In i (seq 0 (vcount g)) -> (i < vcount g)%nat) by (intros i Hi; apply in_seq in Hi; lia). revert H. generalize (seq 0 (vcount g)) as s. induction s as [|i s IH]; intros H; [reflexivity|].
  cbn [map mapM fst snd]. assert (Eg : py_get lv i = Ok (nth i lv 0%nat)) by (unfold py_get; rewrite (nth_error_nth' lv 0%nat) by (rewrite Hlen; apply H; left; auto); reflexivity). rewrite Eg. cbn [bind]. rewrite IH by (intros; apply H; right; auto). reflexivity.
Qed.
Lemma restricted_labels l (c : list nat) :
  map snd (filter fst (map (fun i => (Nat.eqb (nth i lv 0%nat) l, nth i c 0%nat)) (seq 0 (vcount g)))) = map (fun i => nth i c 0%nat) (layer_vertices l).
Proof.
  unfold layer_vertices. induction (seq 0 (vcount g)) as [|i s IH]; [reflexivity|]. cbn [map filter fst]. rewrite Nat.eqb_sym. destruct (Nat.eqb l (nth i lv 0%nat)); cbn [map snd]; rewrite IH; reflexivity.
Qed.

(** ** The layer's part of the null model *)
Definition layer_part (c : list nat) (l : nat) : R :=
  rsum (map (fun i => rsum (map (fun j => (if directed g then k_in g i * k_out g j / m_layer g lv l else k_out g i * k_out g j / (2 * m_layer g lv l)) * delta c i j) (layer_vertices l))) (layer_vertices l)).

Lemma layer_P_hat_ok c l : length c = vcount g -> layer_P_hat g lv c l = Ok (layer_part c l).
Proof.
  intros Hc. unfold layer_P_hat. rewrite enumerate_filter, (@restricted l c Hc). cbn [bind]. rewrite restricted_labels.
  set (c' := map (fun i => nth i c 0%nat) (layer_vertices l)). set (sg := subgraph g (layer_vertices l)).
  assert (Lc : length c' = vcount sg) by (unfold c'; rewrite map_length; reflexivity).
  destruct (C64_leiden_part sg c' (subgraph_wf g (layer_vertices l))) as [H _]. destruct (H Lc) as (p & -> & Em & _ & Q). cbn [bind]. f_equal.
  assert (Eq : forall gamma, part_quality p gamma = modularity sg gamma c').
  { intros gamma. rewrite <- (Q gamma (nodup Nat.eq_dec c')) by (apply nodup_labels; auto). unfold part_quality, quality_at. rewrite Em. reflexivity. }
  rewrite !Eq, !modularity_AP. replace (A_of sg c' - 0 * P_of sg c' - (A_of sg c' - 1 * P_of sg c')) with (P_of sg c') by ring.
  assert (Hd : forall i j, (i < length (layer_vertices l))%nat -> (j < length (layer_vertices l))%nat -> delta c' i j = delta c (nth i (layer_vertices l) 0%nat) (nth j (layer_vertices l) 0%nat)).
  { intros i j Hi Hj. unfold delta, c'. rewrite !(nth_indep (map _ _) 0%nat (nth 0 c 0%nat)) by (rewrite map_length; auto). rewrite !(map_nth (fun i => nth i c 0%nat)). reflexivity. }
  unfold P_of, layer_part. cbn [directed subgraph sg vcount].
  rewrite <- (sum_over _ (layer_vertices l) 0%nat). apply sum_to_ext. intros i Hi. rewrite <- (sum_over _ (layer_vertices l) 0%nat). apply sum_to_ext. intros j Hj.
  rewrite Hd by auto. unfold sg. rewrite sub_m, sub_k_in, !sub_k_out by auto. reflexivity.
Qed.

(** all layers together *)
Lemma sum_of_layers c gi gi' omega : rsum (map (layer_part c) (nodup Nat.eq_dec lv))
  = multilayer_modularity g gi lv 0 omega c - multilayer_modularity g gi' lv 1 omega c
    + omega * (sum_to (vcount gi') (fun i => sum_to (vcount gi') (fun j => adjacency gi' i j * delta c i j)) - sum_to (vcount gi) (fun i => sum_to (vcount gi) (fun j => adjacency gi i j * delta c i j))).
Proof.
  transitivity (sum_to (vcount g) (fun i => sum_to (vcount g) (fun j => layer_null g lv i j * delta c i j))).
  2:{ unfold multilayer_modularity. set (X := sum_to (vcount gi') _). set (Y := sum_to (vcount gi) _).
      transitivity (sum_to (vcount g) (fun i => sum_to (vcount g) (fun j => (adjacency g i j - 0 * layer_null g lv i j) * delta c i j)) - sum_to (vcount g) (fun i => sum_to (vcount g) (fun j => (adjacency g i j - 1 * layer_null g lv i j) * delta c i j))); [|ring].
      rewrite <- sum_to_minus. apply sum_to_ext. intros i _. rewrite <- sum_to_minus. apply sum_to_ext. intros j _. ring. }
  set (N := fun l i j => (if directed g then k_in g i * k_out g j / m_layer g lv l else k_out g i * k_out g j / (2 * m_layer g lv l)) * delta c i j).
  transitivity (rsum (map (fun l => sum_to (vcount g) (fun i => if Nat.eq_dec (nth i lv 0%nat) l then sum_to (vcount g) (fun j => if Nat.eqb l (nth j lv 0%nat) then N l i j else 0) else 0)) (nodup Nat.eq_dec lv))).
  { apply rsum_map_ext. intros l _. unfold layer_part. rewrite layer_sum. apply sum_to_ext. intros i _. destruct (Nat.eq_dec (nth i lv 0%nat) l) as [E|E]; [rewrite (proj2 (Nat.eqb_eq _ _)) by auto|rewrite (proj2 (Nat.eqb_neq _ _)) by auto; reflexivity]. apply layer_sum. }
  unfold sum_to at 1. change (fold_right Rplus 0) with rsum. rewrite (rsum_swap (fun l i => if Nat.eq_dec (nth i lv 0%nat) l then sum_to (vcount g) (fun j => if Nat.eqb l (nth j lv 0%nat) then N l i j else 0) else 0)).
  change (rsum (map (fun i => rsum (map (fun l => if Nat.eq_dec (nth i lv 0%nat) l then sum_to (vcount g) (fun j => if Nat.eqb l (nth j lv 0%nat) then N l i j else 0) else 0) (nodup Nat.eq_dec lv))) (seq 0 (vcount g))))
    with (sum_to (vcount g) (fun i => rsum (map (fun l => if Nat.eq_dec (nth i lv 0%nat) l then sum_to (vcount g) (fun j => if Nat.eqb l (nth j lv 0%nat) then N l i j else 0) else 0) (nodup Nat.eq_dec lv)))).
  apply sum_to_ext. intros i Hi. rewrite (@rsum_single _ Nat.eq_dec _ (nth i lv 0%nat) (fun l => sum_to (vcount g) (fun j => if Nat.eqb l (nth j lv 0%nat) then N l i j else 0))).
  2: apply NoDup_nodup.
  2:{ apply nodup_In, nth_In. lia. }
  apply sum_to_ext. intros j Hj. unfold N, layer_null, delta at 2. destruct (Nat.eqb_spec (nth i lv 0%nat) (nth j lv 0%nat)) as [E|E]; destruct (Nat.eq_dec (nth i lv 0%nat) (nth j lv 0%nat)); try contradiction; [destruct (directed g); ring|ring].
Qed.
End Layer.
