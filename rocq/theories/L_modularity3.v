(** Multilayer coefficients. *)
From Verif Require Import PyBase PyGraph M_partition M_pool M_champ Spec Spec_graph L_base L_canon L_modularity.
Set Implicit Arguments.
Open Scope R_scope.

Lemma np_add_fold rs : forall a, fold_left np_add (map Fin rs) (Fin a) = Fin (a + rsum rs).
Proof.
  induction rs as [|r rs IH]; simpl; intros a; rewrite ?rsum_nil, ?rsum_cons.
  - f_equal; lra.
  - rewrite IH. f_equal; lra.
Qed.

Lemma py_get_nth_lt {A} (l : list A) i d : (i < length l)%nat -> py_get l i = Ok (nth i l d).
Proof. apply py_get_ok. Qed.

Lemma ecount_loop lv (E : list (nat * nat)) : forall cnt,
  (forall u v, In (u, v) E -> (u < length lv)%nat) ->
  (forall l, In l lv -> (l < length cnt)%nat) ->
  exists cnt', foldM (fun cnt (e : nat * nat) => let! l := py_get lv (fst e) in py_update cnt l S) E cnt = Ok cnt' /\
    length cnt' = length cnt /\
    forall l, nth l cnt' 0%nat = (nth l cnt 0 + list_sum (map (fun e => b2n (nth (fst e) lv 0 =? l)) E))%nat.
Proof.
  induction E as [|[u v] E IH]; intros cnt Hu Hl; simpl.
  - exists cnt. repeat split; auto.
  - assert (Hulv : (u < length lv)%nat) by (eapply Hu; simpl; eauto).
    rewrite (py_get_ok lv 0%nat Hulv). cbn [bind].
    destruct (@py_update_ok nat S 0%nat cnt (nth u lv 0%nat)) as (cnt1 & -> & Hlen1 & Hn1).
    { apply Hl. apply nth_In; auto. }
    cbn [bind]. destruct (IH cnt1) as (cnt2 & -> & Hlen2 & Hn2).
    { intros a b Hab. eapply Hu; simpl; eauto. }
    { intros l Hlin. rewrite Hlen1. auto. }
    exists cnt2. split; auto. split; [lia|]. intros l. rewrite Hn2, Hn1.
    destruct (Nat.eq_dec (nth u lv 0%nat) l), (Nat.eqb_spec (nth u lv 0%nat) l); simpl; try congruence; lia.
Qed.

Definition layer_count (g : graph) (lv : list nat) (l : nat) : nat :=
  list_sum (map (fun e => b2n (nth (fst e) lv 0 =? l)%nat) (edges g)).

Lemma nth_repeat0 n l : nth l (repeat 0%nat n) 0%nat = 0%nat.
Proof. revert l; induction n; intros [|l]; simpl; auto. Qed.

Lemma ecount_per_layer_ok g lv : wf_graph g -> length lv = vcount g -> lv <> [] ->
  exists cnt, ecount_per_layer g lv = Ok cnt /\ (forall l, In l lv -> (l < length cnt)%nat) /\
    forall l, nth l cnt 0%nat = layer_count g lv l.
Proof.
  intros [Hw _] Hlen Hne. unfold ecount_per_layer. destruct (py_max_nonempty Hne) as [mx Hmx].
  rewrite Hmx. cbn [bind]. apply py_max_spec in Hmx as [_ Hmx].
  destruct (ecount_loop lv (edges g) (repeat 0%nat (mx + 1))) as (cnt & Hc & Hl & Hn).
  - intros u v Hin. rewrite Hlen. apply (Hw u v Hin).
  - intros l Hin. rewrite repeat_length. specialize (Hmx l Hin). lia.
  - exists cnt. split; auto. split.
    + intros l Hin. rewrite Hl, repeat_length. specialize (Hmx l Hin). lia.
    + intros l. rewrite Hn, nth_repeat0. reflexivity.
Qed.

Lemma layer_count_m g lv l : edges_within_layers g lv -> INR (layer_count g lv l) = m_layer g lv l.
Proof.
  unfold edges_within_layers, layer_count, m_layer. intros H. f_equal.
  induction (edges g) as [|[u v] E IH]; simpl; auto.
  rewrite IH by (intros; apply H; simpl; auto).
  pose proof (H u v (or_introl eq_refl)) as Huv. rewrite <- Huv.
  destruct (Nat.eqb_spec (nth u lv 0%nat) l); simpl; auto.
Qed.

Definition P3_of (g : graph) (lv c : list nat) : R :=
  sum_to (vcount g) (fun i => sum_to (vcount g) (fun j => layer_null g lv i j * delta c i j)).

Lemma multilayer_APC g gi lv gamma omega c :
  multilayer_modularity g gi lv gamma omega c = A_of g c - gamma * P3_of g lv c + omega * A_of gi c.
Proof.
  unfold multilayer_modularity, A_of, P3_of. f_equal.
  rewrite <- sum_to_scale. rewrite <- sum_to_minus.
  apply sum_to_ext; intros i Hi; rewrite <- sum_to_scale, <- sum_to_minus; apply sum_to_ext; intros j Hj; lra.
Qed.

(** Every layer that has a vertex has an intralayer edge. *)
Definition layers_have_edges (g : graph) (lv : list nat) : Prop :=
  forall l, In l lv -> exists u v, In (u, v) (edges g) /\ nth u lv 0%nat = l.

Lemma layer_count_pos g lv l : (exists u v, In (u, v) (edges g) /\ nth u lv 0%nat = l) -> (0 < layer_count g lv l)%nat.
Proof.
  intros (u & v & Hin & Hl). unfold layer_count. induction (edges g) as [|[a b] E IH]; simpl in *; [tauto|].
  destruct Hin as [E1|Hin].
  - inversion E1; subst. rewrite Nat.eqb_refl. simpl. lia.
  - specialize (IH Hin). lia.
Qed.

Definition key_dec : forall a b : nat * nat, {a = b} + {a <> b} := pair_dec.

Lemma layered_sum c lv d (f g : nat -> R) (w : nat -> R) : length c = length lv ->
  membership_to_layered_communities c lv = Ok d ->
  rsum (map (fun kv => rsum (map f (snd kv)) * rsum (map g (snd kv)) * w (snd (fst kv))) d) =
  sum_to (length c) (fun i => sum_to (length c) (fun j => f i * g j * w (nth i lv 0%nat) * delta lv i j * delta c i j)).
Proof.
  intros Hlen Hd. destruct (layered_communities_spec c lv) as (d' & Hd' & _ & H2 & H3 & H4); [lia|].
  rewrite Hd in Hd'. inversion Hd'; subst d'. clear Hd'.
  rewrite (grouped_sum key_dec (n := length c) (fun i => (nth i c 0%nat, nth i lv 0%nat)) d f g (fun k => w (snd k))).
  - apply sum_to_ext; intros i Hi. apply sum_to_ext; intros j Hj. cbn [snd]. unfold delta.
    destruct (key_dec (nth i c 0, nth i lv 0)%nat (nth j c 0, nth j lv 0)%nat) as [E|E], (Nat.eq_dec (nth i lv 0) (nth j lv 0))%nat as [E1|E1],
      (Nat.eq_dec (nth i c 0) (nth j c 0))%nat as [E2|E2]; try lra; exfalso; congruence.
  - exact H2.
  - intros i Hi. apply H3. exists i. auto.
  - intros k vs Hin h. rewrite (H4 k vs Hin), rsum_filter_seq. apply sum_to_ext. intros i Hi.
    destruct (pair_eqb _ k) eqn:E, (key_dec (nth i c 0, nth i lv 0)%nat k) as [E1|E1]; auto.
    + apply pair_eqb_eq in E. congruence.
    + subst k. assert (pair_eqb (nth i c 0, nth i lv 0)%nat (nth i c 0, nth i lv 0)%nat = true) by (apply pair_eqb_eq; auto).
      congruence.
Qed.

Lemma layered_in_range c lv d k vs : (length c <= length lv)%nat -> membership_to_layered_communities c lv = Ok d ->
  In (k, vs) d -> (forall v, In v vs -> (v < length c)%nat) /\ In (snd k) lv.
Proof.
  intros Hlen Hd Hin. destruct (layered_communities_spec c lv Hlen) as (d' & Hd' & _ & H2 & H3 & H4).
  rewrite Hd in Hd'. inversion Hd'; subst d'. split.
  - intros v Hv. rewrite (H4 k vs Hin) in Hv. apply filter_In in Hv as [Hv _]. apply in_seq in Hv. lia.
  - destruct (proj1 (H3 k)) as (v & Hv & ->); [apply in_map_iff; exists (k, vs); auto|].
    simpl. apply nth_In. lia.
Qed.

Lemma p_hat_3D_ok g lv cnt c : wf_graph g -> length lv = vcount g -> length c = vcount g ->
  edges_within_layers g lv -> layers_have_edges g lv ->
  (forall l, In l lv -> (l < length cnt)%nat) -> (forall l, nth l cnt 0%nat = layer_count g lv l) ->
  p_hat_3D g lv cnt c = Ok (Fin (P3_of g lv c)).
Proof.
  intros Hw Hlv Hc Hwithin Hhas Hcl Hcn. unfold p_hat_3D.
  destruct (layered_communities_spec c lv) as (d & Hd & _); [lia|]. rewrite Hd. cbn [bind].
  set (w := fun l => if directed g then / m_layer g lv l else / (2 * m_layer g lv l)).
  set (f := fun v => if directed g then INR (nth v (in_degrees g) 0%nat) else INR (nth v (all_degrees g) 0%nat)).
  set (h := fun v => if directed g then INR (nth v (out_degrees g) 0%nat) else INR (nth v (all_degrees g) 0%nat)).
  assert (Hm : forall l, In l lv -> INR (layer_count g lv l) = m_layer g lv l /\ m_layer g lv l > 0).
  { intros l Hl. rewrite <- layer_count_m by auto. split; auto. apply lt_0_INR, layer_count_pos. apply Hhas; auto. }
  rewrite (mapM_ok _ (fun kv => Fin (rsum (map f (snd kv)) * rsum (map h (snd kv)) * w (snd (fst kv))))).
  - cbn [bind]. rewrite <- (map_map (fun kv => rsum (map f (snd kv)) * rsum (map h (snd kv)) * w (snd (fst kv))) Fin).
    rewrite np_add_fold. f_equal. f_equal. rewrite Rplus_0_l.
    rewrite (layered_sum c lv f h w (eq_trans Hc (eq_sym Hlv)) Hd). rewrite Hc. unfold P3_of.
    apply sum_to_ext; intros i Hi. apply sum_to_ext; intros j Hj. f_equal. unfold layer_null, w, f, h, Rdiv.
    destruct (directed g) eqn:Edir.
    + rewrite (in_degrees_directed Hw Edir Hi), (out_degrees_directed Hw Edir Hj). reflexivity.
    + rewrite (all_degrees_undirected Hw Edir Hi), (all_degrees_undirected Hw Edir Hj). reflexivity.
  - intros [[kc kl] vs] Hin. destruct (@layered_in_range c lv d (kc, kl) vs ltac:(lia) Hd Hin) as [Hvs Hkl].
    cbn [snd fst] in *. destruct (Hm kl Hkl) as [Hm1 Hm2].
    destruct (directed g) eqn:Edir.
    + rewrite degree_sum_ok by (intros v Hv; rewrite in_degrees_length, <- Hc; auto).
      rewrite degree_sum_ok by (intros v Hv; rewrite out_degrees_length, <- Hc; auto).
      cbn [bind]. rewrite (py_get_ok cnt 0%nat) by auto. cbn [bind]. rewrite Hcn, Hm1. f_equal.
      unfold np_div. destruct (Req_EM_T _ 0) as [E|E]; [lra|]. f_equal.
      rewrite mult_INR, !INR_nth_sum. unfold w, f, h. reflexivity.
    + rewrite degree_sum_ok by (intros v Hv; rewrite all_degrees_length, <- Hc; auto).
      cbn [bind]. rewrite (py_get_ok cnt 0%nat) by auto. cbn [bind]. rewrite Hcn. f_equal.
      rewrite mult_INR, Hm1. replace (INR 2) with 2 by (simpl; lra).
      unfold np_div. destruct (Req_EM_T _ 0) as [E|E]; [lra|]. f_equal.
      rewrite pow_INR, !INR_nth_sum. unfold w, f, h, Rdiv. f_equal. simpl. lra.
Qed.

Lemma coefficients_3D_ok g gi lv parts : wf_graph g -> wf_graph gi -> length lv = vcount g -> lv <> [] ->
  edges_within_layers g lv -> layers_have_edges g lv -> (vcount gi <= vcount g)%nat ->
  (forall c, In c parts -> length c = vcount g) ->
  partition_coefficients_3D_serial g gi lv parts =
  Ok (map (A_of g) parts, map (fun c => Fin (P3_of g lv c)) parts, map (A_of gi) parts).
Proof.
  intros Hw Hwi Hlv Hne Hwithin Hhas Hgi Hlen. unfold partition_coefficients_3D_serial.
  rewrite (mapM_ok (internal_hat g) (A_of g)) by (intros c Hc; apply internal_hat_ok; auto; rewrite (Hlen c Hc); auto).
  cbn [bind]. destruct (ecount_per_layer_ok Hw Hlv Hne) as (cnt & Hcnt & H1 & H2). rewrite Hcnt. cbn [bind].
  rewrite (mapM_ok (p_hat_3D g lv cnt) (fun c => Fin (P3_of g lv c)))
    by (intros c Hc; apply p_hat_3D_ok; auto).
  cbn [bind].
  rewrite (mapM_ok (internal_hat gi) (A_of gi)) by (intros c Hc; apply internal_hat_ok; auto; rewrite (Hlen c Hc); auto).
  reflexivity.
Qed.
