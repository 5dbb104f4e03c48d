(** Everything depends on the graph only through its adjacency matrix. *)
From Verif Require Import PyBase PyGraph M_partition M_pool M_champ M_estimation_utils Spec Spec_leiden Spec_graph Spec_adjacency Spec_champ Spec_sbm Spec_prune
  Spec_multisbm Spec_check Spec_valid
  L_base L_canon L_leiden L_modularity L_modularity3 L_champ L_champ2 L_champ3 L_sbm L_sbm2 L_multisbm L_prune L_accepted.
Set Implicit Arguments.
Open Scope R_scope.

Definition side (g : graph) : R := if directed g then 1 else 2.

Lemma total_adjacency g : wf_graph g -> sum_to (vcount g) (fun i => sum_to (vcount g) (fun j => adjacency g i j)) = side g * m_edges g.
Proof.
  intros W. transitivity (sum_to (vcount g) (fun i => sum_to (vcount g) (fun j => adjacency g i j * 1))).
  { apply sum_to_ext; intros i _. apply sum_to_ext; intros j _. lra. }
  rewrite (@sum_adjacency g (fun _ _ => 1) W). unfold side, m_edges. destruct (directed g).
  - induction (edges g) as [|e E IH]; [cbn; unfold rsum; cbn; lra|]. cbn [map length]. rewrite rsum_cons, S_INR, IH. lra.
  - induction (edges g) as [|e E IH]; [cbn; unfold rsum; cbn; lra|]. cbn [map length]. rewrite rsum_cons, S_INR, IH. lra.
Qed.

Lemma m_layer_adjacency g lv t : wf_graph g -> edges_within_layers g lv ->
  sum_to (vcount g) (fun i => sum_to (vcount g) (fun j => adjacency g i j * (if Nat.eqb (nth i lv 0%nat) t then 1 else 0))) = side g * m_layer g lv t.
Proof.
  intros W H. rewrite (@sum_adjacency g (fun i _ => if Nat.eqb (nth i lv 0%nat) t then 1 else 0) W).
  unfold side, m_layer. unfold edges_within_layers in H.
  assert (Q : rsum (map (fun e => if directed g then (if Nat.eqb (nth (fst e) lv 0%nat) t then 1 else 0)
     else (if Nat.eqb (nth (fst e) lv 0%nat) t then 1 else 0) + (if Nat.eqb (nth (snd e) lv 0%nat) t then 1 else 0)) (edges g))
     = (if directed g then 1 else 2) * INR (length (filter (fun e => Nat.eqb (nth (fst e) lv 0%nat) t && Nat.eqb (nth (snd e) lv 0%nat) t) (edges g)))); [|exact Q].
  clear W. induction (edges g) as [|[u v] E IH]; [cbn; unfold rsum; cbn; destruct (directed g); lra|]. cbn [map filter fst snd]. rewrite rsum_cons.
  rewrite IH by (intros; apply H; right; auto). rewrite <- (H u v (or_introl eq_refl)).
  destruct (Nat.eqb (nth u lv 0%nat) t); cbn [andb length]; rewrite ?S_INR; destruct (directed g); lra.
Qed.

Lemma arcs_pos E i j : 0 < arcs E i j <-> In (i, j) E.
Proof.
  unfold arcs. rewrite (count_occ_In pair_dec). split.
  - intros H. apply INR_lt. cbn. lra.
  - intros H. apply lt_INR in H. cbn in H. lra.
Qed.
Lemma arcs_nonneg E i j : 0 <= arcs E i j.
Proof. unfold arcs. apply pos_INR. Qed.

Lemma adjacency_pos g i j : 0 < adjacency g i j <-> In (i, j) (edges g) \/ (directed g = false /\ In (j, i) (edges g)).
Proof.
  unfold adjacency. pose proof (arcs_nonneg (edges g) i j). pose proof (arcs_nonneg (edges g) j i). pose proof (arcs_pos (edges g) i j) as P1. pose proof (arcs_pos (edges g) j i) as P2.
  destruct (directed g).
  - rewrite P1. intuition discriminate.
  - split.
    + intros Q. destruct (Rlt_dec 0 (arcs (edges g) i j)) as [L|L]; [left; apply P1; auto|]. right. split; auto. apply P2. lra.
    + intros [Q|[_ Q]]; [apply P1 in Q|apply P2 in Q]; lra.
Qed.

Section Same.
Variables (g g' : graph) (W : wf_graph g) (W' : wf_graph g') (S : same_adjacency g g').
Let n := vcount g.

Lemma sa_n : vcount g' = n. Proof. apply S. Qed.
Lemma sa_adj i j : (i < n)%nat -> (j < n)%nat -> adjacency g' i j = adjacency g i j. Proof. apply S. Qed.

Lemma sa_sum h : sum_to n (fun i => sum_to n (fun j => adjacency g' i j * h i j)) = sum_to n (fun i => sum_to n (fun j => adjacency g i j * h i j)).
Proof. apply sum_to_ext; intros i Hi. apply sum_to_ext; intros j Hj. rewrite sa_adj; auto. Qed.

Lemma sa_total : side g' * m_edges g' = side g * m_edges g.
Proof.
  rewrite <- (total_adjacency W), <- (total_adjacency W'), sa_n. apply sum_to_ext; intros i Hi. apply sum_to_ext; intros j Hj. apply sa_adj; auto.
Qed.

Lemma sa_k_out i : (i < n)%nat -> k_out g' i = k_out g i.
Proof. intros Hi. unfold k_out. rewrite sa_n. apply sum_to_ext; intros j Hj. apply sa_adj; auto. Qed.
Lemma sa_k_in i : (i < n)%nat -> k_in g' i = k_in g i.
Proof. intros Hi. unfold k_in. rewrite sa_n. apply sum_to_ext; intros j Hj. apply sa_adj; auto. Qed.

Lemma adjacency_sym h i j : directed h = false -> adjacency h i j = adjacency h j i.
Proof. intros D. unfold adjacency. rewrite D. lra. Qed.
Lemma sa_sym i j : (i < n)%nat -> (j < n)%nat -> directed g = false \/ directed g' = false -> adjacency g i j = adjacency g j i.
Proof. intros Hi Hj [D|D]; [apply adjacency_sym; auto|]. rewrite <- !sa_adj by auto. apply adjacency_sym; auto. Qed.
Lemma sa_k_sym i : (i < n)%nat -> directed g = false \/ directed g' = false -> k_in g i = k_out g i.
Proof. intros Hi D. unfold k_in, k_out. apply sum_to_ext; intros j Hj. apply sa_sym; auto. Qed.

Lemma sa_A c : A_of g' c = A_of g c.
Proof. unfold A_of. rewrite sa_n. apply sa_sum. Qed.

Lemma sa_null x x' i j : (i < n)%nat -> (j < n)%nat -> side g' * x' = side g * x ->
  (if directed g' then k_in g' i * k_out g' j / x' else k_out g' i * k_out g' j / (2 * x')) = (if directed g then k_in g i * k_out g j / x else k_out g i * k_out g j / (2 * x)).
Proof.
  intros Hi Hj E. rewrite !sa_k_out, !sa_k_in by auto. unfold side in E. pose proof (sa_k_sym Hi) as Y.
  destruct (directed g), (directed g').
  - rewrite Rmult_1_l, Rmult_1_l in E. rewrite E. reflexivity.
  - rewrite Y by auto. rewrite E, Rmult_1_l. reflexivity.
  - rewrite Y by auto. rewrite <- E, Rmult_1_l. reflexivity.
  - rewrite E. reflexivity.
Qed.

Lemma sa_P c : P_of g' c = P_of g c.
Proof.
  unfold P_of. rewrite sa_n. apply sum_to_ext; intros i Hi. apply sum_to_ext; intros j Hj. f_equal. apply sa_null; auto. apply sa_total.
Qed.

Lemma sa_modularity gamma c : modularity g' gamma c = modularity g gamma c.
Proof. rewrite !modularity_AP, sa_A, sa_P. reflexivity. Qed.

Lemma sa_edges : edges g <> [] -> edges g' <> [].
Proof.
  intros Ne Ne'. pose proof sa_total as T. pose proof (m_edges_pos _ Ne) as P. assert (m_edges g' = 0) by (unfold m_edges; rewrite Ne'; reflexivity).
  unfold side in T. destruct (directed g), (directed g'); lra.
Qed.

Lemma sa_edge u v : In (u, v) (edges g') -> exists a b, In (a, b) (edges g) /\ ((a = u /\ b = v) \/ (a = v /\ b = u)).
Proof.
  intros H. assert (P : 0 < adjacency g' u v) by (apply adjacency_pos; auto). destruct W' as [Wv _]. destruct (Wv u v H) as [Hu Hv]. rewrite sa_n in Hu, Hv.
  rewrite sa_adj in P by auto. apply adjacency_pos in P as [P|[_ P]]; eauto 10.
Qed.

Variable lv : list nat.
Lemma sa_within : edges_within_layers g lv -> edges_within_layers g' lv.
Proof. intros H u v Huv. destruct (@sa_edge u v Huv) as (a & b & E & [[-> ->]|[-> ->]]); apply H in E; auto. Qed.

Lemma sa_has : edges_within_layers g lv -> (forall l, In l lv -> exists u v, In (u, v) (edges g) /\ nth u lv 0%nat = l) ->
  forall l, In l lv -> exists u v, In (u, v) (edges g') /\ nth u lv 0%nat = l.
Proof.
  intros Hw H l Hl. destruct (H l Hl) as (u & v & E & L). assert (P : 0 < adjacency g u v) by (apply adjacency_pos; auto).
  destruct W as [Wv _]. destruct (Wv u v E) as [Hu Hv]. rewrite <- sa_adj in P by auto. apply adjacency_pos in P as [P|[_ P]]; [eauto|].
  exists v, u. split; auto. rewrite <- (Hw u v E). auto.
Qed.

Hypothesis (Hw : edges_within_layers g lv).
Lemma sa_m_layer t : side g' * m_layer g' lv t = side g * m_layer g lv t.
Proof. rewrite <- (m_layer_adjacency t W Hw), <- (m_layer_adjacency t W' (sa_within Hw)), sa_n. apply (sa_sum (fun i _ => if Nat.eqb (nth i lv 0%nat) t then 1 else 0)). Qed.

Lemma sa_P3 c : P3_of g' lv c = P3_of g lv c.
Proof.
  unfold P3_of. rewrite sa_n. apply sum_to_ext; intros i Hi. apply sum_to_ext; intros j Hj. f_equal. unfold layer_null. f_equal. apply sa_null; auto. apply sa_m_layer.
Qed.
Lemma sa_multilayer gi gamma omega c : multilayer_modularity g' gi lv gamma omega c = multilayer_modularity g gi lv gamma omega c.
Proof. rewrite !multilayer_APC, sa_A, sa_P3. reflexivity. Qed.

(** weighted by ones *)
Lemma w_arcs_ones E i j : w_arcs (combine E (repeat 1 (length E))) i j = arcs E i j.
Proof.
  unfold w_arcs, arcs. induction E as [|e E IH]; [reflexivity|]. cbn [length repeat combine map fold_right fst snd count_occ]. rewrite IH.
  destruct (pair_dec e (i, j)); [rewrite S_INR|]; lra.
Qed.

Lemma w_adj_ones h i j : side h * w_adj (combine (edges h) (repeat 1 (length (edges h)))) i j = adjacency h i j + adjacency h j i.
Proof. unfold w_adj, side, adjacency. rewrite !w_arcs_ones. destruct (directed h); lra. Qed.

Lemma side_pos h : 0 < side h.
Proof. unfold side. destruct (directed h); lra. Qed.

Let ones (h : graph) : list wedge := combine (edges h) (repeat 1 (length (edges h))).
Definition sa_scale : R := side g / side g'.
Lemma sa_scale_pos : 0 < sa_scale.
Proof. apply Rdiv_lt_0_compat; apply side_pos. Qed.

Lemma sa_w_adj i j : (i < n)%nat -> (j < n)%nat -> w_adj (ones g') i j = sa_scale * w_adj (ones g) i j.
Proof.
  intros Hi Hj. unfold sa_scale. pose proof (side_pos g). pose proof (side_pos g'). pose proof (w_adj_ones g i j) as A. pose proof (w_adj_ones g' i j) as B.
  fold (ones g) in A. fold (ones g') in B. rewrite !sa_adj in B by auto. rewrite <- A in B. apply (Rmult_eq_reg_l (side g')); [|lra]. rewrite B. field. lra.
Qed.

Lemma w_adj_layer h t i j : edges_within_layers h lv -> w_adj (layer_edges (ones h) lv t) i j = (if Nat.eqb (nth i lv 0%nat) t then w_adj (ones h) i j else 0).
Proof.
  intros H. rewrite !w_adj_rsum. unfold layer_edges.
  assert (H' : forall u v w, In ((u, v), w) (ones h) -> nth u lv 0%nat = nth v lv 0%nat) by (intros u v w Hin; apply in_combine_l in Hin; apply H; auto).
  clear H. induction (ones h) as [|[[u v] w] E IH].
  - cbn [filter map]. rewrite rsum_nil. destruct (Nat.eqb _ _); lra.
  - cbn [filter map fst snd]. pose proof (H' u v w (or_introl eq_refl)) as Huv. rewrite rsum_cons.
    assert (IH' := IH (fun a b x Hin => H' a b x (or_intror Hin))). clear IH.
    destruct (Nat.eqb_spec (nth u lv 0%nat) t) as [Et|Nt]; cbn [map fst snd]; rewrite ?rsum_cons, IH';
      destruct (Nat.eqb_spec (nth i lv 0%nat) t) as [Ei|Ni], (pair_dec (u, v) (i, j)) as [E1|E1], (pair_dec (u, v) (j, i)) as [E2|E2];
      try lra; try (inversion E1; subst; congruence); try (inversion E2; subst; congruence).
Qed.

Lemma sa_layer_adj t i j : (i < n)%nat -> (j < n)%nat -> w_adj (layer_edges (ones g') lv t) i j = sa_scale * w_adj (layer_edges (ones g) lv t) i j.
Proof.
  intros Hi Hj. rewrite w_adj_layer by (apply sa_within; exact Hw). rewrite w_adj_layer by exact Hw. destruct (Nat.eqb _ _); [apply sa_w_adj; auto|lra].
Qed.

Lemma ones_range h : wf_graph h -> in_range_E (vcount h) (ones h).
Proof. intros Wh. apply range_E_of. auto. Qed.

Lemma sa_weight_in t : weight_in (ones g') lv t = sa_scale * weight_in (ones g) lv t.
Proof.
  assert (R1 : in_range_E n (layer_edges (ones g) lv t)) by (apply layer_range, ones_range; exact W).
  assert (R2 : in_range_E n (layer_edges (ones g') lv t)) by (rewrite <- sa_n; apply layer_range, ones_range; exact W').
  pose proof (@total_scale n (layer_edges (ones g) lv t) (layer_edges (ones g') lv t) sa_scale (@sa_layer_adj t)) as Ts.
  rewrite (total_strength_w R1), (total_strength_w R2) in Ts. change (weight_in (ones g') lv t) with (total_w (layer_edges (ones g') lv t)). change (weight_in (ones g) lv t) with (total_w (layer_edges (ones g) lv t)). lra.
Qed.

Lemma sa_valid gi model : valid_multilayer g gi (repeat 1 (length (edges g))) lv model -> valid_multilayer g' gi (repeat 1 (length (edges g'))) lv model.
Proof.
  unfold valid_multilayer, structural_rules. rewrite !Forall_cons_iff. cbn [fst]. rewrite !sa_n. fold n. unfold weighted_edges. fold (ones g). fold (ones g').
  intros (A1 & A2 & A3 & A4 & A5 & A6 & A7). split; auto. split; auto. split; auto. split; auto. split; [|split; [apply sa_within; auto|exact A7]].
  intros m Hm. apply in_map_iff in Hm as (t & <- & Ht). rewrite sa_weight_in. apply Rmult_lt_0_compat; [apply sa_scale_pos|]. apply A5. apply in_map_iff. eauto.
Qed.

Section Sums.
Variables (c : list nat) (T : nat).
Hypothesis (Htot : forall t, (t < T)%nat -> total_strength n (layer_edges (ones g) lv t) <> 0).
Lemma sa_sums :
  observed_within_layers n (ones g') lv T c = sa_scale * observed_within_layers n (ones g) lv T c /\
  expected_within_layers n (ones g') lv T c = sa_scale * expected_within_layers n (ones g) lv T c /\
  observed_between_layers n (ones g') lv T c = sa_scale * observed_between_layers n (ones g) lv T c /\
  expected_between_layers n (ones g') lv T c = sa_scale * expected_between_layers n (ones g) lv T c.
Proof.
  unfold observed_within_layers, expected_within_layers, observed_between_layers, expected_between_layers.
  rewrite <- !sum_to_scale. repeat split; apply sum_to_ext; intros t Ht.
  - apply (@observed_scale n _ _ sa_scale (@sa_layer_adj t) (delta c) (delta c)). auto.
  - apply (@expected_scale n _ _ sa_scale) with (h := delta c) (h' := delta c); auto; [pose proof sa_scale_pos; lra|apply sa_layer_adj].
  - apply (@observed_scale n _ _ sa_scale (@sa_layer_adj t) (fun i j => 1 - delta c i j) (fun i j => 1 - delta c i j)). auto.
  - apply (@expected_scale n _ _ sa_scale) with (h := fun i j => 1 - delta c i j) (h' := fun i j => 1 - delta c i j); auto; [pose proof sa_scale_pos; lra|apply sa_layer_adj].
Qed.
End Sums.
End Same.

Lemma persistence_fun model gi lv N T c x y : is_persistence model gi lv N T c x -> is_persistence model gi lv N T c y -> x = y.
Proof. unfold is_persistence. intros [[A ->]|[[A ->]|[A ->]]] [[B ->]|[[B ->]|[B ->]]]; congruence. Qed.
Lemma copying_fun fs model K T pers p q : is_copying_probability fs model K T pers p -> is_copying_probability fs model K T pers q -> p = q.
Proof.
  unfold is_copying_probability. intros [[[A|A] ->]|[(A & A1 & A2 & ->)|(A & A1 & A2 & ->)]] [[[B|B] ->]|[(B & B1 & B2 & ->)|(B & B1 & B2 & ->)]]; auto; exfalso; try lra; try lia; congruence.
Qed.

(** ** The loops over ranges and domains *)
Lemma ranges_loop env : forall ranges g, wf_graph g ->
  snd (ranges_to_gamma_estimates env g ranges) = mapM (fun r => let! x := snd (gamma_estimate env g (Membership (snd r))) in Ok (r, x)) ranges.
Proof.
  unfold ranges_to_gamma_estimates. induction ranges as [|r l IH]; intros g Hw; [reflexivity|]. cbn [mapG mapM].
  destruct (gamma_estimate env g (Membership (snd r))) as [g1 est] eqn:E.
  assert (g1 = weighted_e env g) by (rewrite gamma_estimate_graph in E by auto; inversion E; auto). subst g1. cbn [snd].
  destruct est as [x|e]; cbn [bind]; [|reflexivity].
  specialize (IH (weighted_e env g) (weighted_e_wf env Hw)). destruct (mapG _ (weighted_e env g) l) as [g2 rs]. cbn [snd] in *. rewrite IH.
  rewrite (mapM_ext _ (fun r => let! x := snd (gamma_estimate env g (Membership (snd r))) in Ok (r, x)) l); [reflexivity|].
  intros r' _. rewrite gamma_estimate_twice by auto. reflexivity.
Qed.

Lemma domains_loop env gi lv model : forall domains g,
  snd (domains_to_gamma_omega_estimates env g gi lv domains model)
  = mapM (fun d => let! x := snd (gamma_omega_estimate env g gi lv (snd d) 1000 model None None None None) in Ok (fst d, snd d, fst x, Some (snd x))) domains.
Proof.
  unfold domains_to_gamma_omega_estimates. induction domains as [|d l IH]; intros g; [reflexivity|]. cbn [mapG mapM].
  destruct (gamma_omega_estimate env g gi lv (snd d) 1000 model None None None None) as [g1 est] eqn:E. cbn [snd].
  destruct est as [x|e]; cbn [bind]; [|reflexivity]. pose proof (@gamma_omega_graph _ _ _ _ _ _ _ _ _ _ _ _ _ E) as ->.
  specialize (IH (weighted_e env g)). destruct (mapG _ (weighted_e env g) l) as [g2 rs]. cbn [snd] in *. rewrite IH.
  rewrite (mapM_ext _ (fun d => let! x := snd (gamma_omega_estimate env g gi lv (snd d) 1000 model None None None None) in Ok (fst d, snd d, fst x, Some (snd x))) l); [reflexivity|].
  intros d' _. rewrite gamma_omega_twice. reflexivity.
Qed.
