(** Single-layer SBM estimates. *)
From Verif Require Import PyBase PyGraph M_partition M_champ M_leiden M_estimation_utils Spec Spec_graph Spec_leiden Spec_sbm L_base L_canon L_modularity L_modularity3 L_leiden L_split L_objective.
Set Implicit Arguments.
Open Scope R_scope.

Definition in_range_E (n : nat) (E : list wedge) : Prop := forall u v w, In ((u, v), w) E -> (u < n)%nat /\ (v < n)%nat.

Lemma w_arcs_cons e E i j : w_arcs (e :: E) i j = (if pair_dec (fst e) (i, j) then snd e else 0) + w_arcs E i j.
Proof. reflexivity. Qed.

Lemma sum_w_arcs n E (h : nat -> nat -> R) : in_range_E n E ->
  sum_to n (fun i => sum_to n (fun j => w_arcs E i j * h i j)) = rsum (map (fun e => snd e * h (fst (fst e)) (snd (fst e))) E).
Proof.
  intros Hr. induction E as [|[[u v] w] E IH].
  - apply sum_to_0. intros i _. apply sum_to_0. intros j _. unfold w_arcs. cbn. lra.
  - cbn [map]. rewrite rsum_cons, <- IH by (intros a b x H; apply (Hr a b x); right; auto). cbn [fst snd].
    destruct (Hr u v w) as [Hu Hv]; [left; auto|].
    transitivity (sum_to n (fun i => (if Nat.eq_dec u i then w * h i v else 0) + sum_to n (fun j => w_arcs E i j * h i j))).
    + apply sum_to_ext. intros i _.
      transitivity (sum_to n (fun j => (if Nat.eq_dec v j then (if Nat.eq_dec u i then w * h i j else 0) else 0) + w_arcs E i j * h i j)).
      * apply sum_to_ext. intros j _. rewrite w_arcs_cons. cbn [fst snd].
        destruct (pair_dec (u, v) (i, j)) as [Eq|N]; [inversion Eq; subst; destruct (Nat.eq_dec j j), (Nat.eq_dec i i); try congruence; ring|].
        destruct (Nat.eq_dec v j), (Nat.eq_dec u i); subst; try congruence; ring.
      * rewrite sum_to_plus. rewrite (@sum_to_single n v (fun j => if Nat.eq_dec u i then w * h i j else 0)); auto.
    + rewrite sum_to_plus. rewrite (@sum_to_single n u (fun i => w * h i v)); auto.
Qed.

Lemma sum_w_adj n E (h : nat -> nat -> R) : in_range_E n E ->
  sum_to n (fun i => sum_to n (fun j => w_adj E i j * h i j))
  = rsum (map (fun e => snd e * (h (fst (fst e)) (snd (fst e)) + h (snd (fst e)) (fst (fst e)))) E).
Proof.
  intros Hr. unfold w_adj.
  transitivity (sum_to n (fun i => sum_to n (fun j => w_arcs E i j * h i j)) + sum_to n (fun i => sum_to n (fun j => w_arcs E i j * h j i))).
  - rewrite (sum_to_swap n n (fun i j => w_arcs E i j * h j i)). rewrite <- sum_to_plus. apply sum_to_ext. intros i _.
    rewrite <- sum_to_plus. apply sum_to_ext. intros j _. ring.
  - rewrite (@sum_w_arcs n E h Hr), (@sum_w_arcs n E (fun i j => h j i) Hr), <- rsum_map_plus. apply rsum_map_ext. intros; ring.
Qed.

Definition total_w (E : list wedge) : R := rsum (map snd E).
Definition inner_w (E : list wedge) (c : list nat) : R := rsum (map (fun e => snd e * delta c (fst (fst e)) (snd (fst e))) E).
Definition kappa_w (E : list wedge) (c : list nat) (r : nat) : R :=
  rsum (map (fun e => snd e * (ind (Nat.eqb (nth (fst (fst e)) c 0%nat) r) + ind (Nat.eqb (nth (snd (fst e)) c 0%nat) r))) E).

Lemma total_strength_w n E : in_range_E n E -> total_strength n E = 2 * total_w E.
Proof.
  intros Hr. unfold total_strength, strength.
  transitivity (sum_to n (fun i => sum_to n (fun j => w_adj E i j * 1))).
  - apply sum_to_ext; intros i _; apply sum_to_ext; intros j _; ring.
  - rewrite (@sum_w_adj n E (fun _ _ => 1) Hr). unfold total_w. rewrite <- rsum_map_scale. apply rsum_map_ext. intros; ring.
Qed.

Lemma observed_within_w n E c : in_range_E n E -> observed_within n E c = 2 * inner_w E c.
Proof.
  intros Hr. unfold observed_within. rewrite (@sum_w_adj n E (delta c) Hr). unfold inner_w. rewrite <- rsum_map_scale.
  apply rsum_map_ext. intros e _. rewrite (delta_sym c (snd (fst e))). ring.
Qed.

Lemma kappa_strength n E c r : in_range_E n E -> kappa_w E c r = sum_to n (fun i => strength n E i * ind (Nat.eqb (nth i c 0%nat) r)).
Proof.
  intros Hr. unfold strength.
  transitivity (sum_to n (fun i => sum_to n (fun j => w_adj E i j * ind (Nat.eqb (nth i c 0%nat) r)))).
  - rewrite (@sum_w_adj n E (fun i _ => ind (Nat.eqb (nth i c 0%nat) r)) Hr). reflexivity.
  - apply sum_to_ext. intros i _. rewrite sum_to_scale_r. reflexivity.
Qed.

Lemma strength_pairs n E c K : in_range_E n E -> (forall v, (v < n)%nat -> (nth v c 0 < K)%nat) ->
  sum_to n (fun i => sum_to n (fun j => strength n E i * strength n E j * delta c i j)) = rsum (map (fun r => kappa_w E c r ^ 2) (seq 0 K)).
Proof.
  intros Hr Hl. rewrite <- (@product_sum c (seq 0 K) (seq_NoDup K 0) (strength n E) (strength n E) n).
  - apply rsum_map_ext. intros r _. rewrite (@kappa_strength n E c r Hr). cbn [pow]. ring.
  - intros v Hv. apply in_seq. specialize (Hl v Hv). lia.
Qed.

Lemma expected_within_w n E c K : in_range_E n E -> (forall v, (v < n)%nat -> (nth v c 0 < K)%nat) ->
  expected_within n E c = rsum (map (fun r => kappa_w E c r ^ 2) (seq 0 K)) / (2 * total_w E).
Proof.
  intros Hr Hl. rewrite <- (@strength_pairs n E c K Hr Hl). unfold expected_within, null_weight. rewrite (total_strength_w Hr).
  unfold Rdiv. rewrite <- sum_to_scale_r. apply sum_to_ext. intros i _. rewrite <- sum_to_scale_r. apply sum_to_ext. intros j _. ring.
Qed.

Lemma observed_split n E c : observed_within n E c + observed_between n E c = total_strength n E.
Proof.
  unfold observed_within, observed_between, total_strength, strength. rewrite <- sum_to_plus. apply sum_to_ext. intros i _.
  rewrite <- sum_to_plus. apply sum_to_ext. intros j _. ring.
Qed.

Lemma expected_split n E c : total_strength n E <> 0 -> expected_within n E c + expected_between n E c = total_strength n E.
Proof.
  intros Hz. unfold expected_within, expected_between. rewrite <- sum_to_plus.
  transitivity (sum_to n (fun i => strength n E i * (sum_to n (fun j => strength n E j / total_strength n E)))).
  - apply sum_to_ext. intros i _. rewrite <- sum_to_plus, <- sum_to_scale. apply sum_to_ext. intros j _. unfold null_weight, Rdiv. ring.
  - rewrite sum_to_scale_r. unfold Rdiv. rewrite sum_to_scale_r. change (sum_to n (strength n E)) with (total_strength n E).
    change (sum_to n (fun i => strength n E i)) with (total_strength n E). field. auto.
Qed.

(** ** The loops *)
Lemma py_update_map_seq (f : nat -> R) K i (h : R -> R) : (i < K)%nat ->
  py_update (map f (seq 0 K)) i h = Ok (map (fun r => if Nat.eqb i r then h (f r) else f r) (seq 0 K)).
Proof.
  intros Hi.
  assert (G : forall K s i, (i < K)%nat -> py_update (map f (seq s K)) i h = Ok (map (fun r => if Nat.eqb (s + i) r then h (f r) else f r) (seq s K))).
  { clear. induction K as [|K IH]; intros s i Hi; [lia|]. cbn [seq map]. destruct i as [|i]; cbn [py_update].
    - rewrite Nat.add_0_r, Nat.eqb_refl. f_equal. f_equal. apply map_ext_in. intros r Hr. apply in_seq in Hr. destruct (Nat.eqb_spec s r); [lia|auto].
    - rewrite IH by lia. cbn [bind]. f_equal. replace (s + S i)%nat with (S s + i)%nat by lia. f_equal. destruct (Nat.eqb_spec (S s + i) s); [lia|auto]. }
  apply (G K 0%nat i Hi).
Qed.

Section Loops.
Variables (n K : nat) (c : list nat).
Hypothesis Hlen : length c = n.
Hypothesis Hlab : forall v, (v < n)%nat -> (nth v c 0 < K)%nat.

Lemma strength_loop E : in_range_E n E -> forall f,
  foldM (add_strength c) E (map f (seq 0 K)) = Ok (map (fun r => f r + kappa_w E c r) (seq 0 K)).
Proof.
  intros Hr. induction E as [|[[u v] w] E IH]; intros f.
  - cbn. f_equal. apply map_ext. intros r. unfold kappa_w. cbn. rewrite rsum_nil. lra.
  - destruct (Hr u v w) as [Hu Hv]; [left; auto|]. cbn [foldM]. unfold add_strength at 1. cbn [fst snd].
    rewrite (@py_get_ok _ c u 0%nat), (@py_get_ok _ c v 0%nat) by lia. cbn [bind].
    rewrite py_update_map_seq by (apply Hlab; auto). cbn [bind]. rewrite py_update_map_seq by (apply Hlab; auto). cbn [bind].
    rewrite IH by (intros a b x H; apply (Hr a b x); right; auto). f_equal. apply map_ext. intros r.
    unfold kappa_w. cbn [map]. rewrite rsum_cons. cbn [fst snd]. unfold ind. destruct (Nat.eqb _ r), (Nat.eqb _ r); lra.
Qed.

Lemma kappa_loop E : in_range_E n E -> foldM (add_strength c) E (repeat 0 K) = Ok (map (kappa_w E c) (seq 0 K)).
Proof.
  intros Hr. replace (repeat 0 K) with (map (fun _ : nat => 0) (seq 0 K)).
  - rewrite strength_loop by auto. f_equal. apply map_ext. intros; lra.
  - clear. assert (G : forall s, map (fun _ : nat => 0) (seq s K) = repeat 0 K) by (induction K; intros; simpl; f_equal; auto). apply G.
Qed.

Lemma inner_loop E : in_range_E n E -> exists l, mapM (internal_weight c) E = Ok l /\ rsum l = inner_w E c.
Proof.
  intros Hr. exists (map (fun e => snd e * delta c (fst (fst e)) (snd (fst e))) E). split; [|reflexivity].
  apply mapM_ok. intros [[u v] w] Hin. destruct (Hr u v w Hin). unfold internal_weight. cbn [fst snd].
  rewrite same_label_ok by (cbn; lia). cbn [bind fst snd]. f_equal. rewrite delta_b2n. destruct (Nat.eqb _ _); reflexivity.
Qed.
End Loops.

Lemma sum_squares_map f (l : list nat) : sum_squares (map f l) = rsum (map (fun r => f r ^ 2) l).
Proof. unfold sum_squares. rewrite map_map. reflexivity. Qed.

Lemma range_E_of g ws : wf_graph g -> in_range_E (vcount g) (combine (edges g) ws).
Proof. intros Hwf u v w Hin. apply in_combine_l in Hin. apply Hwf in Hin. auto. Qed.

Lemma total_w_combine g ws : length ws = length (edges g) -> total_w (combine (edges g) ws) = rsum ws.
Proof.
  unfold total_w. generalize (edges g). intros es. revert ws. induction es as [|e es IH]; intros [|w ws] H; simpl in *; try discriminate; auto.
  rewrite !rsum_cons. f_equal. apply IH. lia.
Qed.

(** Exact outcome of the single-layer estimate. *)
Definition sbm_outcome (n : nat) (E : list wedge) (K : nat) (c : list nat) : res (R * R) :=
  if Req_EM_T (total_strength n E) 0 then Raise ZeroDivisionError
  else if Req_EM_T (expected_within n E c) 0 then Raise ZeroDivisionError
  else if Nat.ltb 1 K then
    (if Req_EM_T (expected_between n E c) 0 then Raise ZeroDivisionError
     else Ok (observed_within n E c / expected_within n E c, observed_between n E c / expected_between n E c))
  else Ok (observed_within n E c / expected_within n E c, 0).

Lemma estimate_single g ws c K m : wf_graph g -> weights g = Some ws -> length c = vcount g ->
  (forall v, (v < vcount g)%nat -> (nth v c 0 < K)%nat) -> m = None \/ m = Some (rsum ws) ->
  estimate_singlelayer_SBM_parameters g (mkPart K c) m = sbm_outcome (vcount g) (weighted_edges g ws) K c.
Proof.
  intros Hwf Hw Hlen Hlab Hm. unfold estimate_singlelayer_SBM_parameters.
  assert (Em : (match m with Some m0 => Ok m0 | None => match weights g with Some ws0 => Ok (rsum ws0) | None => Raise KeyError end end) = Ok (rsum ws)).
  { destruct Hm as [->| ->]; rewrite ?Hw; auto. }
  rewrite Em. cbn [bind]. unfold wedges. rewrite Hw. cbn [bind part_membership part_len].
  pose proof (@range_E_of g ws Hwf) as Hr. fold (weighted_edges g ws) in Hr |- *. set (E := weighted_edges g ws) in *.
  destruct (@inner_loop (vcount g) c Hlen E Hr) as (l & -> & Hl). cbn [bind].
  rewrite (@kappa_loop (vcount g) K c Hlen Hlab E Hr). cbn [bind]. rewrite Hl, sum_squares_map.
  assert (Et : rsum ws = total_w E) by (symmetry; apply total_w_combine, (proj2 Hwf); auto). rewrite Et.
  pose proof (total_strength_w Hr) as Ets. pose proof (@expected_within_w _ _ c K Hr Hlab) as Eew. pose proof (@observed_within_w _ _ c Hr) as Eow.
  pose proof (observed_split (vcount g) E c) as Sob.
  unfold py_div. unfold sbm_outcome. destruct (Req_EM_T (2 * total_w E) 0) as [Z|NZ], (Req_EM_T (total_strength (vcount g) E) 0) as [Z'|NZ']; try (exfalso; lra); [reflexivity|]. cbn [bind].
  rewrite <- Eew, <- Eow. destruct (Req_EM_T (expected_within (vcount g) E c) 0); [reflexivity|]. cbn [bind].
  destruct (Nat.ltb 1 K); [|reflexivity]. pose proof (@expected_split (vcount g) E c ltac:(lra)) as Sex.
  replace (2 * total_w E - expected_within (vcount g) E c) with (expected_between (vcount g) E c) by lra.
  replace (2 * total_w E - observed_within (vcount g) E c) with (observed_between (vcount g) E c) by lra.
  destruct (Req_EM_T (expected_between (vcount g) E c) 0); reflexivity.
Qed.
