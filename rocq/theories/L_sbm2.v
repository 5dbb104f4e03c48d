(** Invariance and definedness of the single-layer estimates; gamma_estimate. *)
From Verif Require Import PyBase PyGraph M_partition M_champ M_leiden M_estimation_utils Spec Spec_graph Spec_leiden Spec_sbm L_base L_canon L_modularity L_modularity3 L_leiden L_split L_multileiden L_objective L_sbm L_logmean.
From Coq Require Import Classical.
Set Implicit Arguments.
Open Scope R_scope.

(** ** Invariance *)
Lemma delta_same c c' n i j : same_partition c c' -> length c = n -> (i < n)%nat -> (j < n)%nat -> delta c i j = delta c' i j.
Proof.
  intros [Hl H] Hn Hi Hj. unfold delta.
  specialize (H i j (nth i c 0%nat) (nth j c 0%nat) (nth i c' 0%nat) (nth j c' 0%nat)).
  assert (nth i c 0%nat = nth j c 0%nat <-> nth i c' 0%nat = nth j c' 0%nat) by (apply H; apply nth_error_nth'; lia).
  destruct (Nat.eq_dec (nth i c 0%nat) (nth j c 0%nat)), (Nat.eq_dec (nth i c' 0%nat) (nth j c' 0%nat)); tauto.
Qed.

Section Invariance.
Variables (n K : nat) (E E' : list wedge) (c c' : list nat) (s : R).
Hypothesis Hs : s <> 0.
Hypothesis Hadj : forall i j, (i < n)%nat -> (j < n)%nat -> w_adj E' i j = s * w_adj E i j.
Hypothesis Hsame : same_partition c c'.
Hypothesis Hlen : length c = n.

Lemma strength_scale i : (i < n)%nat -> strength n E' i = s * strength n E i.
Proof. intros Hi. unfold strength. rewrite <- sum_to_scale. apply sum_to_ext. intros j Hj. apply Hadj; auto. Qed.
Lemma total_scale : total_strength n E' = s * total_strength n E.
Proof. unfold total_strength. rewrite <- sum_to_scale. apply sum_to_ext. intros i Hi. apply strength_scale; auto. Qed.

Lemma observed_scale h h' : (forall i j, (i < n)%nat -> (j < n)%nat -> h i j = h' i j) ->
  sum_to n (fun i => sum_to n (fun j => w_adj E' i j * h' i j)) = s * sum_to n (fun i => sum_to n (fun j => w_adj E i j * h i j)).
Proof.
  intros Hh. rewrite <- sum_to_scale. apply sum_to_ext; intros i Hi. rewrite <- sum_to_scale. apply sum_to_ext; intros j Hj.
  rewrite Hadj, Hh by auto. ring.
Qed.
Lemma expected_scale h h' : (forall i j, (i < n)%nat -> (j < n)%nat -> h i j = h' i j) -> total_strength n E <> 0 ->
  sum_to n (fun i => sum_to n (fun j => null_weight n E' i j * h' i j)) = s * sum_to n (fun i => sum_to n (fun j => null_weight n E i j * h i j)).
Proof.
  intros Hh Hz. rewrite <- sum_to_scale. apply sum_to_ext; intros i Hi. rewrite <- sum_to_scale. apply sum_to_ext; intros j Hj.
  unfold null_weight. rewrite !strength_scale, total_scale, Hh by auto. field. auto.
Qed.

Lemma sbm_outcome_scale : sbm_outcome n E' K c' = sbm_outcome n E K c.
Proof.
  unfold sbm_outcome. pose proof total_scale as T.
  destruct (Req_EM_T (total_strength n E') 0) as [Z'|N'], (Req_EM_T (total_strength n E) 0) as [Z|N]; auto.
  { exfalso. apply N. apply (Rmult_eq_reg_l s); auto. lra. }
  { exfalso. apply N'. rewrite T, Z. ring. }
  assert (Hd : forall i j, (i < n)%nat -> (j < n)%nat -> delta c i j = delta c' i j) by (intros; apply (@delta_same c c' n); auto).
  assert (Hd1 : forall i j, (i < n)%nat -> (j < n)%nat -> (fun i j => 1 - delta c i j) i j = (fun i j => 1 - delta c' i j) i j) by (intros; cbn; rewrite Hd; auto).
  assert (E1 : observed_within n E' c' = s * observed_within n E c) by (apply observed_scale; auto).
  assert (E2 : observed_between n E' c' = s * observed_between n E c) by (apply (observed_scale _ _ Hd1)).
  assert (E3 : expected_within n E' c' = s * expected_within n E c) by (apply expected_scale; auto).
  assert (E4 : expected_between n E' c' = s * expected_between n E c) by (apply (expected_scale _ _ Hd1 N)).
  rewrite E1, E2, E3, E4.
  assert (Zs : forall x, s * x = 0 <-> x = 0) by (intros x; split; [intros H; apply (Rmult_eq_reg_l s); auto; lra|intros ->; ring]).
  assert (Dz : forall (A : Type) x (u v : A), (if Req_EM_T (s * x) 0 then u else v) = (if Req_EM_T x 0 then u else v)).
  { intros A x u v. pose proof (Zs x). destruct (Req_EM_T (s * x) 0), (Req_EM_T x 0); tauto. }
  rewrite !Dz. destruct (Req_EM_T (expected_within n E c) 0) as [|N3]; auto.
  assert (Q1 : s * observed_within n E c / (s * expected_within n E c) = observed_within n E c / expected_within n E c) by (field; auto). rewrite Q1.
  destruct (Nat.ltb 1 K); auto. destruct (Req_EM_T (expected_between n E c) 0) as [|N4]; auto.
  assert (Q2 : s * observed_between n E c / (s * expected_between n E c) = observed_between n E c / expected_between n E c) by (field; auto). rewrite Q2. auto.
Qed.
End Invariance.

Lemma w_arcs_rsum E i j : w_arcs E i j = rsum (map (fun ew => if pair_dec (fst ew) (i, j) then snd ew else 0) E).
Proof. reflexivity. Qed.

Lemma w_adj_rsum E i j : w_adj E i j = rsum (map (fun ew => (if pair_dec (fst ew) (i, j) then snd ew else 0) + (if pair_dec (fst ew) (j, i) then snd ew else 0)) E).
Proof. unfold w_adj. rewrite !w_arcs_rsum, <- rsum_map_plus. reflexivity. Qed.

Lemma w_adj_perm E E' i j : Permutation E E' -> w_adj E i j = w_adj E' i j.
Proof. intros H. rewrite !w_adj_rsum. apply rsum_perm, Permutation_map, H. Qed.


Lemma w_adj_flip E E' i j : Forall2 flipped E E' -> w_adj E i j = w_adj E' i j.
Proof.
  intros H. rewrite !w_adj_rsum. induction H as [|[e w] [[u v] w'] E E' [Hw He] H IH]; auto. cbn [map fst snd] in *. rewrite !rsum_cons. f_equal; auto.
  subst w'. destruct He as [->| ->]; auto.
  destruct (pair_dec (v, u) (i, j)), (pair_dec (v, u) (j, i)), (pair_dec (u, v) (i, j)), (pair_dec (u, v) (j, i)); try congruence; lra.
Qed.

Lemma w_adj_scale s E i j : w_adj (map (fun ew => (fst ew, s * snd ew)) E) i j = s * w_adj E i j.
Proof.
  rewrite !w_adj_rsum, map_map, <- rsum_map_scale. apply rsum_map_ext. intros [e w] _. cbn [fst snd]. destruct (pair_dec e (i, j)), (pair_dec e (j, i)); lra.
Qed.

Lemma w_adj_both_arcs E i j : w_adj (E ++ map (fun ew => ((snd (fst ew), fst (fst ew)), snd ew)) E) i j = 2 * w_adj E i j.
Proof.
  rewrite !w_adj_rsum, map_app, rsum_app, map_map, <- rsum_map_plus, <- rsum_map_scale. apply rsum_map_ext. intros [[u v] w] _. cbn [fst snd].
  destruct (pair_dec (v, u) (i, j)), (pair_dec (v, u) (j, i)), (pair_dec (u, v) (i, j)), (pair_dec (u, v) (j, i)); try congruence; lra.
Qed.

(** ** Positive weights *)
Section Positive.
Variables (n : nat) (E : list wedge) (c : list nat).
Hypothesis Hr : in_range_E n E.
Hypothesis Hpos : forall e w, In (e, w) E -> 0 < w.

Lemma w_arcs_nonneg i j : 0 <= w_arcs E i j.
Proof. rewrite w_arcs_rsum. apply rsum_map_nonneg. intros [e w] Hin. cbn [fst snd]. destruct (pair_dec e (i, j)); [|lra]. specialize (Hpos _ _ Hin). lra. Qed.
Lemma w_adj_nonneg i j : 0 <= w_adj E i j.
Proof. unfold w_adj. pose proof (w_arcs_nonneg i j). pose proof (w_arcs_nonneg j i). lra. Qed.
Lemma strength_nonneg i : 0 <= strength n E i.
Proof. apply sum_to_nonneg. intros. apply w_adj_nonneg. Qed.

Lemma w_arcs_pos u v w : In ((u, v), w) E -> 0 < w_arcs E u v.
Proof.
  intros Hin. rewrite w_arcs_rsum. apply rsum_map_pos with (x := ((u, v), w)); auto.
  - intros [e w'] Hin'. cbn [fst snd]. destruct (pair_dec e (u, v)); [|lra]. specialize (Hpos _ _ Hin'). lra.
  - cbn [fst snd]. destruct (pair_dec (u, v) (u, v)); [|congruence]. apply (Hpos _ _ Hin).
Qed.

Lemma sum_to_pos m f i : (i < m)%nat -> (forall k, (k < m)%nat -> 0 <= f k) -> 0 < f i -> 0 < sum_to m f.
Proof.
  intros Hi Hn Hf. rewrite sum_to_rsum. apply rsum_map_pos with (x := i); auto; [|apply in_seq; lia].
  intros k Hk. apply in_seq in Hk. apply Hn. lia.
Qed.


Lemma strength_end i : end_point E i -> (i < n)%nat /\ 0 < strength n E i.
Proof.
  intros (u & v & w & Hin & Hi). destruct (Hr u v w Hin) as [Hu Hv]. pose proof (@w_arcs_pos u v w Hin) as P.
  pose proof (w_arcs_nonneg v u) as Q. pose proof (w_arcs_nonneg u v).
  destruct Hi as [->| ->]; split; auto; unfold strength.
  - apply sum_to_pos with (i := v); auto; [intros; apply w_adj_nonneg|]. unfold w_adj. lra.
  - apply sum_to_pos with (i := u); auto; [intros; apply w_adj_nonneg|]. unfold w_adj. lra.
Qed.

Lemma strength_zero i : ~ end_point E i -> strength n E i = 0.
Proof.
  intros Hn. unfold strength. apply sum_to_0. intros j _. unfold w_adj. rewrite !w_arcs_rsum, !rsum_map_0; [lra| |].
  - intros [e w] Hin. cbn [fst snd]. destruct (pair_dec e (j, i)) as [->|]; auto. exfalso. apply Hn. exists j, i, w. auto.
  - intros [e w] Hin. cbn [fst snd]. destruct (pair_dec e (i, j)) as [->|]; auto. exfalso. apply Hn. exists i, j, w. auto.
Qed.

Lemma delta_nonneg i j : 0 <= delta c i j <= 1.
Proof. unfold delta. destruct (Nat.eq_dec _ _); lra. Qed.
Lemma delta_refl i : delta c i i = 1.
Proof. unfold delta. destruct (Nat.eq_dec _ _); congruence. Qed.

Lemma total_pos : E <> [] -> 0 < total_strength n E.
Proof.
  intros Hne. destruct E as [|[[u v] w] E0] eqn:EE; [congruence|]. rewrite <- EE in *. 
  assert (Hin : In ((u, v), w) E) by (rewrite EE; left; auto).
  destruct (@strength_end u) as [Hu Hp]; [exists u, v, w; auto|].
  apply sum_to_pos with (i := u); auto. intros. apply strength_nonneg.
Qed.

Lemma null_nonneg i j : 0 <= null_weight n E i j.
Proof.
  destruct (classic (E = [])) as [He|Hne].
  - unfold null_weight. rewrite (@strength_zero i); [unfold Rdiv; lra|]. intros (u & v & w & Hin & _). rewrite He in Hin. destruct Hin.
  - unfold null_weight. pose proof (total_pos Hne). pose proof (strength_nonneg i). pose proof (strength_nonneg j).
    apply Rmult_le_pos; [apply Rmult_le_pos; auto|]. left. apply Rinv_0_lt_compat; auto.
Qed.

Lemma null_pos i j : end_point E i -> end_point E j -> 0 < null_weight n E i j.
Proof.
  intros Hi Hj. destruct (strength_end Hi) as [_ Pi]. destruct (strength_end Hj) as [_ Pj].
  assert (Hne : E <> []) by (destruct Hi as (u & v & w & Hin & _); intros He; rewrite He in Hin; destruct Hin).
  pose proof (total_pos Hne). unfold null_weight. apply Rdiv_lt_0_compat; auto. apply Rmult_lt_0_compat; auto.
Qed.

Lemma expected_within_pos : E <> [] -> 0 < expected_within n E c.
Proof.
  intros Hne. destruct E as [|[[u v] w] E0] eqn:EE; [congruence|]. rewrite <- EE in *.
  assert (Hu : end_point E u) by (exists u, v, w; split; auto; rewrite EE; left; auto).
  destruct (strength_end Hu) as [Hlt _]. unfold expected_within.
  assert (Hnn : forall i j, 0 <= null_weight n E i j * delta c i j) by (intros; apply Rmult_le_pos; [apply null_nonneg|apply delta_nonneg]).
  apply sum_to_pos with (i := u); auto; [intros; apply sum_to_nonneg; auto|].
  apply sum_to_pos with (i := u); auto. rewrite delta_refl, Rmult_1_r. apply null_pos; auto.
Qed.

Lemma expected_between_zero : expected_between n E c = 0 <-> forall i j, end_point E i -> end_point E j -> nth i c 0%nat = nth j c 0%nat.
Proof.
  assert (Hnn : forall i j, 0 <= null_weight n E i j * (1 - delta c i j)) by (intros i j; apply Rmult_le_pos; [apply null_nonneg|destruct (delta_nonneg i j); lra]).
  split.
  - intros Hz i j Hi Hj. destruct (Nat.eq_dec (nth i c 0%nat) (nth j c 0%nat)) as [|N]; auto. exfalso.
    destruct (strength_end Hi) as [Li _]. destruct (strength_end Hj) as [Lj _].
    assert (0 < expected_between n E c); [|lra]. unfold expected_between.
    apply sum_to_pos with (i := i); auto; [intros; apply sum_to_nonneg; auto|]. apply sum_to_pos with (i := j); auto.
    unfold delta. destruct (Nat.eq_dec _ _); [congruence|]. rewrite Rminus_0_r, Rmult_1_r. apply null_pos; auto.
  - intros H. unfold expected_between. apply sum_to_0. intros i _. apply sum_to_0. intros j _.
    destruct (classic (end_point E i)) as [Hi|Hi].
    + destruct (classic (end_point E j)) as [Hj|Hj].
      * unfold delta. destruct (Nat.eq_dec _ _) as [|N]; [ring|]. exfalso. auto.
      * unfold null_weight. rewrite (@strength_zero j Hj). unfold Rdiv. ring.
    + unfold null_weight. rewrite (@strength_zero i Hi). unfold Rdiv. ring.
Qed.
End Positive.

(** ** gamma_estimate *)
Definition weighted_e (env : est_env) (g : graph) : graph :=
  if ee_contains env g then g else mkGraph (vcount g) (directed g) (edges g) (Some (repeat 1 (ecount g))).

Lemma weighted_e_idem env g : weighted_e env (weighted_e env g) = weighted_e env g.
Proof.
  unfold weighted_e. destruct (ee_contains env g) eqn:E; [rewrite E; auto|].
  destruct (ee_contains env (mkGraph (vcount g) (directed g) (edges g) (Some (repeat 1 (ecount g))))); reflexivity.
Qed.

Lemma weighted_e_defaulted env g h : weights_defaulted (ee_contains env g) g h <-> h = weighted_e env g.
Proof.
  unfold weights_defaulted, weighted_e. destruct (ee_contains env g); [tauto|]. split.
  - intros (A & B & C & ws & W & L & H). destruct h as [vc d es w]. cbn in *. subst. f_equal. f_equal. unfold ecount. rewrite <- L.
    clear - H. induction ws as [|x ws IH]; auto. simpl. f_equal; [apply H; left; auto|]. apply IH. intros; apply H; right; auto.
  - intros ->. cbn. repeat split. exists (repeat 1 (ecount g)). split; auto. split; [apply repeat_length|]. intros w Hw. apply repeat_spec in Hw. auto.
Qed.

Lemma weighted_e_vcount env g : vcount (weighted_e env g) = vcount g.
Proof. unfold weighted_e. destruct (ee_contains env g); reflexivity. Qed.
Lemma weighted_e_edges env g : edges (weighted_e env g) = edges g.
Proof. unfold weighted_e. destruct (ee_contains env g); reflexivity. Qed.
Lemma weighted_e_wf env g : wf_graph g -> wf_graph (weighted_e env g).
Proof.
  intros [H1 H2]. unfold weighted_e. destruct (ee_contains env g); [split; auto|]. split; cbn; auto.
  intros ws Hw. inversion Hw. unfold ecount. cbn. apply repeat_length.
Qed.

Lemma list_max_label c v : (v < length c)%nat -> (nth v c 0 < list_max (map S c))%nat.
Proof.
  intros Hv. assert (G : Forall (fun k => (k <= list_max (map S c))%nat) (map S c)) by (apply list_max_le; auto).
  rewrite Forall_forall in G. apply (G (S (nth v c 0%nat))). apply in_map. apply nth_In. auto.
Qed.

Lemma gamma_estimate_graph env g p : wf_graph g -> gamma_estimate env g p =
  (weighted_e env g, let! q := (match p with Membership c => leiden_part_with_membership (weighted_e env g) c | Partition q => Ok q end) in
     let! (a, b) := estimate_singlelayer_SBM_parameters (weighted_e env g) q None in Ok (gamma_estimate_from_parameters a b)).
Proof.
  intros [Hwf _]. unfold gamma_estimate, weighted_e. destruct (ee_contains env g); auto.
  rewrite set_weights_ones; auto. intros He. destruct (edges g) as [|[u v] E]; [congruence|]. destruct (Hwf u v); simpl; auto. lia.
Qed.

Lemma gamma_estimate_membership env g ws c : wf_graph g -> length c = vcount g -> weights (weighted_e env g) = Some ws ->
  gamma_estimate env g (Membership c) =
  (weighted_e env g, let! (a, b) := sbm_outcome (vcount g) (combine (edges g) ws) (list_max (map S c)) c in Ok (gamma_estimate_from_parameters a b)).
Proof.
  intros Hwf Hlen Hw. rewrite gamma_estimate_graph by auto. f_equal. unfold leiden_part_with_membership. rewrite weighted_e_vcount, Hlen, Nat.eqb_refl. cbn [bind].
  rewrite (@estimate_single (weighted_e env g) ws c (list_max (map S c)) None); auto.
  - rewrite weighted_e_vcount. unfold weighted_edges. rewrite weighted_e_edges. reflexivity.
  - apply weighted_e_wf; auto.
  - rewrite weighted_e_vcount; auto.
  - rewrite weighted_e_vcount. intros v Hv. apply list_max_label. lia.
Qed.

(** ** Unit weights *)
Lemma w_arcs_unit E i j : w_arcs (combine E (repeat 1 (length E))) i j = arcs E i j.
Proof.
  induction E as [|e E IH]; [reflexivity|]. cbn [length repeat combine]. rewrite w_arcs_cons, arcs_cons, IH. cbn [fst snd]. reflexivity.
Qed.

Section UnitW.
Variables (g : graph) (c : list nat).
Hypothesis Hwf : wf_graph g.
Hypothesis Hd : directed g = false.
Let E := combine (edges g) (repeat 1 (length (edges g))).

Lemma w_adj_unit i j : w_adj E i j = adjacency g i j.
Proof. unfold w_adj, E, adjacency. rewrite !w_arcs_unit, Hd. reflexivity. Qed.
Lemma strength_unit i : strength (vcount g) E i = k_out g i.
Proof. unfold strength, k_out. apply sum_to_ext. intros. apply w_adj_unit. Qed.
Lemma total_unit_w : total_strength (vcount g) E = 2 * m_edges g.
Proof.
  rewrite total_strength_w by (apply range_E_of; auto). f_equal. unfold E. rewrite total_w_combine by apply repeat_length.
  unfold m_edges. induction (edges g) as [|e es IH]; [reflexivity|]. cbn [length repeat]. rewrite rsum_cons, IH, S_INR. lra.
Qed.
Lemma observed_unit : observed_within (vcount g) E c = A_of g c.
Proof. unfold observed_within, A_of. apply sum_to_ext; intros; apply sum_to_ext; intros. rewrite w_adj_unit. reflexivity. Qed.
Lemma expected_unit : expected_within (vcount g) E c = P_of g c.
Proof.
  unfold expected_within, P_of. apply sum_to_ext; intros; apply sum_to_ext; intros. unfold null_weight. rewrite !strength_unit, total_unit_w, Hd. reflexivity.
Qed.
End UnitW.
