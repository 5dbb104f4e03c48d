(** The matrices given to the champ package. *)
From Verif Require Import PyBase PyGraph M_partition M_pool M_champ M_theircoef Spec Spec_graph Spec_adjacency Spec_theircoef
  L_base L_canon L_modularity L_modularity3 L_adjacency.
From Coq Require Import Permutation.
Set Implicit Arguments.
Open Scope R_scope.

Definition mat (n : nat) (f : nat -> nat -> npf) : list (list npf) := map (fun i => map (f i) (seq 0 n)) (seq 0 n).

Lemma mat_ext n f g : (forall i j, (i < n)%nat -> (j < n)%nat -> f i j = g i j) -> mat n f = mat n g.
Proof. intros H. apply map_ext_in. intros i Hi. apply map_ext_in. intros j Hj. apply in_seq in Hi, Hj. apply H; lia. Qed.

Lemma enumerate_from_map {A} (f : nat -> A) n : forall k, enumerate_from k (map f (seq k n)) = map (fun i => (i, f i)) (seq k n).
Proof. induction n as [|n IH]; intros k; simpl; [reflexivity|]. rewrite IH. reflexivity. Qed.
Lemma enumerate_map {A} (f : nat -> A) n : enumerate (map f (seq 0 n)) = map (fun i => (i, f i)) (seq 0 n).
Proof. apply enumerate_from_map. Qed.

Lemma position_spec x l : match position x l with Some a => (a < length l)%nat /\ nth a l 0%nat = x | None => ~ In x l end.
Proof.
  induction l as [|y l IH]; simpl; [tauto|]. destruct (Nat.eqb_spec x y) as [->|Ne]; [simpl; split; [lia|auto]|].
  destruct (position x l) as [a|]; simpl; [split; [lia|tauto]|]. intros [E|H]; [congruence|tauto].
Qed.

Lemma nth_block {A} (degs : list nat) (F : nat -> nat -> A) a b d : (a < length degs)%nat -> (b < length degs)%nat ->
  nth b (nth a (map (fun x => map (F x) degs) degs) []) d = F (nth a degs 0%nat) (nth b degs 0%nat).
Proof.
  intros Ha Hb. rewrite (nth_indep _ [] (map (F 0%nat) degs)) by (rewrite map_length; auto).
  rewrite (map_nth (fun x => map (F x) degs)). rewrite (nth_indep _ d (F (nth a degs 0%nat) 0%nat)) by (rewrite map_length; auto).
  apply map_nth.
Qed.

Section Null.
  Context (g : graph) (lv : list nat).
  Hypothesis Hlv : length lv = vcount g.
  Let n := vcount g.
  Let L (v : nat) := nth v lv 0%nat.
  Let deg (v : nat) := nth v (all_degrees g) 0%nat.
  Let members (t : nat) := filter (fun v => (nth v lv 0 =? t)%nat) (seq 0 n).
  Let total (t : nat) := INR (list_sum (map deg (members t))).
  Let val (i j : nat) : npf := np_div (INR (deg i * deg j)) (1 * total (L i)).

  Lemma write_layer_ok f t : write_layer g lv (mat n f) t =
    Ok (mat n (fun i j => if (L i =? t)%nat && (L j =? t)%nat then val i j else f i j)).
  Proof.
    unfold write_layer. rewrite Hlv. fold n. fold (members t).
    rewrite (mapM_ok (py_get (all_degrees g)) deg).
    2:{ intros v Hv. apply py_get_ok. rewrite all_degrees_length. apply filter_In in Hv as [Hv _]. apply in_seq in Hv. fold n. lia. }
    cbn [bind]. f_equal. unfold write_block, mat. rewrite enumerate_map, map_map. apply map_ext_in. intros i Hi.
    apply in_seq in Hi. cbn [fst snd].
    assert (M : forall v, (v < n)%nat -> (In v (members t) <-> L v = t)).
    { intros v Hv. unfold members, L. rewrite filter_In, in_seq, Nat.eqb_eq. split; [tauto|]. intros; split; auto; lia. }
    pose proof (position_spec i (members t)) as Pi. destruct (position i (members t)) as [a|].
    - destruct Pi as [La Ea]. assert (Hi' : L i = t) by (apply M; [lia|]; rewrite <- Ea; apply nth_In; auto).
      rewrite enumerate_map, map_map. apply map_ext_in. intros j Hj. apply in_seq in Hj. cbn [fst snd].
      rewrite (proj2 (Nat.eqb_eq _ _) Hi'). cbn [andb].
      pose proof (position_spec j (members t)) as Pj. destruct (position j (members t)) as [b|].
      + destruct Pj as [Lb Eb]. assert (Hj' : L j = t) by (apply M; [lia|]; rewrite <- Eb; apply nth_In; auto).
        rewrite (proj2 (Nat.eqb_eq _ _) Hj').
        rewrite (nth_block (map deg (members t)) (fun a b => np_div (INR (a * b)) (1 * INR (list_sum (map deg (members t)))))) by (rewrite map_length; auto).
        unfold val, total. rewrite Hi'.
        rewrite !(nth_indep (map deg (members t)) 0%nat (deg 0%nat)) by (rewrite map_length; auto). rewrite !map_nth, Ea, Eb. reflexivity.
      + destruct (Nat.eqb_spec (L j) t) as [E|]; [|reflexivity]. exfalso. apply Pj. apply M; auto; lia.
    - apply map_ext_in. intros j Hj. destruct (Nat.eqb_spec (L i) t) as [E|]; [|reflexivity]. exfalso. apply Pi. apply M; auto; lia.
  Qed.

  Lemma write_layers ts : forall f, foldM (write_layer g lv) ts (mat n f) =
    Ok (mat n (fun i j => if (L i =? L j)%nat && existsb (Nat.eqb (L i)) ts then val i j else f i j)).
  Proof.
    induction ts as [|t ts IH]; intros f; cbn [foldM].
    - f_equal. apply mat_ext. intros i j _ _. cbn [existsb]. rewrite andb_false_r. reflexivity.
    - rewrite write_layer_ok. cbn [bind]. rewrite IH. f_equal. apply mat_ext. intros i j _ _. cbn [existsb].
      destruct (Nat.eqb_spec (L i) (L j)) as [E|E]; cbn [andb].
      + rewrite <- E. destruct (Nat.eqb_spec (L i) t); cbn [andb orb]; auto. destruct (existsb _ ts); auto.
      + destruct (Nat.eqb_spec (L i) t), (Nat.eqb_spec (L j) t); cbn [andb]; auto. congruence.
  Qed.

  Lemma null_matrix_ok : lv <> [] -> null_matrix g lv = Ok (mat n (fun i j => if (L i =? L j)%nat then val i j else Fin 0)).
  Proof.
    intros Ne. unfold null_matrix. destruct (py_max_nonempty Ne) as [mx Hmx]. rewrite Hmx. cbn [bind].
    apply py_max_spec in Hmx as [_ Hmx].
    replace (repeat (repeat (Fin 0) (vcount g)) (vcount g)) with (mat n (fun _ _ => Fin 0)).
    2:{ unfold mat, n. assert (R : forall (A : Type) (x : A) m k, map (fun _ => x) (seq k m) = repeat x m).
        { intros A x m. induction m as [|m IH]; intros k; simpl; [auto|]. rewrite IH. auto. }
        rewrite !R. reflexivity. }
    rewrite write_layers. f_equal. apply mat_ext. intros i j Hi Hj.
    destruct (L i =? L j)%nat; cbn [andb]; auto.
    assert (X : existsb (Nat.eqb (L i)) (seq 0 (mx + 1)) = true).
    { apply existsb_exists. exists (L i). split; [|apply Nat.eqb_refl]. apply in_seq.
      assert (In (L i) lv) by (apply nth_In; rewrite Hlv; auto). specialize (Hmx _ H). lia. }
    rewrite X. reflexivity.
  Qed.
End Null.

(** ** Coefficients *)
Lemma communities_pair_sum c (r : nat -> nat -> R) :
  rsum (map (fun kv => rsum (map (fun i => rsum (map (r i) (snd kv))) (snd kv))) (membership_to_communities c)) = pair_sum (length c) c r.
Proof.
  set (n := length c).
  transitivity (rsum (map (fun kv => sum_to n (fun a => rsum (map (fun i => if Nat.eq_dec a i then 1 else 0) (snd kv)) * rsum (map (r a) (snd kv))))
     (membership_to_communities c))).
  - apply rsum_map_ext. intros [k vs] Hin. cbn [snd]. pose proof (communities_in_range c k vs Hin) as Hr. fold n in Hr.
    transitivity (rsum (map (fun i => sum_to n (fun a => (if Nat.eq_dec a i then 1 else 0) * rsum (map (r a) vs))) vs)).
    + apply rsum_map_ext. intros i Hi. rewrite <- (sum_to_single (n := n) (a := i) (fun a => rsum (map (r a) vs)) (Hr i Hi)).
      apply sum_to_ext. intros a Ha. destruct (Nat.eq_dec i a), (Nat.eq_dec a i); try congruence; lra.
    + transitivity (rsum (map (fun i => rsum (map (fun a => (if Nat.eq_dec a i then 1 else 0) * rsum (map (r a) vs)) (seq 0 n))) vs)); [reflexivity|].
      rewrite (rsum_swap (fun i a => (if Nat.eq_dec a i then 1 else 0) * rsum (map (r a) vs)) vs (seq 0 n)).
      rewrite sum_to_rsum. apply rsum_map_ext. intros a _. apply rsum_map_scale_r.
  - transitivity (sum_to n (fun a => rsum (map (fun kv => rsum (map (fun i => if Nat.eq_dec a i then 1 else 0) (snd kv)) * rsum (map (r a) (snd kv)))
       (membership_to_communities c)))).
    { unfold sum_to. apply (rsum_swap (fun (kv : nat * list nat) a => rsum (map (fun i => if Nat.eq_dec a i then 1 else 0) (snd kv)) * rsum (map (r a) (snd kv)))). }
    unfold pair_sum. apply sum_to_ext. intros a Ha. rewrite communities_sum. fold n.
    rewrite <- (sum_to_single (n := n) (a := a) (fun i => sum_to n (fun j => r i j * delta c i j)) Ha).
    apply sum_to_ext. intros i Hi. destruct (Nat.eq_dec a i) as [->|Ne].
    + apply sum_to_ext. intros j _. lra.
    + apply sum_to_0. intros j _. lra.
Qed.

Lemma py_get_mat n f i : (i < n)%nat -> py_get (mat n f) i = Ok (map (f i) (seq 0 n)).
Proof.
  intros Hi. unfold mat. rewrite (py_get_ok _ []) by (rewrite map_length, seq_length; auto).
  f_equal. rewrite (nth_indep _ [] (map (f 0%nat) (seq 0 n))) by (rewrite map_length, seq_length; auto).
  rewrite (map_nth (fun i => map (f i) (seq 0 n))). rewrite seq_nth; auto.
Qed.
Lemma py_get_row {A} n (f : nat -> A) j : (j < n)%nat -> py_get (map f (seq 0 n)) j = Ok (f j).
Proof.
  intros Hj. rewrite (py_get_ok _ (f 0%nat)) by (rewrite map_length, seq_length; auto). rewrite map_nth, seq_nth; auto.
Qed.

Lemma np_sum_fin {A} (f : A -> npf) (r : A -> R) l : (forall x, In x l -> f x = Fin (r x)) -> fold_left np_add (map f l) (Fin 0) = Fin (rsum (map r l)).
Proof.
  intros H. rewrite (map_ext_in f (fun x => Fin (r x))) by auto. rewrite <- (map_map r Fin), np_add_fold. f_equal. lra.
Qed.

Lemma np_sum_concat rows : forall a, fold_left np_add (concat (map (map Fin) rows)) (Fin a) = Fin (a + rsum (map rsum rows)).
Proof.
  induction rows as [|row rows IH]; intros a; simpl.
  - rewrite rsum_nil. f_equal. lra.
  - rewrite fold_left_app, np_add_fold, IH, rsum_cons. f_equal. lra.
Qed.

Lemma calculate_ok n c f r : length c = n -> (forall i j, (i < n)%nat -> (j < n)%nat -> f i j = Fin (r i j)) ->
  calculate_coefficient c (mat n f) = Ok (Fin (pair_sum n c r)).
Proof.
  intros Hc Hf. unfold calculate_coefficient.
  assert (E : length (mat n f) = n) by (unfold mat; rewrite map_length, seq_length; auto). rewrite E, Hc, Nat.eqb_refl.
  rewrite (mapM_ok _ (fun kv => Fin (rsum (map (fun i => rsum (map (r i) (snd kv))) (snd kv))))).
  - cbn [bind]. f_equal. rewrite (np_sum_fin _ (fun kv : nat * list nat => rsum (map (fun i => rsum (map (r i) (snd kv))) (snd kv)))) by auto.
    f_equal. rewrite communities_pair_sum, Hc. reflexivity.
  - intros [k vs] Hin. cbn [snd]. pose proof (communities_in_range c k vs Hin) as Hr. rewrite Hc in Hr.
    unfold block_sum. rewrite (mapM_ok _ (fun i => map Fin (map (r i) vs))).
    + cbn [bind]. f_equal. rewrite <- (map_map (fun i => map (r i) vs) (map Fin)), np_sum_concat, map_map. f_equal. lra.
    + intros i Hi. rewrite py_get_mat by auto. cbn [bind]. rewrite map_map. apply mapM_ok. intros j Hj.
      rewrite py_get_row by auto. f_equal. auto.
Qed.

(** ** Adjacency *)
Lemma count_arcs_spec g i j : INR (count_arcs g i j) = arcs (edges g) i j.
Proof.
  unfold count_arcs, arcs. f_equal. induction (edges g) as [|[u v] E IH]; [reflexivity|]. cbn [filter count_occ fst snd].
  destruct (Nat.eqb_spec u i), (Nat.eqb_spec v j), (pair_dec (u, v) (i, j)) as [Q|Q]; cbn [andb length]; rewrite ?IH; auto; exfalso; (congruence || (apply Q; congruence)).
Qed.

Lemma adjacency_count_spec loops g i j : loops_agree loops g -> INR (adjacency_count loops g i j) = adjacency g i j.
Proof.
  intros H. unfold adjacency_count, adjacency. destruct (directed g) eqn:D; [apply count_arcs_spec|].
  destruct (Nat.eqb_spec i j) as [->|]; [|rewrite plus_INR, !count_arcs_spec; auto].
  destruct H as [H|[->|H]]; [congruence| |].
  - rewrite mult_INR, count_arcs_spec. simpl. lra.
  - rewrite mult_INR, count_arcs_spec. assert (Z : arcs (edges g) j j = 0); [|rewrite Z; lra].
    pose proof (arcs_nonneg (edges g) j j). destruct (Rle_lt_dec (arcs (edges g) j j) 0); [lra|].
    exfalso. apply arcs_pos in r. apply (H j j r eq_refl).
Qed.

Lemma get_adjacency_ok loops g c : loops_agree loops g -> length c = vcount g ->
  calculate_coefficient c (get_adjacency loops g) = Ok (Fin (A_of g c)).
Proof.
  intros H Hc. unfold get_adjacency. change (map (fun i => map (fun j => Fin (INR (adjacency_count loops g i j))) (seq 0 (vcount g))) (seq 0 (vcount g)))
    with (mat (vcount g) (fun i j => Fin (INR (adjacency_count loops g i j)))).
  rewrite (@calculate_ok (vcount g) c (fun i j => Fin (INR (adjacency_count loops g i j))) (adjacency g) Hc).
  - reflexivity.
  - intros i j _ _. f_equal. apply adjacency_count_spec; auto.
Qed.

(** ** The null model *)
Lemma total_degree_spec g i : wf_graph g -> (i < vcount g)%nat -> INR (nth i (all_degrees g) 0%nat) = total_degree g i.
Proof.
  intros W Hi. unfold total_degree. destruct (directed g) eqn:D; [|apply all_degrees_undirected; auto].
  rewrite <- (in_degrees_directed W D Hi), <- (out_degrees_directed W D Hi), <- plus_INR. f_equal.
  unfold all_degrees, in_degrees, out_degrees. rewrite D, !nth_map_seq by auto. rewrite list_sum_map_plus. lia.
Qed.

Lemma layer_total g lv t : wf_graph g -> 
  INR (list_sum (map (fun v => nth v (all_degrees g) 0%nat) (filter (fun v => (nth v lv 0 =? t)%nat) (seq 0 (vcount g))))) = layer_degree g lv t.
Proof.
  intros W. rewrite INR_nth_sum, rsum_filter_seq. unfold layer_degree. apply sum_to_ext. intros i Hi.
  destruct (Nat.eqb_spec (nth i lv 0%nat) t), (Nat.eq_dec (nth i lv 0%nat) t); try congruence; auto using total_degree_spec.
Qed.

Lemma layer_degree_spec g lv t : wf_graph g -> edges_within_layers g lv -> layer_degree g lv t = 2 * m_layer g lv t.
Proof.
  intros W Hw. rewrite <- layer_total by auto. rewrite <- (layer_count_m t Hw).
  set (p := fun v => (nth v lv 0 =? t)%nat). set (n := vcount g).
  assert (X : forall E, (forall u v, In (u, v) E -> (u < n)%nat /\ (v < n)%nat /\ nth u lv 0%nat = nth v lv 0%nat) ->
    list_sum (map (fun v => list_sum (map (fun e => (b2n (fst e =? v) + b2n (snd e =? v))%nat) E)) (filter p (seq 0 n))) =
    (2 * list_sum (map (fun e => b2n (nth (fst e) lv 0 =? t)) E))%nat).
  { assert (One : forall u, (u < n)%nat -> list_sum (map (fun v => b2n (u =? v)) (filter p (seq 0 n))) = b2n (p u)).
    { intros u Hu. apply INR_eq. rewrite INR_list_sum, map_map.
      rewrite (rsum_filter_seq p n (fun v => INR (b2n (u =? v)%nat))).
      rewrite <- (sum_to_single (n := n) (a := u) (fun v => INR (b2n (p v))) Hu). apply sum_to_ext. intros v _.
      destruct (Nat.eqb_spec u v), (Nat.eq_dec u v); try congruence; destruct (p v); simpl; auto. }
    induction E as [|[u v] E IH]; intros HE; cbn [map list_sum fold_right].
    - assert (Z : forall l : list nat, list_sum (map (fun _ => 0%nat) l) = 0%nat) by (induction l; simpl; auto). apply Z.
    - destruct (HE u v (or_introl eq_refl)) as (Hu & Hv & Euv).
      cbn [fst snd].
      change (list_sum (map (fun x => ((b2n (u =? x) + b2n (v =? x)) + list_sum (map (fun e : nat * nat => (b2n (fst e =? x) + b2n (snd e =? x))%nat) E))%nat) (filter p (seq 0 n)))
        = (2 * (b2n (nth u lv 0 =? t) + list_sum (map (fun e : nat * nat => b2n (nth (fst e) lv 0 =? t)) E)))%nat).
      rewrite !list_sum_map_plus, !One by auto. rewrite IH by (intros a b Hab; apply HE; right; auto).
      unfold p. rewrite <- Euv. lia. }
  replace 2 with (INR 2) by (simpl; lra). rewrite <- mult_INR. f_equal. unfold layer_count. rewrite <- X.
  - f_equal. apply map_ext_in. intros v Hv. apply filter_In in Hv as [Hv _]. apply in_seq in Hv.
    unfold all_degrees. rewrite nth_map_seq by (fold n; lia). reflexivity.
  - intros u v Hin. destruct (proj1 W u v Hin). repeat split; auto.
Qed.

Lemma layer_degree_pos g lv t : wf_graph g -> edges_within_layers g lv -> layers_have_edges g lv -> In t lv -> 0 < layer_degree g lv t.
Proof.
  intros W Hw Hh Ht. rewrite layer_degree_spec by auto. rewrite <- (layer_count_m t Hw).
  pose proof (lt_0_INR _ (@layer_count_pos g lv t (Hh t Ht))). lra.
Qed.

Lemma null_coefficient g lv : wf_graph g -> length lv = vcount g -> lv <> [] -> edges_within_layers g lv -> layers_have_edges g lv ->
  exists P, null_matrix g lv = Ok P /\
    forall c, length c = vcount g -> calculate_coefficient c P = Ok (Fin (pair_sum (vcount g) c (total_degree_null g lv))).
Proof.
  intros W Hlv Ne Hw Hh. rewrite (@null_matrix_ok g lv Hlv Ne). eexists. split; [reflexivity|].
  intros c Hc. apply calculate_ok; auto. intros i j Hi Hj.
  unfold total_degree_null, delta. destruct (Nat.eqb_spec (nth i lv 0%nat) (nth j lv 0%nat)), (Nat.eq_dec (nth i lv 0%nat) (nth j lv 0%nat)); try congruence.
  - rewrite layer_total by auto. rewrite mult_INR, !total_degree_spec by auto. unfold np_div.
    assert (0 < layer_degree g lv (nth i lv 0%nat)) by (apply layer_degree_pos; auto; apply nth_In; rewrite Hlv; auto).
    destruct (Req_EM_T _ 0); [lra|]. f_equal. field. lra.
  - f_equal. lra.
Qed.

(** Undirected: it is the null model of multilayer modularity. *)
Lemma null_undirected g lv i j : wf_graph g -> edges_within_layers g lv -> directed g = false ->
  total_degree_null g lv i j = layer_null g lv i j.
Proof.
  intros W Hw D. unfold total_degree_null, layer_null, total_degree. rewrite D, layer_degree_spec by auto. reflexivity.
Qed.

(** Directed with as many arcs into every vertex as out of it: it is twice the null model. *)
Lemma null_balanced g lv i j : wf_graph g -> edges_within_layers g lv -> layers_have_edges g lv -> length lv = vcount g ->
  directed g = true -> (forall v, (v < vcount g)%nat -> k_in g v = k_out g v) ->
  (i < vcount g)%nat -> (j < vcount g)%nat -> total_degree_null g lv i j = 2 * layer_null g lv i j.
Proof.
  intros W Hw Hh Hlv D B Hi Hj. unfold total_degree_null, layer_null, total_degree. rewrite D, layer_degree_spec by auto.
  rewrite !B by auto.
  assert (0 < m_layer g lv (nth i lv 0%nat)).
  { rewrite <- (layer_count_m _ Hw). apply lt_0_INR. apply layer_count_pos. apply Hh. apply nth_In. rewrite Hlv. auto. }
  field. lra.
Qed.
