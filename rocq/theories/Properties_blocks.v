(** Property theorems about the hierarchical block model (C94) and the random graphs and partitions of the tests (C95). *)
From Coq Require Import Permutation.
From Verif Require Import PyBase PyGraph M_partition M_champ M_leiden M_estimation_utils M_generators Spec Spec_graph Spec_sbm Spec_multisbm Spec_plotting
  L_base L_canon L_modularity L_multisbm L_copying L_generators L_generators2 L_lazega L_plotting L_blocks.
Open Scope R_scope.

(** ** C94: the hierarchical block model.  The density handed to igraph for the vertices [u] and [v]. *)
Definition density (N u v : nat) : R := nth (u / (N / 9)) (nth (v / (N / 9)) (hierarchical_matrix N) []) 0.

Lemma matrix_entry N i j : (i < 9)%nat -> (j < 9)%nat -> nth i (nth j (hierarchical_matrix N) []) 0 =
  if Nat.eqb i j then 6 / (1 * INR N / 9) else if Nat.eqb (i / 3) (j / 3) then 3 / (2 * INR N / 9) else 1 / 2 / (2 * INR N / 3).
Proof.
  intros Hi Hj. unfold hierarchical_matrix, hierarchical_densities.
  rewrite (nth_indep _ _ (map (fun i => if Nat.eqb i 0 then 6 / (1 * INR N / 9) else if Nat.eqb (i / 3) (0 / 3) then 3 / (2 * INR N / 9) else 1 / 2 / (2 * INR N / 3)) (seq 0 9)))
    by (rewrite map_length, seq_length; auto).
  rewrite (map_nth (fun j => map (fun i => if Nat.eqb i j then 6 / (1 * INR N / 9) else if Nat.eqb (i / 3) (j / 3) then 3 / (2 * INR N / 9) else 1 / 2 / (2 * INR N / 3)) (seq 0 9)) (seq 0 9) 0%nat j).
  rewrite seq_nth by auto. cbn [Nat.add].
  set (f := fun i => if Nat.eqb i j then 6 / (1 * INR N / 9) else if Nat.eqb (i / 3) (j / 3) then 3 / (2 * INR N / 9) else 1 / 2 / (2 * INR N / 3)).
  rewrite (nth_indep _ 0 (f 0%nat)) by (rewrite map_length, seq_length; auto). rewrite (map_nth f), seq_nth by auto. reflexivity.
Qed.

(** Two numbers below 9 N/9. *)
Lemma density_eq B u v : (0 < B)%nat -> (u < 9 * B)%nat -> (v < 9 * B)%nat -> density (9 * B) u v =
  if Nat.eqb (u / B) (v / B) then 6 / INR B else if Nat.eqb (u / (3 * B)) (v / (3 * B)) then 3 / (2 * INR B) else 1 / 2 / (6 * INR B).
Proof.
  intros HB Hu Hv. unfold density. replace (9 * B / 9)%nat with B by (rewrite Nat.mul_comm, Nat.div_mul; lia).
  assert (PB : 0 < INR B) by (apply lt_0_INR; auto).
  rewrite matrix_entry by (apply Nat.div_lt_upper_bound; lia). rewrite !(Nat.mul_comm 3 B), <- !Nat.div_div by lia. rewrite mult_INR. replace (INR 9) with 9 by (rewrite INR_IZR_INZ; reflexivity).
  destruct (Nat.eqb (u / B) (v / B)); [field; lra|]. destruct (Nat.eqb (u / B / 3) (v / B / 3)); field; lra.
Qed.

(** With N = 9 B vertices a vertex expects half an edge to other larger communities, 3 edges to the other two thirds of its larger
    community, and 6 edges, less the density of one, within its smaller community. *)
Theorem C94_expected_degrees : forall B v, (0 < B)%nat -> (v < 9 * B)%nat ->
  let N := (9 * B)%nat in let small x := (x / B)%nat in let large x := (x / (3 * B))%nat in
  sum_to N (fun u => if Nat.eq_dec (large u) (large v) then 0 else density N u v) = 1 / 2 /\
  sum_to N (fun u => if Nat.eq_dec (large u) (large v) then if Nat.eq_dec (small u) (small v) then 0 else density N u v else 0) = 3 /\
  sum_to N (fun u => if Nat.eq_dec (small u) (small v) then if Nat.eq_dec u v then 0 else density N u v else 0) = 6 - 6 / INR B.
Proof.
  intros B v HB Hv N small large. assert (PB : 0 < INR B) by (apply lt_0_INR; auto).
  assert (Sm : forall u, small u = small v -> large u = large v).
  { intros u E. unfold small, large in *. rewrite !(Nat.mul_comm 3 B), <- !Nat.div_div by lia. rewrite E. reflexivity. }
  assert (S9 : (small v < 9)%nat) by (apply Nat.div_lt_upper_bound; lia). assert (S3 : (large v < 3)%nat) by (apply Nat.div_lt_upper_bound; lia).
  assert (C9 : length (filter (fun u => Nat.eqb (small u) (small v)) (seq 0 N)) = B).
  { unfold N. rewrite (Nat.mul_comm 9 B). apply filter_block. auto. }
  assert (C3 : length (filter (fun u => Nat.eqb (large u) (large v)) (seq 0 N)) = (3 * B)%nat).
  { unfold N. replace (9 * B)%nat with (3 * B * 3)%nat by lia. apply filter_block. auto. }
  assert (Ext : forall f g, (forall u, (u < N)%nat -> f u = g u) -> sum_to N f = sum_to N g).
  { intros f g H. unfold sum_to. f_equal. apply map_ext_in. intros u Hu. apply in_seq in Hu. apply H. lia. }
  repeat split.
  - rewrite (Ext _ (fun u => if negb (Nat.eqb (large u) (large v)) then 1 / 2 / (6 * INR B) else 0)).
    + rewrite sum_indicator. pose proof (filter_not (fun u => Nat.eqb (large u) (large v)) (seq 0 N)) as C. rewrite seq_length, C3 in C.
      set (k := length (filter (fun u => negb (Nat.eqb (large u) (large v))) (seq 0 N))) in *. assert (Ek : k = (6 * B)%nat) by (clearbody k; unfold N in C; lia). rewrite Ek, mult_INR. replace (INR 6) with 6 by (rewrite INR_IZR_INZ; reflexivity). field. lra.
    + intros u Hu. unfold N in Hu |- *. rewrite density_eq by auto. fold (small u) (small v) (large u) (large v).
      destruct (Nat.eq_dec (large u) (large v)) as [E|E], (Nat.eqb_spec (large u) (large v)) as [E'|E']; try contradiction; auto; cbn [negb].
      destruct (Nat.eqb_spec (small u) (small v)) as [D|D]; auto. apply Sm in D. contradiction.
  - rewrite (Ext _ (fun u => if Nat.eqb (large u) (large v) && negb (Nat.eqb (small u) (small v)) then 3 / (2 * INR B) else 0)).
    + rewrite sum_indicator. pose proof (filter_minus (fun u => Nat.eqb (large u) (large v)) (fun u => Nat.eqb (small u) (small v)) (seq 0 N)) as C. rewrite C3, C9 in C.
      specialize (C ltac:(intros x Hx; apply Nat.eqb_eq in Hx; apply Nat.eqb_eq; auto)). set (k := length (filter (fun u => Nat.eqb (large u) (large v) && negb (Nat.eqb (small u) (small v))) (seq 0 N))) in *. assert (Ek : k = (2 * B)%nat) by (clearbody k; lia). rewrite Ek, mult_INR. replace (INR 2) with 2 by reflexivity. field. lra.
    + intros u Hu. unfold N in Hu |- *. rewrite density_eq by auto. fold (small u) (small v) (large u) (large v).
      destruct (Nat.eq_dec (large u) (large v)) as [E|E], (Nat.eqb_spec (large u) (large v)) as [E'|E']; try contradiction; auto; cbn [negb andb].
      destruct (Nat.eq_dec (small u) (small v)), (Nat.eqb_spec (small u) (small v)) as [D|D]; try contradiction; auto.
  - rewrite (Ext _ (fun u => (if Nat.eqb (small u) (small v) then 6 / INR B else 0) + (if Nat.eqb u v then - (6 / INR B) else 0))).
    + rewrite sum_to_plus, !sum_indicator, C9. assert (C1 : length (filter (fun u => Nat.eqb u v) (seq 0 N)) = 1%nat).
      { pose proof (@filter_block 1 N v Hv) as C. rewrite Nat.mul_1_l in C. etransitivity; [|exact C]. f_equal. apply filter_ext. intros u. rewrite Nat.div_1_r. reflexivity. }
      rewrite C1. replace (INR 1) with 1 by reflexivity. field. lra.
    + intros u Hu. unfold N in Hu |- *. rewrite density_eq by auto. fold (small u) (small v) (large u) (large v).
      destruct (Nat.eqb_spec (small u) (small v)) as [D|D], (Nat.eq_dec (small u) (small v)) as [D'|D']; try contradiction; destruct (Nat.eq_dec u v) as [E|E], (Nat.eqb_spec u v) as [E'|E']; try contradiction; try lra.
      exfalso. apply D. rewrite E. reflexivity.
Qed.
Print Assumptions C94_expected_degrees.

(** What igraph is asked for: nine equal blocks and a symmetric matrix of probabilities. *)
Lemma allowed N : (0 < N)%nat -> (list_sum (repeat (N / 9)%nat 9) = N /\ forallb (forallb (fun p => if Rle_dec 0 p then if Rle_dec p 1 then true else false else false)) (hierarchical_matrix N) = true <->
  (54 <= N)%nat /\ (N mod 9 = 0)%nat).
Proof.
  intros HN. assert (PN : 0 < INR N) by (apply lt_0_INR; auto).
  assert (S : list_sum (repeat (N / 9)%nat 9) = (9 * (N / 9))%nat) by (cbn [repeat list_sum fold_right]; lia). rewrite S.
  pose proof (Nat.div_mod N 9 ltac:(lia)) as DM.
  assert (E : forall p, (if Rle_dec 0 p then if Rle_dec p 1 then true else false else false) = true <-> 0 <= p <= 1).
  { intros p. destruct (Rle_dec 0 p), (Rle_dec p 1); split; intros; try discriminate; auto; lra. }
  assert (D : forall a b, 0 <= a -> 0 < b -> (0 <= a / b <= 1 <-> a <= b)).
  { intros a b Ha Hb. pose proof (Rinv_0_lt_compat b Hb) as Pi. assert (Eb : b * / b = 1) by (field; lra). assert (0 <= a / b) by (apply Rmult_le_pos; lra). split.
    - intros [_ H1]. apply (Rmult_le_compat_r b) in H1; [|lra]. unfold Rdiv in H1. rewrite Rmult_assoc, (Rmult_comm (/ b)), Eb in H1. lra.
    - intros H1. split; auto. unfold Rdiv. rewrite <- Eb. apply Rmult_le_compat_r; lra. }
  split.
  - intros [H1 H2]. split; [|lia]. rewrite forallb_forall in H2. specialize (H2 (nth 0 (hierarchical_matrix N) [])). rewrite forallb_forall in H2.
    specialize (H2 ltac:(apply nth_In; cbn; lia) (nth 0 (nth 0 (hierarchical_matrix N) []) 0) ltac:(apply nth_In; cbn; lia)). rewrite matrix_entry in H2 by lia.
    apply E in H2. cbn [Nat.eqb] in H2. apply D in H2; [|lra|lra]. apply INR_le. replace (INR 54) with 54 by (rewrite INR_IZR_INZ; reflexivity). lra.
  - intros [H1 H2]. split; [lia|]. apply forallb_forall. intros row Hr. apply forallb_forall. intros p Hp.
    assert (P54 : 54 <= INR N) by (apply le_INR in H1; replace (INR 54) with 54 in H1 by (rewrite INR_IZR_INZ; reflexivity); auto).
    unfold hierarchical_matrix, hierarchical_densities in Hr. apply in_map_iff in Hr. destruct Hr as (j & <- & _). apply in_map_iff in Hp. destruct Hp as (i & <- & _).
    apply E. destruct (Nat.eqb i j); [apply D; lra|]. destruct (Nat.eqb (i / 3) (j / 3)); apply D; lra.
Qed.

Theorem C94_densities : forall N u v, (54 <= N)%nat -> (N mod 9 = 0)%nat -> (u < N)%nat -> (v < N)%nat ->
  density N u v = density N v u /\ 0 < density N u v <= 1.
Proof.
  intros N u v H1 H2 Hu Hv. pose proof (Nat.div_mod N 9 ltac:(lia)) as DM. rewrite H2, Nat.add_0_r in DM. set (B := (N / 9)%nat) in *. clearbody B. subst N.
  assert (HB : (6 <= B)%nat) by lia. apply le_INR in HB. replace (INR 6) with 6 in HB by (rewrite INR_IZR_INZ; reflexivity).
  rewrite !density_eq by lia. rewrite (Nat.eqb_sym (v / B)), (Nat.eqb_sym (v / (3 * B))). split; auto.
  assert (D : forall a b, 0 < a -> 0 < b -> a <= b -> 0 < a / b <= 1).
  { intros a b Ha Hb H. pose proof (Rinv_0_lt_compat b Hb) as Pi. split; [apply Rmult_lt_0_compat; lra|]. unfold Rdiv. replace 1 with (b * / b) by (field; lra). apply Rmult_le_compat_r; lra. }
  destruct (Nat.eqb (u / B) (v / B)); [apply D; lra|]. destruct (Nat.eqb (u / (3 * B)) (v / (3 * B))); apply D; lra.
Qed.
Print Assumptions C94_densities.

(** The returned network is the first connected one that igraph drew; the two ground truths are nested and have blocks of equal
    size.  Sizes that are no multiple of 9, or below 54, cannot be built. *)
Theorem C94_network : forall sample connected N fuel g gt3 gt9,
  generate_hierarchical_SBM sample connected N fuel = Some (Ok (g, gt3, gt9)) ->
  (54 <= N)%nat /\ (N mod 9 = 0)%nat /\
  (exists k, (k < fuel)%nat /\ g = sample k /\ connected g = true /\ forall j, (j < k)%nat -> connected (sample j) = false) /\
  length gt3 = N /\ length gt9 = N /\
  (forall i, (i < N)%nat -> nth i gt9 0%nat = (i / (N / 9))%nat /\ nth i gt3 0%nat = (nth i gt9 0 / 3)%nat) /\
  (forall b, (b < 9)%nat -> nodes_in gt9 b = (N / 9)%nat) /\ (forall b, (b < 3)%nat -> nodes_in gt3 b = (N / 3)%nat) /\
  num_communities gt3 = Ok 3%nat /\ num_communities gt9 = Ok 9%nat.
Proof.
  intros sample connected N fuel g gt3 gt9 H. unfold generate_hierarchical_SBM in H. destruct (Nat.eqb_spec N 0) as [E|E]; [discriminate|].
  destruct (retry _ _ _ _) as [[g'|e]|] eqn:R; try discriminate.
  cbv zeta in H. match type of H with Some (Ok ?a) = Some (Ok ?b) => assert (H' : a = b) by congruence end. clear H. apply pair_equal_spec in H'. destruct H' as [H' <-]. apply pair_equal_spec in H'. destruct H' as [-> <-]. apply retry_ok in R. destruct R as (k & Hk & D & C & F). unfold igraph_SBM in D, F.
  pose proof (allowed N ltac:(lia)) as AL.
  destruct (Nat.eqb_spec (list_sum (repeat (N / 9)%nat 9)) N) as [E1|E1]; cbn [andb] in D; [|discriminate].
  destruct (forallb _ (hierarchical_matrix N)) eqn:E2; [|discriminate]. injection D as <-. destruct (proj1 AL) as [H54 H9]; [auto|].
  cbn [andb] in F. clear AL E2 E1.
  split; auto. split; auto. split.
  { exists k. split; [lia|]. split; auto. split; auto. intros j Hj. destruct (F j) as (y & Y1 & Y2); [lia|]. injection Y1 as <-. exact Y2. }
  pose proof (Nat.div_mod N 9 ltac:(lia)) as DM. rewrite H9, Nat.add_0_r in DM. set (B := (N / 9)%nat) in *. assert (HB : (0 < B)%nat) by lia.
  assert (H3 : (N / 3 = 3 * B)%nat). { rewrite DM. replace (9 * B)%nat with (3 * B * 3)%nat by lia. apply Nat.div_mul. lia. }
  rewrite !map_length, !seq_length. split; auto. split; auto.
  assert (Q9 : map (fun i => (i / B)%nat) (seq 0 N) = map (fun i => (i / B)%nat) (seq 0 (B * 9))) by (rewrite Nat.mul_comm, <- DM; reflexivity).
  assert (Q3 : map (fun i => (i / (3 * B))%nat) (seq 0 N) = map (fun i => (i / (3 * B))%nat) (seq 0 (3 * B * 3))) by (replace (3 * B * 3)%nat with (9 * B)%nat by lia; rewrite <- DM; reflexivity).
  split; [|split; [|split; [|split]]].
  - intros i Hi. rewrite Q9, Q3, !lv_nth by lia. split; auto. rewrite (Nat.mul_comm 3 B), Nat.div_div by lia. reflexivity.
  - intros b Hb. rewrite Q9. apply nodes_in_lv. auto.
  - intros b Hb. rewrite Q3, H3. apply nodes_in_lv. auto.
  - rewrite Q3. apply num_communities_spec. split; [lia|]. intros x. apply lv_in; lia.
  - rewrite Q9. apply num_communities_spec. split; [lia|]. intros x. apply lv_in; lia.
Qed.
Print Assumptions C94_network.

Theorem C94_errors : forall sample connected N fuel, (0 < fuel)%nat ->
  (N = 0%nat -> generate_hierarchical_SBM sample connected N fuel = Some (Raise ZeroDivisionError)) /\
  ((0 < N)%nat -> (N < 54)%nat \/ (N mod 9 <> 0)%nat -> generate_hierarchical_SBM sample connected N fuel = Some (Raise ValueError)) /\
  ((54 <= N)%nat -> (N mod 9 = 0)%nat ->
     (forall e, generate_hierarchical_SBM sample connected N fuel <> Some (Raise e)) /\
     (generate_hierarchical_SBM sample connected N fuel = None <-> forall k, (k < fuel)%nat -> connected (sample k) = false)).
Proof.
  intros sample connected N fuel Hf. unfold generate_hierarchical_SBM. split; [intros ->; reflexivity|]. split.
  - intros HN H. destruct (Nat.eqb_spec N 0); [lia|]. destruct fuel as [|fuel]; [lia|]. cbn [retry]. unfold igraph_SBM. pose proof (allowed N HN) as AL.
    destruct (Nat.eqb_spec (list_sum (repeat (N / 9)%nat 9)) N) as [E1|E1]; cbn [andb]; auto. destruct (forallb _ (hierarchical_matrix N)) eqn:E2; auto.
    destruct (proj1 AL); [auto|]. lia.
  - intros H54 H9. destruct (Nat.eqb_spec N 0); [lia|]. destruct (proj2 (allowed N ltac:(lia)) (conj H54 H9)) as [E1 E2].
    assert (D : forall k, igraph_SBM sample k N (hierarchical_matrix N) (repeat (N / 9)%nat 9) = Ok (sample k)).
    { intros k. unfold igraph_SBM. rewrite E1, Nat.eqb_refl, E2. reflexivity. }
    split.
    + intros e H. destruct (retry _ _ _ _) as [[g'|e']|] eqn:R; try discriminate. apply retry_raise in R. destruct R as (j & _ & R). rewrite D in R. discriminate.
    + split.
      * intros H k Hk. destruct (retry _ _ _ _) as [[g'|e']|] eqn:R; try discriminate. pose proof (proj2 (retry_none _ _ _ _) R k ltac:(lia)) as (y & Y1 & Y2). rewrite D in Y1. injection Y1 as <-. exact Y2.
      * intros H. rewrite (proj1 (retry_none _ _ _ _)); auto. intros i Hi. exists (sample i). split; [apply D|apply H; lia].
Qed.
Print Assumptions C94_errors.

(** With 54 vertices and a second draw that is connected. *)
Example C94_example : forall a b connected, connected a = false -> connected b = true ->
  exists gt3 gt9, generate_hierarchical_SBM (fun k => if Nat.eqb k 0 then a else b) connected 54 5 = Some (Ok (b, gt3, gt9)).
Proof.
  intros a b connected Ha Hb. set (sample := fun k => if Nat.eqb k 0 then a else b).
  destruct (C94_errors sample connected 54 5 ltac:(lia)) as (_ & _ & H). destruct H as [H1 H2]; [lia|reflexivity|].
  destruct (generate_hierarchical_SBM sample connected 54 5) as [[[[g gt3] gt9]|e]|] eqn:G.
  - exists gt3, gt9. destruct (C94_network _ _ _ _ _ _ _ G) as (_ & _ & (k & _ & -> & C & F) & _). destruct k as [|k]; [cbn in C; congruence|]. reflexivity.
  - exfalso. eapply H1. reflexivity.
  - exfalso. pose proof (proj1 H2 eq_refl 1%nat ltac:(lia)) as Z. cbn in Z. congruence.
Qed.

(** ** C95: the random multilayer graph of the tests splits the edges of one connected graph by whether they stay within a layer. *)
Theorem C95_multilayer : forall sample connected n T dir fuel g gi lv,
  generate_connected_multilayer_ER sample connected n T dir fuel = Some (Ok (g, gi, lv)) ->
  length lv = (n * T)%nat /\ (forall i, (i < n * T)%nat -> nth i lv 0%nat = (i / n)%nat) /\
  vcount g = (n * T)%nat /\ vcount gi = (n * T)%nat /\ directed g = dir /\ directed gi = dir /\ weights g = None /\ weights gi = None /\
  exists k, (k < fuel)%nat /\ connected (sample k) = true /\ (forall j, (j < k)%nat -> connected (sample j) = false) /\
    Permutation (edges g ++ edges gi) (edges (sample k)) /\
    edges_within_layers g lv /\ (forall u v, In (u, v) (edges gi) -> nth u lv 0%nat <> nth v lv 0%nat).
Proof.
  intros sample connected n T dir fuel g gi lv H. unfold generate_connected_multilayer_ER, generate_connected_ER in H.
  destruct (retry _ _ _ _) as [[g'|e]|] eqn:R; try discriminate. injection H as <- <- <-. apply retry_ok in R. destruct R as (k & Hk & D & C & F). injection D as <-.
  cbn [vcount directed weights edges]. split; [apply lv_length|]. split; [intros i Hi; apply lv_nth; auto|]. repeat (split; [reflexivity|]).
  exists k. split; [lia|]. split; auto. split; [intros j Hj; destruct (F j) as (y & Y1 & Y2); [lia|]; injection Y1 as <-; exact Y2|]. split; [|split].
  - generalize (edges (sample k)). induction l as [|e l IH]; auto. cbn [filter]. destruct (Nat.eqb _ _); cbn [negb app]; [constructor; exact IH|].
    eapply Permutation_trans; [apply Permutation_sym, Permutation_middle|]. constructor. exact IH.
  - intros u v I. cbn [edges] in I. apply filter_In in I. destruct I as [_ I]. apply Nat.eqb_eq in I. exact I.
  - intros u v I. apply filter_In in I. destruct I as [_ I]. cbn [fst snd] in I. destruct (Nat.eqb_spec (nth u (map (fun i => (i / n)%nat) (seq 0 (n * T))) 0%nat) (nth v (map (fun i => (i / n)%nat) (seq 0 (n * T))) 0%nat)); [discriminate|auto].
Qed.
Print Assumptions C95_multilayer.

Theorem C95_connected : forall sample connected fuel,
  (forall g, generate_connected_ER sample connected fuel = Some (Ok g) <->
     exists k, (k < fuel)%nat /\ g = sample k /\ connected g = true /\ forall j, (j < k)%nat -> connected (sample j) = false) /\
  (generate_connected_ER sample connected fuel = None <-> forall k, (k < fuel)%nat -> connected (sample k) = false).
Proof.
  intros sample connected fuel. unfold generate_connected_ER. split.
  - intros g. split.
    + intros H. apply retry_ok in H. destruct H as (k & Hk & D & C & F). injection D as <-. exists k. split; [lia|]. split; auto. split; auto.
      intros j Hj. destruct (F j) as (y & Y1 & Y2); [lia|]. injection Y1 as <-. exact Y2.
    + intros (k & Hk & -> & C & F). apply (@retry_first _ _ _ fuel 0 k); auto; [lia|]. intros i Hi. exists (sample i). split; auto. apply F. lia.
  - rewrite <- retry_none. split.
    + intros H k Hk. destruct (H k) as (y & Y1 & Y2); [lia|]. injection Y1 as <-. exact Y2.
    + intros H i Hi. exists (sample i). split; auto. apply H. lia.
Qed.
Print Assumptions C95_connected.

(** A random partition uses exactly the labels 0, ..., K - 1; every such labeling is a possible result; with fewer vertices than
    communities the loop never ends. *)
Theorem C95_partition : forall label n K fuel p, (forall k v, (label k v < K)%nat) -> generate_random_partition label n K fuel = Some (Ok p) ->
  length p = n /\ (forall x, In x p <-> (x < K)%nat) /\ ((0 < K)%nat -> num_communities p = Ok K) /\
  exists k, (k < fuel)%nat /\ forall v, (v < n)%nat -> nth v p 0%nat = label k v.
Proof.
  intros label n K fuel p HL H. unfold generate_random_partition in H. apply retry_ok in H. destruct H as (k & Hk & D & C & _).
  destruct (Nat.eqb K 0 && negb (Nat.eqb n 0)); [discriminate|]. injection D as <-. apply Nat.eqb_eq in C.
  assert (I : forall x, In x (map (label k) (seq 0 n)) <-> (x < K)%nat).
  { intros x. split; [intros Hx; apply in_map_iff in Hx; destruct Hx as (v & <- & _); apply HL|]. intros Hx.
    assert (Hi : incl (seq 0 K) (nodup Nat.eq_dec (map (label k) (seq 0 n)))).
    { apply NoDup_length_incl; [apply NoDup_nodup|rewrite seq_length; lia|]. intros y Hy. apply nodup_In in Hy. apply in_map_iff in Hy. destruct Hy as (v & <- & _). apply in_seq. specialize (HL k v). lia. }
    apply (nodup_In Nat.eq_dec). apply Hi. apply in_seq. lia. }
  split; [rewrite map_length, seq_length; auto|]. split; auto. split; [intros HK; apply num_communities_spec; split; auto|].
  exists k. split; [lia|]. intros v Hv. rewrite (nth_indep _ _ (label k 0%nat)) by (rewrite map_length, seq_length; auto). rewrite map_nth, seq_nth by auto. reflexivity.
Qed.
Print Assumptions C95_partition.

Theorem C95_partition_runs : forall label n K fuel, 
  (forall p, labelled p K -> (0 < fuel)%nat -> generate_random_partition (fun _ v => nth v p 0%nat) (length p) K fuel = Some (Ok p)) /\
  ((n < K)%nat -> generate_random_partition label n K fuel = None) /\
  (K = 0%nat -> (0 < n)%nat -> (0 < fuel)%nat -> generate_random_partition label n K fuel = Some (Raise ValueError)).
Proof.
  intros label n K fuel. unfold generate_random_partition. split; [|split].
  - intros p Hp Hf. pose proof Hp as Hp'. destruct Hp' as [HK _]. apply (@retry_first _ _ _ fuel 0 0 p).
    + lia.
    + destruct (Nat.eqb_spec K 0); [lia|]. cbn [andb]. f_equal. clear Hp HK. induction p as [|a p IH]; auto. cbn [length seq map nth]. f_equal. rewrite <- seq_shift, map_map. exact IH.
    + apply num_communities_labelled in Hp. unfold num_communities in Hp. apply bind_ok in Hp. destruct Hp as (m & _ & Hp).
      destruct (Nat.eqb_spec (length (nodup Nat.eq_dec p)) (m + 1)) as [E|E]; [|discriminate]. injection Hp as <-. apply Nat.eqb_eq. lia.
    + intros i Hi. lia.
  - intros Hn. apply retry_none. intros i _. exists (map (label i) (seq 0 n)). split.
    + destruct (Nat.eqb_spec K 0); [lia|]. reflexivity.
    + apply Nat.eqb_neq. assert (length (nodup Nat.eq_dec (map (label i) (seq 0 n))) <= n)%nat; [|lia].
      replace n with (length (map (label i) (seq 0 n))) at 2 by (rewrite map_length, seq_length; auto). apply NoDup_incl_length; [apply NoDup_nodup|]. intros x Hx. apply nodup_In in Hx. exact Hx.
  - intros -> Hn Hf. destruct fuel; [lia|]. cbn [retry]. destruct (Nat.eqb_spec n 0); [lia|]. reflexivity.
Qed.
Print Assumptions C95_partition_runs.

Theorem C95_partitions : forall Ks label n num K_max fuel ps, (forall i, (1 <= Ks i <= K_max)%nat) -> (forall i k v, (label i k v < Ks i)%nat) ->
  generate_random_partitions Ks label n num K_max fuel = Some (Ok ps) ->
  length ps = num /\ forall i, (i < num)%nat -> length (nth i ps []) = n /\ num_communities (nth i ps []) = Ok (Ks i).
Proof.
  intros Ks label n num K_max fuel ps HK HL. unfold generate_random_partitions.
  assert (G : forall more i ps, random_partitions_loop Ks label n K_max i more fuel = Some (Ok ps) ->
    length ps = more /\ forall j, (j < more)%nat -> length (nth j ps []) = n /\ num_communities (nth j ps []) = Ok (Ks (i + j)%nat)).
  { clear ps. induction more as [|more IH]; intros i ps H; cbn [random_partitions_loop] in H.
    - injection H as <-. split; auto. intros j Hj. lia.
    - destruct (Nat.eqb_spec K_max 0); [discriminate|]. destruct (generate_random_partition (label i) n (Ks i) fuel) as [[p|e]|] eqn:P; try discriminate.
      destruct (random_partitions_loop _ _ _ _ _ _ _) as [[ps'|e]|] eqn:R; try discriminate. injection H as <-. apply IH in R. destruct R as [R1 R2].
      split; [cbn; auto|]. destruct (C95_partition _ _ _ _ _ (HL i) P) as (P1 & _ & P2 & _). intros j Hj. destruct j as [|j].
      + cbn [nth]. rewrite Nat.add_0_r. split; auto. apply P2. specialize (HK i). lia.
      + cbn [nth]. rewrite Nat.add_succ_r. apply R2. lia. }
  intros H. apply G in H. exact H.
Qed.
Print Assumptions C95_partitions.

(** Two layers of two vertices; a path that crosses the layers once. *)
Example C95_example :
  generate_connected_multilayer_ER (fun _ => mkGraph 4 false [(0, 1); (1, 2); (2, 3)]%nat None) (fun _ => true) 2 2 false 1
  = Some (Ok (mkGraph 4 false [(0, 1); (2, 3)]%nat None, mkGraph 4 false [(1, 2)]%nat None, [0; 0; 1; 1]%nat)) /\
  generate_random_partitions (fun i => S i) (fun i k v => if Nat.eqb k 0 then 0%nat else (v mod S i)%nat) 3 2 2 5 = Some (Ok [[0; 0; 0]; [0; 1; 0]]%nat).
Proof. split; reflexivity. Qed.
