(** Property theorems about the law-firm network: C93. *)
From Coq Require Import String.
From Verif Require Import PyBase PyGraph M_partition M_champ M_leiden M_estimation_utils M_estimation M_generators Spec Spec_graph Spec_leiden Spec_sbm Spec_multisbm Spec_check Spec_valid Spec_generators Spec_lazega
  L_base L_modularity L_modularity3 L_leiden L_sbm L_sbm2 L_check L_multisbm L_copying L_accepted L_omega L_generators L_generators2 L_lazega.
Open Scope R_scope.

(** ** C93: for square matrices the network holds exactly the reported ties, one layer for each kind of tie, and every person is
    coupled with their copies. *)
Lemma lazega_bounds N adjs u v : (0 < N)%nat -> (forall adj, In adj adjs -> square N adj) -> In (u, v) (lazega_ties N adjs) ->
  (u < N * length adjs)%nat /\ (v < N * length adjs)%nat /\ (u / N = v / N)%nat.
Proof.
  intros HN H I. destruct (ties_network_ok adjs H) as [_ E]. apply E in I. destruct I as (t & i & j & Ht & Hi & Hj & -> & -> & _).
  rewrite !div_layer by auto. split; [nia|]. split; [nia|auto].
Qed.
Lemma lazega_runs N advice friend work : (0 < N)%nat -> square N advice -> square N friend -> square N work ->
  generate_lazega_igraph N advice friend work
  = Ok (graph_of_edges true (lazega_ties N [advice; friend; work]), graph_of_edges true (lazega_couplings N 3), map (fun i => (i / N)%nat) (seq 0 (N * 3))).
Proof.
  intros HN Ha Hf Hw. unfold generate_lazega_igraph. rewrite (proj1 Ha), (proj1 Hf), (proj1 Hw), Nat.eqb_refl. cbn [andb].
  assert (H : forall adj, In adj [advice; friend; work] -> square N adj) by (intros adj [<-|[<-|[<-|[]]]]; auto).
  assert (F1 : forallb (fun e => Nat.ltb (fst e) (N * 3) && Nat.ltb (snd e) (N * 3)) (lazega_couplings N 3) = true).
  { apply forallb_forall. intros [a b] I. apply couplings_in in I; auto. cbn [fst snd]. apply andb_true_intro. split; apply Nat.ltb_lt; lia. }
  assert (F2 : forallb (fun e => Nat.ltb (fst e) (N * 3) && Nat.ltb (snd e) (N * 3)) (lazega_ties N [advice; friend; work]) = true).
  { apply forallb_forall. intros [a b] I. apply lazega_bounds in I; auto. cbn [fst snd length] in *. apply andb_true_intro. split; apply Nat.ltb_lt; lia. }
  rewrite F1, F2. reflexivity.
Qed.

Theorem C93_network : forall N advice friend work, (0 < N)%nat -> square N advice -> square N friend -> square N work ->
  exists g gi lv, generate_lazega_igraph N advice friend work = Ok (g, gi, lv) /\
    length lv = (N * 3)%nat /\ (forall i, (i < N * 3)%nat -> nth i lv 0%nat = (i / N)%nat) /\
    ties_network N [advice; friend; work] g /\ weights g = None /\ wf_graph g /\
    directed gi = true /\ vcount gi = (N * 3)%nat /\ length (edges gi) = (6 * N)%nat /\
    (forall a b, In (a, b) (edges gi) <-> (a < N * 3)%nat /\ (b < N * 3)%nat /\ (a mod N = b mod N)%nat /\ (a < N \/ b < N)%nat).
Proof.
  intros N advice friend work HN Ha Hf Hw. eexists. eexists. eexists. split; [apply lazega_runs; auto|].
  assert (H : forall adj, In adj [advice; friend; work] -> square N adj) by (intros adj [<-|[<-|[<-|[]]]]; auto).
  split; [apply lv_length|]. split; [intros i Hi; apply lv_nth; auto|]. split; [apply ties_network_ok; auto|]. split; [reflexivity|]. split; [apply graph_of_edges_wf|].
  split; [reflexivity|]. split; [apply couplings_vcount; auto|]. split; [cbn [edges graph_of_edges]; rewrite couplings_length; lia|].
  intros a b. cbn [edges graph_of_edges]. rewrite couplings_in by auto. split.
  - intros [(H1 & H2 & <-)|(H1 & H2 & <-)]; rewrite Nat.mod_mod by lia; lia.
  - intros (H1 & H2 & H3 & [H4|H4]); [left|right]; rewrite (Nat.mod_small _ _ H4) in H3; auto.
Qed.
Print Assumptions C93_network.

Theorem C93_assertions : forall N advice friend work,
  (length advice <> N \/ length friend <> N \/ length work <> N -> generate_lazega_igraph N advice friend work = Raise AssertionError) /\
  (forall g gi lv, generate_lazega_igraph N advice friend work = Ok (g, gi, lv) ->
     length advice = N /\ length friend = N /\ length work = N /\ (vcount g <= N * 3)%nat /\ (vcount gi <= N * 3)%nat).
Proof.
  intros N advice friend work. unfold generate_lazega_igraph. split.
  - intros H. destruct (Nat.eqb_spec N (length advice)), (Nat.eqb_spec N (length friend)), (Nat.eqb_spec N (length work)); cbn [andb]; auto. exfalso. intuition congruence.
  - intros g gi lv H. destruct (Nat.eqb_spec N (length advice)), (Nat.eqb_spec N (length friend)), (Nat.eqb_spec N (length work)); cbn [andb] in H; try discriminate.
    match type of H with (if forallb ?f ?l1 && forallb _ ?l2 then _ else _) = _ => destruct (forallb f l1) eqn:F1; [destruct (forallb f l2) eqn:F2|] end; cbn [andb] in H; try discriminate.
    injection H as <- <- _. assert (G : forall es, forallb (fun e : nat * nat => Nat.ltb (fst e) (N * 3) && Nat.ltb (snd e) (N * 3)) es = true -> (vcount (graph_of_edges true es) <= N * 3)%nat).
    { intros es F. rewrite forallb_forall in F. apply graph_of_edges_le. intros u v I. specialize (F _ I). cbn [fst snd] in F. apply andb_prop in F. rewrite !Nat.ltb_lt in F. exact F. }
    repeat split; auto.
Qed.
Print Assumptions C93_assertions.

(** The network passes the structural check of the multiplex model exactly when every kind of tie occurs and the very last vertex
    has one. *)
Theorem C93_accepted : forall N advice friend work g gi lv, (0 < N)%nat -> square N advice -> square N friend -> square N work ->
  generate_lazega_igraph N advice friend work = Ok (g, gi, lv) ->
  (valid_multilayer g gi (repeat 1 (length (edges g))) lv "multiplex" <-> has_edge_at g (N * 3 - 1) /\ forall t, (t < 3)%nat -> layer_has_edge g lv t).
Proof.
  intros N advice friend work g gi lv HN Ha Hf Hw H. rewrite lazega_runs in H by auto. injection H as <- <- <-.
  assert (S : forall adj, In adj [advice; friend; work] -> square N adj) by (intros adj [<-|[<-|[<-|[]]]]; auto).
  rewrite valid_generated; auto; try discriminate; try lia.
  - split; [intros (_ & H); exact H|]. intros H. split; [lia|exact H].
  - intros u v I. apply lazega_bounds in I; auto.
  - intros _. apply couplings_vcount; auto.
  - intros _. cbn [edges graph_of_edges]. rewrite couplings_length. lia.
Qed.
Print Assumptions C93_accepted.

(** Yet the couplings are not those of a multiplex network: there is none between the second and the third layer, every person is
    coupled with themselves in the first layer, twice, and the number of edges still is the number that the check asks for. *)
Theorem C93_refuted_couplings : forall N advice friend work g gi lv, (0 < N)%nat -> square N advice -> square N friend -> square N work ->
  generate_lazega_igraph N advice friend work = Ok (g, gi, lv) ->
  length (edges gi) = (N * 3 * (3 - 1))%nat /\ ~ multiplex_couplings gi N 3 /\
  (forall i, (i < N)%nat -> ~ In (N + i, 2 * N + i)%nat (edges gi) /\ ~ In (2 * N + i, N + i)%nat (edges gi)) /\
  (forall i, (i < N)%nat -> count_occ (fun e f : nat * nat => ltac:(decide equality; apply Nat.eq_dec) : {e = f} + {e <> f}) (edges gi) (i, i) = 2%nat).
Proof.
  intros N advice friend work g gi lv HN Ha Hf Hw H. rewrite lazega_runs in H by auto. injection H as <- <- <-. cbn [edges graph_of_edges].
  assert (No : forall i, (i < N)%nat -> ~ In (N + i, 2 * N + i)%nat (lazega_couplings N 3) /\ ~ In (2 * N + i, N + i)%nat (lazega_couplings N 3)).
  { intros i Hi. split; intros I; apply couplings_in in I; auto; lia. }
  split; [rewrite couplings_length; lia|]. split; [|split; auto].
  - intros (_ & _ & M). cbn [edges graph_of_edges] in M. destruct (No 0%nat HN) as [Z _]. apply Z. apply M. split; [lia|]. split; [lia|]. split; [lia|].
    rewrite !Nat.add_0_r. rewrite Nat.mod_same, Nat.mod_mul by lia. reflexivity.
  - intros i Hi. set (dec := fun e f : nat * nat => _ : {e = f} + {e <> f}). unfold lazega_couplings. rewrite count_occ_app. cbn [seq map].
    assert (A : forall l, NoDup l -> count_occ dec (flat_map (fun i => [(i, 0 * N + i); (i, 1 * N + i); (i, 2 * N + i)]%nat) l) (i, i) = if in_dec Nat.eq_dec i l then 1%nat else 0%nat).
    { induction l as [|x l IH]; intros ND; auto. inversion ND; subst. cbn [flat_map app count_occ]. rewrite IH by auto.
      destruct (dec (x, (0 * N + x)%nat) (i, i)) as [E|E]; destruct (dec (x, (1 * N + x)%nat) (i, i)) as [E1|E1]; try (injection E1; intros; lia);
      destruct (dec (x, (2 * N + x)%nat) (i, i)) as [E2|E2]; try (injection E2; intros; lia).
      - injection E as -> _. destruct (in_dec Nat.eq_dec i l); [contradiction|]. destruct (in_dec Nat.eq_dec i (i :: l)) as [|Z]; auto. exfalso. apply Z. left; auto.
      - assert (x <> i) by (intros ->; apply E; reflexivity). destruct (in_dec Nat.eq_dec i l) as [Y|Y], (in_dec Nat.eq_dec i (x :: l)) as [Z|Z]; auto; exfalso.
        + apply Z. right; auto.
        + destruct Z; auto. }
    assert (B : forall l, NoDup l -> count_occ dec (flat_map (fun i => [(0 * N + i, i); (1 * N + i, i); (2 * N + i, i)]%nat) l) (i, i) = if in_dec Nat.eq_dec i l then 1%nat else 0%nat).
    { induction l as [|x l IH]; intros ND; auto. inversion ND; subst. cbn [flat_map app count_occ]. rewrite IH by auto.
      destruct (dec ((0 * N + x)%nat, x) (i, i)) as [E|E]; destruct (dec ((1 * N + x)%nat, x) (i, i)) as [E1|E1]; try (injection E1; intros; lia);
      destruct (dec ((2 * N + x)%nat, x) (i, i)) as [E2|E2]; try (injection E2; intros; lia).
      - injection E as _ ->. destruct (in_dec Nat.eq_dec i l); [contradiction|]. destruct (in_dec Nat.eq_dec i (i :: l)) as [|Z]; auto. exfalso. apply Z. left; auto.
      - assert (x <> i) by (intros ->; apply E; reflexivity). destruct (in_dec Nat.eq_dec i l) as [Y|Y], (in_dec Nat.eq_dec i (x :: l)) as [Z|Z]; auto; exfalso.
        + apply Z. right; auto.
        + destruct Z; auto. }
    rewrite A, B by apply seq_NoDup. destruct (in_dec Nat.eq_dec i (seq 0 N)) as [|Z]; auto. exfalso. apply Z. apply in_seq. lia.
Qed.
Print Assumptions C93_refuted_couplings.

(** The persistence that the package computes on this network, for every partition: never below a third, whatever the labels, and
    larger than with all the couplings of a multiplex network unless everyone keeps their label between the last two layers. *)
Theorem C93_persistence : forall N advice friend work g gi lv c, (0 < N)%nat -> square N advice -> square N friend -> square N work ->
  generate_lazega_igraph N advice friend work = Ok (g, gi, lv) -> length c = (N * 3)%nat ->
  exists f f' x x', 
    persistence_function_from_model "multiplex" gi (Some lv) (Some N) (Some 3%nat) (Some (map (nodes_in lv) (seq 0 3))) = Ok f /\ f c = Ok x /\
    persistence_function_from_model "multiplex" (graph_of_edges true (all_copies N 3)) (Some lv) (Some N) (Some 3%nat) (Some (map (nodes_in lv) (seq 0 3))) = Ok f' /\ f' c = Ok x' /\
    x = INR (N + agreeing N c 0 1 + agreeing N c 0 2) / (3 * INR N) /\
    x' = INR (agreeing N c 0 1 + agreeing N c 0 2 + agreeing N c 1 2) / (3 * INR N) /\
    1 / 3 <= x <= 1 /\ 0 <= x' <= x /\ x - x' = (1 - INR (agreeing N c 1 2) / INR N) / 3.
Proof.
  intros N advice friend work g gi lv c HN Ha Hf Hw H Hc. rewrite lazega_runs in H by auto. injection H as <- <- <-.
  set (lv := map (fun i => (i / N)%nat) (seq 0 (N * 3))).
  assert (HL : length lv = (N * 3)%nat) by apply lv_length.
  assert (HB : forall v, (v < N * 3)%nat -> (nth v lv 0%nat < 3)%nat).
  { intros v Hv. unfold lv. rewrite lv_nth by auto. apply Nat.div_lt_upper_bound; lia. }
  destruct (@persistence_ok "multiplex" (graph_of_edges true (lazega_couplings N 3)) lv N 3 c (N * 3) (map (nodes_in lv) (seq 0 3))) as (f & x & F1 & F2 & F3); auto; try lia; try discriminate.
  { apply graph_of_edges_wf. } { apply couplings_vcount; auto. }
  destruct (@persistence_ok "multiplex" (graph_of_edges true (all_copies N 3)) lv N 3 c (N * 3) (map (nodes_in lv) (seq 0 3))) as (f' & x' & G1 & G2 & G3); auto; try lia; try discriminate.
  { apply graph_of_edges_wf. } { apply all_copies_vcount; auto; lia. }
  exists f, f', x, x'. repeat (split; [assumption|]).
  assert (PN : 0 < INR N) by (apply lt_0_INR; auto). assert (E3 : INR 3 = 3) by (rewrite INR_IZR_INZ; reflexivity).
  destruct F3 as [[Z _]|[[Z _]|[_ F3]]]; try discriminate. destruct G3 as [[Z _]|[[Z _]|[_ G3]]]; try discriminate.
  rewrite kept_star in F3. rewrite kept_all in G3. rewrite E3 in F3, G3. rewrite mult_INR in F3, G3. replace (INR 2) with 2 in F3, G3 by reflexivity.
  assert (X : x = INR (N + agreeing N c 0 1 + agreeing N c 0 2) / (3 * INR N)) by (rewrite F3; field; lra).
  assert (X' : x' = INR (agreeing N c 0 1 + agreeing N c 0 2 + agreeing N c 1 2) / (3 * INR N)) by (rewrite G3; field; lra).
  split; auto. split; auto. clear F3 G3 F1 F2 G1 G2.
  pose proof (le_INR _ _ (agreeing_le N c 0 1)) as A1. pose proof (le_INR _ _ (agreeing_le N c 0 2)) as A2. pose proof (le_INR _ _ (agreeing_le N c 1 2)) as A3.
  pose proof (pos_INR (agreeing N c 0 1)) as B1. pose proof (pos_INR (agreeing N c 0 2)) as B2. pose proof (pos_INR (agreeing N c 1 2)) as B3.
  rewrite !plus_INR in X, X'. set (n := INR N) in *. set (a := INR (agreeing N c 0 1)) in *. set (b := INR (agreeing N c 0 2)) in *. set (d := INR (agreeing N c 1 2)) in *. clearbody n a b d.
  assert (Pi : 0 < / (3 * n)) by (apply Rinv_0_lt_compat; lra). assert (I3 : n * / (3 * n) = 1 / 3) by (field; lra).
  unfold Rdiv in X, X'.
  assert (M : forall u w, u <= w -> u * / (3 * n) <= w * / (3 * n)) by (intros u w Hu; apply Rmult_le_compat_r; lra).
  pose proof (M n (n + a + b) ltac:(lra)). pose proof (M (n + a + b) (n + n + n) ltac:(lra)). pose proof (M 0 (a + b + d) ltac:(lra)). pose proof (M (a + b + d) (n + a + b) ltac:(lra)).
  split; [rewrite X; lra|]. split; [rewrite X, X'; lra|]. rewrite X, X'. field. lra.
Qed.
Print Assumptions C93_persistence.

(** Two persons with one tie of every kind, from the second to the first; the labels of the last two layers differ everywhere. *)
Definition two_persons : list (list Z) := [[0; 0]; [1; 0]]%Z.
Example C93_example : square 2 two_persons /\ exists g gi lv, generate_lazega_igraph 2 two_persons two_persons two_persons = Ok (g, gi, lv) /\
  edges g = [(1, 0); (3, 2); (5, 4)]%nat /\ valid_multilayer g gi (repeat 1 (length (edges g))) lv "multiplex" /\
  agreeing 2 [0; 0; 0; 0; 1; 1]%nat 1 2 = 0%nat /\
  exists f, persistence_function_from_model "multiplex" gi (Some lv) (Some 2%nat) (Some 3%nat) (Some [2; 2; 2]%nat) = Ok f /\ f [0; 0; 0; 0; 1; 1]%nat = Ok (2 / 3).
Proof.
  assert (S : square 2 two_persons) by (split; [reflexivity|intros row [<-|[<-|[]]]; reflexivity]).
  split; auto. eexists. eexists. eexists. split; [reflexivity|]. split; [reflexivity|]. split; [|split; [reflexivity|]].
  - apply (C93_accepted 2 two_persons two_persons two_persons); auto. split.
    + exists (5, 4)%nat. split; [right; right; left; reflexivity|left; reflexivity].
    + intros t Ht. destruct t as [|[|[|t]]]; [exists 1%nat, 0%nat|exists 3%nat, 2%nat|exists 5%nat, 4%nat|lia]; (split; [cbn; tauto|reflexivity]).
  - destruct (C93_persistence 2 two_persons two_persons two_persons _ _ _ [0; 0; 0; 0; 1; 1]%nat ltac:(lia) S S S eq_refl eq_refl) as (f & _ & x & _ & F1 & F2 & _ & _ & E & _).
    exists f. split; [exact F1|]. rewrite F2. f_equal. rewrite E. cbn. lra.
Qed.
