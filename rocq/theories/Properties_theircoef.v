(** Theorems about the two coefficient arrays of experiments/manual_CHAMP_test/manual_CHAMP.py: C117. *)
From Verif Require Import PyBase PyGraph M_partition M_pool M_champ M_theircoef Spec Spec_graph Spec_adjacency Spec_theircoef
  L_base L_canon L_modularity L_modularity3 L_adjacency L_theircoef Properties_coefficients Properties_adjacency.
From Coq Require Import Permutation.
Open Scope R_scope.

(** Each row is (A, P, C), P the sum of [null] over the pairs of vertices in one community. *)
Definition rows_with (g gi : graph) (null : nat -> nat -> R) (parts : list (list nat)) : list (npf * npf * npf) :=
  map (fun c => (Fin (pair_sum (vcount g) c (adjacency g)), Fin (pair_sum (vcount g) c null), Fin (pair_sum (vcount gi) c (adjacency gi)))) parts.

(** The two arrays, for any intralayer network. *)
Theorem C117_arrays : forall loops cpus order g gi lv parts,
  valid_pool cpus order parts -> wf_graph g -> wf_graph gi -> vcount gi = vcount g -> length lv = vcount g -> lv <> [] ->
  edges_within_layers g lv -> (forall l, In l lv -> exists u v, In (u, v) (edges g) /\ nth u lv 0%nat = l) ->
  (forall c, In c parts -> length c = vcount g) -> loops_agree loops g -> loops_agree loops gi ->
  our_coefarray cpus order g gi lv parts = Ok (rows_with g gi (layer_null g lv) parts) /\
  their_coefarray loops g gi lv parts = Ok (rows_with g gi (total_degree_null g lv) parts).
Proof.
  intros loops cpus order g gi lv parts Hp W Wi V Hlv Ne Hw Hh Hl La Lb. split.
  - unfold our_coefarray. rewrite coefficients_3D_pool by (auto; lia). cbn [bind]. f_equal. unfold rows_with.
    rewrite !map_map. clear. induction parts as [|c parts IH]; cbn [map combine]; [reflexivity|]. f_equal. exact IH.
  - unfold their_coefarray. destruct (@null_coefficient g lv W Hlv Ne Hw Hh) as (P & -> & HP). cbn [bind].
    unfold create_coefarray_from_partitions. apply mapM_ok. intros c Hc.
    rewrite (@get_adjacency_ok loops g c La) by auto. cbn [bind]. rewrite (HP c) by auto. cbn [bind].
    rewrite (@get_adjacency_ok loops gi c Lb) by (rewrite V; auto). reflexivity.
Qed.
Print Assumptions C117_arrays.

Lemma pair_sum_ext n c f h : (forall i j, (i < n)%nat -> (j < n)%nat -> f i j = h i j) -> pair_sum n c f = pair_sum n c h.
Proof. intros H. apply sum_to_ext; intros i Hi. apply sum_to_ext; intros j Hj. rewrite H; auto. Qed.
Lemma pair_sum_scale n c x f : pair_sum n c (fun i j => x * f i j) = x * pair_sum n c f.
Proof.
  unfold pair_sum. rewrite <- sum_to_scale. apply sum_to_ext; intros i Hi. rewrite <- sum_to_scale. apply sum_to_ext; intros j Hj. lra.
Qed.

(** Undirected: the two arrays are equal, their rows are the coefficients of multilayer modularity, and so the same domains are drawn. *)
Theorem C117_undirected : forall get_intersection gamma_end omega_end loops cpus order g gi lv parts,
  valid_pool cpus order parts -> wf_graph g -> wf_graph gi -> vcount gi = vcount g -> length lv = vcount g -> lv <> [] ->
  edges_within_layers g lv -> (forall l, In l lv -> exists u v, In (u, v) (edges g) /\ nth u lv 0%nat = l) ->
  (forall c, In c parts -> length c = vcount g) -> loops_agree loops g -> loops_agree loops gi ->
  directed g = false ->
  (exists rows, their_coefarray loops g gi lv parts = Ok rows /\ our_coefarray cpus order g gi lv parts = Ok rows /\
     Forall2 (fun c row => exists A P C, row = (Fin A, Fin P, Fin C) /\
       forall gamma omega, A - gamma * P + omega * C = multilayer_modularity g gi lv gamma omega c) parts rows) /\
  run_CHAMP_with_their_coefarray_computation get_intersection gamma_end omega_end loops g gi lv parts =
  run_CHAMP_with_our_coefarray_computation get_intersection gamma_end omega_end cpus order g gi lv parts.
Proof.
  intros get_intersection ge oe loops cpus order g gi lv parts Hp W Wi V Hlv Ne Hw Hh Hl La Lb D.
  destruct (C117_arrays loops cpus order g gi lv parts Hp W Wi V Hlv Ne Hw Hh Hl La Lb) as [E1 E2].
  assert (E : rows_with g gi (total_degree_null g lv) parts = rows_with g gi (layer_null g lv) parts).
  { apply map_ext. intros c. rewrite (pair_sum_ext _ c (total_degree_null g lv) (layer_null g lv)); [reflexivity|]. intros i j _ _. apply null_undirected; auto. }
  rewrite E in E2. unfold run_CHAMP_with_their_coefarray_computation, run_CHAMP_with_our_coefarray_computation. rewrite E1, E2.
  split; [|reflexivity]. exists (rows_with g gi (layer_null g lv) parts). split; [auto|]. split; [auto|].
  clear. induction parts as [|c parts IH]; cbn [map]; constructor; [|exact IH].
  do 3 eexists. split; [reflexivity|]. intros gamma omega. rewrite multilayer_APC. reflexivity.
Qed.
Print Assumptions C117_undirected.

(** Directed with as many arcs into every vertex as out of it: every P the champ package is given is twice ours (A and C are ours),
    so its objective at (gamma, omega) is the modularity at (2 gamma, omega). *)
Theorem C117_balanced : forall loops cpus order g gi lv parts,
  valid_pool cpus order parts -> wf_graph g -> wf_graph gi -> vcount gi = vcount g -> length lv = vcount g -> lv <> [] ->
  edges_within_layers g lv -> (forall l, In l lv -> exists u v, In (u, v) (edges g) /\ nth u lv 0%nat = l) ->
  (forall c, In c parts -> length c = vcount g) -> loops_agree loops gi ->
  directed g = true -> (forall v, (v < vcount g)%nat -> k_in g v = k_out g v) ->
  exists coefs : list (R * R * R),
    our_coefarray cpus order g gi lv parts = Ok (map (fun x => (Fin (fst (fst x)), Fin (snd (fst x)), Fin (snd x))) coefs) /\
    their_coefarray loops g gi lv parts = Ok (map (fun x => (Fin (fst (fst x)), Fin (2 * snd (fst x)), Fin (snd x))) coefs) /\
    Forall2 (fun c x => forall gamma omega,
      fst (fst x) - gamma * (2 * snd (fst x)) + omega * snd x = multilayer_modularity g gi lv (2 * gamma) omega c) parts coefs.
Proof.
  intros loops cpus order g gi lv parts Hp W Wi V Hlv Ne Hw Hh Hl Lb D B.
  destruct (C117_arrays loops cpus order g gi lv parts Hp W Wi V Hlv Ne Hw Hh Hl (or_introl D) Lb) as [E1 E2].
  exists (map (fun c => (A_of g c, P3_of g lv c, A_of gi c)) parts). rewrite E1, E2. split; [|split].
  - rewrite map_map. reflexivity.
  - rewrite map_map. f_equal. apply map_ext. intros c. cbn [fst snd]. repeat f_equal.
    rewrite (pair_sum_ext _ c (total_degree_null g lv) (fun i j => 2 * layer_null g lv i j)); [apply pair_sum_scale|].
    intros i j Hi Hj. apply null_balanced; auto.
  - clear. induction parts as [|c parts IH]; cbn [map]; constructor; [|exact IH].
    intros gamma omega. cbn [fst snd]. rewrite multilayer_APC. lra.
Qed.
Print Assumptions C117_balanced.

(** The switch TEST_DIRECTED_INTRALAYER: igraph's to_directed() leaves our array as it was and doubles every P of theirs. *)
Theorem C117_to_directed : forall loops cpus order g d gi lv parts,
  valid_pool cpus order parts -> wf_graph g -> wf_graph d -> wf_graph gi -> vcount gi = vcount g -> length lv = vcount g -> lv <> [] ->
  edges_within_layers g lv -> (forall l, In l lv -> exists u v, In (u, v) (edges g) /\ nth u lv 0%nat = l) ->
  (forall c, In c parts -> length c = vcount g) -> loops_agree loops g -> loops_agree loops gi ->
  symmetric_version g d ->
  exists coefs : list (R * R * R),
    let array := map (fun x => (Fin (fst (fst x)), Fin (snd (fst x)), Fin (snd x))) coefs in
    our_coefarray cpus order g gi lv parts = Ok array /\ their_coefarray loops g gi lv parts = Ok array /\
    our_coefarray cpus order d gi lv parts = Ok array /\
    their_coefarray loops d gi lv parts = Ok (map (fun x => (Fin (fst (fst x)), Fin (2 * snd (fst x)), Fin (snd x))) coefs).
Proof.
  intros loops cpus order g d gi lv parts Hp W Wd Wi V Hlv Ne Hw Hh Hl La Lb HS.
  pose proof (C85_same_network g d W (or_introl HS)) as S. destruct HS as (Dg & Dd & Vd & _).
  assert (Hwd : edges_within_layers d lv) by (eapply sa_within; eauto).
  assert (Hhd : forall l, In l lv -> exists u v, In (u, v) (edges d) /\ nth u lv 0%nat = l) by (intros l Hin; eapply sa_has with (g := g); eauto).
  assert (Hld : forall c, In c parts -> length c = vcount d) by (intros; rewrite Vd; auto).
  destruct (C117_arrays loops cpus order g gi lv parts Hp W Wi V Hlv Ne Hw Hh Hl La Lb) as [E1 E2].
  destruct (C117_arrays loops cpus order d gi lv parts Hp Wd Wi ltac:(lia) ltac:(lia) Ne Hwd Hhd Hld (or_introl Dd) Lb) as [E3 E4].
  exists (map (fun c => (A_of g c, P3_of g lv c, A_of gi c)) parts). cbn zeta. rewrite !map_map. rewrite E1, E2, E3, E4.
  assert (HA : forall c, A_of d c = A_of g c) by (intros c; apply (sa_A W W' S) || (apply sa_A; auto)).
  assert (HP : forall c, P3_of d lv c = P3_of g lv c) by (intros c; apply sa_P3; auto).
  split; [reflexivity|]. split; [|split]; f_equal; apply map_ext; intros c; cbn [fst snd]; repeat f_equal.
  - apply pair_sum_ext. intros i j _ _. apply null_undirected; auto.
  - apply HA.
  - apply HP.
  - apply HA.
  - rewrite <- HP. rewrite (pair_sum_ext _ c (total_degree_null d lv) (fun i j => 2 * layer_null d lv i j)); [apply pair_sum_scale|].
    intros i j Hi Hj. apply null_balanced; auto; try lia.
    assert (S' : same_adjacency d g) by (split; [lia|intros i' j' Hi' Hj'; symmetry; apply S; lia]).
    intros v Hv. apply (sa_k_sym S'); auto.
Qed.
Print Assumptions C117_to_directed.

(** For directed networks in general there is no such factor: with the arcs 0 -> 1 and 0 -> 2, the P of three separate vertices is 0
    in our array and 3/2 in theirs, so at gamma = 4/5 their objective prefers [0; 0; 1] to one community, and modularity does not. *)
Definition ex_out : graph := mkGraph 3 true [(0, 1); (0, 2)]%nat None.
Definition ex_coupling : graph := mkGraph 3 false [] None.
Definition ex_partitions : list (list nat) := [[0; 0; 0]; [0; 0; 1]; [0; 1; 2]]%nat.

Lemma rows_eq a b c a' b' c' (l l' : list (npf * npf * npf)) : a = a' -> b = b' -> c = c' -> l = l' ->
  (Fin a, Fin b, Fin c) :: l = (Fin a', Fin b', Fin c') :: l'.
Proof. congruence. Qed.
Ltac entries := unfold rows_with; cbn [map]; apply f_equal; repeat apply rows_eq; try reflexivity;
  unfold pair_sum, sum_to, delta, layer_null, total_degree_null, total_degree, layer_degree, m_layer, k_in, k_out, sum_to, adjacency, arcs;
  cbn; first [lra | field; lra | field].

Example C117_example_directed :
  our_coefarray 1 [0%nat] ex_out ex_coupling [0; 0; 0]%nat ex_partitions =
    Ok [(Fin 2, Fin 2, Fin 0); (Fin 1, Fin 1, Fin 0); (Fin 0, Fin 0, Fin 0)] /\
  their_coefarray 2 ex_out ex_coupling [0; 0; 0]%nat ex_partitions =
    Ok [(Fin 2, Fin 4, Fin 0); (Fin 1, Fin (5 / 2), Fin 0); (Fin 0, Fin (3 / 2), Fin 0)] /\
  2 - 4 / 5 * 2 > 1 - 4 / 5 * 1 /\ 2 - 4 / 5 * 4 < 1 - 4 / 5 * (5 / 2).
Proof.
  assert (Hp : valid_pool 1 [0%nat] ex_partitions) by (split; [lia|split; [apply Permutation_refl|simpl; lia]]).
  assert (W : wf_graph ex_out).
  { split; [|discriminate]. intros u v Hin. cbn in *. destruct Hin as [E|[E|[]]]; inversion E; lia. }
  assert (Wi : wf_graph ex_coupling) by (split; [intros u v []|discriminate]).
  destruct (C117_arrays 2 1 [0%nat] ex_out ex_coupling [0; 0; 0]%nat ex_partitions Hp W Wi) as [E1 E2]; try reflexivity.
  - discriminate.
  - intros u v Hin. cbn in *. destruct Hin as [E|[E|[]]]; inversion E; reflexivity.
  - intros l Hin. exists 0%nat, 1%nat. cbn in *. split; [auto|]. destruct Hin as [<-|[<-|[<-|[]]]]; reflexivity.
  - intros c Hin. cbn in Hin. destruct Hin as [<-|[<-|[<-|[]]]]; reflexivity.
  - left; reflexivity.
  - right; left; reflexivity.
  - rewrite E1, E2. split; [entries|split; [entries|lra]].
Qed.

(** Two layers 0-1 and 2-3, vertex 3 with a self-loop, the coupling edges 0-2 and 1-3: every hypothesis of C117_undirected and of
    C117_to_directed is met. *)
Definition ex_layers : graph := mkGraph 4 false [(0, 1); (2, 3); (3, 3)]%nat None.
Definition ex_layers_directed : graph := mkGraph 4 true [(0, 1); (2, 3); (3, 3); (1, 0); (3, 2); (3, 3)]%nat None.
Definition ex_pairs : graph := mkGraph 4 false [(0, 2); (1, 3)]%nat None.
Example C117_example :
  let array := [(Fin 6, Fin 6, Fin 4); (Fin 2, Fin (7 / 2), Fin 4)] in
  our_coefarray 1 [0%nat] ex_layers ex_pairs [0; 0; 1; 1]%nat [[0; 0; 0; 0]; [0; 1; 0; 1]]%nat = Ok array /\
  their_coefarray 2 ex_layers ex_pairs [0; 0; 1; 1]%nat [[0; 0; 0; 0]; [0; 1; 0; 1]]%nat = Ok array /\
  their_coefarray 2 ex_layers_directed ex_pairs [0; 0; 1; 1]%nat [[0; 0; 0; 0]; [0; 1; 0; 1]]%nat =
    Ok [(Fin 6, Fin 12, Fin 4); (Fin 2, Fin (2 * (7 / 2)), Fin 4)].
Proof.
  assert (Hp : valid_pool 1 [0%nat] [[0; 0; 0; 0]; [0; 1; 0; 1]]%nat) by (split; [lia|split; [apply Permutation_refl|simpl; lia]]).
  assert (W : wf_graph ex_layers).
  { split; [|discriminate]. intros u v Hin. cbn in *. repeat destruct Hin as [E|Hin]; try (inversion E; lia); destruct Hin. }
  assert (Wd : wf_graph ex_layers_directed).
  { split; [|discriminate]. intros u v Hin. cbn in *. repeat destruct Hin as [E|Hin]; try (inversion E; lia); destruct Hin. }
  assert (Wi : wf_graph ex_pairs).
  { split; [|discriminate]. intros u v Hin. cbn in *. repeat destruct Hin as [E|Hin]; try (inversion E; lia); destruct Hin. }
  assert (Hw : edges_within_layers ex_layers [0; 0; 1; 1]%nat).
  { intros u v Hin. cbn in *. repeat destruct Hin as [E|Hin]; try (inversion E; reflexivity); destruct Hin. }
  assert (Hh : forall l, In l [0; 0; 1; 1]%nat -> exists u v, In (u, v) (edges ex_layers) /\ nth u [0; 0; 1; 1]%nat 0%nat = l).
  { intros l Hin. cbn in Hin. destruct Hin as [<-|[<-|[<-|[<-|[]]]]]; [exists 0%nat, 1%nat|exists 0%nat, 1%nat|exists 2%nat, 3%nat|exists 2%nat, 3%nat]; cbn; auto. }
  assert (Hl : forall c, In c [[0; 0; 0; 0]; [0; 1; 0; 1]]%nat -> length c = vcount ex_layers) by (intros c Hin; cbn in Hin; destruct Hin as [<-|[<-|[]]]; reflexivity).
  assert (La : loops_agree 2 ex_layers) by (right; left; reflexivity).
  assert (Lb : loops_agree 2 ex_pairs) by (right; left; reflexivity).
  assert (HS : symmetric_version ex_layers ex_layers_directed) by (repeat split; apply Permutation_refl).
  destruct (C117_arrays 2 1 [0%nat] ex_layers ex_pairs [0; 0; 1; 1]%nat _ Hp W Wi eq_refl eq_refl ltac:(discriminate) Hw Hh Hl La Lb) as [E1 E2].
  destruct (C117_to_directed 2 1 [0%nat] ex_layers ex_layers_directed ex_pairs [0; 0; 1; 1]%nat _ Hp W Wd Wi eq_refl eq_refl ltac:(discriminate) Hw Hh Hl La Lb HS)
    as (coefs & F1 & F2 & F3 & F4).
  assert (R1 : our_coefarray 1 [0%nat] ex_layers ex_pairs [0; 0; 1; 1]%nat [[0; 0; 0; 0]; [0; 1; 0; 1]]%nat = Ok [(Fin 6, Fin 6, Fin 4); (Fin 2, Fin (7 / 2), Fin 4)])
    by (rewrite E1; entries).
  cbn zeta. split; [exact R1|]. rewrite R1 in F1. rewrite F2, F4, <- F1. split; [reflexivity|].
  inversion F1 as [F]. destruct coefs as [|[[a p] c] [|[[a' p'] c'] [|]]]; try discriminate. cbn in F. inversion F; subst.
  cbn [map fst snd]. apply f_equal. repeat apply rows_eq; first [reflexivity | lra].
Qed.
