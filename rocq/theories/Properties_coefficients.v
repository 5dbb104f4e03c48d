(** Property theorems about the modularity coefficients: C12-C16. *)
From Verif Require Import PyBase PyGraph M_partition M_pool M_champ Spec Spec_graph L_base L_canon
  L_modularity L_modularity3 L_parallel L_bounds.
Open Scope R_scope.

Example valid_pool_ex : valid_pool 4 [2; 0; 3; 1]%nat [[0; 0; 1]; [0; 1; 2]]%nat.
Proof.
  split; [lia|split]; [|simpl; lia].
  change (seq 0 4) with [0; 1; 2; 3]%nat. apply NoDup_Permutation.
  - repeat constructor; simpl; intuition lia.
  - repeat constructor; simpl; intuition lia.
  - intros x; simpl; intuition lia.
Qed.

Lemma coefficients_2D_pool cpus order st g parts :
  valid_pool cpus order parts -> wf_graph g -> edges g <> [] -> (forall c, In c parts -> length c = vcount g) ->
  partition_coefficients_2D cpus order g parts st = Ok (map (A_of g) parts, map Fin (map (P_of g) parts)).
Proof.
  intros (Hc & Ho & Hn) Hw He Hl. apply parallel_2D_ok; auto. rewrite map_map. apply coefficients_2D_ok; auto.
Qed.

Lemma nth_error_map_inv {A B} (f : A -> B) l i x y : nth_error l i = Some x -> nth_error (map f l) i = Some y -> y = f x.
Proof. intros H1 H2. rewrite (map_nth_error f _ _ H1) in H2. congruence. Qed.

Lemma coefficients_2D_modularity :
  forall cpus order st g parts,
    valid_pool cpus order parts -> wf_graph g -> edges g <> [] ->
    (forall c, In c parts -> length c = vcount g) ->
    exists a_hats p_hats,
      partition_coefficients_2D cpus order g parts st = Ok (a_hats, map Fin p_hats) /\
      length a_hats = length parts /\ length p_hats = length parts /\
      forall i c a p, nth_error parts i = Some c -> nth_error a_hats i = Some a -> nth_error p_hats i = Some p ->
        forall gamma, a - gamma * p = modularity g gamma c.
Proof.
  intros cpus order st g parts Hp Hw He Hl. exists (map (A_of g) parts), (map (P_of g) parts).
  split; [apply coefficients_2D_pool; auto|]. rewrite !map_length. repeat split; auto.
  intros i c a p H1 H2 H3 gamma. rewrite modularity_AP.
  rewrite (nth_error_map_inv _ _ _ _ _ H1 H2), (nth_error_map_inv _ _ _ _ _ H1 H3). reflexivity.
Qed.

(** C12: undirected graphs: Newman-Girvan modularity, whatever the number of cores and the scheduling. *)
Theorem C12_coefficients_are_modularity_undirected :
  forall cpus order st g parts,
    valid_pool cpus order parts -> wf_graph g -> directed g = false -> edges g <> [] ->
    (forall c, In c parts -> length c = vcount g) ->
    exists a_hats p_hats,
      partition_coefficients_2D cpus order g parts st = Ok (a_hats, map Fin p_hats) /\
      length a_hats = length parts /\ length p_hats = length parts /\
      forall i c a p, nth_error parts i = Some c -> nth_error a_hats i = Some a -> nth_error p_hats i = Some p ->
        forall gamma, a - gamma * p = modularity_undirected g gamma c.
Proof.
  intros cpus order st g parts Hp Hw Hd He Hl.
  destruct (coefficients_2D_modularity cpus order st g parts Hp Hw He Hl) as (a & p & H).
  unfold modularity in H. rewrite Hd in H. eauto.
Qed.
Print Assumptions C12_coefficients_are_modularity_undirected.

(** C13: directed graphs: Leicht-Newman modularity. *)
Theorem C13_coefficients_are_modularity_directed :
  forall cpus order st g parts,
    valid_pool cpus order parts -> wf_graph g -> directed g = true -> edges g <> [] ->
    (forall c, In c parts -> length c = vcount g) ->
    exists a_hats p_hats,
      partition_coefficients_2D cpus order g parts st = Ok (a_hats, map Fin p_hats) /\
      length a_hats = length parts /\ length p_hats = length parts /\
      forall i c a p, nth_error parts i = Some c -> nth_error a_hats i = Some a -> nth_error p_hats i = Some p ->
        forall gamma, a - gamma * p = modularity_directed g gamma c.
Proof.
  intros cpus order st g parts Hp Hw Hd He Hl.
  destruct (coefficients_2D_modularity cpus order st g parts Hp Hw He Hl) as (a & p & H).
  unfold modularity in H. rewrite Hd in H. eauto.
Qed.
Print Assumptions C13_coefficients_are_modularity_directed.

(** A triangle with a pendant vertex and a self-loop meets the hypotheses (undirected and directed reading). *)
Definition ex_graph (d : bool) : graph := mkGraph 4 d [(0, 1); (1, 2); (2, 0); (2, 3); (3, 3)]%nat None.
Example C12_C13_example : forall d, wf_graph (ex_graph d) /\ directed (ex_graph d) = d /\ edges (ex_graph d) <> [] /\
  forall c, In c [[0; 0; 0; 1]; [0; 1; 1; 0]]%nat -> length c = vcount (ex_graph d).
Proof.
  intros d. repeat split; try discriminate.
  - simpl in H. repeat (destruct H as [E|H]; [inversion E; subst; simpl; lia|]). tauto.
  - simpl in H. repeat (destruct H as [E|H]; [inversion E; subst; simpl; lia|]). tauto.
  - simpl. intros c H. repeat (destruct H as [<-|H]; [reflexivity|]). tauto.
Qed.
(** ... and the model computes the numbers one gets by hand: A = 2*3+2*1 = 8, P = (7^2+3^2)/10. *)
Example C12_value : partition_coefficients_2D_serial (ex_graph false) [[0; 0; 0; 1]%nat] = Ok ([8], [Fin (58 / 10)]).
Proof.
  cbv -[Rplus Rmult Rinv Rdiv Rminus IZR Req_EM_T].
  destruct (Req_EM_T _ 0) as [E|E]; [exfalso; lra|]. repeat f_equal; lra.
Qed.

Lemma coefficients_3D_pool cpus order g gi lv parts :
  valid_pool cpus order parts -> wf_graph g -> wf_graph gi -> length lv = vcount g -> lv <> [] ->
  edges_within_layers g lv -> layers_have_edges g lv -> (vcount gi <= vcount g)%nat ->
  (forall c, In c parts -> length c = vcount g) ->
  partition_coefficients_3D cpus order g gi lv parts =
    Ok (map (A_of g) parts, map Fin (map (P3_of g lv) parts), map (A_of gi) parts).
Proof.
  intros (Hc & Ho & Hn) Hw Hwi Hlv Hne H1 H2 H3 Hl. apply parallel_3D_ok; auto. rewrite map_map.
  apply coefficients_3D_ok; auto.
Qed.

(** C14: multilayer modularity, directed or undirected. *)
Theorem C14_coefficients_are_multilayer_modularity :
  forall cpus order g_intra g_inter layers parts,
    valid_pool cpus order parts -> wf_graph g_intra -> wf_graph g_inter ->
    length layers = vcount g_intra -> layers <> [] -> (vcount g_inter <= vcount g_intra)%nat ->
    edges_within_layers g_intra layers ->
    (forall l, In l layers -> exists u v, In (u, v) (edges g_intra) /\ nth u layers 0%nat = l) ->
    (forall c, In c parts -> length c = vcount g_intra) ->
    exists a_hats p_hats c_hats,
      partition_coefficients_3D cpus order g_intra g_inter layers parts = Ok (a_hats, map Fin p_hats, c_hats) /\
      length a_hats = length parts /\ length p_hats = length parts /\ length c_hats = length parts /\
      forall i m a p c, nth_error parts i = Some m ->
        nth_error a_hats i = Some a -> nth_error p_hats i = Some p -> nth_error c_hats i = Some c ->
        forall gamma omega, a - gamma * p + omega * c = multilayer_modularity g_intra g_inter layers gamma omega m.
Proof.
  intros cpus order g gi lv parts Hp Hw Hwi Hlv Hne Hgi H1 H2 Hl.
  exists (map (A_of g) parts), (map (P3_of g lv) parts), (map (A_of gi) parts).
  split; [apply coefficients_3D_pool; auto|]. rewrite !map_length. repeat split; auto.
  intros i m a p c E1 E2 E3 E4 gamma omega. rewrite multilayer_APC.
  rewrite (nth_error_map_inv _ _ _ _ _ E1 E2), (nth_error_map_inv _ _ _ _ _ E1 E3), (nth_error_map_inv _ _ _ _ _ E1 E4).
  reflexivity.
Qed.
Print Assumptions C14_coefficients_are_multilayer_modularity.

(** Two layers of three nodes (a path and a triangle) with identity coupling meet the hypotheses. *)
Definition ex_intra (d : bool) : graph := mkGraph 6 d [(0, 1); (1, 2); (3, 4); (4, 5); (5, 3)]%nat None.
Definition ex_inter : graph := mkGraph 6 true [(0, 3); (1, 4); (2, 5)]%nat None.
Definition ex_layers : list nat := [0; 0; 0; 1; 1; 1]%nat.
Definition ex_parts : list (list nat) := [[0; 0; 0; 0; 0; 0]; [0; 0; 0; 1; 1; 1]; [0; 0; 1; 0; 0; 1]]%nat.
Ltac edge_cases := repeat match goal with
  | H : In _ (_ :: _) |- _ => destruct H as [H|H]; [inversion H; subst; clear H; simpl; try lia; try reflexivity|]
  | H : (_, _) = (_, _) \/ _ |- _ => destruct H as [H|H]; [inversion H; subst; clear H; simpl; try lia; try reflexivity|]
  | H : In _ [] |- _ => destruct H
  | H : False |- _ => destruct H
  end.
Lemma ex_intra_wf d : wf_graph (ex_intra d).
Proof. split; [intros u v H; simpl in H; edge_cases|discriminate]. Qed.
Lemma ex_inter_wf : wf_graph ex_inter.
Proof. split; [intros u v H; simpl in H; edge_cases|discriminate]. Qed.
Lemma ex_within d : edges_within_layers (ex_intra d) ex_layers.
Proof. intros u v H; simpl in H; edge_cases. Qed.
Lemma ex_has d : forall l, In l ex_layers -> exists u v, In (u, v) (edges (ex_intra d)) /\ nth u ex_layers 0%nat = l.
Proof.
  intros l H. unfold ex_layers in H. simpl in H.
  assert (l = 0 \/ l = 1)%nat as [-> | ->] by lia.
  - exists 0%nat, 1%nat. simpl. auto.
  - exists 3%nat, 4%nat. simpl. auto.
Qed.
Example C14_example : forall d,
  wf_graph (ex_intra d) /\ wf_graph ex_inter /\ length ex_layers = vcount (ex_intra d) /\
  (vcount ex_inter <= vcount (ex_intra d))%nat /\ edges_within_layers (ex_intra d) ex_layers /\
  (forall l, In l ex_layers -> exists u v, In (u, v) (edges (ex_intra d)) /\ nth u ex_layers 0%nat = l) /\
  (forall c, In c ex_parts -> length c = vcount (ex_intra d)).
Proof.
  intros d. split; [apply ex_intra_wf|]. split; [apply ex_inter_wf|]. split; [reflexivity|]. split; [simpl; lia|].
  split; [apply ex_within|]. split; [apply ex_has|].
  intros c H. simpl in H. repeat (destruct H as [<-|H]; [reflexivity|]). tauto.
Qed.

(** C15: the parallel drivers return the serial coefficients, in input order, or fail exactly when the serial ones fail;
    for every graph, every list of memberships, any number of cores and any completion order. *)
Theorem C15_parallel_coefficients_equal_serial :
  forall cpus order parts, valid_pool cpus order parts ->
    (forall st g r, partition_coefficients_2D cpus order g parts st = Ok r <->
                    partition_coefficients_2D_serial g parts = Ok r) /\
    (forall g gi lv r, partition_coefficients_3D cpus order g gi lv parts = Ok r <->
                       partition_coefficients_3D_serial g gi lv parts = Ok r).
Proof.
  intros cpus order parts (Hc & Ho & Hn). split; intros; [apply parallel_2D_ok | apply parallel_3D_ok]; auto.
Qed.
Print Assumptions C15_parallel_coefficients_equal_serial.
(** two partitions on one core: one chunk *)
Example C15_chunks : partition_chunks 1 [[0]; [1]]%nat = [[[0]; [1]]]%nat.
Proof.
  unfold partition_chunks. simpl seq. cbn [map length]. change (0 + 1)%nat with 1%nat.
  rewrite chunk_bound_0, (@chunk_bound_last 2 1) by (simpl; lia). reflexivity.
Qed.

(** C16: coefficients do not see label names ... *)
Theorem C16_coefficients_ignore_labels :
  forall g parts parts', wf_graph g -> edges g <> [] ->
    Forall2 same_partition parts parts' -> (forall c, In c parts -> length c = vcount g) ->
    partition_coefficients_2D_serial g parts = partition_coefficients_2D_serial g parts' /\
    forall gi lv, wf_graph gi -> (vcount gi <= vcount g)%nat -> length lv = vcount g ->
      edges_within_layers g lv ->
      (forall l, In l lv -> exists u v, In (u, v) (edges g) /\ nth u lv 0%nat = l) ->
      partition_coefficients_3D_serial g gi lv parts = partition_coefficients_3D_serial g gi lv parts'.
Proof.
  intros g parts parts' Hw He HF Hl.
  assert (Hl' : forall c, In c parts' -> length c = vcount g).
  { clear - HF Hl. induction HF as [|a b l l' [Hab _] HF IH]; simpl in *; [tauto|]. intros c [<-|Hc]; auto.
    rewrite <- Hab. auto. }
  assert (HA : forall g0, (vcount g0 <= vcount g)%nat -> map (A_of g0) parts = map (A_of g0) parts').
  { intros g0 H0. clear - HF Hl H0. induction HF as [|a b l l' Hab HF IH]; simpl in *; auto. f_equal; auto.
    apply A_of_same; auto. rewrite (Hl a); auto. }
  assert (HP : map (P_of g) parts = map (P_of g) parts').
  { clear - HF Hl. induction HF as [|a b l l' Hab HF IH]; simpl in *; auto. f_equal; auto.
    apply P_of_same; auto. rewrite (Hl a); auto. }
  split.
  - rewrite !coefficients_2D_ok by auto. rewrite (HA g) by auto.
    rewrite <- (map_map (P_of g) Fin), HP, map_map. reflexivity.
  - intros gi lv Hwi Hgi Hlv H1 H2.
    assert (Hne : lv <> []).
    { intros ->. destruct (edges g) as [|[u v] E] eqn:EE; [congruence|].
      destruct (proj1 Hw u v) as [Hu _]; [rewrite EE; simpl; auto|]. simpl in Hlv. lia. }
    rewrite !coefficients_3D_ok by auto.
    rewrite (HA g), (HA gi) by auto.
    assert (HP3 : map (P3_of g lv) parts = map (P3_of g lv) parts').
    { clear - HF Hl. induction HF as [|a b l l' Hab HF IH]; simpl in *; auto. f_equal; auto.
      apply P3_of_same; auto. rewrite (Hl a); auto. }
    rewrite <- (map_map (P3_of g lv) Fin), HP3, map_map. reflexivity.
Qed.
Print Assumptions C16_coefficients_ignore_labels.
Example C16_example : Forall2 same_partition [[0; 0; 0; 1]; [0; 1; 1; 0]]%nat [[5; 5; 5; 2]; [1; 0; 0; 1]]%nat.
Proof.
  assert (H : forall (c : list nat) (f : nat -> nat), (forall x y, In x c -> In y c -> f x = f y -> x = y) -> same_partition c (map f c)).
  { intros c f Hf. split; [rewrite map_length; auto|]. intros i j a a' b b' H1 H2 H3 H4.
    rewrite (map_nth_error f _ _ H1) in H3. rewrite (map_nth_error f _ _ H2) in H4.
    apply nth_error_In in H1, H2. split; intros; [congruence|apply Hf; auto; congruence]. }
  constructor; [|constructor; [|constructor]].
  - apply (H [0; 0; 0; 1]%nat (fun x => match x with O => 5 | _ => 2 end)%nat). simpl. intros x y Hx Hy E; destruct x, y; lia.
  - apply (H [0; 1; 1; 0]%nat (fun x => 1 - x)%nat). cbn [In]. intros; lia.
Qed.

(** ... and are bounded by the number of edge ends. *)
Theorem C16_coefficients_bounded :
  forall g parts, wf_graph g -> edges g <> [] -> (forall c, In c parts -> length c = vcount g) ->
    let t := INR (length (edges g)) * (if directed g then 1 else 2) in
    (exists a_hats p_hats, partition_coefficients_2D_serial g parts = Ok (a_hats, map Fin p_hats) /\
       Forall (fun a => 0 <= a <= t) a_hats /\ Forall (fun p => 0 <= p <= t) p_hats /\
       (directed g = false -> Forall (fun p => 0 < p) p_hats)) /\
    forall gi lv, wf_graph gi -> (vcount gi <= vcount g)%nat -> length lv = vcount g ->
      edges_within_layers g lv ->
      (forall l, In l lv -> exists u v, In (u, v) (edges g) /\ nth u lv 0%nat = l) ->
      let ti := INR (length (edges gi)) * (if directed gi then 1 else 2) in
      exists a_hats p_hats c_hats, partition_coefficients_3D_serial g gi lv parts = Ok (a_hats, map Fin p_hats, c_hats) /\
       Forall (fun a => 0 <= a <= t) a_hats /\ Forall (fun p => 0 <= p <= t) p_hats /\
       Forall (fun c => 0 <= c <= ti) c_hats /\
       (directed g = false -> Forall (fun p => 0 < p) p_hats).
Proof.
  intros g parts Hw He Hl t.
  assert (Et : forall g0, total g0 = INR (length (edges g0)) * (if directed g0 then 1 else 2)).
  { intros g0. unfold total, m_edges. destruct (directed g0); lra. }
  assert (HA : forall g0, wf_graph g0 -> Forall (fun a => 0 <= a <= INR (length (edges g0)) * (if directed g0 then 1 else 2)) (map (A_of g0) parts)).
  { intros g0 H0. apply Forall_forall. intros a Ha. apply in_map_iff in Ha as (c & <- & _). rewrite <- Et. apply A_of_bounds; auto. }
  split.
  - exists (map (A_of g) parts), (map (P_of g) parts). rewrite map_map. split; [apply coefficients_2D_ok; auto|].
    split; [apply HA; auto|]. split.
    + apply Forall_forall. intros p Hp. apply in_map_iff in Hp as (c & <- & _). unfold t. rewrite <- Et. apply P_of_bounds; auto.
    + intros Hd. apply Forall_forall. intros p Hp. apply in_map_iff in Hp as (c & <- & _). apply P_of_pos; auto.
  - intros gi lv Hwi Hgi Hlv H1 H2.
    assert (Hne : lv <> []).
    { intros ->. destruct (edges g) as [|[u v] E] eqn:EE; [congruence|].
      destruct (proj1 Hw u v) as [Hu _]; [rewrite EE; simpl; auto|]. simpl in Hlv. lia. }
    exists (map (A_of g) parts), (map (P3_of g lv) parts), (map (A_of gi) parts). rewrite map_map.
    split; [apply coefficients_3D_ok; auto|]. split; [apply HA; auto|]. split; [|split; [apply HA; auto|]].
    + apply Forall_forall. intros p Hp. apply in_map_iff in Hp as (c & <- & _). unfold t. rewrite <- Et. apply P3_of_bounds; auto.
    + intros Hd. apply Forall_forall. intros p Hp. apply in_map_iff in Hp as (c & <- & _). apply P3_of_pos; auto.
Qed.
Print Assumptions C16_coefficients_bounded.
