(** C117 for networks in which a layer has no edges, and so for all undirected ones. *)
From Verif Require Import PyBase PyGraph M_partition M_pool M_champ M_theircoef Spec Spec_graph Spec_theircoef
  L_base L_canon L_modularity L_modularity3 L_parallel L_theircoef L_theircoef2 Properties_coefficients Properties_theircoef.
From Coq Require Import Permutation Classical.
Open Scope R_scope.

(** A layer with a vertex and without edges: in both arrays every P is non-finite (0/0), for directed and undirected networks. *)
Theorem C117_edgeless : forall loops cpus order g gi lv parts v,
  valid_pool cpus order parts -> wf_graph g -> wf_graph gi -> vcount gi = vcount g -> length lv = vcount g ->
  edges_within_layers g lv -> (forall c, In c parts -> length c = vcount g) -> loops_agree loops g -> loops_agree loops gi ->
  (v < vcount g)%nat -> (forall a b, In (a, b) (edges g) -> nth a lv 0%nat <> nth v lv 0%nat) ->
  let array := map (fun c => (Fin (pair_sum (vcount g) c (adjacency g)), NonFinite, Fin (pair_sum (vcount gi) c (adjacency gi)))) parts in
  our_coefarray cpus order g gi lv parts = Ok array /\ their_coefarray loops g gi lv parts = Ok array.
Proof.
  intros loops cpus order g gi lv parts v (Hc & Ho & Hn) W Wi V Hlv Hw Hl La Lb Hv Hno array. split.
  - unfold our_coefarray. rewrite (proj2 (@parallel_3D_ok cpus order g gi lv parts _ Hc Hn Ho) (@coefficients_3D_nonfinite g lv v W Hlv Hv Hno gi parts Wi ltac:(lia) Hl)). cbn [bind]. f_equal. unfold array.
    rewrite !map_map. clear. induction parts as [|c parts IH]; cbn [map combine]; [reflexivity|]. f_equal. exact IH.
  - unfold their_coefarray. destruct (@null_nonfinite g lv v W Hlv Hv Hno Hw) as (P & -> & HP). cbn [bind].
    unfold create_coefarray_from_partitions. apply mapM_ok. intros c Hin.
    rewrite (@get_adjacency_ok loops g c La) by auto. cbn [bind]. rewrite (HP c) by auto. cbn [bind].
    rewrite (@get_adjacency_ok loops gi c Lb) by (rewrite V; auto). reflexivity.
Qed.
Print Assumptions C117_edgeless.

(** So the two arrays of an undirected network are equal whether or not its layers have edges, and the package is given the same input. *)
Theorem C117_same_domains : forall get_intersection gamma_end omega_end loops cpus order g gi lv parts,
  valid_pool cpus order parts -> wf_graph g -> wf_graph gi -> vcount gi = vcount g -> length lv = vcount g -> lv <> [] ->
  edges_within_layers g lv -> (forall c, In c parts -> length c = vcount g) -> loops_agree loops g -> loops_agree loops gi -> directed g = false ->
  (exists rows, their_coefarray loops g gi lv parts = Ok rows /\ our_coefarray cpus order g gi lv parts = Ok rows) /\
  run_CHAMP_with_their_coefarray_computation get_intersection gamma_end omega_end loops g gi lv parts =
  run_CHAMP_with_our_coefarray_computation get_intersection gamma_end omega_end cpus order g gi lv parts.
Proof.
  intros get_intersection ge oe loops cpus order g gi lv parts Hp W Wi V Hlv Ne Hw Hl La Lb D.
  assert (K : exists rows, their_coefarray loops g gi lv parts = Ok rows /\ our_coefarray cpus order g gi lv parts = Ok rows).
  { destruct (classic (forall l, In l lv -> exists u v, In (u, v) (edges g) /\ nth u lv 0%nat = l)) as [H|H].
    - destruct (C117_undirected get_intersection ge oe loops cpus order g gi lv parts Hp W Wi V Hlv Ne Hw H Hl La Lb D) as ((rows & E1 & E2 & _) & _). eauto.
    - apply not_all_ex_not in H as [l H]. apply imply_to_and in H as [Hin H]. destruct (In_nth lv l 0%nat Hin) as (v & Hv & Ev). rewrite Hlv in Hv.
      destruct (C117_edgeless loops cpus order g gi lv parts v Hp W Wi V Hlv Hw Hl La Lb Hv) as [E1 E2]; [|eauto].
      intros a b Hab E. apply H. exists a, b. split; [auto|congruence]. }
  split; [exact K|]. destruct K as (rows & E1 & E2).
  unfold run_CHAMP_with_their_coefarray_computation, run_CHAMP_with_our_coefarray_computation. rewrite E1, E2. reflexivity.
Qed.
Print Assumptions C117_same_domains.

(** The edge 0-1 and the vertex 2 alone in the second layer. *)
Definition ex_lonely : graph := mkGraph 3 false [(0, 1)]%nat None.
Definition ex_lonely_coupling : graph := mkGraph 3 false [(0, 2)]%nat None.
Example C117_example_edgeless :
  their_coefarray 1 ex_lonely ex_lonely_coupling [0; 0; 1]%nat [[0; 0; 0]; [0; 1; 0]]%nat = Ok [(Fin 2, NonFinite, Fin 2); (Fin 0, NonFinite, Fin 2)] /\
  our_coefarray 1 [0%nat] ex_lonely ex_lonely_coupling [0; 0; 1]%nat [[0; 0; 0]; [0; 1; 0]]%nat = Ok [(Fin 2, NonFinite, Fin 2); (Fin 0, NonFinite, Fin 2)].
Proof.
  assert (Hp : valid_pool 1 [0%nat] [[0; 0; 0]; [0; 1; 0]]%nat) by (split; [lia|split; [apply Permutation_refl|simpl; lia]]).
  assert (W : wf_graph ex_lonely) by (split; [intros u v [E|[]]; inversion E; cbn; lia|discriminate]).
  assert (Wi : wf_graph ex_lonely_coupling) by (split; [intros u v [E|[]]; inversion E; cbn; lia|discriminate]).
  destruct (C117_edgeless 1 1 [0%nat] ex_lonely ex_lonely_coupling [0; 0; 1]%nat _ 2 Hp W Wi eq_refl eq_refl) as [E1 E2].
  - intros u v [E|[]]; inversion E; reflexivity.
  - intros c [<-|[<-|[]]]; reflexivity.
  - right. right. intros u v [E|[]]; inversion E; lia.
  - right. right. intros u v [E|[]]; inversion E; lia.
  - cbn; lia.
  - intros a b [E|[]]; inversion E; cbn; lia.
  - rewrite E1, E2. assert (Q : map (fun c => (Fin (pair_sum (vcount ex_lonely) c (adjacency ex_lonely)), NonFinite, Fin (pair_sum (vcount ex_lonely_coupling) c (adjacency ex_lonely_coupling))))
       [[0; 0; 0]; [0; 1; 0]]%nat = [(Fin 2, NonFinite, Fin 2); (Fin 0, NonFinite, Fin 2)]).
    { cbn [map]. assert (X : forall a b a' b' c d c' d' : R, a = c -> b = d -> a' = c' -> b' = d' ->
        [(Fin a, NonFinite, Fin b); (Fin a', NonFinite, Fin b')] = [(Fin c, NonFinite, Fin d); (Fin c', NonFinite, Fin d')]) by congruence.
      apply X; unfold pair_sum, sum_to, delta, adjacency, arcs; cbn; lra. }
    rewrite Q. auto.
Qed.
