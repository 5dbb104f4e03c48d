(** Property theorem about the multilayer SBM estimates with stated node counts and layer weights: C31. *)
From Verif Require Import PyBase PyGraph M_partition M_champ M_leiden M_estimation_utils M_estimation Spec Spec_graph Spec_leiden Spec_sbm Spec_multisbm Spec_check Spec_valid Spec_given
  L_base L_modularity L_modularity3 L_leiden L_sbm L_sbm2 L_check L_multisbm L_copying L_accepted L_omega L_given Properties_sbm Properties_multisbm.
Open Scope R_scope.

(** ** C31: node counts and layer weights that are given are used as given, whatever the graph's own are. *)
Theorem C31_given_values : forall env g h gi ws lv c K model N oT Nt mt,
  wf_graph g -> wf_graph gi -> weights_defaulted (ee_contains env g) g h -> weights h = Some ws ->
  valid_multilayer h gi ws lv model -> is_model model -> length c = vcount g -> (forall l, In l c -> (l < K)%nat) ->
  let n := vcount g in let E := weighted_edges h ws in let T := S (list_max lv) in
  omitted_or oT T -> (0 < N)%nat -> length Nt = T -> (forall x, In x Nt -> (0 < x)%nat) -> length mt = T -> (forall x, In x mt -> x <> 0) ->
  let observed := observed_within_layers n E lv T c in let expected := expected_within_given n E lv c mt in let total := 2 * fold_right Rplus 0 mt in
  expected <> 0 ->
  exists pers p, is_persistence_for model gi lv N T Nt c pers /\ is_copying_probability (ee_fsolve env) model K T pers p /\
    estimate_multilayer_SBM_parameters env g gi lv (mkPart K c) model (Some N) oT (Some Nt) (Some mt)
    = (h, Ok (observed / expected, (if Req_EM_T (total - expected) 0 then 0 else (total - observed) / (total - expected)), p, K)).
Proof.
  intros env g h gi ws lv c K model N oT Nt mt Hg Hgi Hh Hws Hv Hm Hc HK n E T HoT HN HL HNt HLm Hmt ow X tw HX.
  apply weighted_e_defaulted in Hh. subst h.
  assert (Hwfh : wf_graph (weighted_e env g)) by (apply weighted_e_wf; auto). assert (Vh : vcount (weighted_e env g) = vcount g) by apply weighted_e_vcount.
  pose proof (valid_accepted Hwfh Hv) as Ha.
  destruct (@given_run env (weighted_e env g) gi lv c K model ws N Nt mt) with (oT := oT) as (pers & p & A & B & C); auto.
  - congruence.
  - rewrite Vh. intros v Hv'. apply HK, nth_In. lia.
  - rewrite Vh. exact HX.
  - exists pers, p. split; [exact A|]. split; [exact B|]. unfold estimate_multilayer_SBM_parameters. assert (D : default_weights_e env g = Ok (weighted_e env g)) by (unfold default_weights_e, weighted_e; destruct (ee_contains env g); auto; apply set_weights_ones; unfold ecount; destruct (edges g); cbn; [congruence|lia]). rewrite D, C, Vh. reflexivity.
Qed.
Print Assumptions C31_given_values.

(** With the network's own layer weights this is the estimate of [C31_estimates]. *)
Theorem C31_given_own : forall g gi ws lv c model, wf_graph g -> weights g = Some ws -> valid_multilayer g gi ws lv model -> length c = vcount g ->
  let n := vcount g in let E := weighted_edges g ws in let T := S (list_max lv) in
  expected_within_given n E lv c (map (weight_in E lv) (seq 0 T)) = expected_within_layers n E lv T c.
Proof.
  intros g gi ws lv c model Hg Hws Hv Hc n E T. pose proof (valid_accepted Hg Hv) as Ha.
  destruct (@acc_facts g gi lv model ws Hg Ha) as (_ & _ & _ & F4 & _).
  unfold expected_within_given, expected_within_layers. rewrite map_length, seq_length. apply sum_to_ext. intros t Ht.
  change 0 with ((fun _ : nat => 0) 0%nat). rewrite (@nth_indep _ _ t ((fun _ : nat => 0) 0%nat) (weight_in E lv 0%nat)) by (rewrite map_length, seq_length; auto).
  rewrite map_nth, seq_nth by auto. cbn [Nat.add]. specialize (F4 t Ht). field. apply Rgt_not_eq. exact F4.
Qed.
Print Assumptions C31_given_own.

(** Two paths of two unit edges said to weigh 4 each, with 6 nodes per layer: 8/5, 8/9 and no copying, instead of 4/5, 4/3 and 1/3. *)
Example C31_given_example : forall env, ee_contains env two_paths = true ->
  estimate_multilayer_SBM_parameters env two_paths two_paths_i two_paths_lv (mkPart 2 two_paths_c) "temporal" (Some 6%nat) None (Some [6; 6]%nat) (Some [4; 4])
  = (two_paths, Ok (8 / 5, 8 / 9, 0, 2%nat)).
Proof.
  intros env He. destruct two_paths_valid as (W1 & W2 & V). destruct two_paths_sums as (S1 & S2 & _).
  set (E := weighted_edges two_paths [1; 1; 1; 1]) in *.
  assert (X : expected_within_given 6 E two_paths_lv two_paths_c [4; 4] = 5 / 2).
  { replace (5 / 2) with (expected_within_layers 6 E two_paths_lv 2 two_paths_c * (1 / 2)) by (rewrite S2; lra).
    unfold expected_within_given, expected_within_layers. cbn [length]. rewrite !sum_to_S. unfold sum_to. cbn [seq map fold_right nth].
    assert (Q : weight_in E two_paths_lv 0 = 2 /\ weight_in E two_paths_lv 1 = 2) by (split; cbv -[Rplus Rmult IZR]; lra).
    destruct Q as [-> ->]. lra. }
  destruct (C31_given_values env two_paths two_paths two_paths_i [1; 1; 1; 1] two_paths_lv two_paths_c 2 "temporal" 6 None [6; 6]%nat [4; 4]) as (pers & p & A & B & C); auto.
  - rewrite He. reflexivity.
  - left. reflexivity.
  - cbn. intros l H. repeat destruct H as [<-|H]; try lia.
  - left. reflexivity.
  - lia.
  - cbn. intros x H. repeat destruct H as [<-|H]; try lia.
  - cbn. intros x H. repeat destruct H as [<-|H]; try lra.
  - cbn [vcount two_paths]. fold E. rewrite X. lra.
  - rewrite C. cbn [vcount two_paths]. fold E. change (S (list_max two_paths_lv)) with 2%nat in *. rewrite X, S1.
    assert (P : pers = 1 / 3).
    { destruct A as [(_ & ->)|[(N & _)|(N & _)]]; try discriminate. change (kept two_paths_i two_paths_c) with 2%nat. cbn. field. }
    assert (Pp : p = 0).
    { destruct B as [([B|B] & _)|[(_ & _ & N & _)|(_ & _ & _ & ->)]]; [lra|lia|discriminate|]. rewrite P. rewrite Rmax_left; [reflexivity|]. cbn. lra. }
    rewrite Pp. cbn [fold_right].
    assert (Q1 : 4 / (5 / 2) = 8 / 5) by field. assert (Q2 : (2 * (4 + (4 + 0)) - 4) / (2 * (4 + (4 + 0)) - 5 / 2) = 8 / 9) by field.
    destruct (Req_EM_T (2 * (4 + (4 + 0)) - 5 / 2) 0) as [Z|Z]; [exfalso; lra|]. rewrite Q1, Q2. reflexivity.
Qed.
