(** The multilayer estimates with given numbers of nodes and layer weights. *)
From Verif Require Import PyBase PyGraph M_partition M_champ M_leiden M_estimation_utils Spec Spec_graph Spec_leiden Spec_sbm Spec_multisbm Spec_check Spec_valid Spec_given
  L_base L_canon L_modularity L_modularity3 L_leiden L_split L_objective L_sbm L_sbm2 L_multisbm L_check L_copying L_accepted L_omega.
Set Implicit Arguments.
Open Scope R_scope.

Lemma map_nth_seq {A} (l : list A) d : map (fun t => nth t l d) (seq 0 (length l)) = l.
Proof. induction l as [|x l IH]; auto. cbn [length seq map nth]. f_equal. rewrite <- seq_shift, map_map. exact IH. Qed.

Lemma persistence_given model gi lv N T c n Nt :
  wf_graph gi -> vcount gi = n -> length lv = n -> length c = n -> (forall v, (v < n)%nat -> (nth v lv 0%nat < T)%nat) -> (1 < T)%nat -> (0 < N)%nat ->
  (T <= length Nt)%nat -> (forall x, In x Nt -> (0 < x)%nat) ->
  (model = "temporal" \/ model = "multilevel" \/ model = "multiplex")%string ->
  exists f x, persistence_function_from_model model gi (Some lv) (Some N) (Some T) (Some Nt) = Ok f /\ f c = Ok x /\
    is_persistence_for model gi lv N T Nt c x.
Proof.
  intros Hwf Hn Hlv Hc HT H1 HN HL HNt Hm.
  assert (T1 : INR T - 1 > 0) by (apply lt_INR in H1; simpl in H1; lra). assert (0 < INR N) by (apply lt_0_INR; auto).
  destruct Hm as [-> |[-> | ->]]; unfold persistence_function_from_model; cbn [String.eqb Ascii.eqb Bool.eqb]; eexists; eexists; split; try reflexivity; split.
  - unfold ordinal_persistence. rewrite kept_edges_ok by (auto; lia). cbn [bind]. apply py_div_ok.
    assert (0 < INR N * (INR T - 1)) by (apply Rmult_lt_0_compat; lra). lra.
  - left. auto.
  - unfold multilevel_persistence. rewrite <- (map_const_repeat 0%nat T). rewrite (@multilevel_counts n lv c T) by (auto; intros u v H0; destruct Hwf as [Hwf _]; rewrite <- Hn; auto).
    cbn [bind]. rewrite (@mapM_seq _ _ (fun t => INR (kept_into gi lv c t) / INR (nth t Nt 0%nat))).
    + cbn [bind]. apply py_div_ok. lra.
    + intros t Ht. rewrite !py_get_seq by auto. cbn [bind]. rewrite (@py_get_ok _ Nt t 0%nat) by lia. cbn [bind]. rewrite py_div_ok; auto. apply not_0_INR. specialize (HNt (nth t Nt 0%nat) ltac:(apply nth_In; lia)). lia.
  - right. left. split; auto.
  - unfold categorical_persistence. rewrite kept_edges_ok by (auto; lia). cbn [bind]. apply py_div_ok.
    assert (0 < INR N * INR T) by (apply Rmult_lt_0_compat; lra). assert (0 < INR N * INR T * (INR T - 1)) by (apply Rmult_lt_0_compat; lra). lra.
  - right. right. auto.
Qed.

Section Given.
Variables (env : est_env) (g gi : graph) (lv c : list nat) (K : nat) (model : string) (ws : list R) (N : nat) (Nt : list nat) (mt : list R).
Hypothesis Hwf : wf_graph g.
Hypothesis Hwfi : wf_graph gi.
Hypothesis Hws : weights g = Some ws.
Hypothesis Hc : length c = vcount g.
Hypothesis HK : forall v, (v < vcount g)%nat -> (nth v c 0%nat < K)%nat.
Hypothesis Hm : (model = "temporal" \/ model = "multilevel" \/ model = "multiplex")%string.
Let n := vcount g.
Let E := weighted_edges g ws.
Let T := S (list_max lv).
Hypothesis Hacc : accepted g gi ws lv model.
Hypothesis HN : (0 < N)%nat.
Hypothesis HL : length Nt = T.
Hypothesis HNt : forall x, In x Nt -> (0 < x)%nat.
Hypothesis HLm : length mt = T.
Hypothesis Hmt : forall x, In x mt -> x <> 0.
Let X := expected_within_given n E lv c mt.
Hypothesis HX : X <> 0.

Lemma given_run oT : oT = None \/ oT = Some T ->
  exists pers p, is_persistence_for model gi lv N T Nt c pers /\ is_copying_probability (ee_fsolve env) model K T pers p /\
  estimate_multilayer_weighted env g gi lv (mkPart K c) model (Some N) oT (Some Nt) (Some mt)
  = Ok (observed_within_layers n E lv T c / X,
        (if Req_EM_T (2 * fold_right Rplus 0 mt - X) 0 then 0
         else (2 * fold_right Rplus 0 mt - observed_within_layers n E lv T c) / (2 * fold_right Rplus 0 mt - X)), p, K).
Proof.
  intros HoT. destruct (@acc_facts g gi lv model ws Hwf Hacc) as (HT & F2 & F3 & F4 & Hin & _).
  pose proof (@acc_lv g gi lv model ws Hacc) as Hlv.
  assert (lvb : forall v, (v < n)%nat -> (nth v lv 0%nat < T)%nat).
  { intros v Hv. unfold T. assert (G : Forall (fun k => (k <= list_max lv)%nat) lv) by (apply list_max_le; auto).
    rewrite Forall_forall in G. specialize (G (nth v lv 0%nat) ltac:(apply nth_In; rewrite Hlv; auto)). lia. }
  assert (Hrange : in_range_E n E) by (apply range_E_of; auto).
  assert (Hn : vcount gi = n) by exact F3.
  destruct (@persistence_given model gi lv N T c n Nt Hwfi Hn Hlv Hc lvb HT HN ltac:(lia) HNt Hm) as (f & pers & Hf & Hfc & Hp).
  exists pers, (estimate_p env model K T pers). split; auto. split; [apply estimate_p_is|].
  unfold estimate_multilayer_weighted.
  assert (e1 : or_default oT (layer_count_T lv) = Ok T).
  { destruct HoT as [->| ->]; [|reflexivity]. cbn [or_default]. unfold layer_count_T. rewrite (@py_max_list lv (list_max lv)); auto; [cbn [bind]; f_equal; unfold T; lia|].
    intros Z. fold T in HT. unfold T in HT. rewrite Z in HT. cbn in HT. lia. }
  rewrite e1. cbn [bind or_default].
  unfold wedges. rewrite Hws. cbn [bind part_len part_membership]. fold (weighted_edges g ws). fold E.
  rewrite <- (map_const_repeat 0 T).
  assert (HinE : forall u v w, In ((u, v), w) E -> nth u lv 0%nat = nth v lv 0%nat) by (intros u v w H; apply in_combine_l in H; apply Hin; auto).
  rewrite (@internal_loop n T lv c Hlv Hc lvb E Hrange HinE). cbn [bind].
  rewrite <- (map_const_repeat (repeat 0 K) T), <- (map_const_repeat 0 K).
  rewrite (@layered_kappa_loop n K T lv c Hlv Hc lvb HK E Hrange (fun _ _ => 0)). cbn [bind].
  set (ow := fun t => observed_within n (layer_edges E lv t) c). set (ew := fun t => expected_within n (layer_edges E lv t) c).
  pose proof (fun t => layer_range lv t Hrange) as Hrt.
  assert (NZ : forall t, (t < T)%nat -> 2 * total_w (layer_edges E lv t) <> 0).
  { intros t Ht. pose proof (@acc_total g gi lv model ws Hwf Hacc t Ht) as Z. fold n E in Z. rewrite (total_strength_w (Hrt t)) in Z. auto. }
  assert (MZ : forall t, (t < T)%nat -> nth t mt 0 <> 0) by (intros t Ht; apply Hmt, nth_In; lia).
  assert (MG : forall t, (t < T)%nat -> py_get mt t = Ok (nth t mt 0)) by (intros t Ht; apply py_get_ok; lia).
  assert (SM : 2 * fold_right Rplus 0 mt = rsum (map (fun t => 2 * nth t mt 0) (seq 0 T))).
  { rewrite <- HLm. change (fold_right Rplus 0 mt) with (rsum mt). rewrite rsum_map_scale. f_equal. rewrite <- (map_nth_seq mt 0) at 1. reflexivity. }
  rewrite (@mapM_seq _ _ (fun t => ew t * (2 * total_w (layer_edges E lv t)))).
  2:{ intros t Ht. rewrite py_get_seq by auto. cbn [bind]. f_equal. unfold ew. rewrite sum_squares_map, (@expected_within_w n (layer_edges E lv t) c K) by auto. transitivity (rsum (map (fun r => kappa_w (layer_edges E lv t) c r ^ 2) (seq 0 K))).
      - apply rsum_map_ext. intros r _. f_equal. lra.
      - specialize (NZ t Ht). set (Y := rsum (map (fun r => kappa_w (layer_edges E lv t) c r ^ 2) (seq 0 K))). field. lra. }
  cbn [bind]. rewrite (@mapM_seq _ _ ow).
  2:{ intros t Ht. rewrite py_get_seq by auto. cbn [bind]. f_equal. unfold ow. rewrite observed_within_w by auto. lra. }
  cbn [bind]. set (xw := fun t => ew t * (weight_in E lv t / nth t mt 0)). rewrite (@mapM_seq _ _ xw).
  2:{ intros t Ht. rewrite !py_get_seq, MG by auto. cbn [bind]. specialize (MZ t Ht). rewrite py_div_ok by lra. f_equal. unfold xw, weight_in. change (fold_right Rplus 0 (map snd (layer_edges E lv t))) with (total_w (layer_edges E lv t)). field. lra. }
  cbn [bind]. change (rsum (map ow (seq 0 T))) with (observed_within_layers n E lv T c).
  assert (EX : rsum (map xw (seq 0 T)) = X) by (unfold X, expected_within_given; rewrite HLm, sum_to_rsum; reflexivity). rewrite EX.
  rewrite (py_div_ok _ HX). cbn [bind].
  rewrite (@mapM_seq _ _ (fun t => 2 * nth t mt 0 - ow t)).
  2:{ intros t Ht. rewrite !py_get_seq, MG by auto. cbn [bind]. f_equal. unfold ow. rewrite observed_within_w by auto. lra. }
  cbn [bind]. rewrite (@mapM_seq _ _ (fun t => 2 * nth t mt 0 - xw t)).
  2:{ intros t Ht. rewrite !py_get_seq, MG by auto. cbn [bind]. specialize (MZ t Ht). rewrite py_div_ok by lra. cbn [bind]. f_equal. unfold xw, weight_in. change (fold_right Rplus 0 (map snd (layer_edges E lv t))) with (total_w (layer_edges E lv t)). field. lra. }
  cbn [bind].
  assert (D1 : rsum (map (fun t => 2 * nth t mt 0 - xw t) (seq 0 T)) = 2 * fold_right Rplus 0 mt - X) by (rewrite rsum_map_minus, EX, SM; reflexivity).
  assert (D2 : rsum (map (fun t => 2 * nth t mt 0 - ow t) (seq 0 T)) = 2 * fold_right Rplus 0 mt - observed_within_layers n E lv T c) by (rewrite rsum_map_minus, SM; reflexivity).
  rewrite D1, D2. unfold py_div. destruct (Req_EM_T (2 * fold_right Rplus 0 mt - X) 0); cbn [bind]; rewrite Hf; cbn [bind]; rewrite Hfc; reflexivity.
Qed.
End Given.
