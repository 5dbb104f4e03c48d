(** The arrays when a layer has vertices but no edges. *)
From Verif Require Import PyBase PyGraph M_partition M_pool M_champ M_theircoef Spec Spec_graph Spec_theircoef
  L_base L_canon L_modularity L_modularity3 L_parallel L_theircoef.
Set Implicit Arguments.
Open Scope R_scope.

Lemma np_fold_nonfinite l : fold_left np_add l NonFinite = NonFinite.
Proof. induction l as [|x l IH]; [reflexivity|]. destruct x; exact IH. Qed.
Lemma np_fold_in l : forall a, In NonFinite l -> fold_left np_add l a = NonFinite.
Proof.
  induction l as [|x l IH]; intros a H; [destruct H|]. cbn [fold_left]. destruct H as [->|H].
  - destruct a; apply np_fold_nonfinite.
  - apply IH; auto.
Qed.

Section Edgeless.
  Context (g : graph) (lv : list nat) (v : nat).
  Hypothesis W : wf_graph g.
  Hypothesis Hlv : length lv = vcount g.
  Hypothesis Hv : (v < vcount g)%nat.
  Hypothesis Hno : forall a b, In (a, b) (edges g) -> nth a lv 0%nat <> nth v lv 0%nat.

  Lemma edgeless_count : layer_count g lv (nth v lv 0%nat) = 0%nat.
  Proof using Hno.
    unfold layer_count. induction (edges g) as [|[a b] E IH]; [reflexivity|]. cbn [map list_sum fold_right fst].
    pose proof (Hno a b (or_introl eq_refl)) as N. destruct (Nat.eqb_spec (nth a lv 0%nat) (nth v lv 0%nat)); [contradiction|].
    cbn [b2n]. apply IH. intros a' b' Hin. apply (Hno a' b'). right. auto.
  Qed.

  Lemma p_hat_3D_nonfinite cnt c : length c = vcount g ->
    (forall l, In l lv -> (l < length cnt)%nat) -> (forall l, nth l cnt 0%nat = layer_count g lv l) ->
    p_hat_3D g lv cnt c = Ok NonFinite.
  Proof using W Hlv Hv Hno.
    intros Hc Hcl Hcn. unfold p_hat_3D.
    destruct (layered_communities_spec c lv) as (d & Hd & _ & H2 & H3 & H4); [lia|]. rewrite Hd. cbn [bind].
    set (f := fun kv : nat * nat * list nat => if directed g then
                np_div (INR (list_sum (map (fun x => nth x (in_degrees g) 0%nat) (snd kv)) * list_sum (map (fun x => nth x (out_degrees g) 0%nat) (snd kv)))) (INR (nth (snd (fst kv)) cnt 0%nat))
              else np_div (INR (list_sum (map (fun x => nth x (all_degrees g) 0%nat) (snd kv)) ^ 2)) (INR (2 * nth (snd (fst kv)) cnt 0%nat))).
    rewrite (mapM_ok _ f).
    - cbn [bind]. f_equal. apply np_fold_in.
      assert (K : In (nth v c 0%nat, nth v lv 0%nat) (map fst d)) by (apply H3; exists v; split; [lia|auto]).
      apply in_map_iff in K as ([k vs] & Ek & Hin). cbn [fst] in Ek. apply in_map_iff. exists (k, vs). split; [|auto].
      unfold f. cbn [fst snd]. rewrite Ek. cbn [snd]. rewrite Hcn, edgeless_count.
      destruct (directed g); unfold np_div; (destruct (Req_EM_T _ 0) as [|N]; [reflexivity|exfalso; apply N; reflexivity]).
    - intros [[kc kl] vs] Hin. destruct (@layered_in_range c lv d (kc, kl) vs ltac:(lia) Hd Hin) as [Hvs Hkl].
      unfold f. cbn [snd fst] in *. destruct (directed g) eqn:Edir.
      + rewrite degree_sum_ok by (intros x Hx; rewrite in_degrees_length, <- Hc; auto).
        rewrite degree_sum_ok by (intros x Hx; rewrite out_degrees_length, <- Hc; auto).
        cbn [bind]. rewrite (py_get_ok cnt 0%nat) by auto. reflexivity.
      + rewrite degree_sum_ok by (intros x Hx; rewrite all_degrees_length, <- Hc; auto).
        cbn [bind]. rewrite (py_get_ok cnt 0%nat) by auto. reflexivity.
  Qed.

  Lemma coefficients_3D_nonfinite gi parts : wf_graph gi -> (vcount gi <= vcount g)%nat -> (forall c, In c parts -> length c = vcount g) ->
    partition_coefficients_3D_serial g gi lv parts = Ok (map (A_of g) parts, map (fun _ => NonFinite) parts, map (A_of gi) parts).
  Proof using W Hlv Hv Hno.
    intros Wi Hgi Hl. unfold partition_coefficients_3D_serial.
    rewrite (mapM_ok (internal_hat g) (A_of g)) by (intros c Hc; apply internal_hat_ok; auto; rewrite (Hl c Hc); auto).
    assert (Ne : lv <> []) by (intros E; rewrite E in Hlv; cbn in Hlv; lia).
    cbn [bind]. destruct (ecount_per_layer_ok W Hlv Ne) as (cnt & Hcnt & H1 & H2). rewrite Hcnt. cbn [bind].
    rewrite (mapM_ok (p_hat_3D g lv cnt) (fun c => NonFinite)) by (intros c Hc; apply p_hat_3D_nonfinite; auto).
    cbn [bind].
    rewrite (mapM_ok (internal_hat gi) (A_of gi)) by (intros c Hc; apply internal_hat_ok; auto; rewrite (Hl c Hc); auto).
    reflexivity.
  Qed.

  Lemma edgeless_degree : edges_within_layers g lv -> layer_degree g lv (nth v lv 0%nat) = 0.
  Proof using W Hno. intros Hw. rewrite layer_degree_spec by auto. rewrite <- (layer_count_m _ Hw), edgeless_count. simpl. lra. Qed.

  Lemma calculate_nonfinite f c : length c = vcount g -> f v v = NonFinite -> calculate_coefficient c (mat (vcount g) f) = Ok NonFinite.
  Proof using Hlv Hv.
    intros Hc Hf. unfold calculate_coefficient.
    assert (E : length (mat (vcount g) f) = vcount g) by (unfold mat; rewrite map_length, seq_length; auto). rewrite E, Hc, Nat.eqb_refl.
    rewrite (mapM_ok _ (fun kv => fold_left np_add (concat (map (fun i => map (f i) (snd kv)) (snd kv))) (Fin 0))).
    - cbn [bind]. f_equal. apply np_fold_in. destruct (communities_spec c) as (_ & H2 & H3 & H4).
      assert (K : In (nth v c 0%nat) (map fst (membership_to_communities c))) by (apply H3; apply nth_In; lia).
      apply in_map_iff in K as ([k vs] & Ek & Hin). cbn [fst] in Ek. apply in_map_iff. exists (k, vs). split; [|auto]. cbn [snd].
      assert (Iv : In v vs) by (rewrite (H4 k vs Hin), filter_In, in_seq; split; [lia|rewrite Ek; apply Nat.eqb_refl]).
      apply np_fold_in. apply in_concat. exists (map (f v) vs). split; [apply in_map_iff; eauto|]. rewrite <- Hf. apply in_map. auto.
    - intros [k vs] Hin. cbn [snd]. pose proof (communities_in_range c k vs Hin) as Hr. rewrite Hc in Hr.
      unfold block_sum. rewrite (mapM_ok _ (fun i => map (f i) vs)); [reflexivity|].
      intros i Hi. rewrite py_get_mat by auto. cbn [bind]. apply mapM_ok. intros j Hj. apply py_get_row; auto.
  Qed.

  Lemma null_nonfinite : edges_within_layers g lv ->
    exists P, null_matrix g lv = Ok P /\ forall c, length c = vcount g -> calculate_coefficient c P = Ok NonFinite.
  Proof using W Hlv Hv Hno.
    intros Hw. assert (Ne : lv <> []) by (intros E; rewrite E in Hlv; cbn in Hlv; lia).
    rewrite (@null_matrix_ok g lv Hlv Ne). eexists. split; [reflexivity|]. intros c Hc. apply calculate_nonfinite; auto.
    rewrite Nat.eqb_refl, layer_total by auto. rewrite edgeless_degree by auto. unfold np_div. destruct (Req_EM_T _ 0) as [|N]; [reflexivity|]. exfalso. apply N. lra.
  Qed.
End Edgeless.
