(** Lemmas for Properties_newman.v. *)
From Coq Require Import String.
From Verif Require Import PyBase PyGraph M_partition M_champ M_leiden M_parts M_estimation_utils M_estimation M_studies Spec Spec_graph Spec_leiden Spec_sbm Spec_iteration Spec_newman
  L_base L_modularity L_leiden L_sbm L_sbm2 L_logmean L_limits L_float2 L_omega L_prune L_iteration Properties_sbm Properties_iteration.
From Coq Require Import Classical.
Open Scope R_scope.

(** ** Unit weights *)
Lemma rsum_filter {A} (f : A -> bool) (l : list A) : rsum (map (fun x => if f x then 1 else 0) l) = INR (length (filter f l)).
Proof.
  induction l as [|x l IH]; [reflexivity|]. cbn [map filter]. rewrite rsum_cons, IH. destruct (f x); [cbn [length]; rewrite S_INR|]; lra.
Qed.

Lemma combine_ones {A B} (f : A * R -> B) (l : list A) : map f (combine l (repeat 1 (length l))) = map (fun e => f (e, 1)) l.
Proof. induction l as [|e l IH]; [reflexivity|]. cbn [length repeat combine map]. rewrite IH. reflexivity. Qed.

Section Unit.
Variables (G : graph) (c : list nat).
Let E := combine (edges G) (repeat 1 (length (edges G))).

Lemma unit_total : total_w E = INR (length (edges G)).
Proof. unfold total_w, E. rewrite combine_ones. cbn [snd]. induction (edges G) as [|e l IH]; [reflexivity|]. cbn [map length]. rewrite rsum_cons, IH, S_INR. lra. Qed.

Lemma unit_inner : inner_w E c = INR (edges_inside G c).
Proof.
  unfold inner_w, E. rewrite combine_ones. cbn [fst snd]. unfold edges_inside. rewrite <- rsum_filter. f_equal. apply map_ext. intros e. unfold delta.
  destruct (Nat.eq_dec _ _) as [e0|n]; [rewrite (proj2 (Nat.eqb_eq _ _) e0)|rewrite (proj2 (Nat.eqb_neq _ _) n)]; lra.
Qed.

Lemma unit_kappa r : kappa_w E c r = INR (ends_in G c r).
Proof.
  unfold kappa_w, E. rewrite combine_ones. cbn [fst snd]. unfold ends_in. rewrite plus_INR, <- !rsum_filter, <- rsum_map_plus. f_equal. apply map_ext. intros e.
  unfold L_objective.ind. cbv beta. destruct (Nat.eqb (nth (fst e) c 0%nat) r), (Nat.eqb (nth (snd e) c 0%nat) r); lra.
Qed.
End Unit.

Lemma rsum_const {A} (l : list A) x : rsum (map (fun _ => x) l) = INR (length l) * x.
Proof. induction l as [|a l IH]; [cbn; unfold rsum; simpl; lra|]. cbn [map length]. rewrite rsum_cons, IH, S_INR. lra. Qed.

(** The estimates on a network with equally connected communities. *)
Lemma even_estimates q G c m : (2 <= q)%nat -> wf_graph G -> edges G <> [] -> weights G = Some (repeat 1 (length (edges G))) -> evenly_connected q G c ->
  m = None \/ m = Some (rsum (repeat 1 (length (edges G)))) ->
  let M := INR (edges_inside G c) in let E := INR (length (edges G)) in
  estimate_singlelayer_SBM_parameters G (mkPart q c) m = Ok (INR q * M / E, INR q * (E - M) / ((INR q - 1) * E)).
Proof.
  intros Hq Hwf Hne Hw (Hlen & Hlab & Hends) Hm M E.
  assert (Hlab' : forall v, (v < vcount G)%nat -> (nth v c 0 < q)%nat) by (intros v Hv; apply Hlab, nth_In; lia).
  rewrite (@estimate_single G _ c q m Hwf Hw Hlen Hlab' Hm).
  pose proof (@range_E_of G (repeat 1 (length (edges G))) Hwf) as Hr. unfold weighted_edges. set (WE := combine (edges G) (repeat 1 (length (edges G)))) in *.
  assert (HE : 0 < E) by (unfold E; apply (lt_INR 0); destruct (edges G); [congruence|cbn; lia]).
  assert (Hq' : 2 <= INR q) by (apply (le_INR 2); lia).
  pose proof (unit_total G) as Et. pose proof (unit_inner G c) as Ei. fold WE in Et, Ei. fold E in Et. fold M in Ei.
  pose proof (total_strength_w Hr) as ET. pose proof (@observed_within_w _ _ c Hr) as EO. pose proof (@expected_within_w _ _ c q Hr Hlab') as EX.
  assert (EX' : expected_within (vcount G) WE c = 2 * E / INR q).
  { rewrite EX, Et. rewrite (map_ext_in _ (fun _ => (2 * E / INR q) ^ 2)).
    - rewrite rsum_const, seq_length. field. lra.
    - intros r Hin. apply in_seq in Hin. unfold WE. rewrite (unit_kappa G c r). specialize (Hends r ltac:(lia)).
      apply (f_equal INR) in Hends. rewrite !mult_INR in Hends. fold E in Hends. replace (INR 2) with 2 in Hends by (cbn; lra).
      replace (INR (ends_in G c r)) with (2 * E / INR q) by (rewrite <- Hends; field; lra). reflexivity. }
  pose proof (@expected_split (vcount G) WE c ltac:(lra)) as Sex. pose proof (observed_split (vcount G) WE c) as Sob.
  assert (Xp : 0 < 2 * E / INR q) by (apply Rdiv_lt_0_compat; lra).
  assert (Xb : expected_between (vcount G) WE c = 2 * E * (INR q - 1) / INR q) by (rewrite ET, Et, EX' in Sex; apply Rplus_eq_reg_l with (2 * E / INR q); rewrite Sex; field; lra).
  assert (Xbp : 0 < 2 * E * (INR q - 1) / INR q) by (apply Rdiv_lt_0_compat; nra).
  unfold sbm_outcome. destruct (Req_EM_T (total_strength (vcount G) WE) 0); [exfalso; lra|]. destruct (Req_EM_T (expected_within (vcount G) WE c) 0); [exfalso; lra|].
  replace (Nat.ltb 1 q) with true by (symmetry; apply Nat.ltb_lt; lia). destruct (Req_EM_T (expected_between (vcount G) WE c) 0); [exfalso; lra|].
  f_equal. f_equal.
  - rewrite EO, EX', Ei. field. lra.
  - replace (observed_between (vcount G) WE c) with (2 * E - 2 * M) by (rewrite ET, Et, EO, Ei in Sob; lra). rewrite Xb. field. lra.
Qed.

(** The mean degree. *)
Lemma rsum_INR_list_sum (l : list nat) : rsum (map INR l) = INR (list_sum l).
Proof. induction l as [|x l IH]; [reflexivity|]. cbn [map]. rewrite rsum_cons, IH. change (list_sum (x :: l)) with (x + list_sum l)%nat. rewrite plus_INR. reflexivity. Qed.

Lemma list_sum_map_plus {A} (f g : A -> nat) l : list_sum (map (fun x => (f x + g x)%nat) l) = (list_sum (map f l) + list_sum (map g l))%nat.
Proof. induction l as [|x l IH]; [reflexivity|]. change (list_sum (map ?h (x :: l))) with (h x + list_sum (map h l))%nat. cbn [map]. unfold list_sum in *. cbn [fold_right]. rewrite IH. lia. Qed.

Lemma sum_b2n n u : (u < n)%nat -> list_sum (map (fun v => b2n (u =? v)) (seq 0 n)) = 1%nat.
Proof.
  intros Hu. replace n with (u + S (n - u - 1))%nat by lia. rewrite seq_app, map_app. unfold list_sum. rewrite fold_right_app. cbn [seq map fold_right].
  assert (Z : forall l, (forall v, In v l -> v <> u) -> fold_right plus 0%nat (map (fun v => b2n (u =? v)) l) = 0%nat).
  { induction l as [|x l IH]; intros H; [reflexivity|]. cbn [map fold_right]. rewrite IH by (intros; apply H; right; auto). replace (u =? x)%nat with false; [reflexivity|].
    symmetry. apply Nat.eqb_neq. specialize (H x (or_introl eq_refl)). lia. }
  rewrite Nat.add_0_l, Nat.eqb_refl, Z by (intros v Hv; apply in_seq in Hv; lia).
  assert (Z' : forall l k, (forall v, In v l -> v <> u) -> fold_right plus k (map (fun v => b2n (u =? v)) l) = k).
  { induction l as [|x l IH]; intros k H; [reflexivity|]. cbn [map fold_right]. rewrite IH by (intros; apply H; right; auto). replace (u =? x)%nat with false; [reflexivity|].
    symmetry. apply Nat.eqb_neq. specialize (H x (or_introl eq_refl)). lia. }
  rewrite Z' by (intros v Hv; apply in_seq in Hv; lia). reflexivity.
Qed.

Lemma all_degrees_sum G : wf_graph G -> list_sum (all_degrees G) = (2 * length (edges G))%nat.
Proof.
  intros [Hw _]. unfold all_degrees. induction (edges G) as [|[a b] es IH].
  - cbn [map]. induction (seq 0 (vcount G)); [reflexivity|]. cbn [map]. unfold list_sum in *. cbn [fold_right]. auto.
  - destruct (Hw a b (or_introl eq_refl)) as [Ha Hb].
    transitivity (list_sum (map (fun v => (b2n (a =? v) + b2n (b =? v) + list_sum (map (fun e => (b2n (fst e =? v) + b2n (snd e =? v))%nat) es))%nat) (seq 0 (vcount G)))).
    { reflexivity. }
    rewrite list_sum_map_plus, list_sum_map_plus, !sum_b2n by auto. rewrite IH by (intros; apply Hw; right; auto). cbn [length]. lia.
Qed.

Lemma mean_degree G : wf_graph G -> (0 < vcount G)%nat -> mean (map INR (all_degrees G)) = 2 * INR (length (edges G)) / INR (vcount G).
Proof.
  intros Hw Hv. unfold mean. rewrite map_length, all_degrees_length, rsum_INR_list_sum, all_degrees_sum by auto. rewrite mult_INR. replace (INR 2) with 2 by (cbn; lra). reflexivity.
Qed.

(** ** The probabilities *)
Lemma INR_250 q : INR (newman_n q) = 250 * INR q.
Proof. unfold newman_n. rewrite mult_INR. f_equal. rewrite INR_IZR_INZ. reflexivity. Qed.

Lemma p_in_value q : (1 <= q)%nat -> newman_p_in q = Ok (16 / 249).
Proof.
  intros Hq. assert (1 <= INR q) by (apply (le_INR 1); lia). unfold newman_p_in, py_div. destruct (Req_EM_T _ 0); [exfalso; lra|]. f_equal. rewrite INR_250. field. lra.
Qed.
Lemma p_out_value q : (2 <= q)%nat -> newman_p_out q = Ok (8 / (250 * (INR q - 1))).
Proof.
  intros Hq. assert (2 <= INR q) by (apply (le_INR 2); lia). unfold newman_p_out, py_div. destruct (Req_EM_T _ 0); [exfalso; nra|]. f_equal. rewrite INR_250. field. lra.
Qed.
Lemma p_order q : (2 <= q)%nat -> 0 < 8 / (250 * (INR q - 1)) < 16 / 249.
Proof.
  intros Hq. assert (2 <= INR q) by (apply (le_INR 2); lia). split; [apply Rdiv_lt_0_compat; lra|].
  apply Rle_lt_trans with (8 / 250); [|lra]. apply Rmult_le_reg_r with (250 * (INR q - 1)); [lra|]. field_simplify; lra.
Qed.

Lemma true_gamma_value q G : (2 <= q)%nat -> wf_graph G -> vcount G = (250 * q)%nat -> edges G <> [] ->
  let s := INR (vcount G) ^ 2 / (2 * INR (length (edges G))) in
  newman_true_gamma q G = Ok (Fin (log_mean (s * (16 / 249)) (s * (8 / (250 * (INR q - 1)))))).
Proof.
  intros Hq Hw Hv Hne s. unfold newman_true_gamma. rewrite p_in_value, p_out_value by lia. cbn [bind].
  assert (Hn : 0 < INR (vcount G)) by (apply (lt_INR 0); lia).
  assert (HE : 0 < INR (length (edges G))) by (apply (lt_INR 0); destruct (edges G); [congruence|cbn; lia]).
  rewrite mean_degree by (auto; lia). set (E := INR (length (edges G))) in *. set (n := INR (vcount G)) in *. unfold ecount. fold E.
  set (pi := 16 / 249). set (po := 8 / (250 * (INR q - 1))). pose proof (p_order q Hq) as P. fold pi po in P.
  assert (Hk : 2 * E / n * (2 * E / n) <> 0). { assert (0 < 2 * E / n) by (apply Rdiv_lt_0_compat; lra). nra. }
  assert (Hs : 0 < s). { apply Rdiv_lt_0_compat; [apply pow_lt; auto|lra]. }
  unfold np_div. destruct (Req_EM_T (2 * E / n * (2 * E / n)) 0); [contradiction|]. cbn [math_log].
  replace (pi * (2 * E) / (2 * E / n * (2 * E / n))) with (s * pi) by (unfold s; fold n E; field; lra).
  replace (po * (2 * E) / (2 * E / n * (2 * E / n))) with (s * po) by (unfold s; fold n E; field; lra).
  assert (0 < s * po) by (apply Rmult_lt_0_compat; lra). assert (s * po < s * pi) by (apply Rmult_lt_compat_l; lra).
  unfold Rltb. destruct (Rlt_dec 0 (s * pi)); [|exfalso; lra]. destruct (Rlt_dec 0 (s * po)); [|exfalso; lra]. cbn [bind npf_sub npf_div].
  unfold np_div. destruct (Req_EM_T _ 0) as [Z|_]; [exfalso; apply (@ln_diff_nz (s * pi) (s * po)) in Z; auto; lra|]. reflexivity.
Qed.

(** ** An optimiser that always finds the same partition *)
Lemma iteration_constant env opt G h ws gamma0 tol max_iter verbose method p y :
  wf_graph G -> weights_defaulted (ee_contains env G) G h -> weights h = Some ws -> known_method method -> (1 <= max_iter)%Z ->
  (forall k x, answer_mono opt method h k x = Ok p) -> snd (gamma_estimate env h (Partition p)) = Ok (Some y) ->
  snd (iterative_monolayer_resolution_parameter_estimation env opt G gamma0 tol max_iter verbose method) = Ok (y, Some p).
Proof.
  intros Hg Hh Hws Hm Hi Ha He. destruct (C45_outcome env opt G h ws gamma0 tol max_iter verbose method Hg Hh Hws Hm) as (calls & answers & r & O & ->).
  cbn [snd]. inversion O as [steps y' L Ge Le NC C E1 E2 E3|steps x e L Ge Le NC F E1 E2 E3|steps x p' e L Ge Le NC F U E1 E2 E3].
  - replace ((max_iter <=? 0)%Z) with false by (symmetry; apply Z.leb_gt; lia). rewrite andb_false_r.
    destruct (classic (steps = [])) as [->|Ns]. { exfalso. destruct C as [C|(b & s & C & _)]; [cbn in C; lia|destruct b; discriminate]. }
    destruct (exists_last Ns) as (b & s & ->).
    destruct (Ge (length b) s) as [A U]. { rewrite nth_error_app2, Nat.sub_diag by lia. reflexivity. }
    rewrite Ha in A. assert (Ef : found s = p) by congruence. unfold updates_mono in U. rewrite Ef, He in U.
    assert (Ey : estimated s = y') by (eapply linked_last; exact L).
    f_equal. f_equal; [congruence|]. rewrite map_app. cbn [map]. rewrite last_of_app. congruence.
  - rewrite Ha in F. discriminate.
  - rewrite Ha in F. inversion F. subst p'. unfold updates_mono in U. rewrite He in U. discriminate.
Qed.
