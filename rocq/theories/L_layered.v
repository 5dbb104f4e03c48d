(** Lemmas for Properties_layered.v. *)
From Coq Require Import String.
From Verif Require Import PyBase PyGraph M_partition M_champ M_leiden M_parts M_estimation_utils M_estimation M_studies M_esttests Spec Spec_graph Spec_leiden Spec_sbm Spec_multisbm Spec_check Spec_valid
  Spec_iteration Spec_newman Spec_layered
  L_base L_modularity L_leiden L_sbm L_sbm2 L_multisbm L_logmean L_limits L_float2 L_omega L_prune L_iteration L_newman Properties_sbm Properties_multisbm Properties_iteration.
From Coq Require Import Classical.
Open Scope R_scope.

(** ** Sums over layers *)
Lemma layers_rsum (f : wedge -> R) lv T : forall E, (forall e, In e E -> (nth (fst (fst e)) lv 0 < T)%nat) ->
  sum_to T (fun t => rsum (map f (layer_edges E lv t))) = rsum (map f E).
Proof.
  induction E as [|e E IH]; intros H; [apply sum_to_0; reflexivity|].
  rewrite (@sum_to_ext T _ (fun t => (if Nat.eq_dec (nth (fst (fst e)) lv 0%nat) t then f e else 0) + rsum (map f (layer_edges E lv t)))).
  - rewrite sum_to_plus, IH by (intros; apply H; right; auto). rewrite (@sum_to_single T (nth (fst (fst e)) lv 0%nat) (fun _ => f e)) by (apply H; left; auto). reflexivity.
  - intros t _. unfold layer_edges. cbn [filter]. destruct (Nat.eqb_spec (nth (fst (fst e)) lv 0%nat) t) as [Q|Q], (Nat.eq_dec (nth (fst (fst e)) lv 0%nat) t); try contradiction.
    + cbn [map]. rewrite rsum_cons. reflexivity.
    + lra.
Qed.

Lemma layer_kappa lv c t r : forall es, (forall u v, In (u, v) es -> nth u lv 0%nat = nth v lv 0%nat) ->
  kappa_w (layer_edges (combine es (repeat 1 (length es))) lv t) c r =
  INR (length (filter (fun e => Nat.eqb (nth (fst e) lv 0%nat) t && Nat.eqb (nth (fst e) c 0%nat) r) es) +
       length (filter (fun e => Nat.eqb (nth (snd e) lv 0%nat) t && Nat.eqb (nth (snd e) c 0%nat) r) es)).
Proof.
  induction es as [|[u v] es IH]; intros H; [cbn; unfold kappa_w; reflexivity|].
  specialize (IH (fun a b Hin => H a b (or_intror Hin))). pose proof (H u v (or_introl eq_refl)) as Q. rewrite plus_INR in *.
  cbn [length repeat combine]. unfold layer_edges in *. cbn [filter fst snd]. rewrite <- Q.
  destruct (Nat.eqb (nth u lv 0%nat) t); cbn [andb].
  - unfold kappa_w in *. cbn [map]. rewrite rsum_cons. cbn [fst snd]. rewrite IH. unfold L_objective.ind. cbv beta.
    destruct (Nat.eqb (nth u c 0%nat) r), (Nat.eqb (nth v c 0%nat) r). all: cbn [length]; rewrite ?S_INR; lra.
  - exact IH.
Qed.

Section Even.
Variables (K T : nat) (G : graph) (lv c : list nat).
Hypothesis (HK : (2 <= K)%nat) (HT : (1 <= T)%nat) (Hwf : wf_graph G) (Hne : edges G <> []) (Hin : edges_within_layers G lv).
Hypothesis (Hlv : forall v, (v < vcount G)%nat -> (nth v lv 0 < T)%nat) (Hev : evenly_layered K T G lv c).
Let WE := weighted_edges G (repeat 1 (length (edges G))).
Let E := INR (length (edges G)).
Let M := INR (edges_inside G c).

Lemma even_layer t : (t < T)%nat ->
  observed_within (vcount G) (layer_edges WE lv t) c = 2 * inner_w (layer_edges WE lv t) c /\
  expected_within (vcount G) (layer_edges WE lv t) c = 2 * E / (INR T * INR K) /\
  total_strength (vcount G) (layer_edges WE lv t) = 2 * E / INR T.
Proof.
  intros Ht. destruct Hev as (Hlen & Hlab & _ & Hends).
  assert (Hr : in_range_E (vcount G) (layer_edges WE lv t)) by (apply layer_range, range_E_of; auto).
  assert (Hlab' : forall v, (v < vcount G)%nat -> (nth v c 0 < K)%nat) by (intros v Hv; apply Hlab, nth_In; lia).
  assert (Kp : 2 <= INR K) by (apply (le_INR 2); lia). assert (Tp : 1 <= INR T) by (apply (le_INR 1); lia).
  assert (Ep : 0 < E) by (unfold E; apply (lt_INR 0); destruct (edges G); [congruence|cbn; lia]).
  assert (Ek : forall r, (r < K)%nat -> kappa_w (layer_edges WE lv t) c r = 2 * E / (INR T * INR K)).
  { intros r Hr'. unfold WE, weighted_edges. rewrite layer_kappa by (intros u v Huv; apply Hin; auto).
    specialize (Hends t r Ht Hr'). unfold ends_in_layer in Hends. set (k := (_ + _)%nat) in *. apply (f_equal INR) in Hends. rewrite !mult_INR in Hends. fold E in Hends.
    replace (INR 2) with 2 in Hends by (cbn; lra). rewrite <- Hends. field. lra. }
  assert (Et : 2 * total_w (layer_edges WE lv t) = 2 * E / INR T).
  { rewrite <- (@kappa_total _ c K (vcount G) Hr Hlab'). rewrite (map_ext_in _ (fun _ => 2 * E / (INR T * INR K))) by (intros r Hr'; apply in_seq in Hr'; apply Ek; lia).
    rewrite rsum_const, seq_length. field. lra. }
  split; [apply observed_within_w; auto|]. split.
  - rewrite (@expected_within_w _ _ c K Hr Hlab'), Et. rewrite (map_ext_in _ (fun _ => (2 * E / (INR T * INR K)) ^ 2)) by (intros r Hr'; apply in_seq in Hr'; rewrite Ek by lia; reflexivity).
    rewrite rsum_const, seq_length. field. lra.
  - rewrite (total_strength_w Hr). exact Et.
Qed.

Lemma even_sums :
  observed_within_layers (vcount G) WE lv T c = 2 * M /\ expected_within_layers (vcount G) WE lv T c = 2 * E / INR K /\
  observed_between_layers (vcount G) WE lv T c = 2 * (E - M) /\ expected_between_layers (vcount G) WE lv T c = 2 * E * (INR K - 1) / INR K.
Proof.
  assert (Kp : 2 <= INR K) by (apply (le_INR 2); lia). assert (Tp : 1 <= INR T) by (apply (le_INR 1); lia).
  assert (Ep : 0 < E) by (unfold E; apply (lt_INR 0); destruct (edges G); [congruence|cbn; lia]).
  assert (C : forall x, sum_to T (fun _ => x) = INR T * x) by (intros x; rewrite sum_to_rsum, rsum_const, seq_length; reflexivity).
  assert (Z1 : observed_within_layers (vcount G) WE lv T c = 2 * M).
  { unfold observed_within_layers. rewrite (@sum_to_ext T _ (fun t => 2 * inner_w (layer_edges WE lv t) c)) by (intros t Ht; apply even_layer; auto). rewrite sum_to_scale. f_equal.
    unfold inner_w. rewrite layers_rsum.
    - apply (unit_inner G c).
    - intros [[u v] w] Hw. cbn [fst]. apply Hlv. apply (@range_E_of G (repeat 1 (length (edges G))) Hwf) in Hw. tauto. }
  assert (Z2 : expected_within_layers (vcount G) WE lv T c = 2 * E / INR K).
  { unfold expected_within_layers. rewrite (@sum_to_ext T _ (fun t => 2 * E / (INR T * INR K))) by (intros t Ht; apply even_layer; auto). rewrite C. field. lra. }
  assert (Z3 : sum_to T (fun t => total_strength (vcount G) (layer_edges WE lv t)) = 2 * E).
  { rewrite (@sum_to_ext T _ (fun t => 2 * E / INR T)) by (intros t Ht; apply even_layer; auto). rewrite C. field. lra. }
  assert (Z4 : observed_within_layers (vcount G) WE lv T c + observed_between_layers (vcount G) WE lv T c = 2 * E).
  { rewrite <- Z3. unfold observed_within_layers, observed_between_layers. rewrite <- sum_to_plus. apply sum_to_ext. intros t _. apply observed_split. }
  assert (Z5 : expected_within_layers (vcount G) WE lv T c + expected_between_layers (vcount G) WE lv T c = 2 * E).
  { rewrite <- Z3. unfold expected_within_layers, expected_between_layers. rewrite <- sum_to_plus. apply sum_to_ext. intros t Ht. apply expected_split.
    destruct (even_layer t Ht) as (_ & _ & ->). assert (0 < 2 * E / INR T) by (apply Rdiv_lt_0_compat; lra). lra. }
  split; [auto|]. split; [auto|]. split; [lra|]. rewrite Z2 in Z5. apply Rplus_eq_reg_l with (2 * E / INR K). rewrite Z5. field. lra.
Qed.
End Even.

(** ** An optimiser that always finds the same partitions *)
Lemma multi_constant env opt parts g gi h hi ws lv gamma omega gt ot omega_max mi model verbose ps y :
  wf_graph g -> weights_defaulted (ee_contains env g) g h -> weights_defaulted (ee_contains env gi) gi hi -> weights h = Some ws ->
  valid_multilayer h hi ws lv model -> is_model model -> (1 <= mi)%Z ->
  (forall k x o, oe_multi opt k h hi lv x o = Ok ps) -> updates_multi env h hi lv model omega_max ps (Ok y) ->
  exists calls, iterative_multilayer_resolution_parameter_estimation env opt parts g gi lv gamma omega gt ot omega_max mi model verbose
    = (calls, Some ps, (h, hi), Ok (fst y, snd y, ps)).
Proof.
  intros Hg Hh Hhi Hw Hv Hm Hi Ha Hu. destruct (@C46_outcome env opt parts g gi h hi ws lv gamma omega gt ot omega_max mi model verbose Hg Hh Hhi Hw Hv Hm) as (calls & answers & r & O & E).
  cbv zeta in E. destruct (@omega_function_models model omega_max (S (list_max lv)) Hm) as [f Hf].
  assert (U : forall r', updates_multi env h hi lv model omega_max ps r' -> r' = Ok y) by (intros r' Q; rewrite (@updates_multi_iff env h hi lv model omega_max f Hf) in *; congruence).
  inversion O as [steps y' L Ge Le NC C E1 E2 E3|steps x e L Ge Le NC F E1 E2 E3|steps x p' e L Ge Le NC F Q E1 E2 E3].
  - destruct (classic (steps = [])) as [->|Ns]. { exfalso. destruct C as [C|(b & s & C & _)]; [cbn in C; lia|destruct b; discriminate]. }
    destruct (exists_last Ns) as (b & s & ->).
    destruct (Ge (length b) s) as [A Us]. { rewrite nth_error_app2, Nat.sub_diag by lia. reflexivity. }
    unfold answer_multi in A. rewrite Ha in A. assert (Ef : found s = ps) by congruence. rewrite Ef in Us. apply U in Us.
    assert (Ey : estimated s = y') by (eapply linked_last; exact L).
    assert (El : last_of answers = Some ps) by (rewrite <- E2, map_app; cbn [map]; rewrite last_of_app; congruence).
    exists calls. rewrite E, El, <- E3. replace ((mi <=? 0)%Z) with false by (symmetry; apply Z.leb_gt; lia). rewrite andb_false_r.
    destruct y' as [a b']. replace y with (a, b') by congruence. reflexivity.
  - unfold answer_multi in F. rewrite Ha in F. discriminate.
  - unfold answer_multi in F. rewrite Ha in F. inversion F. subst p'. apply U in Q. discriminate.
Qed.
