(** Property theorems about Newman's synthetic benchmark: C107. *)
From Coq Require Import String.
From Verif Require Import PyBase PyGraph M_partition M_champ M_leiden M_parts M_estimation_utils M_estimation M_studies Spec Spec_graph Spec_leiden Spec_sbm Spec_iteration Spec_newman
  L_base L_modularity L_leiden L_sbm L_sbm2 L_logmean L_limits L_float2 L_omega L_prune L_iteration L_newman Properties_sbm Properties_iteration.
From Coq Require Import Classical.
Open Scope R_scope.

(** ** The networks: [p_in] and [p_out] give every vertex on average 16 neighbours among the 249 other vertices of its community and 8 among
    the 250 (q - 1) vertices outside (8 in all, not "to each community" as a comment says); they are probabilities, p_out is the smaller
    one, and they stand where they should in the matrix.  With fewer than two communities there is a division by zero. *)
Theorem C107_probabilities : forall q,
  ((2 <= q)%nat -> exists p_in p_out matrix,
     newman_p_in q = Ok p_in /\ newman_p_out q = Ok p_out /\ newman_matrix q = Ok matrix /\
     249 * p_in = 16 /\ 250 * (INR q - 1) * p_out = 8 /\ 0 < p_out < p_in /\ p_in < 1 /\
     newman_sizes q = repeat 250%nat q /\ length matrix = q /\
     forall i j, (i < q)%nat -> (j < q)%nat -> nth j (nth i matrix []) 0 = if Nat.eq_dec i j then p_in else p_out) /\
  ((q < 2)%nat -> newman_matrix q = Raise ZeroDivisionError).
Proof.
  intros q. split.
  - intros Hq. assert (2 <= INR q) by (apply (le_INR 2); lia). pose proof (@p_order q Hq) as P.
    exists (16 / 249), (8 / (250 * (INR q - 1))). eexists. split; [apply p_in_value; lia|]. split; [apply p_out_value; auto|].
    split; [unfold newman_matrix; rewrite p_in_value, p_out_value by lia; reflexivity|]. split; [lra|]. split; [field; lra|]. split; [auto|]. split; [lra|].
    split; [reflexivity|]. split; [rewrite map_length, seq_length; auto|].
    intros i j Hi Hj. rewrite (@nth_map_seq _ _ q i []) by auto. rewrite (@nth_map_seq _ _ q j 0) by auto.
    destruct (Nat.eq_dec i j) as [->|N]; [rewrite Nat.eqb_refl; auto|]. rewrite (proj2 (Nat.eqb_neq i j)); auto.
  - intros Hq. unfold newman_matrix, newman_p_in, newman_p_out, py_div. assert (q = 0 \/ q = 1)%nat as [-> | ->] by lia.
    + destruct (Req_EM_T _ 0) as [_|N]; [reflexivity|]. exfalso. apply N. cbn. lra.
    + destruct (Req_EM_T _ 0) as [Z|_]; [reflexivity|]. cbn [bind]. destruct (Req_EM_T _ 0) as [_|N]; [reflexivity|]. exfalso. apply N. cbn. lra.
Qed.
Print Assumptions C107_probabilities.

(** ** The "true" gamma of a network with n = 250 q vertices and E > 0 edges is the library's estimate for omega_in = n^2 p_in / 2E and
    omega_out = n^2 p_out / 2E; so it lies between the two, and for networks of the same q it is inversely proportional to E.  Without edges it is nan. *)
Theorem C107_true_gamma : forall q G, (2 <= q)%nat -> wf_graph G -> vcount G = (250 * q)%nat ->
  (edges G = [] -> newman_true_gamma q G = Ok NonFinite) /\
  (edges G <> [] ->
   let s := INR (vcount G) ^ 2 / (2 * INR (length (edges G))) in
   exists p_in p_out x, newman_p_in q = Ok p_in /\ newman_p_out q = Ok p_out /\
     newman_true_gamma q G = Ok (Fin x) /\ gamma_estimate_from_parameters (s * p_in) (s * p_out) = Some (Fin x) /\
     s * p_out < x < s * p_in /\ gamma_estimate_from_parameters p_in p_out = Some (Fin (x / s)) /\
     forall G' x', wf_graph G' -> vcount G' = vcount G -> edges G' <> [] -> newman_true_gamma q G' = Ok (Fin x') ->
       x' * INR (length (edges G')) = x * INR (length (edges G))).
Proof.
  intros q G Hq Hw Hv. split.
  - intros He. unfold newman_true_gamma. rewrite p_in_value, p_out_value by lia. cbn [bind]. rewrite mean_degree by (auto; lia). rewrite He. cbn [length].
    unfold np_div. destruct (Req_EM_T _ 0) as [_|N]; [|exfalso; apply N; cbn; unfold Rdiv; ring]. reflexivity.
  - intros He s. pose proof (@p_order q Hq) as P. exists (16 / 249), (8 / (250 * (INR q - 1))), (log_mean (s * (16 / 249)) (s * (8 / (250 * (INR q - 1))))).
    assert (Hn : 0 < INR (vcount G)) by (apply (lt_INR 0); lia).
    assert (HE : forall l : list (nat * nat), l <> [] -> 0 < INR (length l)) by (intros l Hl; apply (lt_INR 0); destruct l; [congruence|cbn; lia]).
    assert (Hs : forall l : list (nat * nat), l <> [] -> 0 < INR (vcount G) ^ 2 / (2 * INR (length l))) by (intros l Hl; specialize (HE l Hl); apply Rdiv_lt_0_compat; [apply pow_lt; auto|lra]).
    pose proof (Hs _ He) as Hs0. fold s in Hs0. set (pi := 16 / 249) in *. set (po := 8 / (250 * (INR q - 1))) in *.
    assert (0 < s * po) by (apply Rmult_lt_0_compat; lra). assert (s * po < s * pi) by (apply Rmult_lt_compat_l; lra).
    split; [apply p_in_value; lia|]. split; [apply p_out_value; auto|]. split; [exact (@true_gamma_value q G Hq Hw Hv He)|].
    destruct (@C29_log_mean (s * pi) (s * po)) as (x & Ex & Vx & _); try lra. destruct (@C29_log_mean pi po) as (y & Ey & Vy & _); try lra.
    split; [rewrite Ex, Vx; reflexivity|]. split; [apply mean_between; lra|]. split.
    + rewrite Ey, Vy, log_mean_scale by lra. do 2 f_equal. unfold log_mean. field. split; first [lra | apply ln_diff_nz; lra].
    + intros G' x' Hw' Hv' He' E'. rewrite (@true_gamma_value q G' Hq Hw' ltac:(lia) He') in E'. rewrite Hv' in E'. fold pi po in E'. inversion E' as [E'']. clear E' E''.
      rewrite !log_mean_scale by (try lra; apply Hs; auto). unfold s. pose proof (HE _ He). pose proof (HE _ He'). field. lra.
Qed.
Print Assumptions C107_true_gamma.

(** ** What the library estimates.  On every network with q >= 2 equally connected communities, M of its E edges inside them (0 < M < E),
    an optimiser that always answers with these communities makes the iteration return q M / E and q (E - M) / ((q - 1) E) combined by the
    logarithmic mean, whatever the start, tolerance, and limit of iterations. *)
Theorem C107_estimate : forall env opt q G c gamma0 tol max_iter verbose method,
  (2 <= q)%nat -> wf_graph G -> counts_edges (ee_contains env G) G -> evenly_connected q G c ->
  (0 < edges_inside G c < length (edges G))%nat ->
  known_method method -> (1 <= max_iter)%Z -> (forall k h x, answer_mono opt method h k x = Ok (mkPart q c)) ->
  let M := INR (edges_inside G c) in let E := INR (length (edges G)) in
  exists y, gamma_estimate_from_parameters (INR q * M / E) (INR q * (E - M) / ((INR q - 1) * E)) = Some y /\
    snd (iterative_monolayer_resolution_parameter_estimation env opt G gamma0 tol max_iter verbose method) = Ok (y, Some (mkPart q c)).
Proof.
  intros env opt q G c gamma0 tol max_iter verbose method Hq Hw Hc He Hm Hk Hi Ha M E.
  assert (Hne : edges G <> []) by (destruct (edges G); [cbn in Hm; lia|congruence]).
  assert (Hq' : 2 <= INR q) by (apply (le_INR 2); lia).
  assert (0 < M) by (apply (lt_INR 0); lia). assert (M < E) by (apply lt_INR; lia).
  set (h := weighted_e env G).
  assert (Hh : weights_defaulted (ee_contains env G) G h) by (apply weighted_e_defaulted; reflexivity).
  assert (Fh : vcount h = vcount G /\ edges h = edges G /\ weights h = Some (repeat 1 (length (edges G)))).
  { unfold h, weighted_e, counts_edges in *. destruct (ee_contains env G); [auto|]. cbn. auto. }
  destruct Fh as (Fv & Fe & Fw).
  assert (Hwh : wf_graph h) by (apply weighted_e_wf; auto).
  assert (Eh : weighted_e env h = h) by apply weighted_e_idem.
  assert (Es : estimate_singlelayer_SBM_parameters h (mkPart q c) None = Ok (INR q * M / E, INR q * (E - M) / ((INR q - 1) * E))).
  { unfold M, E. replace (edges_inside G c) with (edges_inside h c) by (unfold edges_inside; rewrite Fe; auto). rewrite <- Fe.
    apply (@even_estimates q h c None); auto; try (rewrite Fe; auto).
    destruct He as (H1 & H2 & H3). split; [congruence|]. split; [auto|]. intros r Hr. unfold ends_in. rewrite Fe. apply (H3 r Hr). }
  assert (Pa : 0 < INR q * M / E) by (apply Rdiv_lt_0_compat; nra).
  assert (Pb : 0 < INR q * (E - M) / ((INR q - 1) * E)) by (apply Rdiv_lt_0_compat; nra).
  destruct (gamma_estimate_from_parameters (INR q * M / E) (INR q * (E - M) / ((INR q - 1) * E))) as [y|] eqn:Ey.
  2:{ exfalso. apply (proj1 (C29_degenerate _ _)) in Ey. lra. }
  exists y. split; auto.
  apply (@iteration_constant env opt G h (repeat 1 (length (edges G)))); auto.
  rewrite gamma_estimate_graph by auto. cbn [snd]. rewrite Eh. cbn [bind]. rewrite Es. cbn [bind]. rewrite Ey. reflexivity.
Qed.
Print Assumptions C107_estimate.

(** ** When the numbers of edges are as expected, the library's estimate is slightly below the "true" gamma, because a vertex has 249 and not
    250 possible neighbours in its own community: by less than one part in 249, which is less than 0.05 for q up to 18. *)
Theorem C107_gap : forall env opt q G c tol max_iter verbose method gamma0,
  (2 <= q)%nat -> wf_graph G -> counts_edges (ee_contains env G) G -> evenly_connected q G c -> edges_as_expected q G c ->
  known_method method -> (1 <= max_iter)%Z -> (forall k h x, answer_mono opt method h k x = Ok (mkPart q c)) ->
  exists t g, newman_true_gamma q G = Ok (Fin t) /\
    snd (iterative_monolayer_resolution_parameter_estimation env opt G gamma0 tol max_iter verbose method) = Ok (Fin g, Some (mkPart q c)) /\
    gamma_estimate_from_parameters (2 * INR q / 3) (INR q / (3 * (INR q - 1))) = Some (Fin g) /\
    0 < g < t /\ t < 250 / 249 * g /\ ((q <= 18)%nat -> Rabs (t - g) < 5 / 100).
Proof.
  intros env opt q G c tol max_iter verbose method gamma0 Hq Hw Hc He (Xv & Xi & Xe) Hk Hi Ha.
  assert (Hq' : 2 <= INR q) by (apply (le_INR 2); lia).
  assert (Hm : (0 < edges_inside G c < length (edges G))%nat) by lia.
  assert (Hne : edges G <> []) by (destruct (edges G); [cbn in Hm; lia|congruence]).
  assert (EM : INR (edges_inside G c) = 2000 * INR q) by (rewrite !INR_IZR_INZ, Xi, mult_IZR; reflexivity).
  assert (EE : INR (length (edges G)) = 3000 * INR q) by (rewrite !INR_IZR_INZ, Xe, mult_IZR; reflexivity).
  assert (EN : INR (vcount G) = 250 * INR q) by (rewrite Xv; apply INR_250).
  destruct (@C107_estimate env opt q G c gamma0 tol max_iter verbose method Hq Hw Hc He Hm Hk Hi Ha) as (y & Ey & R). rewrite EM, EE in Ey.
  set (a := 2 * INR q / 3). set (b := INR q / (3 * (INR q - 1))).
  replace (INR q * (2000 * INR q) / (3000 * INR q)) with a in Ey by (unfold a; field; lra).
  replace (INR q * (3000 * INR q - 2000 * INR q) / ((INR q - 1) * (3000 * INR q))) with b in Ey by (unfold b; field; lra).
  assert (Hb : 0 < b) by (apply Rdiv_lt_0_compat; lra).
  assert (Hab : b < a). { unfold a, b. apply Rmult_lt_reg_r with (3 * (INR q - 1)); [lra|]. field_simplify; [nra|lra]. }
  destruct (@C29_log_mean a b) as (g & Eg & Vg & Bg & _); [lra|lra|lra|]. rewrite Eg in Ey. inversion Ey. subst y. clear Ey.
  rewrite Rmin_right, Rmax_left in Bg by lra. assert (Lg : g = log_mean a b) by (unfold log_mean; auto).
  pose proof (@true_gamma_value q G Hq Hw Xv Hne) as Et. cbv zeta in Et. rewrite EN, EE in Et.
  replace ((250 * INR q) ^ 2 / (2 * (3000 * INR q)) * (16 / 249)) with (250 / 249 * a) in Et by (unfold a; field; lra).
  replace ((250 * INR q) ^ 2 / (2 * (3000 * INR q)) * (8 / (250 * (INR q - 1)))) with b in Et by (unfold b; field; lra).
  set (t := log_mean (250 / 249 * a) b) in *.
  assert (T1 : g < t). { rewrite Lg. unfold t. rewrite (@log_mean_sym a b), (@log_mean_sym (250 / 249 * a) b) by lra. apply mean_increasing; lra. }
  assert (T2 : t < 250 / 249 * g). { rewrite Lg, <- log_mean_scale by lra. unfold t. apply mean_increasing; lra. }
  exists t, g. split; [exact Et|]. split; [exact R|]. split; [exact Eg|]. split; [lra|]. split; [exact T2|].
  intros Hq18. assert (INR q <= 18) by (apply (le_INR q 18) in Hq18; cbn in Hq18; lra). rewrite Rabs_right by lra. unfold a in Bg. lra.
Qed.
Print Assumptions C107_gap.

(** ** The test and the experiment.  If in every network the numbers of edges are as expected and the optimiser finds the communities, the
    test passes, and the figure's points are less than 0.05 apart.  Conversely a passing test means that every difference was below 0.05. *)
Definition ideal (env : est_env) (opt : nat -> opt_env) (drawn : nat -> graph) (q : nat) : Prop :=
  wf_graph (drawn q) /\ counts_edges (ee_contains env (drawn q)) (drawn q) /\
  exists c, evenly_connected q (drawn q) c /\ edges_as_expected q (drawn q) c /\ forall k h x, oe_find (opt q) k h x = Ok (mkPart q c).

Theorem C107_test_passes : forall env opt drawn, (forall q, (3 <= q < 15)%nat -> ideal env opt drawn q) -> test_newman_synthetic_networks env opt drawn = Ok tt.
Proof.
  intros env opt drawn H. unfold test_newman_synthetic_networks.
  assert (K : forall l, (forall q, In q l -> (3 <= q < 15)%nat) -> foldM (fun _ q => newman_case env (opt q) q (drawn q)) l tt = Ok tt).
  { induction l as [|q l IH]; intros Hl; [reflexivity|]. cbn [foldM]. destruct (H q (Hl q (or_introl eq_refl))) as (Hw & Hc & c & He & Hx & Ha).
    pose proof (Hl q (or_introl eq_refl)) as Bq.
    destruct (@C107_gap env (opt q) q (drawn q) c (1 / 100) 25%Z false "leiden"%string 1 ltac:(lia) Hw Hc He Hx (or_intror (or_introl eq_refl)) ltac:(lia) Ha) as (t & g & Et & Eg & _ & _ & _ & G).
    unfold newman_case. destruct (proj1 (C107_probabilities q) ltac:(lia)) as (_ & _ & m & _ & _ & -> & _). cbn [bind]. rewrite Et. cbn [bind]. unfold estimated_gamma.
    destruct (iterative_monolayer_resolution_parameter_estimation env (opt q) (drawn q) 1 (1 / 100) 25 false "leiden") as [[calls G'] r]. cbn [snd] in *. rewrite Eg. cbn [bind fst close].
    unfold Rltb. destruct (Rlt_dec _ _) as [_|N]; [cbn [bind]; apply IH; intros; apply Hl; right; auto|]. exfalso. apply N, G. lia. }
  apply K. intros q Hin. apply in_seq in Hin. lia.
Qed.
Print Assumptions C107_test_passes.

Theorem C107_test_sound : forall env opt drawn, test_newman_synthetic_networks env opt drawn = Ok tt ->
  forall q, (3 <= q < 15)%nat -> exists t g part,
    newman_true_gamma q (drawn q) = Ok (Fin t) /\
    snd (iterative_monolayer_resolution_parameter_estimation env (opt q) (drawn q) 1 (1 / 100) 25 false "leiden") = Ok (Fin g, part) /\
    Rabs (t - g) < 5 / 100.
Proof.
  intros env opt drawn H q Hq. unfold test_newman_synthetic_networks in H.
  assert (K : forall l, foldM (fun _ q => newman_case env (opt q) q (drawn q)) l tt = Ok tt -> forall q, In q l -> newman_case env (opt q) q (drawn q) = Ok tt).
  { induction l as [|x l IH]; intros Hl y Hy; [destruct Hy|]. cbn [foldM] in Hl. destruct (newman_case env (opt x) x (drawn x)) as [[]|] eqn:E; [|discriminate]. cbn [bind] in Hl.
    destruct Hy as [<-|Hy]; auto. }
  specialize (K _ H q ltac:(apply in_seq; lia)). unfold newman_case in K. destruct (newman_matrix q); [|discriminate]. cbn [bind] in K.
  destruct (newman_true_gamma q (drawn q)) as [t|]; [|discriminate]. cbn [bind] in K. unfold estimated_gamma in K.
  destruct (iterative_monolayer_resolution_parameter_estimation env (opt q) (drawn q) 1 (1 / 100) 25 false "leiden") as [[calls G'] r]. cbn [snd] in *.
  destruct r as [[g part]|]; [|discriminate]. cbn [bind fst] in K. destruct t as [t|]; [|discriminate]. destruct g as [g|]; [|discriminate]. cbn [close] in K.
  unfold Rltb in K. destruct (Rlt_dec _ _) as [L|]; [|discriminate]. exists t, g, part. auto.
Qed.
Print Assumptions C107_test_sound.

Theorem C107_points : forall env opt drawn, (forall q, (3 <= q < 16)%nat -> ideal env opt drawn q) ->
  exists points, newman_points env opt drawn = Ok points /\ map (fun p => fst (fst p)) points = seq 3 13 /\
    forall q t g, In (q, t, g) points -> exists x y, t = Fin x /\ g = Fin y /\ newman_true_gamma q (drawn q) = Ok t /\ 0 < x - y < 5 / 100.
Proof.
  intros env opt drawn H. unfold newman_points.
  assert (K : forall l, (forall q, In q l -> (3 <= q < 16)%nat) -> exists points,
    mapM (fun q => let! _ := newman_matrix q in let! true_gamma := newman_true_gamma q (drawn q) in
                   let! gamma := snd (estimated_gamma env (opt q) (drawn q) 1 (1 / 1000) 25 true "leiden") in Ok (q, true_gamma, gamma)) l = Ok points /\
    map (fun p => fst (fst p)) points = l /\
    forall q t g, In (q, t, g) points -> exists x y, t = Fin x /\ g = Fin y /\ newman_true_gamma q (drawn q) = Ok t /\ 0 < x - y < 5 / 100).
  { induction l as [|q l IH]; intros Hl; [exists []; split; [reflexivity|]; split; [reflexivity|]; intros ? ? ? []|].
    destruct (H q (Hl q (or_introl eq_refl))) as (Hw & Hc & c & He & Hx & Ha). pose proof (Hl q (or_introl eq_refl)) as Bq.
    destruct (@C107_gap env (opt q) q (drawn q) c (1 / 1000) 25%Z true "leiden"%string 1 ltac:(lia) Hw Hc He Hx (or_intror (or_introl eq_refl)) ltac:(lia) Ha) as (t & g & Et & Eg & _ & P & _ & G).
    destruct IH as (points & E & M & I); [intros; apply Hl; right; auto|].
    exists ((q, Fin t, Fin g) :: points). split; [|split; [cbn [map fst]; rewrite M; auto|]].
    - cbn [mapM]. destruct (proj1 (C107_probabilities q) ltac:(lia)) as (_ & _ & m & _ & _ & -> & _). cbn [bind]. rewrite Et. cbn [bind]. unfold estimated_gamma at 1.
      destruct (iterative_monolayer_resolution_parameter_estimation env (opt q) (drawn q) 1 (1 / 1000) 25 true "leiden") as [[calls G'] r]. cbn [snd] in *. rewrite Eg. cbn [bind fst].
      rewrite E. reflexivity.
    - intros q' t' g' [X|X]; [|eauto]. inversion X. subst. exists t, g. split; [auto|]. split; [auto|]. split; [auto|]. specialize (G ltac:(lia)). rewrite Rabs_right in G by lra. lra. }
  apply K. intros q Hin. apply in_seq in Hin. lia.
Qed.
Print Assumptions C107_points.

(** ** For every q >= 2 there is such a network: every vertex is joined to the next 8 of its own community (cyclically), and to 4 vertices of
    the next community. *)
Definition vertex (r i : nat) : nat := (250 * r + i mod 250)%nat.
Definition ring_inside (r : nat) : list (nat * nat) :=
  flat_map (fun i => map (fun d => (vertex r i, vertex r (i + d))) (seq 1 8)) (seq 0 250).
Definition ring_outside (q r : nat) : list (nat * nat) :=
  flat_map (fun i => map (fun d => (vertex r i, vertex (S r mod q) (i + d))) (seq 0 4)) (seq 0 250).
Definition ring_network (q : nat) : graph := mkGraph (250 * q) false (flat_map (fun r => ring_inside r ++ ring_outside q r) (seq 0 q)) None.

Lemma planted_vertex q r i : (r < q)%nat -> nth (vertex r i) (planted q) 0%nat = r.
Proof.
  intros Hr. unfold planted, vertex. pose proof (Nat.mod_upper_bound i 250 ltac:(lia)). rewrite nth_map_seq by nia.
  rewrite Nat.mul_comm, Nat.div_add_l by lia. rewrite Nat.div_small by lia. lia.
Qed.

Lemma filter_constant {A} (f : A -> bool) b l : (forall x, In x l -> f x = b) -> length (filter f l) = if b then length l else 0%nat.
Proof.
  induction l as [|x l IH]; intros H; [destruct b; reflexivity|]. cbn [filter]. rewrite (H x (or_introl eq_refl)). destruct b; cbn [length]; rewrite IH; auto; intros; apply H; right; auto.
Qed.

Lemma filter_flat_length {A C} (f : C -> bool) (g : A -> list C) l : length (filter f (flat_map g l)) = list_sum (map (fun x => length (filter f (g x))) l).
Proof. induction l as [|x l IH]; [reflexivity|]. cbn [flat_map map]. rewrite filter_app, app_length, IH. reflexivity. Qed.

Lemma ring_inside_ends r e : In e (ring_inside r) -> exists i j, e = (vertex r i, vertex r j).
Proof. unfold ring_inside. intros H. apply in_flat_map in H. destruct H as (i & _ & H). apply in_map_iff in H. destruct H as (d & <- & _). eauto. Qed.
Lemma ring_outside_ends q r e : In e (ring_outside q r) -> exists i j, e = (vertex r i, vertex (S r mod q) j).
Proof. unfold ring_outside. intros H. apply in_flat_map in H. destruct H as (i & _ & H). apply in_map_iff in H. destruct H as (d & <- & _). eauto. Qed.

Lemma flat_map_const_length {A C} (g : A -> list C) k l : (forall x, length (g x) = k) -> length (flat_map g l) = (length l * k)%nat.
Proof. intros H. induction l as [|x l IH]; [reflexivity|]. cbn [flat_map length]. rewrite app_length, H, IH. lia. Qed.
Lemma ring_inside_length r : length (ring_inside r) = (250 * 8)%nat.
Proof. unfold ring_inside. rewrite (@flat_map_const_length _ _ _ 8), seq_length; auto; intros; rewrite map_length; reflexivity. Qed.
Lemma ring_outside_length q r : length (ring_outside q r) = (250 * 4)%nat.
Proof. unfold ring_outside. rewrite (@flat_map_const_length _ _ _ 4), seq_length; auto; intros; rewrite map_length; reflexivity. Qed.

Lemma next_neq q r : (2 <= q)%nat -> (r < q)%nat -> (S r mod q <> r)%nat /\ (S r mod q < q)%nat.
Proof.
  intros Hq Hr. split; [|apply Nat.mod_upper_bound; lia]. destruct (Nat.eq_dec (S r) q) as [E|N]; [rewrite E, Nat.mod_same by lia; lia|rewrite Nat.mod_small by lia; lia].
Qed.

Lemma list_sum_const {A} (l : list A) (k : nat) : list_sum (map (fun _ => k) l) = (length l * k)%nat.
Proof. induction l as [|x l IH]; [reflexivity|]. cbn [map length]. unfold list_sum in *. cbn [fold_right]. rewrite IH. lia. Qed.

(** Summing over r what is [a] for r = r0 and for the predecessor of r0 [b]. *)
Lemma sum_indicator_one q r0 (a : nat) (f : nat -> nat) (p : nat) : (p < q)%nat -> (forall r, (r < q)%nat -> f r = if Nat.eq_dec r p then a else r0) -> r0 = 0%nat ->
  list_sum (map f (seq 0 q)) = a.
Proof.
  intros Hp Hf ->. rewrite (map_ext_in f (fun r => (b2n (p =? r) * a)%nat)).
  - transitivity (list_sum (map (fun r => b2n (p =? r)) (seq 0 q)) * a)%nat; [|rewrite sum_b2n by auto; lia].
    induction (seq 0 q) as [|x l IH]; [reflexivity|]. cbn [map]. unfold list_sum in *. cbn [fold_right]. rewrite IH. lia.
  - intros r Hr. apply in_seq in Hr. rewrite Hf by lia. destruct (Nat.eq_dec r p) as [->|N]; [rewrite Nat.eqb_refl; cbn; lia|]. rewrite (proj2 (Nat.eqb_neq p r)) by auto. reflexivity.
Qed.

Section Ring.
Variable q : nat.
Hypothesis Hq : (2 <= q)%nat.

Lemma ring_wf : wf_graph (ring_network q).
Proof.
  split; [|discriminate]. intros u v H. cbn [edges ring_network vcount] in *. apply in_flat_map in H. destruct H as (r & Hr & H). apply in_seq in Hr.
  assert (B : forall r i, (r < q)%nat -> (vertex r i < 250 * q)%nat) by (intros r' i Hr'; unfold vertex; pose proof (Nat.mod_upper_bound i 250 ltac:(lia)); nia).
  apply in_app_iff in H. destruct H as [H|H]; [apply ring_inside_ends in H|apply ring_outside_ends in H]; destruct H as (i & j & E); inversion E; subst; split; apply B; try lia.
  apply next_neq; lia.
Qed.

Lemma ring_edges : length (edges (ring_network q)) = (q * 3000)%nat.
Proof.
  cbn [edges ring_network]. rewrite (@flat_map_const_length _ _ _ (250 * 8 + 250 * 4)%nat).
  - rewrite seq_length. lia.
  - intros r. rewrite app_length, ring_inside_length, ring_outside_length. reflexivity.
Qed.

Lemma ring_count (f : nat * nat -> bool) (a b : nat -> bool) :
  (forall r e, (r < q)%nat -> In e (ring_inside r) -> f e = a r) -> (forall r e, (r < q)%nat -> In e (ring_outside q r) -> f e = b r) ->
  length (filter f (edges (ring_network q))) = (list_sum (map (fun r => if a r then 250 * 8 else 0) (seq 0 q)) + list_sum (map (fun r => if b r then 250 * 4 else 0) (seq 0 q)))%nat.
Proof.
  intros Ha Hb. cbn [edges ring_network]. rewrite filter_flat_length, <- list_sum_map_plus. f_equal. apply map_ext_in. intros r Hr. apply in_seq in Hr.
  rewrite filter_app, app_length, (filter_constant f (a r)) by (intros; apply Ha; auto; lia). rewrite (filter_constant f (b r)) by (intros; apply Hb; auto; lia).
  rewrite ring_inside_length, ring_outside_length. reflexivity.
Qed.

Lemma ring_inside_count : edges_inside (ring_network q) (planted q) = (q * 2000)%nat.
Proof.
  unfold edges_inside. rewrite (ring_count _ (fun _ => true) (fun _ => false)).
  - rewrite !list_sum_const, seq_length. lia.
  - intros r e Hr H. apply ring_inside_ends in H. destruct H as (i & j & ->). cbn [fst snd]. rewrite !planted_vertex by auto. apply Nat.eqb_refl.
  - intros r e Hr H. apply ring_outside_ends in H. destruct H as (i & j & ->). cbn [fst snd]. destruct (next_neq q r Hq Hr). rewrite !planted_vertex by auto. apply Nat.eqb_neq. auto.
Qed.

Lemma ring_even : evenly_connected q (ring_network q) (planted q).
Proof.
  split; [unfold planted; rewrite map_length, seq_length; reflexivity|]. split.
  { intros l H. unfold planted in H. apply in_map_iff in H. destruct H as (i & <- & H). apply in_seq in H. apply Nat.div_lt_upper_bound; lia. }
  intros r0 Hr0. rewrite ring_edges. unfold ends_in.
  rewrite (ring_count _ (fun r => Nat.eqb r r0) (fun r => Nat.eqb r r0)).
  2:{ intros r e Hr H. apply ring_inside_ends in H. destruct H as (i & j & ->). cbn [fst snd]. rewrite planted_vertex by auto. reflexivity. }
  2:{ intros r e Hr H. apply ring_outside_ends in H. destruct H as (i & j & ->). cbn [fst snd]. rewrite planted_vertex by auto. reflexivity. }
  rewrite (ring_count _ (fun r => Nat.eqb r r0) (fun r => Nat.eqb (S r mod q) r0)).
  2:{ intros r e Hr H. apply ring_inside_ends in H. destruct H as (i & j & ->). cbn [fst snd]. rewrite planted_vertex by auto. reflexivity. }
  2:{ intros r e Hr H. apply ring_outside_ends in H. destruct H as (i & j & ->). cbn [fst snd]. rewrite planted_vertex by (apply next_neq; auto). reflexivity. }
  assert (S1 : forall a, list_sum (map (fun r => if Nat.eqb r r0 then a else 0%nat) (seq 0 q)) = a).
  { intros a. apply (@sum_indicator_one q 0 a _ r0); auto. intros r Hr. destruct (Nat.eq_dec r r0) as [->|N]; [rewrite Nat.eqb_refl|rewrite (proj2 (Nat.eqb_neq r r0))]; auto. }
  assert (S2 : forall a, list_sum (map (fun r => if Nat.eqb (S r mod q) r0 then a else 0%nat) (seq 0 q)) = a).
  { intros a. apply (@sum_indicator_one q 0 a _ (if Nat.eqb r0 0 then q - 1 else r0 - 1)%nat); auto; [destruct (Nat.eqb r0 0); lia|]. intros r Hr.
    assert (E : S r mod q = r0 <-> r = if Nat.eqb r0 0 then (q - 1)%nat else (r0 - 1)%nat).
    { destruct (Nat.eq_dec (S r) q) as [Eq|N].
      - rewrite Eq, Nat.mod_same by lia. destruct (Nat.eqb r0 0) eqn:E0; [apply Nat.eqb_eq in E0|apply Nat.eqb_neq in E0]; split; lia.
      - rewrite Nat.mod_small by lia. destruct (Nat.eqb r0 0) eqn:E0; [apply Nat.eqb_eq in E0|apply Nat.eqb_neq in E0]; split; lia. }
    destruct (Nat.eq_dec r _) as [Eq|N]; [rewrite (proj2 (Nat.eqb_eq _ _) (proj2 E Eq))|rewrite (proj2 (Nat.eqb_neq _ _))]; auto. tauto. }
  rewrite !S1, S2. lia.
Qed.
End Ring.

(** Leiden finding the planted communities of these networks meets the hypotheses for every q: the test passes. *)
Definition ring_opt (q : nat) : opt_env :=
  mkOpt (fun _ _ _ => Ok (mkPart q (planted q))) (fun _ _ _ => Ok (planted q)) (fun _ _ _ _ _ _ => Raise ValueError).
Example C107_example : forall env, (forall q, ee_contains env (ring_network q) = false) ->
  (forall q, (2 <= q)%nat -> ideal env ring_opt ring_network q) /\ test_newman_synthetic_networks env ring_opt ring_network = Ok tt.
Proof.
  intros env He. assert (I : forall q, (2 <= q)%nat -> ideal env ring_opt ring_network q).
  { intros q Hq. split; [apply ring_wf; auto|]. split; [intros E; rewrite He in E; discriminate|]. exists (planted q). split; [apply ring_even; auto|]. split.
    - split; [reflexivity|]. rewrite ring_inside_count, ring_edges by auto. lia.
    - reflexivity. }
  split; auto. apply C107_test_passes. intros q Hq. apply I. lia.
Qed.
