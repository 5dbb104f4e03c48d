(** Property theorems about the tests of CHAMP's coefficients: C109. *)
From Verif Require Import PyBase PyGraph M_partition M_pool M_champ M_leiden M_parts M_checks M_studies Spec Spec_graph Spec_leiden Spec_objective
  L_base L_modularity L_modularity3 L_leiden L_split L_multileiden L_objective L_checks L_checks2 L_coefcheck Properties_coefficients Properties_leiden Properties_parts.
From Coq Require Import Classical.
Open Scope R_scope.

(** A coefficient that the test takes for [x]. *)
Definition taken_for (y : npf) (x : R) : Prop := exists r, y = Fin r /\ Rabs (r - x) <= 5 / 10 ^ 11.

Lemma almost_iff a b : assert_almost_equal 10 a b = Ok tt <-> taken_for (Fin a) b.
Proof. unfold assert_almost_equal, taken_for, Rleb. destruct (Rle_dec _ _) as [H|H]; split; intros X; try discriminate; eauto. destruct X as (r & E & X). inversion E. subst. contradiction. Qed.
Lemma almost_npf_iff a b : assert_almost_equal_npf a b = Ok tt <-> taken_for a b.
Proof. destruct a as [r|]; [apply almost_iff|]. split; [discriminate|]. intros (r & E & _). discriminate. Qed.
Lemma almost_raise a b : assert_almost_equal 10 a b <> Ok tt -> assert_almost_equal 10 a b = Raise AssertionError.
Proof. unfold assert_almost_equal. destruct (Rleb _ _); congruence. Qed.
Lemma almost_npf_raise a b : assert_almost_equal_npf a b <> Ok tt -> assert_almost_equal_npf a b = Raise AssertionError.
Proof. destruct a; [apply almost_raise|reflexivity]. Qed.
Lemma bind_unit (r r' : res unit) : (let! _ := r in r') = Ok tt <-> r = Ok tt /\ r' = Ok tt.
Proof. destruct r as [[]|]; cbn; split; [tauto|tauto|discriminate|intros [X _]; discriminate]. Qed.
Lemma bind_unit_raise (r r' : res unit) : (r <> Ok tt -> r = Raise AssertionError) -> (r' <> Ok tt -> r' = Raise AssertionError) ->
  (let! _ := r in r') <> Ok tt -> (let! _ := r in r') = Raise AssertionError.
Proof. destruct r as [[]|e]; cbn; intros H1 H2 H3; [auto|]. specialize (H1 ltac:(discriminate)). inversion H1. reflexivity. Qed.

(** ** Single layer.  The test accepts coefficients exactly if each A_hat is within 5e-11 of the modularity at resolution 0 and each P_hat
    within 5e-11 of the decrease from resolution 0 to 1; anything else is an AssertionError. *)
Theorem C109_exact_2D : forall G partitions A_hats P_hats,
  wf_graph G -> (forall c, In c partitions -> length c = vcount G) -> length A_hats = length partitions -> length P_hats = length partitions ->
  (check_coefficients_2D G partitions (A_hats, P_hats) = Ok tt <->
   forall i c a p, nth_error partitions i = Some c -> nth_error A_hats i = Some a -> nth_error P_hats i = Some p ->
     taken_for (Fin a) (modularity G 0 c) /\ taken_for p (modularity G 0 c - modularity G 1 c)) /\
  (check_coefficients_2D G partitions (A_hats, P_hats) <> Ok tt -> check_coefficients_2D G partitions (A_hats, P_hats) = Raise AssertionError).
Proof.
  intros G partitions A_hats P_hats Hw Hl LA LP. unfold check_coefficients_2D.
  set (cases := combine partitions (combine A_hats P_hats)).
  assert (Hin : forall c a p, In (c, (a, p)) cases <-> exists i, nth_error partitions i = Some c /\ nth_error A_hats i = Some a /\ nth_error P_hats i = Some p).
  { unfold cases. clear cases Hl. revert A_hats P_hats LA LP. induction partitions as [|c0 ps IH]; intros [|a0 As] [|p0 Ps] LA LP c a p; cbn in LA, LP; try discriminate.
    - split; [intros []|]. intros ([|i] & X & _); discriminate.
    - cbn [combine]. split.
      + intros [E|E]; [inversion E; subst; exists 0%nat; auto|]. apply (IH As Ps) in E; [|lia|lia]. destruct E as (i & X). exists (S i). auto.
      + intros ([|i] & X & Y & Z); cbn in X, Y, Z; [inversion X; inversion Y; inversion Z; left; auto|]. right. apply (IH As Ps); [lia|lia|]. eauto. }
  assert (Hone : forall c a p, In (c, (a, p)) cases ->
    let r := (let! leiden_part := leiden_part_object G c in
              let leiden_A_hat := part_quality leiden_part 0 in let leiden_P_hat := leiden_A_hat - part_quality leiden_part 1 in
              let! _ := assert_almost_equal 10 a leiden_A_hat in assert_almost_equal_npf p leiden_P_hat) in
    (r = Ok tt <-> taken_for (Fin a) (modularity G 0 c) /\ taken_for p (modularity G 0 c - modularity G 1 c)) /\ (r <> Ok tt -> r = Raise AssertionError)).
  { intros c a p Hc. cbv zeta. assert (Lc : length c = vcount G) by (apply Hl; apply Hin in Hc; destruct Hc as (i & X & _); eapply nth_error_In; eauto).
    destruct (C64_leiden_part G c Hw) as [H _]. destruct (H Lc) as (o & -> & Em & _ & Q). cbn [bind].
    assert (Eq : forall gamma, part_quality o gamma = modularity G gamma c).
    { intros gamma. rewrite <- (Q gamma (nodup Nat.eq_dec c)) by (apply nodup_labels; auto). unfold part_quality, quality_at. rewrite Em. reflexivity. }
    rewrite !Eq. split; [rewrite bind_unit, almost_iff, almost_npf_iff; reflexivity|]. apply bind_unit_raise; [apply almost_raise|apply almost_npf_raise]. }
  set (f := fun x : list nat * (R * npf) => let '(membership, (A_hat, P_hat)) := x in
    let! leiden_part := leiden_part_object G membership in
    let leiden_A_hat := part_quality leiden_part 0 in let leiden_P_hat := leiden_A_hat - part_quality leiden_part 1 in
    let! _ := assert_almost_equal 10 A_hat leiden_A_hat in assert_almost_equal_npf P_hat leiden_P_hat).
  change (foldM _ cases tt) with (foldM (fun _ x => f x) cases tt). split.
  - rewrite foldM_unit. split.
    + intros H i c a p X Y Z. assert (Hc : In (c, (a, p)) cases) by (apply Hin; eauto). apply (Hone c a p Hc). apply (H _ Hc).
    + intros H [c [a p]] Hc. apply (Hone c a p Hc). apply Hin in Hc. destruct Hc as (i & X & Y & Z). apply (H i); auto.
  - intros N. destruct (foldM (fun _ x => f x) cases tt) as [[]|e] eqn:E; [congruence|]. apply foldM_unit_raise in E. destruct E as ([c [a p]] & Hc & E).
    destruct (Hone c a p Hc) as [_ H2]. cbv zeta in H2. change (f (c, (a, p)) <> Ok tt -> f (c, (a, p)) = Raise AssertionError) in H2. rewrite E in H2. apply H2. discriminate.
Qed.
Print Assumptions C109_exact_2D.

(** Whatever partition_coefficients_2D returns passes, on networks with edges; without edges nothing does (the P_hats are nan). *)
Theorem C109_passes_2D : forall cpus order G partitions single_threaded coefficients,
  valid_pool cpus order partitions -> wf_graph G -> (forall c, In c partitions -> length c = vcount G) ->
  partition_coefficients_2D cpus order G partitions single_threaded = Ok coefficients ->
  (edges G <> [] -> check_coefficients_2D G partitions coefficients = Ok tt) /\
  (edges G = [] -> partitions <> [] -> check_coefficients_2D G partitions coefficients = Raise AssertionError).
Proof.
  intros cpus order G partitions st coefficients Hp Hw Hl E. split.
  - intros Hne. destruct (coefficients_2D_modularity cpus order st G partitions Hp Hw Hne Hl) as (a & p & E' & La & Lp & H). rewrite E in E'. inversion E'. subst coefficients.
    apply C109_exact_2D; auto; [rewrite map_length; auto|]. intros i c x y Hc Hx Hy. rewrite nth_error_map in Hy. destruct (nth_error p i) as [y'|] eqn:Ey; [|discriminate]. inversion Hy. subst y.
    pose proof (H i c x y' Hc Hx Ey) as M. unfold taken_for. rewrite <- !M. split; eexists; (split; [reflexivity|]).
    + replace (x - (x - 0 * y')) with 0 by ring. rewrite Rabs_R0. lra.
    + replace (y' - (x - 0 * y' - (x - 1 * y'))) with 0 by ring. rewrite Rabs_R0. lra.
  - intros He Hne. destruct coefficients as [As Ps].
    assert (X : length As = length partitions /\ length Ps = length partitions /\ forall p, In p Ps -> p = NonFinite).
    { apply (proj1 (C15_parallel_coefficients_equal_serial cpus order partitions Hp)) in E. unfold partition_coefficients_2D_serial in E.
      apply bind_ok in E. destruct E as (a1 & E1 & E). apply bind_ok in E. destruct E as (n1 & E2 & E). inversion E. subst As Ps.
      assert (L : forall (B : Type) (f : list nat -> res B) l r, mapM f l = Ok r -> length r = length l).
      { intros B f. induction l as [|x l IH]; intros r Hr; [inversion Hr; reflexivity|]. cbn [mapM] in Hr. apply bind_ok in Hr. destruct Hr as (y & _ & Hr). apply bind_ok in Hr. destruct Hr as (ys & Hys & Hr). inversion Hr. cbn. f_equal. auto. }
      split; [eapply L; eauto|]. split; [rewrite map_length; eapply L; eauto|]. intros p Hin. apply in_map_iff in Hin. destruct Hin as (x & <- & _).
      unfold np_div. match goal with |- context [Req_EM_T (INR ?d) 0] => assert (D : INR d = 0) by (unfold ecount; rewrite He; destruct (directed G); reflexivity) end. rewrite D. destruct (Req_EM_T 0 0) as [?|N]; [reflexivity|destruct (N eq_refl)]. }
    destruct X as (LA & LP & HN). destruct (C109_exact_2D G partitions As Ps Hw Hl LA LP) as [H1 H2]. apply H2. rewrite H1. intros H.
    destruct partitions as [|c ps]; [congruence|]. destruct As as [|a As]; [discriminate|]. destruct Ps as [|p Ps]; [discriminate|].
    destruct (H 0%nat c a p eq_refl eq_refl eq_refl) as [_ (r & X & _)]. rewrite (HN p (or_introl eq_refl)) in X. discriminate.
Qed.
Print Assumptions C109_passes_2D.

(** ** The alternative computation of P_hat: the null-model parts of the layers' own subgraphs, computed separately, add up to the one of the
    multilayer modularity, whatever the coupling. *)
Theorem C109_per_layer : forall G gi layers c,
  wf_graph G -> length layers = vcount G -> edges_within_layers G layers -> length c = vcount G ->
  exists xs, mapM (layer_P_hat G layers c) (nodup Nat.eq_dec layers) = Ok xs /\
    rsum xs = multilayer_modularity G gi layers 0 0 c - multilayer_modularity G gi layers 1 0 c.
Proof.
  intros G gi layers c Hw Hl Hwi Hc. exists (map (layer_part G layers c) (nodup Nat.eq_dec layers)). split.
  - generalize (nodup Nat.eq_dec layers) as ls. induction ls as [|l ls IH]; [reflexivity|]. cbn [mapM map]. rewrite (@layer_P_hat_ok G layers Hl Hw Hwi c l Hc). cbn [bind]. rewrite IH. reflexivity.
  - rewrite (@sum_of_layers G layers Hl c gi gi 0). ring.
Qed.
Print Assumptions C109_per_layer.

(** ** Several layers *)
Theorem C109_exact_3D : forall env w a b G gi layers cases,
  a <> b -> nth_error (heap w) a = Some G -> nth_error (heap w) b = Some gi ->
  wf_graph G -> wf_graph gi -> vcount gi = vcount G -> length layers = vcount G -> layers <> [] -> edges_within_layers G layers ->
  counts_edges (le_contains env G) G -> counts_edges (le_contains env gi) gi ->
  (forall g' v, weights_defaulted (le_contains env G) G g' -> In (key_of a g' layers, v) (cache w) -> layer_graphs G (repeat 1 (length (edges G))) layers v) ->
  (forall m x, In (m, x) cases -> length m = vcount G) ->
  let Q := multilayer_modularity G gi layers in
  (check_coefficients_3D env w a b G layers cases = Ok tt <->
   forall m A P C, In (m, (A, P, C)) cases ->
     taken_for (Fin A) (Q 0 0 m) /\ taken_for P (Q 0 0 m - Q 1 0 m) /\ taken_for (Fin C) (Q 0 1 m - Q 0 0 m)) /\
  (check_coefficients_3D env w a b G layers cases <> Ok tt -> check_coefficients_3D env w a b G layers cases = Raise AssertionError).
Proof.
  intros env w a b G gi layers cases Hab Ha Hb Hg Hgi Hv Hlen Hne Hwi Cg Cgi Hcache Hm Q.
  pose proof (counts_edges_weighted env G Cg) as Wg. pose proof (counts_edges_weighted env gi Cgi) as Wge.
  destruct (weighted_fields env G) as (Vg & Dg & Eg). destruct (weighted_fields env gi) as (Vge & Dge & Ege).
  assert (Sg : weighted env G = mkGraph (vcount G) (directed G) (edges G) (Some (repeat 1 (length (edges G))))).
  { destruct (weighted env G) as [x y z t]. cbn in *. subst. reflexivity. }
  assert (Wfg : wf_graph (weighted env G)) by (apply weighted_wf; auto).
  destruct (@split_layer_graphs (weighted env G) (repeat 1 (length (edges G))) layers Wfg Wg Hne) as (gs & Hs & Hl); [lia|].
  assert (Hl' : layer_graphs G (repeat 1 (length (edges G))) layers gs) by (rewrite Sg in Hl; exact Hl).
  assert (U : up_to_date (cache w) a (weighted env G) layers).
  { intros v Hin. rewrite Hs. f_equal. eapply layer_graphs_unique; [exact Hl'|]. apply (Hcache (weighted env G)); auto. apply weighted_defaulted. }
  assert (Hlay : forall gt, In gt gs -> vcount gt = vcount G).
  { intros gt Hin. apply In_nth_error in Hin as [t Ht]. destruct Hl' as (_ & _ & H). apply (H t gt Ht). }
  (* the qualities of the objects *)
  assert (HQ : forall c, length c = vcount G -> forall gamma omega,
     rsum (map (fun p => part_quality p gamma) (map (fun gt => mkWM (mkVP RBConfiguration gt 1) c) gs)) + omega * part_quality (mkWM (mkVP CPM (weighted env gi) 0) c) 0 = Q gamma omega c).
  { intros c Hc gamma omega.
    assert (We : weights (weighted env gi) = Some (repeat 1 (length (edges (weighted env gi))))) by (rewrite Ege; exact Wge).
    assert (M : Q gamma omega c = multilayer_modularity G (weighted env gi) layers gamma omega c) by (unfold Q, weighted; destruct (le_contains env gi); reflexivity).
    destruct (@nodup_labels (vcount G) c Hc) as [Hn Hk].
    rewrite M, <- (C51_multilayer_objective G (weighted env gi) layers c (nodup Nat.eq_dec c) gs gamma omega); auto using weighted_wf; [|congruence].
    unfold objective_value, multiplex_objective. change (fold_right Rplus 0) with rsum. rewrite map_app, rsum_app. cbn [map]. rewrite rsum_cons, rsum_nil, !map_map. cbn [fst snd].
    unfold part_quality. cbn [fst snd wm_object wm_membership vp_type vp_graph]. rewrite Rplus_0_r. f_equal. apply rsum_map_ext. intros gt _. rewrite Rmult_1_l. reflexivity. }
  (* the loop *)
  assert (Hloop : forall w g0 gi0, nth_error (heap w) a = Some g0 -> nth_error (heap w) b = Some gi0 -> weighted env g0 = weighted env G -> weighted env gi0 = weighted env gi ->
    up_to_date (cache w) a (weighted env G) layers ->
    (check_coefficients_3D env w a b G layers cases = Ok tt <-> forall m A P C, In (m, (A, P, C)) cases ->
       taken_for (Fin A) (Q 0 0 m) /\ taken_for P (Q 0 0 m - Q 1 0 m) /\ taken_for (Fin C) (Q 0 1 m - Q 0 0 m)) /\
    (check_coefficients_3D env w a b G layers cases <> Ok tt -> check_coefficients_3D env w a b G layers cases = Raise AssertionError)).
  2:{ apply (Hloop w G gi); auto. }
  clear U Ha Hb Hcache w. induction cases as [|[m [[A P] C]] rest IH]; intros w g0 gi0 Ha Hb E1 E2 U.
  - cbn [check_coefficients_3D]. split; [split; [intros _ m A P C []|auto]|congruence].
  - assert (Lm : length m = vcount G) by (apply (Hm m (A, P, C)); left; auto).
    cbn [check_coefficients_3D]. unfold multilayer_leiden_part_with_membership.
    destruct (@parts_step' env w a b g0 gi0 layers Hab Ha Hb) as (w1 & E & Ha1 & Hb1 & L1 & O1 & U1); [rewrite E1; auto|]. rewrite E, E1, E2, Hs. cbn [bind].
    rewrite (mapM_set_membership _ m (vcount G)).
    2: { intros vp Hin. apply in_map_iff in Hin as (gt & <- & Hin). cbn. auto. }
    2: exact Lm.
    cbn [bind vp_graph]. unfold set_membership. rewrite Vge, Hv, Lm, Nat.eqb_refl. cbn [bind].
    rewrite (map_map (fun gt => mkVP RBConfiguration gt 1) (fun vp => mkWM vp m)).
    set (parts := map (fun gt => mkWM (mkVP RBConfiguration gt 1) m) gs). set (ip := mkWM (mkVP CPM (weighted env gi) 0) m).
    assert (Q0 : rsum (map (fun p => part_quality p 0) parts) = Q 0 0 m) by (rewrite <- (HQ m Lm 0 0); fold parts ip; ring).
    assert (Q1 : rsum (map (fun p => part_quality p 1) parts) = Q 1 0 m) by (rewrite <- (HQ m Lm 1 0); fold parts ip; ring).
    assert (QC : part_quality ip 0 = Q 0 1 m - Q 0 0 m) by (rewrite <- (HQ m Lm 0 1), <- (HQ m Lm 0 0); fold parts ip; ring).
    rewrite Q0, Q1, QC. destruct (C109_per_layer G gi layers m Hg Hlen Hwi Lm) as (xs & Ex & Es). rewrite Ex. cbn [bind]. rewrite Es. fold (Q 0 0 m) (Q 1 0 m).
    destruct (IH (fun m' x' h => Hm m' x' (or_intror h)) w1 (weighted env g0) (weighted env gi0) Ha1 Hb1) as [R1 R2]; [rewrite weighted_idem; auto|rewrite weighted_idem; auto|rewrite <- E1; auto|].
    split.
    + rewrite !bind_unit, almost_iff, !almost_npf_iff, almost_iff, R1. split.
      * intros (T1 & T2 & T3 & T4 & T5) m' A' P' C' [X|X]; [inversion X; subst; auto|apply (T5 _ _ _ _ X)].
      * intros H. destruct (H m A P C (or_introl eq_refl)) as (T1 & T2 & T3). do 4 (split; auto). intros m' A' P' C' X. apply H. right. auto.
    + repeat (apply bind_unit_raise; [apply almost_raise || apply almost_npf_raise|]). exact R2.
Qed.
Print Assumptions C109_exact_3D.

(** Whatever partition_coefficients_3D returns passes, if every layer has an edge. *)
Theorem C109_passes_3D : forall cpus order env w a b G gi layers partitions As Ps Cs,
  valid_pool cpus order partitions ->
  a <> b -> nth_error (heap w) a = Some G -> nth_error (heap w) b = Some gi ->
  wf_graph G -> wf_graph gi -> vcount gi = vcount G -> length layers = vcount G -> layers <> [] -> edges_within_layers G layers ->
  counts_edges (le_contains env G) G -> counts_edges (le_contains env gi) gi ->
  (forall g' v, weights_defaulted (le_contains env G) G g' -> In (key_of a g' layers, v) (cache w) -> layer_graphs G (repeat 1 (length (edges G))) layers v) ->
  (forall l, In l layers -> exists u v, In (u, v) (edges G) /\ nth u layers 0%nat = l) ->
  (forall m, In m partitions -> length m = vcount G) ->
  partition_coefficients_3D cpus order G gi layers partitions = Ok (As, Ps, Cs) ->
  check_coefficients_3D env w a b G layers (combine partitions (combine (combine As Ps) Cs)) = Ok tt.
Proof.
  intros cpus order env w a b G gi layers partitions As Ps Cs Hp Hab Ha Hb Hg Hgi Hv Hlen Hne Hwi Cg Cgi Hcache Hev Hl E.
  destruct (C14_coefficients_are_multilayer_modularity cpus order G gi layers partitions Hp Hg Hgi Hlen Hne ltac:(lia) Hwi Hev Hl) as (a' & p' & c' & E' & La & Lp & Lc & H).
  rewrite E in E'. inversion E'. subst As Ps Cs. clear E'.
  assert (Hin : forall m A P C, In (m, (A, P, C)) (combine partitions (combine (combine a' (map Fin p')) c')) ->
    In m partitions /\ exists i p, P = Fin p /\ nth_error partitions i = Some m /\ nth_error a' i = Some A /\ nth_error p' i = Some p /\ nth_error c' i = Some C).
  { clear - La Lp Lc. revert a' p' c' La Lp Lc. induction partitions as [|m0 ms IH]; intros [|a0 a'] [|p0 p'] [|c0 c'] La Lp Lc m A P C Hin; cbn in *; try discriminate; [destruct Hin|].
    destruct Hin as [X|X]; [inversion X; subst; split; [auto|]; exists 0%nat, p0; auto|]. destruct (IH a' p' c' ltac:(lia) ltac:(lia) ltac:(lia) m A P C X) as (I1 & i & p & I2). split; [auto|]. exists (S i), p. auto. }
  apply (C109_exact_3D env w a b G gi layers); auto.
  - intros m [[A P] C] X. apply Hl. apply (Hin m A P C X).
  - intros m A P C X. destruct (Hin m A P C X) as (_ & i & p & -> & X1 & X2 & X3 & X4). pose proof (H i m A p C X1 X2 X3 X4) as M. unfold taken_for. rewrite <- !M.
    split; [|split]; (eexists; split; [reflexivity|]).
    + replace (A - (A - 0 * p + 0 * C)) with 0 by ring. rewrite Rabs_R0. lra.
    + replace (p - (A - 0 * p + 0 * C - (A - 1 * p + 0 * C))) with 0 by ring. rewrite Rabs_R0. lra.
    + replace (C - (A - 0 * p + 1 * C - (A - 0 * p + 0 * C))) with 0 by ring. rewrite Rabs_R0. lra.
Qed.
Print Assumptions C109_passes_3D.

(** The coefficients of the triangle with a pendant vertex and a self-loop pass; a P_hat that is off by 1/10 does not. *)
Example C109_example_2D :
  partition_coefficients_2D_serial (ex_graph false) [[0; 0; 0; 1]%nat] = Ok ([8], [Fin (58 / 10)]) /\
  check_coefficients_2D (ex_graph false) [[0; 0; 0; 1]%nat] ([8], [Fin (58 / 10)]) = Ok tt /\
  check_coefficients_2D (ex_graph false) [[0; 0; 0; 1]%nat] ([8], [Fin (57 / 10)]) = Raise AssertionError.
Proof.
  destruct (C12_C13_example false) as (Hw & _ & He & _).
  assert (Hl : forall c, In c [[0; 0; 0; 1]%nat] -> length c = vcount (ex_graph false)) by (intros c [<-|[]]; reflexivity).
  assert (V : valid_pool 1 [0]%nat [[0; 0; 0; 1]%nat]).
  { split; [lia|]. split; [apply Permutation.Permutation_refl|]. simpl; lia. }
  assert (P : check_coefficients_2D (ex_graph false) [[0; 0; 0; 1]%nat] ([8], [Fin (58 / 10)]) = Ok tt).
  { refine (proj1 (C109_passes_2D 1%nat [0]%nat (ex_graph false) [[0; 0; 0; 1]%nat] true _ V Hw Hl _) He).
    apply (proj1 (C15_parallel_coefficients_equal_serial 1%nat [0]%nat _ V)). exact C12_value. }
  split; [exact C12_value|]. split; [exact P|].
  apply (proj2 (C109_exact_2D (ex_graph false) [[0; 0; 0; 1]%nat] [8] [Fin (57 / 10)] Hw Hl eq_refl eq_refl)).
  rewrite (proj1 (C109_exact_2D _ _ [8] [Fin (57 / 10)] Hw Hl eq_refl eq_refl)). rewrite (proj1 (C109_exact_2D _ _ [8] [Fin (58 / 10)] Hw Hl eq_refl eq_refl)) in P.
  intros H. destruct (H 0%nat _ _ _ eq_refl eq_refl eq_refl) as [_ (r & E & B)]. destruct (P 0%nat _ _ _ eq_refl eq_refl eq_refl) as [_ (r' & E' & B')].
  inversion E. inversion E'. subst r r'. revert B B'. generalize (modularity (ex_graph false) 0 [0; 0; 0; 1]%nat - modularity (ex_graph false) 1 [0; 0; 0; 1]%nat). intros y.
  unfold Rabs. destruct (Rcase_abs _), (Rcase_abs _); intros; lra.
Qed.

(** Two coupled layers, of two and of three edges: whatever partition_coefficients_3D returns for three partitions passes. *)
Example C109_example_3D : forall d, exists As Ps Cs,
  partition_coefficients_3D_serial (ex_intra d) ex_inter ex_layers ex_parts = Ok (As, Ps, Cs) /\ length As = 3%nat /\
  check_coefficients_3D env3 (mkWorld [ex_intra d; ex_inter] []) 0 1 (ex_intra d) ex_layers (combine ex_parts (combine (combine As Ps) Cs)) = Ok tt.
Proof.
  intros d. destruct (C14_example d) as (Hg & Hgi & Hl & Hv & Hw & Hh & Hp).
  assert (V : valid_pool 1 [0]%nat ex_parts).
  { split; [lia|]. split; [apply Permutation.Permutation_refl|]. simpl; lia. }
  destruct (C14_coefficients_are_multilayer_modularity 1 [0]%nat (ex_intra d) ex_inter ex_layers ex_parts V Hg Hgi Hl ltac:(discriminate) Hv Hw Hh Hp) as (As & Ps & Cs & E & L1 & L2 & L3 & _).
  exists As, (map Fin Ps), Cs. split; [apply (proj2 (C15_parallel_coefficients_equal_serial 1%nat [0]%nat _ V)); exact E|]. split; [exact L1|].
  apply (C109_passes_3D 1 [0]%nat env3 (mkWorld [ex_intra d; ex_inter] []) 0 1 (ex_intra d) ex_inter ex_layers ex_parts As (map Fin Ps) Cs); auto.
  - discriminate.
  - intros X. destruct d; discriminate X.
  - intros X. discriminate X.
  - intros g' v _ [].
Qed.
