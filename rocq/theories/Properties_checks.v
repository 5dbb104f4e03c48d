(** Theorems about the exhaustive checks of CHAMP results (tests/test_champ_usage_2D.py, tests/test_champ_usage_3D.py,
    experiments/manual_CHAMP_test/manual_CHAMP.py): C81, C82, C83. *)
From Verif Require Import PyBase PyGraph M_partition M_pool M_champ M_leiden M_parts M_estimation_utils M_checks Spec Spec_graph Spec_champ Spec_polygon Spec_stability
  Spec_tiling Spec_leiden Spec_objective Spec_checks L_base L_canon L_modularity L_modularity3 L_leiden L_split L_multileiden L_objective L_angular L_stability L_checks L_checks2
  Properties_sbm Properties_coefficients Properties_champ Properties_leiden Properties_parts Properties_tiling.
Open Scope R_scope.

(** ** C81: the check of the single-layer tests *)
(** It passes exactly when, at every sampled gamma, the first range that contains gamma belongs to a partition whose modularity
    is within 5e-11 of the best input; otherwise it fails with an AssertionError. *)
Theorem C81_check_is_exact : forall g parts ranges gammas,
  wf_graph g -> parts <> [] -> (forall c, In c parts -> length c = vcount g) -> (forall r, In r ranges -> In (snd r) parts) ->
  (check_champ_ranges g parts ranges gammas = Ok tt <->
   forall gamma, In gamma gammas ->
     exists r, first_with (fun r => fst (fst r) <= gamma <= snd (fst r)) ranges r /\
       forall c, In c parts -> modularity g gamma c <= modularity g gamma (snd r) + 5 / 10 ^ 11) /\
  (check_champ_ranges g parts ranges gammas <> Ok tt -> check_champ_ranges g parts ranges gammas = Raise AssertionError).
Proof.
  intros g parts ranges gammas Hg Hne Hlen Hr. unfold check_champ_ranges. destruct (@parts_2D g parts Hg Hlen) as (d & -> & Hk & Hd). cbn [bind].
  set (fnd gamma := option_map snd (find (fun r : R * R * list nat => Rleb (fst (fst r)) gamma && Rleb gamma (snd (fst r))) ranges)).
  assert (B : forall gamma, check_gamma d parts ranges gamma = check_body (fun o x => part_quality o x) d parts (fnd gamma) gamma).
  { intros gamma. unfold check_gamma, check_body, fnd. destruct (find _ ranges); reflexivity. }
  assert (T : forall gamma (r : R * R * list nat), (Rleb (fst (fst r)) gamma && Rleb gamma (snd (fst r)) = true) <-> fst (fst r) <= gamma <= snd (fst r)).
  { intros gamma [[s e] p]. cbn. unfold Rleb. destruct (Rle_dec s gamma), (Rle_dec gamma e); cbn; split; intros; auto; try discriminate; lra. }
  assert (F : forall gamma (r : R * R * list nat), find (fun r : R * R * list nat => Rleb (fst (fst r)) gamma && Rleb gamma (snd (fst r))) ranges = Some r <-> first_with (fun r => fst (fst r) <= gamma <= snd (fst r)) ranges r).
  { intros gamma r. rewrite find_split. unfold first_with. split; intros (l1 & l2 & E & H1 & H2); exists l1, l2; (split; [exact E|]); (split; [apply T; exact H1|]); intros b Hb.
    - intros Q. apply T in Q. rewrite (H2 b Hb) in Q. discriminate.
    - apply not_true_is_false. intros Q. apply T in Q. exact (H2 b Hb Q). }
  split.
  - rewrite foldM_unit. split; intros H gamma Hin; specialize (H gamma Hin).
    + rewrite B in H. apply (@check_body_iff _ _ _ (fun k x => modularity g x k) d parts (fun k o h x => Hd k o h x) Hk) in H as (m & E & _ & H).
      unfold fnd in E. destruct (find _ ranges) as [r|] eqn:Ef; [|discriminate]. apply F in Ef. exists r. split; auto. cbn in E. assert (m = snd r) by congruence. subst m. auto.
    + rewrite B. apply (@check_body_iff _ _ _ (fun k x => modularity g x k) d parts (fun k o h x => Hd k o h x) Hk). destruct H as (r & Ef & H). apply F in Ef as Ef'.
      exists (snd r). unfold fnd. rewrite Ef'. split; [reflexivity|]. split; [|auto]. apply Hr. destruct Ef as (l1 & l2 & -> & _). apply in_or_app. right. left. auto.
  - intros N. destruct (foldM (fun _ gamma => check_gamma d parts ranges gamma) gammas tt) as [[]|e] eqn:E; [congruence|].
    apply foldM_unit_raise in E as (gamma & Hin & E). rewrite <- E, B.
    apply (@check_body_raises _ _ _ (fun k x => modularity g x k) d parts (fun k o h x => Hd k o h x) Hk); auto; [|rewrite <- B; congruence].
    intros m Em. unfold fnd in Em. destruct (find _ ranges) as [r|] eqn:Ef; [|discriminate]. cbn in Em. assert (m = snd r) by congruence. subst m. apply Hr. apply find_some in Ef. tauto.
Qed.
Print Assumptions C81_check_is_exact.

(** Every result of CHAMP_2D passes it, for every sample of the interval. *)
Theorem C81_champ_passes : forall env g parts gamma_0 gamma_f single_threaded ranges gammas,
  champ_ok_2D env g parts -> parts <> [] -> CHAMP_2D env g parts gamma_0 gamma_f single_threaded = Ok ranges ->
  (forall gamma, In gamma gammas -> gamma_0 <= gamma <= gamma_f) ->
  check_champ_ranges g parts ranges gammas = Ok tt.
Proof.
  intros env g parts g0 gf st ranges gammas Hok Hne H Hin.
  apply (proj1 (C81_check_is_exact g parts ranges gammas (c2_graph Hok) Hne (c2_parts Hok) (fun '(s, e, p) h => proj1 (C21_ranges_are_optimal _ _ _ _ _ _ _ Hok H s e p h)))).
  intros gamma Hg. destruct (C22_ranges_cover _ _ _ _ _ _ _ gamma Hok Hne H (Hin gamma Hg)) as (s & e & p & Hr & Hse).
  assert (E : exists r, find (fun r : R * R * list nat => Rleb (fst (fst r)) gamma && Rleb gamma (snd (fst r))) ranges = Some r).
  { destruct (find (fun r : R * R * list nat => Rleb (fst (fst r)) gamma && Rleb gamma (snd (fst r))) ranges) as [r|] eqn:Ef; [eauto|].
    pose proof (find_none _ _ Ef _ Hr) as Q. cbn in Q. unfold Rleb in Q. destruct (Rle_dec s gamma), (Rle_dec gamma e); cbn in Q; try discriminate; lra. }
  destruct E as ([[s' e'] p'] & Ef). apply find_split in Ef as (l1 & l2 & E & H1 & H2).
  assert (I : In (s', e', p') ranges) by (rewrite E; apply in_or_app; right; left; auto).
  assert (T : forall r : R * R * list nat, (Rleb (fst (fst r)) gamma && Rleb gamma (snd (fst r)) = true) <-> fst (fst r) <= gamma <= snd (fst r)).
  { intros [[x y] z]. cbn. unfold Rleb. destruct (Rle_dec x gamma), (Rle_dec gamma y); cbn; split; intros; auto; try discriminate; lra. }
  exists (s', e', p'). split.
  - exists l1, l2. split; auto. split; [apply T; auto|]. intros b Hb Q. apply T in Q. rewrite (H2 b Hb) in Q. discriminate.
  - intros c Hc. cbn [snd]. apply T in H1. pose proof (proj2 (C21_ranges_are_optimal _ _ _ _ _ _ _ Hok H s' e' p' I) gamma c H1 Hc). lra.
Qed.
Print Assumptions C81_champ_passes.

(** The ranges of the barbell graph pass at 0, 2/7, 1 and 2; with the two partitions swapped they do not pass at 1. *)
Example C81_example : check_champ_ranges barbell [whole; barbell_c] [(0, 2 / 7, whole); (2 / 7, 2, barbell_c)] [0; 2 / 7; 1; 2] = Ok tt /\
  check_champ_ranges barbell [whole; barbell_c] [(0, 2 / 7, barbell_c); (2 / 7, 2, whole)] [1] = Raise AssertionError.
Proof.
  assert (L : forall c, In c [whole; barbell_c] -> length c = vcount barbell) by (intros c [<-|[<-|[]]]; reflexivity).
  assert (P10 : 0 < 5 / 10 ^ 11 < 1) by (split; [apply Rdiv_lt_0_compat; [lra|apply pow_lt; lra]|apply (Rmult_lt_reg_r (10 ^ 11)); [apply pow_lt; lra|unfold Rdiv; rewrite Rmult_assoc, Rinv_l by (apply pow_nonzero; lra); lra]]).
  split.
  - destruct C66_C67_example as (env & ranges & H1 & _ & _ & H2 & _ & ->). apply (C81_champ_passes env barbell _ 0 2 false _ _ H1 ltac:(discriminate) H2).
    intros gamma H. cbn in H. repeat (destruct H as [<-|H]; [lra|]). destruct H.
  - destruct (C81_check_is_exact barbell [whole; barbell_c] [(0, 2 / 7, barbell_c); (2 / 7, 2, whole)] [1] barbell_wf ltac:(discriminate) L) as [A B].
    { intros r [<-|[<-|[]]]; cbn; auto. }
    apply B. intros Q. apply (proj1 A) with (gamma := 1) in Q; [|left; auto]. destruct Q as (r & (l1 & l2 & E & H1 & _) & H2). cbn in H1.
    assert (Ir : In r [(0, 2 / 7, barbell_c); (2 / 7, 2, whole)]) by (rewrite E; apply in_or_app; right; left; auto). destruct Ir as [<-|[<-|[]]]; cbn in H1; [lra|].
    specialize (H2 barbell_c (or_intror (or_introl eq_refl))). cbn [snd] in H2. rewrite barbell_whole, barbell_split in H2. lra.
Qed.

(** ** C82: the check of the multilayer tests *)
(** point_is_inside_champ_domain on a convex polygon: with the vertices in clockwise order, as CHAMP_3D lists them (C26), it accepts
    exactly the points of the polygon, boundary included; in counterclockwise order exactly the inner points. *)
Theorem C82_inside_test : forall poly gamma omega, (3 <= length poly)%nat -> NoDup poly ->
  ((forall p q r, follows poly p q -> In r poly -> r <> p -> r <> q -> orient p q r < 0) ->
   (point_is_inside_champ_domain gamma omega poly = true <-> in_polygon poly (gamma, omega))) /\
  ((forall p q r, follows poly p q -> In r poly -> r <> p -> r <> q -> orient p q r > 0) ->
   (point_is_inside_champ_domain gamma omega poly = true <-> interior poly (gamma, omega))).
Proof.
  intros poly gamma omega H3 Hnd. split; intros H.
  - apply (@inside_cw poly (-1)); auto. intros p q r A B C D. specialize (H p q r A B C D). lra.
  - apply (@inside_ccw poly 1); auto. intros p q r A B C D. specialize (H p q r A B C D). lra.
Qed.
Print Assumptions C82_inside_test.

(** The check passes exactly when, at every sampled point, the first domain whose polygon the test accepts belongs to a partition
    whose multilayer modularity is within 5e-11 of the best input; otherwise it fails with an AssertionError.  The graphs get the
    default weights (C11) and nothing else changes. *)
Theorem C82_check_is_exact : forall env w a b g ge lv parts domains gammas omegas,
  a <> b -> nth_error (heap w) a = Some g -> nth_error (heap w) b = Some ge ->
  wf_graph g -> wf_graph ge -> vcount ge = vcount g -> length lv = vcount g -> lv <> [] -> edges_within_layers g lv ->
  counts_edges (le_contains env g) g -> counts_edges (le_contains env ge) ge ->
  (forall g' v, weights_defaulted (le_contains env g) g g' -> In (key_of a g' lv, v) (cache w) ->
     layer_graphs g (repeat 1 (length (edges g))) lv v) ->
  parts <> [] -> (forall c, In c parts -> length c = vcount g) -> (forall d, In d domains -> In (snd d) parts) ->
  exists w' r, check_champ_domains env w a b lv parts domains gammas omegas = (w', r) /\
    (r = Ok tt <-> forall gamma omega, In (gamma, omega) (combine gammas omegas) ->
       exists d, first_with (fun d => point_is_inside_champ_domain gamma omega (fst d) = true) domains d /\
         forall c, In c parts -> multilayer_modularity g ge lv gamma omega c <= multilayer_modularity g ge lv gamma omega (snd d) + 5 / 10 ^ 11) /\
    (r <> Ok tt -> r = Raise AssertionError) /\
    (exists g' ge', weights_defaulted (le_contains env g) g g' /\ weights_defaulted (le_contains env ge) ge ge' /\
       nth_error (heap w') a = Some g' /\ nth_error (heap w') b = Some ge') /\
    (forall i, i <> a -> i <> b -> nth_error (heap w') i = nth_error (heap w) i).
Proof.
  intros env w a b g ge lv parts domains gammas omegas Hab Ha Hb Hg Hge Hv Hl Hlv Hw Cg Cge Hc Hne Hlen Hr. unfold check_champ_domains.
  destruct (@check_parts_3D env w a b g ge lv parts Hab Ha Hb Hg Hge Hv Hl Hlv Hlen Hw Cg Cge Hc) as (w' & d & -> & Hk & Hd & Hh & _ & Ho). cbn [bind].
  eexists w', _. split; [reflexivity|].
  set (fnd (go : R * R) := option_map snd (find (fun dm : list (R * R) * list nat => point_is_inside_champ_domain (fst go) (snd go) (fst dm)) domains)).
  assert (B : forall go, check_gamma_omega d parts domains (fst go) (snd go) = check_body (fun o x => multilayer_part_quality o (fst x) (snd x)) d parts (fnd go) go).
  { intros go. unfold check_gamma_omega, check_body, fnd. destruct (find _ domains); reflexivity. }
  assert (F : forall gamma omega dm, find (fun dm : list (R * R) * list nat => point_is_inside_champ_domain gamma omega (fst dm)) domains = Some dm <->
                first_with (fun d => point_is_inside_champ_domain gamma omega (fst d) = true) domains dm).
  { intros gamma omega dm. rewrite find_split. unfold first_with. split; intros (l1 & l2 & E & H1 & H2); exists l1, l2; (split; [exact E|]); (split; [exact H1|]); intros x Hx.
    - rewrite (H2 x Hx). discriminate.
    - apply not_true_is_false. auto. }
  assert (Hd' : forall k o, In (k, o) d -> forall x, multilayer_part_quality o (fst x) (snd x) = multilayer_modularity g ge lv (fst x) (snd x) k) by (intros; auto).
  split; [|split; [|split]].
  - rewrite foldM_unit. split.
    + intros H gamma omega Hin. specialize (H (gamma, omega) Hin). rewrite B in H.
      apply (@check_body_iff _ _ _ (fun k x => multilayer_modularity g ge lv (fst x) (snd x) k) d parts Hd' Hk) in H as (m & E & _ & H).
      unfold fnd in E. cbn [fst snd] in E, H. destruct (find _ domains) as [dm|] eqn:Ef; [|discriminate]. apply F in Ef. exists dm. split; auto. cbn in E. assert (m = snd dm) by congruence. subst m. auto.
    + intros H [gamma omega] Hin. specialize (H gamma omega Hin). rewrite B.
      apply (@check_body_iff _ _ _ (fun k x => multilayer_modularity g ge lv (fst x) (snd x) k) d parts Hd' Hk). destruct H as (dm & Ef & H). apply F in Ef as Ef'.
      exists (snd dm). unfold fnd. cbn [fst snd]. rewrite Ef'. split; [reflexivity|]. split; [|auto]. apply Hr. destruct Ef as (l1 & l2 & -> & _). apply in_or_app. right. left. auto.
  - intros N. destruct (foldM _ (combine gammas omegas) tt) as [[]|e] eqn:E; [congruence|].
    apply foldM_unit_raise in E as (go & Hin & E). rewrite <- E, B.
    apply (@check_body_raises _ _ _ (fun k x => multilayer_modularity g ge lv (fst x) (snd x) k) d parts Hd' Hk); auto; [|rewrite <- B; congruence].
    intros m Em. unfold fnd in Em. destruct (find _ domains) as [dm|] eqn:Ef; [|discriminate]. cbn in Em. assert (m = snd dm) by congruence. subst m. apply Hr. apply find_some in Ef. tauto.
  - destruct (Hh Hne) as [A1 A2]. exists (weighted env g), (weighted env ge). auto using weighted_defaulted.
  - exact Ho.
Qed.
Print Assumptions C82_check_is_exact.

(** Every result of CHAMP_3D passes it, for every sample of the rectangle, when the intersection routine reports full facets by their
    corners. *)
Theorem C82_champ_passes : forall cenv env w a b g ge lv parts gamma_0 gamma_f omega_0 omega_f domains gammas omegas,
  a <> b -> nth_error (heap w) a = Some g -> nth_error (heap w) b = Some ge -> vcount ge = vcount g ->
  counts_edges (le_contains env g) g -> counts_edges (le_contains env ge) ge ->
  (forall g' v, weights_defaulted (le_contains env g) g g' -> In (key_of a g' lv, v) (cache w) ->
     layer_graphs g (repeat 1 (length (edges g))) lv v) ->
  champ_ok_3D cenv g ge lv parts -> irredundant_hsi 3 (env_hsi cenv) -> full_facets_hsi 3 (env_hsi cenv) -> parts <> [] ->
  CHAMP_3D cenv g ge lv parts gamma_0 gamma_f omega_0 omega_f = Ok domains ->
  (forall gamma, In gamma gammas -> gamma_0 <= gamma <= gamma_f) -> (forall omega, In omega omegas -> omega_0 <= omega <= omega_f) ->
  snd (check_champ_domains env w a b lv parts domains gammas omegas) = Ok tt.
Proof.
  intros cenv env w a b g ge lv parts g0 gf o0 of domains gammas omegas Hab Ha Hb Hv Cg Cge Hc Hok Hir Hff Hne H Hgs Hos.
  assert (Ins : forall poly p gamma omega, In (poly, p) domains -> (point_is_inside_champ_domain gamma omega poly = true <-> in_polygon poly (gamma, omega))).
  { intros poly p gamma omega Hin. destruct (C69_domain_is_convex_polygon _ _ _ _ _ _ _ _ _ _ _ _ Hok Hir Hff H Hin) as ((L & N & _) & _).
    apply C82_inside_test; auto. apply (C26_corners_only _ _ _ _ _ _ _ _ _ _ _ _ Hok Hir H Hin). }
  destruct (C82_check_is_exact env w a b g ge lv parts domains gammas omegas Hab Ha Hb (c3_graph Hok) (c3_inter Hok) Hv (c3_layers Hok) (c3_layers_ne Hok) (c3_within Hok) Cg Cge Hc Hne (c3_parts Hok)) as (w' & r & -> & E & _).
  { intros [poly p] Hin. apply (C24_domains_are_optimal _ _ _ _ _ _ _ _ _ _ Hok H poly p Hin). }
  cbn [snd]. apply E. intros gamma omega Hin. pose proof (in_combine_l _ _ _ _ Hin) as Hi1. pose proof (in_combine_r _ _ _ _ Hin) as Hi2.
  destruct (C25_domains_cover _ _ _ _ _ _ _ _ _ _ gamma omega Hok Hne H (Hgs _ Hi1) (Hos _ Hi2)) as (poly & p & Hd & Hp).
  destruct (find (fun dm : list (R * R) * list nat => point_is_inside_champ_domain gamma omega (fst dm)) domains) as [[poly' p']|] eqn:Ef.
  2:{ exfalso. pose proof (find_none _ _ Ef _ Hd) as Q. cbn [fst] in Q. apply (Ins _ _ gamma omega Hd) in Hp. congruence. }
  apply find_split in Ef as (l1 & l2 & El & H1 & H2). assert (I : In (poly', p') domains) by (rewrite El; apply in_or_app; right; left; auto).
  exists (poly', p'). split.
  - exists l1, l2. split; auto. split; auto. intros x Hx. rewrite (H2 x Hx). discriminate.
  - intros c Hcc. cbn [snd]. cbn [fst] in H1. apply (Ins _ _ gamma omega I) in H1.
    destruct (C24_domains_are_optimal _ _ _ _ _ _ _ _ _ _ Hok H poly' p' I) as (_ & _ & _ & Q). specialize (Q gamma omega c H1 Hcc). lra.
Qed.
Print Assumptions C82_champ_passes.

(** Two coupled layers with three partitions; the test on a triangle. *)
Example C82_example : exists cenv domains,
  CHAMP_3D cenv (ex_intra false) ex_inter ex_layers ex_parts 0 2 0 1 = Ok domains /\ domains <> [] /\
  snd (check_champ_domains env3 (mkWorld [ex_intra false; ex_inter] []) 0 1 ex_layers ex_parts domains [0; 1; 2] [1; 1 / 2; 0]) = Ok tt.
Proof.
  destruct C68_C69_example as (cenv & domains & H1 & H2 & H3 & _ & H5). exists cenv, domains. split; auto. split.
  - destruct (C25_domains_cover _ _ _ _ _ _ _ _ _ _ 0 0 H1 ltac:(discriminate) H5) as (poly & p & Hd & _); [lra|lra|]. intros ->. destruct Hd.
  - apply (C82_champ_passes cenv env3 _ 0 1 (ex_intra false) ex_inter ex_layers ex_parts 0 2 0 1 domains); auto; try discriminate.
    + intros g' v _ [].
    + intros gamma H. cbn in H. repeat (destruct H as [<-|H]; [lra|]). destruct H.
    + intros gamma H. cbn in H. repeat (destruct H as [<-|H]; [lra|]). destruct H.
Qed.
Example C82_triangle : point_is_inside_champ_domain (1 / 2) (1 / 2) [(0, 0); (0, 1); (1, 0)] = true /\
  point_is_inside_champ_domain (3 / 4) (1 / 2) [(0, 0); (0, 1); (1, 0)] = false /\
  point_is_inside_champ_domain (1 / 2) (1 / 2) [(0, 0); (1, 0); (0, 1)] = false.
Proof.
  unfold point_is_inside_champ_domain, centroid, mean, left_or_right, Rleb. cbn. rewrite ?rsum_cons, ?rsum_nil. cbn.
  repeat split; repeat (destruct (Rle_dec _ _); cbn; try reflexivity; try lra).
Qed.

(** ** C83: the brute-force plot of the manual CHAMP experiment *)
Lemma default_weights_manual env g : counts_edges (me_contains env g) g ->
  exists g', default_weights (leiden_of_manual env) g = Ok g' /\ vcount g' = vcount g /\ directed g' = directed g /\ edges g' = edges g /\
    weights g' = Some (repeat 1 (length (edges g))).
Proof.
  intros C. exists (weighted (leiden_of_manual env) g). split; [apply default_weights_total|]. destruct (weighted_fields (leiden_of_manual env) g) as (A1 & A2 & A3).
  split; auto. split; auto. split; auto. apply counts_edges_weighted. exact C.
Qed.

Lemma cpm_zero g c gamma : wf_graph g -> weights g = Some (repeat 1 (length (edges g))) -> length c = vcount g ->
  part_quality (mkWM (mkVP CPM g gamma) c) 0 = sum_to (vcount g) (fun i => sum_to (vcount g) (fun j => adjacency g i j * delta c i j)).
Proof.
  intros Hg Hw Hl.
  destruct (@nodup_labels (vcount g) c Hl) as [Hn Hk].
  change (sum_to (vcount g) (fun i => sum_to (vcount g) (fun j => adjacency g i j * delta c i j))) with (A_of g c).
  unfold part_quality, quality. cbn [wm_object wm_membership vp_type vp_graph vp_gamma]. rewrite Hw. apply cpm_quality_A; auto.
Qed.

(** Every one of the 250 x 250 grid points is drawn once, in the colour of the first input partition of largest multilayer modularity
    there (of its canonical form, so of the partition and not of its labels). *)
Theorem C83_manual_plot_is_argmax : forall env g gi lv parts gamma_end omega_end,
  layered_quality_documented env ->
  wf_graph g -> wf_graph gi -> vcount gi = vcount g -> length lv = vcount g -> edges_within_layers g lv ->
  counts_edges (me_contains env g) g ->
  parts <> [] -> (forall c, In c parts -> length c = vcount g) ->
  exists pts, plot_manual_CHAMP env g gi lv parts gamma_end omega_end = Ok pts /\ length pts = 62500%nat /\
    forall i j, (i < 250)%nat -> (j < 250)%nat ->
      exists p t, nth_error pts (i * 250 + j) = Some (INR i * (gamma_end / 249), INR j * (omega_end / 249), me_hash env t) /\
        canonical_form_of p t /\
        first_best (multilayer_modularity g gi lv (INR i * (gamma_end / 249)) (INR j * (omega_end / 249))) parts p.
Proof.
  intros env g gi lv parts ge oe Hdoc Hg Hgi Hv Hlv Hw Cg Hne Hlen. unfold plot_manual_CHAMP.
  destruct (default_weights_manual env g Cg) as (g1 & -> & V1 & D1 & E1 & W1). cbn [bind].
  rewrite default_weights_total. fold (weighted (leiden_of_manual env) gi). cbn [bind]. destruct (weighted_fields (leiden_of_manual env) gi) as (V2 & D2 & E2).
  set (gi1 := weighted (leiden_of_manual env) gi) in *.
  assert (S2 : set_weights gi1 (repeat 1 (ecount gi1)) = Ok (mkGraph (vcount gi1) (directed gi1) (edges gi1) (Some (repeat 1 (ecount gi1))))).
  { pose proof (default_weights_total (mkLeiden (fun _ => false) (fun _ _ => Raise Stuck) (fun _ _ => Raise Stuck)) gi1) as Q. unfold default_weights in Q. cbn in Q. rewrite Q. reflexivity. }
  rewrite S2. cbn [bind]. set (gi2 := mkGraph (vcount gi1) (directed gi1) (edges gi1) (Some (repeat 1 (ecount gi1)))).
  assert (S3 : exists us, mapM (fun p => let! _ := set_membership (vcount g1) tt p in set_membership (vcount gi2) tt p) parts = Ok us).
  { destruct (@mapM_ok _ _ (fun p => let! _ := set_membership (vcount g1) tt p in set_membership (vcount gi2) tt p) (fun _ _ => True) parts) as (us & E & _); eauto.
    intros c Hc. unfold set_membership. rewrite V1. unfold gi2. cbn [vcount]. rewrite V2, Hv, (Hlen c Hc), Nat.eqb_refl. cbn [bind]. eauto. }
  destruct S3 as (us & ->). cbn [bind]. rewrite manual_grid_cells. cbv beta.
  assert (Wg1 : wf_graph g1) by (destruct Hg as [A B]; split; [rewrite E1, V1; auto|intros ws Q; rewrite W1 in Q; inversion Q; rewrite repeat_length; unfold ecount; rewrite E1; reflexivity]).
  assert (Wgi2 : wf_graph gi2).
  { destruct Hgi as [A B]. split; unfold gi2; cbn; [rewrite E2, V2; auto|]. intros ws Q. inversion Q. rewrite repeat_length. reflexivity. }
  set (Q gamma omega c := multilayer_modularity g gi lv gamma omega c).
  assert (QE : forall gamma omega c, In c parts -> me_layered_quality env g1 lv c gamma + omega * part_quality (mkWM (mkVP CPM gi2 0) c) 0 = Q gamma omega c).
  { intros gamma omega c Hc. rewrite Hdoc; auto; try congruence; [|intros u v Huv; apply Hw; congruence|rewrite V1; auto].
    rewrite (@cpm_zero gi2 c 0 Wgi2 eq_refl); [|unfold gi2; cbn; rewrite V2, Hv; auto]. unfold Q, multilayer_modularity.
    assert (Ad1 : forall i j, adjacency g1 i j = adjacency g i j) by (intros; unfold adjacency, arcs; rewrite D1, E1; reflexivity).
    assert (Ad2 : forall i j, adjacency gi2 i j = adjacency gi i j) by (intros; unfold adjacency, arcs, gi2; cbn; rewrite D2, E2; reflexivity).
    assert (Ln : forall i j, layer_null g1 lv i j = layer_null g lv i j).
    { intros i j. unfold layer_null. destruct g1 as [x y z t]. cbn in V1, D1, E1. subst x y z. reflexivity. }
    rewrite V1. replace (vcount gi2) with (vcount gi) by (unfold gi2; cbn; auto). rewrite Rmult_0_l, Rplus_0_r. f_equal.
    - apply sum_to_ext. intros i _. apply sum_to_ext. intros j _. rewrite Ad1, Ln. reflexivity.
    - f_equal. apply sum_to_ext. intros i _. apply sum_to_ext. intros j _. rewrite Ad2. reflexivity. }
  assert (CE : forall gamma omega, exists p, fold_left (fun cell p => update_cell cell (me_layered_quality env g1 lv p gamma + omega * part_quality (mkWM (mkVP CPM gi2 0) p) 0) p) parts None = Some (Q gamma omega p, p) /\ first_best (Q gamma omega) parts p).
  { intros gamma omega. destruct (@cell_spec (Q gamma omega) parts Hne) as (p & Ep & Hp). exists p. split; auto. rewrite <- Ep.
    assert (G : forall l (cell : option (R * list nat)), incl l parts -> fold_left (fun cell p => update_cell cell (me_layered_quality env g1 lv p gamma + omega * part_quality (mkWM (mkVP CPM gi2 0) p) 0) p) l cell = fold_left (fun cell p => update_cell cell (Q gamma omega p) p) l cell).
    { induction l as [|c l IH]; intros cell Hl; cbn [fold_left]; auto. rewrite QE by (apply Hl; left; auto). apply IH. intros x Hx. apply Hl. right. auto. }
    apply G. intros x; auto. }
  rewrite <- flat_map_concat_map.
  set (cells := flat_map _ _).
  assert (LC : forall gs os i j gamma omega, nth_error gs i = Some gamma -> nth_error os j = Some omega ->
     forall (f : R -> R -> option (R * list nat) * (R * R)), nth_error (flat_map (fun x => map (fun y => f x y) os) gs) (i * length os + j) = Some (f gamma omega)).
  { clear. induction gs as [|x gs IH]; intros os i j gamma omega Hi Hj f; [destruct i; discriminate|]. assert (j < length os)%nat by (apply nth_error_Some; congruence).
    cbn [flat_map]. destruct i as [|i]; cbn in Hi.
    - inversion Hi; subst x. rewrite nth_error_app1 by (rewrite map_length; lia). cbn. rewrite nth_error_map, Hj. reflexivity.
    - rewrite nth_error_app2 by (rewrite map_length; cbn; lia). rewrite map_length. replace (S i * length os + j - length os)%nat with (i * length os + j)%nat by (cbn; lia). apply IH; auto. }
  assert (LL : forall e, length (linspace 0 e 250) = 250%nat) by (intros e; unfold linspace; rewrite map_length, seq_length; reflexivity).
  assert (LN : forall e i, (i < 250)%nat -> nth_error (linspace 0 e 250) i = Some (INR i * (e / 249))).
  { intros e i Hi. unfold linspace. rewrite nth_error_map. rewrite (nth_error_nth' (seq 0 250) 0%nat) by (rewrite seq_length; auto). rewrite seq_nth by auto. cbn [option_map Nat.add].
    f_equal. rewrite Rplus_0_l, Rminus_0_r. replace (INR (250 - 1)) with 249; [reflexivity|]. replace (250 - 1)%nat with 249%nat by reflexivity. rewrite INR_IZR_INZ. reflexivity. }
  assert (HC : forall cell, In cell cells -> exists p, fst cell = Some (Q (fst (snd cell)) (snd (snd cell)) p, p) /\ first_best (Q (fst (snd cell)) (snd (snd cell))) parts p).
  { intros cell Hin. apply in_flat_map in Hin as (gamma & _ & Hin). apply in_map_iff in Hin as (omega & <- & _). cbn [fst snd]. apply CE. }
  destruct (@mapM_ok _ _ (fun cell => match fst cell with None => Raise TypeError | Some (_, p) => let! t := sorted_tuple (map Z.of_nat p) in Ok (fst (snd cell), snd (snd cell), me_hash env t) end)
     (fun cell (pt : R * R * (R * R * R)) => exists p t, pt = (fst (snd cell), snd (snd cell), me_hash env t) /\ canonical_form_of p t /\ first_best (Q (fst (snd cell)) (snd (snd cell))) parts p) cells) as (pts & Ep & F).
  { intros cell Hin. destruct (HC cell Hin) as (p & -> & Hp).
    assert (T : exists t, sorted_tuple (map Z.of_nat p) = Ok t).
    { destruct (sorted_tuple (map Z.of_nat p)) as [t|e] eqn:Et; [eauto|]. exfalso. destruct (sorted_tuple_total (map Z.of_nat p)) as (t & Et'). congruence. }
    destruct T as (t & Et). rewrite Et. cbn [bind]. eexists. split; [reflexivity|]. exists p, t. split; auto. split; auto. apply sorted_tuple_form. auto. }
  exists pts. split; [exact Ep|]. split.
  - rewrite <- (Forall2_len F). unfold cells. rewrite flat_map_concat_map.
    assert (G : forall (f : R -> R -> option (R * list nat) * (R * R)) os gs, length (concat (map (fun x => map (f x) os) gs)) = (length gs * length os)%nat).
    { clear. intros f os. induction gs as [|x gs IH]; cbn; auto. rewrite app_length, map_length, IH. reflexivity. }
    rewrite G, !LL. reflexivity.
  - intros i j Hi Hj. pose proof (LC _ _ i j _ _ (LN ge i Hi) (LN oe j Hj) (fun gamma omega => (fold_left (fun cell p => update_cell cell (me_layered_quality env g1 lv p gamma + omega * part_quality (mkWM (mkVP CPM gi2 0) p) 0) p) parts None, (gamma, omega)))) as E.
    rewrite LL in E. fold cells in E.
    assert (N : forall A B (P : A -> B -> Prop) l l' k a, Forall2 P l l' -> nth_error l k = Some a -> exists b, nth_error l' k = Some b /\ P a b).
    { clear. intros A B P l l' k a F. revert k. induction F; intros [|k] H0; cbn in *; try discriminate; [inversion H0; subst; eauto|eauto]. }
    destruct (N _ _ _ _ _ _ _ F E) as (pt & Ept & p & t & -> & Hcan & Hb). exists p, t. cbn [fst snd] in *. auto.
Qed.
Print Assumptions C83_manual_plot_is_argmax.

(** So it agrees with CHAMP_3D: at a grid point inside a domain the drawn partition has the modularity of the domain's partition, and
    it is that partition (and its colour) where that one is the only best input. *)
Theorem C83_agrees_with_champ : forall cenv env g gi lv parts gamma_end omega_end domains pts poly part i j,
  layered_quality_documented env -> counts_edges (me_contains env g) g -> vcount gi = vcount g ->
  champ_ok_3D cenv g gi lv parts -> CHAMP_3D cenv g gi lv parts 0 gamma_end 0 omega_end = Ok domains ->
  plot_manual_CHAMP env g gi lv parts gamma_end omega_end = Ok pts ->
  In (poly, part) domains -> (i < 250)%nat -> (j < 250)%nat ->
  in_polygon poly (INR i * (gamma_end / 249), INR j * (omega_end / 249)) ->
  let Q := multilayer_modularity g gi lv (INR i * (gamma_end / 249)) (INR j * (omega_end / 249)) in
  exists p t, nth_error pts (i * 250 + j) = Some (INR i * (gamma_end / 249), INR j * (omega_end / 249), me_hash env t) /\
    canonical_form_of p t /\ In p parts /\ Q p = Q part /\
    ((forall c, In c parts -> c <> part -> Q c < Q part) -> p = part).
Proof.
  intros cenv env g gi lv parts ge oe domains pts poly part i j Hdoc Cg Hv Hok H Hp Hin Hi Hj Hpol Q.
  destruct (C24_domains_are_optimal _ _ _ _ _ _ _ _ _ _ Hok H poly part Hin) as (Hpart & _ & _ & Hopt).
  assert (Hne : parts <> []) by (intros ->; destruct Hpart).
  destruct (C83_manual_plot_is_argmax env g gi lv parts ge oe Hdoc (c3_graph Hok) (c3_inter Hok) Hv (c3_layers Hok) (c3_within Hok) Cg Hne (c3_parts Hok)) as (pts' & E & _ & F).
  assert (pts' = pts) by congruence. subst pts'. destruct (F i j Hi Hj) as (p & t & En & Hc & l1 & l2 & El & B1 & B2). exists p, t. split; auto. split; auto.
  fold Q in B1, B2. assert (Ip : In p parts) by (rewrite El; apply in_or_app; right; left; auto). split; auto.
  assert (Qp : Q p = Q part).
  { apply Rle_antisym; [apply Hopt; auto|]. rewrite El in Hpart. apply in_app_or in Hpart as [I|[<-|I]]; [specialize (B1 _ I); lra|lra|specialize (B2 _ I); lra]. }
  split; auto. intros S. destruct (list_eq_dec Nat.eq_dec p part) as [->|N]; auto. specialize (S p Ip N). lra.
Qed.
Print Assumptions C83_agrees_with_champ.

(** Without partitions there is nothing to colour. *)
Theorem C83_no_partitions : forall env g gi lv gamma_end omega_end, plot_manual_CHAMP env g gi lv [] gamma_end omega_end = Raise TypeError.
Proof.
  intros env g gi lv ge oe. unfold plot_manual_CHAMP. rewrite !default_weights_total. cbn [bind].
  set (gi1 := if le_contains (leiden_of_manual env) gi then _ else _).
  pose proof (default_weights_total (mkLeiden (fun _ => false) (fun _ _ => Raise Stuck) (fun _ _ => Raise Stuck)) gi1) as Q. unfold default_weights in Q. cbn in Q. rewrite Q. cbn [bind mapM].
  rewrite manual_grid_cells. cbn [fold_left].
  assert (L : exists x l, linspace 0 ge 250 = x :: l) by (unfold linspace; cbn [seq map]; eauto).
  assert (L' : exists x l, linspace 0 oe 250 = x :: l) by (unfold linspace; cbn [seq map]; eauto).
  destruct L as (x & l & ->). destruct L' as (y & l' & ->). reflexivity.
Qed.
Print Assumptions C83_no_partitions.

Definition manual_ex : manual_env := mkManual (fun _ => false) (fun g lv c gamma => multilayer_modularity g g lv gamma 0 c) (fun t => (INR (length t), 0, 0)).
Example C83_example : layered_quality_documented manual_ex /\ exists cenv domains pts,
  champ_ok_3D cenv (ex_intra false) ex_inter ex_layers ex_parts /\
  CHAMP_3D cenv (ex_intra false) ex_inter ex_layers ex_parts 0 2 0 1 = Ok domains /\
  plot_manual_CHAMP manual_ex (ex_intra false) ex_inter ex_layers ex_parts 2 1 = Ok pts /\
  exists poly part, In (poly, part) domains /\ in_polygon poly (INR 0 * (2 / 249), INR 249 * (1 / 249)).
Proof.
  assert (D : layered_quality_documented manual_ex) by (intros g lv c gamma; reflexivity). split; auto.
  destruct C24_example as (cenv & domains & H1 & H2). exists cenv, domains.
  destruct (C83_manual_plot_is_argmax manual_ex (ex_intra false) ex_inter ex_layers ex_parts 2 1 D (c3_graph H1) (c3_inter H1) eq_refl (c3_layers H1) (c3_within H1) ltac:(discriminate) ltac:(discriminate) (c3_parts H1)) as (pts & E & _).
  exists pts. split; auto. split; auto. split; auto.
  apply (C25_domains_cover _ _ _ _ _ _ _ _ _ _ _ _ H1 ltac:(discriminate) H2); replace (INR 249) with 249 by (rewrite INR_IZR_INZ; reflexivity); cbn; lra.
Qed.
