(** C106 (continued): when the law-firm script gets through; and a run that does (examples for C105 and C106). *)
From Coq Require Import String Permutation.
From Verif Require Import PyBase PyGraph M_partition M_champ M_leiden M_estimation_utils M_estimation M_checks M_generators M_plotting M_lfr M_staged Spec Spec_graph Spec_leiden Spec_sbm Spec_multisbm Spec_check Spec_valid Spec_champ Spec_generators Spec_iteration Spec_staged Spec_plotting Spec_lazega Spec_lawfirm
  L_base L_canon L_leiden L_modularity L_modularity3 L_objective L_bounds L_champ_total L_multileiden L_generators L_lazega L_parallel L_sbm L_sbm2 L_multisbm L_prune L_staged L_lawfirm Properties_champ Properties_leiden Properties_plotting Properties_lfr Properties_multisbm Properties_iteration Properties_generators Properties_lazega Properties_staged Properties_stageddata Properties_lawfirm Properties_lawdata.
Open Scope list_scope.
Open Scope R_scope.

Lemma labelled_canonical c : canonical c -> c <> [] -> exists k, labelled c k /\ has_communities c k.
Proof.
  intros H N. destruct (num_communities_canonical H N) as (k & E & Hk). exists k. split; [|exact Hk]. apply num_communities_spec in E as [E1 E2]. split; [lia|exact E2].
Qed.

(** With 71 persons the figures are drawn whenever the estimates exist and the colouring of domains does not run into a dead end. *)
Theorem C106_draws : forall env f g gi lv all k2 k3 k4, firm_data f g gi lv -> lw_persons f = 71%nat ->
  (forall d, In d (all ++ k2 ++ k3 ++ k4) -> length (snd d) = (lw_persons f * 3)%nat /\ canonical (snd d)) ->
  (forall figure d, In d (all ++ k2 ++ k3 ++ k4) -> exists e, snd (gamma_omega_estimate (sg_est env figure) g gi lv (snd d) 1000 "multiplex" None None None None) = Ok e) ->
  (forall figure domains, exists drawing, plot_2d_domains (sg_plot env figure) domains true = Ok drawing) ->
  exists ff, firm_shows env f all k2 k3 k4 ff.
Proof.
  intros env f g gi lv all k2 k3 k4 FD HN HL HE HP. assert (Hn := fd_network _ _ _ _ FD). destruct (firm_graphs f g gi lv FD) as (Llv & Nlv & _).
  assert (PO : Permutation person_order (seq 0 (lw_persons f))) by (rewrite HN; apply C106_order).
  assert (Pos : (0 < lw_persons f)%nat) by apply (fd_persons _ _ _ _ FD). clear HN.
  assert (CE : forall figure margin ds, (forall d, In d ds -> In d (all ++ k2 ++ k3 ++ k4)) -> exists l, firm_estimates (sg_est env figure) f margin ds = Ok l /\ forall x, In x l -> exists d, In d ds /\ snd (fst (fst x)) = snd d).
  { intros figure margin ds Hds.
    assert (exists es, Forall2 (fun d e => snd (gamma_omega_estimate (sg_est env figure) g gi lv (snd d) 1000 "multiplex" None None None None) = Ok e) ds es) as (es & F).
    { assert (Q : forall d, In d ds -> exists e, snd (gamma_omega_estimate (sg_est env figure) g gi lv (snd d) 1000 "multiplex" None None None None) = Ok e) by (intros d Hd; apply HE; auto).
      clear - Q. induction ds as [|d ds IH]; [exists []; constructor|]. destruct (Q d (or_introl eq_refl)) as (e & He). destruct IH as (es & F); [intros; apply Q; right; assumption|]. exists (e :: es). constructor; assumption. }
    eexists. split; [apply (C106_estimates _ f g gi lv margin ds _ Hn); exists es; split; [exact F|reflexivity]|].
    intros x Hx. apply in_flat_map in Hx as ([d [ga om]] & Hd & Hx). cbn [fst snd] in Hx. apply in_combine_l in Hd. destruct ga as [ga|]; [|destruct Hx]. destruct Hx as [<-|[]]. exists d. split; [exact Hd|reflexivity]. }
  assert (I : (forall d, In d all -> In d (all ++ k2 ++ k3 ++ k4)) /\ (forall d, In d k2 -> In d (all ++ k2 ++ k3 ++ k4)) /\ (forall d, In d k3 -> In d (all ++ k2 ++ k3 ++ k4)) /\ (forall d, In d k4 -> In d (all ++ k2 ++ k3 ++ k4))).
  { split; [|split; [|split]]; intros d Hd; rewrite !in_app_iff; tauto. }
  destruct I as (I1 & I2 & I3 & I4).
  assert (PE : forall figure l xl yl b, exists p, plot_2d_domains_with_estimates (sg_plot env figure) l xl yl b true = Ok p).
  { intros figure l xl yl b. unfold plot_2d_domains_with_estimates. match goal with |- context [plot_2d_domains ?e ?ds true] => destruct (HP figure ds) as (x & ->) end. cbn [bind]. eauto. }
  destruct (CE "5.8"%string (1 / 1000) all I1) as (la & La & Fa). destruct (PE "5.8"%string la (4 / 10, 3) (8 / 10, 1275 / 1000) true) as (d1 & D1). destruct (PE "5.8 stable"%string (stable_domains la) (4 / 10, 3) (8 / 10, 1275 / 1000) false) as (d2 & D2).
  destruct (CE "5.8 K"%string (1 / 100) k2 I2) as (a2 & A2 & _). destruct (CE "5.8 K"%string (1 / 100) k3 I3) as (a3 & A3 & _). destruct (CE "5.8 K"%string (1 / 100) k4 I4) as (a4 & A4 & _).
  destruct (CE "5.9"%string (1 / 1000) k2 I2) as (b2 & B2 & _). destruct (CE "5.9"%string (1 / 1000) k3 I3) as (b3 & B3 & _). destruct (CE "5.9"%string (1 / 1000) k4 I4) as (b4 & B4 & _).
  destruct (PE "5.9"%string (stable_domains b2) (4 / 10, 3) (4 / 10, 14 / 10) true) as (r2 & R2). destruct (PE "5.9"%string (stable_domains b3) (4 / 10, 3) (4 / 10, 14 / 10) true) as (r3 & R3). destruct (PE "5.9"%string (stable_domains b4) (4 / 10, 3) (4 / 10, 14 / 10) true) as (r4 & R4).
  destruct (CE "5.7"%string (1 / 1000) all I1) as (lc & Lc & Fc).
  destruct (CE "5.10"%string (1 / 1000) k2 I2) as (c2 & C2 & F2). destruct (CE "5.10"%string (1 / 1000) k3 I3) as (c3 & C3 & F3). destruct (CE "5.10"%string (1 / 1000) k4 I4) as (c4 & C4 & F4).
  assert (NE : forall c : list nat, length c = (lw_persons f * 3)%nat -> c <> []) by (intros c Lc' ->; cbn in Lc'; lia).
  assert (KS : exists p, plot_2d_domains_with_num_communities lc (4 / 10, 3) (8 / 10, 1275 / 1000) true (Some 5%nat) 1 = Ok p).
  { unfold plot_2d_domains_with_num_communities. assert (exists drawn, valued_polygons num_communities (4 / 10, 3) (8 / 10, 1275 / 1000) lc = Ok drawn) as (drawn & ->).
    { unfold valued_polygons. apply mapM_total. intros [p c] Hd. apply filter_In in Hd as [Hd _]. apply in_map_iff in Hd as (x & E & Hx). destruct (Fc x Hx) as (d & Hd & Ed). injection E as _ <-. rewrite Ed. destruct (HL d (I1 d Hd)) as [L1 L2].
      destruct (num_communities_canonical L2 (NE _ L1)) as (k & Ek & _). cbn [snd fst]. rewrite Ek. cbn [bind]. eauto. }
    cbn [bind]. eexists. reflexivity. }
  destruct KS as (ks & KS).
  assert (MS : exists ms, Forall2 (fun c m => firm_matrix f lv c = Ok m) (flat_map gamma_omega_estimates_to_stable_partitions [c2; c3; c4]) ms).
  { assert (Q : forall c, In c (flat_map gamma_omega_estimates_to_stable_partitions [c2; c3; c4]) -> exists m, firm_matrix f lv c = Ok m).
    { intros c Hc. assert (Hc' : length c = (lw_persons f * 3)%nat /\ canonical c).
      { apply in_flat_map in Hc as (cl & Hcl & Hc). unfold gamma_omega_estimates_to_stable_partitions in Hc. apply in_map_iff in Hc as (x & <- & Hx). apply filter_In in Hx as [Hx _].
        destruct Hcl as [<-|[<-|[<-|[]]]]; [destruct (F2 x Hx) as (d & Hd & ->)|destruct (F3 x Hx) as (d & Hd & ->)|destruct (F4 x Hx) as (d & Hd & ->)]; apply HL; auto. }
      destruct Hc' as [L1 L2]. destruct (labelled_canonical c L2 (NE _ L1)) as (k & _ & Hk).
      destruct (le_lt_dec 2 k) as [K1|K1]; [destruct (le_lt_dec k 4) as [K2|K2]|].
      - destruct (C106_matrix f lv c person_order Llv Nlv Pos L1 L2 PO) as (m & Hm & _); [left; split; [exists k; auto|reflexivity]|eauto].
      - destruct (C106_matrix f lv c (seq 0 (lw_persons f)) Llv Nlv Pos L1 L2 PO) as (m & Hm & _); [right; split; [exists k; split; [auto|lia]|reflexivity]|eauto].
      - destruct (C106_matrix f lv c (seq 0 (lw_persons f)) Llv Nlv Pos L1 L2 PO) as (m & Hm & _); [right; split; [exists k; split; [auto|lia]|reflexivity]|eauto]. }
    revert Q. generalize (flat_map gamma_omega_estimates_to_stable_partitions [c2; c3; c4]). clear. intros l Q. induction l as [|c l IH]; [exists []; constructor|].
    destruct (Q c (or_introl eq_refl)) as (m & Hm). destruct IH as (ms & F); [intros; apply Q; right; assumption|]. exists (m :: ms). constructor; assumption. }
  destruct MS as (ms & MS).
  exists (mkFirmFigures d1 d2 (map (fun l => map (fun d : domain_estimate => (snd d, snd (fst d))) (stable_domains l)) [a4; a3; a2]) [r2; r3; r4] ks ms).
  constructor; cbn [ff_domains ff_stable ff_points ff_restricted ff_communities ff_matrices].
  - exists la. auto.
  - exists a2, a3, a4. split; [repeat (constructor; [assumption|]); constructor|reflexivity].
  - exists b2, b3, b4. split; repeat (constructor; [assumption|]); constructor.
  - exists lc. auto.
  - exists g, gi, lv, c2, c3, c4. split; [exact Hn|]. split; [repeat (constructor; [assumption|]); constructor|exact MS].
Qed.
Print Assumptions C106_draws.

(** ** A run that gets through: a firm of 71 persons with two ties of every kind, six grid points, and six answers of Leiden *)
Definition firm_ties : list (list Z) := map (fun i => map (fun j => if (Nat.eqb i 69 && Nat.eqb j 70) || (Nat.eqb i 0 && Nat.eqb j 60) then 1%Z else 0%Z) (seq 0 71)) (seq 0 71).
Definition small_firm : law_firm := mkFirm 71 firm_ties firm_ties firm_ties [0; 1 / 2; 1; 3 / 2; 2; 3] [1] 6.
Definition rounds (k : nat) : list nat := map (fun i => (i mod k)%nat) (seq 0 213).
Definition firm_leiden : leiden_env :=
  mkLeiden has_weights (fun _ _ => Raise ValueError) (fun i objs => if forallb (fun o => Nat.eqb (vcount (vp_graph (fst o))) 213) objs then Ok (rounds (i + 2)) else Raise ValueError).
Definition firm_est (champ : champ_env) : est_env := mkEst has_weights (fun _ _ => 1) champ (fun l => l) (fun _ => true).
Definition firm_plot : plot_env := mkPlot (fun _ i => i) (fun l => l) (fun l => l) (fun _ _ => 0%nat) (fun _ _ => 1).
Definition firm_env (champ : string -> champ_env) : stage_env :=
  mkStage (fun n => firm_est (champ n)) firm_leiden (fun _ => []) 1 (seq 0 6) (fun _ => stubborn []) (fun _ => path_draws) 1 (fun _ => firm_plot).

Lemma rounds_facts k : In k [2; 3; 4; 5; 6; 7]%nat -> length (rounds k) = 213%nat /\ canonical (rounds k) /\ has_communities (rounds k) k /\ forall l, In l (rounds k) -> (l < k)%nat.
Proof.
  intros Hk. split; [unfold rounds; rewrite map_length, seq_length; reflexivity|].
  assert (C : canonical (rounds k)).
  { destruct Hk as [<-|[<-|[<-|[<-|[<-|[<-|[]]]]]]]; match goal with |- canonical ?c => apply (@sorted_tuple_canonical (map Z.of_nat c)) end; vm_compute; reflexivity. }
  assert (N : num_communities (rounds k) = Ok k) by (destruct Hk as [<-|[<-|[<-|[<-|[<-|[<-|[]]]]]]]; vm_compute; reflexivity).
  split; [exact C|]. split; [apply num_communities_has; exact N|]. apply num_communities_spec in N as [_ N]. intros l. apply N.
Qed.
Lemma firm_ties_square : Spec_lazega.square 71 firm_ties.
Proof. split; [unfold firm_ties; rewrite map_length, seq_length; reflexivity|]. intros row H. apply in_map_iff in H as (i & <- & _). rewrite map_length, seq_length. reflexivity. Qed.
Lemma small_firm_data : exists g gi lv, firm_data small_firm g gi lv.
Proof.
  destruct (C93_network 71 firm_ties firm_ties firm_ties ltac:(lia) firm_ties_square firm_ties_square firm_ties_square) as (g & gi & lv & E & L & NV & [_ TN] & W & Wg & Dg & Vi & Ei & Hin).
  assert (T : forall t i j, (t < 3)%nat -> (i = 69 /\ j = 70 \/ i = 0 /\ j = 60)%nat -> In (71 * t + i, 71 * t + j)%nat (edges g)).
  { intros t i j Ht H. apply TN. exists t, i, j. split; [exact Ht|]. split; [lia|]. split; [lia|]. split; [reflexivity|]. split; [reflexivity|]. unfold tie.
    replace (nth t [firm_ties; firm_ties; firm_ties] []) with firm_ties by (destruct t as [|[|[|t]]]; try reflexivity; lia). destruct H as [[-> ->]|[-> ->]]; vm_compute; reflexivity. }
  exists g, gi, lv. constructor.
  - exact E.
  - change (0 < 71)%nat. lia.
  - change (Spec_lazega.square 71 firm_ties /\ Spec_lazega.square 71 firm_ties /\ Spec_lazega.square 71 firm_ties). split; [|split]; apply firm_ties_square.
  - exists (71 * 2 + 69, 71 * 2 + 70)%nat. split; [apply T; [lia|left; lia]|right; reflexivity].
  - intros t Ht. exists (71 * t + 69)%nat, (71 * t + 70)%nat. split; [apply T; [exact Ht|left; lia]|]. rewrite NV by lia. symmetry. apply Nat.div_unique with 69%nat; lia.
Qed.
Lemma same_partitions champ champ' : firm_partitions (firm_env champ) small_firm = firm_partitions (firm_env champ') small_firm.
Proof. unfold firm_partitions, leiden_on_grid, firm_env. cbn [sg_leiden sg_cache sg_cpus sg_order]. reflexivity. Qed.

Lemma firm_pool champ : pool_works (firm_env champ) (lw_gammas small_firm) (lw_omegas small_firm).
Proof. constructor; cbn; [lia|apply Permutation_refl|intros; contradiction]. Qed.
Lemma firm_unweighted champ g gi lv : firm_data small_firm g gi lv -> le_contains (sg_leiden (firm_env champ)) g = false.
Proof. intros FD. destruct (firm_graphs _ _ _ _ FD) as (_ & _ & _ & _ & W & _). cbn. unfold has_weights. rewrite W. reflexivity. Qed.

Lemma firm_found champ g gi lv : firm_data small_firm g gi lv -> exists parts, firm_partitions (firm_env champ) small_firm = Ok parts /\ NoDup parts /\
  forall t, In t parts <-> exists k, In k [2; 3; 4; 5; 6; 7]%nat /\ t = rounds k.
Proof.
  intros FD. assert (Hc := firm_unweighted champ _ _ _ FD). destruct (firm_graphs _ _ _ _ FD) as (L & NV & Wg & Wi & W & LV & VS & EN & NE & WI & HL). change (lw_persons small_firm * 3)%nat with 213%nat in *.
  unfold firm_partitions. rewrite (fd_network _ _ _ _ FD). cbn [bind]. change (Z.eqb _ _) with true. cbn match. set (env := firm_env champ) in *.
  set (g' := weighted (sg_leiden env) g). set (gi' := weighted (sg_leiden env) gi).
  assert (Eg : g' = mkGraph (vcount g) (directed g) (edges g) (Some (repeat 1 (length (edges g))))) by (unfold g', weighted; rewrite Hc; reflexivity).
  assert (W' : weights g' = Some (repeat 1 (length (edges g)))) by (rewrite Eg; reflexivity).
  assert (Wg' : wf_graph g'). { rewrite Eg. split; [apply Wg|]. cbn. intros ws E. injection E as <-. apply repeat_length. }
  assert (LV' : length lv = vcount g') by (rewrite Eg; exact LV).
  destruct (C09_split_by_layer g' _ lv Wg' W' LV' NE) as (layers & _ & HLs & _).
  assert (D : weights_defaulted (le_contains (sg_leiden env) g) g g') by apply weighted_defaulted. assert (Di : weights_defaulted (le_contains (sg_leiden env) gi) gi gi') by apply weighted_defaulted.
  assert (Vi : vcount gi' = vcount gi) by (unfold gi', weighted; destruct (le_contains (sg_leiden env) gi); reflexivity).
  destruct (firm_pool champ) as [P1 P2 P3]. fold env in P1, P2, P3.
  pose proof (C06_parallel_grid (sg_leiden env) (sg_cache env) (sg_cpus env) (sg_order env) g gi g' gi' _ lv layers (lw_gammas small_firm) (lw_omegas small_firm) true P1 P2 Wg LV NE D Di W' HLs) as C.
  unfold leiden_on_grid. destruct (repeated_parallel_leiden_from_gammas_omegas _ _ _ _ _ _ _ _ _ _) as [log r]. cbn [snd].
  destruct C as [_ [C1 _]]; [intros j v []|].
  assert (A : forall i x, le_multiplex (sg_leiden env) i (map (fun gt => (mkVP RBConfiguration gt (fst x), 1)) layers ++ [(mkVP CPM gi' 0, snd x)]) = Ok (rounds (i + 2))).
  { intros i x. change (le_multiplex (sg_leiden env)) with (le_multiplex firm_leiden). cbn [le_multiplex firm_leiden]. assert (F : forallb (fun o => Nat.eqb (vcount (vp_graph (fst o))) 213) (map (fun gt => (mkVP RBConfiguration gt (fst x), 1)) layers ++ [(mkVP CPM gi' 0, snd x)]) = true).
    { apply forallb_forall. intros o Ho. apply Nat.eqb_eq. apply in_app_iff in Ho as [Ho|[<-|[]]].
      - apply in_map_iff in Ho as (gt & <- & Ht). cbn [fst vp_graph]. apply In_nth_error in Ht as (t & Ht). destruct (proj2 (proj2 HLs) t gt Ht) as (-> & _). lia.
      - cbn [fst vp_graph]. lia. }
    rewrite F. reflexivity. }
  destruct C1 as (ps & -> & ND & Hin); [intros; rewrite A; eauto|]. exists ps. split; [reflexivity|]. split; [exact ND|].
  intros t. rewrite Hin. clear - A. assert (LL : length (list_prod (lw_gammas small_firm) (lw_omegas small_firm)) = 6%nat) by reflexivity.
  split.
  - intros (i & x & m & Hx & Hm & [Hs Ht]). rewrite A in Hm. injection Hm as <-. exists (i + 2)%nat.
    assert (Hi : (i < 6)%nat) by (rewrite <- LL; apply nth_error_Some; congruence).
    assert (Hk : In (i + 2)%nat [2; 3; 4; 5; 6; 7]%nat) by (destruct i as [|[|[|[|[|[|i]]]]]]; cbn; try tauto; lia). split; [exact Hk|].
    symmetry. apply canonical_unique; [apply rounds_facts; exact Hk|exact Ht|exact Hs].
  - intros (k & Hk & ->). assert (Hi : exists i, k = (i + 2)%nat /\ (i < 6)%nat) by (exists (k - 2)%nat; destruct Hk as [<-|[<-|[<-|[<-|[<-|[<-|[]]]]]]]; split; reflexivity || lia).
    destruct Hi as (i & Ek & Hi). rewrite <- LL in Hi. destruct (nth_error (list_prod (lw_gammas small_firm) (lw_omegas small_firm)) i) as [x|] eqn:Ex; [|apply nth_error_None in Ex; lia].
    exists i, x, (rounds (i + 2)). split; [exact Ex|]. split; [apply A|]. rewrite <- Ek. split; [split; [reflexivity|intros; split; congruence]|apply rounds_facts; exact Hk].
Qed.

Lemma loops_pos gi n c : wf_graph gi -> directed gi = true -> In (n, n) (edges gi) -> 0 < A_of gi c.
Proof.
  intros W D H. rewrite (A_of_edges c W), D. apply in_split in H as (l1 & l2 & ->). rewrite map_app, rsum_app. cbn [map fst snd]. rewrite rsum_cons.
  assert (P : forall l : list (nat * nat), 0 <= rsum (map (fun e => 1 * delta c (fst e) (snd e)) l)) by (induction l as [|e l IH]; cbn [map]; [rewrite rsum_nil; lra|rewrite rsum_cons; pose proof (delta_01 c (fst e) (snd e)); lra]).
  pose proof (P l1). pose proof (P l2). assert (Dn : delta c n n = 1) by (unfold delta; destruct (Nat.eq_dec _ _); congruence). rewrite Dn. lra.
Qed.
Lemma choose_champs (P : string * option nat -> champ_env -> Prop) (steps : list (string * option nat)) : NoDup (map fst steps) -> (forall s, In s steps -> exists e, P s e) -> exists champ : string -> champ_env, forall s, In s steps -> P s (champ (fst s)).
Proof.
  induction steps as [|[n k] steps IH]; intros ND H; [exists (fun _ => known_env [] [] []); intros s []|].
  inversion ND as [|? ? N1 N2]; subst. destruct (IH N2) as (champ & HC); [intros; apply H; right; assumption|]. destruct (H (n, k) (or_introl eq_refl)) as (e & He).
  exists (fun m => if String.eqb m n then e else champ m). intros s [<-|Hs]; cbn [fst]; [rewrite String.eqb_refl; exact He|].
  destruct (String.eqb_spec (fst s) n) as [E|E]; [|auto]. exfalso. apply N1. rewrite <- E. apply in_map. exact Hs.
Qed.

(** Estimates of full partitions exist in this world. *)
Lemma firm_estimated champ g gi lv c k : firm_data small_firm g gi lv -> length c = 213%nat -> (forall l, In l c -> (l < k)%nat) ->
  exists e, snd (gamma_omega_estimate (firm_est champ) g gi lv c 1000 "multiplex" None None None None) = Ok e.
Proof.
  intros FD Lc Hk. destruct (firm_graphs _ _ _ _ FD) as (L & NV & Wg & Wi & W & LV & VS & EN & NE & WI & HL). change (lw_persons small_firm * 3)%nat with 213%nat in *.
  assert (V : valid_multilayer g gi (repeat 1 (length (edges g))) lv "multiplex").
  { destruct FD as [Hn HN (S1 & S2 & S3) HLa HY]. apply (C93_accepted _ _ _ _ g gi lv HN S1 S2 S3 Hn). auto. }
  assert (Cg : ee_contains (firm_est champ) g = false) by (cbn; unfold has_weights; rewrite W; reflexivity).
  set (h := weighted_e (firm_est champ) g). assert (D : weights_defaulted (ee_contains (firm_est champ) g) g h) by (apply weighted_e_defaulted; reflexivity).
  assert (Eh : h = mkGraph (vcount g) (directed g) (edges g) (Some (repeat 1 (length (edges g))))) by (unfold h, weighted_e; rewrite Cg; reflexivity).
  assert (Wh : weights h = Some (repeat 1 (length (edges g)))) by (rewrite Eh; reflexivity).
  assert (Vh : valid_multilayer h gi (repeat 1 (length (edges g))) lv "multiplex") by (rewrite Eh; exact V).
  assert (Wfh : wf_graph h) by (apply weighted_e_wf; exact Wg). assert (Vch : vcount h = vcount g) by (rewrite Eh; reflexivity).
  set (T := S (list_max lv)). set (K := list_max (map S c)).
  assert (HK : forall l, In l c -> (l < K)%nat). { intros l Hl. assert (F : Forall (fun x => (x <= K)%nat) (map S c)) by (apply list_max_le; lia). rewrite Forall_forall in F. specialize (F (S l) (in_map S _ _ Hl)). lia. }
  assert (EW : expected_within_layers (vcount g) (weighted_edges h (repeat 1 (length (edges g)))) lv T c <> 0).
  { destruct (C31_positive_weights h gi _ lv c "multiplex" Wfh Wh) as (P & _); [intros w Hw; apply repeat_spec in Hw; lra|exact Vh|lia|]. rewrite Vch in P. intros E. unfold T in E. lra. }
  destruct (C31_estimates (firm_est champ) g h gi _ lv c K "multiplex" None (Some T) None None Wg Wi D Wh Vh ltac:(right; right; reflexivity) ltac:(lia) HK ltac:(left; reflexivity) ltac:(right; reflexivity) ltac:(left; reflexivity) ltac:(left; reflexivity) EW)
    as (pers & p & _ & CP & E).
  assert (Ep : p = 1). { destruct CP as [(_ & ->)|[(_ & _ & _ & ->)|(_ & _ & X & _)]]; [reflexivity|cbn; apply Rmax_right; lra|congruence]. } subst p.
  unfold gamma_omega_estimate. cbn [or_default]. unfold layer_count_T. rewrite (@py_max_list lv (list_max lv) NE eq_refl). cbn [bind]. replace (list_max lv + 1)%nat with T by (unfold T; lia).
  unfold leiden_part_with_membership. replace (Nat.eqb (length c) (vcount g)) with true by (symmetry; apply Nat.eqb_eq; lia). cbn [bind]. fold K. rewrite E. cbn [snd bind].
  change (omega_function_from_model "multiplex" 1000 T) with (Ok (fun theta_in theta_out p K => multiplex_omega_estimate_from_parameters theta_in theta_out p K T 1000)). cbn [bind]. unfold multiplex_omega_estimate_from_parameters.
  destruct (Req_EM_T 1 0); [lra|]. destruct (Rle_dec 1 1); [|lra]. cbn [bind]. eexists. reflexivity.
Qed.

Lemma firm_sel champ k parts : (forall t, In t parts <-> exists j, In j [2; 3; 4; 5; 6; 7]%nat /\ t = rounds j) -> k = None \/ (exists j, k = Some j /\ In j [2; 3; 4; 5; 6; 7]%nat) ->
  exists sel, with_communities (firm_est champ) k parts = Ok sel /\ NoDup sel /\ sel <> [] /\ (length sel <= length parts)%nat /\ forall c, In c sel -> In c parts.
Proof.
  intros HP Hk. assert (E : exists sel, with_communities (firm_est champ) k parts = Ok sel).
  { unfold with_communities. destruct k as [k|]; [|eauto]. destruct (mapM_total num_communities parts) as (ks & ->); [|cbn [bind]; eauto].
    intros t Ht. apply HP in Ht as (j & Hj & ->). destruct (rounds_facts j Hj) as (L & C & _). destruct (num_communities_canonical C) as (k' & E & _); [|eauto]. intros X. rewrite X in L. discriminate. }
  destruct E as (sel & E). exists sel. split; [exact E|]. destruct (chosen_set (firm_est champ) k parts sel (fun l => Permutation_refl l) E) as [ND Hin]. split; [exact ND|].
  assert (I : forall c, In c sel -> In c parts) by (intros c Hc; apply Hin in Hc; apply Hc). split; [|split; [apply NoDup_incl_length; [exact ND|exact I]|exact I]].
  assert (X : exists j, In j [2; 3; 4; 5; 6; 7]%nat /\ In (rounds j) sel).
  { destruct Hk as [-> |(j & -> & Hj)]; [exists 2%nat|exists j].
    - split; [left; reflexivity|]. apply Hin. split; [apply HP; exists 2%nat; split; [left; reflexivity|reflexivity]|constructor].
    - split; [exact Hj|]. apply Hin. split; [apply HP; eauto|apply rounds_facts; exact Hj]. }
  destruct X as (j & _ & X). intros ->. destruct X.
Qed.

(** The whole run. *)
Lemma small_firm_run : exists champ g gi lv parts, firm_data small_firm g gi lv /\ firm_partitions (firm_env champ) small_firm = Ok parts /\
  (forall t, In t parts <-> exists j, In j [2; 3; 4; 5; 6; 7]%nat /\ t = rounds j) /\ firm_routines (firm_env champ) small_firm /\
  firm_answers (eq (firm_env champ)) small_firm (firm_env champ).
Proof.
  destruct small_firm_data as (g & gi & lv & FD). destruct (firm_graphs _ _ _ _ FD) as (L & NV & Wg & Wi & W & LV & VS & EN & NE & WI & HL).
  destruct (firm_found (fun _ => known_env [] [] []) g gi lv FD) as (parts & EP & ND & HP).
  assert (Loop : In (0, 0)%nat (edges gi) /\ directed gi = true).
  { destruct FD as [Hn HN (S1 & S2 & S3) HLa HY]. destruct (C93_network _ _ _ _ HN S1 S2 S3) as (g0 & gi0 & lv0 & E & _ & _ & _ & _ & _ & D & _ & _ & Hin). unfold firm_network in Hn. rewrite E in Hn. injection Hn as -> -> ->.
    split; [|exact D]. apply Hin. lia. }
  assert (CP : forall c, In c parts -> length c = vcount g). { intros c Hc. apply HP in Hc as (j & Hj & ->). rewrite (proj1 (rounds_facts j Hj)), <- LV, L. reflexivity. }
  assert (LP : (length parts <= 6)%nat).
  { change 6%nat with (length (map rounds [2; 3; 4; 5; 6; 7]%nat)). apply NoDup_incl_length; [exact ND|]. intros t Ht. apply HP in Ht as (j & Hj & ->). apply in_map. exact Hj. }
  assert (KS : forall n k, In (n, k) firm_steps -> k = None \/ exists j, k = Some j /\ In j [2; 3; 4; 5; 6; 7]%nat).
  { intros n k H. cbn [firm_steps In] in H. repeat (destruct H as [H|H]; [injection H as <- <-; first [left; reflexivity|right; eexists; split; [reflexivity|cbn; tauto]]|]). destruct H. }
  destruct (choose_champs (fun s e => exists sel ds, with_communities (firm_est (known_env [] [] [])) (snd s) parts = Ok sel /\ champ_ok_3D e g gi lv sel /\ CHAMP_3D e g gi lv sel 0 2 0 3 = Ok ds) firm_steps) as (champ & HC).
  { cbn [firm_steps map fst]. repeat (constructor; [cbn; intros H; repeat (destruct H as [H|H]; [discriminate|]); exact H|]). constructor. }
  { intros [n k] Hs. cbn [snd]. destruct (firm_sel (known_env [] [] []) k parts HP (KS n k Hs)) as (sel & Es & NDs & Ns & Ls & Is).
    destruct (@champ_3D_realisable_gen g gi lv sel 0 2 0 3) as (e & ds & Hok & _ & _ & HD); auto; try lra.
    - rewrite VS. lia.
    - assert (length sel <= 6)%nat by lia. clear - H. apply (Z.le_trans _ 6); [lia|]. apply (Z.pow_le_mono_r 2 3 53); lia.
    - intros c _. right. apply (loops_pos gi 0 c Wi (proj2 Loop) (proj1 Loop)).
    - exists e, sel, ds. auto. }
  exists champ, g, gi, lv, parts. split; [exact FD|]. split; [rewrite (same_partitions champ (fun _ => known_env [] [] [])); exact EP|]. split; [exact HP|]. split.
  - constructor.
    + apply firm_pool.
    + intros i objs m o Hm Ho. change (le_multiplex (sg_leiden (firm_env champ))) with (le_multiplex firm_leiden) in Hm. cbn [le_multiplex firm_leiden] in Hm. destruct (forallb _ objs) eqn:F; [|discriminate]. injection Hm as <-.
      rewrite forallb_forall in F. specialize (F o Ho). apply Nat.eqb_eq in F. rewrite F. unfold rounds. rewrite map_length, seq_length. reflexivity.
    + intros n Hn. apply in_map_iff in Hn as ([n' k] & <- & Hs). destruct (HC (n', k) Hs) as (sel & ds & _ & Hok & _). cbn [fst] in *. cbn [sg_est firm_env ee_set_order ee_champ firm_est]. destruct Hok as [[P1 [P2 _]] _ _ _ _ _ _ _ _ LPs HS].
      split; [intros l; apply Permutation_refl|]. auto.
  - constructor.
    + exists parts. rewrite (same_partitions champ (fun _ => known_env [] [] [])); exact EP.
    + intros e ps n k <- Hp Hs. rewrite (same_partitions champ (fun _ => known_env [] [] [])), EP in Hp. injection Hp as <-. destruct (HC (n, k) Hs) as (sel & ds & Es & _ & HD). exists ds.
      unfold firm_domains. rewrite (fd_network _ _ _ _ FD). cbn [bind]. cbn [sg_est firm_env snd fst] in *.
      assert (Es' : with_communities (firm_est (champ n)) k parts = Ok sel) by exact Es. rewrite Es'. cbn [bind ee_champ firm_est]. exact HD.
Qed.

Lemma colours_enough figure domains champ : exists drawing, plot_2d_domains (sg_plot (firm_env champ) figure) domains true = Ok drawing.
Proof.
  cbn [sg_plot firm_env]. destruct domains as [|d0 ds0]; [eexists; reflexivity|]. set (domains := d0 :: ds0). assert (Hlen : (0 < length domains)%nat) by (cbn; lia). clearbody domains. apply (C54_enough_colours firm_plot domains true (seq 0 (length domains))).
  - split; [intros l; apply Permutation_refl|]. split; [intros l; apply Permutation_refl|]. intros k n Hn. exact Hn.
  - apply seq_NoDup.
  - apply Forall_forall. intros c Hc. apply in_seq in Hc. exists c. split; [lia|reflexivity].
  - intros i js NDj Hj. rewrite seq_length. destruct js as [|j js]; [exact Hlen|]. destruct (Hj j (or_introl eq_refl)) as (_ & p & q & v & _ & Hq & _).
    assert (Hi : (i < length domains)%nat) by (rewrite <- (map_length fst domains); apply nth_error_Some; congruence).
    apply Nat.le_lt_trans with i; [|exact Hi]. rewrite <- (seq_length i 0). apply NoDup_incl_length; [exact NDj|]. intros x Hx. apply in_seq. destruct (Hj x Hx). lia.
Qed.

(** The run stores eight files and draws all figures; a second one draws them from the files.  Killed while it writes the second file of domains, it
    leaves that file truncated. *)
Example C105_example : exists env ff d, firm_consistent (eq env) small_firm empty_directory /\ firm_answers (eq env) small_firm env /\
  history (firm_run (eq env) small_firm) empty_directory d /\ d = final (firm_main env small_firm) empty_directory /\ outcome (firm_main env small_firm) empty_directory = Done ff /\
  (forall n, In n firm_names -> exists v, d n = Stored v) /\ d "lazega_1M_louvain.p"%string <> Stored (Parts []) /\ outcome (firm_main env small_firm) d = Done ff /\
  exists d'', seen (firm_main env small_firm) empty_directory d'' /\ d'' "lazega_CHAMP2.p"%string = Torn.
Proof.
  destruct small_firm_run as (champ & g & gi & lv & parts & FD & EP & HP & FR & FA). set (env := firm_env champ) in *.
  assert (Hh0 : history (firm_run (eq env) small_firm) empty_directory empty_directory) by constructor. assert (C0 := firm_consistent_empty (eq env) small_firm).
  destruct (C105_resume (eq env) small_firm _ _ env C0 Hh0 eq_refl ltac:(discriminate) FA) as (d & ps & all & k2 & k3 & k4 & F & _ & C & D1 & DS & Da & D2 & D3 & D4 & O).
  assert (Hh : history (firm_run (eq env) small_firm) empty_directory d).
  { eapply another; [exact Hh0|]. exists env. split; [reflexivity|]. rewrite <- F. unfold seen, final. generalize (fst (firm_main env small_firm empty_directory)). clear.
    intros l. destruct l as [|a l] using rev_ind; [left; reflexivity|right]. rewrite last_last. apply in_app_iff. right. left. reflexivity. }
  destruct (fc_partitions _ _ _ C _ D1) as (e & ps' & <- & E1 & E2). injection E1 as <-. rewrite EP in E2. injection E2 as <-.
  assert (OD : forall n k l, In (n, k) firm_steps -> d n = Stored (Domains l) -> forall x, In x l -> exists j, In j [2; 3; 4; 5; 6; 7]%nat /\ snd x = rounds j).
  { intros n k l Hn Hd [poly c] Hx. destruct (C106_domains (eq env) small_firm g gi lv d n k (Domains l) FD Hh) as (ps & l' & Hps & El & OD); auto.
    - change (6 <= 2 ^ 53)%Z. apply (Z.le_trans _ (2 ^ 3)); [lia|]. apply Z.pow_le_mono_r; lia.
    - intros e <-. split; [exact FR|]. exact (firm_unweighted champ g gi lv FD).
    - injection El as <-. rewrite D1 in Hps. injection Hps as <-. destruct (od_best _ _ _ _ _ _ _ _ OD poly c Hx) as ([Hc _] & _). apply HP in Hc. exact Hc. }
  assert (OA : forall x, In x (all ++ k2 ++ k3 ++ k4) -> exists j, In j [2; 3; 4; 5; 6; 7]%nat /\ snd x = rounds j).
  { intros x Hx. rewrite !in_app_iff in Hx. destruct Hx as [Hx|[Hx|[Hx|Hx]]].
    - apply (OD "lazega_CHAMP.p"%string None all); auto. cbn. tauto.
    - apply (OD "lazega_CHAMP2.p"%string (Some 2%nat) k2); auto. cbn. tauto.
    - apply (OD "lazega_CHAMP3.p"%string (Some 3%nat) k3); auto. cbn. tauto.
    - apply (OD "lazega_CHAMP4.p"%string (Some 4%nat) k4); auto. cbn. tauto. }
  destruct (C106_draws env small_firm g gi lv all k2 k3 k4 FD eq_refl) as (ff & Hff).
  { intros x Hx. destruct (OA x Hx) as (j & Hj & ->). destruct (rounds_facts j Hj) as (R1 & R2 & _). split; [exact R1|exact R2]. }
  { intros figure x Hx. destruct (OA x Hx) as (j & Hj & ->). destruct (rounds_facts j Hj) as (R1 & _ & _ & R4). exact (firm_estimated (champ figure) g gi lv (rounds j) j FD R1 R4). }
  { intros. apply colours_enough. }
  assert (AllS : forall n, In n firm_names -> exists v, d n = Stored v).
  { intros n [<-|Hn]; [eauto|]. destruct (DS n Hn) as (l & Hl). eauto. }
  exists env, ff, d. split; [exact C0|]. split; [exact FA|]. split; [exact Hh|]. split; [symmetry; exact F|]. split; [apply O; exact Hff|]. split; [exact AllS|]. split; [|split].
  - change "lazega_1M_louvain.p"%string with partitions_file. rewrite D1. intros E. injection E as ->. assert (X : In (rounds 2) []) by (apply HP; exists 2%nat; split; [left; reflexivity|reflexivity]). destruct X.
  - destruct (C105_resume (eq env) small_firm _ d env C0 Hh eq_refl) as (d' & ps & all' & k2' & k3' & k4' & F' & K & _ & _ & _ & Da' & D2' & D3' & D4' & O'); [intros n Hn; destruct (AllS n Hn) as (v & ->); discriminate|exact FA|].
    rewrite (K "lazega_CHAMP.p"%string) in Da' by congruence. rewrite (K "lazega_CHAMP2.p"%string) in D2' by congruence. rewrite (K "lazega_CHAMP3.p"%string) in D3' by congruence. rewrite (K "lazega_CHAMP4.p"%string) in D4' by congruence.
    apply O'. rewrite Da in Da'. rewrite D2 in D2'. rewrite D3 in D3'. rewrite D4 in D4'. injection Da' as <-. injection D2' as <-. injection D3' as <-. injection D4' as <-. exact Hff.
  - apply (C105_can_be_truncated env small_firm empty_directory d "lazega_CHAMP2.p"%string eq_refl); [|congruence].
    rewrite <- F. unfold seen, final. generalize (fst (firm_main env small_firm empty_directory)). clear. intros l. destruct l as [|a l] using rev_ind; [left; reflexivity|right]. rewrite last_last. apply in_app_iff. right. left. reflexivity.
Qed.

(** The same run meets the hypotheses of C106; and the first row of a matrix, for two communities, is person 46's. *)
Example C106_example : exists env g gi lv, firm_data small_firm g gi lv /\ firm_routines env small_firm /\ le_contains (sg_leiden env) g = false /\ lw_persons small_firm = 71%nat /\
  (exists parts, firm_partitions env small_firm = Ok parts /\ In (rounds 3) parts) /\
  exists advice work friends, firm_matrix small_firm lv (rounds 3) = Ok [advice; work; friends] /\ nth_error advice 0 = Some 1%nat /\ nth_error work 0 = Some 2%nat /\ nth_error friends 0 = Some 0%nat.
Proof.
  destruct small_firm_run as (champ & g & gi & lv & parts & FD & EP & HP & FR & FA). exists (firm_env champ), g, gi, lv. split; [exact FD|]. split; [exact FR|]. split; [exact (firm_unweighted champ g gi lv FD)|]. split; [reflexivity|].
  split; [exists parts; split; [exact EP|apply HP; exists 3%nat; split; [cbn; tauto|reflexivity]]|].
  destruct (firm_graphs _ _ _ _ FD) as (L & NV & _). destruct (rounds_facts 3 ltac:(cbn; tauto)) as (R1 & R2 & R3 & _).
  destruct (C106_matrix small_firm lv (rounds 3) person_order L NV ltac:(cbn; lia) R1 R2 C106_order) as (m & Hm & a & w & fr & -> & _ & _ & _ & H); [left; split; [exists 3%nat; split; [exact R3|lia]|reflexivity]|].
  exists a, w, fr. split; [exact Hm|]. destruct (H 0%nat 46%nat eq_refl) as (-> & -> & ->). vm_compute. repeat split.
Qed.
