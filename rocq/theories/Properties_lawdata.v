(** C106: what the law-firm experiment stores and shows. *)
From Coq Require Import String Permutation.
From Verif Require Import PyBase PyGraph M_partition M_champ M_leiden M_estimation_utils M_estimation M_checks M_generators M_plotting M_lfr M_staged Spec Spec_graph Spec_leiden Spec_sbm Spec_multisbm Spec_check Spec_valid Spec_champ Spec_generators Spec_iteration Spec_staged Spec_plotting Spec_lazega Spec_lawfirm
  L_base L_canon L_leiden L_champ_total L_multileiden L_generators L_lazega L_parallel L_prune L_staged L_lawfirm Properties_champ Properties_leiden Properties_plotting Properties_lfr Properties_lazega Properties_staged Properties_stageddata Properties_lawfirm.
Open Scope list_scope.
Open Scope R_scope.

(** ** Partitions and domains *)
Lemma firm_graphs f g gi lv : firm_data f g gi lv -> length lv = (lw_persons f * 3)%nat /\ (forall i, (i < lw_persons f * 3)%nat -> nth i lv 0%nat = (i / lw_persons f)%nat) /\ wf_graph g /\ wf_graph gi /\ weights g = None /\
  length lv = vcount g /\ vcount gi = vcount g /\ edges g <> [] /\ lv <> [] /\ edges_within_layers g lv /\ (forall l, In l lv -> exists u v, In (u, v) (edges g) /\ nth u lv 0%nat = l).
Proof.
  intros [Hn HN (S1 & S2 & S3) HL HY]. destruct (C93_network _ _ _ _ HN S1 S2 S3) as (g' & gi' & lv' & E & L & NV & TN & W & Wg & Dg & Vi & Ei & Hin). unfold firm_network in Hn. rewrite E in Hn. injection Hn as -> -> ->.
  assert (V : valid_multilayer g gi (repeat 1 (length (edges g))) lv "multiplex") by (apply (C93_accepted _ _ _ _ g gi lv HN S1 S2 S3 E); auto).
  unfold valid_multilayer, structural_rules in V. apply Forall_inv_tail in V. apply Forall_inv_tail in V. pose proof (Forall_inv V) as V3. apply Forall_inv_tail in V. pose proof (Forall_inv V) as V4. apply Forall_inv_tail in V. apply Forall_inv_tail in V. pose proof (Forall_inv V) as V6. cbn [fst] in V3, V4, V6. clear V.
  split; [exact L|]. split; [exact NV|]. split; [exact Wg|]. split.
  { split; [intros u v H; apply Hin in H; lia|]. unfold generate_lazega_igraph in E. repeat match type of E with (if ?b then _ else _) = _ => destruct b; try discriminate end. injection E as <- <- <-. discriminate. }
  split; [exact W|]. split; [exact V4|]. split; [exact V3|].
  assert (NE : lv <> []) by (intros ->; cbn in L; lia).
  assert (HH : forall l, In l lv -> exists u v, In (u, v) (edges g) /\ nth u lv 0%nat = l).
  { intros l Hl. apply (In_nth _ _ 0%nat) in Hl as (i & Hi & <-). rewrite L in Hi. rewrite (NV i Hi). assert (T : (i / lw_persons f < 3)%nat) by (apply Nat.div_lt_upper_bound; lia). exact (HY _ T). }
  split; [|split; [exact NE|split; [exact V6|exact HH]]]. intros Eg. destruct lv as [|l lv]; [congruence|]. destruct (HH l (or_introl eq_refl)) as (u & v & H & _). rewrite Eg in H. destruct H.
Qed.

(** After any history of runs the file of partitions holds the partitions found on the firm's network, all weights being one; the grid has as many
    points as the script asserts. *)
Theorem C106_partitions : forall (ok : stage_env -> Prop) f g gi lv d v, firm_data f g gi lv -> history (firm_run ok f) empty_directory d ->
  (forall env, ok env -> pool_works env (lw_gammas f) (lw_omegas f)) -> d "lazega_1M_louvain.p"%string = Stored v ->
  (Z.of_nat (length (lw_gammas f)) * Z.of_nat (length (lw_omegas f)) = lw_points f)%Z /\
  exists env parts g', ok env /\ v = Parts parts /\ weights_defaulted (le_contains (sg_leiden env) g) g g' /\
    (le_contains (sg_leiden env) g = false -> partitions_found env (g', gi, lv, []) (lw_gammas f) (lw_omegas f) parts).
Proof.
  intros ok f g gi lv d v FD H Hpool Hv. destruct (fc_partitions _ _ _ (C105_consistent ok f _ d (firm_consistent_empty ok f) H) v Hv) as (env & parts & Hok & -> & Hp).
  destruct (firm_graphs f g gi lv FD) as (L & NV & Wg & Wi & W & LV & VS & EN & NE & WI & HL). unfold firm_partitions in Hp. rewrite (fd_network _ _ _ _ FD) in Hp. cbn [bind] in Hp.
  destruct (Z.eqb_spec (Z.of_nat (length (lw_gammas f)) * Z.of_nat (length (lw_omegas f))) (lw_points f)) as [Ez|]; [|discriminate]. split; [exact Ez|].
  exists env, parts, (weighted (sg_leiden env) g). split; [exact Hok|]. split; [reflexivity|]. split; [apply weighted_defaulted|]. intros Hc.
  assert (Eg : weighted (sg_leiden env) g = mkGraph (vcount g) (directed g) (edges g) (Some (repeat 1 (length (edges g))))) by (unfold weighted; rewrite Hc; reflexivity).
  set (g' := weighted (sg_leiden env) g) in *. assert (W' : weights g' = Some (repeat 1 (length (edges g)))) by (rewrite Eg; reflexivity).
  assert (Wg' : wf_graph g'). { rewrite Eg. split; [apply Wg|]. cbn. intros ws E. injection E as <-. apply repeat_length. }
  assert (LV' : length lv = vcount g') by (rewrite Eg; exact LV).
  destruct (C09_split_by_layer g' _ lv Wg' W' LV' NE) as (layers & _ & HLs & _).
  exists (repeat 1 (length (edges g))), layers, (weighted (sg_leiden env) gi). split; [exact W'|]. split; [exact HLs|]. split; [apply weighted_defaulted|].
  exact (stored_parts env (mkRegime (fun _ _ _ => None) "" "" "" "" "" [] [] 0 (lw_gammas f) (lw_omegas f)) g gi lv parts (repeat 1 (length (edges g))) layers (Hpool env Hok) Wg EN LV NE W' HLs Hp).
Qed.
Print Assumptions C106_partitions.

(** The files of domains: those, in [0, 2] x [0, 3], of all stored partitions and of the stored partitions with 2, ..., 7 communities. *)
Theorem C106_domains : forall (ok : stage_env -> Prop) f g gi lv d n restrict v, firm_data f g gi lv -> history (firm_run ok f) empty_directory d ->
  (lw_points f <= 2 ^ 53)%Z -> (forall env, ok env -> firm_routines env f /\ le_contains (sg_leiden env) g = false) -> In (n, restrict) firm_steps -> d n = Stored v ->
  exists parts domains, d "lazega_1M_louvain.p"%string = Stored (Parts parts) /\ v = Domains domains /\ optimal_domains g gi lv parts restrict 2 3 domains.
Proof.
  intros ok f g gi lv d n k v FD H Hsize HR Hn Hv. assert (C := C105_consistent ok f _ d (firm_consistent_empty ok f) H). destruct (fc_domains _ _ _ C n k v Hn Hv) as (env & parts & l & Hok & -> & Hp & Hl).
  exists parts, l. split; [exact Hp|]. split; [reflexivity|].
  destruct (C106_partitions ok f g gi lv d _ FD H (fun e He => fr_pool _ _ (proj1 (HR e He))) Hp) as (Ez & e & parts' & g' & Hoke & Ep & Dg & PF). injection Ep as <-. specialize (PF (proj2 (HR e Hoke))). rewrite (proj2 (HR e Hoke)) in Dg.
  destruct (firm_graphs f g gi lv FD) as (L & NV & Wg & Wi & W & LV & VS & EN & NE & WI & HL).
  unfold firm_domains in Hl. rewrite (fd_network _ _ _ _ FD) in Hl. cbn [bind] in Hl. apply bind_ok in Hl as (sel & Hs & HC).
  destruct (fr_champ _ _ (proj1 (HR env Hok)) n) as (S1 & S2 & S3 & S4 & S5); [apply in_map_iff; exists (n, k); auto|].
  destruct (chosen_set (sg_est env n) k parts sel S1 Hs) as [ND Hin].
  assert (Vg : vcount g' = vcount g) by (destruct Dg as (X & _); exact X).
  assert (LP := found_lengths e (mkRegime (fun _ _ _ => None) "" "" "" "" "" [] [] 0 (lw_gammas f) (lw_omegas f)) g' gi lv [] parts (fr_leiden _ _ (proj1 (HR e Hoke))) (eq_trans VS (eq_sym Vg)) PF).
  apply (champ_optimal (sg_est env n) k g gi lv parts sel 2 3 l S1 Hs); [|exact HC]. constructor; auto.
  - split; [exact S2|]. split; [exact S3|]. pose proof (found_count e _ _ _ parts PF) as FC.
    assert (LS : (length sel <= length parts)%nat) by (apply NoDup_incl_length; [exact ND|intros c Hc; apply Hin in Hc; apply Hc]).
    apply (Nat.le_trans _ _ _ LS) in FC. clear - FC Ez Hsize. rewrite <- Nat2Z.inj_mul in Ez. lia.
  - rewrite VS. lia.
  - intros c Hc. rewrite <- Vg. apply LP. apply Hin in Hc. apply Hc.
Qed.
Print Assumptions C106_domains.

(** The script's own data: 71 persons and a grid of a million points, within [0, 2] x [0, 3]. *)
Lemma linspace_within a b n x : a <= b -> (1 < n)%nat -> In x (linspace a b n) -> a <= x <= b.
Proof.
  intros Hab Hn Hx. unfold linspace in Hx. apply in_map_iff in Hx as (i & <- & Hi). apply in_seq in Hi.
  assert (P : 0 < INR (n - 1)) by (apply lt_0_INR; lia). assert (I1 : 0 <= INR i) by apply pos_INR. assert (I2 : INR i <= INR (n - 1)) by (apply le_INR; lia).
  assert (Q : 0 <= INR i / INR (n - 1) <= 1). { split; [apply Rmult_le_pos; [exact I1|left; apply Rinv_0_lt_compat; exact P]|]. apply Rmult_le_reg_r with (INR (n - 1)); [exact P|]. unfold Rdiv. rewrite Rmult_assoc, Rinv_l by lra. lra. }
  match goal with |- _ <= ?t <= _ => replace t with (a + (INR i / INR (n - 1)) * (b - a)) by (unfold Rdiv; ring) end. clear - Hab Q. nra.
Qed.
Theorem C106_script : forall advice friend work, let f := lazega advice friend work in
  lw_persons f = 71%nat /\ (Z.of_nat (length (lw_gammas f)) * Z.of_nat (length (lw_omegas f)) = lw_points f)%Z /\ (lw_points f <= 2 ^ 53)%Z /\
  (forall gamma, In gamma (lw_gammas f) -> 0 <= gamma <= 2) /\ (forall omega, In omega (lw_omegas f) -> 0 <= omega <= 3).
Proof.
  intros advice friend work f. split; [reflexivity|]. split; [|split; [|split]].
  - assert (E : exists a b, length (lw_gammas f) = a /\ length (lw_omegas f) = b /\ (Z.of_nat a = 2000 /\ Z.of_nat b = 500)%Z).
    { exists 2000%nat, 500%nat. unfold f, lazega, lw_gammas, lw_omegas, linspace. rewrite !map_length, !seq_length. repeat split; reflexivity. }
    destruct E as (a & b & -> & -> & -> & ->). reflexivity.
  - change (10 ^ 6 <= 2 ^ 53)%Z. lia.
  - intros x Hx. apply linspace_within in Hx; [lra|lra|lia].
  - intros x Hx. apply linspace_within in Hx; [lra|lra|lia].
Qed.
Print Assumptions C106_script.

(** ** Estimates in the figures *)
Theorem C106_estimates : forall est f g gi lv margin domains l, firm_network f = Ok (g, gi, lv) ->
  (firm_estimates est f margin domains = Ok l <-> cut_estimates est g gi lv margin domains l).
Proof.
  intros est f g gi lv margin domains l Hn. unfold firm_estimates. rewrite Hn. cbn [bind]. clear Hn.
  assert (X : forall ests, snd (domains_to_gamma_omega_estimates est g gi lv domains "multiplex") = Ok ests -> exists es,
    Forall2 (fun d e => snd (gamma_omega_estimate est g gi lv (snd d) 1000 "multiplex" None None None None) = Ok e) domains es /\
    cut_omegas margin ests = flat_map (fun x : domain * (option npf * R) => match fst (snd x) with Some gamma => [(fst (fst x), snd (fst x), Some gamma, Some (Rmin (snd (snd x)) (3 - margin)))] | None => [] end) (combine domains es)).
  { intros ests E. destruct (domains_to_gamma_omega_estimates est g gi lv domains "multiplex") as [g' r] eqn:E'. cbn [snd] in E. subst r. apply domains_estimates in E'.
    clear - E'. induction E' as [|d e ds ests (ga & om & -> & Hd) F IH]; [exists []; split; [constructor|reflexivity]|]. destruct IH as (es & F2 & IH). exists ((ga, om) :: es). split; [constructor; [exact Hd|exact F2]|].
    cbn [combine flat_map]. rewrite <- IH. cbn [fst snd]. destruct ga; reflexivity. }
  split.
  - intros H. apply bind_ok in H as (ests & E & H). injection H as <-. destruct (X ests E) as (es & F & Hc). exists es. auto.
  - intros (es & F & ->). destruct (domains_estimates_total est gi lv "multiplex" domains g) as (g' & ests & E).
    { intros d Hd. clear - F Hd. induction F as [|d0 e0 ds es0 H F IH]; [destruct Hd|]. destruct Hd as [<-|Hd]; [exists e0; exact H|auto]. }
    rewrite E. cbn [snd bind]. f_equal. destruct (X ests) as (es' & F' & Hc); [rewrite E; reflexivity|]. rewrite Hc. f_equal. f_equal. clear - F F'. revert es' F'. induction F as [|d e ds es H F IH]; intros es' F'; inversion F' as [|? e' ? es'' H' F'']; subst; [reflexivity|]. rewrite H in H'. injection H' as <-. f_equal. auto.
Qed.
Print Assumptions C106_estimates.

(** Figures 5.8 and 5.9 cut omega at different values.  They agree on estimates up to 2.99; a partition with a larger one can be stable in the one and not
    in the other. *)
Theorem C106_margins : forall est g gi lv domains l l', cut_estimates est g gi lv (1 / 100) domains l -> cut_estimates est g gi lv (1 / 1000) domains l' ->
  (forall d gamma omega, In d domains -> snd (gamma_omega_estimate est g gi lv (snd d) 1000 "multiplex" None None None None) = Ok (Some gamma, omega) -> omega <= 299 / 100) -> l = l'.
Proof.
  intros est g gi lv domains l l' (es & F & ->) (es' & F' & ->) H. revert es' F' H. induction F as [|d e ds es He F IH]; intros es' F' H; inversion F' as [|? e' ? es'' He' F'']; subst; [reflexivity|].
  rewrite He in He'. injection He' as <-. cbn [combine flat_map]. rewrite (IH es'' F'') by (intros; eapply H; eauto; right; assumption). f_equal. cbn [fst snd]. destruct e as [[ga|] om]; [|reflexivity]. cbn [fst snd].
  specialize (H d ga om (or_introl eq_refl) He). rewrite !Rmin_left by lra. reflexivity.
Qed.
Print Assumptions C106_margins.
Definition strip (lo hi : R) : list (R * R) := [(0, lo); (0, hi); (2, hi); (2, lo)].
Lemma strip_stable lo hi c omega : lo < hi -> (stable_domains [(strip lo hi, c, Some (Fin 1), Some omega)] = [(strip lo hi, c, Some (Fin 1), Some omega)] <-> lo < omega < hi) /\
  (~ lo < omega < hi -> stable_domains [(strip lo hi, c, Some (Fin 1), Some omega)] = []).
Proof.
  intros H. unfold stable_domains. cbn [filter]. assert (E : is_stable (strip lo hi, c, Some (Fin 1), Some omega) = true <-> lo < omega < hi).
  { assert (Ce : centroid (strip lo hi) = (1, (lo + hi) / 2)) by (unfold centroid, M_champ.mean, strip, rsum; cbn [map fst snd fold_right length]; apply f_equal2; cbn [INR]; field).
    assert (T : forall p q x y, 0 <= (x - fst p) * (snd q - snd p) - (y - snd p) * (fst q - fst p) -> left_or_right p q (Fin x) y = true) by (intros; unfold left_or_right, Rleb; destruct (Rle_dec _ _); [reflexivity|contradiction]).
    assert (T' : forall p q x y, (x - fst p) * (snd q - snd p) - (y - snd p) * (fst q - fst p) < 0 -> left_or_right p q (Fin x) y = false) by (intros; unfold left_or_right, Rleb; destruct (Rle_dec _ _); [lra|reflexivity]).
    assert (Pe : polygon_edges (strip lo hi) = [((0, hi), (0, lo)); ((2, hi), (0, hi)); ((2, lo), (2, hi)); ((0, lo), (2, lo))]).
    { unfold polygon_edges. rewrite Ce. unfold strip. cbn [length map seq Nat.add Nat.modulo Nat.divmod Nat.sub nth fst snd]. rewrite !T by (cbn [fst snd]; lra). reflexivity. }
    unfold is_stable, same_side. rewrite Pe. cbn [map forallb fst snd]. split.
    - intros E. rewrite (T' (0, hi)) in E by (cbn [fst snd]; lra). cbn [andb negb orb] in E.
      destruct (Rlt_dec lo omega) as [L1|L1]; [destruct (Rlt_dec omega hi) as [L2|L2]; [lra|]|].
      + rewrite (T (2, hi) (0, hi)) in E by (cbn [fst snd]; lra). discriminate.
      + rewrite (T (0, lo) (2, lo)) in E by (cbn [fst snd]; lra). cbn [andb negb orb] in E. rewrite !andb_false_r in E. discriminate.
    - intros L. rewrite !T' by (cbn [fst snd]; lra). reflexivity. }
  destruct (is_stable (strip lo hi, c, Some (Fin 1), Some omega)); split.
  - split; [intros _; apply E; reflexivity|reflexivity].
  - intros N. exfalso. apply N, E. reflexivity.
  - split; [discriminate|]. intros X. apply E in X. discriminate.
  - reflexivity.
Qed.
Theorem C106_margins_differ : forall c,
  let entry lo hi margin := (strip lo hi, c, Some (Fin 1), Some (Rmin 1000 (3 - margin))) in
  (stable_domains [entry (2995 / 1000) 3 (1 / 1000)] = [entry (2995 / 1000) 3 (1 / 1000)] /\ stable_domains [entry (2995 / 1000) 3 (1 / 100)] = []) /\
  (stable_domains [entry 2 (2995 / 1000) (1 / 1000)] = [] /\ stable_domains [entry 2 (2995 / 1000) (1 / 100)] = [entry 2 (2995 / 1000) (1 / 100)]).
Proof. intros c entry. unfold entry. rewrite !Rmin_right by lra. split; split; try (apply strip_stable; lra). Qed.
Print Assumptions C106_margins_differ.

(** ** Matrices *)
Theorem C106_order : Permutation person_order (seq 0 71).
Proof.
  apply NoDup_Permutation_bis.
  - replace person_order with (nodup Nat.eq_dec person_order) by (vm_compute; reflexivity). apply NoDup_nodup.
  - rewrite seq_length. cbn. lia.
  - intros x Hx. apply in_seq. split; [lia|]. assert (F : Forall (fun y => (y < 0 + 71)%nat) person_order) by (apply Forall_forall; intros y Hy; apply Nat.ltb_lt; revert y Hy; apply forallb_forall; vm_compute; reflexivity). rewrite Forall_forall in F. auto.
Qed.
Print Assumptions C106_order.

Lemma block_vertices lv N t : length lv = (N * 3)%nat -> (forall i, (i < N * 3)%nat -> nth i lv 0%nat = (i / N)%nat) -> (0 < N)%nat -> (t < 3)%nat -> vertices_in lv t = seq (t * N) N.
Proof.
  intros L H HN Ht. unfold vertices_in. rewrite L.
  assert (X : forall s, (s < 3)%nat -> filter (fun v => Nat.eqb (nth v lv 0%nat) t) (seq (s * N) N) = if Nat.eqb s t then seq (s * N) N else []).
  { intros s Hs. assert (Y : forall v, In v (seq (s * N) N) -> Nat.eqb (nth v lv 0%nat) t = Nat.eqb s t).
    { intros v Hv. apply in_seq in Hv. rewrite H by nia. f_equal. symmetry. apply Nat.div_unique with (v - s * N)%nat; nia. }
    clear - Y. induction (seq (s * N) N) as [|v l IH]; [destruct (Nat.eqb s t); reflexivity|]. cbn [filter]. rewrite Y by (left; reflexivity). rewrite IH by (intros; apply Y; right; assumption). destruct (Nat.eqb s t); reflexivity. }
  replace (seq 0 (N * 3)) with (seq (0 * N) N ++ seq (1 * N) N ++ seq (2 * N) N).
  - rewrite !filter_app, !X by lia. destruct t as [|[|[|t]]]; cbn [Nat.eqb app]; rewrite ?app_nil_r; try reflexivity. lia.
  - replace (N * 3)%nat with (N + (N + N))%nat by lia. rewrite !seq_app. f_equal; f_equal; f_equal; lia.
Qed.
Lemma map_nth_block (a b c : list nat) : map (fun v => nth v (a ++ b ++ c) 0%nat) (seq (length a) (length b)) = b.
Proof.
  revert a. induction b as [|x b IH]; intros a; [reflexivity|]. cbn [length seq map]. f_equal; [rewrite app_nth2, Nat.sub_diag by lia; reflexivity|].
  replace (a ++ (x :: b) ++ c) with ((a ++ [x]) ++ b ++ c) by (rewrite <- app_assoc; reflexivity). replace (S (length a)) with (length (a ++ [x])) by (rewrite app_length; cbn; lia). apply IH.
Qed.
Lemma pick_ok (m : list nat) sort : (forall p, In p sort -> (p < length m)%nat) -> mapM (py_get m) sort = Ok (map (fun p => nth p m 0%nat) sort).
Proof.
  intros H. apply mapM_forall2. induction sort as [|p sort IH]; [constructor|]. cbn [map]. constructor; [|apply IH; intros; apply H; right; assumption].
  unfold py_get. rewrite (nth_error_nth' m 0%nat) by (apply H; left; reflexivity). reflexivity.
Qed.
Lemma three_blocks (c : list nat) N : length c = (N * 3)%nat -> exists a b e, c = a ++ b ++ e /\ length a = N /\ length b = N /\ length e = N.
Proof.
  intros L. exists (firstn N c), (firstn N (skipn N c)), (skipn N (skipn N c)). rewrite !firstn_skipn. split; [reflexivity|]. rewrite !firstn_length, !skipn_length. lia.
Qed.
(** A partition with two, three or four communities is drawn with the persons in the given order; any other one with the persons in their own order. *)
Theorem C106_matrix : forall f lv c order, length lv = (lw_persons f * 3)%nat -> (forall i, (i < lw_persons f * 3)%nat -> nth i lv 0%nat = (i / lw_persons f)%nat) -> (0 < lw_persons f)%nat ->
  length c = (lw_persons f * 3)%nat -> canonical c -> Permutation person_order (seq 0 (lw_persons f)) ->
  ((exists k, has_communities c k /\ (2 <= k <= 4)%nat) /\ order = person_order \/ (exists k, has_communities c k /\ ~ (2 <= k <= 4)%nat) /\ order = seq 0 (lw_persons f)) ->
  exists m, firm_matrix f lv c = Ok m /\ matrix_of (lw_persons f) order c m.
Proof.
  intros f lv c order L H HN Lc Hc HP Ho. set (N := lw_persons f) in *. destruct (three_blocks c N Lc) as (a & b & e & -> & La & Lb & Le).
  assert (HPo : Permutation order (seq 0 N)) by (destruct Ho as [[_ ->]|[_ ->]]; auto).
  assert (Lo : length order = N) by (rewrite (Permutation_length HPo); apply seq_length).
  assert (In_o : forall p, In p order -> (p < N)%nat) by (intros p Hp; apply (Permutation_in _ HPo) in Hp; apply in_seq in Hp; lia).
  set (pick := fun m : list nat => map (fun p => nth p m 0%nat) order).
  assert (NC : forall k, has_communities (a ++ b ++ e) k -> num_communities (a ++ b ++ e) = Ok k).
  { intros k Hk. assert (NE : a ++ b ++ e <> []) by (intros X; rewrite X in Lc; cbn in Lc; lia). destruct (num_communities_canonical Hc NE) as (k' & E1 & E2). rewrite E1. f_equal. exact (has_communities_unique E2 Hk). }
  assert (E : shown_labels N person_order (a ++ b ++ e) = Ok (pick a ++ pick e ++ pick b)).
  { unfold shown_labels.
    assert (F0 : firstn N (skipn (0 * N) (a ++ b ++ e)) = a) by (cbn [Nat.mul skipn]; rewrite <- La, firstn_app, firstn_all, Nat.sub_diag; cbn; apply app_nil_r).
    assert (F1 : firstn N (skipn (1 * N) (a ++ b ++ e)) = b). { rewrite Nat.mul_1_l, skipn_app, (skipn_all2 a) by lia. rewrite La, Nat.sub_diag. cbn [skipn app]. rewrite <- Lb at 1. rewrite firstn_app, firstn_all, Nat.sub_diag. cbn. apply app_nil_r. }
    assert (F2 : firstn N (skipn (2 * N) (a ++ b ++ e)) = e). { rewrite app_assoc, skipn_app, (skipn_all2 (a ++ b)) by (rewrite app_length; lia). replace (2 * N - length (a ++ b))%nat with 0%nat by (rewrite app_length; lia). cbn [skipn app]. rewrite <- Le. apply firstn_all. }
    rewrite F0, F1, F2. destruct Ho as [[(k & Hk & Rk) Eo]|[(k & Hk & Rk) Eo]]; rewrite (NC k Hk); cbn [bind].
    - assert (B : Nat.eqb k 2 || Nat.eqb k 3 || Nat.eqb k 4 = true) by (clear - Rk; destruct k as [|[|[|[|[|k]]]]]; try lia; reflexivity). rewrite B. rewrite <- Eo. rewrite !pick_ok by (intros p Hp; rewrite ?La, ?Lb, ?Le; auto). cbn [bind]. reflexivity.
    - assert (B : Nat.eqb k 2 || Nat.eqb k 3 || Nat.eqb k 4 = false) by (rewrite !orb_false_iff, !Nat.eqb_neq; lia). rewrite B. cbn [bind]. unfold pick. rewrite Eo.
      assert (I : forall m : list nat, length m = N -> map (fun p => nth p m 0%nat) (seq 0 N) = m). { intros m <-. pose proof (map_nth_block [] m []) as Q. cbn [app length] in Q. rewrite app_nil_r in Q. exact Q. }
      rewrite !I by assumption. reflexivity. }
  assert (Lp : forall m, length (pick m) = N) by (intros m; unfold pick; rewrite map_length; exact Lo).
  assert (Lm : list_max lv = 2%nat).
  { apply Nat.le_antisymm.
    - apply list_max_le, Forall_forall. intros x Hx. apply (In_nth _ _ 0%nat) in Hx as (i & Hi & <-). rewrite L in Hi. rewrite H by exact Hi. assert (i / N < 3)%nat by (apply Nat.div_lt_upper_bound; lia). lia.
    - assert (Forall (fun k => (k <= list_max lv)%nat) lv) as F by (apply list_max_le; lia). rewrite Forall_forall in F. assert (I : In 2%nat lv). { replace 2%nat with (nth (2 * N) lv 0%nat); [apply nth_In; lia|]. rewrite H by lia. apply Nat.div_mul. lia. } exact (F _ I). }
  exists [pick a; pick e; pick b]. split.
  - unfold firm_matrix. change (lw_persons f) with N. rewrite E. cbn [bind]. rewrite C55_arrays.
    + rewrite Lm. cbn [seq map]. rewrite !(block_vertices lv N) by (auto; lia). f_equal. f_equal; [|f_equal; [|f_equal]].
      * pose proof (map_nth_block [] (pick a) (pick e ++ pick b)) as Q. cbn [app length] in Q. rewrite Lp in Q. exact Q.
      * pose proof (map_nth_block (pick a) (pick e) (pick b)) as Q. rewrite !Lp in Q. rewrite Nat.mul_1_l. exact Q.
      * pose proof (map_nth_block (pick a ++ pick e) (pick b) []) as Q. rewrite app_nil_r, app_length, !Lp, <- app_assoc in Q. replace (2 * N)%nat with (N + N)%nat by lia. exact Q.
    + rewrite !app_length, !Lp, L. lia.
    + intros ->. cbn in L. lia.
    + rewrite Lm. intros t Ht. rewrite (block_vertices lv N) by (auto; lia). rewrite seq_length, L. symmetry. apply Nat.div_mul. lia.
  - exists (pick a), (pick e), (pick b). split; [reflexivity|]. rewrite !Lp. split; [reflexivity|]. split; [reflexivity|]. split; [reflexivity|]. intros i p Hi.
    assert (Hp : (p < N)%nat) by (apply In_o; eapply nth_error_In; exact Hi).
    assert (X : forall m, length m = N -> nth_error (pick m) i = nth_error m p). { intros m Hm. unfold pick. rewrite (map_nth_error _ _ _ Hi). symmetry. apply nth_error_nth'. lia. }
    rewrite !X by assumption. split; [|split].
    + rewrite nth_error_app1 by lia. reflexivity.
    + rewrite app_assoc, nth_error_app2 by (rewrite app_length; lia). f_equal. rewrite app_length. lia.
    + rewrite nth_error_app2, nth_error_app1 by lia. f_equal. lia.
Qed.
Print Assumptions C106_matrix.
