(** Property theorems: the numbering of the vertices does not matter (C89). *)
From Verif Require Import PyBase PyGraph M_partition M_pool M_champ M_estimation_utils Spec Spec_leiden Spec_graph Spec_champ Spec_polygon Spec_stability Spec_sbm Spec_multisbm Spec_check Spec_valid
  Spec_prune Spec_tiling Spec_renumber
  L_base L_sort L_canon L_leiden L_modularity L_modularity3 L_champ L_champ2 L_champ3 L_sbm L_sbm2 L_multisbm L_prune L_accepted L_omega L_adjacency L_renumber
  Properties_coefficients Properties_champ Properties_sbm Properties_multisbm Properties_prune Properties_multiprune Properties_tiling Properties_reproducible.
From Coq Require Import Permutation.
Open Scope R_scope.

(** Modularity of a renumbered partition of the renumbered network. *)
Theorem C89_modularity : forall new old g c, wf_graph g -> renumbering (vcount g) new old ->
  (forall gamma, modularity (permute_vertices new g) gamma (reorder 0%nat old c) = modularity g gamma c) /\
  forall gi lv gamma omega, wf_graph gi -> vcount gi = vcount g ->
    multilayer_modularity (permute_vertices new g) (permute_vertices new gi) (reorder 0%nat old lv) gamma omega (reorder 0%nat old c)
    = multilayer_modularity g gi lv gamma omega c.
Proof.
  intros q old g c W Hq. pose proof (carried_same (reorder_carried Hq c)) as Hc. split.
  - intros gamma. apply (pv_modularity Hq W eq_refl Hc).
  - intros gi lv gamma omega Wi Vi. rewrite !multilayer_APC. rewrite (pv_A Hq W eq_refl Hc), (pv_A Hq Wi Vi Hc), (pv_P3 Hq W eq_refl (reorder_carried Hq lv) Hc). reflexivity.
Qed.
Print Assumptions C89_modularity.

(** CHAMP returns the same ranges and domains, with the renumbered partitions, in the same order, or fails in the same way. *)
Lemma pv_champ_2D env g parts q old : renumbering (vcount g) q old -> champ_ok_2D env g parts ->
  champ_ok_2D env (permute_vertices q g) (map (reorder 0%nat old) parts).
Proof.
  intros Hq []. constructor; auto.
  - unfold valid_pool in *. rewrite map_length. auto.
  - apply (pv_wf Hq); auto.
  - cbn [permute_vertices edges]. destruct (edges g); [congruence|discriminate].
  - intros c Hc. apply in_map_iff in Hc as (c0 & <- & _). apply (reorder_length Hq).
Qed.
Lemma pv_has g lv lv' q old : wf_graph g -> renumbering (vcount g) q old -> carried (vcount g) q lv lv' -> Permutation lv' lv ->
  (forall l, In l lv -> exists u v, In (u, v) (edges g) /\ nth u lv 0%nat = l) ->
  forall l, In l lv' -> exists u v, In (u, v) (edges (permute_vertices q g)) /\ nth u lv' 0%nat = l.
Proof.
  intros W Hq Hlv P H l Hl. apply (Permutation_in _ P) in Hl. apply H in Hl as (u & v & E & <-). exists (q u), (q v). split.
  - cbn [permute_vertices edges]. apply in_map_iff. exists (u, v). auto.
  - apply Hlv. apply (proj1 W) in E. tauto.
Qed.
Lemma pv_champ_3D env g gi lv parts q old : renumbering (vcount g) q old -> vcount gi = vcount g -> champ_ok_3D env g gi lv parts ->
  champ_ok_3D env (permute_vertices q g) (permute_vertices q gi) (reorder 0%nat old lv) (map (reorder 0%nat old) parts).
Proof.
  intros Hq Vi []. pose proof (reorder_carried Hq lv) as Hl. pose proof (reorder_perm Hq 0%nat lv c3_layers) as Pl. constructor; auto.
  - unfold valid_pool in *. rewrite map_length. auto.
  - apply (pv_wf Hq); auto.
  - apply (pv_wf Hq); auto.
  - apply (reorder_length Hq).
  - intros E. rewrite E in Pl. apply Permutation_nil in Pl. auto.
  - apply (pv_within c3_graph eq_refl Hl); auto.
  - eapply pv_has; eauto.
  - intros c Hc. apply in_map_iff in Hc as (c0 & <- & _). apply (reorder_length Hq).
Qed.

Lemma sort_by_map {A B} (f : A -> B) leb leb' l : (forall a b, leb' (f a) (f b) = leb a b) -> sort_by leb' (map f l) = map f (sort_by leb l).
Proof.
  intros H. assert (I : forall a l, insert_by leb' (f a) (map f l) = map f (insert_by leb a l)).
  { intros a l'. induction l' as [|b l' IH]; [reflexivity|]. cbn [insert_by map]. rewrite H. destruct (leb a b); [reflexivity|]. cbn [map]. rewrite IH. reflexivity. }
  induction l as [|a l IH]; [reflexivity|]. cbn [sort_by map]. rewrite IH. apply I.
Qed.
Lemma mapM_map {A B C} (f : A -> res B) (h : B -> C) f' l : (forall x, f' x = let! y := f x in Ok (h y)) -> mapM f' l = let! ys := mapM f l in Ok (map h ys).
Proof.
  intros H. induction l as [|x l IH]; [reflexivity|]. cbn [mapM]. rewrite H, IH. destruct (f x); [|reflexivity]. cbn [bind]. destruct (mapM f l); reflexivity.
Qed.
Lemma py_get_map {A B} (f : A -> B) l i : py_get (map f l) i = let! x := py_get l i in Ok (f x).
Proof. unfold py_get. rewrite nth_error_map. destruct (nth_error l i); reflexivity. Qed.

Theorem C89_CHAMP : forall env g parts new old, renumbering (vcount g) new old ->
  let renumbered_2D := fun (r : R * R * list nat) => (fst r, reorder 0%nat old (snd r)) in
  let renumbered_3D := fun (d : list (R * R) * list nat) => (fst d, reorder 0%nat old (snd d)) in
  (forall g0 gf single_threaded, champ_ok_2D env g parts ->
   CHAMP_2D env (permute_vertices new g) (map (reorder 0%nat old) parts) g0 gf single_threaded
   = let! ranges := CHAMP_2D env g parts g0 gf single_threaded in Ok (map renumbered_2D ranges)) /\
  (forall gi lv g0 gf o0 of, champ_ok_3D env g gi lv parts -> vcount gi = vcount g ->
   CHAMP_3D env (permute_vertices new g) (permute_vertices new gi) (reorder 0%nat old lv) (map (reorder 0%nat old) parts) g0 gf o0 of
   = let! domains := CHAMP_3D env g gi lv parts g0 gf o0 of in Ok (map renumbered_3D domains)).
Proof.
  intros env g parts q old Hq f2 f3. assert (Hc : forall c, same_up (vcount g) q c (reorder 0%nat old c)) by (intros c; apply carried_same, (reorder_carried Hq)). split.
  - intros g0 gf st H. destruct parts as [|c ps]; [reflexivity|].
    rewrite (@CHAMP_2D_unfold env g _ g0 gf st H), (@CHAMP_2D_unfold env _ _ g0 gf st (pv_champ_2D _ _ _ _ _ Hq H)) by discriminate.
    assert (W : wf_graph g) by apply H. rewrite map_length, !(map_map (reorder 0%nat old)).
    rewrite (map_ext (fun x => A_of (permute_vertices q g) (reorder 0%nat old x)) (A_of g)) by (intros x; apply (pv_A Hq W eq_refl (Hc x))).
    rewrite (map_ext (fun x => P_of (permute_vertices q g) (reorder 0%nat old x)) (P_of g)) by (intros x; apply (pv_P Hq W eq_refl (Hc x))).
    destruct (champ_halfspaces_2D _ _ g0 gf) as [hs|]; [|reflexivity]. cbn [bind]. destruct (interior_point env hs) as [pt|]; [|reflexivity]. cbn [bind].
    destruct (env_hsi env hs pt) as [out|]; [|reflexivity]. cbn [bind]. destruct (facets_by_halfspace _ out) as [d|]; [|reflexivity]. cbn [bind].
    rewrite (mapM_map (range_of_facet (c :: ps)) f2).
    + destruct (mapM (range_of_facet (c :: ps)) d) as [rs|]; [|reflexivity]. cbn [bind]. f_equal. apply sort_by_map. intros a b. reflexivity.
    + intros x. unfold range_of_facet. destruct (py_get (snd x) 0) as [v1|]; [|reflexivity]. cbn [bind]. destruct (py_get v1 0) as [x1|]; [|reflexivity]. cbn [bind].
      destruct (py_get (snd x) 1) as [v2|]; [|reflexivity]. cbn [bind]. destruct (py_get v2 0) as [x2|]; [|reflexivity]. cbn [bind]. rewrite py_get_map.
      destruct (py_get (c :: ps) (fst x)); [|reflexivity]. cbn [bind]. destruct (Rltb _ _); reflexivity.
  - intros gi lv g0 gf o0 of H Vi. destruct parts as [|c ps]; [reflexivity|].
    rewrite (@CHAMP_3D_unfold env g gi lv _ g0 gf o0 of H), (@CHAMP_3D_unfold env _ _ _ _ g0 gf o0 of (pv_champ_3D _ _ _ _ _ _ _ Hq Vi H)) by discriminate.
    assert (W : wf_graph g) by apply H. assert (Wi : wf_graph gi) by apply H. rewrite map_length, !(map_map (reorder 0%nat old)).
    rewrite (map_ext (fun x => A_of (permute_vertices q g) (reorder 0%nat old x)) (A_of g)) by (intros x; apply (pv_A Hq W eq_refl (Hc x))).
    rewrite (map_ext (fun x => A_of (permute_vertices q gi) (reorder 0%nat old x)) (A_of gi)) by (intros x; apply (pv_A Hq Wi Vi (Hc x))).
    rewrite (map_ext (fun x => P3_of (permute_vertices q g) (reorder 0%nat old lv) (reorder 0%nat old x)) (P3_of g lv)) by (intros x; apply (pv_P3 Hq W eq_refl (reorder_carried Hq lv) (Hc x))).
    destruct (champ_halfspaces_3D _ _ _ g0 gf o0 of) as [hs|]; [|reflexivity]. cbn [bind]. destruct (interior_point env hs) as [pt|]; [|reflexivity]. cbn [bind].
    destruct (env_hsi env hs pt) as [out|]; [|reflexivity]. cbn [bind]. destruct (facets_by_halfspace _ out) as [d|]; [|reflexivity]. cbn [bind].
    apply mapM_map. intros x. unfold domain_of_facet. destruct (mapM project (snd x)); [|reflexivity]. cbn [bind]. rewrite py_get_map.
    destruct (py_get (c :: ps) (fst x)); reflexivity.
Qed.
Print Assumptions C89_CHAMP.

(** The estimates. *)
Theorem C89_gamma_estimate : forall env g h ws c new old, wf_graph g -> renumbering (vcount g) new old ->
  ee_contains env (permute_vertices new g) = ee_contains env g -> weights_defaulted (ee_contains env g) g h -> weights h = Some ws -> length c = vcount g ->
  snd (gamma_estimate env (permute_vertices new g) (Membership (reorder 0%nat old c))) = snd (gamma_estimate env g (Membership c)).
Proof.
  intros env g h ws c q old W Hq Hcon Hh Hw L. apply weighted_e_defaulted in Hh. subst h.
  apply (@pv_gamma_estimate (vcount g) q old Hq env env g W eq_refl Hcon ws Hw c _ (carried_same (reorder_carried Hq c)) L (reorder_length Hq _ c)).
  apply list_max_perm, Permutation_map, (reorder_perm Hq); auto.
Qed.
Print Assumptions C89_gamma_estimate.

Lemma multilayer_value env g h gi ws lv c model : wf_graph g -> wf_graph gi -> weights_defaulted (ee_contains env g) g h -> weights h = Some ws ->
  (forall w, In w ws -> 0 < w) -> valid_multilayer h gi ws lv model -> is_model model -> length c = vcount g ->
  exists pers p, is_persistence model gi lv (vcount g / S (list_max lv)) (S (list_max lv)) c pers /\
    is_copying_probability (ee_fsolve env) model (list_max (map S c)) (S (list_max lv)) pers p /\
    snd (estimate_multilayer_SBM_parameters env g gi lv (mkPart (list_max (map S c)) c) model None (Some (S (list_max lv))) None None) =
    (let n := vcount g in let T := S (list_max lv) in let E := weighted_edges h ws in
     Ok (observed_within_layers n E lv T c / expected_within_layers n E lv T c,
         (if Req_EM_T (expected_between_layers n E lv T c) 0 then 0 else observed_between_layers n E lv T c / expected_between_layers n E lv T c), p, list_max (map S c))).
Proof.
  intros W Wi Hh Hw P Hv Hm L. pose proof Hh as Hh'. apply weighted_e_defaulted in Hh'.
  assert (Wh : wf_graph h) by (rewrite Hh'; apply weighted_e_wf; auto).
  assert (Vh : vcount h = vcount g) by (rewrite Hh'; apply weighted_e_vcount).
  pose proof (C31_positive_weights h gi ws lv c model Wh Hw P Hv ltac:(congruence)) as PW. cbv zeta in PW. destruct PW as (PW & _). rewrite Vh in PW.
  destruct (C31_estimates env g h gi ws lv c (list_max (map S c)) model None (Some (S (list_max lv))) None None W Wi) as (pers & p & Q1 & Q2 & Q3); auto.
  - intros l Hl. apply In_nth with (d := 0%nat) in Hl as (v & Hv1 & <-). apply list_max_label; auto.
  - left; auto.
  - right; auto.
  - left; auto.
  - left; auto.
  - lra.
  - exists pers, p. split; [exact Q1|]. split; [exact Q2|]. rewrite Q3. reflexivity.
Qed.

Lemma pv_gamma_omega env env' g h gi ws lv c c' omega_max model q old : wf_graph g -> wf_graph gi -> renumbering (vcount g) q old ->
  ee_contains env' (permute_vertices q g) = ee_contains env g -> ee_fsolve env' = ee_fsolve env ->
  weights_defaulted (ee_contains env g) g h -> weights h = Some ws -> (forall w, In w ws -> 0 < w) ->
  valid_multilayer h gi ws lv model -> is_model model -> length c = vcount g -> length c' = vcount g -> same_up (vcount g) q c c' -> list_max (map S c') = list_max (map S c) ->
  snd (gamma_omega_estimate env' (permute_vertices q g) (permute_vertices q gi) (reorder 0%nat old lv) c' omega_max model None None None None)
  = snd (gamma_omega_estimate env g gi lv c omega_max model None None None None).
Proof.
  intros W Wi Hq Hcon Hfs Hh Hw P Hv Hm L L' Hc Hmax. pose proof Hh as Hh'. apply weighted_e_defaulted in Hh'.
  assert (Wh : wf_graph h) by (rewrite Hh'; apply weighted_e_wf; auto).
  assert (Vh : vcount h = vcount g) by (rewrite Hh'; apply weighted_e_vcount).
  assert (Vi : vcount gi = vcount g /\ length lv = vcount g).
  { clear - Hv Vh. unfold valid_multilayer, structural_rules in Hv. rewrite !Forall_cons_iff in Hv. cbn [fst] in Hv. rewrite <- Vh. tauto. }
  destruct Vi as [Vi Ll].
  pose proof (reorder_carried Hq lv) as Hl. pose proof (reorder_perm Hq 0%nat lv Ll) as Pl. pose proof (list_max_perm Pl) as El.
  destruct (multilayer_value env g h gi ws lv c model W Wi Hh Hw P Hv Hm L) as (pers & p & P1 & P2 & P3).
  assert (Hq' : renumbering (vcount h) q old) by (rewrite Vh; auto).
  destruct (multilayer_value env' (permute_vertices q g) (permute_vertices q h) (permute_vertices q gi) ws (reorder 0%nat old lv) c' model) as (pers' & p' & P1' & P2' & P3').
  - apply (pv_wf Hq); auto.
  - apply (pv_wf Hq); auto.
  - apply weighted_e_defaulted. rewrite (@pv_weighted_e q env env' g Hcon). congruence.
  - exact Hw.
  - exact P.
  - rewrite <- Vh in Hl. apply (@pv_valid (vcount h) q old Hq' h gi Wh Wi eq_refl ws lv _ Hl Pl model Hv).
  - exact Hm.
  - exact L'.
  - rewrite El, Hmax in P2', P3'. rewrite El in P1'. change (vcount (permute_vertices q g)) with (vcount g) in P1', P3'.
    assert (pers' = pers).
    { eapply persistence_fun; [exact P1'|]. apply (@pv_persistence (vcount g) q gi Wi Vi c c' Hc lv _ Hl Pl); auto. }
    subst pers'. rewrite Hfs in P2'. assert (p' = p) by (eapply copying_fun; eauto). subst p'.
    cbv zeta in P3, P3'. rewrite pv_weighted in P3'.
    assert (HE : in_range_E (vcount g) (weighted_edges h ws)) by (rewrite <- Vh; apply range_E_of; auto).
    destruct (@qe_layer_sums (vcount g) q old Hq (weighted_edges h ws) HE c c' Hc lv _ Hl (S (list_max lv))) as (E1 & E2 & E3 & E4).
    rewrite E1, E2, E3, E4 in P3'. clear E1 E2 E3 E4.
    unfold gamma_omega_estimate, leiden_part_with_membership. change (vcount (permute_vertices q g)) with (vcount g). rewrite L, L', Nat.eqb_refl.
    assert (Ne : lv <> []). { intros E. rewrite E in Ll. destruct (@acc_facts h gi lv model ws Wh (valid_accepted Wh Hv)) as (F1 & _). rewrite E in F1. cbn in F1. lia. }
    assert (Ne' : reorder 0%nat old lv <> []) by (intros E; rewrite E in Pl; apply Permutation_nil in Pl; auto).
    assert (ET : forall l, l <> [] -> or_default None (layer_count_T l) = Ok (S (list_max l))).
    { intros l Hne. cbn [or_default]. unfold layer_count_T. rewrite (@py_max_list l (list_max l)); auto. cbn [bind]. f_equal. lia. }
    rewrite (ET lv Ne), (ET _ Ne'), El. cbn [bind]. rewrite Hmax.
    destruct (estimate_multilayer_SBM_parameters env' _ _ _ _ model None _ None None) as [h1 r1].
    destruct (estimate_multilayer_SBM_parameters env g gi lv _ model None _ None None) as [h2 r2]. cbn [snd] in P3, P3' |- *. subst r1 r2. reflexivity.
Qed.

Theorem C89_gamma_omega_estimate : forall env g h gi ws lv c omega_max model new old, wf_graph g -> wf_graph gi -> renumbering (vcount g) new old ->
  ee_contains env (permute_vertices new g) = ee_contains env g -> weights_defaulted (ee_contains env g) g h -> weights h = Some ws -> (forall w, In w ws -> 0 < w) ->
  valid_multilayer h gi ws lv model -> is_model model -> length c = vcount g ->
  snd (gamma_omega_estimate env (permute_vertices new g) (permute_vertices new gi) (reorder 0%nat old lv) (reorder 0%nat old c) omega_max model None None None None)
  = snd (gamma_omega_estimate env g gi lv c omega_max model None None None None).
Proof.
  intros env g h gi ws lv c om model q old W Wi Hq Hcon Hh Hw P Hv Hm L. eapply pv_gamma_omega; eauto.
  - apply (reorder_length Hq).
  - apply carried_same, (reorder_carried Hq).
  - apply list_max_perm, Permutation_map, (reorder_perm Hq); auto.
Qed.
Print Assumptions C89_gamma_omega_estimate.

(** Pruning. *)
Section Considered.
Variables (n : nat) (q : nat -> nat) (old : list nat) (Hq : renumbering n q old).

Lemma nth_error_nth_d {A} (l : list A) i d : (i < length l)%nat -> nth_error l i = Some (nth i l d).
Proof. intros H. apply nth_error_nth'; auto. Qed.

Lemma same_partition_nth {A B} (d : A) (d' : B) s t : length s = n -> length t = n ->
  (same_partition s t <-> forall i j, (i < n)%nat -> (j < n)%nat -> (nth i s d = nth j s d <-> nth i t d' = nth j t d')).
Proof.
  intros L L'. split.
  - intros [_ H] i j Hi Hj. apply (H i j); apply nth_error_nth_d; lia.
  - intros H. split; [lia|]. intros i j a a' b b' H1 H2 H3 H4.
    assert (Hi : (i < n)%nat) by (rewrite <- L; apply nth_error_Some; congruence). assert (Hj : (j < n)%nat) by (rewrite <- L; apply nth_error_Some; congruence).
    rewrite (nth_error_nth_d s i d) in H1 by lia. rewrite (nth_error_nth_d s j d) in H2 by lia. rewrite (nth_error_nth_d t i d') in H3 by lia. rewrite (nth_error_nth_d t j d') in H4 by lia.
    injection H1 as <-. injection H2 as <-. injection H3 as <-. injection H4 as <-. apply H; auto.
Qed.

Lemma reorder_same_partition {A B} (d : A) (d' : B) s t : length s = n -> length t = n ->
  (same_partition (reorder d old s) (reorder d' old t) <-> same_partition s t).
Proof.
  intros L L'. rewrite (same_partition_nth d d' s t L L'), (same_partition_nth d d') by (apply (reorder_length Hq)). split; intros H i j Hi Hj.
  - rewrite <- (reorder_nth Hq d s Hi), <- (reorder_nth Hq d s Hj), <- (reorder_nth Hq d' t Hi), <- (reorder_nth Hq d' t Hj). apply H; apply (q_lt Hq); auto.
  - destruct (q_surj Hq Hi) as (v & Hv & <-). destruct (q_surj Hq Hj) as (w & Hw & <-). rewrite !(reorder_nth Hq) by auto. apply H; auto.
Qed.

Lemma reorder_same_up c c' : length c = n -> same_partition (reorder 0%nat old c) c' -> same_up n q c c'.
Proof.
  intros L H. assert (L' : length c' = n) by (destruct H as [E _]; rewrite <- E; apply (reorder_length Hq)).
  rewrite (same_partition_nth 0%nat 0%nat) in H by (auto; apply (reorder_length Hq)). intros i j Hi Hj. rewrite <- (H (q i) (q j)) by (apply (q_lt Hq); auto).
  rewrite !(reorder_nth Hq) by auto. tauto.
Qed.

Lemma reorder_communities {A} (d : A) s k : length s = n -> has_communities s k <-> has_communities (reorder d old s) k.
Proof.
  intros L. pose proof (reorder_perm Hq d s L) as P. unfold has_communities.
  split; intros (l & H1 & H2 & H3); exists l; (split; [auto|split; [auto|]]); intros x; rewrite H3; split; apply Permutation_in; auto; symmetry; auto.
Qed.

Lemma reorder_considered inputs restrict c c' : (forall t, In t inputs -> length t = n) -> canonical c -> canonical c' -> length c = n ->
  same_partition (reorder 0%nat old c) c' -> (considered inputs restrict c <-> considered (map (reorder 0%Z old) inputs) restrict c').
Proof.
  intros Hl Hc Hc' L S. unfold considered.
  assert (HK : forall k, has_communities c k <-> has_communities c' k).
  { intros k. rewrite (reorder_communities 0%nat c k L). split; apply has_communities_same_partition; auto using Nat.eq_dec. apply same_partition_sym; auto. }
  assert (HT : forall t, In t inputs -> (same_partition t c <-> same_partition (reorder 0%Z old t) c')).
  { intros t Ht. rewrite <- (reorder_same_partition 0%Z 0%nat t c) by auto. split; intros H.
    - eapply same_partition_trans; eauto.
    - eapply same_partition_trans; [exact H|]. apply same_partition_sym; auto. }
  split; intros (_ & (t & Ht & Hs) & K); (split; [auto|split]).
  - exists (reorder 0%Z old t). split; [apply in_map; auto|apply HT; auto].
  - intros k Hk. apply HK; auto.
  - apply in_map_iff in Ht as (t0 & <- & Ht0). exists t0. split; auto. apply HT; auto.
  - intros k Hk. apply HK; auto.
Qed.

Lemma considered_length inputs restrict c : (forall t, In t inputs -> length t = n) -> considered inputs restrict c -> length c = n.
Proof. intros Hl (_ & (t & Ht & [E _]) & _). rewrite <- E. auto. Qed.

(** every considered partition of the renumbered inputs comes from one of the original inputs, and conversely *)
Lemma considered_back inputs restrict c' : (forall t, In t inputs -> length t = n) -> considered (map (reorder 0%Z old) inputs) restrict c' ->
  exists c, considered inputs restrict c /\ length c = n /\ same_partition (reorder 0%nat old c) c'.
Proof.
  intros Hl Hc'. destruct Hc' as (Hcan & (t' & Ht' & Hs) & K). apply in_map_iff in Ht' as (t & <- & Ht).
  destruct (sorted_tuple_keeps t) as (c & E & Hc). pose proof (sorted_tuple_canonical t E) as Cc. assert (L : length c = n) by (destruct Hc as [El _]; rewrite <- El; auto).
  assert (S : same_partition (reorder 0%nat old c) c').
  { eapply same_partition_trans; [|exact Hs]. apply same_partition_sym. apply reorder_same_partition; auto. }
  exists c. split; [|auto]. apply (reorder_considered inputs restrict c c' Hl Cc Hcan L S). split; auto. split; auto. exists (reorder 0%Z old t). split; [apply in_map; auto|auto].
Qed.
Lemma considered_forth inputs restrict c : (forall t, In t inputs -> length t = n) -> considered inputs restrict c ->
  exists c', considered (map (reorder 0%Z old) inputs) restrict c' /\ canonical c' /\ same_partition (reorder 0%nat old c) c'.
Proof.
  intros Hl Hc. pose proof (considered_length _ _ _ Hl Hc) as L. destruct (sorted_tuple_keeps (map Z.of_nat (reorder 0%nat old c))) as (c' & E & Hs).
  pose proof (sorted_tuple_canonical _ E) as Cc. assert (S : same_partition (reorder 0%nat old c) c') by (apply same_partition_Z; auto).
  exists c'. split; [|auto]. apply (reorder_considered inputs restrict c c' Hl (proj1 Hc) Cc L S). auto.
Qed.

Lemma canonical_max c k : canonical c -> c <> [] -> has_communities c k -> list_max (map S c) = k.
Proof.
  intros Hc Ne Hk. destruct (canonical_range Hc Ne) as (m & Hm & H).
  assert (E : has_communities c m) by (exists (seq 0 m); split; [apply seq_NoDup|split; [apply seq_length|]]; intros x; rewrite in_seq, H; lia).
  rewrite (has_communities_unique Hk E). apply Nat.le_antisymm.
  - apply list_max_le. apply Forall_forall. intros x Hx. apply in_map_iff in Hx as (y & <- & Hy). apply H in Hy. lia.
  - assert (In (S (m - 1)) (map S c)) by (apply in_map, H; lia). pose proof (proj1 (list_max_le (map S c) (list_max (map S c))) (le_n _)) as F. rewrite Forall_forall in F. specialize (F _ H0). lia.
Qed.
Lemma reorder_max c c' : (0 < n)%nat -> length c = n -> canonical c -> canonical c' -> same_partition (reorder 0%nat old c) c' -> list_max (map S c') = list_max (map S c).
Proof.
  intros Hn L Hc Hc' S. assert (Ne : c <> []) by (intros ->; cbn in L; lia). assert (Ne' : c' <> []) by (destruct S as [E _]; rewrite (reorder_length Hq) in E; intros ->; cbn in E; lia).
  destruct (num_communities_canonical Hc Ne) as (k & _ & Hk). rewrite (canonical_max c k) by auto. apply canonical_max; auto.
  eapply has_communities_same_partition; [exact Nat.eq_dec|exact S|]. apply reorder_communities; auto.
Qed.
End Considered.

Theorem C89_prune : forall env env' g h ws inputs gamma_start gamma_end restrict single_threaded single_threaded' new old result result' c c',
  prune_ok_2D env g inputs -> prune_ok_2D env' (permute_vertices new g) (map (reorder 0%Z old) inputs) ->
  irredundant_hsi 2 (env_hsi (ee_champ env)) -> irredundant_hsi 2 (env_hsi (ee_champ env')) ->
  renumbering (vcount g) new old -> told_apart g inputs restrict ->
  ee_contains env' (permute_vertices new g) = ee_contains env g -> weights_defaulted (ee_contains env g) g h -> weights h = Some ws ->
  snd (prune_to_stable_partitions env g (Tuples inputs) gamma_start gamma_end restrict single_threaded) = Ok result ->
  snd (prune_to_stable_partitions env' (permute_vertices new g) (Tuples (map (reorder 0%Z old) inputs)) gamma_start gamma_end restrict single_threaded') = Ok result' ->
  canonical c -> canonical c' -> length c = vcount g -> same_partition (reorder 0%nat old c) c' ->
  (In c result <-> In c' result').
Proof.
  intros env env' g h ws inputs a b rs st st' q old r r' c c' Hok Hok' Hir Hir' Hq Ht Hcon Hh Hw H H' Cc Cc' L S.
  assert (W : wf_graph g) by apply Hok. assert (Hl : forall t, In t inputs -> length t = vcount g) by apply Hok. apply weighted_e_defaulted in Hh. subst h.
  assert (Hn : (0 < vcount g)%nat). { pose proof (p2_edges Hok) as Ne. destruct (edges g) as [|[u v] E] eqn:Ee; [congruence|]. destruct (proj1 W u v); [rewrite Ee; left; auto|lia]. }
  destruct (prune_to_stable_partitions env g (Tuples inputs) a b rs st) as [[w g1] res] eqn:E. cbn [snd] in H. subst res.
  destruct (prune_to_stable_partitions env' _ _ a b rs st') as [[w' g1'] res'] eqn:E'. cbn [snd] in H'. subst res'.
  assert (HM : forall d d' gamma, length d = vcount g -> same_partition (reorder 0%nat old d) d' -> modularity (permute_vertices q g) gamma d' = modularity g gamma d).
  { intros d d' gamma Ld Sd. apply (pv_modularity Hq W eq_refl). eapply reorder_same_up; eauto. }
  assert (Ht' : told_apart (permute_vertices q g) (map (reorder 0%Z old) inputs) rs).
  { intros d' e' Hd' He' N. destruct (considered_back _ _ _ Hq inputs rs d' Hl Hd') as (d & Hd & Ld & Sd). destruct (considered_back _ _ _ Hq inputs rs e' Hl He') as (e & He & Le & Se).
    destruct (Ht d e Hd He) as (gamma & Ng).
    - intros ->. apply N. apply canonical_unique; [apply Hd'|apply He'|]. eapply same_partition_trans; [apply same_partition_sym; exact Sd|exact Se].
    - exists gamma. rewrite (HM d d'), (HM e e') by auto. auto. }
  assert (L' : length c' = vcount g) by (destruct S as [El _]; rewrite <- El; apply (reorder_length Hq)).
  assert (EE : snd (gamma_estimate env' (permute_vertices q g) (Membership c')) = snd (gamma_estimate env g (Membership c))).
  { apply (@pv_gamma_estimate (vcount g) q old Hq env env' g W eq_refl Hcon ws Hw c c' (reorder_same_up _ _ _ Hq _ _ L S) L L'). eapply reorder_max; eauto. }
  assert (HB : forall gamma, (forall d, considered inputs rs d -> modularity g gamma d <= modularity g gamma c) <->
     (forall d', considered (map (reorder 0%Z old) inputs) rs d' -> modularity (permute_vertices q g) gamma d' <= modularity (permute_vertices q g) gamma c')).
  { intros gamma. rewrite (HM c c' gamma L S). split; intros B d Hd.
    - destruct (considered_back _ _ _ Hq inputs rs d Hl Hd) as (e & He & Le & Se). rewrite (HM e d gamma Le Se). auto.
    - destruct (considered_forth _ _ _ Hq inputs rs d Hl Hd) as (e & He & Ce & Se). rewrite <- (HM d e gamma (considered_length _ _ _ _ Hl Hd) Se). auto. }
  rewrite (C70_prune_characterised _ _ _ _ _ _ _ _ _ _ c Hok Hir Ht E), (C70_prune_characterised _ _ _ _ _ _ _ _ _ _ c' Hok' Hir' Ht' E').
  rewrite <- (reorder_considered _ _ _ Hq inputs rs c c' Hl Cc Cc' L S), EE.
  split; intros (K & x & Ex & Hx & Bx & y & Ny & Hy & By); (split; [auto|]); exists x; (split; [auto|split; [auto|split; [apply HB; auto|]]]); exists y; (split; [auto|split; [auto|apply HB; auto]]).
Qed.
Print Assumptions C89_prune.

Theorem C89_multilayer_prune : forall env env' g h ws gi lv model inputs gamma_start gamma_end omega_start omega_end restrict new old result result' c c' gamma omega_est,
  prune_ok_3D env g gi lv inputs -> prune_ok_3D env' (permute_vertices new g) (permute_vertices new gi) (reorder 0%nat old lv) (map (reorder 0%Z old) inputs) ->
  irredundant_hsi 3 (env_hsi (ee_champ env)) -> irredundant_hsi 3 (env_hsi (ee_champ env')) ->
  full_facets_hsi 3 (env_hsi (ee_champ env)) -> full_facets_hsi 3 (env_hsi (ee_champ env')) ->
  renumbering (vcount g) new old -> told_apart_3D g gi lv inputs restrict ->
  ee_contains env' (permute_vertices new g) = ee_contains env g -> ee_fsolve env' = ee_fsolve env ->
  weights_defaulted (ee_contains env g) g h -> weights h = Some ws -> (forall w, In w ws -> 0 < w) -> valid_multilayer h gi ws lv model -> is_model model ->
  snd (prune_to_multilayer_stable_partitions env g gi lv model (Tuples inputs) gamma_start gamma_end omega_start omega_end restrict false) = Ok result ->
  snd (prune_to_multilayer_stable_partitions env' (permute_vertices new g) (permute_vertices new gi) (reorder 0%nat old lv) model (Tuples (map (reorder 0%Z old) inputs))
    gamma_start gamma_end omega_start omega_end restrict false) = Ok result' ->
  canonical c -> canonical c' -> length c = vcount g -> same_partition (reorder 0%nat old c) c' ->
  estimate_of env g gi lv model c = Ok (Some (Fin gamma), omega_est) ->
  (In c result <-> In c' result').
Proof.
  intros env env' g h ws gi lv model inputs a b o p rs q old r r' c c' gamma oe Hok Hok' Hir Hir' Hf Hf' Hq Ht Hcon Hfs Hh Hw P Hv Hm H H' Cc Cc' L S He.
  assert (W : wf_graph g) by apply Hok. assert (Wi : wf_graph gi) by apply Hok. assert (Hl : forall t, In t inputs -> length t = vcount g) by apply Hok.
  assert (Hn : (0 < vcount g)%nat). { pose proof (p3_layers Hok) as Ll. pose proof (p3_layers_ne Hok) as Ne. destruct lv; [congruence|]. cbn in Ll. lia. }
  assert (Vi : vcount gi = vcount g).
  { pose proof Hh as Hh'. apply weighted_e_defaulted in Hh'. assert (Vh : vcount h = vcount g) by (rewrite Hh'; apply weighted_e_vcount).
    clear - Hv Vh. unfold valid_multilayer, structural_rules in Hv. rewrite !Forall_cons_iff in Hv. cbn [fst] in Hv. rewrite <- Vh. tauto. }
  destruct (prune_to_multilayer_stable_partitions env g gi lv model (Tuples inputs) a b o p rs false) as [[w g1] res] eqn:E. cbn [snd] in H. subst res.
  destruct (prune_to_multilayer_stable_partitions env' _ _ _ model _ a b o p rs false) as [[w' g1'] res'] eqn:E'. cbn [snd] in H'. subst res'.
  pose proof (reorder_carried Hq lv) as Hlv.
  assert (HM : forall d d' x y, length d = vcount g -> same_partition (reorder 0%nat old d) d' ->
     multilayer_modularity (permute_vertices q g) (permute_vertices q gi) (reorder 0%nat old lv) x y d' = multilayer_modularity g gi lv x y d).
  { intros d d' x y Ld Sd. pose proof (reorder_same_up _ _ _ Hq _ _ Ld Sd) as U. rewrite !multilayer_APC. rewrite (pv_A Hq W eq_refl U), (pv_A Hq Wi Vi U), (pv_P3 Hq W eq_refl Hlv U). reflexivity. }
  assert (Ht' : told_apart_3D (permute_vertices q g) (permute_vertices q gi) (reorder 0%nat old lv) (map (reorder 0%Z old) inputs) rs).
  { intros d' e' Hd' He' N. destruct (considered_back _ _ _ Hq inputs rs d' Hl Hd') as (d & Hd & Ld & Sd). destruct (considered_back _ _ _ Hq inputs rs e' Hl He') as (e & Hee & Le & Se).
    destruct (Ht d e Hd Hee) as (x & y & Ng).
    - intros ->. apply N. apply canonical_unique; [apply Hd'|apply He'|]. eapply same_partition_trans; [apply same_partition_sym; exact Sd|exact Se].
    - exists x, y. rewrite (HM d d'), (HM e e') by auto. auto. }
  assert (L' : length c' = vcount g) by (destruct S as [El _]; rewrite <- El; apply (reorder_length Hq)).
  assert (He' : estimate_of env' (permute_vertices q g) (permute_vertices q gi) (reorder 0%nat old lv) model c' = Ok (Some (Fin gamma), oe)).
  { rewrite <- He. unfold estimate_of. eapply pv_gamma_omega; eauto; [eapply reorder_same_up; eauto|eapply reorder_max; eauto]. }
  rewrite (C70_multilayer_prune_characterised _ _ _ _ _ _ _ _ _ _ _ _ _ _ c gamma oe Hok Hir Hf Ht E He), (C70_multilayer_prune_characterised _ _ _ _ _ _ _ _ _ _ _ _ _ _ c' gamma oe Hok' Hir' Hf' Ht' E' He').
  rewrite <- (reorder_considered _ _ _ Hq inputs rs c c' Hl Cc Cc' L S).
  split; intros (K1 & K2 & K3 & K4); (split; [auto|split; [auto|split; [auto|]]]); intros d Hd N.
  - destruct (considered_back _ _ _ Hq inputs rs d Hl Hd) as (e & Hee & Le & Se). rewrite (HM e d _ _ Le Se), (HM c c' _ _ L S). apply K4; auto.
    intros ->. apply N. apply canonical_unique; [apply Hd|auto|]. eapply same_partition_trans; [apply same_partition_sym; exact Se|exact S].
  - destruct (considered_forth _ _ _ Hq inputs rs d Hl Hd) as (e & Hee & Ce & Se). rewrite <- (HM d e _ _ (considered_length _ _ _ _ Hl Hd) Se), <- (HM c c' _ _ L S). apply K4; auto.
    intros ->. apply N. apply canonical_unique; [apply Hd|auto|]. apply (reorder_same_partition _ _ _ Hq 0%nat 0%nat d c (considered_length _ _ _ _ Hl Hd) L).
    eapply same_partition_trans; [exact Se|]. apply same_partition_sym; auto.
Qed.
Print Assumptions C89_multilayer_prune.

(** *** Examples: the barbell with its vertices renumbered cyclically by two. *)
Definition shift2 (v : nat) : nat := match v with 0 => 2 | 1 => 3 | 2 => 4 | 3 => 5 | 4 => 0 | 5 => 1 | _ => v end.
Definition shift2_old : list nat := [4; 5; 0; 1; 2; 3]%nat.
Lemma shift2_renumbering : renumbering 6 shift2 shift2_old.
Proof. split; [reflexivity|]. intros v Hv. do 6 (destruct v as [|v]; [cbn; lia|]). lia. Qed.

Example C89_example :
  edges (permute_vertices shift2 barbell) <> edges barbell /\ reorder 0%nat shift2_old barbell_c = [1; 1; 0; 0; 0; 1]%nat /\
  let inputs := [[5; 5; 5; -1; -1; -1]%Z] in
  exists env env' result result',
  prune_ok_2D env barbell inputs /\ prune_ok_2D env' (permute_vertices shift2 barbell) (map (reorder 0%Z shift2_old) inputs) /\
  irredundant_hsi 2 (env_hsi (ee_champ env)) /\ irredundant_hsi 2 (env_hsi (ee_champ env')) /\ told_apart barbell inputs None /\
  ee_contains env' (permute_vertices shift2 barbell) = ee_contains env barbell /\
  snd (prune_to_stable_partitions env barbell (Tuples inputs) 0 2 None false) = Ok result /\
  snd (prune_to_stable_partitions env' (permute_vertices shift2 barbell) (Tuples (map (reorder 0%Z shift2_old) inputs)) 0 2 None false) = Ok result' /\
  In barbell_c result /\ In [0; 0; 1; 1; 1; 0]%nat result'.
Proof.
  split; [discriminate|]. split; [reflexivity|]. cbv zeta.
  assert (S : sorted_tuple [5; 5; 5; -1; -1; -1]%Z = Ok barbell_c) by reflexivity. pose proof (fun d => considered_one _ barbell_c d S) as HC.
  assert (S' : sorted_tuple (reorder 0%Z shift2_old [5; 5; 5; -1; -1; -1]%Z) = Ok [0; 0; 1; 1; 1; 0]%nat) by reflexivity. pose proof (fun d => considered_one _ _ d S') as HC'.
  assert (W : wf_graph (permute_vertices shift2 barbell)) by (apply (@pv_wf 6 shift2 shift2_old shift2_renumbering barbell eq_refl barbell_wf)).
  assert (SP : same_partition (reorder 0%nat shift2_old barbell_c) [0; 0; 1; 1; 1; 0]%nat) by (apply same_partition_Z; apply (sorted_tuple_same_partition (map Z.of_nat (reorder 0%nat shift2_old barbell_c))); reflexivity).
  assert (C1 : canonical barbell_c) by (eapply sorted_tuple_canonical; exact S). assert (C2 : canonical [0; 0; 1; 1; 1; 0]%nat) by (eapply sorted_tuple_canonical; exact S').
  destruct (C70_C71_realisable barbell [[5; 5; 5; -1; -1; -1]%Z] 0 2 None false (fun _ => true) (fun _ x => x) (fun _ => true)) as (env & Hok & Hir & Hc & _ & _ & H);
    auto using barbell_wf; try discriminate; try lra; try (cbn; lia); [intros t [<-|[]]; reflexivity|].
  destruct (C70_C71_realisable (permute_vertices shift2 barbell) (map (reorder 0%Z shift2_old) [[5; 5; 5; -1; -1; -1]%Z]) 0 2 None false (fun _ => true) (fun _ x => x) (fun _ => true))
    as (env' & Hok' & Hir' & Hc' & _ & _ & H'); auto; try discriminate; try lra; try (cbn; lia); [intros t [<-|[]]; reflexivity|].
  destruct (barbell_estimate env) as (x & Hx & Hb); [rewrite Hc; reflexivity|].
  assert (Hcon : ee_contains env' (permute_vertices shift2 barbell) = ee_contains env barbell) by (rewrite Hc, Hc'; reflexivity).
  assert (Hw : weights_defaulted (ee_contains env barbell) barbell barbell) by (rewrite Hc; reflexivity).
  assert (Ht : told_apart barbell [[5; 5; 5; -1; -1; -1]%Z] None) by (intros c c' K K' N; apply HC in K; apply HC in K'; congruence).
  destruct H as (result & H). { intros c Hcc. apply HC in Hcc. subst. eauto. }
  destruct H' as (result' & H').
  { intros c Hcc. apply HC' in Hcc. subst. exists (Some (Fin x)). rewrite <- Hx.
    apply (@pv_gamma_estimate 6 shift2 shift2_old shift2_renumbering env env' barbell barbell_wf eq_refl Hcon [1; 1; 2; 1; 1; 1; 1]); try reflexivity.
    - unfold weighted_e. rewrite Hc. reflexivity.
    - eapply reorder_same_up; eauto using shift2_renumbering. }
  assert (Hin : In barbell_c result).
  { destruct (prune_to_stable_partitions env barbell (Tuples [[5; 5; 5; -1; -1; -1]%Z]) 0 2 None false) as [[w g'] r] eqn:E. cbn [snd] in H. subst r.
    apply (C41_prune_complete _ _ _ _ _ _ _ _ _ _ barbell_c x Hok E); auto; [apply HC; reflexivity|lra|]. intros d Hd N. apply HC in Hd. congruence. }
  exists env, env', result, result'. repeat (split; [assumption|]).
  apply (C89_prune env env' barbell barbell [1; 1; 2; 1; 1; 1; 1] [[5; 5; 5; -1; -1; -1]%Z] 0 2 None false false shift2 shift2_old result result' barbell_c [0; 0; 1; 1; 1; 0]%nat
    Hok Hok' Hir Hir' shift2_renumbering Ht Hcon Hw eq_refl H H' C1 C2 eq_refl SP). exact Hin.
Qed.

(** The two layers of C43's example with their vertices interleaved: vertex i of layer t becomes number 2 i + t. *)
Definition interleave (v : nat) : nat := match v with 0 => 0 | 1 => 2 | 2 => 4 | 3 => 1 | 4 => 3 | 5 => 5 | _ => v end.
Definition interleave_old : list nat := [0; 3; 1; 4; 2; 5]%nat.
Example C89_example_3D : renumbering (vcount two_paths) interleave interleave_old /\ vcount two_paths_i = vcount two_paths /\
  reorder 0%nat interleave_old two_paths_lv = [0; 1; 0; 1; 0; 1]%nat /\ edges (permute_vertices interleave two_paths) = [(0, 2); (2, 4); (1, 3); (3, 5)]%nat /\
  valid_multilayer two_paths two_paths_i [1; 1; 1; 1] two_paths_lv "temporal" /\
  valid_multilayer (permute_vertices interleave two_paths) (permute_vertices interleave two_paths_i) [1; 1; 1; 1] [0; 1; 0; 1; 0; 1]%nat "temporal".
Proof.
  assert (Hq : renumbering 6 interleave interleave_old) by (split; [reflexivity|]; intros v Hv; do 6 (destruct v as [|v]; [cbn; lia|]); lia).
  destruct two_paths_valid as (W1 & W2 & V). split; [exact Hq|]. split; [reflexivity|]. split; [reflexivity|]. split; [reflexivity|]. split; [exact V|].
  apply (@pv_valid 6 interleave interleave_old Hq two_paths two_paths_i W1 W2 eq_refl [1; 1; 1; 1] two_paths_lv); auto.
  - apply (reorder_carried Hq two_paths_lv).
  - apply (reorder_perm Hq 0%nat two_paths_lv eq_refl).
Qed.
