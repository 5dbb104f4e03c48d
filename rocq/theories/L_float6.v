(** CHAMP on rounded coefficients: coverage, and routines for which it returns. *)
From Verif Require Import PyBase PyGraph M_partition M_pool M_champ M_leiden M_estimation_utils M_float Spec Spec_graph Spec_champ Spec_polygon Spec_float Spec_tiling
  L_base L_sort L_canon L_modularity L_modularity3 L_parallel L_bounds L_halfspace L_champ L_champ2 L_champ3 L_minkowski L_facets L_champ_total L_float L_float2 L_float3 L_float4 L_float5 Properties_coefficients Properties_halfspaces.
From Coq Require Import Sorted Permutation Classical.
Set Implicit Arguments.
Open Scope R_scope.

Lemma exact_near dim eps hsi : 0 <= eps -> exact_hsi dim hsi -> near_hsi dim eps hsi.
Proof.
  intros He H hs pt out Hb Hl Hs Ho x is_ Hin. pose proof (H hs pt out Hb Hl Hs Ho) as Hex. destruct (ei_vertex _ _ _ Hex _ _ Hin) as (y & E & Ly & Hf & Ht).
  inversion E; subst y. split; [auto|]. split; [intros h Hh; specialize (Hf h Hh); lra|]. intros i h Hi Hn. destruct (Ht i Hi) as (h' & Hn' & Hz). assert (h' = h) by congruence. subst. lra.
Qed.

Lemma body_2D_cover env parts fA fP g0 gf ranges gamma : lp_answers_all_variables (env_lp env) -> exact_hsi 2 (env_hsi env) ->
  (forall c, In c parts -> 0 <= fP c) -> champ_body_2D env (map fA parts) (map fP parts) parts g0 gf = Ok ranges -> g0 <= gamma <= gf ->
  exists s e part, In (s, e, part) ranges /\ s <= gamma <= e.
Proof.
  intros Hlp Hhsi HP H Hg. unfold champ_body_2D in H. apply bind_ok in H as (hs & Hhs & H). apply bind_ok in H as (pt & Hpt & H). apply bind_ok in H as (out & Hout & H).
  apply bind_ok in H as (d & Hd & H). apply bind_ok in H as (rs & Hrs & H). inversion H; subst ranges. clear H.
  destruct (@interior_point_2D env _ _ _ _ hs pt Hlp Hhs Hpt) as [Hl Hs].
  pose proof (Hhsi _ _ _ (bounded_2D _ _ _ _ Hhs) Hl Hs Hout) as Hex.
  destruct (facets_ok (length parts) out (facets_some _ _ Hd)) as (d' & Hd' & F1 & F2 & F3). assert (d' = d) by congruence. subst d'.
  assert (P_nonneg : forall p, In p (map fP parts) -> 0 <= p) by (intros p Hp; apply in_map_iff in Hp as (c & <- & Hc); auto).
  destruct (@cover2 (map fA parts) (map fP parts) g0 gf hs pt out P_nonneg Hhs Hl Hs Hex gamma Hg) as (i & vs & Hi & Hli & Evs & v1 & v2 & Ev & Hb).
  rewrite combine_map_length in Hi. destruct (F3 i Hi Hli) as (vs' & Hin & Evs').
  assert (vs' = vs).
  { clear - Evs Evs'. rewrite <- Evs in Evs'. clear Evs. revert vs Evs'. induction vs' as [|a l IH]; intros [|b l'] E; try discriminate; auto.
    simpl in E. inversion E. f_equal; auto. }
  subst vs'. apply mapM_Ok_inv in Hrs.
  assert (exists r, In r rs /\ range_of_facet parts (i, vs) = Ok r) as ([[s e] part] & Hr & Hrf).
  { clear - Hrs Hin. induction Hrs as [|f r d rs Hf Hrs IH]; [destruct Hin|]. destruct Hin as [->|Hin]; [exists r; simpl; auto|].
    destruct (IH Hin) as (r' & ? & ?). exists r'; simpl; auto. }
  exists s, e, part. split; [apply (Permutation_in _ (Permutation_sym (sort_by_perm _ rs))); auto|].
  destruct (range_of_facet_inv _ _ _ Hrf) as (w1 & w2 & rest & x1 & x2 & Ew & Hx1 & Hx2 & _ & -> & ->).
  rewrite Ev in Ew. inversion Ew; subst w1 w2. rewrite (nth_error_nth _ _ 0 Hx1), (nth_error_nth _ _ 0 Hx2) in Hb. auto.
Qed.

Lemma body_2D_realisable parts fA fP g0 gf : (forall c, In c parts -> 0 < fP c) -> parts <> [] -> (Z.of_nat (length parts) <= 2 ^ 53)%Z -> g0 < gf ->
  exists env ranges, env_cpus env = 1%nat /\ env_order env = [0%nat] /\ lp_answers_all_variables (env_lp env) /\ exact_hsi 2 (env_hsi env) /\
    champ_body_2D env (map fA parts) (map fP parts) parts g0 gf = Ok ranges.
Proof.
  intros HP Hne Hn Hg. destruct (champ_halfspaces_2D_defined (map fA parts) (map fP parts) g0 gf) as [hs Hhs]. { destruct parts; [congruence|discriminate]. }
  destruct (interior_2D _ _ _ _ Hhs) as [_ H]. { intros p Hin. apply in_map_iff in Hin as (c & <- & Hc). apply Rlt_le, HP; auto. }
  destruct H as (x & Lx & Sx). { split; auto. intros a p Hin ->. apply in_combine_r in Hin. apply in_map_iff in Hin as (c & E & Hc). specialize (HP c Hc). lra. }
  pose proof (bounded_2D _ _ _ _ Hhs) as Hb. destruct (exact_intersection_full (or_introl eq_refl) Hb Lx Sx) as (out & Hex & _).
  exists (known_env hs x out).
  assert (Hi : interior_point (known_env hs x out) hs = Ok x).
  { destruct (champ2_inv _ _ _ _ Hhs) as (top & bottom & _ & _ & E). rewrite E. rewrite E in Sx. apply known_interior; auto.
    - rewrite Lx. destruct (combine (map fA parts) (map fP parts)); reflexivity.
    - destruct (combine (map fA parts) (map fP parts)); discriminate. }
  assert (EV : exists ranges, champ_body_2D (known_env hs x out) (map fA parts) (map fP parts) parts g0 gf = Ok ranges).
  { unfold champ_body_2D. rewrite Hhs. cbn [bind]. rewrite Hi. cbn [bind]. unfold known_env. cbn [env_hsi]. destruct (list_eq_dec halfspace_eq_dec hs hs); [|congruence]. cbn [bind].
    destruct (facets_ok (length parts) out) as (d & Hd' & F1 & F2 & F3).
    { intros v is_ Hin. destruct (ei_vertex _ _ _ Hex _ _ Hin) as (y & -> & _). discriminate. }
    rewrite Hd'. cbn [bind].
    destruct (mapM_total (range_of_facet parts) d) as (rs & Hrs); [|rewrite Hrs; cbn [bind]; eauto].
    intros [i vs] Hin. destruct (F2 i vs Hin) as (Hi' & Hvs & Evs).
    assert (Hlen : length vs = 2%nat).
    { assert (listed out i <> []) by (rewrite <- Evs; destruct vs; simpl; congruence).
      pose proof (ei_segment _ _ _ Hex eq_refl i H) as L. rewrite <- Evs, map_length in L. auto. }
    assert (Hv : forall v, In v vs -> length v = 2%nat).
    { intros v Hv. assert (In (Some v) (listed out i)) by (rewrite <- Evs; apply in_map; auto).
      apply in_listed in H as (is_ & H & _). destruct (ei_vertex _ _ _ Hex _ _ H) as (y & E & L & _). inversion E; subst; auto. }
    destruct vs as [|v1 [|v2 [|? ?]]]; try discriminate.
    destruct (list2 _ (Hv v1 (or_introl eq_refl))) as (a & b & ->).
    destruct (list2 _ (Hv v2 (or_intror (or_introl eq_refl)))) as (a' & b' & ->).
    destruct (L_champ_total.py_get_ok parts Hi') as (part & Ep). unfold range_of_facet. cbn [fst snd py_get nth_error bind]. rewrite Ep. cbn [bind]. eauto. }
  destruct EV as (ranges & EV). exists ranges. split; [reflexivity|]. split; [reflexivity|]. split; [|split; [|auto]].
  - intros k c A b y H. cbn in H. destruct (Nat.eqb_spec (length c) (S (length x))) as [E|]; [|discriminate]. inversion H; subst. rewrite app_length. simpl. lia.
  - intros hs' pt' out' _ _ _. unfold known_env. cbn [env_hsi]. destruct (list_eq_dec halfspace_eq_dec hs' hs) as [->|]; [|discriminate]. intros E. inversion E; subst. auto.
Qed.

Lemma body_3D_realisable parts fA fP fC g0 gf o0 of : (forall c, In c parts -> 0 < fP c) -> (forall c, In c parts -> 0 <= fC c) -> parts <> [] -> (Z.of_nat (length parts) <= 2 ^ 53)%Z -> g0 < gf -> o0 < of ->
  exists env domains, env_cpus env = 1%nat /\ env_order env = [0%nat] /\ lp_answers_all_variables (env_lp env) /\ exact_hsi 3 (env_hsi env) /\
    champ_body_3D env (map fA parts) (map fP parts) (map fC parts) parts g0 gf o0 of = Ok domains.
Proof.
  intros HP HC Hne Hn Hg Ho. destruct (champ_halfspaces_3D_defined (map fA parts) (map fP parts) (map fC parts) g0 gf o0 of) as [hs Hhs]. { destruct parts; [congruence|discriminate]. }
  destruct (interior_3D _ _ _ _ _ _ _ Hhs) as [_ H].
  { intros p Hin. apply in_map_iff in Hin as (c & <- & Hc). apply Rlt_le, HP; auto. } { intros p Hin. apply in_map_iff in Hin as (c & <- & Hc). auto. }
  destruct H as (x & Lx & Sx). { split; auto. split; auto. intros a p c Hin -> _. apply in_combine_l in Hin. apply in_combine_r in Hin. apply in_map_iff in Hin as (c' & E & Hc). specialize (HP c' Hc). lra. }
  pose proof (bounded_3D _ _ _ _ _ _ _ Hhs) as Hb. destruct (exact_intersection_full (or_intror eq_refl) Hb Lx Sx) as (out & Hex & _).
  exists (known_env hs x out).
  assert (Hi : interior_point (known_env hs x out) hs = Ok x).
  { destruct (champ3_inv _ _ _ _ _ _ _ Hhs) as (top & bottom & _ & _ & E). rewrite E. rewrite E in Sx. apply known_interior; auto.
    - rewrite Lx. destruct (combine (combine (map fA parts) (map fP parts)) (map fC parts)); reflexivity.
    - destruct (combine (combine (map fA parts) (map fP parts)) (map fC parts)); discriminate. }
  assert (EV : exists domains, champ_body_3D (known_env hs x out) (map fA parts) (map fP parts) (map fC parts) parts g0 gf o0 of = Ok domains).
  { unfold champ_body_3D. rewrite Hhs. cbn [bind]. rewrite Hi. cbn [bind]. unfold known_env. cbn [env_hsi]. destruct (list_eq_dec halfspace_eq_dec hs hs); [|congruence]. cbn [bind].
    destruct (facets_ok (length parts) out) as (d & Hd' & F1 & F2 & F3).
    { intros v is_ Hv. destruct (ei_vertex _ _ _ Hex _ _ Hv) as (y & -> & _). discriminate. }
    rewrite Hd'. cbn [bind].
    apply mapM_total. intros [i vs] Hiv. destruct (F2 i vs Hiv) as (Hi' & Hvs & Evs).
    assert (Hv : forall v, In v vs -> length v = 3%nat).
    { intros v Hv. assert (In (Some v) (listed out i)) by (rewrite <- Evs; apply in_map; auto).
      apply in_listed in H as (is_ & H & _). destruct (ei_vertex _ _ _ Hex _ _ H) as (y & E & L & _). inversion E; subst; auto. }
    unfold domain_of_facet. cbn [fst snd].
    destruct (mapM_total project vs) as (ps & Hps).
    { intros v Hv'. destruct (list3 _ (Hv v Hv')) as (a & b & c & ->). unfold project. cbn [py_get nth_error bind]. eauto. }
    rewrite Hps. cbn [bind]. destruct (L_champ_total.py_get_ok parts Hi') as (part & Ep). rewrite Ep. cbn [bind]. eauto. }
  destruct EV as (domains & EV). exists domains. split; [reflexivity|]. split; [reflexivity|]. split; [|split; [|auto]].
  - intros k c A b y H. cbn in H. destruct (Nat.eqb_spec (length c) (S (length x))) as [E|]; [|discriminate]. inversion H; subst. rewrite app_length. simpl. lia.
  - intros hs' pt' out' _ _ _. unfold known_env. cbn [env_hsi]. destruct (list_eq_dec halfspace_eq_dec hs' hs) as [->|]; [|discriminate]. intros E. inversion E; subst. auto.
Qed.

Lemma body_3D_cover env parts fA fP fC g0 gf o0 of domains gamma omega : lp_answers_all_variables (env_lp env) -> exact_hsi 3 (env_hsi env) ->
  (forall c, In c parts -> 0 <= fP c) -> (forall c, In c parts -> 0 <= fC c) -> champ_body_3D env (map fA parts) (map fP parts) (map fC parts) parts g0 gf o0 of = Ok domains ->
  g0 <= gamma <= gf -> o0 <= omega <= of -> exists poly part, In (poly, part) domains /\ in_polygon poly (gamma, omega).
Proof.
  intros Hlp Hhsi HP HC H Hg Ho. unfold champ_body_3D in H. apply bind_ok in H as (hs & Hhs & H). apply bind_ok in H as (pt & Hpt & H). apply bind_ok in H as (out & Hout & H).
  apply bind_ok in H as (d & Hd & Hrs).
  destruct (@interior_point_3D env _ _ _ _ _ _ _ hs pt Hlp Hhs Hpt) as [Hl Hs].
  pose proof (Hhsi _ _ _ (bounded_3D _ _ _ _ _ _ _ Hhs) Hl Hs Hout) as Hex.
  destruct (facets_ok (length parts) out (facets_some _ _ Hd)) as (d' & Hd' & F1 & F2 & F3). assert (d' = d) by congruence. subst d'.
  assert (P_nonneg : forall p, In p (map fP parts) -> 0 <= p) by (intros p Hp; apply in_map_iff in Hp as (c & <- & Hc); auto).
  assert (C_nonneg : forall p, In p (map fC parts) -> 0 <= p) by (intros p Hp; apply in_map_iff in Hp as (c & <- & Hc); auto).
  destruct (@cover3 (map fA parts) (map fP parts) (map fC parts) g0 gf o0 of hs pt out P_nonneg C_nonneg Hhs Hl Hs Hex gamma omega Hg Ho) as (i & vs & r & Hr & Hli & Evs & Hhull).
  assert (Hi : (i < length parts)%nat).
  { assert (Hn : nth_error (combine (combine (map fA parts) (map fP parts)) (map fC parts)) i <> None) by (rewrite Hr; discriminate).
    apply nth_error_Some in Hn. rewrite combine3_length in Hn. auto. }
  destruct (F3 i Hi Hli) as (vs' & Hin & Evs').
  assert (vs' = vs).
  { clear - Evs Evs'. rewrite <- Evs in Evs'. clear Evs. revert vs Evs'. induction vs' as [|a l IH]; intros [|b l'] E; try discriminate; auto.
    simpl in E. inversion E. f_equal; auto. }
  subst vs'. apply mapM_Ok_inv in Hrs.
  assert (exists r, In r domains /\ domain_of_facet parts (i, vs) = Ok r) as ([poly part] & Hr' & Hrf).
  { clear - Hrs Hin. induction Hrs as [|f r d rs Hf Hrs IH]; [destruct Hin|]. destruct Hin as [->|Hin]; [exists r; simpl; auto|].
    destruct (IH Hin) as (r' & ? & ?). exists r'; simpl; auto. }
  exists poly, part. split; auto.
  destruct (@domain_of_facet_inv parts i vs poly part Hrf) as (ps & Hps & Hpart & Hpoly & Hperm).
  apply (in_polygon_perm (Permutation_sym Hperm)). eapply hull_project; eauto.
  apply project_forall; auto. intros x Hx.
  destruct (@vertex3 (map fA parts) (map fP parts) (map fC parts) g0 gf o0 of hs pt out Hhs Hl Hex i vs) as (ap & Hap & Hv); auto.
  { rewrite combine3_length. auto. }
  destruct (Hv x Hx) as (u & w & y & -> & _). eauto.
Qed.
