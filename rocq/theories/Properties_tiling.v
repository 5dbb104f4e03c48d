(** Property theorems: what CHAMP_2D and CHAMP_3D return is determined by the input alone (C66-C70). *)
From Verif Require Import PyBase PyGraph M_partition M_pool M_champ M_estimation_utils Spec Spec_graph Spec_champ Spec_polygon Spec_stability Spec_prune Spec_tiling
  L_base L_sort L_modularity L_modularity3 L_objective L_parallel L_bounds L_halfspace L_champ L_champ2 L_champ3 L_minkowski L_champ_total L_angular L_convex L_stability L_complete L_prune
  L_tiling L_tiling3 Properties_coefficients Properties_halfspaces Properties_champ Properties_sbm Properties_prune Properties_multiprune.
From Coq Require Import Sorted Classical.
Open Scope R_scope.

(** ** C66: within the requested interval a returned range is the set of all gamma at which its partition is optimal, ... *)
Theorem C66_range_is_where_optimal :
  forall env g parts gamma_0 gamma_f single_threaded ranges s e part,
    champ_ok_2D env g parts -> CHAMP_2D env g parts gamma_0 gamma_f single_threaded = Ok ranges -> In (s, e, part) ranges ->
    forall gamma, gamma_0 <= gamma <= gamma_f ->
    (s <= gamma <= e <-> forall c, In c parts -> modularity g gamma c <= modularity g gamma part).
Proof.
  intros env g parts g0 gf st ranges s e part Hok H Hin gamma Hg. split.
  - intros Hse c Hc. apply (C21_ranges_are_optimal _ _ _ _ _ _ _ Hok H s e part Hin); auto.
  - intros Ho. apply (@range_exact env g parts g0 gf st Hok ranges s e part gamma H Hin Hg Ho).
Qed.
Print Assumptions C66_range_is_where_optimal.

(** ... it is a proper interval when the intersection routine reports each corner of a facet once, ... *)
Theorem C66_range_is_proper :
  forall env g parts gamma_0 gamma_f single_threaded ranges s e part,
    champ_ok_2D env g parts -> irredundant_hsi 2 (env_hsi env) ->
    CHAMP_2D env g parts gamma_0 gamma_f single_threaded = Ok ranges -> In (s, e, part) ranges -> s < e.
Proof. intros env g parts g0 gf st ranges s e part Hok Hir H Hin. apply (@range_proper env g parts g0 gf st Hok Hir ranges s e part H Hin). Qed.
Print Assumptions C66_range_is_proper.

(** ... and then the partitions returned are, up to ties at every gamma, those that are optimal at two different gammas. *)
Theorem C66_returned_iff_optimal_twice :
  forall env g parts gamma_0 gamma_f single_threaded ranges c,
    champ_ok_2D env g parts -> irredundant_hsi 2 (env_hsi env) -> distinguishable g parts ->
    CHAMP_2D env g parts gamma_0 gamma_f single_threaded = Ok ranges -> In c parts ->
    ((exists s e, In (s, e, c) ranges) <->
     exists gamma gamma', gamma_0 <= gamma < gamma' /\ gamma' <= gamma_f /\
       (forall d, In d parts -> modularity g gamma d <= modularity g gamma c) /\
       (forall d, In d parts -> modularity g gamma' d <= modularity g gamma' c)).
Proof.
  intros env g parts g0 gf st ranges c Hok Hir (ND & Hd) H Hc. split.
  - intros (s & e & Hin). exists s, e. pose proof (C66_range_is_proper _ _ _ _ _ _ _ _ _ _ Hok Hir H Hin).
    destruct (@range_facts _ _ _ _ _ _ Hok _ s e c H Hin) as (_ & B1 & _ & B2 & D). split; [lra|]. split; auto. split; intros d Hd'; apply D; auto; lra.
  - intros (a & b & Hab & Hb & Oa & Ob). assert (Hne : parts <> []) by (intros ->; destruct Hc).
    assert (On : forall t, 0 < t < 1 -> forall d, In d parts -> modularity g (a + t * (b - a)) d <= modularity g (a + t * (b - a)) c).
    { intros t Ht d Hd'. specialize (Oa d Hd'). specialize (Ob d Hd'). rewrite !modularity_AP in *. nra. }
    destruct (@pigeon _ ranges (fun r t => 0 < t < 1 /\ fst (fst r) <= a + t * (b - a) <= snd (fst r))) as ([[s e] p] & Hin & HL).
    { intros t Ht. destruct (@cover_facts _ _ _ _ _ _ Hok _ (a + t * (b - a)) Hne H) as (s & e & p & Hi & Hbb); [nra|]. exists (s, e, p). auto. }
    cbn [fst snd] in HL. destruct (HL 1) as (t1 & T1 & _ & _ & Q1); [lra|]. destruct (HL t1) as (t2 & T2 & _ & _ & Q2); [lra|].
    destruct (@range_facts _ _ _ _ _ _ Hok _ s e p H Hin) as (Hp & _ & _ & _ & D).
    destruct (classic (p = c)) as [->|N]; [eauto|]. exfalso. destruct (Hd p c Hp Hc N) as (z & Nz). apply Nz.
    apply (@same_line g p c (a + t1 * (b - a)) (a + t2 * (b - a))); [nra| |]; apply Rle_antisym; (apply On + apply D); auto; lra.
Qed.
Print Assumptions C66_returned_iff_optimal_twice.

(** ** C67: partitions that modularity tells apart get ranges that tile the interval, in order, without gaps or overlaps, ... *)
Theorem C67_ranges_tile :
  forall env g parts gamma_0 gamma_f single_threaded ranges,
    champ_ok_2D env g parts -> irredundant_hsi 2 (env_hsi env) -> parts <> [] -> distinguishable g parts ->
    CHAMP_2D env g parts gamma_0 gamma_f single_threaded = Ok ranges -> tiles gamma_0 gamma_f ranges.
Proof. intros env g parts g0 gf st ranges Hok Hir Hne Hd H. apply (@ranges_tile env g parts g0 gf st Hok Hir Hne ranges Hd H). Qed.
Print Assumptions C67_ranges_tile.

(** ... in general two ranges of partitions with different modularity share one point at most, ... *)
Theorem C67_ranges_do_not_overlap :
  forall env g parts gamma_0 gamma_f single_threaded ranges s e part s' e' part',
    champ_ok_2D env g parts -> irredundant_hsi 2 (env_hsi env) -> CHAMP_2D env g parts gamma_0 gamma_f single_threaded = Ok ranges ->
    In (s, e, part) ranges -> In (s', e', part') ranges -> (exists gamma, modularity g gamma part <> modularity g gamma part') ->
    e <= s' \/ e' <= s.
Proof. intros env g parts g0 gf st ranges s e p s' e' p' Hok Hir H H1 H2 N. apply (@ranges_apart env g parts g0 gf st Hok Hir ranges s e p s' e' p' H H1 H2 N). Qed.
Print Assumptions C67_ranges_do_not_overlap.

(** ... and the partition of the lower range is strictly better at every smaller gamma, that of the higher range at every
    larger one. *)
Theorem C67_order_of_partitions :
  forall env g parts gamma_0 gamma_f single_threaded ranges s e part s' e' part',
    champ_ok_2D env g parts -> irredundant_hsi 2 (env_hsi env) -> CHAMP_2D env g parts gamma_0 gamma_f single_threaded = Ok ranges ->
    In (s, e, part) ranges -> In (s', e', part') ranges -> (exists gamma, modularity g gamma part <> modularity g gamma part') -> e <= s' ->
    (forall gamma, gamma < e -> modularity g gamma part' < modularity g gamma part) /\
    (forall gamma, s' < gamma -> modularity g gamma part < modularity g gamma part').
Proof.
  intros env g parts g0 gf st ranges s e p s' e' p' Hok Hir H H1 H2 N L.
  destruct (@range_facts _ _ _ _ _ _ Hok _ s e p H H1) as (Hp & _ & _ & _ & D). destruct (@range_facts _ _ _ _ _ _ Hok _ s' e' p' H H2) as (Hp' & _ & _ & _ & D').
  apply (@crossing g p p' s e s' e'); auto; eapply C66_range_is_proper; eauto.
Qed.
Print Assumptions C67_order_of_partitions.

(** ** C68: the external routines, the process pool and the order of the input do not change the answer: two runs return the
    same ranges, with partitions that tie at every gamma, ... *)
Theorem C68_same_ranges :
  forall env env' g parts parts' gamma_0 gamma_f single_threaded single_threaded' ranges ranges' s e part,
    champ_ok_2D env g parts -> champ_ok_2D env' g parts' -> irredundant_hsi 2 (env_hsi env) -> irredundant_hsi 2 (env_hsi env') ->
    (forall c, In c parts <-> In c parts') ->
    CHAMP_2D env g parts gamma_0 gamma_f single_threaded = Ok ranges -> CHAMP_2D env' g parts' gamma_0 gamma_f single_threaded' = Ok ranges' ->
    In (s, e, part) ranges -> exists part', In (s, e, part') ranges' /\ forall gamma, modularity g gamma part = modularity g gamma part'.
Proof. intros env env' g parts parts' g0 gf st st' r r' s e p H1 H2 H3 H4 H5 H6 H7. apply (@runs_agree env env' g parts parts' g0 gf st st' H1 H2 H3 H4 H5 r r' s e p H6 H7). Qed.
Print Assumptions C68_same_ranges.

(** ... and the same list when modularity tells the partitions apart; ... *)
Theorem C68_same_list :
  forall env env' g parts parts' gamma_0 gamma_f single_threaded single_threaded' ranges ranges',
    champ_ok_2D env g parts -> champ_ok_2D env' g parts' -> irredundant_hsi 2 (env_hsi env) -> irredundant_hsi 2 (env_hsi env') ->
    Permutation parts parts' -> distinguishable g parts ->
    CHAMP_2D env g parts gamma_0 gamma_f single_threaded = Ok ranges -> CHAMP_2D env' g parts' gamma_0 gamma_f single_threaded' = Ok ranges' ->
    ranges = ranges'.
Proof.
  intros env env' g parts parts' g0 gf st st' r r' H1 H2 H3 H4 Hp Hd H6 H7.
  apply (@runs_equal env env' g parts parts' g0 gf st st' H1 H2 H3 H4); auto.
  - intros c. split; apply Permutation_in; auto using Permutation_sym.
  - eapply Permutation_NoDup; [exact Hp|apply Hd].
Qed.
Print Assumptions C68_same_list.

(** ... likewise in the multilayer case, vertex by vertex. *)
Theorem C68_same_domains :
  forall env env' g_intra g_inter layers parts parts' gamma_0 gamma_f omega_0 omega_f domains domains' poly part,
    champ_ok_3D env g_intra g_inter layers parts -> champ_ok_3D env' g_intra g_inter layers parts' ->
    irredundant_hsi 3 (env_hsi env) -> irredundant_hsi 3 (env_hsi env') -> full_facets_hsi 3 (env_hsi env) ->
    (forall c, In c parts <-> In c parts') ->
    CHAMP_3D env g_intra g_inter layers parts gamma_0 gamma_f omega_0 omega_f = Ok domains ->
    CHAMP_3D env' g_intra g_inter layers parts' gamma_0 gamma_f omega_0 omega_f = Ok domains' ->
    In (poly, part) domains -> exists part', In (poly, part') domains' /\
      forall gamma omega, multilayer_modularity g_intra g_inter layers gamma omega part = multilayer_modularity g_intra g_inter layers gamma omega part'.
Proof.
  intros env env' g gi lv parts parts' g0 gf o0 of d d' poly p H1 H2 H3 H4 H5 H6 H7 H8.
  apply (@runs_agree_3D env env' g gi lv parts parts' g0 gf o0 of H1 H2 H3 H4 H5 H6 d d' poly p H7 H8).
Qed.
Print Assumptions C68_same_domains.

Theorem C68_same_domain_list :
  forall env env' g_intra g_inter layers parts parts' gamma_0 gamma_f omega_0 omega_f domains domains',
    champ_ok_3D env g_intra g_inter layers parts -> champ_ok_3D env' g_intra g_inter layers parts' ->
    irredundant_hsi 3 (env_hsi env) -> irredundant_hsi 3 (env_hsi env') -> full_facets_hsi 3 (env_hsi env) -> full_facets_hsi 3 (env_hsi env') ->
    distinguishable_3D g_intra g_inter layers parts -> Permutation parts parts' ->
    CHAMP_3D env g_intra g_inter layers parts gamma_0 gamma_f omega_0 omega_f = Ok domains ->
    CHAMP_3D env' g_intra g_inter layers parts' gamma_0 gamma_f omega_0 omega_f = Ok domains' ->
    Permutation domains domains'.
Proof. exact runs_equal_3D. Qed.
Print Assumptions C68_same_domain_list.

(** ** C69: a domain is the set of all (gamma, omega) of the rectangle at which its partition is optimal, ... *)
Theorem C69_domain_is_where_optimal :
  forall env g_intra g_inter layers parts gamma_0 gamma_f omega_0 omega_f domains poly part gamma omega,
    champ_ok_3D env g_intra g_inter layers parts ->
    CHAMP_3D env g_intra g_inter layers parts gamma_0 gamma_f omega_0 omega_f = Ok domains -> In (poly, part) domains ->
    (in_polygon poly (gamma, omega) <-> gamma_0 <= gamma <= gamma_f /\ omega_0 <= omega <= omega_f /\
     forall c, In c parts ->
       multilayer_modularity g_intra g_inter layers gamma omega c <= multilayer_modularity g_intra g_inter layers gamma omega part).
Proof. intros env g gi lv parts g0 gf o0 of d poly p gamma omega Hok H Hin. apply (@domain_iff env g gi lv parts g0 gf o0 of Hok d poly p gamma omega H Hin). Qed.
Print Assumptions C69_domain_is_where_optimal.

(** ... it is a convex polygon with inner points when only full facets are reported, by their corners, ... *)
Theorem C69_domain_is_convex_polygon :
  forall env g_intra g_inter layers parts gamma_0 gamma_f omega_0 omega_f domains poly part,
    champ_ok_3D env g_intra g_inter layers parts -> irredundant_hsi 3 (env_hsi env) -> full_facets_hsi 3 (env_hsi env) ->
    CHAMP_3D env g_intra g_inter layers parts gamma_0 gamma_f omega_0 omega_f = Ok domains -> In (poly, part) domains ->
    convex_polygon poly /\ exists x, interior poly x.
Proof.
  intros env g gi lv parts g0 gf o0 of d poly p Hok Hir Hf H Hin. split.
  - split; [apply (@domain_three env g gi lv parts g0 gf o0 of Hok Hf d poly p H Hin)|].
    pose proof (C26_corners_only _ _ _ _ _ _ _ _ _ _ _ _ Hok Hir H Hin) as (K1 & _ & K2). split; auto.
  - apply (@domain_has_inside env g gi lv parts g0 gf o0 of Hok Hir Hf d poly p H Hin).
Qed.
Print Assumptions C69_domain_is_convex_polygon.

(** ... and at its inner points every input that is not tied with it everywhere is strictly worse: domains of partitions that
    modularity tells apart overlap on their boundaries only. *)
Theorem C69_strictly_best_inside :
  forall env g_intra g_inter layers parts gamma_0 gamma_f omega_0 omega_f domains poly part gamma omega c,
    champ_ok_3D env g_intra g_inter layers parts ->
    CHAMP_3D env g_intra g_inter layers parts gamma_0 gamma_f omega_0 omega_f = Ok domains -> In (poly, part) domains ->
    interior poly (gamma, omega) -> In c parts ->
    multilayer_modularity g_intra g_inter layers gamma omega c < multilayer_modularity g_intra g_inter layers gamma omega part \/
    forall gamma' omega', multilayer_modularity g_intra g_inter layers gamma' omega' c = multilayer_modularity g_intra g_inter layers gamma' omega' part.
Proof.
  intros env g gi lv parts g0 gf o0 of d poly p gamma omega c Hok H Hin Hi Hc.
  destruct (C24_domains_are_optimal _ _ _ _ _ _ _ _ _ _ Hok H poly p Hin) as (_ & _ & _ & Hopt).
  destruct (Rlt_le_dec (multilayer_modularity g gi lv gamma omega c) (multilayer_modularity g gi lv gamma omega p)) as [L|L]; [left; auto|right].
  apply (@inside_ties g gi lv poly p c (gamma, omega) Hi); auto.
Qed.
Print Assumptions C69_strictly_best_inside.

Theorem C69_domains_do_not_overlap :
  forall env g_intra g_inter layers parts gamma_0 gamma_f omega_0 omega_f domains poly part poly' part' x,
    champ_ok_3D env g_intra g_inter layers parts ->
    CHAMP_3D env g_intra g_inter layers parts gamma_0 gamma_f omega_0 omega_f = Ok domains ->
    In (poly, part) domains -> In (poly', part') domains ->
    (exists gamma omega, multilayer_modularity g_intra g_inter layers gamma omega part <> multilayer_modularity g_intra g_inter layers gamma omega part') ->
    interior poly x -> ~ in_polygon poly' x.
Proof.
  intros env g gi lv parts g0 gf o0 of d poly p poly' p' [a b] Hok H Hin Hin' (z & w & N) Hi Hx.
  destruct (C24_domains_are_optimal _ _ _ _ _ _ _ _ _ _ Hok H poly' p' Hin') as (Hp' & _ & _ & Hopt').
  destruct (C24_domains_are_optimal _ _ _ _ _ _ _ _ _ _ Hok H poly p Hin) as (Hp & _).
  destruct (C69_strictly_best_inside _ _ _ _ _ _ _ _ _ _ _ _ _ _ _ Hok H Hin Hi Hp') as [L|E].
  - specialize (Hopt' a b p Hx Hp). lra.
  - apply N. symmetry. apply E.
Qed.
Print Assumptions C69_domains_do_not_overlap.


(** *** Non-vacuity: for every undirected input there are external routines that meet the whole contract, corners and full facets
    included, and with which the functions return, ... *)
Theorem C66_C67_C68_realisable :
  forall g parts gamma_0 gamma_f single_threaded,
    wf_graph g -> directed g = false -> edges g <> [] ->
    (forall c, In c parts -> length c = vcount g) -> (Z.of_nat (length parts) <= 2 ^ 53)%Z -> parts <> [] -> gamma_0 < gamma_f ->
    exists env ranges, champ_ok_2D env g parts /\ irredundant_hsi 2 (env_hsi env) /\ CHAMP_2D env g parts gamma_0 gamma_f single_threaded = Ok ranges.
Proof. exact champ_2D_realisable_full. Qed.
Print Assumptions C66_C67_C68_realisable.

Theorem C68_C69_realisable :
  forall g_intra g_inter layers parts gamma_0 gamma_f omega_0 omega_f,
    wf_graph g_intra -> wf_graph g_inter -> directed g_intra = false -> edges g_intra <> [] ->
    length layers = vcount g_intra -> layers <> [] -> (vcount g_inter <= vcount g_intra)%nat -> edges_within_layers g_intra layers ->
    (forall l, In l layers -> exists u v, In (u, v) (edges g_intra) /\ nth u layers 0%nat = l) ->
    (forall c, In c parts -> length c = vcount g_intra) -> (Z.of_nat (length parts) <= 2 ^ 53)%Z -> parts <> [] ->
    gamma_0 < gamma_f -> omega_0 < omega_f ->
    exists env domains, champ_ok_3D env g_intra g_inter layers parts /\ irredundant_hsi 3 (env_hsi env) /\ full_facets_hsi 3 (env_hsi env) /\
      CHAMP_3D env g_intra g_inter layers parts gamma_0 gamma_f omega_0 omega_f = Ok domains.
Proof. exact champ_3D_realisable_full. Qed.
Print Assumptions C68_C69_realisable.

(** ... for instance the barbell of two triangles with the one-community and the two-community partition, which modularity tells
    apart: the two ranges tile [0, 2] ... *)
Definition whole : list nat := [0; 0; 0; 0; 0; 0]%nat.
Lemma barbell_degrees : forall i, k_out barbell i = match i with 2%nat | 3%nat => 3 | 0%nat | 1%nat | 4%nat | 5%nat => 2 | _ => 0 end.
Proof.
  intros i. unfold k_out, adjacency, arcs, sum_to. cbn [directed barbell vcount seq map edges].
  do 6 (destruct i as [|i]; [cbn; rewrite ?rsum_cons, ?rsum_nil; lra|]). cbn. rewrite ?rsum_cons, ?rsum_nil. lra.
Qed.
Lemma barbell_whole gamma : modularity barbell gamma whole = 14 - 14 * gamma.
Proof.
  rewrite modularity_AP, A_of_edges by apply barbell_wf. unfold P_of, sum_to. cbn [directed barbell vcount seq map edges fst snd]. rewrite !barbell_degrees.
  unfold m_edges, delta. cbn. rewrite ?rsum_cons, ?rsum_nil. lra.
Qed.
Lemma barbell_split gamma : modularity barbell gamma barbell_c = 12 - 7 * gamma.
Proof.
  rewrite modularity_AP, A_of_edges by apply barbell_wf. unfold P_of, sum_to. cbn [directed barbell vcount seq map edges fst snd]. rewrite !barbell_degrees.
  unfold m_edges, delta. cbn. rewrite ?rsum_cons, ?rsum_nil. lra.
Qed.
Lemma barbell_distinguishable : distinguishable barbell [whole; barbell_c].
Proof.
  split; [repeat constructor; cbn; unfold whole, barbell_c; intuition discriminate|].
  assert (N : modularity barbell 1 whole <> modularity barbell 1 barbell_c) by (rewrite barbell_whole, barbell_split; lra).
  intros c c' [<-|[<-|[]]] [<-|[<-|[]]] D; try congruence; exists 1; auto.
Qed.
Example C66_C67_example : exists env ranges, champ_ok_2D env barbell [whole; barbell_c] /\ irredundant_hsi 2 (env_hsi env) /\
  distinguishable barbell [whole; barbell_c] /\ CHAMP_2D env barbell [whole; barbell_c] 0 2 false = Ok ranges /\ tiles 0 2 ranges /\
  ranges = [(0, 2 / 7, whole); (2 / 7, 2, barbell_c)].
Proof.
  destruct (C66_C67_C68_realisable barbell [whole; barbell_c] 0 2 false) as (env & ranges & H1 & H2 & H3);
    auto using barbell_wf; try discriminate; try lra; try (cbn; lia); [intros c [<-|[<-|[]]]; reflexivity|].
  pose proof barbell_distinguishable as Hd. exists env, ranges. split; auto. split; auto. split; auto. split; auto.
  pose proof (C67_ranges_tile _ _ _ _ _ _ _ H1 H2 ltac:(discriminate) Hd H3) as T. split; auto.
  pose proof (fun s e p H g => C66_range_is_where_optimal _ _ _ _ _ _ _ s e p H1 H3 H g) as O.
  pose proof (fun s e p H => proj1 (C21_ranges_are_optimal _ _ _ _ _ _ _ H1 H3 s e p H)) as P.
  pose proof (proj1 (C23_ranges_well_formed _ _ _ _ _ _ _ H1 H3)) as F.
  assert (Wo : forall x, x <= 2 / 7 <-> forall c, In c [whole; barbell_c] -> modularity barbell x c <= modularity barbell x whole).
  { intros x. split; [intros Hx c [<-|[<-|[]]]; rewrite ?barbell_whole, ?barbell_split; lra|]. intros Q. specialize (Q barbell_c (or_intror (or_introl eq_refl))). rewrite barbell_whole, barbell_split in Q. lra. }
  assert (Bo : forall x, 2 / 7 <= x <-> forall c, In c [whole; barbell_c] -> modularity barbell x c <= modularity barbell x barbell_c).
  { intros x. split; [intros Hx c [<-|[<-|[]]]; rewrite ?barbell_whole, ?barbell_split; lra|]. intros Q. specialize (Q whole (or_introl eq_refl)). rewrite barbell_whole, barbell_split in Q. lra. }
  assert (W : forall s e, In (s, e, whole) ranges -> s = 0 /\ e = 2 / 7).
  { intros s e H. pose proof (F s e whole H). pose proof (proj1 (O s e whole H e ltac:(lra)) ltac:(lra)) as Qe. apply Wo in Qe.
    pose proof (proj2 (O s e whole H 0 ltac:(lra)) (proj1 (Wo 0) ltac:(lra))). pose proof (proj2 (O s e whole H (2 / 7) ltac:(lra)) (proj1 (Wo (2 / 7)) ltac:(lra))). lra. }
  assert (B : forall s e, In (s, e, barbell_c) ranges -> s = 2 / 7 /\ e = 2).
  { intros s e H. pose proof (F s e barbell_c H). pose proof (proj1 (O s e barbell_c H s ltac:(lra)) ltac:(lra)) as Qe. apply Bo in Qe.
    pose proof (proj2 (O s e barbell_c H 2 ltac:(lra)) (proj1 (Bo 2) ltac:(lra))). pose proof (proj2 (O s e barbell_c H (2 / 7) ltac:(lra)) (proj1 (Bo (2 / 7)) ltac:(lra))). lra. }
  assert (Wb : forall s e p, In (s, e, p) ranges -> (p = whole /\ s = 0 /\ e = 2 / 7) \/ (p = barbell_c /\ s = 2 / 7 /\ e = 2)).
  { intros s e p H. destruct (P s e p H) as [<-|[<-|[]]]; [left|right]; auto. }
  clear - T Wb. destruct ranges as [|[[s e] p] l]; [cbn in T; lra|]. destruct T as (-> & L & T).
  destruct (Wb _ _ _ (or_introl eq_refl)) as [(-> & _ & ->)|(_ & ? & _)]; [|lra]. f_equal.
  destruct l as [|[[s e] p] l]; [cbn in T; lra|]. destruct T as (-> & L' & T).
  destruct (Wb _ _ _ (or_intror (or_introl eq_refl))) as [(_ & ? & _)|(-> & _ & ->)]; [lra|]. f_equal.
  destruct l as [|[[s e] p] l]; auto. destruct T as (-> & L'' & T).
  destruct (Wb _ _ _ (or_intror (or_intror (or_introl eq_refl)))) as [(_ & ? & _)|(_ & ? & _)]; lra.
Qed.

(** ... and, for three partitions of two coupled layers, pairs that multilayer modularity tells apart. *)
Lemma ex_distinguishable : distinguishable_3D (ex_intra false) ex_inter ex_layers ex_parts.
Proof.
  split; [repeat constructor; cbn; intuition discriminate|].
  destruct (C14_example false) as (H1 & H2 & _).
  assert (M : forall c, multilayer_modularity (ex_intra false) ex_inter ex_layers 0 1 c = A_of (ex_intra false) c + A_of ex_inter c) by (intros c; rewrite multilayer_APC; lra).
  assert (E : multilayer_modularity (ex_intra false) ex_inter ex_layers 0 1 [0; 0; 0; 0; 0; 0]%nat = 13 /\
              multilayer_modularity (ex_intra false) ex_inter ex_layers 0 1 [0; 0; 0; 1; 1; 1]%nat = 10 /\
              multilayer_modularity (ex_intra false) ex_inter ex_layers 0 1 [0; 0; 1; 0; 0; 1]%nat = 7).
  { rewrite !M, !A_of_edges by auto. unfold delta. cbn. rewrite ?rsum_cons, ?rsum_nil. lra. }
  destruct E as (E1 & E2 & E3). intros c c' [<-|[<-|[<-|[]]]] [<-|[<-|[<-|[]]]] D; try congruence; exists 0, 1; rewrite ?E1, ?E2, ?E3; lra.
Qed.
Example C68_C69_example : exists env domains,
  champ_ok_3D env (ex_intra false) ex_inter ex_layers ex_parts /\ irredundant_hsi 3 (env_hsi env) /\ full_facets_hsi 3 (env_hsi env) /\
  distinguishable_3D (ex_intra false) ex_inter ex_layers ex_parts /\
  CHAMP_3D env (ex_intra false) ex_inter ex_layers ex_parts 0 2 0 1 = Ok domains.
Proof.
  destruct (C14_example false) as (H1 & H2 & H3 & H4 & H5 & H6 & H7).
  destruct (C68_C69_realisable (ex_intra false) ex_inter ex_layers ex_parts 0 2 0 1) as (env & ds & K1 & K2 & K3 & K4); auto; try discriminate; try lra; try (simpl; lia).
  exists env, ds. pose proof ex_distinguishable. auto.
Qed.
