(** Property theorems about CHAMP_2D and CHAMP_3D: C21-C26. *)
From Verif Require Import PyBase PyGraph M_partition M_pool M_champ Spec Spec_graph Spec_champ Spec_polygon Spec_lp L_base L_sort
  L_modularity L_modularity3 L_parallel L_bounds L_halfspace L_champ L_champ2 L_champ3 L_minkowski L_champ_total L_angular L_convex
  Properties_coefficients Properties_halfspaces.
From Coq Require Import Sorted Classical.
Open Scope R_scope.

(** C21: on every returned range the returned partition has the largest modularity among all inputs. *)
Theorem C21_ranges_are_optimal :
  forall env g parts gamma_0 gamma_f single_threaded ranges,
    champ_ok_2D env g parts -> CHAMP_2D env g parts gamma_0 gamma_f single_threaded = Ok ranges ->
    forall s e part, In (s, e, part) ranges ->
    In part parts /\
    forall gamma c, s <= gamma <= e -> In c parts -> modularity g gamma c <= modularity g gamma part.
Proof.
  intros env g parts g0 gf st ranges Hok H s e part Hin.
  destruct (@range_facts _ _ _ _ _ _ Hok _ s e part H Hin) as (H1 & _ & _ & _ & H5). auto.
Qed.
Print Assumptions C21_ranges_are_optimal.

(** C22: every gamma of the requested interval is in a returned range, ... *)
Theorem C22_ranges_cover :
  forall env g parts gamma_0 gamma_f single_threaded ranges gamma,
    champ_ok_2D env g parts -> parts <> [] ->
    CHAMP_2D env g parts gamma_0 gamma_f single_threaded = Ok ranges -> gamma_0 <= gamma <= gamma_f ->
    exists s e part, In (s, e, part) ranges /\ s <= gamma <= e.
Proof. intros. eapply cover_facts; eauto. Qed.
Print Assumptions C22_ranges_cover.

(** ... so a partition that is strictly best somewhere in it is returned, on a range containing that gamma. *)
Theorem C22_strictly_best_is_returned :
  forall env g parts gamma_0 gamma_f single_threaded ranges gamma best,
    champ_ok_2D env g parts ->
    CHAMP_2D env g parts gamma_0 gamma_f single_threaded = Ok ranges -> gamma_0 <= gamma <= gamma_f ->
    In best parts -> (forall c, In c parts -> c <> best -> modularity g gamma c < modularity g gamma best) ->
    exists s e, In (s, e, best) ranges /\ s <= gamma <= e.
Proof.
  intros env g parts g0 gf st ranges gamma best Hok H Hg Hb Hbest.
  assert (Hne : parts <> []) by (intros ->; destruct Hb).
  destruct (@cover_facts _ _ _ _ _ _ Hok _ gamma Hne H Hg) as (s & e & part & Hin & Hse).
  destruct (@range_facts _ _ _ _ _ _ Hok _ s e part H Hin) as (Hp & _ & _ & _ & Hdom).
  destruct (classic (part = best)) as [->|N]; [eauto|]. exfalso.
  specialize (Hbest part Hp N). specialize (Hdom gamma best Hse Hb). lra.
Qed.
Print Assumptions C22_strictly_best_is_returned.

(** C23: ranges are inside the interval, sorted by start, one per input partition at most. *)
Theorem C23_ranges_well_formed :
  forall env g parts gamma_0 gamma_f single_threaded ranges,
    champ_ok_2D env g parts -> CHAMP_2D env g parts gamma_0 gamma_f single_threaded = Ok ranges ->
    (forall s e part, In (s, e, part) ranges -> gamma_0 <= s /\ s <= e /\ e <= gamma_f) /\
    StronglySorted (fun r r' => fst (fst r) <= fst (fst r')) ranges /\
    (exists idx, NoDup idx /\ Forall2 (fun i r => nth_error parts i = Some (snd r)) idx ranges).
Proof.
  intros env g parts g0 gf st ranges Hok H. split; [|apply (@shape_facts _ _ _ _ _ _ Hok _ H)].
  intros s e part Hin. destruct (@range_facts _ _ _ _ _ _ Hok _ s e part H Hin) as (_ & ? & ? & ? & _). auto.
Qed.
Print Assumptions C23_ranges_well_formed.

Theorem C23_empty_input :
  forall env g gamma_0 gamma_f single_threaded, CHAMP_2D env g [] gamma_0 gamma_f single_threaded = Ok [].
Proof. reflexivity. Qed.
Print Assumptions C23_empty_input.

(** CHAMP_2D returns on every undirected graph with an edge, with a working solver and sampler and an intersection routine that
    answers. *)
Theorem C23_returns :
  forall env g parts gamma_0 gamma_f single_threaded,
    champ_ok_2D env g parts -> parts <> [] -> directed g = false -> gamma_0 < gamma_f ->
    working_solver env (length parts) -> hsi_answers 2 env ->
    exists ranges, CHAMP_2D env g parts gamma_0 gamma_f single_threaded = Ok ranges.
Proof. exact CHAMP_2D_returns. Qed.
Print Assumptions C23_returns.

(** Non-vacuity of C21-C23: for every undirected input there are external routines meeting the contract with which
    CHAMP_2D returns, ... *)
Theorem C21_C22_C23_realisable :
  forall g parts gamma_0 gamma_f single_threaded,
    wf_graph g -> directed g = false -> edges g <> [] ->
    (forall c, In c parts -> length c = vcount g) -> (Z.of_nat (length parts) <= 2 ^ 53)%Z -> parts <> [] -> gamma_0 < gamma_f ->
    exists env ranges, champ_ok_2D env g parts /\ CHAMP_2D env g parts gamma_0 gamma_f single_threaded = Ok ranges.
Proof. exact champ_2D_realisable. Qed.
Print Assumptions C21_C22_C23_realisable.

(** ... for instance two partitions of a four-vertex graph. *)
Example C21_example : exists env ranges,
  champ_ok_2D env (ex_graph false) [[0; 0; 0; 1]; [0; 1; 1; 0]]%nat /\
  CHAMP_2D env (ex_graph false) [[0; 0; 0; 1]; [0; 1; 1; 0]]%nat 0 2 false = Ok ranges.
Proof.
  destruct (C12_C13_example false) as (H1 & H2 & H3 & H4). apply C21_C22_C23_realisable; auto; try discriminate; try lra; simpl; lia.
Qed.

(** C24: on the convex hull of a domain's vertices the domain's partition has the largest multilayer modularity, and the
    vertices are in the requested rectangle. *)
Theorem C24_domains_are_optimal :
  forall env g_intra g_inter layers parts gamma_0 gamma_f omega_0 omega_f domains,
    champ_ok_3D env g_intra g_inter layers parts ->
    CHAMP_3D env g_intra g_inter layers parts gamma_0 gamma_f omega_0 omega_f = Ok domains ->
    forall poly part, In (poly, part) domains ->
    In part parts /\ poly <> [] /\
    (forall v, In v poly -> gamma_0 <= fst v <= gamma_f /\ omega_0 <= snd v <= omega_f) /\
    forall gamma omega c, in_polygon poly (gamma, omega) -> In c parts ->
      multilayer_modularity g_intra g_inter layers gamma omega c <= multilayer_modularity g_intra g_inter layers gamma omega part.
Proof. intros. eapply domain_facts; eauto. Qed.
Print Assumptions C24_domains_are_optimal.

(** C25: the domains cover the rectangle, ... *)
Theorem C25_domains_cover :
  forall env g_intra g_inter layers parts gamma_0 gamma_f omega_0 omega_f domains gamma omega,
    champ_ok_3D env g_intra g_inter layers parts -> parts <> [] ->
    CHAMP_3D env g_intra g_inter layers parts gamma_0 gamma_f omega_0 omega_f = Ok domains ->
    gamma_0 <= gamma <= gamma_f -> omega_0 <= omega <= omega_f ->
    exists poly part, In (poly, part) domains /\ in_polygon poly (gamma, omega).
Proof. intros. eapply domain_cover; eauto. Qed.
Print Assumptions C25_domains_cover.

Theorem C25_strictly_best_is_returned :
  forall env g_intra g_inter layers parts gamma_0 gamma_f omega_0 omega_f domains gamma omega best,
    champ_ok_3D env g_intra g_inter layers parts ->
    CHAMP_3D env g_intra g_inter layers parts gamma_0 gamma_f omega_0 omega_f = Ok domains ->
    gamma_0 <= gamma <= gamma_f -> omega_0 <= omega <= omega_f -> In best parts ->
    (forall c, In c parts -> c <> best ->
       multilayer_modularity g_intra g_inter layers gamma omega c < multilayer_modularity g_intra g_inter layers gamma omega best) ->
    exists poly, In (poly, best) domains /\ in_polygon poly (gamma, omega).
Proof.
  intros env g gi lv parts g0 gf o0 of domains gamma omega best Hok H Hg Ho Hb Hbest.
  assert (Hne : parts <> []) by (intros ->; destruct Hb).
  destruct (@domain_cover _ _ _ _ _ _ _ _ _ Hok _ gamma omega Hne H Hg Ho) as (poly & part & Hin & Hpol).
  destruct (@domain_facts _ _ _ _ _ _ _ _ _ Hok _ poly part H Hin) as (Hp & _ & _ & Hdom).
  destruct (classic (part = best)) as [->|N]; [eauto|]. exfalso.
  specialize (Hbest part Hp N). specialize (Hdom gamma omega best Hpol Hb). lra.
Qed.
Print Assumptions C25_strictly_best_is_returned.

Theorem C25_each_input_at_most_once :
  forall env g_intra g_inter layers parts gamma_0 gamma_f omega_0 omega_f domains,
    champ_ok_3D env g_intra g_inter layers parts ->
    CHAMP_3D env g_intra g_inter layers parts gamma_0 gamma_f omega_0 omega_f = Ok domains ->
    exists idx, NoDup idx /\ Forall2 (fun i r => nth_error parts i = Some (snd r)) idx domains.
Proof. intros. eapply domain_shape; eauto. Qed.
Print Assumptions C25_each_input_at_most_once.

Theorem C25_returns :
  forall env g_intra g_inter layers parts gamma_0 gamma_f omega_0 omega_f,
    champ_ok_3D env g_intra g_inter layers parts -> parts <> [] -> directed g_intra = false ->
    gamma_0 < gamma_f -> omega_0 < omega_f ->
    working_solver env (length parts) -> hsi_answers 3 env ->
    exists domains, CHAMP_3D env g_intra g_inter layers parts gamma_0 gamma_f omega_0 omega_f = Ok domains.
Proof. exact CHAMP_3D_returns. Qed.
Print Assumptions C25_returns.

(** Non-vacuity of C24-C26. *)
Theorem C24_C25_C26_realisable :
  forall g_intra g_inter layers parts gamma_0 gamma_f omega_0 omega_f,
    wf_graph g_intra -> wf_graph g_inter -> directed g_intra = false -> edges g_intra <> [] ->
    length layers = vcount g_intra -> layers <> [] -> (vcount g_inter <= vcount g_intra)%nat -> edges_within_layers g_intra layers ->
    (forall l, In l layers -> exists u v, In (u, v) (edges g_intra) /\ nth u layers 0%nat = l) ->
    (forall c, In c parts -> length c = vcount g_intra) -> (Z.of_nat (length parts) <= 2 ^ 53)%Z -> parts <> [] ->
    gamma_0 < gamma_f -> omega_0 < omega_f ->
    exists env domains, champ_ok_3D env g_intra g_inter layers parts /\
      CHAMP_3D env g_intra g_inter layers parts gamma_0 gamma_f omega_0 omega_f = Ok domains.
Proof. exact champ_3D_realisable. Qed.
Print Assumptions C24_C25_C26_realisable.

Example C24_example : exists env domains,
  champ_ok_3D env (ex_intra false) ex_inter ex_layers ex_parts /\
  CHAMP_3D env (ex_intra false) ex_inter ex_layers ex_parts 0 2 0 1 = Ok domains.
Proof.
  destruct (C14_example false) as (H1 & H2 & H3 & H4 & H5 & H6 & H7).
  apply C24_C25_C26_realisable; auto; try discriminate; try lra; simpl; lia.
Qed.

(** ** Angular order *)
Lemma angle_unique d a b : angle_of d a -> angle_of d b -> a = b.
Proof.
  intros (Ba & r & Hr & E1 & E2) (Bb & r' & Hr' & E3 & E4). rewrite E1 in E3. rewrite E2 in E4.
  assert (Er : r = r').
  { pose proof (sin2_cos2 a) as Sa. pose proof (sin2_cos2 b) as Sb. unfold Rsqr in *.
    assert (r * r = r' * r').
    { replace (r * r) with ((r * sin a) * (r * sin a) + (r * cos a) * (r * cos a)) by (transitivity (r * r * (sin a * sin a + cos a * cos a)); [ring|rewrite Sa; ring]).
      rewrite E3, E4. transitivity (r' * r' * (sin b * sin b + cos b * cos b)); [ring|rewrite Sb; ring]. }
    nra. }
  subst r'. assert (S : sin a = sin b) by (apply (Rmult_eq_reg_l r); lra). assert (C : cos a = cos b) by (apply (Rmult_eq_reg_l r); lra).
  assert (W : forall x y, - PI < x <= PI -> - PI < y <= PI -> sin x = sin y -> cos x = cos y -> ~ x < y).
  { clear. intros x y Bx By S C L. pose proof PI_RGT_0.
    assert (K : cos (y - x) = 1) by (rewrite cos_minus, S, C; pose proof (sin2_cos2 y) as Q; unfold Rsqr in Q; lra).
    replace (y - x) with (2 * ((y - x) / 2)) in K by lra. rewrite cos_2a_sin in K.
    assert (0 < sin ((y - x) / 2)) by (apply sin_gt_0; lra). nra. }
  destruct (Rtotal_order a b) as [L|[E|L]]; auto; exfalso; [apply (W a b)|apply (W b a)]; auto.
Qed.

(** C26: the vertices of a domain are the facet's vertices (their gamma and omega coordinates), ... *)
Theorem C26_domain_is_facet :
  forall env g_intra g_inter layers parts gamma_0 gamma_f omega_0 omega_f domains poly part,
    champ_ok_3D env g_intra g_inter layers parts ->
    CHAMP_3D env g_intra g_inter layers parts gamma_0 gamma_f omega_0 omega_f = Ok domains -> In (poly, part) domains ->
    exists hs pt out i,
      env_hsi env hs pt = Ok out /\ exact_intersection 3 hs out /\ nth_error parts i = Some part /\ listed out i <> [] /\
      exists vs, listed out i = map Some vs /\ Permutation poly (map (fun v => (nth 0 v 0, nth 1 v 0)) vs).
Proof.
  intros env g gi lv parts g0 gf o0 of domains poly part Hok H Hin.
  assert (Hne : parts <> []) by (intros ->; inversion H; subst; destruct Hin).
  rewrite (CHAMP_3D_unfold g0 gf o0 of Hok Hne) in H.
  apply bind_ok in H as (hs & Hhs & H). apply bind_ok in H as (pt & Hpt & H). apply bind_ok in H as (out & Hout & H).
  apply bind_ok in H as (d & Hd & H).
  destruct (@interior_point_3D env _ _ _ _ _ _ _ hs pt (c3_lp Hok) Hhs Hpt) as [Hl Hs].
  pose proof (c3_hsi Hok (bounded_3D _ _ _ _ _ _ _ Hhs) Hl Hs Hout) as Hex.
  destruct (facets_ok (length parts) out) as (d' & Hd' & F1 & F2 & F3).
  { intros v is_ Hv. destruct (ei_vertex _ _ _ Hex _ _ Hv) as (x & -> & _). discriminate. }
  assert (d' = d) by congruence. subst d'.
  destruct (@domain_origin parts d _ (poly, part) H Hin) as ([i vs] & Hdi & Hr).
  destruct (F2 i vs Hdi) as (Hi & Hvne & Hvs).
  destruct (@domain_of_facet_inv parts i vs poly part Hr) as (ps & Hps & Hpart & Hpoly & Hperm).
  exists hs, pt, out, i. split; [exact Hout|]. split; [exact Hex|]. split; [exact Hpart|].
  split; [rewrite <- Hvs; destruct vs; simpl; congruence|].
  exists vs. split; auto. rewrite Hperm. clear - Hps. apply mapM_Ok_inv in Hps.
  induction Hps as [|v p vs ps Hp Hps IH]; simpl; auto.
  replace (nth 0 v 0, nth 1 v 0) with p; [auto|].
  destruct v as [|a [|b v]]; inversion Hp; reflexivity.
Qed.
Print Assumptions C26_domain_is_facet.

Lemma champ3_poly_sorted env g gi lv parts g0 gf o0 of domains poly part :
  champ_ok_3D env g gi lv parts -> CHAMP_3D env g gi lv parts g0 gf o0 of = Ok domains -> In (poly, part) domains ->
  poly <> [] /\ StronglySorted (fun p q => angle_key (barycentre poly) p <= angle_key (barycentre poly) q) poly.
Proof.
  intros Hok H Hin. split; [apply (@domain_facts _ _ _ _ _ _ _ _ _ Hok _ poly part H Hin)|].
  assert (Hne : parts <> []) by (intros ->; inversion H; subst; destruct Hin).
  destruct (@CHAMP_3D_inv _ _ _ _ _ _ _ _ _ Hok _ Hne H) as (hs & pt & out & d & Hhs & Hl & Hs & Hex & F1 & F2 & F3 & Hrs).
  destruct (@domain_origin parts d _ (poly, part) Hrs Hin) as ([i vs] & Hd & Hr).
  destruct (@domain_of_facet_inv parts i vs poly part Hr) as (ps & Hps & Hpart & Hpoly & Hperm).
  assert (Ec : barycentre poly = centroid ps).
  { unfold barycentre, centroid, mean. rewrite !map_length, (Permutation_length Hperm).
    rewrite (rsum_perm (Permutation_map fst Hperm)), (rsum_perm (Permutation_map snd Hperm)). reflexivity. }
  rewrite Ec, Hpoly. unfold angular_sort. apply sort_by_key.
Qed.

(** ... listed by increasing angle around their mean, ... *)
Theorem C26_sorted_by_angle :
  forall env g_intra g_inter layers parts gamma_0 gamma_f omega_0 omega_f domains poly part,
    champ_ok_3D env g_intra g_inter layers parts ->
    CHAMP_3D env g_intra g_inter layers parts gamma_0 gamma_f omega_0 omega_f = Ok domains -> In (poly, part) domains ->
    forall l1 p l2 q l3 alpha beta, poly = l1 ++ p :: l2 ++ q :: l3 ->
      angle_of (fst p - fst (barycentre poly), snd p - snd (barycentre poly)) alpha ->
      angle_of (fst q - fst (barycentre poly), snd q - snd (barycentre poly)) beta -> alpha <= beta.
Proof.
  intros env g gi lv parts g0 gf o0 of domains poly part Hok H Hin l1 p l2 q l3 a b E Ha Hb.
  destruct (champ3_poly_sorted _ _ _ _ _ _ _ _ _ _ _ _ Hok H Hin) as [_ Hs]. set (c := barycentre poly) in *. clearbody c.
  assert (Hk : angle_key c p <= angle_key c q).
  { rewrite E in Hs. clear - Hs. induction l1 as [|x l1 IH]; simpl in Hs; inversion Hs as [|? ? H1 H2]; subst; auto.
    rewrite Forall_forall in H2. apply H2. apply in_or_app. simpl; auto. }
  assert (nz : forall z t, angle_of (fst z - fst c, snd z - snd c) t -> z <> c).
  { intros z t (_ & r & Hr & E1 & E2) ->. cbn [fst snd] in *. rewrite Rminus_diag_eq in E1, E2 by auto.
    pose proof (sin2_cos2 t) as Q. unfold Rsqr in Q. nra. }
  pose proof (angle_key_spec (nz p a Ha)) as Ka. pose proof (angle_key_spec (nz q b Hb)) as Kb. unfold vec in *.
  rewrite (angle_unique _ _ _ Ha Ka), (angle_unique _ _ _ Hb Kb). auto.
Qed.
Print Assumptions C26_sorted_by_angle.

(** ... consecutive vertices turning clockwise about it (in the (gamma, omega) plane, back to the first at the end), ... *)
Theorem C26_turns_clockwise :
  forall env g_intra g_inter layers parts gamma_0 gamma_f omega_0 omega_f domains poly part p q,
    champ_ok_3D env g_intra g_inter layers parts ->
    CHAMP_3D env g_intra g_inter layers parts gamma_0 gamma_f omega_0 omega_f = Ok domains -> In (poly, part) domains ->
    follows poly p q -> orient (barycentre poly) p q <= 0.
Proof.
  intros env g gi lv parts g0 gf o0 of domains poly part p q Hok H Hin Hf.
  destruct (champ3_poly_sorted _ _ _ _ _ _ _ _ _ _ _ _ Hok H Hin) as [Hne Hs].
  pose proof (@cw_follow poly (barycentre poly) (barycentre_zero Hne) Hs p q Hf) as C. unfold cw, vec in C. unfold orient. cbn [fst snd] in C. lra.
Qed.
Print Assumptions C26_turns_clockwise.

(** ... and when they are the vertices of a convex polygon, consecutive ones are its edges: all the others are strictly
    on one side of the line through them. *)
Theorem C26_consecutive_are_edges :
  forall env g_intra g_inter layers parts gamma_0 gamma_f omega_0 omega_f domains poly part p q r,
    champ_ok_3D env g_intra g_inter layers parts ->
    CHAMP_3D env g_intra g_inter layers parts gamma_0 gamma_f omega_0 omega_f = Ok domains -> In (poly, part) domains ->
    convex_position poly -> follows poly p q -> In r poly -> r <> p -> r <> q -> orient p q r < 0.
Proof.
  intros env g gi lv parts g0 gf o0 of domains poly part p q r Hok H Hin Hc Hf Hr N1 N2.
  destruct (champ3_poly_sorted _ _ _ _ _ _ _ _ _ _ _ _ Hok H Hin) as [Hne Hs]. eapply edge_lt; eauto.
Qed.
Print Assumptions C26_consecutive_are_edges.

(** ... and that is so whenever the intersection routine reports each corner of a facet once and nothing else, which every
    bounded system admits (C26_corners_realisable). *)
Theorem C26_corners_only :
  forall env g_intra g_inter layers parts gamma_0 gamma_f omega_0 omega_f domains poly part,
    champ_ok_3D env g_intra g_inter layers parts -> irredundant_hsi 3 (env_hsi env) ->
    CHAMP_3D env g_intra g_inter layers parts gamma_0 gamma_f omega_0 omega_f = Ok domains -> In (poly, part) domains ->
    NoDup poly /\ convex_position poly /\
    forall p q r, follows poly p q -> In r poly -> r <> p -> r <> q -> orient p q r < 0.
Proof.
  intros env g gi lv parts g0 gf o0 of domains poly part Hok Hir H Hin. pose proof (@domains_convex _ _ _ _ _ _ _ _ _ _ poly part Hok Hir H Hin) as Hc.
  split; [apply convex_position_nodup; auto|]. split; auto. intros p q r Hf Hr N1 N2. eapply C26_consecutive_are_edges; eauto.
Qed.
Print Assumptions C26_corners_only.

Theorem C26_corners_realisable :
  forall g_intra g_inter layers parts gamma_0 gamma_f omega_0 omega_f,
    wf_graph g_intra -> wf_graph g_inter -> directed g_intra = false -> edges g_intra <> [] ->
    length layers = vcount g_intra -> layers <> [] -> (vcount g_inter <= vcount g_intra)%nat -> edges_within_layers g_intra layers ->
    (forall l, In l layers -> exists u v, In (u, v) (edges g_intra) /\ nth u layers 0%nat = l) ->
    (forall c, In c parts -> length c = vcount g_intra) -> (Z.of_nat (length parts) <= 2 ^ 53)%Z -> parts <> [] ->
    gamma_0 < gamma_f -> omega_0 < omega_f ->
    exists env domains, champ_ok_3D env g_intra g_inter layers parts /\ irredundant_hsi 3 (env_hsi env) /\
      CHAMP_3D env g_intra g_inter layers parts gamma_0 gamma_f omega_0 omega_f = Ok domains.
Proof. exact champ_3D_realisable_irredundant. Qed.
Print Assumptions C26_corners_realisable.

(** The square is in convex position; a list with a repeated or middle point is not. *)
Example C26_convex_example : convex_position [(0, 0); (0, 1); (1, 1); (1, 0)].
Proof.
  intros l1 v l2 E (ws & Hl & Hw & Hs & H1 & H2).
  destruct l1 as [|a [|b [|c' [|d l1]]]]; simpl in E; inversion E; subst; simpl in Hl.
  5: { destruct l1; discriminate. }
  all: destruct ws as [|w1 [|w2 [|w3 [|w4 ws]]]]; try discriminate; cbn [combine map app fst snd] in H1, H2;
    rewrite !rsum_cons, rsum_nil in *;
    pose proof (Hw w1 ltac:(simpl; auto)); pose proof (Hw w2 ltac:(simpl; auto)); pose proof (Hw w3 ltac:(simpl; auto)); lra.
Qed.
Example C26_orientation_example : orient (0, 0) (0, 1) (1, 1) < 0.
Proof. unfold orient; simpl; lra. Qed.
