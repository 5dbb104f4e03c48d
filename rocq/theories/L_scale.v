(** Proportional connection strengths; isolated vertices. *)
From Verif Require Import PyBase PyGraph M_partition M_pool M_champ M_estimation_utils Spec Spec_leiden Spec_graph Spec_adjacency Spec_scale Spec_champ Spec_polygon Spec_sbm Spec_prune
  Spec_stability Spec_tiling Spec_multisbm Spec_check Spec_valid
  L_base L_canon L_leiden L_modularity L_modularity3 L_champ L_champ2 L_champ3 L_convex L_stability L_complete L_angular L_tiling L_tiling3 L_sbm L_sbm2 L_multisbm L_prune L_accepted L_omega L_copying L_adjacency
  Properties_sbm Properties_multisbm.
From Coq Require Import Classical Permutation Sorted.
Set Implicit Arguments.
Open Scope R_scope.

Section Proportional.
Variables (g g' : graph) (s : R) (W : wf_graph g) (W' : wf_graph g') (S : proportional s g g') (Hs : 0 < s).
Let n := vcount g.

Lemma pr_n : vcount g' = n. Proof. apply S. Qed.
Lemma pr_adj i j : (i < n)%nat -> (j < n)%nat -> adjacency g' i j = s * adjacency g i j. Proof. apply S. Qed.

Lemma pr_sum h : sum_to n (fun i => sum_to n (fun j => adjacency g' i j * h i j)) = s * sum_to n (fun i => sum_to n (fun j => adjacency g i j * h i j)).
Proof. rewrite <- sum_to_scale. apply sum_to_ext; intros i Hi. rewrite <- sum_to_scale. apply sum_to_ext; intros j Hj. rewrite pr_adj by auto. ring. Qed.

Lemma pr_total : side g' * m_edges g' = s * (side g * m_edges g).
Proof.
  rewrite <- (total_adjacency W), <- (total_adjacency W'), pr_n, <- sum_to_scale. apply sum_to_ext; intros i Hi. rewrite <- sum_to_scale. apply sum_to_ext; intros j Hj. apply pr_adj; auto.
Qed.

Lemma pr_k_out i : (i < n)%nat -> k_out g' i = s * k_out g i.
Proof. intros Hi. unfold k_out. rewrite pr_n, <- sum_to_scale. apply sum_to_ext; intros j Hj. apply pr_adj; auto. Qed.
Lemma pr_k_in i : (i < n)%nat -> k_in g' i = s * k_in g i.
Proof. intros Hi. unfold k_in. rewrite pr_n, <- sum_to_scale. apply sum_to_ext; intros j Hj. apply pr_adj; auto. Qed.

Lemma pr_sym i j : (i < n)%nat -> (j < n)%nat -> directed g = false \/ directed g' = false -> adjacency g i j = adjacency g j i.
Proof.
  intros Hi Hj [D|D]; [apply adjacency_sym; auto|]. apply (Rmult_eq_reg_l s); [|lra]. rewrite <- !pr_adj by auto. apply adjacency_sym; auto.
Qed.
Lemma pr_k_sym i : (i < n)%nat -> directed g = false \/ directed g' = false -> k_in g i = k_out g i.
Proof. intros Hi D. unfold k_in, k_out. apply sum_to_ext; intros j Hj. apply pr_sym; auto. Qed.

Lemma pr_A c : A_of g' c = s * A_of g c.
Proof. unfold A_of. rewrite pr_n. apply pr_sum. Qed.

Lemma scale_null a b x x' : 0 < s -> x' = s * x -> (s * a) * (s * b) / x' = s * (a * b / x).
Proof.
  intros Hp ->. destruct (Req_dec x 0) as [->|N]; [|field; lra].
  unfold Rdiv. rewrite Rmult_0_r, Rinv_0. ring.
Qed.

Lemma pr_null x x' i j : (i < n)%nat -> (j < n)%nat -> side g' * x' = s * (side g * x) ->
  (if directed g' then k_in g' i * k_out g' j / x' else k_out g' i * k_out g' j / (2 * x')) = s * (if directed g then k_in g i * k_out g j / x else k_out g i * k_out g j / (2 * x)).
Proof.
  intros Hi Hj E. rewrite !pr_k_out, !pr_k_in by auto. unfold side in E. pose proof (pr_k_sym Hi) as Y.
  destruct (directed g), (directed g'); rewrite ?Y by auto; apply scale_null; auto; lra.
Qed.

Lemma pr_P c : P_of g' c = s * P_of g c.
Proof.
  unfold P_of. rewrite pr_n, <- sum_to_scale. apply sum_to_ext; intros i Hi. rewrite <- sum_to_scale. apply sum_to_ext; intros j Hj. rewrite <- Rmult_assoc. f_equal. apply pr_null; auto. apply pr_total.
Qed.

Lemma pr_modularity gamma c : modularity g' gamma c = s * modularity g gamma c.
Proof. rewrite !modularity_AP, pr_A, pr_P. ring. Qed.

Lemma pr_edges : edges g <> [] -> edges g' <> [].
Proof.
  intros Ne Ne'. pose proof pr_total as T. pose proof (m_edges_pos _ Ne) as P. assert (Z : m_edges g' = 0) by (unfold m_edges; rewrite Ne'; reflexivity).
  rewrite Z, Rmult_0_r in T. pose proof (side_pos g) as Q. pose proof (Rmult_lt_0_compat _ _ Hs (Rmult_lt_0_compat _ _ Q P)). lra.
Qed.

Lemma pr_pos u v : (u < n)%nat -> (v < n)%nat -> (0 < adjacency g' u v <-> 0 < adjacency g u v).
Proof.
  intros Hu Hv. rewrite pr_adj by auto. split; intros H.
  - apply (Rmult_lt_reg_l s); auto. rewrite Rmult_0_r. auto.
  - apply Rmult_lt_0_compat; auto.
Qed.

Lemma pr_edge u v : In (u, v) (edges g') -> exists a b, In (a, b) (edges g) /\ ((a = u /\ b = v) \/ (a = v /\ b = u)).
Proof.
  intros H. assert (P : 0 < adjacency g' u v) by (apply adjacency_pos; auto). destruct W' as [Wv _]. destruct (Wv u v H) as [Hu Hv]. rewrite pr_n in Hu, Hv.
  apply pr_pos in P; auto. apply adjacency_pos in P as [P|[_ P]]; eauto 10.
Qed.

Variable lv : list nat.
Lemma pr_within : edges_within_layers g lv -> edges_within_layers g' lv.
Proof. intros H u v Huv. destruct (@pr_edge u v Huv) as (a & b & E & [[-> ->]|[-> ->]]); apply H in E; auto. Qed.

Lemma pr_has : edges_within_layers g lv -> (forall l, In l lv -> exists u v, In (u, v) (edges g) /\ nth u lv 0%nat = l) ->
  forall l, In l lv -> exists u v, In (u, v) (edges g') /\ nth u lv 0%nat = l.
Proof.
  intros Hw H l Hl. destruct (H l Hl) as (u & v & E & L). assert (P : 0 < adjacency g u v) by (apply adjacency_pos; auto).
  destruct W as [Wv _]. destruct (Wv u v E) as [Hu Hv]. apply pr_pos in P; auto. apply adjacency_pos in P as [P|[_ P]]; [eauto|].
  exists v, u. split; auto. rewrite <- (Hw u v E). auto.
Qed.

Hypothesis (Hw : edges_within_layers g lv).
Lemma pr_m_layer t : side g' * m_layer g' lv t = s * (side g * m_layer g lv t).
Proof. rewrite <- (m_layer_adjacency t W Hw), <- (m_layer_adjacency t W' (pr_within Hw)), pr_n. apply (pr_sum (fun i _ => if Nat.eqb (nth i lv 0%nat) t then 1 else 0)). Qed.

Lemma pr_P3 c : P3_of g' lv c = s * P3_of g lv c.
Proof.
  unfold P3_of. rewrite pr_n, <- sum_to_scale. apply sum_to_ext; intros i Hi. rewrite <- sum_to_scale. apply sum_to_ext; intros j Hj. rewrite <- Rmult_assoc. f_equal.
  unfold layer_null. rewrite <- Rmult_assoc. f_equal. apply pr_null; auto. apply pr_m_layer.
Qed.
End Proportional.

Lemma pr_multilayer g g' gi gi' s t lv gamma omega c : wf_graph g -> wf_graph g' -> wf_graph gi -> wf_graph gi' ->
  proportional s g g' -> proportional t gi gi' -> 0 < s -> 0 < t -> edges_within_layers g lv ->
  multilayer_modularity g' gi' lv gamma (s / t * omega) c = s * multilayer_modularity g gi lv gamma omega c.
Proof.
  intros W W' Wi Wi' S S' Hs Ht Hw. rewrite !multilayer_APC. rewrite (@pr_A g g' s S), (@pr_P3 g g' s W W' S Hs lv Hw), (@pr_A gi gi' t S'). field. lra.
Qed.

(** ** CHAMP on two inputs whose objectives correspond *)
Section Runs.
Variables (env1 env2 : champ_env) (g1 g2 : graph) (parts : list (list nat)) (f : list nat -> list nat) (s : R) (g0 gf : R) (st1 st2 : bool).
Hypothesis (Hs : 0 < s) (Hok1 : champ_ok_2D env1 g1 parts) (Hok2 : champ_ok_2D env2 g2 (map f parts))
  (Hir1 : irredundant_hsi 2 (env_hsi env1)) (Hir2 : irredundant_hsi 2 (env_hsi env2))
  (Hobj : forall gamma c, In c parts -> modularity g2 gamma (f c) = s * modularity g1 gamma c).

Lemma obj_le gamma c d : In c parts -> In d parts -> modularity g2 gamma (f c) <= modularity g2 gamma (f d) <-> modularity g1 gamma c <= modularity g1 gamma d.
Proof.
  intros Hc Hd. rewrite !Hobj by auto. split; intros H.
  - apply (Rmult_le_reg_l s); auto.
  - apply Rmult_le_compat_l; lra.
Qed.

Lemma runs_agree_f r1 r2 a e p : CHAMP_2D env1 g1 parts g0 gf st1 = Ok r1 -> CHAMP_2D env2 g2 (map f parts) g0 gf st2 = Ok r2 ->
  In (a, e, p) r1 -> exists p', In p' parts /\ In (a, e, f p') r2 /\ forall gamma, modularity g1 gamma p = modularity g1 gamma p'.
Proof.
  intros H1 H2 Hin.
  pose proof (@range_proper _ _ _ _ _ _ Hok1 Hir1 _ _ _ _ H1 Hin) as L.
  destruct (@range_facts _ _ _ _ _ _ Hok1 _ a e p H1 Hin) as (Hp & B1 & _ & B2 & D).
  assert (Hne2 : map f parts <> []) by (intros Z; apply map_eq_nil in Z; rewrite Z in Hp; destruct Hp).
  destruct (@pigeon _ r2 (fun r t => fst (fst r) <= a + t * (e - a) <= snd (fst r))) as ([[s' e'] q'] & Hin' & HL).
  { intros t Ht. destruct (@cover_facts _ _ _ _ _ _ Hok2 _ (a + t * (e - a)) Hne2 H2) as (s' & e' & p' & Hi & Hb); [clear - Ht B1 B2 L; nra|].
    exists (s', e', p'). auto. }
  cbn [fst snd] in HL.
  destruct (@range_facts _ _ _ _ _ _ Hok2 _ s' e' q' H2 Hin') as (Hq' & B1' & _ & B2' & D').
  apply in_map_iff in Hq' as (p' & <- & Hp').
  assert (D1 : forall gamma c, s' <= gamma <= e' -> In c parts -> modularity g1 gamma c <= modularity g1 gamma p').
  { intros gamma c Hg Hc. apply obj_le; auto. apply D'; auto. apply in_map; auto. }
  destruct (HL 1) as (t1 & T1 & T1' & Q1); [lra|]. destruct (HL t1) as (t2 & T2 & T2' & Q2); [lra|].
  assert (I1 : a <= a + t1 * (e - a) <= e) by (clear - T1 T1' L; nra). assert (I2 : a <= a + t2 * (e - a) <= e) by (clear - T2 T2' L; nra).
  assert (Hl : forall gamma, modularity g1 gamma p = modularity g1 gamma p').
  { apply (@same_line g1 p p' (a + t1 * (e - a)) (a + t2 * (e - a))); [clear - T1 T2 L; nra| |]; apply Rle_antisym; (apply D1 + apply D); auto. }
  assert (O1 : forall gamma, a <= gamma <= e -> s' <= gamma <= e').
  { intros gamma Hg. apply (@range_exact _ _ _ g0 gf _ Hok2 _ _ _ (f p') gamma H2 Hin'); [lra|]. intros c Hc. apply in_map_iff in Hc as (c0 & <- & Hc). apply obj_le; auto. rewrite <- Hl. apply D; auto. }
  assert (O2 : forall gamma, s' <= gamma <= e' -> a <= gamma <= e).
  { intros gamma Hg. apply (@range_exact _ _ _ g0 gf _ Hok1 _ _ _ p gamma H1 Hin); [lra|]. intros c Hc. rewrite Hl. apply D1; auto. }
  pose proof (@range_proper _ _ _ _ _ _ Hok2 Hir2 _ _ _ _ H2 Hin') as L'.
  exists p'. split; auto. split; auto. pose proof (O1 a). pose proof (O1 e). pose proof (O2 s'). pose proof (O2 e').
  assert (Es : a = s') by lra. assert (Ee : e = e') by lra. rewrite Es, Ee. exact Hin'.
Qed.

Lemma tiles_map {T U} (h : T -> U) (l : list (R * R * T)) : forall a b, tiles a b l -> tiles a b (map (fun r => (fst r, h (snd r))) l).
Proof. induction l as [|[[x y] z] l IH]; intros a b H; auto. cbn [map fst snd tiles] in *. destruct H as (H1 & H2 & H3). auto. Qed.

Lemma runs_equal_f r1 r2 : distinguishable g1 parts -> NoDup (map f parts) ->
  CHAMP_2D env1 g1 parts g0 gf st1 = Ok r1 -> CHAMP_2D env2 g2 (map f parts) g0 gf st2 = Ok r2 -> r2 = map (fun r => (fst r, f (snd r))) r1.
Proof.
  intros Hd ND H1 H2. destruct (classic (parts = [])) as [E1|Hne1].
  { rewrite E1 in H1, H2. inversion H1; inversion H2; reflexivity. }
  assert (Hne2 : map f parts <> []) by (intros Z; apply map_eq_nil in Z; auto).
  assert (Hd2 : distinguishable g2 (map f parts)).
  { destruct Hd as [_ Hd]. split; auto. intros c c' Hc Hc' N. apply in_map_iff in Hc as (d & <- & Hc). apply in_map_iff in Hc' as (d' & <- & Hc').
    destruct (Hd d d') as (z & Nz); auto; [congruence|]. exists z. rewrite !Hobj by auto. intros Q. apply Nz. apply (Rmult_eq_reg_l s); lra. }
  symmetry. apply (@tiles_unique _ (map (fun r => (fst r, f (snd r))) r1) g0 gf r2).
  - apply tiles_map. apply (@ranges_tile env1 g1 parts g0 gf st1 Hok1 Hir1 Hne1 r1 Hd H1).
  - apply (@ranges_tile env2 g2 (map f parts) g0 gf st2 Hok2 Hir2 Hne2 r2 Hd2 H2).
  - intros r Hr. apply in_map_iff in Hr as ([[a e] p] & <- & Hr). cbn [fst snd]. destruct (runs_agree_f _ _ _ H1 H2 Hr) as (p' & Hp' & Hr' & Hl).
    destruct (classic (p = p')) as [->|N]; auto. exfalso. destruct Hd as [_ Hd].
    destruct (@range_facts _ _ _ _ _ _ Hok1 _ a e p H1 Hr) as (Hp & _). destruct (Hd p p') as (z & Nz); auto.
Qed.
End Runs.

Section Runs3.
Variables (env1 env2 : champ_env) (g1 gi1 g2 gi2 : graph) (lv1 lv2 : list nat) (parts : list (list nat)) (f : list nat -> list nat) (s u : R) (g0 gf o0 of : R).
Hypothesis (Hs : 0 < s) (Hu : 0 < u) (Hok1 : champ_ok_3D env1 g1 gi1 lv1 parts) (Hok2 : champ_ok_3D env2 g2 gi2 lv2 (map f parts))
  (Hir1 : irredundant_hsi 3 (env_hsi env1)) (Hir2 : irredundant_hsi 3 (env_hsi env2)) (Hf1 : full_facets_hsi 3 (env_hsi env1))
  (Hobj : forall gamma omega c, In c parts -> multilayer_modularity g2 gi2 lv2 gamma (u * omega) (f c) = s * multilayer_modularity g1 gi1 lv1 gamma omega c).

Lemma obj_le_3D gamma omega c d : In c parts -> In d parts ->
  multilayer_modularity g2 gi2 lv2 gamma (u * omega) (f c) <= multilayer_modularity g2 gi2 lv2 gamma (u * omega) (f d) <->
  multilayer_modularity g1 gi1 lv1 gamma omega c <= multilayer_modularity g1 gi1 lv1 gamma omega d.
Proof.
  intros Hc Hd. rewrite !Hobj by auto. split; intros H.
  - apply (Rmult_le_reg_l s); auto.
  - apply Rmult_le_compat_l; lra.
Qed.

Lemma u_le x y : u * x <= u * y <-> x <= y.
Proof. split; intros H; [apply (Rmult_le_reg_l u); auto|apply Rmult_le_compat_l; lra]. Qed.

Lemma runs_agree_3D_f d1 d2 poly p : CHAMP_3D env1 g1 gi1 lv1 parts g0 gf o0 of = Ok d1 -> CHAMP_3D env2 g2 gi2 lv2 (map f parts) g0 gf (u * o0) (u * of) = Ok d2 ->
  In (poly, p) d1 -> exists poly' p', In p' parts /\ In (poly', f p') d2 /\ (forall gamma omega, in_polygon poly' (gamma, u * omega) <-> in_polygon poly (gamma, omega)) /\
    forall gamma omega, multilayer_modularity g1 gi1 lv1 gamma omega p = multilayer_modularity g1 gi1 lv1 gamma omega p'.
Proof.
  intros H1 H2 Hin.
  destruct (@domain_has_inside _ _ _ _ _ _ _ _ _ Hok1 Hir1 Hf1 _ poly p H1 Hin) as ([x0 x1] & eps & He & Hball).
  destruct (@domain_facts _ _ _ _ _ _ _ _ _ Hok1 _ poly p H1 Hin) as (Hp & _ & Hbox & Hopt).
  assert (Hne2 : map f parts <> []) by (intros Z; apply map_eq_nil in Z; rewrite Z in Hp; destruct Hp).
  set (cv := fun t => (x0 + t * (eps / 2), x1 + t * t * (eps / 2))).
  assert (Hcv : forall t, 0 < t < 1 -> in_polygon poly (cv t)).
  { clear - Hball He. intros t Ht. apply Hball; unfold cv; cbn [fst snd].
    - replace (x0 + t * (eps / 2) - x0) with (t * (eps / 2)) by ring. rewrite Rabs_pos_eq; nra.
    - replace (x1 + t * t * (eps / 2) - x1) with (t * t * (eps / 2)) by ring. assert (0 <= t * t <= 1) by nra. rewrite Rabs_pos_eq; nra. }
  destruct (@pigeon _ d2 (fun r t => 0 < t < 1 /\ in_polygon (fst r) (fst (cv t), u * snd (cv t)))) as ([poly' q'] & Hin' & HL).
  { intros t Ht. destruct (polygon_box Hbox (Hcv t Ht)) as [B1 B2].
    destruct (@domain_cover _ _ _ _ _ _ _ _ _ Hok2 _ (fst (cv t)) (u * snd (cv t)) Hne2 H2 B1) as (poly' & p' & Hi & Hq); [rewrite !u_le; auto|].
    exists (poly', p'). split; auto. }
  cbn [fst snd] in HL.
  destruct (@domain_facts _ _ _ _ _ _ _ _ _ Hok2 _ poly' q' H2 Hin') as (Hq' & _ & Hbox' & Hopt').
  apply in_map_iff in Hq' as (p' & <- & Hp').
  assert (Hopt1 : forall gamma omega c, in_polygon poly' (gamma, u * omega) -> In c parts -> multilayer_modularity g1 gi1 lv1 gamma omega c <= multilayer_modularity g1 gi1 lv1 gamma omega p').
  { intros gamma omega c Hg Hc. apply obj_le_3D; auto. apply Hopt'; auto. apply in_map; auto. }
  destruct (HL 1) as (t1 & T1 & _ & T1' & Q1); [lra|]. destruct (HL t1) as (t2 & T2 & _ & T2' & Q2); [lra|]. destruct (HL t2) as (t3 & T3 & _ & T3' & Q3); [lra|].
  assert (Hl : forall gamma omega, multilayer_modularity g1 gi1 lv1 gamma omega p = multilayer_modularity g1 gi1 lv1 gamma omega p').
  { apply (@same_plane g1 gi1 lv1 p p' (cv t1) (cv t2) (cv t3)).
    - unfold orient, cv. cbn [fst snd].
      replace ((x0 + t2 * (eps / 2) - (x0 + t1 * (eps / 2))) * (x1 + t3 * t3 * (eps / 2) - (x1 + t1 * t1 * (eps / 2))) -
        (x1 + t2 * t2 * (eps / 2) - (x1 + t1 * t1 * (eps / 2))) * (x0 + t3 * (eps / 2) - (x0 + t1 * (eps / 2))))
        with ((eps / 2) * (eps / 2) * ((t2 - t1) * ((t3 - t1) * (t3 - t2)))) by ring.
      repeat apply Rmult_integral_contrapositive_currified; lra.
    - intros x Hx. assert (K : in_polygon poly x /\ in_polygon poly' (fst x, u * snd x)) by (destruct Hx as [<-|[<-|[<-|[]]]]; split; auto).
      destruct K as [K K']. destruct x as [a b]. cbn [fst snd] in *. apply Rle_antisym; [apply Hopt1|apply Hopt]; auto. }
  exists poly', p'. split; auto. split; auto. split; auto.
  intros a b. rewrite (@domain_iff _ _ _ _ _ _ _ _ _ Hok1 _ poly p a b H1 Hin), (@domain_iff _ _ _ _ _ _ _ _ _ Hok2 _ poly' (f p') a (u * b) H2 Hin'). rewrite !u_le.
  split; intros (G1 & G2 & G3); (split; [auto|split; [auto|]]); intros c Hc.
  - rewrite Hl. apply obj_le_3D; auto. apply G3. apply in_map; auto.
  - apply in_map_iff in Hc as (c0 & <- & Hc). apply obj_le_3D; auto. rewrite <- Hl. apply G3. auto.
Qed.

Lemma runs_agree_3D_same d1 d2 poly p : u = 1 -> CHAMP_3D env1 g1 gi1 lv1 parts g0 gf o0 of = Ok d1 -> CHAMP_3D env2 g2 gi2 lv2 (map f parts) g0 gf o0 of = Ok d2 ->
  In (poly, p) d1 -> exists p', In p' parts /\ In (poly, f p') d2 /\
    forall gamma omega, multilayer_modularity g1 gi1 lv1 gamma omega p = multilayer_modularity g1 gi1 lv1 gamma omega p'.
Proof.
  intros U H1 H2 Hin. assert (H2' : CHAMP_3D env2 g2 gi2 lv2 (map f parts) g0 gf (u * o0) (u * of) = Ok d2) by (rewrite U, !Rmult_1_l; auto).
  destruct (runs_agree_3D_f _ _ H1 H2' Hin) as (poly' & p' & Hp & Hin' & HE & Hl). exists p'. split; auto. split; auto.
  assert (HE' : forall x, in_polygon poly x <-> in_polygon poly' x) by (intros [a b]; rewrite <- HE, U, Rmult_1_l; tauto).
  pose proof (@domains_convex _ _ _ _ _ _ _ _ _ _ poly p Hok1 Hir1 H1 Hin) as C1.
  pose proof (@domains_convex _ _ _ _ _ _ _ _ _ _ poly' (f p') Hok2 Hir2 H2 Hin') as C2.
  assert (poly = poly') as ->; [|exact Hin'].
  apply sorted_corners; auto; [apply same_corners; auto| |].
  - apply (@domain_sorted _ _ _ _ _ _ _ _ _ Hok1 _ poly p H1 Hin).
  - apply (@domain_sorted _ _ _ _ _ _ _ _ _ Hok2 _ poly' (f p') H2 Hin').
Qed.
End Runs3.

(** ** Estimates on proportional weighted edges *)
Lemma layer_adj_scale E E' lv s t i j :
  (forall e w, In (e, w) E -> nth (fst e) lv 0%nat = nth (snd e) lv 0%nat) -> (forall e w, In (e, w) E' -> nth (fst e) lv 0%nat = nth (snd e) lv 0%nat) ->
  w_adj E' i j = s * w_adj E i j -> w_adj (layer_edges E' lv t) i j = s * w_adj (layer_edges E lv t) i j.
Proof.
  assert (G : forall E, (forall e w, In (e, w) E -> nth (fst e) lv 0%nat = nth (snd e) lv 0%nat) -> w_adj (layer_edges E lv t) i j = (if Nat.eqb (nth i lv 0%nat) t then w_adj E i j else 0)).
  { clear. intros E H. rewrite !w_adj_rsum. unfold layer_edges. induction E as [|[[u v] w] E IH].
    - cbn [filter map]. rewrite rsum_nil. destruct (Nat.eqb _ _); lra.
    - cbn [filter map fst snd]. pose proof (H (u, v) w (or_introl eq_refl)) as Huv. cbn [fst snd] in Huv. rewrite rsum_cons.
      assert (IH' := IH (fun a x Hin => H a x (or_intror Hin))). clear IH.
      destruct (Nat.eqb_spec (nth u lv 0%nat) t) as [Et|Nt]; cbn [map fst snd]; rewrite ?rsum_cons, IH';
        destruct (Nat.eqb_spec (nth i lv 0%nat) t) as [Ei|Ni], (pair_dec (u, v) (i, j)) as [E1|E1], (pair_dec (u, v) (j, i)) as [E2|E2];
        try lra; try (inversion E1; subst; congruence); try (inversion E2; subst; congruence). }
  intros H H' Ha. rewrite !G by auto. destruct (Nat.eqb _ _); [auto|ring].
Qed.

Lemma valid_transfer g g' gi ws ws' lv model : vcount g' = vcount g -> (edges_within_layers g lv -> edges_within_layers g' lv) ->
  (forall t, 0 < weight_in (weighted_edges g ws) lv t -> 0 < weight_in (weighted_edges g' ws') lv t) ->
  valid_multilayer g gi ws lv model -> valid_multilayer g' gi ws' lv model.
Proof.
  intros V Hw Hp. unfold valid_multilayer, structural_rules. rewrite !Forall_cons_iff. cbn [fst]. rewrite V.
  intros (A1 & A2 & A3 & A4 & A5 & A6 & A7). split; auto. split; auto. split; auto. split; auto. split; [|split; auto].
  intros m Hm. apply in_map_iff in Hm as (t & <- & Ht). apply Hp. apply A5. apply in_map_iff. eauto.
Qed.

Lemma go_scaled env g g' gi lv c omega_max model ws ws' s :
  wf_graph g -> wf_graph g' -> wf_graph gi -> vcount g' = vcount g ->
  weights (weighted_e env g) = Some ws -> weights (weighted_e env g') = Some ws' -> (forall w, In w ws -> 0 < w) -> (forall w, In w ws' -> 0 < w) ->
  valid_multilayer g gi ws lv model -> valid_multilayer g' gi ws' lv model -> is_model model -> 0 < s ->
  (forall t i j, (i < vcount g)%nat -> (j < vcount g)%nat -> w_adj (layer_edges (weighted_edges g' ws') lv t) i j = s * w_adj (layer_edges (weighted_edges g ws) lv t) i j) ->
  snd (gamma_omega_estimate env g' gi lv c omega_max model None None None None) = snd (gamma_omega_estimate env g gi lv c omega_max model None None None None).
Proof.
  intros W W' Wi V Hw Hw' Pw Pw' Hv Hv' Hm Sp Ha.
  destruct (Nat.eq_dec (length c) (vcount g)) as [L|L].
  2: { unfold gamma_omega_estimate, leiden_part_with_membership. rewrite V. destruct (or_default None (layer_count_T lv)); [|reflexivity]. cbn [bind].
       destruct (Nat.eqb_spec (length c) (vcount g)); [contradiction|]. reflexivity. }
  assert (T : forall h ws, wf_graph h -> vcount h = vcount g -> weights (weighted_e env h) = Some ws -> (forall w, In w ws -> 0 < w) -> valid_multilayer h gi ws lv model ->
    exists pers p, is_persistence model gi lv (vcount g / S (list_max lv)) (S (list_max lv)) c pers /\ is_copying_probability (ee_fsolve env) model (list_max (map S c)) (S (list_max lv)) pers p /\
      snd (estimate_multilayer_SBM_parameters env h gi lv (mkPart (list_max (map S c)) c) model None (Some (S (list_max lv))) None None) =
      (let n := vcount g in let T := S (list_max lv) in let E := weighted_edges h ws in
       Ok (observed_within_layers n E lv T c / expected_within_layers n E lv T c,
           (if Req_EM_T (expected_between_layers n E lv T c) 0 then 0 else observed_between_layers n E lv T c / expected_between_layers n E lv T c), p, list_max (map S c)))).
  { clear - Wi L Hm. intros h ws Wh Vh Hwh P1 Hvh.
    assert (Sh : weighted_e env h = mkGraph (vcount h) (directed h) (edges h) (Some ws)).
    { unfold weighted_e in *. destruct (ee_contains env h); cbn in Hwh; destruct h as [x y z t]; cbn in *; subst; congruence. }
    assert (Hvh' : valid_multilayer (weighted_e env h) gi ws lv model) by (rewrite Sh; exact Hvh).
    pose proof (C31_positive_weights (weighted_e env h) gi ws lv c model (weighted_e_wf env Wh) Hwh P1 Hvh' ltac:(rewrite weighted_e_vcount; congruence)) as PW.
    cbv zeta in PW. destruct PW as (PW & _). unfold weighted_edges in PW. rewrite weighted_e_vcount, weighted_e_edges, Vh in PW.
    destruct (C31_estimates env h (weighted_e env h) gi ws lv c (list_max (map S c)) model None (Some (S (list_max lv))) None None Wh Wi) as (pers & p & Q1 & Q2 & Q3); auto.
    - apply weighted_e_defaulted; auto.
    - congruence.
    - intros l Hl. apply In_nth with (d := 0%nat) in Hl as (v & Hv1 & <-). apply list_max_label; auto.
    - left; auto.
    - right; auto.
    - left; auto.
    - left; auto.
    - unfold weighted_edges. rewrite weighted_e_edges, Vh. lra.
    - exists pers, p. rewrite Vh in Q1. split; [exact Q1|]. split; [exact Q2|]. rewrite Q3. cbn [snd]. unfold weighted_edges. rewrite weighted_e_edges, Vh. reflexivity. }
  destruct (T g ws W eq_refl Hw Pw Hv) as (pers & p & P1 & P2 & P3). destruct (T g' ws' W' V Hw' Pw' Hv') as (pers' & p' & P1' & P2' & P3'). clear T.
  assert (pers' = pers) by (eapply persistence_fun; eauto). subst pers'. assert (p' = p) by (eapply copying_fun; eauto). subst p'.
  assert (Sums : let n := vcount g in let T := S (list_max lv) in let E := weighted_edges g ws in let E' := weighted_edges g' ws' in
    observed_within_layers n E' lv T c = s * observed_within_layers n E lv T c /\ expected_within_layers n E' lv T c = s * expected_within_layers n E lv T c /\
    observed_between_layers n E' lv T c = s * observed_between_layers n E lv T c /\ expected_between_layers n E' lv T c = s * expected_between_layers n E lv T c).
  { cbv zeta. unfold observed_within_layers, expected_within_layers, observed_between_layers, expected_between_layers.
    rewrite <- !sum_to_scale.
    assert (Htot : forall t, (t < S (list_max lv))%nat -> total_strength (vcount g) (layer_edges (weighted_edges g ws) lv t) <> 0).
    { intros t Ht. apply (@acc_total g gi lv model ws W (valid_accepted W Hv) t Ht). }
    split; [|split; [|split]]; apply sum_to_ext; intros t Ht.
    - apply (@observed_scale (vcount g) _ _ s (Ha t) (delta c) (delta c)). auto.
    - apply (@expected_scale (vcount g) _ _ s) with (h := delta c) (h' := delta c); auto; lra.
    - apply (@observed_scale (vcount g) _ _ s (Ha t) (fun i j => 1 - delta c i j) (fun i j => 1 - delta c i j)). auto.
    - apply (@expected_scale (vcount g) _ _ s) with (h := fun i j => 1 - delta c i j) (h' := fun i j => 1 - delta c i j); auto; lra. }
  cbv zeta in Sums. destruct Sums as (E1 & E2 & E3 & E4).
  cbv zeta in P3, P3'. rewrite E1, E2, E3, E4 in P3'. clear E1 E2 E3 E4.
  unfold gamma_omega_estimate, leiden_part_with_membership. rewrite V, L, Nat.eqb_refl.
  assert (ET : or_default None (layer_count_T lv) = Ok (S (list_max lv))).
  { cbn [or_default]. unfold layer_count_T. rewrite (@py_max_list lv (list_max lv)); auto; [cbn [bind]; f_equal; lia|].
    intros Z. pose proof (@acc_facts g gi lv model ws W (valid_accepted W Hv)) as (F1 & _). rewrite Z in F1. cbn in F1. lia. }
  rewrite ET. cbn [bind].
  destruct (estimate_multilayer_SBM_parameters env g' gi lv (mkPart (list_max (map S c)) c) model None (Some (S (list_max lv))) None None) as [h1 r1].
  destruct (estimate_multilayer_SBM_parameters env g gi lv (mkPart (list_max (map S c)) c) model None (Some (S (list_max lv))) None None) as [h2 r2].
  cbn [snd] in P3, P3' |- *. subst r1 r2.
  set (OW := observed_within_layers _ _ _ _ _) in *. set (EW := expected_within_layers _ _ _ _ _) in *. set (OB := observed_between_layers _ _ _ _ _) in *. set (EB := expected_between_layers _ _ _ _ _) in *.
  assert (R1 : s * OW / (s * EW) = OW / EW).
  { assert (0 < EW) by exact (@acc_EW g gi lv model _ W (valid_accepted W Hv) c L Pw). field. split; lra. }
  assert (R2 : (if Req_EM_T (s * EB) 0 then 0 else s * OB / (s * EB)) = (if Req_EM_T EB 0 then 0 else OB / EB)).
  { destruct (Req_EM_T EB 0) as [Z|Z]; destruct (Req_EM_T (s * EB) 0) as [Y|Y]; auto.
    - exfalso. apply Y. rewrite Z. ring.
    - exfalso. apply Rmult_integral in Y as [Y|Y]; [lra|auto].
    - field. split; [auto|lra]. }
  rewrite R1, R2. reflexivity.
Qed.

(** ** Isolated vertices *)
Lemma sum_to_more f n k : (forall i, (n <= i < n + k)%nat -> f i = 0) -> sum_to (n + k) f = sum_to n f.
Proof.
  induction k as [|k IH]; intros H; [rewrite Nat.add_0_r; reflexivity|]. rewrite Nat.add_succ_r, sum_to_S. rewrite IH by (intros; apply H; lia). rewrite (H (n + k)%nat) by lia. lra.
Qed.
Lemma sum_to_zero f n : (forall i, (i < n)%nat -> f i = 0) -> sum_to n f = 0.
Proof. intros H. rewrite <- (Nat.add_0_l n). rewrite (@sum_to_more f 0 n); [reflexivity|]. intros i Hi. apply H. lia. Qed.
Lemma sum2_more F n k : (forall i j, (n <= i)%nat \/ (n <= j)%nat -> F i j = 0) ->
  sum_to (n + k) (fun i => sum_to (n + k) (fun j => F i j)) = sum_to n (fun i => sum_to n (fun j => F i j)).
Proof.
  intros H. rewrite sum_to_more.
  - apply sum_to_ext. intros i Hi. apply sum_to_more. intros j Hj. apply H. lia.
  - intros i Hi. apply sum_to_zero. intros j Hj. apply H. lia.
Qed.
Lemma delta_app c d i j : (i < length c)%nat -> (j < length c)%nat -> delta (c ++ d) i j = delta c i j.
Proof. intros Hi Hj. unfold delta. rewrite !app_nth1 by auto. reflexivity. Qed.

Section Padded.
Variables (g : graph) (k : nat) (W : wf_graph g).
Let n := vcount g.

Lemma pd_wf : wf_graph (padded k g).
Proof. destruct W as [H1 H2]. split; [|exact H2]. intros u v H. cbn [padded vcount edges] in *. destruct (H1 u v H). lia. Qed.

Lemma pd_arcs i j : (n <= i)%nat \/ (n <= j)%nat -> arcs (edges g) i j = 0.
Proof.
  intros H. unfold arcs. change 0 with (INR 0). f_equal. apply count_occ_not_In. intros Hin. destruct W as [Wv _]. destruct (Wv i j Hin). subst n. lia.
Qed.
Lemma pd_adj0 i j : (n <= i)%nat \/ (n <= j)%nat -> adjacency g i j = 0.
Proof. intros H. unfold adjacency. rewrite !pd_arcs by tauto. destruct (directed g); lra. Qed.
Lemma pd_adj i j : adjacency (padded k g) i j = adjacency g i j.
Proof. reflexivity. Qed.

Lemma pd_k_out i : k_out (padded k g) i = k_out g i.
Proof. unfold k_out. cbn [padded vcount]. rewrite sum_to_more; [reflexivity|]. intros j Hj. rewrite pd_adj. apply pd_adj0. subst n. lia. Qed.
Lemma pd_k_in i : k_in (padded k g) i = k_in g i.
Proof. unfold k_in. cbn [padded vcount]. rewrite sum_to_more; [reflexivity|]. intros j Hj. rewrite pd_adj. apply pd_adj0. subst n. lia. Qed.
Lemma pd_k_out0 i : (n <= i)%nat -> k_out g i = 0.
Proof. intros H. apply sum_to_zero. intros j Hj. apply pd_adj0. auto. Qed.
Lemma pd_k_in0 i : (n <= i)%nat -> k_in g i = 0.
Proof. intros H. apply sum_to_zero. intros j Hj. apply pd_adj0. auto. Qed.

Variables (c d : list nat).
Lemma pd_A : (n <= length c)%nat -> A_of (padded k g) (c ++ d) = A_of g c.
Proof.
  intros L. unfold A_of. cbn [padded vcount]. rewrite sum2_more.
  - apply sum_to_ext; intros i Hi. apply sum_to_ext; intros j Hj. rewrite pd_adj, delta_app by (subst n; lia). reflexivity.
  - intros i j H. rewrite pd_adj, pd_adj0 by auto. ring.
Qed.

Lemma null_zero x y z w b : (b = true -> x = 0 \/ y = 0) -> (b = false -> z = 0 \/ y = 0) -> (if b then x * y / w else z * y / (2 * w)) = 0.
Proof. unfold Rdiv. destruct b; intros H1 H2; [destruct (H1 eq_refl) as [-> | ->]|destruct (H2 eq_refl) as [-> | ->]]; ring. Qed.

Lemma pd_P : (n <= length c)%nat -> P_of (padded k g) (c ++ d) = P_of g c.
Proof.
  intros L. unfold P_of. cbn [padded vcount]. rewrite sum2_more.
  - apply sum_to_ext; intros i Hi. apply sum_to_ext; intros j Hj. rewrite !pd_k_out, !pd_k_in, delta_app by (subst n; lia). reflexivity.
  - intros i j H. rewrite !pd_k_out, !pd_k_in. cbn [padded directed]. rewrite null_zero; [ring| |]; intros _; (destruct H as [H|H]; [left; (apply pd_k_in0 || apply pd_k_out0); auto|right; apply pd_k_out0; auto]).
Qed.

Lemma pd_modularity gamma : length c = n -> modularity (padded k g) gamma (c ++ d) = modularity g gamma c.
Proof. intros L. rewrite !modularity_AP, pd_A, pd_P by lia. reflexivity. Qed.

Variables (lv lv' : list nat).
Lemma pd_m_layer t : length lv = n -> m_layer (padded k g) (lv ++ lv') t = m_layer g lv t.
Proof.
  intros L. unfold m_layer. cbn [padded edges]. f_equal. f_equal. apply filter_ext_in. intros [u v] H. destruct W as [Wv _]. destruct (Wv u v H). cbn [fst snd]. rewrite !app_nth1 by (subst n; lia). reflexivity.
Qed.
Lemma pd_P3 : length c = n -> length lv = n -> P3_of (padded k g) (lv ++ lv') (c ++ d) = P3_of g lv c.
Proof.
  intros L L'. unfold P3_of. cbn [padded vcount]. rewrite sum2_more.
  - apply sum_to_ext; intros i Hi. apply sum_to_ext; intros j Hj. unfold layer_null. rewrite !pd_k_out, !pd_k_in, !delta_app, pd_m_layer by (subst n; lia).
    rewrite app_nth1 by (subst n; lia). reflexivity.
  - intros i j H. unfold layer_null. rewrite !pd_k_out, !pd_k_in. cbn [padded directed]. rewrite null_zero; [ring| |]; intros _; (destruct H as [H|H]; [left; (apply pd_k_in0 || apply pd_k_out0); auto|right; apply pd_k_out0; auto]).
Qed.
Lemma pd_within : length lv = n -> edges_within_layers g lv -> edges_within_layers (padded k g) (lv ++ lv').
Proof. intros L H u v Huv. cbn [padded edges] in Huv. destruct W as [Wv _]. destruct (Wv u v Huv). rewrite !app_nth1 by (subst n; lia). apply H; auto. Qed.
Lemma pd_has : length lv = n -> (forall l, In l lv' -> In l lv) -> (forall l, In l lv -> exists u v, In (u, v) (edges g) /\ nth u lv 0%nat = l) ->
  forall l, In l (lv ++ lv') -> exists u v, In (u, v) (edges (padded k g)) /\ nth u (lv ++ lv') 0%nat = l.
Proof.
  intros L Hsub H l Hl. assert (Hl' : In l lv) by (apply in_app_or in Hl as [Hl|Hl]; auto). destruct (H l Hl') as (u & v & E & Q). exists u, v. split; auto.
  destruct W as [Wv _]. destruct (Wv u v E). rewrite app_nth1 by (subst n; lia). auto.
Qed.

(** the estimates *)
Variables (ws : list R).
Let E := combine (edges g) ws.
Lemma pd_w_arcs i j : (n <= i)%nat \/ (n <= j)%nat -> w_arcs E i j = 0.
Proof.
  intros H. assert (R : forall e w, In (e, w) E -> (fst e < n)%nat /\ (snd e < n)%nat).
  { intros [u v] w Hin. apply in_combine_l in Hin. destruct W as [Wv _]. destruct (Wv u v Hin). cbn. auto. }
  unfold w_arcs. induction E as [|[e w] E' IH]; [reflexivity|]. cbn [map fold_right fst snd]. rewrite IH by (intros; eapply R; right; eauto).
  destruct (pair_dec e (i, j)) as [->|]; [|lra]. destruct (R (i, j) w (or_introl eq_refl)) as [A B]. cbn [fst snd] in A, B. lia.
Qed.
Lemma pd_w_adj i j : (n <= i)%nat \/ (n <= j)%nat -> w_adj E i j = 0.
Proof. intros H. unfold w_adj. rewrite !pd_w_arcs by tauto. ring. Qed.
Lemma pd_strength i : strength (n + k) E i = strength n E i.
Proof. unfold strength. apply sum_to_more. intros j Hj. apply pd_w_adj. lia. Qed.
Lemma pd_strength0 i : (n <= i)%nat -> strength n E i = 0.
Proof. intros H. apply sum_to_zero. intros j Hj. apply pd_w_adj. auto. Qed.
Lemma pd_total : total_strength (n + k) E = total_strength n E.
Proof. unfold total_strength. rewrite sum_to_more; [apply sum_to_ext; intros; apply pd_strength|]. intros i Hi. rewrite pd_strength. apply pd_strength0. lia. Qed.
Lemma pd_null i j : null_weight (n + k) E i j = null_weight n E i j.
Proof. unfold null_weight. rewrite !pd_strength, pd_total. reflexivity. Qed.
Lemma pd_null0 i j : (n <= i)%nat \/ (n <= j)%nat -> null_weight n E i j = 0.
Proof. intros [H|H]; unfold null_weight, Rdiv; rewrite (pd_strength0 H); ring. Qed.
Lemma pd_sbm : length c = n ->
  observed_within (n + k) E (c ++ d) = observed_within n E c /\ expected_within (n + k) E (c ++ d) = expected_within n E c /\
  observed_between (n + k) E (c ++ d) = observed_between n E c /\ expected_between (n + k) E (c ++ d) = expected_between n E c.
Proof.
  intros L. unfold observed_within, expected_within, observed_between, expected_between.
  split; [|split; [|split]]; (rewrite sum2_more; [apply sum_to_ext; intros i Hi; apply sum_to_ext; intros j Hj; rewrite ?pd_null, delta_app by lia; reflexivity|]);
    intros i j H; rewrite ?pd_null, ?pd_null0, ?pd_w_adj by auto; ring.
Qed.
End Padded.
