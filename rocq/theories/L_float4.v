(** CHAMP with rounded coefficients and an inexact intersection routine. *)
From Verif Require Import PyBase PyGraph M_partition M_pool M_champ M_leiden M_estimation_utils M_float Spec Spec_graph Spec_champ Spec_float
  L_base L_sort L_canon L_modularity L_modularity3 L_parallel L_bounds L_halfspace L_champ L_champ2 L_champ3 L_float L_float2 L_float3 Properties_coefficients.
From Flocq Require Import Core.Raux.
From Coq Require Import Classical.
Set Implicit Arguments.
Open Scope R_scope.

(** ** Coefficients of one layer *)
Definition fl_P_of (g : graph) (c : list nat) : R := binary64 (P_of g c).

Lemma total_eq g : total g = INR (if directed g then ecount g else 2 * ecount g).
Proof. unfold total, m_edges, ecount. destruct (directed g); auto. rewrite mult_INR. simpl. lra. Qed.

Lemma fl_serial_2D g parts : wf_graph g -> edges g <> [] -> (forall c, In c parts -> length c = vcount g) ->
  fl_partition_coefficients_2D_serial g parts = Ok (map (A_of g) parts, map (fun c => Fin (fl_P_of g c)) parts).
Proof.
  intros Hw He Hlen. unfold fl_partition_coefficients_2D_serial.
  rewrite (mapM_ok (internal_hat g) (A_of g)) by (intros c Hc; apply internal_hat_ok; auto; rewrite (Hlen c Hc); auto).
  cbn [bind].
  assert (H : exists nums, mapM (p_numerator g) parts = Ok nums /\
            map (fun x => fl_np_div (INR x) (INR (if directed g then ecount g else 2 * ecount g))) nums = map (fun c => Fin (fl_P_of g c)) parts).
  { induction parts as [|c parts IH]; [exists []; auto|].
    destruct IH as (nums & Hn & Hm); [intros; apply Hlen; simpl; auto|].
    destruct (p_hat_ok c Hw He) as (x & Hx & Hv); [apply Hlen; simpl; auto|].
    exists (x :: nums). cbn [mapM map]. rewrite Hx, Hn. cbn [bind]. rewrite Hm. split; auto. f_equal.
    unfold np_div in Hv. unfold fl_np_div. destruct (Req_EM_T _ 0); [discriminate|]. inversion Hv as [Hv']. unfold fl_P_of. rewrite <- Hv'. reflexivity. }
  destruct H as (nums & Hn & Hm). rewrite Hn. cbn [bind]. rewrite Hm. reflexivity.
Qed.

Lemma concat_fst {A B C} (f : A -> B) (h : A -> C) ls : concat (map fst (map (fun l => (map f l, map h l)) ls)) = map f (concat ls).
Proof. induction ls as [|l ls IH]; [reflexivity|]. cbn [map concat fst]. rewrite IH, map_app. reflexivity. Qed.
Lemma concat_snd {A B C} (f : A -> B) (h : A -> C) ls : concat (map snd (map (fun l => (map f l, map h l)) ls)) = map h (concat ls).
Proof. induction ls as [|l ls IH]; [reflexivity|]. cbn [map concat snd]. rewrite IH, map_app. reflexivity. Qed.

Lemma fl_pool_2D cpus order st g parts : valid_pool cpus order parts -> wf_graph g -> edges g <> [] -> (forall c, In c parts -> length c = vcount g) ->
  fl_partition_coefficients_2D cpus order g parts st = Ok (map (A_of g) parts, map Fin (map (fl_P_of g) parts)).
Proof.
  intros (Hc & Ho & Hn) Hw He Hl. rewrite map_map. unfold fl_partition_coefficients_2D.
  assert (E : (if st then fl_partition_coefficients_2D_serial g parts
     else let! results := starmap order (fl_partition_coefficients_2D_serial g) (partition_chunks cpus parts) in
          Ok (concat (map fst results), concat (map snd results))) = Ok (map (A_of g) parts, map (fun c => Fin (fl_P_of g c)) parts)).
  { destruct st; [apply fl_serial_2D; auto|]. apply bind_ok. set (F := fun ps => (map (A_of g) ps, map (fun c => Fin (fl_P_of g c)) ps)).
    exists (map F (partition_chunks cpus parts)). split.
    - apply starmap_iff; [rewrite partition_chunks_length; auto|]. apply mapM_ok. intros ps Hps. apply fl_serial_2D; auto. intros c Hin. apply Hl.
      rewrite <- (partition_chunks_concat parts Hc Hn). apply in_concat. eauto.
    - unfold F. rewrite concat_fst, concat_snd, (partition_chunks_concat parts Hc Hn). reflexivity. }
  rewrite E. cbn [bind fst snd]. rewrite !map_length, Nat.eqb_refl. reflexivity.
Qed.

(** Each coefficient is an integer over the common denominator. *)
Lemma P_of_ratio g c : wf_graph g -> edges g <> [] -> length c = vcount g ->
  let d := (if directed g then ecount g else 2 * ecount g)%nat in exists x, P_of g c = INR x / INR d /\ (x <= d * d)%nat /\ (0 < d)%nat.
Proof.
  intros Hw He Hlen d. destruct (p_hat_ok c Hw He Hlen) as (x & Hx & Hv). fold d in Hv. unfold np_div in Hv. destruct (Req_EM_T (INR d) 0) as [|N]; [discriminate|].
  inversion Hv as [Hv']. exists x. split; auto. assert (D0 : (0 < d)%nat) by (destruct d; [simpl in N; congruence|lia]). split; auto.
  pose proof (P_of_bounds c Hw He) as B. rewrite total_eq in B. fold d in B. rewrite <- Hv' in B. apply INR_le. rewrite mult_INR.
  assert (0 < INR d) by (apply lt_0_INR; auto). destruct B as [_ B]. apply (Rmult_le_compat_r (INR d)) in B; [|lra]. unfold Rdiv in B. rewrite Rmult_assoc, Rinv_l, Rmult_1_r in B by auto. exact B.
Qed.

Section Ratio.
Variable d : nat.
Hypotheses (D0 : (0 < d)%nat) (D1 : (Z.of_nat d <= 2 ^ 25)%Z).

Lemma d_pos : 1 <= INR d <= 33554432.
Proof. split; [apply (le_INR 1); lia|]. rewrite INR_IZR_INZ. apply IZR_le. lia. Qed.

Lemma ratio_rel x : Rabs (binary64 (INR x / INR d) - INR x / INR d) <= u64 * (INR x / INR d).
Proof.
  pose proof d_pos as Hd. pose proof u64_pos as U. pose proof u64_eq as U1. destruct x as [|x].
  - cbn [INR]. unfold Rdiv. rewrite Rmult_0_l, b64_0, Rminus_0_r, Rabs_R0. lra.
  - apply abs_rel. apply b64_rel_pos, small200. assert (1 <= INR (S x)) by (apply (le_INR 1); lia). apply le_div; nra.
Qed.

Lemma ratio_lt x y : (x < y)%nat -> (y <= d * d)%nat -> binary64 (INR x / INR d) < binary64 (INR y / INR d).
Proof.
  intros Hxy Hy. pose proof d_pos as Hd. pose proof u64_pos as U. pose proof u64_eq as U1.
  pose proof (ratio_rel x) as X. pose proof (ratio_rel y) as Y. apply Rabs_le_inv in X, Y.
  assert (Sx : INR x + 1 <= INR y) by (rewrite <- S_INR; apply le_INR; lia). assert (By : INR y <= INR d * INR d) by (rewrite <- mult_INR; apply le_INR; auto).
  assert (DD : INR d * INR d <= 33554432 * 33554432) by (apply Rmult_le_compat; lra). pose proof (pos_INR x) as X0.
  assert (H : (1 + u64) * INR x < (1 - u64) * INR y) by nra.
  assert (I : 0 < / INR d) by (apply Rinv_0_lt_compat; lra). unfold Rdiv in *.
  assert ((1 + u64) * INR x * / INR d < (1 - u64) * INR y * / INR d) by (apply Rmult_lt_compat_r; auto). lra.
Qed.
End Ratio.

(** ** Rows *)
Lemma norm_bound (h : halfspace) : row_norm h <= rsum (map Rabs (normal h)) + Rabs (offset h).
Proof.
  unfold row_norm. set (l := normal h). set (o := offset h). clearbody l o.
  assert (H : 0 <= rsum (map Rabs l) /\ rsum (map (fun x => x * x) l) <= rsum (map Rabs l) * rsum (map Rabs l)).
  { induction l as [|a l [I1 I2]]; [cbn; rewrite ?rsum_nil; lra|]. cbn [map]. rewrite !rsum_cons. pose proof (Rabs_pos a).
    assert (a * a = Rabs a * Rabs a) by (rewrite <- Rabs_mult; symmetry; apply Rabs_pos_eq; nra). split; nra. }
  destruct H as [H1 H2]. pose proof (Rabs_pos o). assert (E : o * o = Rabs o * Rabs o) by (rewrite <- Rabs_mult; symmetry; apply Rabs_pos_eq; nra).
  apply Rle_trans with (sqrt ((rsum (map Rabs l) + Rabs o) * (rsum (map Rabs l) + Rabs o))); [|right; apply sqrt_square; lra].
  apply sqrt_le_1_alt. nra.
Qed.

Lemma facets_some n out d : facets_by_halfspace n out = Ok d -> forall v is_, In (v, is_) out -> v <> None.
Proof.
  unfold facets_by_halfspace. generalize (@nil (nat * list (list R))). induction out as [|[v is_] out IH]; intros d0 H v' is' Hin; [destruct Hin|].
  cbn [foldM fst snd] in H. destruct v as [v|]; [|discriminate]. cbn [bind] in H. destruct Hin as [E|Hin]; [inversion E; discriminate|]. eapply IH; eauto.
Qed.

(** Row [h] evaluated at a reported point. *)
Lemma near_row eps h x b : nonzero h -> 0 <= eps -> row_norm h <= b -> (hval (normalise h) x <= eps -> hval h x <= eps * b) /\ (- eps <= hval (normalise h) x -> - (eps * b) <= hval h x).
Proof.
  intros Hn He Hb. pose proof (row_norm_pos h Hn) as Hp. rewrite hval_normalise. assert (E : hval h x = hval h x / row_norm h * row_norm h) by (field; lra).
  set (y := hval h x / row_norm h) in *. assert (eps * row_norm h <= eps * b) by (apply Rmult_le_compat_l; auto). split; intros H1; rewrite E; nra.
Qed.

(** ** CHAMP_2D after the coefficients *)
Definition champ_body_2D (env : champ_env) (a_hats p_hats : list R) (parts : list (list nat)) (g0 gf : R) : res (list (R * R * list nat)) :=
  let! hs := champ_halfspaces_2D a_hats p_hats g0 gf in
  let! pt := interior_point env hs in
  let! out := env_hsi env hs pt in
  let! d := facets_by_halfspace (length parts) out in
  let! ranges := mapM (range_of_facet parts) d in
  Ok (sort_by (fun a b => Rleb (fst (fst a)) (fst (fst b))) ranges).

Section Near2.
Variables (env : champ_env) (eps : R) (parts : list (list nat)) (fA fP : list nat -> R) (g0 gf : R).
Hypotheses (He : 0 <= eps) (Hlp : lp_answers_all_variables (env_lp env)) (Hhsi : near_hsi 2 eps (env_hsi env)).

Lemma near_ranges ranges s e part : champ_body_2D env (map fA parts) (map fP parts) parts g0 gf = Ok ranges -> In (s, e, part) ranges ->
  In part parts /\ s <= e /\ g0 - eps * (1 + Rabs g0) <= s /\ e <= gf + eps * (1 + Rabs gf) /\
  forall gamma c, s <= gamma <= e -> In c parts ->
    fA c - gamma * fP c <= fA part - gamma * fP part + eps * ((Rabs (fA c) + Rabs (fP c) + 1) + (Rabs (fA part) + Rabs (fP part) + 1)).
Proof.
  unfold champ_body_2D. intros H Hin. apply bind_ok in H as (hs & Hhs & H). apply bind_ok in H as (pt & Hpt & H). apply bind_ok in H as (out & Hout & H).
  apply bind_ok in H as (d & Hd & H). apply bind_ok in H as (rs & Hrs & H). inversion H; subst ranges. clear H.
  destruct (@interior_point_2D env _ _ _ _ hs pt Hlp Hhs Hpt) as [Hl Hs].
  pose proof (Hhsi (bounded_2D _ _ _ _ Hhs) Hl Hs Hout) as Hnear.
  destruct (facets_ok (length parts) out (facets_some _ _ Hd)) as (d' & Hd' & F1 & F2 & F3). assert (d' = d) by congruence. subst d'.
  destruct (@range_origin parts d rs (s, e, part) Hrs Hin) as ([i vs] & Hdi & Hr).
  destruct (F2 i vs Hdi) as (Hi & _ & Hvs). clear F1 F2 F3.
  destruct (range_of_facet_inv _ _ _ Hr) as (v1 & v2 & rest & x1 & x2 & Evs & Hx1 & Hx2 & Hpart & -> & ->).
  destruct (champ2_inv _ _ _ _ Hhs) as (top & bottom & _ & _ & E). set (rows := combine (map fA parts) (map fP parts)) in *.
  assert (Hrow : nth_error rows i = Some (fA part, fP part)) by (unfold rows; rewrite combine_map_nth, Hpart; reflexivity).
  assert (NZ : forall a p, nonzero (mkH [- p; -1] a)) by (intros; exists (-1); simpl; split; [auto|lra]).
  assert (NB : forall a p, row_norm (mkH [- p; -1] a) <= Rabs a + Rabs p + 1).
  { intros a p. eapply Rle_trans; [apply norm_bound|]. cbn [normal offset map]. rewrite !rsum_cons, rsum_nil, Rabs_Ropp. replace (Rabs (-1)) with 1 by (rewrite Rabs_left; lra). lra. }
  assert (Hpts : forall v, In v vs -> exists u y, v = [u; y] /\ g0 - eps * (1 + Rabs g0) <= u <= gf + eps * (1 + Rabs gf) /\
      y - (fA part - u * fP part) <= eps * (Rabs (fA part) + Rabs (fP part) + 1) /\
      forall c, In c parts -> fA c - u * fP c - y <= eps * (Rabs (fA c) + Rabs (fP c) + 1)).
  { intros v Hv. assert (Hli : In (Some v) (listed out i)) by (rewrite <- Hvs; apply in_map; auto). apply in_listed in Hli as (is_ & Hin' & Hi').
    destruct (Hnear v is_ Hin') as (Hlen & Hle & Hge). destruct (list2 _ Hlen) as (u & y & ->). exists u, y. split; auto. split; [split|split].
    - assert (Hb : In (normalise (mkH [-1; 0] g0)) hs) by (rewrite E; apply in_map, in_or_app; right; simpl; auto).
      destruct (@near_row eps (mkH [-1; 0] g0) [u; y] (1 + Rabs g0)) as [B _]; auto.
      { exists (-1). simpl. split; [auto|lra]. }
      { eapply Rle_trans; [apply norm_bound|]. cbn [normal offset map]. rewrite !rsum_cons, rsum_nil, Rabs_R0. replace (Rabs (-1)) with 1 by (rewrite Rabs_left; lra). lra. }
      specialize (B (Hle _ Hb)). rewrite hval2 in B. lra.
    - assert (Hb : In (normalise (mkH [1; 0] (- gf))) hs) by (rewrite E; apply in_map, in_or_app; right; simpl; auto).
      destruct (@near_row eps (mkH [1; 0] (- gf)) [u; y] (1 + Rabs gf)) as [B _]; auto.
      { exists 1. simpl. split; [auto|lra]. }
      { eapply Rle_trans; [apply norm_bound|]. cbn [normal offset map]. rewrite !rsum_cons, rsum_nil, Rabs_R0, Rabs_Ropp, Rabs_R1. lra. }
      specialize (B (Hle _ Hb)). rewrite hval2 in B. lra.
    - assert (Hn : nth_error hs i = Some (normalise (mkH [- fP part; -1] (fA part)))).
      { rewrite E. apply map_nth_error. rewrite nth_error_app1 by (rewrite map_length; apply nth_error_Some; rewrite Hrow; discriminate). rewrite (map_nth_error _ _ _ Hrow). reflexivity. }
      destruct (@near_row eps (mkH [- fP part; -1] (fA part)) [u; y] (Rabs (fA part) + Rabs (fP part) + 1)) as [_ B]; auto.
      specialize (B (Hge _ _ Hi' Hn)). rewrite hval2 in B. lra.
    - intros c Hc. assert (Hb : In (normalise (mkH [- fP c; -1] (fA c))) hs).
      { rewrite E. apply in_map, in_or_app. left. apply in_map_iff. exists (fA c, fP c). split; auto. apply combine_map_in; auto. }
      destruct (@near_row eps (mkH [- fP c; -1] (fA c)) [u; y] (Rabs (fA c) + Rabs (fP c) + 1)) as [B _]; auto.
      specialize (B (Hle _ Hb)). rewrite hval2 in B. lra. }
  destruct (Hpts v1) as (u1 & y1 & -> & B1 & T1 & M1); [subst vs; simpl; auto|]. destruct (Hpts v2) as (u2 & y2 & -> & B2 & T2 & M2); [subst vs; simpl; auto|].
  simpl in Hx1, Hx2. inversion Hx1; inversion Hx2; subst x1 x2. split; [eapply nth_error_In; eauto|].
  pose proof (Rmin_l u1 u2). pose proof (Rmax_l u1 u2). split; [lra|]. split; [apply Rmin_glb; lra|]. split; [apply Rmax_lub; lra|].
  intros gamma c Hg Hc. specialize (M1 c Hc). specialize (M2 c Hc).
  set (K := eps * (Rabs (fA c) + Rabs (fP c) + 1)) in *. set (K' := eps * (Rabs (fA part) + Rabs (fP part) + 1)) in *.
  rewrite Rmult_plus_distr_l. fold K K'. set (a := fA part) in *. set (p := fP part) in *. set (a' := fA c) in *. set (p' := fP c) in *.
  assert (Q1 : 0 <= (a - u1 * p) - (a' - u1 * p') + (K + K')) by lra. assert (Q2 : 0 <= (a - u2 * p) - (a' - u2 * p') + (K + K')) by lra.
  assert (Hb : (u1 <= gamma <= u2) \/ (u2 <= gamma <= u1)) by (unfold Rmin, Rmax in Hg; destruct (Rle_dec u1 u2); lra).
  clearbody K K' a p a' p'. clear - Q1 Q2 Hb. destruct (Req_dec u1 u2) as [->|N]; [assert (gamma = u2) by lra; subst; lra|].
  destruct Hb as [Hb|Hb].
  - assert (0 <= (u2 - u1) * ((a - gamma * p) - (a' - gamma * p') + (K + K'))) by nra. nra.
  - assert (0 <= (u1 - u2) * ((a - gamma * p) - (a' - gamma * p') + (K + K'))) by nra. nra.
Qed.
End Near2.

Lemma CHAMP_2D_body env g parts g0 gf st : valid_pool (env_cpus env) (env_order env) parts -> wf_graph g -> edges g <> [] -> (forall c, In c parts -> length c = vcount g) -> parts <> [] ->
  CHAMP_2D env g parts g0 gf st = champ_body_2D env (map (A_of g) parts) (map (P_of g) parts) parts g0 gf /\
  fl_CHAMP_2D env g parts g0 gf st = champ_body_2D env (map (A_of g) parts) (map (fl_P_of g) parts) parts g0 gf.
Proof.
  intros H1 H2 H3 H4 Hne. split.
  - rewrite CHAMP_2D_nonempty by auto. rewrite coefficients_2D_pool by auto. cbn [bind]. rewrite mapM_finite. reflexivity.
  - assert (E : fl_CHAMP_2D env g parts g0 gf st =
      let! (a_hats, p_raw) := fl_partition_coefficients_2D (env_cpus env) (env_order env) g parts st in
      let! p_hats := mapM finite p_raw in champ_body_2D env a_hats p_hats parts g0 gf) by (destruct parts; [congruence|reflexivity]).
    rewrite E, fl_pool_2D by auto. cbn [bind]. rewrite mapM_finite. reflexivity.
Qed.
