(** If the intersection routine reports each corner of a facet once and nothing else, the vertices of every CHAMP_3D domain are
    in convex position. *)
From Verif Require Import PyBase PyGraph M_partition M_champ Spec Spec_leiden Spec_graph Spec_champ Spec_polygon
  L_base L_leiden L_parallel L_halfspace L_modularity L_modularity3 L_champ L_champ2 L_champ3 L_angular.
From Coq Require Import Classical.
Set Implicit Arguments.
Open Scope R_scope.

Lemma convex_position_nodup vs : convex_position vs -> NoDup vs.
Proof.
  induction vs as [|v vs IH]; intros H; [constructor|].
  constructor.
  - intros Hin. apply (H [] v vs eq_refl). cbn [app]. pose proof (@comb_one vs v 1 Hin ltac:(lra)) as C. rewrite !Rmult_1_l in C. destruct v; exact C.
  - apply IH. intros l1 w l2 E Hp. apply (H (v :: l1) w l2); [rewrite E; reflexivity|]. cbn [app]. destruct Hp as (ws & A & B & C & D1 & D2).
    exists (0 :: ws). cbn [length combine map fst snd]. rewrite !rsum_cons. split; [lia|]. split; [intros z [<-|Hz]; [lra|auto]|]. split; [lra|]. split; lra.
Qed.

Lemma hull_lift a b c vs ps x : Forall2 (fun v p => v = [fst p; snd p; a + b * fst p + c * snd p]) vs ps -> in_polygon ps x ->
  in_hull vs [fst x; snd x; a + b * fst x + c * snd x].
Proof.
  intros HF (ws & L & W & S1 & E1 & E2). exists ws. split; [rewrite L; symmetry; eapply Forall2_len; eauto|]. split; auto. split; auto.
  assert (G : forall vs ps ws, Forall2 (fun v p => v = [fst p; snd p; a + b * fst p + c * snd p]) vs ps -> length ws = length ps ->
    let s1 := rsum (map (fun wv => fst wv * fst (snd wv)) (combine ws ps)) in
    let s2 := rsum (map (fun wv => fst wv * snd (snd wv)) (combine ws ps)) in
    forall k, rsum (map (fun wv => fst wv * nth k (snd wv) 0) (combine ws vs)) = nth k [s1; s2; a * rsum ws + b * s1 + c * s2] 0).
  { clear. intros vs ps ws HF. revert ws. induction HF as [|v p vs ps E HF IH]; intros [|w ws] L; try discriminate; cbn [combine map]; rewrite ?rsum_nil; intros k.
    - destruct k as [|[|[|k]]]; cbn [nth]; try lra. destruct k; reflexivity.
    - rewrite !rsum_cons. cbn [fst snd]. rewrite IH by (cbn in L; lia). subst v. destruct k as [|[|[|k]]]; cbn [nth]; try ring. destruct k; cbn [nth]; ring. }
  intros k. rewrite (G vs ps ws HF L k), <- E1, <- E2, S1, Rmult_1_r. reflexivity.
Qed.

Lemma Forall2_middle {A B} (Q : A -> B -> Prop) vs l1 p l2 : Forall2 Q vs (l1 ++ p :: l2) ->
  exists v1 v v2, vs = v1 ++ v :: v2 /\ Q v p /\ Forall2 Q (v1 ++ v2) (l1 ++ l2).
Proof.
  intros H. apply Forall2_app_inv_r in H as (v1 & r & H1 & H2 & ->). inversion H2; subst. exists v1, x, l. split; auto. split; auto. apply Forall2_app; auto.
Qed.

Lemma domains_convex env g gi lv parts g0 gf o0 of domains poly part : champ_ok_3D env g gi lv parts -> irredundant_hsi 3 (env_hsi env) ->
  CHAMP_3D env g gi lv parts g0 gf o0 of = Ok domains -> In (poly, part) domains -> convex_position poly.
Proof.
  intros Hok Hir H Hin.
  assert (Hne : parts <> []) by (intros ->; inversion H; subst; destruct Hin).
  rewrite (CHAMP_3D_unfold g0 gf o0 of Hok Hne) in H.
  apply bind_ok in H as (hs & Hhs & H). apply bind_ok in H as (pt & Hpt & H). apply bind_ok in H as (out & Hout & H).
  apply bind_ok in H as (d & Hd & H).
  destruct (@interior_point_3D env _ _ _ _ _ _ _ hs pt (c3_lp Hok) Hhs Hpt) as [Hl Hs].
  pose proof (bounded_3D _ _ _ _ _ _ _ Hhs) as Hb.
  pose proof (c3_hsi Hok Hb Hl Hs Hout) as Hex.
  pose proof (Hir hs pt out Hb Hl Hs Hout) as Hir'.
  destruct (facets_ok (length parts) out) as (d' & Hd' & F1 & F2 & F3).
  { intros v is_ Hv. destruct (ei_vertex _ _ _ Hex _ _ Hv) as (x & -> & _). discriminate. }
  assert (d' = d) by congruence. subst d'.
  destruct (@domain_origin parts d domains (poly, part) H Hin) as ([i vs] & Hiv & Hr).
  destruct (F2 i vs Hiv) as (Hi & Hvne & Hvs).
  destruct (domain_of_facet_inv _ _ _ Hr) as (ps & Hps & Hpart & Hpoly & Hperm).
  destruct (@vertex3 (map (A_of g) parts) (map (P3_of g lv) parts) (map (A_of gi) parts) g0 gf o0 of hs pt out Hhs Hl Hex i vs) as (r & Hr3 & Hv); auto.
  { rewrite combine3_length. auto. }
  assert (HF : Forall2 (fun v p => v = [fst p; snd p; fst (fst r) + (- snd (fst r)) * fst p + snd r * snd p]) vs ps).
  { apply mapM_Ok_inv in Hps. clear - Hps Hv. induction Hps as [|v p vs ps Hp Hps IH]; constructor.
    - destruct (Hv v (or_introl eq_refl)) as (u & w & y & -> & Hy & _). inversion Hp; subst. cbn [fst snd]. unfold q3. do 3 f_equal. ring.
    - apply IH. intros x Hx. apply Hv. right; auto. }
  apply (convex_position_perm (Permutation_sym Hperm)). intros l1 p l2 E Hp. subst ps.
  apply Forall2_middle in HF as (v1 & v & v2 & -> & Ev & HF). apply (Hir' i _ Hvs v1 v v2 eq_refl).
  rewrite Ev. eapply hull_lift; eauto.
Qed.
