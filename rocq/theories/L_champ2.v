(** CHAMP_2D and CHAMP_3D end to end. *)
From Verif Require Import PyBase PyGraph M_partition M_pool M_champ Spec Spec_graph Spec_champ L_base L_sort
  L_modularity L_modularity3 L_parallel L_bounds L_halfspace L_champ Properties_coefficients.
From Coq Require Import Sorted Classical.
Set Implicit Arguments.
Open Scope R_scope.

Lemma Forall2_flip {A B} (P : A -> B -> Prop) l l' : Forall2 P l l' -> Forall2 (fun b a => P a b) l' l.
Proof. induction 1; constructor; auto. Qed.

Lemma removelast_length {A} (l : list A) n : length l = S n -> length (removelast l) = n.
Proof.
  revert n. induction l as [|a l IH]; intros n H; [discriminate|].
  destruct l as [|b l]; [simpl in *; lia|]. change (removelast (a :: b :: l)) with (a :: removelast (b :: l)).
  destruct n as [|n]; [discriminate|]. cbn [length]. f_equal. apply IH. simpl in *. lia.
Qed.

Lemma interior_point_ok env dim hs pt : lp_answers_all_variables (env_lp env) -> (forall h, In h hs -> length (normal h) = dim) -> hs <> [] ->
  interior_point env hs = Ok pt -> length pt = dim /\ strictly_inside hs pt.
Proof.
  intros Hlp Hd Hne H. unfold interior_point in H. destruct (get_interior_point _ _ _ _ _ _) as [r|] eqn:E; [|discriminate].
  subst r. apply get_interior_point_sound in E as (Hs & k & A & b & y & Hy & ->). split; auto.
  apply removelast_length. rewrite (Hlp _ _ _ _ _ Hy). unfold chebyshev_c. rewrite app_length, repeat_length.
  destruct hs as [|h hs]; [congruence|]. rewrite (Hd h (or_introl eq_refl)). simpl. lia.
Qed.

Lemma mapM_finite l : mapM finite (map Fin l) = Ok l.
Proof. induction l as [|x l IH]; simpl; auto. rewrite IH. reflexivity. Qed.

Lemma bounded_2D A P g0 gf hs : champ_halfspaces_2D A P g0 gf = Ok hs -> bounded 2 hs.
Proof.
  intros H. destruct (champ2_inv _ _ _ _ H) as (top & bottom & _ & _ & ->).
  exists (Rabs g0 + Rabs gf + Rabs top + Rabs bottom). intros x Hl Hf.
  destruct (list2 _ Hl) as (u & v & ->). apply champ2_feasible in Hf as (_ & H1 & H2).
  intros y Hy. assert (HH : g0 <= y <= gf \/ bottom <= y <= top) by (destruct Hy as [<-|[<-|[]]]; auto).
  clear - HH. pose proof (Rle_abs g0); pose proof (Rle_abs gf); pose proof (Rle_abs top); pose proof (Rle_abs bottom).
  pose proof (Rle_abs (- g0)) as N0; pose proof (Rle_abs (- gf)) as N1; pose proof (Rle_abs (- top)) as N2; pose proof (Rle_abs (- bottom)) as N3.
  rewrite Rabs_Ropp in *.
  apply Rabs_le. destruct HH; pose proof (Rabs_pos g0); pose proof (Rabs_pos gf); pose proof (Rabs_pos top); pose proof (Rabs_pos bottom); lra.
Qed.

Lemma bounded_3D A P C g0 gf o0 of hs : champ_halfspaces_3D A P C g0 gf o0 of = Ok hs -> bounded 3 hs.
Proof.
  intros H. destruct (champ3_inv _ _ _ _ _ _ _ H) as (top & bottom & _ & _ & ->).
  exists (Rabs g0 + Rabs gf + Rabs top + Rabs bottom + Rabs o0 + Rabs of). intros x Hl Hf.
  destruct (list3 _ Hl) as (u & w & v & ->). apply champ3_feasible in Hf as (_ & H1 & H2 & H3).
  intros y Hy. assert (HH : g0 <= y <= gf \/ bottom <= y <= top \/ o0 <= y <= of) by (destruct Hy as [<-|[<-|[<-|[]]]]; auto).
  clear - HH. pose proof (Rle_abs g0); pose proof (Rle_abs gf); pose proof (Rle_abs top); pose proof (Rle_abs bottom).
  pose proof (Rle_abs o0); pose proof (Rle_abs of).
  pose proof (Rle_abs (- g0)) as N0; pose proof (Rle_abs (- gf)) as N1; pose proof (Rle_abs (- top)) as N2; pose proof (Rle_abs (- bottom)) as N3.
  pose proof (Rle_abs (- o0)) as N4; pose proof (Rle_abs (- of)) as N5.
  rewrite Rabs_Ropp in *.
  apply Rabs_le. pose proof (Rabs_pos g0); pose proof (Rabs_pos gf); pose proof (Rabs_pos top); pose proof (Rabs_pos bottom).
  pose proof (Rabs_pos o0); pose proof (Rabs_pos of). destruct HH as [|[|]]; lra.
Qed.

Lemma rows_2D A P g0 gf hs : champ_halfspaces_2D A P g0 gf = Ok hs -> (forall h, In h hs -> length (normal h) = 2%nat) /\ hs <> [].
Proof.
  intros H. destruct (champ2_inv _ _ _ _ H) as (top & bottom & _ & _ & ->). split.
  - intros h Hh. apply in_map_iff in Hh as (h' & <- & Hh). cbn [normal normalise]. rewrite map_length. apply in_app_iff in Hh as [Hh|Hh].
    + apply in_map_iff in Hh as (ap & <- & _). reflexivity.
    + repeat (destruct Hh as [<-|Hh]; [reflexivity|]). destruct Hh.
  - intros E. apply (f_equal (@length _)) in E. rewrite map_length, app_length in E. cbn in E. lia.
Qed.
Lemma rows_3D A P C g0 gf o0 of hs : champ_halfspaces_3D A P C g0 gf o0 of = Ok hs -> (forall h, In h hs -> length (normal h) = 3%nat) /\ hs <> [].
Proof.
  intros H. destruct (champ3_inv _ _ _ _ _ _ _ H) as (top & bottom & _ & _ & ->). split.
  - intros h Hh. apply in_map_iff in Hh as (h' & <- & Hh). cbn [normal normalise]. rewrite map_length. apply in_app_iff in Hh as [Hh|Hh].
    + apply in_map_iff in Hh as (ap & <- & _). reflexivity.
    + repeat (destruct Hh as [<-|Hh]; [reflexivity|]). destruct Hh.
  - intros E. apply (f_equal (@length _)) in E. rewrite map_length, app_length in E. cbn in E. lia.
Qed.
Lemma interior_point_2D env A P g0 gf hs pt : lp_answers_all_variables (env_lp env) -> champ_halfspaces_2D A P g0 gf = Ok hs ->
  interior_point env hs = Ok pt -> length pt = 2%nat /\ strictly_inside hs pt.
Proof. intros Hlp Hhs. destruct (@rows_2D A P g0 gf hs Hhs). apply interior_point_ok; auto. Qed.
Lemma interior_point_3D env A P C g0 gf o0 of hs pt : lp_answers_all_variables (env_lp env) -> champ_halfspaces_3D A P C g0 gf o0 of = Ok hs ->
  interior_point env hs = Ok pt -> length pt = 3%nat /\ strictly_inside hs pt.
Proof. intros Hlp Hhs. destruct (@rows_3D A P C g0 gf o0 of hs Hhs). apply interior_point_ok; auto. Qed.

Lemma CHAMP_2D_nonempty env g parts g0 gf st : parts <> [] ->
  CHAMP_2D env g parts g0 gf st =
  let! (a_hats, p_raw) := partition_coefficients_2D (env_cpus env) (env_order env) g parts st in
    let! p_hats := mapM finite p_raw in
    let! hs := champ_halfspaces_2D a_hats p_hats g0 gf in
    let! pt := interior_point env hs in
    let! out := env_hsi env hs pt in
    let! d := facets_by_halfspace (length parts) out in
    let! ranges := mapM (range_of_facet parts) d in
    Ok (sort_by (fun a b => Rleb (fst (fst a)) (fst (fst b))) ranges).
Proof. destruct parts; [congruence|reflexivity]. Qed.

Lemma CHAMP_2D_unfold env g parts g0 gf st : champ_ok_2D env g parts -> parts <> [] ->
  CHAMP_2D env g parts g0 gf st =
    let! hs := champ_halfspaces_2D (map (A_of g) parts) (map (P_of g) parts) g0 gf in
    let! pt := interior_point env hs in
    let! out := env_hsi env hs pt in
    let! d := facets_by_halfspace (length parts) out in
    let! ranges := mapM (range_of_facet parts) d in
    Ok (sort_by (fun a b => Rleb (fst (fst a)) (fst (fst b))) ranges).
Proof.
  intros [H1 H2 H3 H4 H5 H6] Hne. rewrite CHAMP_2D_nonempty by auto.
  rewrite coefficients_2D_pool by auto. cbn [bind]. rewrite mapM_finite. reflexivity.
Qed.

Lemma combine_map_nth {T} (f h : T -> R) l i : nth_error (combine (map f l) (map h l)) i = option_map (fun c => (f c, h c)) (nth_error l i).
Proof. revert i. induction l as [|x l IH]; intros [|i]; simpl; auto. Qed.
Lemma combine_map_in {T} (f h : T -> R) l c : In c l -> In (f c, h c) (combine (map f l) (map h l)).
Proof. induction l as [|x l IH]; simpl; [tauto|]. intros [->|H]; auto. Qed.
Lemma combine_map_length {T} (f h : T -> R) l : length (combine (map f l) (map h l)) = length l.
Proof. rewrite combine_length, !map_length. lia. Qed.

(** The structure behind one returned range. *)
Lemma range_of_facet_inv parts i vs s e part : range_of_facet parts (i, vs) = Ok (s, e, part) ->
  exists v1 v2 rest x1 x2, vs = v1 :: v2 :: rest /\ nth_error v1 0 = Some x1 /\ nth_error v2 0 = Some x2 /\
    nth_error parts i = Some part /\ s = Rmin x1 x2 /\ e = Rmax x1 x2.
Proof.
  unfold range_of_facet. cbn [fst snd]. intros H.
  apply bind_ok in H as (v1 & H1 & H). apply bind_ok in H as (x1 & Hx1 & H). apply bind_ok in H as (v2 & H2 & H).
  apply bind_ok in H as (x2 & Hx2 & H). apply bind_ok in H as (pp & Hpp & H).
  apply py_get_inv in H1, Hx1, H2, Hx2, Hpp.
  destruct vs as [|a [|b rest]]; try discriminate. simpl in H1, H2. inversion H1; inversion H2; subst.
  exists v1, v2, rest, x1, x2. unfold Rltb in H. destruct (Rlt_dec x2 x1) as [L|L]; inversion H; subst.
  - repeat split; auto; [rewrite Rmin_right | rewrite Rmax_left]; lra.
  - repeat split; auto; [rewrite Rmin_left | rewrite Rmax_right]; lra.
Qed.

Section Two.
Variables (env : champ_env) (g : graph) (parts : list (list nat)) (g0 gf : R) (st : bool).
Hypothesis Hok : champ_ok_2D env g parts.
Let A := map (A_of g) parts.
Let P := map (P_of g) parts.

Lemma P_nonneg p : In p P -> 0 <= p.
Proof.
  destruct Hok. unfold P. intros H. apply in_map_iff in H as (c & <- & _). apply P_of_bounds; auto.
Qed.

Lemma CHAMP_2D_inv ranges : parts <> [] -> CHAMP_2D env g parts g0 gf st = Ok ranges ->
  exists hs pt out d rs,
    champ_halfspaces_2D A P g0 gf = Ok hs /\ length pt = 2%nat /\ strictly_inside hs pt /\ exact_intersection 2 hs out /\
    NoDup (map fst d) /\
    (forall i vs, In (i, vs) d -> (i < length parts)%nat /\ vs <> [] /\ map Some vs = listed out i) /\
    (forall i, (i < length parts)%nat -> listed out i <> [] -> exists vs, In (i, vs) d /\ map Some vs = listed out i) /\
    mapM (range_of_facet parts) d = Ok rs /\
    ranges = sort_by (fun a b => Rleb (fst (fst a)) (fst (fst b))) rs.
Proof.
  intros Hne H. rewrite (CHAMP_2D_unfold g0 gf st Hok Hne) in H.
  apply bind_ok in H as (hs & Hhs & H). apply bind_ok in H as (pt & Hpt & H). apply bind_ok in H as (out & Hout & H).
  apply bind_ok in H as (d & Hd & H). apply bind_ok in H as (rs & Hrs & H). inversion H; subst.
  destruct (@interior_point_2D env _ _ _ _ hs pt (c2_lp Hok) Hhs Hpt) as [Hl Hs].
  pose proof (c2_hsi Hok (bounded_2D _ _ _ _ Hhs) Hl Hs Hout) as Hex.
  destruct (facets_ok (length parts) out) as (d' & Hd' & F1 & F2 & F3).
  { intros v is_ Hin. destruct (ei_vertex _ _ _ Hex _ _ Hin) as (x & -> & _). discriminate. }
  assert (d' = d) by congruence. subst d'.
  exists hs, pt, out, d, rs. fold A P in Hhs. tauto.
Qed.

(** every returned range comes from a facet *)
Lemma range_origin d rs (r : R * R * list nat) : mapM (range_of_facet parts) d = Ok rs ->
  In r (sort_by (fun a b => Rleb (fst (fst a)) (fst (fst b))) rs) ->
  exists f, In f d /\ range_of_facet parts f = Ok r.
Proof.
  intros Hrs Hin. apply (Permutation_in _ (sort_by_perm _ rs)) in Hin.
  apply mapM_Ok_inv in Hrs. induction Hrs as [|f r' d rs Hf Hrs IH]; [destruct Hin|].
  destruct Hin as [->|Hin]; [exists f; simpl; auto|]. destruct (IH Hin) as (f' & ? & ?). exists f'. simpl; auto.
Qed.

Lemma range_facts ranges s e part : CHAMP_2D env g parts g0 gf st = Ok ranges -> In (s, e, part) ranges ->
  In part parts /\ g0 <= s /\ s <= e /\ e <= gf /\
  forall gamma c, s <= gamma <= e -> In c parts -> modularity g gamma c <= modularity g gamma part.
Proof.
  intros H Hin. destruct (classic (parts = [])) as [Ep|Hne].
  { rewrite Ep in H. inversion H; subst; destruct Hin. }
  destruct (CHAMP_2D_inv Hne H) as (hs & pt & out & d & rs & Hhs & Hl & Hs & Hex & F1 & F2 & F3 & Hrs & ->).
  destruct (range_origin d (s, e, part) Hrs Hin) as ([i vs] & Hd & Hr).
  destruct (F2 i vs Hd) as (Hi & _ & Hvs).
  destruct (range_of_facet_inv _ _ _ Hr) as (v1 & v2 & rest & x1 & x2 & Evs & Hx1 & Hx2 & Hpart & -> & ->).
  destruct (@vertex2 A P g0 gf hs pt out Hhs Hl Hex i vs) as (ap & Hap & Hv); auto.
  { unfold A, P. rewrite combine_map_length. auto. }
  unfold A, P in Hap. rewrite combine_map_nth, Hpart in Hap. simpl in Hap. inversion Hap; subst ap. clear Hap.
  destruct (Hv v1) as (u1 & y1 & -> & Ey1 & Hu1 & Hm1); [subst vs; simpl; auto|].
  destruct (Hv v2) as (u2 & y2 & -> & Ey2 & Hu2 & Hm2); [subst vs; simpl; auto|].
  simpl in Hx1, Hx2. inversion Hx1; inversion Hx2; subst x1 x2.
  split; [eapply nth_error_In; eauto|].
  assert (HH : forall gamma c, Rmin u1 u2 <= gamma <= Rmax u1 u2 -> In c parts -> modularity g gamma c <= modularity g gamma part).
  { intros gamma c Hg Hc. rewrite !modularity_AP.
    specialize (Hm1 _ (combine_map_in (A_of g) (P_of g) parts c Hc)). specialize (Hm2 _ (combine_map_in (A_of g) (P_of g) parts c Hc)).
    subst y1 y2. unfold q2 in *. cbn [fst snd] in *.
    set (a := A_of g part) in *. set (p := P_of g part) in *. set (a' := A_of g c) in *. set (p' := P_of g c) in *.
    assert (Hb : (u1 <= gamma <= u2) \/ (u2 <= gamma <= u1)).
    { unfold Rmin, Rmax in Hg. destruct (Rle_dec u1 u2); lra. }
    clearbody a p a' p'. clear - Hm1 Hm2 Hb.
    destruct Hb as [Hb|Hb].
    - destruct (Req_dec u1 u2) as [->|N]; [assert (gamma = u2) by lra; subst; lra|].
      assert (0 <= (u2 - u1) * ((a - gamma * p) - (a' - gamma * p'))) by nra. nra.
    - destruct (Req_dec u1 u2) as [->|N]; [assert (gamma = u2) by lra; subst; lra|].
      assert (0 <= (u1 - u2) * ((a - gamma * p) - (a' - gamma * p'))) by nra. nra. }
  pose proof (Rmin_l u1 u2). pose proof (Rmax_l u1 u2).
  split; [apply Rmin_glb; lra|]. split; [lra|]. split; [apply Rmax_lub; lra|]. exact HH.
Qed.

Lemma cover_facts ranges gamma : parts <> [] -> CHAMP_2D env g parts g0 gf st = Ok ranges -> g0 <= gamma <= gf ->
  exists s e part, In (s, e, part) ranges /\ s <= gamma <= e.
Proof.
  intros Hne H Hg.
  destruct (CHAMP_2D_inv Hne H) as (hs & pt & out & d & rs & Hhs & Hl & Hs & Hex & F1 & F2 & F3 & Hrs & ->).
  destruct (@cover2 A P g0 gf hs pt out P_nonneg Hhs Hl Hs Hex gamma Hg) as (i & vs & Hi & Hli & Evs & v1 & v2 & Ev & Hb).
  unfold A, P in Hi. rewrite combine_map_length in Hi.
  destruct (F3 i Hi Hli) as (vs' & Hin & Evs').
  assert (vs' = vs).
  { clear - Evs Evs'. rewrite <- Evs in Evs'. clear Evs. revert vs Evs'. induction vs' as [|a l IH]; intros [|b l'] E; try discriminate; auto.
    simpl in E. inversion E. f_equal; auto. }
  subst vs'.
  apply mapM_Ok_inv in Hrs.
  assert (exists r, In r rs /\ range_of_facet parts (i, vs) = Ok r) as ([[s e] part] & Hr & Hrf).
  { clear - Hrs Hin. induction Hrs as [|f r d rs Hf Hrs IH]; [destruct Hin|]. destruct Hin as [->|Hin]; [exists r; simpl; auto|].
    destruct (IH Hin) as (r' & ? & ?). exists r'; simpl; auto. }
  exists s, e, part. split; [apply (Permutation_in _ (Permutation_sym (sort_by_perm _ rs))); auto|].
  destruct (range_of_facet_inv _ _ _ Hrf) as (w1 & w2 & rest & x1 & x2 & Ew & Hx1 & Hx2 & _ & -> & ->).
  rewrite Ev in Ew. inversion Ew; subst w1 w2. rewrite (nth_error_nth _ _ 0 Hx1), (nth_error_nth _ _ 0 Hx2) in Hb. auto.
Qed.

Lemma shape_facts ranges : CHAMP_2D env g parts g0 gf st = Ok ranges ->
  StronglySorted (fun r r' => fst (fst r) <= fst (fst r')) ranges /\
  exists idx, NoDup idx /\ Forall2 (fun i r => nth_error parts i = Some (snd r)) idx ranges.
Proof.
  intros H. destruct (classic (parts = [])) as [Ep|Hne].
  { rewrite Ep in H. inversion H; subst; split; [constructor|exists []; split; constructor]. }
  destruct (CHAMP_2D_inv Hne H) as (hs & pt & out & d & rs & Hhs & Hl & Hs & Hex & F1 & F2 & F3 & Hrs & ->).
  destruct (sort_by_key (fun r : R * R * list nat => fst (fst r)) rs) as [Hp Hsrt]. split; [exact Hsrt|].
  assert (HF : Forall2 (fun i r => nth_error parts i = Some (snd r)) (map fst d) rs).
  { apply mapM_Ok_inv in Hrs. clear - Hrs. induction Hrs as [|[i vs] [[s e] part] d rs Hf Hrs IH]; simpl; constructor; auto.
    destruct (range_of_facet_inv _ _ _ Hf) as (w1 & w2 & rest & x1 & x2 & _ & _ & _ & Hpart & _). auto. }
  destruct (Permutation_Forall2 (Permutation_sym Hp) (Forall2_flip HF)) as (idx & Hperm & HF2).
  exists idx. split; [eapply Permutation_NoDup; eauto|]. apply Forall2_flip in HF2. auto.
Qed.
End Two.
