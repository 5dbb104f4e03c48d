(** CHAMP_3D. *)
From Verif Require Import PyBase PyGraph M_partition M_pool M_champ Spec Spec_graph Spec_champ L_base L_sort
  L_modularity L_modularity3 L_parallel L_bounds L_halfspace L_champ L_champ2 Properties_coefficients.
From Coq Require Import Sorted Classical.
Set Implicit Arguments.
Open Scope R_scope.

Lemma Forall2_len {A B} (Q : A -> B -> Prop) l l' : Forall2 Q l l' -> length l = length l'.
Proof. induction 1; simpl; auto. Qed.

(** ** Convex combinations *)
Definition comb (vs : list (R * R)) (s : R) (x : R * R) : Prop :=
  exists ws, length ws = length vs /\ (forall w, In w ws -> 0 <= w) /\ rsum ws = s /\
    fst x = rsum (map (fun wv => fst wv * fst (snd wv)) (combine ws vs)) /\
    snd x = rsum (map (fun wv => fst wv * snd (snd wv)) (combine ws vs)).

Lemma comb_cons v vs s x : comb (v :: vs) s x <->
  exists w, 0 <= w /\ comb vs (s - w) (fst x - w * fst v, snd x - w * snd v).
Proof.
  split.
  - intros ([|w ws] & Hl & H0 & H1 & H2 & H3); [discriminate|]. cbn [combine map] in H2, H3. rewrite rsum_cons in *.
    cbn [fst snd] in H2, H3. exists w. split; [apply H0; simpl; auto|].
    exists ws. split; [simpl in Hl; lia|]. split; [intros; apply H0; simpl; auto|]. cbn [fst snd].
    split; [lra|]. split; lra.
  - intros (w & Hw & ws & Hl & H0 & H1 & H2 & H3). cbn [fst snd] in H2, H3. exists (w :: ws).
    split; [simpl; lia|]. split; [intros w' [<-|H]; auto|]. cbn [combine map]. rewrite !rsum_cons. cbn [fst snd].
    split; [lra|]. split; lra.
Qed.

Lemma comb_perm vs vs' : Permutation vs vs' -> forall s x, comb vs s x -> comb vs' s x.
Proof.
  induction 1 as [|v l l' _ IH|u v l|l l' l'' _ IH1 _ IH2]; intros s x H; auto.
  - apply comb_cons in H as (w & Hw & H). apply comb_cons. exists w. auto.
  - apply comb_cons in H as (w & Hw & H). apply comb_cons in H as (w' & Hw' & H). cbn [fst snd] in H.
    apply comb_cons. exists w'. split; auto. apply comb_cons. exists w. split; auto. cbn [fst snd].
    replace (s - w' - w) with (s - w - w') by lra.
    replace (fst x - w' * fst u - w * fst v) with (fst x - w * fst v - w' * fst u) by lra.
    replace (snd x - w' * snd u - w * snd v) with (snd x - w * snd v - w' * snd u) by lra. auto.
Qed.

Lemma in_polygon_perm vs vs' x : Permutation vs vs' -> in_polygon vs x -> in_polygon vs' x.
Proof. intros H. apply (@comb_perm vs vs' H 1 x). Qed.

(** an affine function that is nonnegative at the vertices is nonnegative on the hull *)
Lemma comb_affine (a b c : R) vs : (forall v, In v vs -> 0 <= a + b * fst v + c * snd v) ->
  forall s x, comb vs s x -> 0 <= a * s + b * fst x + c * snd x.
Proof.
  induction vs as [|v vs IH]; intros Hv s x H.
  - destruct H as ([|] & Hl & _ & Hs & H1 & H2); [|discriminate]. cbn [combine map] in *. rewrite rsum_nil in *. subst. rewrite H1, H2. lra.
  - apply comb_cons in H as (w & Hw & H). apply IH in H; [|intros; apply Hv; simpl; auto]. cbn [fst snd] in H.
    pose proof (Hv v (or_introl eq_refl)). nra.
Qed.

Lemma in_polygon_affine a b c vs x : (forall v, In v vs -> 0 <= a + b * fst v + c * snd v) -> in_polygon vs x ->
  0 <= a + b * fst x + c * snd x.
Proof. intros Hv H. apply (@comb_affine a b c vs Hv 1 x) in H. lra. Qed.

Lemma hull_project vs ps x y z : Forall2 (fun v p => exists w, v = [fst p; snd p; w]) vs ps ->
  in_hull vs [x; y; z] -> in_polygon ps (x, y).
Proof.
  intros HF (ws & Hl & H0 & H1 & Hc). exists ws. pose proof (Hc 0%nat) as H2. pose proof (Hc 1%nat) as H3. cbn [nth] in H2, H3.
  assert (E : forall ws, rsum (map (fun wv => fst wv * nth 0 (snd wv) 0) (combine ws vs)) = rsum (map (fun wv => fst wv * fst (snd wv)) (combine ws ps)) /\
              rsum (map (fun wv => fst wv * nth 1 (snd wv) 0) (combine ws vs)) = rsum (map (fun wv => fst wv * snd (snd wv)) (combine ws ps))).
  { clear - HF. induction HF as [|v p vs ps (w & ->) HF IH]; intros [|w0 ws]; cbn [combine map]; auto.
    rewrite !rsum_cons. destruct (IH ws) as [-> ->]. cbn [fst snd nth]. auto. }
  destruct (E ws) as [E1 E2]. rewrite E1 in H2. rewrite E2 in H3.
  split; [rewrite Hl; eapply Forall2_len; eauto|]. auto.
Qed.

(** ** Space *)
Section Champ3.
Variables (A P C : list R) (g0 gf o0 of : R) (hs : list halfspace) (pt : list R) (out : list (option (list R) * list nat)).
Hypothesis (HP : forall p, In p P -> 0 <= p) (HC : forall c, In c C -> 0 <= c)
  (Hhs : champ_halfspaces_3D A P C g0 gf o0 of = Ok hs)
  (Hpl : length pt = 3%nat) (Hpt : strictly_inside hs pt) (Hex : exact_intersection 3 hs out).
Let rows := combine (combine A P) C.
Let nrow (r : R * R * R) := normalise (mkH [- snd (fst r); snd r; -1] (fst (fst r))).

Lemma rows3_nth i h : nth_error hs i = Some h ->
  (exists r, nth_error rows i = Some r /\ h = nrow r) \/ (length rows <= i)%nat.
Proof.
  destruct (champ3_inv _ _ _ _ _ _ _ Hhs) as (top & bottom & _ & _ & E). rewrite E. intros H.
  destruct (Nat.lt_ge_cases i (length rows)) as [Hi|Hi]; [left|right; auto].
  destruct (nth_error rows i) as [ap|] eqn:Er; [|apply nth_error_None in Er; lia].
  exists ap. split; auto. rewrite nth_error_map in H.
  rewrite nth_error_app1 in H by (rewrite map_length; auto).
  rewrite (map_nth_error _ _ _ Er) in H. inversion H; auto.
Qed.

Lemma tight3 r x z y : hval (nrow r) [x; z; y] = 0 <-> y = q3 r x z.
Proof.
  assert (Hn : nonzero (mkH [- snd (fst r); snd r; -1] (fst (fst r)))) by (exists (-1); simpl; split; [auto|lra]).
  unfold nrow. destruct (normalise_sign [x; z; y] Hn) as (_ & -> & _). rewrite hval3. unfold q3. split; intros; lra.
Qed.

Lemma range3 : g0 < gf /\ o0 < of.
Proof.
  destruct (list3 _ Hpl) as (u & w & v & E). pose proof Hpt as S. rewrite E in S.
  destruct (champ3_inv _ _ _ _ _ _ _ Hhs) as (top & bottom & _ & _ & E'). rewrite E' in S.
  apply champ3_feasible in S. lra.
Qed.

Lemma vertex3 i vs : (i < length rows)%nat -> map Some vs = listed out i ->
  exists r, nth_error rows i = Some r /\
  forall x, In x vs -> exists u w y, x = [u; w; y] /\ y = q3 r u w /\ g0 <= u <= gf /\ o0 <= w <= of /\
    forall r', In r' rows -> q3 r' u w <= y.
Proof.
  intros Hi Hvs. destruct (nth_error rows i) as [ap|] eqn:Er; [|apply nth_error_None in Er; lia].
  exists ap. split; auto. intros x Hx.
  assert (Hin : In (Some x) (listed out i)) by (rewrite <- Hvs; apply in_map; auto).
  apply in_listed in Hin as (is_ & Hin & Hi').
  destruct (ei_vertex _ _ _ Hex _ _ Hin) as (x' & E & Hl & Hf & Ht). inversion E; subst x'. clear E.
  destruct (list3 _ Hl) as (u & w & y & ->). exists u, w, y. split; auto.
  destruct (Ht i Hi') as (h & Hh & Hv). destruct (rows3_nth _ Hh) as [(ap' & E1 & ->)|]; [|lia].
  assert (ap' = ap) by congruence. subst. apply tight3 in Hv. split; auto.
  destruct (champ3_inv _ _ _ _ _ _ _ Hhs) as (top & bottom & _ & _ & E'). rewrite E' in Hf.
  apply champ3_feasible in Hf as (H1 & _ & H3 & H4). auto.
Qed.

Lemma cover3_open gamma omega : g0 < gamma < gf -> o0 < omega < of ->
  exists i r, nth_error rows i = Some r /\ listed out i <> [] /\ forall r', In r' rows -> q3 r' gamma omega <= q3 r gamma omega.
Proof.
  intros Hg Ho.
  destruct (champ3_inv _ _ _ _ _ _ _ Hhs) as (top & bottom & (Hti & Ht) & (Hbi & Hb) & E). fold rows in Hti, Ht, Hbi, Hb, E.
  assert (Hne : rows <> []) by (intros E0; rewrite E0 in Hti; destruct Hti).
  destruct (@argmax _ rows (fun ap => q3 ap gamma omega) Hne) as (am & Hin & Hmax).
  set (q := q3 am gamma omega) in *.
  assert (Hf : feasible hs [gamma; omega; q]).
  { eapply box_envelope_3D; eauto; [lra|lra|]. apply in_map_iff. exists am. auto. }
  destruct (ei_boundary _ _ _ Hex (nrow am) [gamma; omega; q]) as (i & h & Hl & Hh & Hv); auto.
  { rewrite E. unfold nrow. apply (in_map normalise), in_or_app. left. apply in_map_iff. exists am. auto. }
  { apply tight3. reflexivity. }
  destruct (rows3_nth _ Hh) as [(ap & Er & ->)|Hi].
  - exists i, ap. split; auto. split; auto. apply tight3 in Hv. intros ap' H'. rewrite <- Hv. apply Hmax; auto.
  - exfalso. destruct (list3 _ Hpl) as (u & w & v & Ept). pose proof Hpt as S. rewrite Ept, E in S.
    apply champ3_feasible in S as (S1 & S2 & S3 & S4). fold rows in S1.
    rewrite E, nth_error_map, nth_error_app2 in Hh by (rewrite map_length; auto).
    destruct (nth_error (box_3D top bottom g0 gf o0 of) _) as [hb|] eqn:Eb; [|discriminate]. inversion Hh; subst h.
    apply nth_error_In in Eb. pose proof (box_3D_nonzero top bottom g0 gf o0 of) as Hnz. rewrite Forall_forall in Hnz.
    apply (normalise_sign [gamma; omega; q] (Hnz hb Eb)) in Hv.
    simpl in Eb. destruct Eb as [<-|[<-|[<-|[<-|[<-|[<-|[]]]]]]]; rewrite hval3 in Hv.
    + assert (Hq : q = top) by lra. pose proof (Ht _ Hin) as Ht'. pose proof (S1 _ Hin) as S1'.
      destruct (in_combine_PC _ _ _ _ Hin) as [Hp Hc]. apply HP in Hp. apply HC in Hc. unfold q, q3 in *.
      assert (0 <= snd (fst am) * (gamma - g0)) by nra. assert (0 <= snd am * (of - omega)) by nra.
      assert (snd (fst am) = 0) by nra. assert (snd am = 0) by nra. rewrite H1, H2 in *. lra.
    + assert (Hq : q = bottom) by lra. apply in_map_iff in Hti as (tp & Et & Htp).
      pose proof (Hb _ Htp) as Hb'. pose proof (Hmax _ Htp) as Hm'. pose proof (S1 _ Htp) as S1'.
      destruct (in_combine_PC _ _ _ _ Htp) as [Hp Hc]. apply HP in Hp. apply HC in Hc. unfold q3 in *.
      assert (0 <= snd (fst tp) * (gf - gamma)) by nra. assert (0 <= snd tp * (omega - o0)) by nra.
      assert (snd (fst tp) = 0) by nra. assert (snd tp = 0) by nra. rewrite H1, H2 in *. lra.
    + lra.
    + lra.
    + lra.
    + lra.
Qed.

Lemma cover3_row gamma omega : g0 <= gamma <= gf -> o0 <= omega <= of ->
  exists i r, nth_error rows i = Some r /\ listed out i <> [] /\ forall r', In r' rows -> q3 r' gamma omega <= q3 r gamma omega.
Proof.
  intros Hg Ho. pose proof range3 as [Hlt Hlt']. set (mg := (g0 + gf) / 2). set (mo := (o0 + of) / 2).
  destruct (pigeon (seq 0 (length rows)) (fun i t => listed out i <> [] /\
      exists r, nth_error rows i = Some r /\
      forall r', In r' rows -> q3 r' (gamma + t * (mg - gamma)) (omega + t * (mo - omega))
                               <= q3 r (gamma + t * (mg - gamma)) (omega + t * (mo - omega)))) as (i & Hi & HL).
  { intros t Ht. destruct (cover3_open (gamma := gamma + t * (mg - gamma)) (omega := omega + t * (mo - omega))) as (i & ap & E1 & E2 & E3);
      [unfold mg; nra|unfold mo; nra|].
    exists i. split; [|eauto]. apply in_seq. split; [lia|]. simpl. apply nth_error_Some. rewrite E1; discriminate. }
  destruct (nth_error rows i) as [ap|] eqn:Er; [|apply nth_error_None in Er; apply in_seq in Hi; lia].
  exists i, ap. split; auto. split; [destruct (HL 1) as (t & _ & _ & H & _); [lra|auto]|].
  intros ap' Hin.
  cut (0 <= q3 ap gamma omega - q3 ap' gamma omega); [lra|].
  apply affine_limit with (b := (snd (fst ap') - snd (fst ap)) * (mg - gamma) + (snd ap - snd ap') * (mo - omega)). intros eps He.
  destruct (HL eps He) as (t & Ht & Ht1 & _ & ap0 & E0 & H0). inversion E0; subst ap0.
  exists t. split; auto. specialize (H0 ap' Hin). unfold q3 in *. nra.
Qed.

Lemma cover3 gamma omega : g0 <= gamma <= gf -> o0 <= omega <= of ->
  exists i vs r, nth_error rows i = Some r /\ listed out i <> [] /\ map Some vs = listed out i /\
    in_hull vs [gamma; omega; q3 r gamma omega].
Proof.
  intros Hg Ho. destruct (cover3_row Hg Ho) as (i & ap & Er & Hl & Hmax).
  assert (Hi : (i < length rows)%nat) by (apply nth_error_Some; rewrite Er; discriminate).
  assert (Hf : feasible hs [gamma; omega; q3 ap gamma omega]).
  { eapply box_envelope_3D; eauto. apply in_map_iff. exists ap. split; auto. eapply nth_error_In; eauto. }
  destruct (champ3_inv _ _ _ _ _ _ _ Hhs) as (top & bottom & _ & _ & E). fold rows in E.
  assert (Hh : nth_error hs i = Some (nrow ap)).
  { rewrite E. unfold nrow. apply map_nth_error. rewrite nth_error_app1 by (rewrite map_length; auto).
    rewrite (map_nth_error _ _ _ Er). reflexivity. }
  destruct (ei_facet _ _ _ Hex _ _ [gamma; omega; q3 ap gamma omega] Hl Hh) as (vs & Evs & Hhull); auto.
  { apply tight3. reflexivity. }
  exists i, vs, ap. auto.
Qed.
End Champ3.

Lemma CHAMP_3D_unfold env g gi lv parts g0 gf o0 of : champ_ok_3D env g gi lv parts -> parts <> [] ->
  CHAMP_3D env g gi lv parts g0 gf o0 of =
    let! hs := champ_halfspaces_3D (map (A_of g) parts) (map (P3_of g lv) parts) (map (A_of gi) parts) g0 gf o0 of in
    let! pt := interior_point env hs in
    let! out := env_hsi env hs pt in
    let! d := facets_by_halfspace (length parts) out in
    mapM (domain_of_facet parts) d.
Proof.
  intros [] Hne. transitivity (
    let! (a_hats, p_raw, c_hats) := partition_coefficients_3D (env_cpus env) (env_order env) g gi lv parts in
    let! p_hats := mapM finite p_raw in
    let! hs := champ_halfspaces_3D a_hats p_hats c_hats g0 gf o0 of in
    let! pt := interior_point env hs in
    let! out := env_hsi env hs pt in
    let! d := facets_by_halfspace (length parts) out in
    mapM (domain_of_facet parts) d).
  - destruct parts; [congruence|reflexivity].
  - rewrite coefficients_3D_pool by auto. cbn [bind]. rewrite mapM_finite. reflexivity.
Qed.

Lemma combine3_nth {T} (f h k : T -> R) l i :
  nth_error (combine (combine (map f l) (map h l)) (map k l)) i = option_map (fun c => (f c, h c, k c)) (nth_error l i).
Proof. revert i. induction l as [|x l IH]; intros [|i]; simpl; auto. Qed.
Lemma combine3_in {T} (f h k : T -> R) l c : In c l -> In (f c, h c, k c) (combine (combine (map f l) (map h l)) (map k l)).
Proof. induction l as [|x l IH]; simpl; [tauto|]. intros [->|H]; auto. Qed.
Lemma combine3_length {T} (f h k : T -> R) l : length (combine (combine (map f l) (map h l)) (map k l)) = length l.
Proof. rewrite !combine_length, !map_length. lia. Qed.

Section Three.
Variables (env : champ_env) (g gi : graph) (lv : list nat) (parts : list (list nat)) (g0 gf o0 of : R).
Hypothesis Hok : champ_ok_3D env g gi lv parts.
Let A := map (A_of g) parts.
Let P := map (P3_of g lv) parts.
Let C := map (A_of gi) parts.

Lemma P3_nonneg p : In p P -> 0 <= p.
Proof. destruct Hok. unfold P. intros H. apply in_map_iff in H as (c & <- & _). apply P3_of_bounds; auto. Qed.
Lemma C3_nonneg p : In p C -> 0 <= p.
Proof. destruct Hok. unfold C. intros H. apply in_map_iff in H as (c & <- & _). apply A_of_bounds; auto. Qed.

Lemma CHAMP_3D_inv domains : parts <> [] -> CHAMP_3D env g gi lv parts g0 gf o0 of = Ok domains ->
  exists hs pt out d,
    champ_halfspaces_3D A P C g0 gf o0 of = Ok hs /\ length pt = 3%nat /\ strictly_inside hs pt /\ exact_intersection 3 hs out /\
    NoDup (map fst d) /\
    (forall i vs, In (i, vs) d -> (i < length parts)%nat /\ vs <> [] /\ map Some vs = listed out i) /\
    (forall i, (i < length parts)%nat -> listed out i <> [] -> exists vs, In (i, vs) d /\ map Some vs = listed out i) /\
    mapM (domain_of_facet parts) d = Ok domains.
Proof.
  intros Hne H. rewrite (CHAMP_3D_unfold g0 gf o0 of Hok Hne) in H.
  apply bind_ok in H as (hs & Hhs & H). apply bind_ok in H as (pt & Hpt & H). apply bind_ok in H as (out & Hout & H).
  apply bind_ok in H as (d & Hd & H).
  destruct (@interior_point_3D env _ _ _ _ _ _ _ hs pt (c3_lp Hok) Hhs Hpt) as [Hl Hs].
  pose proof (c3_hsi Hok (bounded_3D _ _ _ _ _ _ _ Hhs) Hl Hs Hout) as Hex.
  destruct (facets_ok (length parts) out) as (d' & Hd' & F1 & F2 & F3).
  { intros v is_ Hin. destruct (ei_vertex _ _ _ Hex _ _ Hin) as (x & -> & _). discriminate. }
  assert (d' = d) by congruence. subst d'.
  exists hs, pt, out, d. fold A P C in Hhs. tauto.
Qed.

Lemma domain_of_facet_inv i vs poly part : domain_of_facet parts (i, vs) = Ok (poly, part) ->
  exists ps, mapM project vs = Ok ps /\ nth_error parts i = Some part /\ poly = angular_sort ps /\ Permutation poly ps.
Proof.
  unfold domain_of_facet. cbn [fst snd]. intros H. apply bind_ok in H as (ps & Hps & H). apply bind_ok in H as (pp & Hpp & H).
  apply py_get_inv in Hpp. inversion H; subst. exists ps. split; auto. split; auto. split; auto.
  unfold angular_sort. apply sort_by_perm.
Qed.

Lemma domain_origin d domains (r : list (R * R) * list nat) : mapM (domain_of_facet parts) d = Ok domains -> In r domains ->
  exists f, In f d /\ domain_of_facet parts f = Ok r.
Proof.
  intros Hrs Hin. apply mapM_Ok_inv in Hrs. induction Hrs as [|f r' d rs Hf Hrs IH]; [destruct Hin|].
  destruct Hin as [->|Hin]; [exists f; simpl; auto|]. destruct (IH Hin) as (f' & ? & ?). exists f'. simpl; auto.
Qed.

Lemma project_forall vs ps : mapM project vs = Ok ps -> (forall x, In x vs -> exists u w y, x = [u; w; y]) ->
  Forall2 (fun v p => exists w, v = [fst p; snd p; w]) vs ps.
Proof.
  intros H Hv. apply mapM_Ok_inv in H. induction H as [|v p vs ps Hp H IH]; constructor.
  - destruct (Hv v (or_introl eq_refl)) as (u & w & y & ->). inversion Hp; subst. exists y. reflexivity.
  - apply IH. intros; apply Hv; simpl; auto.
Qed.

Lemma domain_facts domains poly part : CHAMP_3D env g gi lv parts g0 gf o0 of = Ok domains -> In (poly, part) domains ->
  In part parts /\ poly <> [] /\ (forall v, In v poly -> g0 <= fst v <= gf /\ o0 <= snd v <= of) /\
  forall gamma omega c, in_polygon poly (gamma, omega) -> In c parts ->
    multilayer_modularity g gi lv gamma omega c <= multilayer_modularity g gi lv gamma omega part.
Proof.
  intros H Hin. destruct (classic (parts = [])) as [Ep|Hne].
  { rewrite Ep in H. inversion H; subst; destruct Hin. }
  destruct (CHAMP_3D_inv Hne H) as (hs & pt & out & d & Hhs & Hl & Hs & Hex & F1 & F2 & F3 & Hrs).
  destruct (domain_origin d (poly, part) Hrs Hin) as ([i vs] & Hd & Hr).
  destruct (F2 i vs Hd) as (Hi & Hvne & Hvs).
  destruct (domain_of_facet_inv _ _ Hr) as (ps & Hps & Hpart & Hpoly & Hperm).
  destruct (@vertex3 A P C g0 gf o0 of hs pt out Hhs Hl Hex i vs) as (ap & Hap & Hv); auto.
  { unfold A, P, C. rewrite combine3_length. auto. }
  unfold A, P, C in Hap. rewrite combine3_nth, Hpart in Hap. simpl in Hap. inversion Hap; subst ap. clear Hap.
  split; [eapply nth_error_In; eauto|].
  assert (HF : Forall2 (fun v p => exists w, v = [fst p; snd p; w]) vs ps).
  { apply project_forall; auto. intros x Hx. destruct (Hv x Hx) as (u & w & y & -> & _). eauto. }
  assert (Hpv : forall v, In v poly -> g0 <= fst v <= gf /\ o0 <= snd v <= of /\
            forall c, In c parts -> q3 (A_of g c, P3_of g lv c, A_of gi c) (fst v) (snd v)
                                    <= q3 (A_of g part, P3_of g lv part, A_of gi part) (fst v) (snd v)).
  { intros v Hvin. apply (Permutation_in _ Hperm) in Hvin.
    assert (exists x w, In x vs /\ x = [fst v; snd v; w]) as (x & w & Hx & Ex).
    { clear - HF Hvin. induction HF as [|v0 p vs ps (w & E) HF IH]; [destruct Hvin|].
      destruct Hvin as [->|Hv]; [exists v0, w; simpl; auto|]. destruct (IH Hv) as (x & w' & ? & ?). exists x, w'. simpl; auto. }
    destruct (Hv x Hx) as (u & w' & y & E & Ey & Hu & Hw & Hm). rewrite Ex in E. inversion E; subst.
    split; auto. split; auto. intros c Hc. apply Hm. unfold A, P, C. apply combine3_in; auto. }
  split; [|split].
  - intros ->. apply Permutation_nil in Hperm. subst. inversion HF; subst; congruence.
  - intros v Hvin. destruct (Hpv v Hvin) as (? & ? & _). auto.
  - intros gamma omega c Hpol Hc. rewrite !multilayer_APC.
    assert (0 <= (A_of g part - A_of g c) + (P3_of g lv c - P3_of g lv part) * gamma + (A_of gi part - A_of gi c) * omega).
    { apply (@in_polygon_affine (A_of g part - A_of g c) (P3_of g lv c - P3_of g lv part) (A_of gi part - A_of gi c) poly (gamma, omega)); auto.
      intros v Hvin. destruct (Hpv v Hvin) as (_ & _ & Hm). specialize (Hm c Hc). unfold q3 in Hm. cbn [fst snd] in Hm. lra. }
    lra.
Qed.

Lemma domain_cover domains gamma omega : parts <> [] -> CHAMP_3D env g gi lv parts g0 gf o0 of = Ok domains ->
  g0 <= gamma <= gf -> o0 <= omega <= of ->
  exists poly part, In (poly, part) domains /\ in_polygon poly (gamma, omega).
Proof.
  intros Hne H Hg Ho.
  destruct (CHAMP_3D_inv Hne H) as (hs & pt & out & d & Hhs & Hl & Hs & Hex & F1 & F2 & F3 & Hrs).
  destruct (@cover3 A P C g0 gf o0 of hs pt out P3_nonneg C3_nonneg Hhs Hl Hs Hex gamma omega Hg Ho) as (i & vs & r & Hr & Hli & Evs & Hhull).
  assert (Hi : (i < length parts)%nat).
  { assert (nth_error (combine (combine A P) C) i <> None) by (rewrite Hr; discriminate).
    apply nth_error_Some in H0. unfold A, P, C in H0. rewrite combine3_length in H0. auto. }
  destruct (F3 i Hi Hli) as (vs' & Hin & Evs').
  assert (vs' = vs).
  { clear - Evs Evs'. rewrite <- Evs in Evs'. clear Evs. revert vs Evs'. induction vs' as [|a l IH]; intros [|b l'] E; try discriminate; auto.
    simpl in E. inversion E. f_equal; auto. }
  subst vs'.
  apply mapM_Ok_inv in Hrs.
  assert (exists r, In r domains /\ domain_of_facet parts (i, vs) = Ok r) as ([poly part] & Hr' & Hrf).
  { clear - Hrs Hin. induction Hrs as [|f r d rs Hf Hrs IH]; [destruct Hin|]. destruct Hin as [->|Hin]; [exists r; simpl; auto|].
    destruct (IH Hin) as (r' & ? & ?). exists r'; simpl; auto. }
  exists poly, part. split; auto.
  destruct (domain_of_facet_inv _ _ Hrf) as (ps & Hps & Hpart & Hpoly & Hperm).
  apply (in_polygon_perm (Permutation_sym Hperm)). eapply hull_project; eauto.
  apply project_forall; auto. intros x Hx.
  destruct (@vertex3 A P C g0 gf o0 of hs pt out Hhs Hl Hex i vs) as (ap & Hap & Hv); auto.
  { unfold A, P, C. rewrite combine3_length. auto. }
  destruct (Hv x Hx) as (u & w & y & -> & _). eauto.
Qed.

Lemma domain_shape domains : CHAMP_3D env g gi lv parts g0 gf o0 of = Ok domains ->
  exists idx, NoDup idx /\ Forall2 (fun i r => nth_error parts i = Some (snd r)) idx domains.
Proof.
  intros H. destruct (classic (parts = [])) as [Ep|Hne].
  { rewrite Ep in H. inversion H; subst; exists []; split; constructor. }
  destruct (CHAMP_3D_inv Hne H) as (hs & pt & out & d & Hhs & Hl & Hs & Hex & F1 & F2 & F3 & Hrs).
  exists (map fst d). split; auto.
  apply mapM_Ok_inv in Hrs. clear - Hrs. induction Hrs as [|[i vs] [poly part] d rs Hf Hrs IH]; simpl; constructor; auto.
  destruct (domain_of_facet_inv _ _ Hf) as (ps & _ & Hpart & _). auto.
Qed.
End Three.
