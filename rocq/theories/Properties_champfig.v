(** Property theorems about the figure that explains CHAMP: C110. *)
From Verif Require Import PyBase PyGraph M_partition M_pool M_champ M_leiden M_parts M_checks M_studies Spec Spec_graph Spec_champ Spec_leiden Spec_objective
  L_base L_modularity L_leiden L_split L_checks L_checks2 Properties_coefficients Properties_champ Properties_leiden Properties_parts.
From Coq Require Import Sorting.Sorted.
Open Scope R_scope.

(** Modularity with the usual prefactor. *)
Definition Q (G : graph) (gamma : R) (c : list nat) : R := modularity G gamma c / (2 * INR (length (edges G))).
(** The point (x, y) lies on the segment. *)
Definition on_segment (s : (R * R) * (R * R)) (x y : R) : Prop :=
  let '((x0, y0), (x1, y1)) := s in exists t, 0 <= t <= 1 /\ x = (1 - t) * x0 + t * x1 /\ y = (1 - t) * y0 + t * y1.
(** [y] is the largest modularity at [x] of the given partitions. *)
Definition is_envelope (G : graph) (cs : list (list nat)) (x y : R) : Prop :=
  (exists c, In c cs /\ y = Q G x c) /\ forall c, In c cs -> Q G x c <= y.

Lemma found_quality G gamma0 c gamma : wf_graph G -> length c = vcount G -> part_quality (found_part G gamma0 c) gamma = modularity G gamma c.
Proof.
  intros Hw Hl. unfold part_quality, found_part. cbn [wm_object wm_membership vp_type vp_graph].
  destruct (@nodup_labels (vcount G) c Hl) as [Hn Hk].
  rewrite (C51_singlelayer_objective (mkGraph (vcount G) (directed G) (edges G) (Some (repeat 1 (ecount G)))) c _ gamma); auto.
  split; [exact (proj1 Hw)|]. intros ws E. inversion E. apply repeat_length.
Qed.
Lemma py_max_by_spec {A} (key : A -> R) l : l <> [] -> exists x, py_max_by key l = Ok x /\ In x l /\ forall y, In y l -> key y <= key x.
Proof.
  destruct l as [|x xs]; [congruence|]. intros _. cbn [py_max_by]. eexists. split; [reflexivity|]. revert x. induction xs as [|y ys IH]; intros x; cbn [fold_left].
  - split; [left; auto|]. intros y [<-|[]]. lra.
  - unfold Rltb at 2 4. destruct (Rlt_dec (key x) (key y)) as [H|H]; match goal with |- In ?m _ /\ _ => destruct (IH y) as [I1 I2]; destruct (IH x) as [J1 J2] end.
    + split; [right; auto|]. intros z [<-|[<-|Hz]]; [|apply I2; left; auto|apply I2; right; auto]. specialize (I2 y (or_introl eq_refl)). lra.
    + split; [destruct J1 as [<-|J1]; [left; auto|right; right; auto]|]. intros z [<-|[<-|Hz]]; [apply J2; left; auto| |apply J2; right; auto]. specialize (J2 x (or_introl eq_refl)). lra.
Qed.
Lemma py_min_by_spec {A} (key : A -> R) l : l <> [] -> exists x, py_min_by key l = Ok x /\ In x l /\ forall y, In y l -> key x <= key y.
Proof.
  intros H. destruct (py_max_by_spec (fun x => - key x) l H) as (x & E & I & M). exists x. split; [|split; [exact I|intros y Hy; specialize (M y Hy); lra]].
  rewrite <- E. destruct l as [|a l]; [congruence|]. cbn [py_min_by py_max_by]. f_equal. clear. revert a. induction l as [|b l IH]; intros a; cbn [fold_left]; [reflexivity|].
  rewrite IH. f_equal. unfold Rltb. destruct (Rlt_dec _ _), (Rlt_dec _ _); auto; lra.
Qed.

(** ** The sampled partitions: for each of the four resolutions one of the partitions found at it, the best, except that for resolution 1
    the worst is taken; ValueError if none was found. *)
Theorem C110_sampled : forall G sampled,
  wf_graph G -> (forall gamma c, In c (sampled gamma) -> length c = vcount G) ->
  ((forall gamma, In gamma [1 / 2; 1; 3 / 2; 2] -> sampled gamma <> []) ->
   exists c0 c1 c2 c3,
     sample_partitions G sampled = Ok [found_part G (1 / 2) c0; found_part G 1 c1; found_part G (3 / 2) c2; found_part G 2 c3] /\
     In c0 (sampled (1 / 2)) /\ (forall c, In c (sampled (1 / 2)) -> modularity G (1 / 2) c <= modularity G (1 / 2) c0) /\
     In c1 (sampled 1) /\ (forall c, In c (sampled 1) -> modularity G 1 c1 <= modularity G 1 c) /\
     In c2 (sampled (3 / 2)) /\ (forall c, In c (sampled (3 / 2)) -> modularity G (3 / 2) c <= modularity G (3 / 2) c2) /\
     In c3 (sampled 2) /\ (forall c, In c (sampled 2) -> modularity G 2 c <= modularity G 2 c3)) /\
  ((exists gamma, In gamma [1 / 2; 1; 3 / 2; 2] /\ sampled gamma = []) -> sample_partitions G sampled = Raise ValueError).
Proof.
  intros G sampled Hw Hl.
  set (f := fun gamma => let parts := map (found_part G gamma) (sampled gamma) in if Reqb gamma 1 then py_min_by own_quality parts else py_max_by own_quality parts).
  assert (Hq : forall gamma c, In c (sampled gamma) -> own_quality (found_part G gamma c) = modularity G gamma c).
  { intros gamma c Hc. unfold own_quality. change (vp_gamma (wm_object (found_part G gamma c))) with gamma. apply found_quality; eauto. }
  assert (Hmax : forall gamma, gamma <> 1 -> sampled gamma <> [] -> exists c, f gamma = Ok (found_part G gamma c) /\ In c (sampled gamma) /\
     forall c', In c' (sampled gamma) -> modularity G gamma c' <= modularity G gamma c).
  { intros gamma H1 Hne. unfold f. cbv zeta. unfold Reqb. destruct (Req_EM_T gamma 1) as [E|_]; [congruence|].
    destruct (py_max_by_spec own_quality (map (found_part G gamma) (sampled gamma))) as (x & E & I & M); [destruct (sampled gamma); [congruence|discriminate]|].
    apply in_map_iff in I. destruct I as (c & <- & Hc). exists c. split; [exact E|]. split; [exact Hc|]. intros c' Hc'. rewrite <- !Hq by auto. apply M. apply in_map. exact Hc'. }
  assert (Hmin : sampled 1 <> [] -> exists c, f 1 = Ok (found_part G 1 c) /\ In c (sampled 1) /\
     forall c', In c' (sampled 1) -> modularity G 1 c <= modularity G 1 c').
  { intros Hne. unfold f. cbv zeta. unfold Reqb. destruct (Req_EM_T 1 1) as [_|E]; [|congruence].
    destruct (py_min_by_spec own_quality (map (found_part G 1) (sampled 1))) as (x & E & I & M); [destruct (sampled 1); [congruence|discriminate]|].
    apply in_map_iff in I. destruct I as (c & <- & Hc). exists c. split; [exact E|]. split; [exact Hc|]. intros c' Hc'. rewrite <- !Hq by auto. apply M. apply in_map. exact Hc'. }
  assert (Hempty : forall gamma, sampled gamma = [] -> f gamma = Raise ValueError).
  { intros gamma E. unfold f. cbv zeta. rewrite E. cbn [map]. destruct (Reqb gamma 1); reflexivity. }
  assert (Hval : forall gamma e, In gamma [1 / 2; 1; 3 / 2; 2] -> f gamma = Raise e -> e = ValueError).
  { intros gamma e Hin E. destruct (sampled gamma) as [|c l] eqn:Es; [rewrite (Hempty gamma Es) in E; congruence|]. exfalso.
    destruct (Req_EM_T gamma 1) as [->|N]; [destruct (Hmin ltac:(congruence)) as (x & Ex & _)|destruct (Hmax gamma N ltac:(congruence)) as (x & Ex & _)]; congruence. }
  change (sample_partitions G sampled) with (mapM f [1 / 2; 1; 3 / 2; 2]). split.
  - intros Hne. destruct (Hmax (1 / 2)) as (c0 & E0 & I0 & M0); [lra|apply Hne; cbn; auto|].
    destruct Hmin as (c1 & E1 & I1 & M1); [apply Hne; cbn; auto|].
    destruct (Hmax (3 / 2)) as (c2 & E2 & I2 & M2); [lra|apply Hne; cbn; auto|].
    destruct (Hmax 2) as (c3 & E3 & I3 & M3); [lra|apply Hne; cbn; auto|].
    exists c0, c1, c2, c3. split; [cbn [mapM]; rewrite E0, E1, E2, E3; reflexivity|]. repeat (split; [assumption|]). assumption.
  - intros (gamma & Hin & Hg). generalize (Hempty gamma Hg). intros Hf. revert Hin Hval. generalize [1 / 2; 1; 3 / 2; 2] as gs. clear - Hf.
    induction gs as [|g gs IH]; intros Hin Hval; [destruct Hin|]. cbn [mapM]. destruct (f g) as [y|e] eqn:E; cbn [bind].
    + destruct Hin as [X|Hin]; [congruence|]. rewrite (IH Hin (fun g' e' h => Hval g' e' (or_intror h))). reflexivity.
    + rewrite (Hval g e (or_introl eq_refl) E). reflexivity.
Qed.
Print Assumptions C110_sampled.

(** ** The left and the centre panel: each partition at its own resolution, and its modularity at ten equally spaced resolutions from 1/4 to
    9/4; without edges a ZeroDivisionError. *)
Theorem C110_points_and_lines : forall G c0 c1 c2 c3,
  let parts := [found_part G (1 / 2) c0; found_part G 1 c1; found_part G (3 / 2) c2; found_part G 2 c3] in
  wf_graph G -> (forall c, In c [c0; c1; c2; c3] -> length c = vcount G) ->
  (edges G <> [] ->
   sample_points G parts = Ok [(1 / 2, Q G (1 / 2) c0); (1, Q G 1 c1); (3 / 2, Q G (3 / 2) c2); (2, Q G 2 c3)] /\
   exists lines, quality_lines G parts = Ok lines /\ length lines = 4%nat /\
     forall i c line, nth_error [c0; c1; c2; c3] i = Some c -> nth_error lines i = Some line ->
       length line = 10%nat /\
       forall j x y, nth_error line j = Some (x, y) -> x = 1 / 4 + INR j * (2 / 9) /\ y = Q G x c) /\
  (edges G = [] -> sample_points G parts = Raise ZeroDivisionError /\ quality_lines G parts = Raise ZeroDivisionError).
Proof.
  intros G c0 c1 c2 c3 parts Hw Hl. split.
  - intros He. assert (H2m : 2 * INR (ecount G) <> 0).
    { unfold ecount. destruct (edges G) as [|e es]; [congruence|]. cbn [length]. rewrite S_INR. pose proof (pos_INR (length es)). lra. }
    assert (Hd : forall a, py_div a (2 * INR (ecount G)) = Ok (a / (2 * INR (ecount G)))) by (intros a; unfold py_div; destruct (Req_EM_T _ 0); congruence).
    assert (L0 : length c0 = vcount G) by (apply Hl; cbn; auto). assert (L1 : length c1 = vcount G) by (apply Hl; cbn; auto).
    assert (L2 : length c2 = vcount G) by (apply Hl; cbn; auto). assert (L3 : length c3 = vcount G) by (apply Hl; cbn; auto). split.
    + unfold sample_points, parts, SAMPLE_GAMMAS. cbn [combine mapM fst snd]. rewrite !Hd. cbn [bind]. unfold own_quality.
      change (vp_gamma (wm_object (found_part G (1 / 2) c0))) with (1 / 2). change (vp_gamma (wm_object (found_part G 1 c1))) with 1.
      change (vp_gamma (wm_object (found_part G (3 / 2) c2))) with (3 / 2). change (vp_gamma (wm_object (found_part G 2 c3))) with 2.
      rewrite !found_quality by auto. reflexivity.
    + set (line := fun c => map (fun x => (x, Q G x c)) PLOT_XS).
      assert (Hline : forall gamma c, length c = vcount G ->
        mapM (fun g => let! y := py_div (part_quality (found_part G gamma c) g) (2 * INR (ecount G)) in Ok (g, y)) PLOT_XS = Ok (line c)).
      { intros gamma c Hc. unfold line. generalize PLOT_XS as xs. induction xs as [|x xs IH]; [reflexivity|]. cbn [mapM map]. rewrite Hd. cbn [bind]. rewrite IH. cbn [bind].
        rewrite found_quality by auto. reflexivity. }
      exists [line c0; line c1; line c2; line c3]. split; [unfold quality_lines, parts; cbn [mapM]; rewrite !Hline by auto; reflexivity|]. split; [reflexivity|].
      intros i c ln Hc Hln. assert (ln = line c) as ->.
      { change [line c0; line c1; line c2; line c3] with (map line [c0; c1; c2; c3]) in Hln. rewrite nth_error_map, Hc in Hln. cbn [option_map] in Hln. congruence. }
      unfold line. split; [rewrite map_length; unfold PLOT_XS, linspace; rewrite map_length, seq_length; reflexivity|].
      intros j x y Hj. rewrite nth_error_map in Hj. destruct (nth_error PLOT_XS j) as [x'|] eqn:Ex; [|discriminate]. cbn in Hj. inversion Hj. subst x' y. split; [|reflexivity].
      unfold PLOT_XS, linspace in Ex. rewrite nth_error_map in Ex. destruct (nth_error (seq 0 10) j) as [k|] eqn:Ek; [|discriminate]. cbn [option_map] in Ex. inversion Ex as [X].
      assert (Hk : k = j).
      { assert (j < 10)%nat by (assert (X' : nth_error (seq 0 10) j <> None) by congruence; apply nth_error_Some in X'; rewrite seq_length in X'; exact X').
        apply nth_error_nth with (d := 0%nat) in Ek. rewrite seq_nth in Ek by lia. lia. }
      subst k. cbn [Nat.sub]. replace (INR 9) with 9 by (cbn; lra). lra.
  - intros He. assert (H2m : 2 * INR (ecount G) = 0) by (unfold ecount; rewrite He; cbn; lra). unfold sample_points, quality_lines, parts, SAMPLE_GAMMAS. cbn [combine mapM fst snd]. rewrite H2m.
    assert (Hd : forall a, py_div a 0 = Raise ZeroDivisionError) by (intros a; unfold py_div; destruct (Req_EM_T 0 0); congruence). rewrite Hd. cbn [bind]. split; [reflexivity|].
    unfold PLOT_XS, linspace. cbn [seq map mapM]. rewrite Hd. reflexivity.
Qed.
Print Assumptions C110_points_and_lines.

(** ** The right panel *)
Lemma right_panel_form env G c0 c1 c2 c3 ranges :
  let parts := [found_part G (1 / 2) c0; found_part G 1 c1; found_part G (3 / 2) c2; found_part G 2 c3] in
  champ_ok_2D env G [c0; c1; c2; c3] -> CHAMP_2D env G [c0; c1; c2; c3] (1 / 4) (9 / 4) false = Ok ranges ->
  right_panel env G parts =
  match ranges with
  | (s0, e0, _) :: (s1, e1, _) :: (s2, e2, _) :: _ =>
      Ok ([((s0, Q G s0 c0), (e0, Q G e0 c0)); ((s1, Q G s1 c2), (e1, Q G e1 c2)); ((s2, Q G s2 c3), (e2, Q G e2 c3))],
          [(e0, Q G e0 c0 / (8 / 10)); (e1, Q G e1 c2 / (8 / 10))])
  | _ => Raise IndexError
  end.
Proof.
  intros parts Hok E. destruct Hok as [_ Hw He Hl _ _]. unfold right_panel, parts. cbn [map wm_membership found_part]. rewrite E. cbn [bind].
  assert (Hd : forall a, py_div a (2 * INR (ecount G)) = Ok (a / (2 * INR (ecount G)))).
  { intros a; unfold py_div; destruct (Req_EM_T _ 0) as [X|]; [exfalso|reflexivity]. unfold ecount in X. destruct (edges G) as [|e es]; [congruence|]. cbn [length] in X. rewrite S_INR in X. pose proof (pos_INR (length es)). lra. }
  destruct ranges as [|[[s0 e0] p0] [|[[s1 e1] p1] [|[[s2 e2] p2] rest]]]; try reflexivity.
  cbn [py_get nth_error bind fst snd]. rewrite !Hd. cbn [bind fst snd].
  assert (F : forall gamma c x, In c [c0; c1; c2; c3] -> part_quality (found_part G gamma c) x / (2 * INR (ecount G)) = Q G x c) by (intros gamma c x Hc; rewrite found_quality by auto; reflexivity).
  change (mkWM (mkVP RBConfiguration (mkGraph (vcount G) (directed G) (edges G) (Some (repeat 1 (ecount G)))) (1 / 2)) c0) with (found_part G (1 / 2) c0).
  change (mkWM (mkVP RBConfiguration (mkGraph (vcount G) (directed G) (edges G) (Some (repeat 1 (ecount G)))) (3 / 2)) c2) with (found_part G (3 / 2) c2).
  change (mkWM (mkVP RBConfiguration (mkGraph (vcount G) (directed G) (edges G) (Some (repeat 1 (ecount G)))) 2) c3) with (found_part G 2 c3).
  rewrite !F by (cbn; auto). reflexivity.
Qed.

Lemma Q_affine G c x y t : Q G ((1 - t) * x + t * y) c = (1 - t) * Q G x c + t * Q G y c.
Proof. unfold Q. rewrite !modularity_AP. unfold Rdiv. ring. Qed.
Lemma Q_le G x c c' : edges G <> [] -> modularity G x c <= modularity G x c' <-> Q G x c <= Q G x c'.
Proof.
  intros He. assert (0 < 2 * INR (length (edges G))) as Hp.
  { destruct (edges G) as [|e es]; [congruence|]. cbn [length]. rewrite S_INR. pose proof (pos_INR (length es)). lra. }
  unfold Q, Rdiv. pose proof (Rinv_0_lt_compat _ Hp) as Hi. split; intros H; [apply Rmult_le_compat_r; lra|]. eapply Rmult_le_reg_r; eauto.
Qed.
Lemma on_segment_Q G c s e x y : s <= x <= e -> (on_segment ((s, Q G s c), (e, Q G e c)) x y -> y = Q G x c) /\ on_segment ((s, Q G s c), (e, Q G e c)) x (Q G x c).
Proof.
  intros H. split.
  - intros (t & Ht & -> & ->). rewrite Q_affine. reflexivity.
  - destruct (Req_dec s e) as [<-|N].
    + exists 0. assert (x = s) by lra. subst x. repeat split; lra.
    + exists ((x - s) / (e - s)). assert (Hp : 0 < e - s) by lra. assert (E : x = (1 - (x - s) / (e - s)) * s + (x - s) / (e - s) * e) by (field; lra).
      split; [split|split; [exact E|]].
      * apply Rmult_le_pos; [lra|]. left. apply Rinv_0_lt_compat. lra.
      * apply (Rmult_le_reg_r (e - s)); [lra|]. unfold Rdiv. rewrite Rmult_assoc, Rinv_l by lra. lra.
      * rewrite <- Q_affine, <- E. reflexivity.
Qed.
Lemma on_segment_range s e ys ye x y : s <= e -> on_segment ((s, ys), (e, ye)) x y -> s <= x <= e.
Proof. intros H (t & Ht & -> & _). split; clear - H Ht; nra. Qed.

(** Fewer than three ranges: IndexError.  Otherwise three segments are drawn, none of whose points lies above the upper envelope; a segment lies
    on it at a point exactly if its partition (the first, third or fourth, whoever the range belongs to) is optimal there. *)
Theorem C110_right_panel : forall env G c0 c1 c2 c3 ranges,
  let parts := [found_part G (1 / 2) c0; found_part G 1 c1; found_part G (3 / 2) c2; found_part G 2 c3] in
  champ_ok_2D env G [c0; c1; c2; c3] -> CHAMP_2D env G [c0; c1; c2; c3] (1 / 4) (9 / 4) false = Ok ranges ->
  ((length ranges < 3)%nat -> right_panel env G parts = Raise IndexError) /\
  ((3 <= length ranges)%nat -> exists segments dashed,
     right_panel env G parts = Ok (segments, dashed) /\ length segments = 3%nat /\
     forall i s e p c segment, nth_error ranges i = Some (s, e, p) -> nth_error [c0; c2; c3] i = Some c -> nth_error segments i = Some segment ->
       fst (fst segment) = s /\ fst (snd segment) = e /\
       forall x y, on_segment segment x y -> s <= x <= e /\ y <= Q G x p /\ (y = Q G x p <-> modularity G x c = modularity G x p)).
Proof.
  intros env G c0 c1 c2 c3 ranges parts Hok E. unfold parts. rewrite (right_panel_form env G c0 c1 c2 c3 ranges Hok E). split; intros Hn.
  - destruct ranges as [|[[s0 e0] p0] [|[[s1 e1] p1] [|[[s2 e2] p2] rest]]]; try reflexivity. cbn in Hn. lia.
  - destruct ranges as [|[[s0 e0] p0] [|[[s1 e1] p1] [|[[s2 e2] p2] rest]]]; try (cbn in Hn; lia). eexists _, _. split; [reflexivity|]. split; [reflexivity|].
    assert (K : forall s e p c, In (s, e, p) ((s0, e0, p0) :: (s1, e1, p1) :: (s2, e2, p2) :: rest) -> In c [c0; c1; c2; c3] -> forall x y, on_segment ((s, Q G s c), (e, Q G e c)) x y ->
       s <= x <= e /\ y <= Q G x p /\ (y = Q G x p <-> modularity G x c = modularity G x p)).
    { intros s e p c Hr Hc x y Hs. destruct (C23_ranges_well_formed _ _ _ _ _ _ _ Hok E) as (B & _). destruct (B s e p Hr) as (_ & Hse & _).
      pose proof (on_segment_range _ _ _ _ _ _ Hse Hs) as Hx. rewrite (proj1 (on_segment_Q G c s e x y Hx) Hs).
      pose proof (proj2 (C21_ranges_are_optimal _ _ _ _ _ _ _ Hok E s e p Hr) x c Hx Hc) as Hle. split; [exact Hx|].
      assert (He : edges G <> []) by (destruct Hok; assumption). split; [apply Q_le; auto|]. split; [|unfold Q; intros ->; reflexivity]. intros Eq. apply Rle_antisym; [exact Hle|]. apply Q_le; auto. lra. }
    intros i s e p c seg Hr Hc Hs. destruct i as [|[|[|i]]]; cbn [nth_error] in Hr, Hc, Hs; [| | |destruct i; discriminate Hc]; inversion Hr; inversion Hc; inversion Hs; subst; cbn [fst snd];
      (split; [reflexivity|]); (split; [reflexivity|]); apply K; cbn; auto.
Qed.
Print Assumptions C110_right_panel.

(** What the caption promises: if the partition of resolution 1 is nowhere optimal, and the others are strictly best at some resolutions x0 < x2 < x3, the
    panel is the upper envelope of all four over [1/4, 9/4], the segments follow one another without gaps, and the dashed lines stand
    where two consecutive partitions tie. *)
Theorem C110_envelope : forall env G c0 c1 c2 c3 ranges x0 x2 x3,
  let parts := [found_part G (1 / 2) c0; found_part G 1 c1; found_part G (3 / 2) c2; found_part G 2 c3] in
  let cs := [c0; c1; c2; c3] in
  let strictly_best x c := forall c', In c' cs -> c' <> c -> modularity G x c' < modularity G x c in
  champ_ok_2D env G cs -> CHAMP_2D env G cs (1 / 4) (9 / 4) false = Ok ranges ->
  1 / 4 <= x0 -> x0 < x2 -> x2 < x3 -> x3 <= 9 / 4 ->
  c0 <> c2 -> c0 <> c3 -> c2 <> c3 ->
  strictly_best x0 c0 -> strictly_best x2 c2 -> strictly_best x3 c3 ->
  (forall x, 1 / 4 <= x <= 9 / 4 -> exists c, In c cs /\ modularity G x c1 < modularity G x c) ->
  exists b2 b3,
    x0 < b2 < x2 /\ x2 < b3 < x3 /\ Q G b2 c0 = Q G b2 c2 /\ Q G b3 c2 = Q G b3 c3 /\
    right_panel env G parts =
      Ok ([((1 / 4, Q G (1 / 4) c0), (b2, Q G b2 c0)); ((b2, Q G b2 c2), (b3, Q G b3 c2)); ((b3, Q G b3 c3), (9 / 4, Q G (9 / 4) c3))],
          [(b2, Q G b2 c0 / (8 / 10)); (b3, Q G b3 c2 / (8 / 10))]) /\
    (forall x, 1 / 4 <= x <= b2 -> is_envelope G cs x (Q G x c0)) /\
    (forall x, b2 <= x <= b3 -> is_envelope G cs x (Q G x c2)) /\
    (forall x, b3 <= x <= 9 / 4 -> is_envelope G cs x (Q G x c3)).
Proof.
  intros env G c0 c1 c2 c3 ranges x0 x2 x3 parts cs sb Hok E B0 B1 B2 B3 N02 N03 N23 S0 S2 S3 H1.
  pose proof (C21_ranges_are_optimal _ _ _ _ _ _ _ Hok E) as Hopt.
  destruct (C23_ranges_well_formed _ _ _ _ _ _ _ Hok E) as (Hb & Hsort & idx & Hnd & Hidx).
  pose proof (fun x => C22_ranges_cover _ _ _ _ _ _ _ x Hok ltac:(discriminate) E) as Hcov.
  assert (I0 : In c0 cs) by (cbn; auto). assert (I2 : In c2 cs) by (cbn; auto). assert (I3 : In c3 cs) by (cbn; auto).
  destruct (C22_strictly_best_is_returned _ _ _ _ _ _ _ x0 c0 Hok E ltac:(lra) I0 S0) as (s0 & e0 & R0 & X0).
  destruct (C22_strictly_best_is_returned _ _ _ _ _ _ _ x2 c2 Hok E ltac:(lra) I2 S2) as (s2 & e2 & R2 & X2).
  destruct (C22_strictly_best_is_returned _ _ _ _ _ _ _ x3 c3 Hok E ltac:(lra) I3 S3) as (s3 & e3 & R3 & X3).
  (* only c0, c2, c3 have ranges, and each has one *)
  assert (N1 : forall s e, ~ In (s, e, c1) ranges).
  { intros s e Hin. destruct (Hb s e c1 Hin) as (P1 & P2 & P3). destruct (H1 s ltac:(lra)) as (c & Hc & Hlt). pose proof (proj2 (Hopt s e c1 Hin) s c ltac:(lra) Hc). lra. }
  assert (N10 : c1 <> c0) by (intros ->; apply (N1 _ _ R0)). assert (N12 : c1 <> c2) by (intros ->; apply (N1 _ _ R2)). assert (N13 : c1 <> c3) by (intros ->; apply (N1 _ _ R3)).
  assert (Hpos : forall i c, nth_error cs i = Some c -> c = c0 -> i = 0%nat) by (intros [|[|[|[|i]]]] c Hc ->; cbn in Hc; try (inversion Hc; congruence); destruct i; discriminate).
  assert (Hpos2 : forall i c, nth_error cs i = Some c -> c = c2 -> i = 2%nat) by (intros [|[|[|[|i]]]] c Hc ->; cbn in Hc; try (inversion Hc; congruence); destruct i; discriminate).
  assert (Hpos3 : forall i c, nth_error cs i = Some c -> c = c3 -> i = 3%nat) by (intros [|[|[|[|i]]]] c Hc ->; cbn in Hc; try (inversion Hc; congruence); destruct i; discriminate).
  assert (Hwho : forall r, In r ranges -> snd r = c0 \/ snd r = c2 \/ snd r = c3).
  { intros [[s e] p] Hin. destruct (Hopt s e p Hin) as [[<-|[<-|[<-|[<-|[]]]]] _]; cbn; auto. destruct (N1 _ _ Hin). }
  assert (Hord02 : s0 < s2).
  { destruct (Rlt_dec s0 s2); auto. exfalso. pose proof (proj2 (Hopt _ _ _ R2) x0 c0 ltac:(lra) I0). specialize (S0 c2 I2 ltac:(congruence)). lra. }
  assert (Hord23 : s2 < s3).
  { destruct (Rlt_dec s2 s3); auto. exfalso. pose proof (proj2 (Hopt _ _ _ R3) x2 c2 ltac:(lra) I2). specialize (S2 c3 I3 ltac:(congruence)). lra. }
  assert (Hranges : ranges = [(s0, e0, c0); (s2, e2, c2); (s3, e3, c3)]).
  { assert (Huniq : forall r r', In r ranges -> In r' ranges -> snd r = snd r' -> r = r').
    { clear - Hidx Hnd Hwho Hpos Hpos2 Hpos3. induction Hidx as [|i r idx ranges Hi Hrest IH]; intros a b Ha Hb' Hab; [destruct Ha|].
      inversion Hnd as [|? ? Hni Hnd']. subst.
      assert (Hno : forall z, In z ranges -> snd z = snd r -> False).
      { intros z Hz Ez. assert (Hj : exists j, In j idx /\ nth_error cs j = Some (snd z)).
        { clear - Hrest Hz. induction Hrest as [|j q idx l Hj Hl IHl]; [destruct Hz|]. destruct Hz as [<-|Hz]; [exists j; cbn; auto|]. destruct (IHl Hz) as (k & K1 & K2). exists k; cbn; auto. }
        destruct Hj as (j & Hin & Hj). apply Hni. replace i with j; [exact Hin|]. rewrite Ez in Hj.
        destruct (Hwho r (or_introl eq_refl)) as [W|[W|W]].
        - rewrite (Hpos i _ Hi W), (Hpos j _ Hj W). reflexivity.
        - rewrite (Hpos2 i _ Hi W), (Hpos2 j _ Hj W). reflexivity.
        - rewrite (Hpos3 i _ Hi W), (Hpos3 j _ Hj W). reflexivity. }
      destruct Ha as [<-|Ha], Hb' as [<-|Hb']; auto; [destruct (Hno b Hb'); congruence|destruct (Hno a Ha); congruence|]. apply IH; auto. intros z Hz. apply Hwho. right. auto. }
    assert (Hdup : NoDup (map snd ranges)).
    { clear - Hidx Hnd Hwho Hpos Hpos2 Hpos3. induction Hidx as [|i r idx ranges Hi Hrest IH]; cbn [map]; constructor.
      - inversion Hnd as [|? ? Hni Hnd']. subst. intros Hz. apply in_map_iff in Hz. destruct Hz as (z & Ez & Hz).
        assert (Hj : exists j, In j idx /\ nth_error cs j = Some (snd z)).
        { clear - Hrest Hz. induction Hrest as [|j q idx l Hj Hl IHl]; [destruct Hz|]. destruct Hz as [<-|Hz]; [exists j; cbn; auto|]. destruct (IHl Hz) as (k & K1 & K2). exists k; cbn; auto. }
        destruct Hj as (j & Hin & Hj). apply Hni. replace i with j; [exact Hin|]. rewrite Ez in Hj.
        destruct (Hwho r (or_introl eq_refl)) as [W|[W|W]].
        + rewrite (Hpos i _ Hi W), (Hpos j _ Hj W). reflexivity.
        + rewrite (Hpos2 i _ Hi W), (Hpos2 j _ Hj W). reflexivity.
        + rewrite (Hpos3 i _ Hi W), (Hpos3 j _ Hj W). reflexivity.
      - inversion Hnd; subst. apply IH; auto. intros z Hz. apply Hwho. right. auto. }
    assert (Hin3 : forall r, In r ranges <-> In r [(s0, e0, c0); (s2, e2, c2); (s3, e3, c3)]).
    { intros r. split.
      - intros Hin. destruct (Hwho r Hin) as [W|[W|W]].
        + left. apply Huniq; auto.
        + right. left. apply Huniq; auto.
        + right. right. left. apply Huniq; auto.
      - intros [<-|[<-|[<-|[]]]]; auto. }
    assert (Hnd1 : NoDup ranges) by (eapply NoDup_map_inv; eauto).
    assert (Hnd2 : NoDup [(s0, e0, c0); (s2, e2, c2); (s3, e3, c3)]).
    { constructor; [intros [X|[X|[]]]; inversion X; lra|]. constructor; [intros [X|[]]; inversion X; lra|]. constructor; [intros []|constructor]. }
    pose proof (NoDup_Permutation Hnd1 Hnd2 Hin3) as Hperm. pose proof (Permutation.Permutation_length Hperm) as Hlen. cbn in Hlen.
    destruct ranges as [|r1 [|r2 [|r3 [|]]]]; cbn in Hlen; try discriminate. clear Hcov Hopt Hb Hidx Huniq Hdup Hwho N1 H1 S0 S2 S3 E.
    inversion Hsort as [|? ? Hs1 Hf1]; subst. inversion Hs1 as [|? ? Hs2 Hf2]; subst. inversion Hf1 as [|? ? F12 Hf1']; subst. inversion Hf1' as [|? ? F13 _]; subst. inversion Hf2 as [|? ? F23 _]; subst.
    assert (T : forall r, In r [r1; r2; r3] -> r = (s0, e0, c0) \/ r = (s2, e2, c2) \/ r = (s3, e3, c3)) by (intros r Hr; apply Hin3 in Hr; cbn in Hr; intuition auto).
    inversion Hnd1 as [|? ? D1 Hnd1']; subst. inversion Hnd1' as [|? ? D2 _]; subst. cbn in D1, D2.
    destruct (T r1) as [T1|[T1|T1]]; [cbn; auto| | |]; (destruct (T r2) as [T2|[T2|T2]]; [cbn; auto| | |]); (destruct (T r3) as [T3|[T3|T3]]; [cbn; auto| | |]); subst r1 r2 r3; cbn in F12, F13, F23; try reflexivity; exfalso; (lra || (apply D1; cbn; tauto) || (apply D2; cbn; tauto)). }
  (* the boundaries *)
  rewrite Hranges in *. clear Hidx Hnd idx Hsort Hwho.
  destruct (Hb _ _ _ R0) as (P1 & P2 & P3). destruct (Hb _ _ _ R2) as (P4 & P5 & P6). destruct (Hb _ _ _ R3) as (P7 & P8 & P9).
  pose proof (proj2 (Hopt _ _ _ R0)) as O0. pose proof (proj2 (Hopt _ _ _ R2)) as O2. pose proof (proj2 (Hopt _ _ _ R3)) as O3.
  assert (Hin : forall x, 1 / 4 <= x <= 9 / 4 -> s0 <= x <= e0 \/ s2 <= x <= e2 \/ s3 <= x <= e3).
  { intros x Hx. destruct (Hcov x Hx) as (s & e & p & [X|[X|[X|[]]]] & Hy); inversion X; subst; auto. }
  assert (S02 : modularity G x2 c0 < modularity G x2 c2) by (apply S2; auto). assert (S20 : modularity G x0 c2 < modularity G x0 c0) by (apply S0; auto).
  assert (S23 : modularity G x2 c3 < modularity G x2 c2) by (apply S2; auto). assert (S32 : modularity G x3 c2 < modularity G x3 c3) by (apply S3; auto).
  assert (S03 : modularity G x3 c0 < modularity G x3 c3) by (apply S3; auto). assert (S30 : modularity G x0 c3 < modularity G x0 c0) by (apply S0; auto).
  assert (e0x2 : e0 < x2) by (destruct (Rlt_dec e0 x2); auto; exfalso; pose proof (O0 x2 c2 ltac:(lra) I2); lra).
  assert (s2x0 : x0 < s2) by (destruct (Rlt_dec x0 s2); auto; exfalso; pose proof (O2 x0 c0 ltac:(lra) I0); lra).
  assert (e2x3 : e2 < x3) by (destruct (Rlt_dec e2 x3); auto; exfalso; pose proof (O2 x3 c3 ltac:(lra) I3); lra).
  assert (s3x2 : x2 < s3) by (destruct (Rlt_dec x2 s3); auto; exfalso; pose proof (O3 x2 c2 ltac:(lra) I2); lra).
  assert (Lin : forall c c' a b, a < b -> modularity G a c = modularity G a c' -> modularity G b c = modularity G b c' -> forall x, modularity G x c = modularity G x c').
  { intros c c' a b Hab Ea Eb x. rewrite !modularity_AP in *. assert (P_of G c = P_of G c') as HP by (clear - Hab Ea Eb; nra). rewrite HP in *. lra. }
  assert (tie : forall x, s2 <= x <= e0 -> modularity G x c0 = modularity G x c2) by (intros x Hx; apply Rle_antisym; [apply O2; auto; lra|apply O0; auto; lra]).
  assert (tie' : forall x, s3 <= x <= e2 -> modularity G x c2 = modularity G x c3) by (intros x Hx; apply Rle_antisym; [apply O3; auto; lra|apply O2; auto; lra]).
  assert (G1 : e0 = s2).
  { destruct (Rtotal_order e0 s2) as [Hlt|[Heq|Hgt]]; auto; exfalso.
    - destruct (Hin ((e0 + s2) / 2) ltac:(lra)) as [Z|[Z|Z]]; lra.
    - pose proof (Lin c0 c2 s2 e0 Hgt (tie s2 ltac:(lra)) (tie e0 ltac:(lra)) x0). lra. }
  assert (G2 : e2 = s3).
  { destruct (Rtotal_order e2 s3) as [Hlt|[Heq|Hgt]]; auto; exfalso.
    - destruct (Hin ((e2 + s3) / 2) ltac:(lra)) as [Z|[Z|Z]]; lra.
    - pose proof (Lin c2 c3 s3 e2 Hgt (tie' s3 ltac:(lra)) (tie' e2 ltac:(lra)) x2). lra. }
  assert (G0 : s0 = 1 / 4) by (destruct (Hin (1 / 4) ltac:(lra)) as [Z|[Z|Z]]; lra).
  assert (G3 : e3 = 9 / 4) by (destruct (Hin (9 / 4) ltac:(lra)) as [Z|[Z|Z]]; lra).
  subst s0 e3 s3 s2. exists e0, e2. split; [lra|]. split; [lra|].
  split; [unfold Q; rewrite (tie e0) by lra; reflexivity|]. split; [unfold Q; rewrite (tie' e2) by lra; reflexivity|].
  split; [unfold parts; rewrite (right_panel_form env G c0 c1 c2 c3 _ Hok E); reflexivity|].
  assert (He : edges G <> []) by (destruct Hok; assumption).
  split; [|split]; intros x Hx; (split; [eexists; split; [|reflexivity]; auto|]); intros c Hc; apply Q_le; auto.
Qed.
Print Assumptions C110_envelope.

(** A path of three vertices: one community up to 4/3, then an edge and a vertex up to 2, then singletons; the two ends against the middle are
    nowhere optimal.  The panel has its corners at 4/3 and 2. *)
Definition path3 : graph := mkGraph 3 false [(0, 1); (1, 2)]%nat None.
Lemma path3_modularity x : modularity path3 x [0; 0; 0]%nat = 4 - x * 4 /\ modularity path3 x [0; 1; 0]%nat = 0 - x * 2 /\
  modularity path3 x [0; 0; 1]%nat = 2 - x * (5 / 2) /\ modularity path3 x [0; 1; 2]%nat = 0 - x * (3 / 2).
Proof.
  set (cs := [[0; 0; 0]; [0; 1; 0]; [0; 0; 1]; [0; 1; 2]]%nat).
  assert (V : valid_pool 1 [0]%nat cs) by (split; [lia|]; split; [apply Permutation.Permutation_refl|]; simpl; lia).
  assert (W : wf_graph path3) by (split; [intros u v Hin; cbn in Hin |- *; repeat (destruct Hin as [Hin|Hin]; [inversion Hin; subst; lia|]); destruct Hin|discriminate]).
  assert (L : forall c, In c cs -> length c = vcount path3) by (intros c Hc; cbn in Hc; repeat (destruct Hc as [<-|Hc]; [reflexivity|]); destruct Hc).
  destruct (coefficients_2D_modularity 1%nat [0]%nat true path3 cs V W ltac:(discriminate) L) as (a & p & E & _ & _ & H).
  assert (C : partition_coefficients_2D_serial path3 cs = Ok ([4; 0; 2; 0], [Fin 4; Fin 2; Fin (5 / 2); Fin (3 / 2)])).
  { cbv -[Rplus Rmult Rinv Rdiv Rminus IZR Req_EM_T]. destruct (Req_EM_T _ 0) as [X|X]; [exfalso; lra|].
    repeat match goal with |- Ok _ = Ok _ => f_equal | |- (_, _) = (_, _) => f_equal | |- _ :: _ = _ :: _ => f_equal | |- Fin _ = Fin _ => f_equal | |- @eq R _ _ => lra end; reflexivity. }
  apply (proj1 (C15_parallel_coefficients_equal_serial 1%nat [0]%nat cs V)) in E. rewrite C in E. inversion E as [[E1 E2]]. subst a.
  destruct p as [|p0 [|p1 [|p2 [|p3 [|]]]]]; try discriminate E2. inversion E2. subst.
  pose proof (H 0%nat _ _ _ eq_refl eq_refl eq_refl x) as H0. pose proof (H 1%nat _ _ _ eq_refl eq_refl eq_refl x) as H1. pose proof (H 2%nat _ _ _ eq_refl eq_refl eq_refl x) as H2. pose proof (H 3%nat _ _ _ eq_refl eq_refl eq_refl x) as H3.
  rewrite <- H0, <- H1, <- H2, <- H3. repeat split; lra.
Qed.
Example C110_example : exists env y1 y2 y3 y4 dashed,
  right_panel env path3 [found_part path3 (1 / 2) [0; 0; 0]%nat; found_part path3 1 [0; 1; 0]%nat; found_part path3 (3 / 2) [0; 0; 1]%nat; found_part path3 2 [0; 1; 2]%nat] =
  Ok ([((1 / 4, y1), (4 / 3, y2)); ((4 / 3, y2), (2, y3)); ((2, y3), (9 / 4, y4))], dashed).
Proof.
  set (c0 := [0; 0; 0]%nat). set (c1 := [0; 1; 0]%nat). set (c2 := [0; 0; 1]%nat). set (c3 := [0; 1; 2]%nat).
  assert (W : wf_graph path3) by (split; [intros u v Hin; cbn in Hin |- *; repeat (destruct Hin as [Hin|Hin]; [inversion Hin; subst; lia|]); destruct Hin|discriminate]).
  assert (L : forall c, In c [c0; c1; c2; c3] -> length c = vcount path3) by (intros c Hc; cbn in Hc; repeat (destruct Hc as [<-|Hc]; [reflexivity|]); destruct Hc).
  assert (Z4 : (Z.of_nat (length [c0; c1; c2; c3]) <= 2 ^ 53)%Z) by (change (Z.of_nat (length [c0; c1; c2; c3])) with 4%Z; lia).
  destruct (C21_C22_C23_realisable path3 [c0; c1; c2; c3] (1 / 4) (9 / 4) false W eq_refl ltac:(discriminate) L Z4 ltac:(discriminate) ltac:(lra)) as (env & ranges & Hok & E).
  assert (M : forall x, modularity path3 x c0 = 4 - x * 4 /\ modularity path3 x c1 = 0 - x * 2 /\ modularity path3 x c2 = 2 - x * (5 / 2) /\ modularity path3 x c3 = 0 - x * (3 / 2)) by exact path3_modularity.
  destruct (C110_envelope env path3 c0 c1 c2 c3 ranges 1 (5 / 3) (17 / 8) Hok E) as (b2 & b3 & B2 & B3 & T2 & T3 & P & _); try lra; try discriminate.
  - intros c' Hc' N. destruct (M 1) as (m0 & m1 & m2 & m3). destruct Hc' as [<-|[<-|[<-|[<-|[]]]]]; [congruence|lra..].
  - intros c' Hc' N. destruct (M (5 / 3)) as (m0 & m1 & m2 & m3). destruct Hc' as [<-|[<-|[<-|[<-|[]]]]]; try congruence; lra.
  - intros c' Hc' N. destruct (M (17 / 8)) as (m0 & m1 & m2 & m3). destruct Hc' as [<-|[<-|[<-|[<-|[]]]]]; try congruence; lra.
  - intros x Hx. exists c3. split; [cbn; auto|]. destruct (M x) as (m0 & m1 & m2 & m3). lra.
  - assert (b2 = 4 / 3) as Eb2.
    { destruct (M b2) as (m0 & m1 & m2 & m3). unfold Q in T2. cbn [path3 edges length INR] in T2. unfold Rdiv in T2. apply Rmult_eq_reg_r in T2; [lra|]. apply Rinv_neq_0_compat. lra. }
    assert (b3 = 2) as Eb3.
    { destruct (M b3) as (m0 & m1 & m2 & m3). unfold Q in T3. cbn [path3 edges length INR] in T3. unfold Rdiv in T3. apply Rmult_eq_reg_r in T3; [lra|]. apply Rinv_neq_0_compat. lra. }
    subst b2 b3. eexists env, _, _, _, _, _. rewrite P, T2, T3. reflexivity.
Qed.
