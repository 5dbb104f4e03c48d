(** The domains of CHAMP_3D are exactly the places where their partitions are optimal; they have inner points, overlap only
    where their partitions tie, and do not depend on the external routines. *)
From Verif Require Import PyBase PyGraph M_partition M_pool M_champ Spec Spec_graph Spec_champ Spec_polygon Spec_stability Spec_tiling L_base L_sort
  L_modularity L_modularity3 L_parallel L_bounds L_halfspace L_champ L_champ2 L_champ3 L_minkowski L_angular L_convex L_tiling.
From Coq Require Import Sorted Classical.
Set Implicit Arguments.
Open Scope R_scope.

Section Facet3.
Variables (A P C : list R) (g0 gf o0 of : R) (hs : list halfspace) (out : list (option (list R) * list nat)).
Hypothesis (HP : forall p, In p P -> 0 <= p) (HC : forall c, In c C -> 0 <= c)
  (Hhs : champ_halfspaces_3D A P C g0 gf o0 of = Ok hs) (Hex : exact_intersection 3 hs out).
Let rows := combine (combine A P) C.

Lemma facet_exact3 i ap vs gamma omega : nth_error rows i = Some ap -> listed out i <> [] -> map Some vs = listed out i ->
  g0 <= gamma <= gf -> o0 <= omega <= of -> (forall r, In r rows -> q3 r gamma omega <= q3 ap gamma omega) ->
  in_hull vs [gamma; omega; q3 ap gamma omega].
Proof.
  intros Er Hl Evs Hg Ho Hmax.
  assert (Hi : (i < length rows)%nat) by (apply nth_error_Some; rewrite Er; discriminate).
  assert (Hf : feasible hs [gamma; omega; q3 ap gamma omega]).
  { eapply box_envelope_3D; eauto. apply in_map_iff. exists ap. split; auto. eapply nth_error_In; eauto. }
  destruct (champ3_inv _ _ _ _ _ _ _ Hhs) as (top & bottom & _ & _ & E). fold rows in E.
  assert (Hh : nth_error hs i = Some (normalise (mkH [- snd (fst ap); snd ap; -1] (fst (fst ap))))).
  { rewrite E. apply map_nth_error. rewrite nth_error_app1 by (rewrite map_length; auto).
    rewrite (map_nth_error _ _ _ Er). reflexivity. }
  destruct (ei_facet _ _ _ Hex _ _ [gamma; omega; q3 ap gamma omega] Hl Hh) as (vs' & Evs' & Hhull); auto.
  { apply tight3. reflexivity. }
  assert (vs' = vs) by (apply map_Some_inj; congruence). subst. auto.
Qed.
End Facet3.

(** ** Planar geometry *)
Lemma polygon_box poly a b c d x : (forall v, In v poly -> a <= fst v <= b /\ c <= snd v <= d) -> in_polygon poly x ->
  a <= fst x <= b /\ c <= snd x <= d.
Proof.
  intros H Hx.
  pose proof (@in_polygon_affine (- a) 1 0 poly x (fun v Hv => ltac:(destruct (H v Hv); lra)) Hx).
  pose proof (@in_polygon_affine b (-1) 0 poly x (fun v Hv => ltac:(destruct (H v Hv); lra)) Hx).
  pose proof (@in_polygon_affine (- c) 0 1 poly x (fun v Hv => ltac:(destruct (H v Hv); lra)) Hx).
  pose proof (@in_polygon_affine d 0 (-1) poly x (fun v Hv => ltac:(destruct (H v Hv); lra)) Hx). lra.
Qed.

(** the centroid of a triangle is an inner point *)
Lemma triangle_inside poly p q r : In p poly -> In q poly -> In r poly -> orient p q r <> 0 ->
  interior poly ((fst p + fst q + fst r) / 3, (snd p + snd q + snd r) / 3).
Proof.
  intros Hp Hq Hr No. set (D := orient p q r) in *.
  set (K := Rabs (fst p - fst q) + Rabs (fst q - fst r) + Rabs (fst r - fst p) + Rabs (snd p - snd q) + Rabs (snd q - snd r) + Rabs (snd r - snd p) + 1).
  assert (HK : 0 < K).
  { unfold K. pose proof (Rabs_pos (fst p - fst q)). pose proof (Rabs_pos (fst q - fst r)). pose proof (Rabs_pos (fst r - fst p)).
    pose proof (Rabs_pos (snd p - snd q)). pose proof (Rabs_pos (snd q - snd r)). pose proof (Rabs_pos (snd r - snd p)). lra. }
  assert (HD : 0 < Rabs D) by (apply Rabs_pos_lt; auto).
  exists (Rabs D / (6 * K)). split; [apply Rmult_lt_0_compat; auto; apply Rinv_0_lt_compat; lra|].
  intros [y0 y1] H0 H1. cbn [fst snd] in *.
  set (dx := y0 - (fst p + fst q + fst r) / 3) in *. set (dy := y1 - (snd p + snd q + snd r) / 3) in *.
  assert (Hw : forall e f, Rabs e <= K -> Rabs f <= K -> 0 <= 1 / 3 + (e * dx + f * dy) / D).
  { intros e f He Hf. assert (B : Rabs ((e * dx + f * dy) / D) <= 1 / 3).
    { unfold Rdiv. rewrite Rabs_mult, Rabs_inv. apply (Rmult_le_reg_r (Rabs D)); auto. rewrite Rmult_assoc, Rinv_l by lra. rewrite Rmult_1_r.
      apply Rle_trans with (Rabs (e * dx) + Rabs (f * dy)); [apply Rabs_triang|]. rewrite !Rabs_mult.
      assert (G : forall u w, Rabs u <= K -> Rabs w < Rabs D / (6 * K) -> Rabs u * Rabs w <= Rabs D / 6).
      { intros u w Hu Hw. apply Rle_trans with (K * (Rabs D / (6 * K))); [apply Rmult_le_compat; try apply Rabs_pos; lra|].
        apply Req_le. field. lra. }
      pose proof (G e dx He H0). pose proof (G f dy Hf H1). lra. }
    pose proof (Rle_abs (- ((e * dx + f * dy) / D))). rewrite Rabs_Ropp in H. lra. }
  pose proof (Rabs_pos (fst p - fst q)). pose proof (Rabs_pos (fst q - fst r)). pose proof (Rabs_pos (fst r - fst p)).
  pose proof (Rabs_pos (snd p - snd q)). pose proof (Rabs_pos (snd q - snd r)). pose proof (Rabs_pos (snd r - snd p)).
  assert (Hwp := Hw (snd q - snd r) (- (fst q - fst r)) ltac:(unfold K; lra) ltac:(rewrite Rabs_Ropp; unfold K; lra)).
  assert (Hwq := Hw (snd r - snd p) (- (fst r - fst p)) ltac:(unfold K; lra) ltac:(rewrite Rabs_Ropp; unfold K; lra)).
  assert (Hwr := Hw (snd p - snd q) (- (fst p - fst q)) ltac:(unfold K; lra) ltac:(rewrite Rabs_Ropp; unfold K; lra)).
  set (wp := 1 / 3 + ((snd q - snd r) * dx + - (fst q - fst r) * dy) / D) in *.
  set (wq := 1 / 3 + ((snd r - snd p) * dx + - (fst r - fst p) * dy) / D) in *.
  set (wr := 1 / 3 + ((snd p - snd q) * dx + - (fst p - fst q) * dy) / D) in *.
  pose proof (comb_add (comb_add (@comb_one poly p wp Hp Hwp) (@comb_one poly q wq Hq Hwq)) (@comb_one poly r wr Hr Hwr)) as CC.
  cbn [fst snd] in CC.
  assert (E1 : wp + wq + wr = 1) by (unfold wp, wq, wr; field; auto).
  assert (E2 : wp * fst p + wq * fst q + wr * fst r = y0).
  { assert (Edx : y0 = dx + (fst p + fst q + fst r) / 3) by (unfold dx; ring). rewrite Edx. unfold wp, wq, wr.
    unfold D, orient in *. field. auto. }
  assert (E3 : wp * snd p + wq * snd q + wr * snd r = y1).
  { assert (Edy : y1 = dy + (snd p + snd q + snd r) / 3) by (unfold dy; ring). rewrite Edy. unfold wp, wq, wr.
    unfold D, orient in *. field. auto. }
  rewrite E1, E2, E3 in CC. exact CC.
Qed.

(** an affine function that vanishes at three points in general position is zero *)
Lemma affine_zero a b c p q r : orient p q r <> 0 -> a + b * fst p + c * snd p = 0 -> a + b * fst q + c * snd q = 0 ->
  a + b * fst r + c * snd r = 0 -> a = 0 /\ b = 0 /\ c = 0.
Proof.
  unfold orient. intros N Hp Hq Hr.
  assert (Hb : b * ((fst q - fst p) * (snd r - snd p) - (snd q - snd p) * (fst r - fst p)) = 0).
  { replace (b * ((fst q - fst p) * (snd r - snd p) - (snd q - snd p) * (fst r - fst p))) with
      ((b * (fst q - fst p)) * (snd r - snd p) - (snd q - snd p) * (b * (fst r - fst p))) by ring.
    replace (b * (fst q - fst p)) with (- c * (snd q - snd p)) by lra. replace (b * (fst r - fst p)) with (- c * (snd r - snd p)) by lra. ring. }
  assert (Hc : c * ((fst q - fst p) * (snd r - snd p) - (snd q - snd p) * (fst r - fst p)) = 0).
  { replace (c * ((fst q - fst p) * (snd r - snd p) - (snd q - snd p) * (fst r - fst p))) with
      ((fst q - fst p) * (c * (snd r - snd p)) - (c * (snd q - snd p)) * (fst r - fst p)) by ring.
    replace (c * (snd q - snd p)) with (- b * (fst q - fst p)) by lra. replace (c * (snd r - snd p)) with (- b * (fst r - fst p)) by lra. ring. }
  apply Rmult_integral in Hb as [Hb|]; [|contradiction]. apply Rmult_integral in Hc as [Hc|]; [|contradiction]. subst. lra.
Qed.

Lemma rsum_nonneg l : (forall x, In x l -> 0 <= x) -> 0 <= rsum l.
Proof. intros H. rewrite <- (map_id l). apply rsum_map_nonneg. auto. Qed.

(** a corner of a convex polygon is in every list with the same hull *)
Lemma extreme_in l1 v l2 W : convex_position (l1 ++ v :: l2) -> in_polygon W v -> (forall w, In w W -> in_polygon (l1 ++ v :: l2) w) -> In v W.
Proof.
  intros Hc Hv HW. apply NNPP. intros N.
  assert (Hperm : Permutation (l1 ++ v :: l2) (v :: l1 ++ l2)) by (apply Permutation_sym, Permutation_middle).
  assert (G : forall W s x, (forall w, In w W -> in_polygon (l1 ++ v :: l2) w) -> ~ In v W -> comb W s x ->
    exists a, 0 <= a <= s /\ (a = s -> s = 0) /\ comb (l1 ++ l2) (s - a) (fst x - a * fst v, snd x - a * snd v)).
  { clear W Hv HW N. induction W as [|w W IH]; intros s x HW N H.
    - destruct H as ([|] & Hl & _ & Hs & H1 & H2); [|discriminate]. cbn [combine map] in *. rewrite rsum_nil in *.
      exists 0. split; [lra|]. split; [lra|]. subst s. rewrite H1, H2. replace (0 - 0) with 0 by lra. replace (0 - 0 * fst v) with 0 by lra.
      replace (0 - 0 * snd v) with 0 by lra. apply comb_zero.
    - apply comb_cons in H as (t & Ht & H). destruct (IH _ _ (fun w' H' => HW w' (or_intror H')) (fun H' => N (or_intror H')) H) as (a & Ha & Ha' & HC). cbn [fst snd] in HC.
      pose proof (HW w (or_introl eq_refl)) as Hw. apply (in_polygon_perm Hperm) in Hw. apply comb_cons in Hw as (b & Hb & Hw).
      assert (Hb1 : b <= 1).
      { destruct Hw as (ws & _ & W0 & W1 & _). cbv beta in W1. assert (0 <= rsum ws) by (apply rsum_nonneg; auto). lra. }
      assert (Hb2 : b <> 1).
      { intros ->. apply N. left. destruct Hw as (ws & Wl & W0 & W1 & E1 & E2). replace (1 - 1) with 0 in W1 by lra.
        assert (Z : forall (f : R * R -> R) vs, rsum (map (fun wv => fst wv * f (snd wv)) (combine ws vs)) = 0).
        { clear - W0 W1. revert W1. induction ws as [|w ws IH]; intros W1 f [|u vs]; cbn [combine map]; try apply rsum_nil. rewrite rsum_cons in *.
          assert (0 <= w) by (apply W0; simpl; auto). assert (0 <= rsum ws) by (apply rsum_nonneg; intros; apply W0; simpl; auto).
          rewrite (IH (fun w' H' => W0 w' (or_intror H')) ltac:(lra)). cbn [fst snd]. replace w with 0 by lra. ring. }
        rewrite (Z fst) in E1. rewrite (Z snd) in E2. cbn [fst snd] in E1, E2. destruct w, v. cbn [fst snd] in *. f_equal; lra. }
      exists (a + t * b). assert (0 <= t * b) by nra. assert (t * b <= t) by nra. split; [lra|]. split.
      + intros E. assert (t * (1 - b) = 0) by nra. assert (t = 0) by nra. subst t. lra.
      + pose proof (comb_add HC (comb_scale Ht Hw)) as CC. cbn [fst snd] in CC.
        replace (s - t - a + t * (1 - b)) with (s - (a + t * b)) in CC by ring.
        replace (fst x - t * fst w - a * fst v + t * (fst w - b * fst v)) with (fst x - (a + t * b) * fst v) in CC by ring.
        replace (snd x - t * snd w - a * snd v + t * (snd w - b * snd v)) with (snd x - (a + t * b) * snd v) in CC by ring. exact CC. }
  destruct (G W 1 v HW N Hv) as (a & Ha & Ha' & HC).
  assert (La : a < 1) by (destruct (Req_dec a 1) as [E|]; [specialize (Ha' E); lra|lra]).
  apply (Hc l1 v l2 eq_refl).
  pose proof (@comb_scale _ (/ (1 - a)) ltac:(apply Rlt_le, Rinv_0_lt_compat; lra) _ _ HC) as CC. cbn [fst snd] in CC.
  replace (/ (1 - a) * (1 - a)) with 1 in CC by (field; lra).
  replace (/ (1 - a) * (fst v - a * fst v)) with (fst v) in CC by (field; lra).
  replace (/ (1 - a) * (snd v - a * snd v)) with (snd v) in CC by (field; lra). destruct v. exact CC.
Qed.

Lemma same_corners P Q : convex_position P -> convex_position Q -> (forall x, in_polygon P x <-> in_polygon Q x) -> Permutation P Q.
Proof.
  intros HP HQ E.
  assert (G : forall P Q, convex_position P -> (forall x, in_polygon P x <-> in_polygon Q x) -> forall v, In v P -> In v Q).
  { clear. intros P Q HP E v Hv.
    assert (K : forall vs u, In u vs -> in_polygon vs u) by (intros vs u Hu; pose proof (@comb_one vs u 1 Hu ltac:(lra)) as CC; rewrite !Rmult_1_l in CC; destruct u; exact CC).
    pose proof (K P v Hv) as Hpv. apply in_split in Hv as (l1 & l2 & EP). rewrite EP in HP. apply (@extreme_in l1 v l2 Q HP); [apply E; auto|].
    intros w Hw. rewrite <- EP. apply E. auto. }
  apply NoDup_Permutation; [apply convex_position_nodup; auto|apply convex_position_nodup; auto|].
  intros v. split; [apply (G P Q); auto|apply (G Q P); auto]. intros x. symmetry. apply E.
Qed.

(** sorting by an injective key forgets the order *)
Lemma sorted_unique {T} (key : T -> R) : forall l l', Permutation l l' -> (forall x y, In x l -> In y l -> key x = key y -> x = y) ->
  StronglySorted (fun x y => key x <= key y) l -> StronglySorted (fun x y => key x <= key y) l' -> l = l'.
Proof.
  induction l as [|a l IH]; intros l' Hp Hk Hs Hs'.
  - apply Permutation_nil in Hp. auto.
  - destruct l' as [|b l']; [apply Permutation_sym, Permutation_nil in Hp; discriminate|].
    inversion Hs as [|? ? S1 F1]; subst. inversion Hs' as [|? ? S2 F2]; subst. rewrite Forall_forall in F1, F2.
    assert (E : a = b).
    { apply Hk; [simpl; auto|apply (Permutation_in _ (Permutation_sym Hp)); simpl; auto|].
      assert (Hb : In b (a :: l)) by (apply (Permutation_in _ (Permutation_sym Hp)); simpl; auto).
      assert (Ha : In a (b :: l')) by (apply (Permutation_in _ Hp); simpl; auto).
      destruct Hb as [->|Hb]; auto. destruct Ha as [->|Ha]; auto. apply Rle_antisym; auto. }
    subst b. f_equal. apply IH; auto; [eapply Permutation_cons_inv; eauto|]. intros; apply Hk; simpl; auto.
Qed.

(** corners of a convex polygon are seen from their mean under different angles *)
Lemma angle_injective poly p q : convex_position poly -> In p poly -> In q poly ->
  angle_key (barycentre poly) p = angle_key (barycentre poly) q -> p = q.
Proof.
  intros Hc Hp Hq E. apply NNPP. intros N.
  assert (Hlen : (2 <= length poly)%nat).
  { destruct poly as [|a [|b l]]; simpl in *; try lia; try tauto. exfalso. destruct Hp as [<-|[]]; destruct Hq as [<-|[]]; congruence. }
  set (c := barycentre poly) in *.
  assert (Nc : forall v, In v poly -> v <> c).
  { intros v Hv Ev. pose proof Hv as Hv0. apply in_split in Hv0 as (l1 & l2 & El). apply (Hc l1 v l2 El).
    apply (@in_others l1 v l2 v v 0 0); cbv zeta; rewrite <- ?El; auto; try lra. fold c. unfold vec. rewrite Ev. cbn [fst snd]. f_equal; lra. }
  destruct (angle_key_spec (Nc p Hp)) as (_ & rp & Hrp & P1 & P2). destruct (angle_key_spec (Nc q Hq)) as (_ & rq & Hrq & Q1 & Q2).
  rewrite E in P1, P2. set (th := angle_key c q) in *. clearbody th.
  assert (G : forall v w rv rw, In v poly -> In w poly -> v <> w -> 0 < rv -> rv <= rw -> fst (vec c v) = rv * sin th -> snd (vec c v) = rv * cos th ->
     fst (vec c w) = rw * sin th -> snd (vec c w) = rw * cos th -> False).
  { intros v w rv rw Hv Hw Nvw H0 Hle V1 V2 W1 W2.
    destruct (Req_dec rv rw) as [Er|Nr].
    - apply Nvw. subst rw. unfold vec in *. cbn [fst snd] in *. destruct v, w. cbn [fst snd] in *. f_equal; lra.
    - pose proof Hv as Hv0. apply in_split in Hv0 as (l1 & l2 & El). apply (Hc l1 v l2 El).
      assert (Ha : 0 <= rv / rw < 1).
      { split; [apply Rlt_le, Rmult_lt_0_compat; auto; apply Rinv_0_lt_compat; lra|]. apply (Rmult_lt_reg_r rw); [lra|]. unfold Rdiv. rewrite Rmult_assoc, Rinv_l by lra. lra. }
      apply (@in_others l1 v l2 w w (rv / rw) 0); cbv zeta; rewrite <- ?El; auto; try lra; [congruence|]. fold c.
      rewrite W1, W2. destruct (vec c v) as [v0 v1]. cbn [fst snd] in *. f_equal; [rewrite V1|rewrite V2]; field; lra. }
  destruct (Rle_dec rp rq) as [L|L]; [apply (G p q rp rq)|apply (G q p rq rp)]; auto. lra.
Qed.

Lemma sorted_corners P Q : convex_position P -> Permutation P Q ->
  StronglySorted (fun p q => angle_key (barycentre P) p <= angle_key (barycentre P) q) P ->
  StronglySorted (fun p q => angle_key (barycentre Q) p <= angle_key (barycentre Q) q) Q -> P = Q.
Proof.
  intros Hc Hp HsP HsQ. assert (Eb : barycentre Q = barycentre P).
  { unfold barycentre. rewrite (Permutation_length Hp), (rsum_perm (Permutation_map fst Hp)), (rsum_perm (Permutation_map snd Hp)). reflexivity. }
  rewrite Eb in HsQ. apply (@sorted_unique _ (angle_key (barycentre P))); auto. intros x y Hx Hy. apply angle_injective; auto.
Qed.

Section Domains.
Variables (env : champ_env) (g gi : graph) (lv : list nat) (parts : list (list nat)) (g0 gf o0 of : R).
Hypothesis Hok : champ_ok_3D env g gi lv parts.
Let A := map (A_of g) parts.
Let P := map (P3_of g lv) parts.
Let C := map (A_of gi) parts.

Lemma domain_exact domains poly part gamma omega : CHAMP_3D env g gi lv parts g0 gf o0 of = Ok domains -> In (poly, part) domains ->
  g0 <= gamma <= gf -> o0 <= omega <= of ->
  (forall c, In c parts -> multilayer_modularity g gi lv gamma omega c <= multilayer_modularity g gi lv gamma omega part) ->
  in_polygon poly (gamma, omega).
Proof.
  intros H Hin Hg Ho Hopt.
  assert (Hne : parts <> []) by (intros E; rewrite E in H; inversion H; subst; destruct Hin).
  destruct (@CHAMP_3D_inv _ _ _ _ _ _ _ _ _ Hok _ Hne H) as (hs & pt & out & d & Hhs & Hl & Hs & Hex & F1 & F2 & F3 & Hrs).
  destruct (@domain_origin parts d domains (poly, part) Hrs Hin) as ([i vs] & Hd & Hr).
  destruct (F2 i vs Hd) as (Hi & Hvne & Hvs).
  destruct (@domain_of_facet_inv parts i vs poly part Hr) as (ps & Hps & Hpart & Hpoly & Hperm).
  assert (Hrow : nth_error (combine (combine A P) C) i = Some (A_of g part, P3_of g lv part, A_of gi part)).
  { unfold A, P, C. rewrite combine3_nth, Hpart. reflexivity. }
  apply (in_polygon_perm (Permutation_sym Hperm)). eapply (@hull_project vs ps gamma omega); cycle 1.
  - apply (@facet_exact3 A P C g0 gf o0 of hs out (P3_nonneg Hok) (C3_nonneg Hok) Hhs Hex i _ vs gamma omega Hrow); auto.
    + rewrite <- Hvs. destruct vs; simpl; congruence.
    + intros r Hri. apply In_nth_error in Hri as (j & Hj). unfold A, P, C in Hj. rewrite combine3_nth in Hj.
      destruct (nth_error parts j) as [c|] eqn:Ec; [|discriminate]. simpl in Hj. inversion Hj; subst r.
      specialize (Hopt c (nth_error_In _ _ Ec)). rewrite !multilayer_APC in Hopt. unfold q3. cbn [fst snd]. lra.
  - apply project_forall; auto. intros x Hx.
    destruct (@vertex3 A P C g0 gf o0 of hs pt out Hhs Hl Hex i vs) as (ap & Hap & Hv); auto.
    { unfold A, P, C. rewrite combine3_length. auto. }
    destruct (Hv x Hx) as (u & w & y & -> & _). eauto.
Qed.

Lemma domain_iff domains poly part gamma omega : CHAMP_3D env g gi lv parts g0 gf o0 of = Ok domains -> In (poly, part) domains ->
  in_polygon poly (gamma, omega) <-> (g0 <= gamma <= gf /\ o0 <= omega <= of /\
  forall c, In c parts -> multilayer_modularity g gi lv gamma omega c <= multilayer_modularity g gi lv gamma omega part).
Proof.
  intros H Hin. destruct (@domain_facts _ _ _ _ _ _ _ _ _ Hok _ poly part H Hin) as (_ & _ & Hbox & Hopt). split.
  - intros Hp. destruct (polygon_box Hbox Hp) as [B1 B2]. cbn [fst snd] in *. split; [auto|]. split; [auto|].
    intros c Hc. apply Hopt; auto.
  - intros (Hg & Ho & Hq). eapply domain_exact; eauto.
Qed.

Lemma domain_sorted domains poly part : CHAMP_3D env g gi lv parts g0 gf o0 of = Ok domains -> In (poly, part) domains ->
  StronglySorted (fun p q => angle_key (barycentre poly) p <= angle_key (barycentre poly) q) poly.
Proof.
  intros H Hin.
  assert (Hne : parts <> []) by (intros E; rewrite E in H; inversion H; subst; destruct Hin).
  destruct (@CHAMP_3D_inv _ _ _ _ _ _ _ _ _ Hok _ Hne H) as (hs & pt & out & d & Hhs & Hl & Hs & Hex & F1 & F2 & F3 & Hrs).
  destruct (@domain_origin parts d _ (poly, part) Hrs Hin) as ([i vs] & Hd & Hr).
  destruct (@domain_of_facet_inv parts i vs poly part Hr) as (ps & Hps & Hpart & Hpoly & Hperm).
  assert (Ec : barycentre poly = centroid ps).
  { unfold barycentre, centroid, mean. rewrite !map_length, (Permutation_length Hperm).
    rewrite (rsum_perm (Permutation_map fst Hperm)), (rsum_perm (Permutation_map snd Hperm)). reflexivity. }
  rewrite Ec, Hpoly. unfold angular_sort. apply sort_by_key.
Qed.

Hypothesis (Hir : irredundant_hsi 3 (env_hsi env)) (Hfull : full_facets_hsi 3 (env_hsi env)).

Lemma domain_three domains poly part : CHAMP_3D env g gi lv parts g0 gf o0 of = Ok domains -> In (poly, part) domains ->
  (3 <= length poly)%nat.
Proof.
  intros H Hin. assert (Hne : parts <> []) by (intros E; rewrite E in H; inversion H; subst; destruct Hin).
  rewrite (CHAMP_3D_unfold g0 gf o0 of Hok Hne) in H.
  apply bind_ok in H as (hs & Hhs & H). apply bind_ok in H as (pt & Hpt & H). apply bind_ok in H as (out & Hout & H).
  apply bind_ok in H as (d & Hd & H).
  destruct (@interior_point_3D env _ _ _ _ _ _ _ hs pt (c3_lp Hok) Hhs Hpt) as [Hl Hs].
  pose proof (bounded_3D _ _ _ _ _ _ _ Hhs) as Hb.
  pose proof (c3_hsi Hok Hb Hl Hs Hout) as Hex. pose proof (Hfull Hb Hl Hs Hout) as Hf.
  destruct (facets_ok (length parts) out) as (d' & Hd' & F1 & F2 & F3).
  { intros v is_ Hv. destruct (ei_vertex _ _ _ Hex _ _ Hv) as (x & -> & _). discriminate. }
  assert (d' = d) by congruence. subst d'.
  destruct (@domain_origin parts d domains (poly, part) H Hin) as ([i vs] & Hiv & Hr).
  destruct (F2 i vs Hiv) as (Hi & Hvne & Hvs).
  destruct (@domain_of_facet_inv parts i vs poly part Hr) as (ps & Hps & Hpart & Hpoly & Hperm).
  rewrite (Permutation_length Hperm). apply mapM_Ok_inv in Hps. rewrite <- (Forall2_len Hps).
  specialize (Hf i). rewrite <- Hvs, map_length in Hf. apply Hf. destruct vs; simpl; congruence.
Qed.

Lemma domain_triangle domains poly part : CHAMP_3D env g gi lv parts g0 gf o0 of = Ok domains -> In (poly, part) domains ->
  exists p q r, In p poly /\ In q poly /\ In r poly /\ orient p q r <> 0.
Proof.
  intros H Hin. pose proof (domain_three _ _ H Hin) as L.
  pose proof (@domains_convex _ _ _ _ _ _ _ _ _ _ poly part Hok Hir H Hin) as Hc. pose proof (convex_position_nodup Hc) as ND.
  destruct poly as [|p [|q [|r l]]]; simpl in L; try lia. exists p, q, r. split; [simpl; auto|]. split; [simpl; auto|]. split; [simpl; auto|].
  inversion ND as [|? ? N1 ND1]; subst. inversion ND1 as [|? ? N2 ND2]; subst.
  apply (no_collinear Hc); simpl; auto; intros ->; [apply N1|apply N1|apply N2]; simpl; auto.
Qed.

Lemma domain_has_inside domains poly part : CHAMP_3D env g gi lv parts g0 gf o0 of = Ok domains -> In (poly, part) domains ->
  exists x, interior poly x.
Proof.
  intros H Hin. destruct (domain_triangle _ _ H Hin) as (p & q & r & Hp & Hq & Hr & No). exists ((fst p + fst q + fst r) / 3, (snd p + snd q + snd r) / 3). apply triangle_inside; auto.
Qed.
End Domains.

Lemma same_plane g gi lv c c' p q r : orient p q r <> 0 ->
  (forall x, In x [p; q; r] -> multilayer_modularity g gi lv (fst x) (snd x) c = multilayer_modularity g gi lv (fst x) (snd x) c') ->
  forall gamma omega, multilayer_modularity g gi lv gamma omega c = multilayer_modularity g gi lv gamma omega c'.
Proof.
  intros No H gamma omega.
  pose proof (H p ltac:(simpl; auto)) as Hp. pose proof (H q ltac:(simpl; auto)) as Hq. pose proof (H r ltac:(simpl; auto)) as Hr.
  rewrite !multilayer_APC in *.
  destruct (@affine_zero (A_of g c - A_of g c') (P3_of g lv c' - P3_of g lv c) (A_of gi c - A_of gi c') p q r No) as (E1 & E2 & E3); try lra.
  replace (A_of g c) with (A_of g c') by lra. replace (P3_of g lv c) with (P3_of g lv c') by lra. replace (A_of gi c) with (A_of gi c') by lra. reflexivity.
Qed.

(** A partition that is optimal somewhere inside another one's domain has the same multilayer modularity everywhere. *)
Lemma inside_ties g gi lv poly part c x : interior poly x ->
  (forall gamma omega, in_polygon poly (gamma, omega) -> multilayer_modularity g gi lv gamma omega c <= multilayer_modularity g gi lv gamma omega part) ->
  multilayer_modularity g gi lv (fst x) (snd x) part <= multilayer_modularity g gi lv (fst x) (snd x) c ->
  forall gamma omega, multilayer_modularity g gi lv gamma omega c = multilayer_modularity g gi lv gamma omega part.
Proof.
  intros (eps & He & Hball) Hle Hge gamma omega. destruct x as [x0 x1]. cbn [fst snd] in *.
  assert (B : forall a b, Rabs a < eps -> Rabs b < eps -> multilayer_modularity g gi lv (x0 + a) (x1 + b) c <= multilayer_modularity g gi lv (x0 + a) (x1 + b) part).
  { intros a b Ha Hb. apply Hle. apply Hball; cbn [fst snd]; [replace (x0 + a - x0) with a by ring|replace (x1 + b - x1) with b by ring]; auto. }
  assert (Z : Rabs 0 < eps) by (rewrite Rabs_R0; auto). assert (Hh : Rabs (eps / 2) < eps) by (rewrite Rabs_pos_eq; lra).
  assert (Hm : Rabs (- (eps / 2)) < eps) by (rewrite Rabs_Ropp; auto).
  pose proof (B 0 0 Z Z) as B0. pose proof (B (eps / 2) 0 Hh Z) as B1. pose proof (B (- (eps / 2)) 0 Hm Z) as B2.
  pose proof (B 0 (eps / 2) Z Hh) as B3. pose proof (B 0 (- (eps / 2)) Z Hm) as B4. clear B Hball Hle.
  rewrite !multilayer_APC in *. set (a := A_of g c) in *. set (p := P3_of g lv c) in *. set (k := A_of gi c) in *.
  set (a' := A_of g part) in *. set (p' := P3_of g lv part) in *. set (k' := A_of gi part) in *. clearbody a p k a' p' k'.
  assert (p = p') by nra. assert (k = k') by nra. subst. lra.
Qed.

Section Two_runs.
Variables (env1 env2 : champ_env) (g gi : graph) (lv : list nat) (parts1 parts2 : list (list nat)) (g0 gf o0 of : R).
Hypothesis (Hok1 : champ_ok_3D env1 g gi lv parts1) (Hok2 : champ_ok_3D env2 g gi lv parts2)
  (Hir1 : irredundant_hsi 3 (env_hsi env1)) (Hir2 : irredundant_hsi 3 (env_hsi env2)) (Hf1 : full_facets_hsi 3 (env_hsi env1))
  (Hsame : forall c, In c parts1 <-> In c parts2).

Lemma runs_agree_3D d1 d2 poly p : CHAMP_3D env1 g gi lv parts1 g0 gf o0 of = Ok d1 -> CHAMP_3D env2 g gi lv parts2 g0 gf o0 of = Ok d2 ->
  In (poly, p) d1 -> exists p', In (poly, p') d2 /\
    forall gamma omega, multilayer_modularity g gi lv gamma omega p = multilayer_modularity g gi lv gamma omega p'.
Proof.
  intros H1 H2 Hin.
  destruct (@domain_has_inside _ _ _ _ _ _ _ _ _ Hok1 Hir1 Hf1 _ poly p H1 Hin) as ([x0 x1] & eps & He & Hball).
  destruct (@domain_facts _ _ _ _ _ _ _ _ _ Hok1 _ poly p H1 Hin) as (Hp & _ & Hbox & Hopt).
  assert (Hne2 : parts2 <> []) by (intros ->; apply Hsame in Hp; destruct Hp).
  set (cv := fun t => (x0 + t * (eps / 2), x1 + t * t * (eps / 2))).
  assert (Hcv : forall t, 0 < t < 1 -> in_polygon poly (cv t)).
  { intros t Ht. apply Hball; unfold cv; cbn [fst snd].
    - replace (x0 + t * (eps / 2) - x0) with (t * (eps / 2)) by ring. rewrite Rabs_pos_eq; nra.
    - replace (x1 + t * t * (eps / 2) - x1) with (t * t * (eps / 2)) by ring. assert (0 <= t * t <= 1) by nra. rewrite Rabs_pos_eq; nra. }
  destruct (@pigeon _ d2 (fun r t => 0 < t < 1 /\ in_polygon (fst r) (cv t))) as ([poly' p'] & Hin' & HL).
  { intros t Ht. destruct (polygon_box Hbox (Hcv t Ht)) as [B1 B2].
    destruct (@domain_cover _ _ _ _ _ _ _ _ _ Hok2 _ (fst (cv t)) (snd (cv t)) Hne2 H2 B1 B2) as (poly' & p' & Hi & Hq).
    exists (poly', p'). split; auto. }
  cbn [fst snd] in HL.
  destruct (@domain_facts _ _ _ _ _ _ _ _ _ Hok2 _ poly' p' H2 Hin') as (Hp' & _ & Hbox' & Hopt').
  destruct (HL 1) as (t1 & T1 & _ & T1' & Q1); [lra|]. destruct (HL t1) as (t2 & T2 & _ & T2' & Q2); [lra|]. destruct (HL t2) as (t3 & T3 & _ & T3' & Q3); [lra|].
  assert (Hl : forall gamma omega, multilayer_modularity g gi lv gamma omega p = multilayer_modularity g gi lv gamma omega p').
  { apply (@same_plane g gi lv p p' (cv t1) (cv t2) (cv t3)).
    - unfold orient, cv. cbn [fst snd].
      replace ((x0 + t2 * (eps / 2) - (x0 + t1 * (eps / 2))) * (x1 + t3 * t3 * (eps / 2) - (x1 + t1 * t1 * (eps / 2))) -
        (x1 + t2 * t2 * (eps / 2) - (x1 + t1 * t1 * (eps / 2))) * (x0 + t3 * (eps / 2) - (x0 + t1 * (eps / 2))))
        with ((eps / 2) * (eps / 2) * ((t2 - t1) * ((t3 - t1) * (t3 - t2)))) by ring.
      repeat apply Rmult_integral_contrapositive_currified; lra.
    - intros x Hx. assert (K : in_polygon poly x /\ in_polygon poly' x) by (destruct Hx as [<-|[<-|[<-|[]]]]; split; auto).
      destruct K as [K K']. destruct x as [a b]. cbn [fst snd]. apply Rle_antisym; [apply Hopt'|apply Hopt]; auto; apply Hsame; auto. }
  assert (HE : forall x, in_polygon poly x <-> in_polygon poly' x).
  { intros [a b]. rewrite (@domain_iff _ _ _ _ _ _ _ _ _ Hok1 _ poly p a b H1 Hin), (@domain_iff _ _ _ _ _ _ _ _ _ Hok2 _ poly' p' a b H2 Hin').
    split; intros (G1 & G2 & G3); (split; [auto|split; [auto|]]); intros c Hc.
    - rewrite <- Hl. apply G3. apply Hsame; auto.
    - rewrite Hl. apply G3. apply Hsame; auto. }
  pose proof (@domains_convex _ _ _ _ _ _ _ _ _ _ poly p Hok1 Hir1 H1 Hin) as C1.
  pose proof (@domains_convex _ _ _ _ _ _ _ _ _ _ poly' p' Hok2 Hir2 H2 Hin') as C2.
  assert (poly = poly').
  { apply sorted_corners; auto; [apply same_corners; auto| |].
    - apply (@domain_sorted _ _ _ _ _ _ _ _ _ Hok1 _ poly p H1 Hin).
    - apply (@domain_sorted _ _ _ _ _ _ _ _ _ Hok2 _ poly' p' H2 Hin'). }
  subst poly'. exists p'. auto.
Qed.
End Two_runs.

Lemma runs_equal_3D env1 env2 g gi lv parts1 parts2 g0 gf o0 of d1 d2 :
  champ_ok_3D env1 g gi lv parts1 -> champ_ok_3D env2 g gi lv parts2 ->
  irredundant_hsi 3 (env_hsi env1) -> irredundant_hsi 3 (env_hsi env2) -> full_facets_hsi 3 (env_hsi env1) -> full_facets_hsi 3 (env_hsi env2) ->
  distinguishable_3D g gi lv parts1 -> Permutation parts1 parts2 ->
  CHAMP_3D env1 g gi lv parts1 g0 gf o0 of = Ok d1 -> CHAMP_3D env2 g gi lv parts2 g0 gf o0 of = Ok d2 -> Permutation d1 d2.
Proof.
  intros Hok1 Hok2 Hir1 Hir2 Hf1 Hf2 (ND & Hd) Hperm H1 H2.
  assert (Hsame : forall c, In c parts1 <-> In c parts2) by (intros c; split; apply Permutation_in; auto using Permutation_sym).
  assert (NDd : forall env parts d, champ_ok_3D env g gi lv parts -> CHAMP_3D env g gi lv parts g0 gf o0 of = Ok d -> NoDup parts -> NoDup d).
  { clear. intros env parts d Hok H ND. destruct (@domain_shape _ _ _ _ _ _ _ _ _ Hok _ H) as (idx & NDi & HF).
    clear - ND NDi HF. induction HF as [|i r idx l Hr HF IH]; [constructor|]. inversion NDi as [|? ? Ni NDi']; subst. constructor; auto.
    intros Hin. apply Ni. clear - ND HF Hin Hr. induction HF as [|j r' idx l Hr' HF IH]; [destruct Hin|].
    destruct Hin as [->|Hin]; [left|right; auto]. eapply NoDup_nth_error; [exact ND| |congruence]. apply nth_error_Some. congruence. }
  assert (G : forall env1 env2 parts1 parts2 d1 d2, champ_ok_3D env1 g gi lv parts1 -> champ_ok_3D env2 g gi lv parts2 ->
    irredundant_hsi 3 (env_hsi env1) -> irredundant_hsi 3 (env_hsi env2) -> full_facets_hsi 3 (env_hsi env1) -> (forall c, In c parts1 <-> In c parts2) ->
    (forall c c', In c parts1 -> In c' parts1 -> c <> c' ->
    exists gamma omega, multilayer_modularity g gi lv gamma omega c <> multilayer_modularity g gi lv gamma omega c') ->
    CHAMP_3D env1 g gi lv parts1 g0 gf o0 of = Ok d1 -> CHAMP_3D env2 g gi lv parts2 g0 gf o0 of = Ok d2 -> forall r, In r d1 -> In r d2).
  { clear. intros env1 env2 parts1 parts2 d1 d2 Hok1 Hok2 Hir1 Hir2 Hf1 Hsame Hd H1 H2 [poly p] Hin.
    destruct (@runs_agree_3D env1 env2 g gi lv parts1 parts2 g0 gf o0 of Hok1 Hok2 Hir1 Hir2 Hf1 Hsame d1 d2 poly p H1 H2 Hin) as (p' & Hin' & Hl).
    destruct (classic (p = p')) as [->|N]; auto. exfalso.
    destruct (@domain_facts _ _ _ _ _ _ _ _ _ Hok1 _ poly p H1 Hin) as (Hp & _).
    destruct (@domain_facts _ _ _ _ _ _ _ _ _ Hok2 _ poly p' H2 Hin') as (Hp' & _). apply Hsame in Hp'.
    destruct (Hd p p' Hp Hp' N) as (a & b & Nab). apply Nab. apply Hl. }
  apply NoDup_Permutation; [eapply (NDd env1); eauto|eapply (NDd env2); eauto; eapply Permutation_NoDup; eauto|].
  intros r. split; [apply (G env1 env2 parts1 parts2); auto|apply (G env2 env1 parts2 parts1); auto].
  - intros c. symmetry. apply Hsame.
  - intros c c' Hc Hc'. apply Hd; apply Hsame; auto.
Qed.
