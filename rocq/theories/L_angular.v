(** Angular sorting around the centroid. *)
From Verif Require Import PyBase PyGraph M_partition M_pool M_champ Spec Spec_champ Spec_polygon L_base L_sort L_champ L_champ3.
From Coq Require Import Sorted Classical.
Set Implicit Arguments.
Open Scope R_scope.

Lemma sin_tan_atan t : sin (atan t) = t * cos (atan t) /\ 0 < cos (atan t).
Proof.
  destruct (atan_bound t) as [H1 H2]. assert (0 < cos (atan t)) by (apply cos_gt_0; lra).
  split; auto. pose proof (atan_right_inv t) as E. unfold tan in E.
  rewrite <- E at 2. field. lra.
Qed.

Lemma arctan2_spec y x : (y <> 0 \/ x <> 0) -> angle_of (y, x) (arctan2 y x).
Proof.
  intros Hn. unfold arctan2, angle_of. cbn [fst snd]. pose proof PI_RGT_0 as Hpi.
  destruct (Rlt_dec 0 x) as [Hx|Hx]; [|destruct (Rlt_dec x 0) as [Hx'|Hx']].
  - destruct (sin_tan_atan (y / x)) as [E1 E2]. destruct (atan_bound (y / x)). split; [lra|].
    exists (x / cos (atan (y / x))). split; [apply Rdiv_lt_0_compat; auto|]. rewrite E1. split; field; repeat split; lra.
  - destruct (sin_tan_atan (y / x)) as [E1 E2]. destruct (atan_bound (y / x)) as [B1 B2].
    destruct (Rle_dec 0 y) as [Hy|Hy].
    + assert (atan (y / x) <= 0).
      { assert (Ht : y / x <= 0). { unfold Rdiv. assert (/ x < 0) by (apply Rinv_lt_0_compat; auto). nra. }
        destruct Ht as [Ht| ->]; [|rewrite atan_0; lra]. apply atan_increasing in Ht. rewrite atan_0 in Ht. lra. }
      split; [lra|]. exists (- x / cos (atan (y / x))). split; [apply Rdiv_lt_0_compat; lra|].
      rewrite neg_sin, neg_cos, E1. split; field; repeat split; lra.
    + assert (0 < atan (y / x)).
      { assert (Ht : 0 < y / x). { unfold Rdiv. assert (/ x < 0) by (apply Rinv_lt_0_compat; auto). nra. }
        apply atan_increasing in Ht. rewrite atan_0 in Ht. lra. }
      split; [lra|]. exists (- x / cos (atan (y / x))). split; [apply Rdiv_lt_0_compat; lra|].
      assert (Es : sin (atan (y / x) - PI) = - sin (atan (y / x))).
      { rewrite sin_minus, sin_PI, cos_PI. lra. }
      assert (Ec : cos (atan (y / x) - PI) = - cos (atan (y / x))).
      { rewrite cos_minus, sin_PI, cos_PI. lra. }
      rewrite Es, Ec, E1. split; field; repeat split; lra.
  - assert (x = 0) by lra. subst x. destruct (Rlt_dec 0 y) as [Hy|Hy]; [|destruct (Rlt_dec y 0) as [Hy'|Hy']].
    + split; [lra|]. exists y. rewrite sin_PI2, cos_PI2. repeat split; lra.
    + split; [lra|]. exists (- y). replace (- PI / 2) with (- (PI / 2)) by lra. rewrite sin_neg, cos_neg, sin_PI2, cos_PI2.
      repeat split; lra.
    + exfalso. destruct Hn; lra.
Qed.

Definition vec (c p : R * R) : R * R := (fst p - fst c, snd p - snd c).

Lemma angle_key_spec c p : p <> c -> angle_of (vec c p) (angle_key c p).
Proof.
  intros Hne. unfold angle_key, vec. apply arctan2_spec.
  destruct (Req_dec (fst p - fst c) 0) as [E1|]; auto. right. intros E2. apply Hne.
  destruct p, c; simpl in *. f_equal; lra.
Qed.

Lemma angle_key_bounds c p : - PI < angle_key c p <= PI.
Proof.
  destruct (classic (p = c)) as [->|H]; [|apply (angle_key_spec H)].
  unfold angle_key, arctan2. rewrite !Rminus_diag_eq by auto. pose proof PI_RGT_0.
  destruct (Rlt_dec 0 0); lra.
Qed.

(** clockwise cross product *)
Definition cw (u v : R * R) : R := snd u * fst v - fst u * snd v.

Lemma cw_angle u v a b ru rv : fst u = ru * sin a -> snd u = ru * cos a -> fst v = rv * sin b -> snd v = rv * cos b ->
  cw u v = ru * rv * sin (b - a).
Proof. intros H1 H2 H3 H4. unfold cw. rewrite H1, H2, H3, H4, sin_minus. ring. Qed.

Section Angular.
Variable (poly : list (R * R)) (c : R * R).
Hypothesis (Hc : rsum (map (fun p => fst p - fst c) poly) = 0 /\ rsum (map (fun p => snd p - snd c) poly) = 0).
Hypothesis (Hs : StronglySorted (fun p q => angle_key c p <= angle_key c q) poly).

(** if every direction is within less than a right angle of phi (or opposite), all points coincide with the centroid *)
Lemma half_plane phi (sgn : R) : sgn <> 0 ->
  (forall p, In p poly -> p <> c -> 0 < sgn * cos (angle_key c p - phi)) -> forall p, In p poly -> p = c.
Proof.
  intros Hsg H p Hp. apply NNPP. intros Hne.
  set (f := fun q : R * R => sgn * ((fst q - fst c) * sin phi + (snd q - snd c) * cos phi)).
  assert (Hf : forall q, In q poly -> q <> c -> 0 < f q).
  { intros q Hq Hqc. unfold f. destruct (angle_key_spec Hqc) as (_ & r & Hr & E1 & E2). unfold vec in E1, E2. cbn [fst snd] in E1, E2.
    rewrite E1, E2. specialize (H q Hq Hqc). rewrite cos_minus in H.
    replace (sgn * (r * sin (angle_key c q) * sin phi + r * cos (angle_key c q) * cos phi))
      with (r * (sgn * (cos (angle_key c q) * cos phi + sin (angle_key c q) * sin phi))) by ring.
    apply Rmult_lt_0_compat; auto. }
  assert (0 < rsum (map f poly)).
  { apply (rsum_map_pos f poly p); auto. intros q Hq. destruct (classic (q = c)) as [->|Hqc]; [unfold f|apply Rlt_le; auto].
    rewrite !Rminus_diag_eq by auto. lra. }
  assert (E : rsum (map f poly) = sgn * (rsum (map (fun p => fst p - fst c) poly) * sin phi + rsum (map (fun p => snd p - snd c) poly) * cos phi)).
  { unfold f. rewrite rsum_map_scale, rsum_map_plus, !rsum_map_scale_r. reflexivity. }
  destruct Hc as [E1 E2]. rewrite E1, E2 in E. lra.
Qed.

Lemma sorted_split l1 p q l2 r : poly = l1 ++ p :: q :: l2 -> In r poly ->
  (angle_key c r <= angle_key c p \/ angle_key c q <= angle_key c r) /\ angle_key c p <= angle_key c q.
Proof.
  intros E. rewrite E in *. clear E Hc. revert r. induction l1 as [|x l1 IH]; intros r Hr.
  - simpl in *. inversion Hs as [|? ? H1 H2]; subst. inversion H1 as [|? ? H3 H4]; subst. rewrite Forall_forall in *.
    assert (Hpq : angle_key c p <= angle_key c q) by (apply H2; simpl; auto).
    split; auto. destruct Hr as [<-|[<-|Hr]]; [lra|lra|right; auto].
  - simpl in *. inversion Hs as [|? ? H1 H2]; subst. rewrite Forall_forall in H2.
    destruct Hr as [<-|Hr]; [|apply IH; auto].
    split; [left; apply H2; apply in_or_app; simpl; auto|].
    apply (IH H1 p). apply in_or_app; simpl; auto.
Qed.

Lemma sorted_wrap l p q r : poly = q :: l ++ [p] -> In r poly -> angle_key c q <= angle_key c r <= angle_key c p.
Proof.
  intros E Hr. rewrite E in Hs, Hr. clear E. inversion Hs as [|? ? H1 H2]; subst. rewrite Forall_forall in H2.
  assert (HL : forall l, StronglySorted (fun p q => angle_key c p <= angle_key c q) (l ++ [p]) -> forall r, In r (l ++ [p]) -> angle_key c r <= angle_key c p).
  { clear. induction l as [|x l IH]; simpl; intros H r Hr; [destruct Hr as [->|[]]; lra|].
    inversion H as [|? ? H1 H2]; subst. rewrite Forall_forall in H2. destruct Hr as [<-|Hr]; [apply H2; apply in_or_app; simpl; auto|auto]. }
  assert (angle_key c q <= angle_key c p) by (apply H2; apply in_or_app; simpl; auto).
  destruct Hr as [<-|Hr]; [lra|]. split; [apply H2; auto|]. apply (HL l); auto.
Qed.

(** no gap larger than PI *)
Lemma gap_le_PI l1 p q l2 : poly = l1 ++ p :: q :: l2 -> p <> c -> angle_key c q - angle_key c p <= PI.
Proof.
  intros E Hpc. destruct (Rle_dec (angle_key c q - angle_key c p) PI) as [|N]; auto. exfalso. apply Hpc.
  assert (Hin : In p poly) by (rewrite E; apply in_or_app; simpl; auto).
  pose proof (angle_key_bounds c p). pose proof (angle_key_bounds c q). pose proof PI_RGT_0.
  set (phi := (angle_key c p + angle_key c q) / 2).
  apply (@half_plane phi (-1)); [lra| |exact Hin]. intros r Hr Hrc.
  destruct (@sorted_split _ _ _ _ _ E Hr) as [[Hle|Hle] _]; pose proof (angle_key_bounds c r).
  - assert (cos (angle_key c r - phi) < 0); [|lra].
    rewrite <- cos_neg. apply cos_lt_0; unfold phi; lra.
  - assert (cos (angle_key c r - phi) < 0); [|lra].
    apply cos_lt_0; unfold phi; lra.
Qed.

Lemma wrap_ge_PI l p q : poly = q :: l ++ [p] -> p <> c -> PI <= angle_key c p - angle_key c q.
Proof.
  intros E Hpc. destruct (Rle_dec PI (angle_key c p - angle_key c q)) as [|N]; auto. exfalso. apply Hpc.
  assert (Hin : In p poly) by (rewrite E; simpl; right; apply in_or_app; simpl; auto).
  pose proof PI_RGT_0. set (phi := (angle_key c p + angle_key c q) / 2).
  apply (@half_plane phi 1); [lra| |exact Hin]. intros r Hr Hrc. pose proof (@sorted_wrap _ _ _ _ E Hr).
  rewrite Rmult_1_l. apply cos_gt_0; unfold phi; lra.
Qed.

Lemma vec_zero p : p = c -> vec c p = (0, 0).
Proof. intros ->. unfold vec. rewrite !Rminus_diag_eq by auto. reflexivity. Qed.

Lemma cw_follow p q : follows poly p q -> 0 <= cw (vec c p) (vec c q).
Proof.
  intros Hf.
  destruct (classic (p = c)) as [Ep|Hp]; [rewrite (vec_zero Ep); unfold cw; simpl; lra|].
  destruct (classic (q = c)) as [Eq|Hq]; [rewrite (vec_zero Eq); unfold cw; simpl; lra|].
  destruct (angle_key_spec Hp) as (B1 & r1 & Hr1 & E1 & E2). destruct (angle_key_spec Hq) as (B2 & r2 & Hr2 & E3 & E4).
  rewrite (@cw_angle _ _ _ _ _ _ E1 E2 E3 E4). apply Rmult_le_pos; [apply Rmult_le_pos; lra|].
  destruct Hf as [(l1 & l2 & E)|(l & E)].
  - pose proof (@gap_le_PI _ _ _ _ E Hp).
    destruct (@sorted_split _ _ _ _ p E) as [_ Hle]; [rewrite E; apply in_or_app; simpl; auto|].
    apply sin_ge_0; lra.
  - pose proof (@wrap_ge_PI _ _ _ E Hp).
    replace (angle_key c q - angle_key c p) with (- (angle_key c p - angle_key c q)) by lra. rewrite sin_neg.
    assert (sin (angle_key c p - angle_key c q) <= 0); [|lra]. apply sin_le_0; lra.
Qed.

(** no vertex is strictly between two consecutive ones *)
Lemma not_between p q r : follows poly p q -> In r poly ->
  0 < cw (vec c p) (vec c r) -> 0 < cw (vec c r) (vec c q) -> False.
Proof.
  intros Hf Hr H1 H2.
  destruct (classic (p = c)) as [Ep|Hp]; [rewrite (vec_zero Ep) in H1; unfold cw in H1; simpl in H1; lra|].
  destruct (classic (q = c)) as [Eq|Hq]; [rewrite (vec_zero Eq) in H2; unfold cw in H2; simpl in H2; lra|].
  destruct (classic (r = c)) as [Er|Hrc]; [rewrite (vec_zero Er) in H2; unfold cw in H2; simpl in H2; lra|].
  destruct (angle_key_spec Hp) as (B1 & r1 & Hr1 & E1 & E2). destruct (angle_key_spec Hq) as (B2 & r2 & Hr2 & E3 & E4).
  destruct (angle_key_spec Hrc) as (B3 & r3 & Hr3 & E5 & E6).
  rewrite (@cw_angle _ _ _ _ _ _ E1 E2 E5 E6) in H1. rewrite (@cw_angle _ _ _ _ _ _ E5 E6 E3 E4) in H2.
  assert (S1 : 0 < sin (angle_key c r - angle_key c p)).
  { apply (Rmult_lt_reg_l (r1 * r3)); [apply Rmult_lt_0_compat; auto|lra]. }
  assert (S2 : 0 < sin (angle_key c q - angle_key c r)).
  { apply (Rmult_lt_reg_l (r3 * r2)); [apply Rmult_lt_0_compat; auto|lra]. }
  clear H1 H2 E1 E2 E3 E4 E5 E6.
  set (tp := angle_key c p) in *. set (tq := angle_key c q) in *. set (tr := angle_key c r) in *.
  assert (neg : forall x, - PI <= x <= 0 -> sin x <= 0).
  { intros x Hx. replace x with (- (- x)) by lra. rewrite sin_neg. assert (0 <= sin (- x)) by (apply sin_ge_0; lra). lra. }
  assert (pos2 : forall x, PI <= x <= 2 * PI -> sin x <= 0) by (intros; apply sin_le_0; lra).
  destruct Hf as [(l1 & l2 & E)|(l & E)].
  - pose proof (@gap_le_PI _ _ _ _ E Hp) as Hg. fold tp tq in Hg.
    destruct (@sorted_split _ _ _ _ _ E Hr) as [[Hle|Hle] Hpq]; fold tp tq tr in Hle, Hpq.
    + assert (PI < tp - tr).
      { destruct (Rlt_dec PI (tp - tr)); auto. exfalso. assert (sin (tr - tp) <= 0) by (apply neg; lra). lra. }
      assert (sin (tq - tr) <= 0) by (apply pos2; lra). lra.
    + assert (PI < tr - tq).
      { destruct (Rlt_dec PI (tr - tq)); auto. exfalso. assert (sin (tq - tr) <= 0) by (apply neg; lra). lra. }
      assert (sin (tr - tp) <= 0) by (apply pos2; lra). lra.
  - pose proof (@sorted_wrap _ _ _ _ E Hr) as Hb. fold tp tq tr in Hb.
    assert (PI < tp - tr).
    { destruct (Rlt_dec PI (tp - tr)); auto. exfalso. assert (sin (tr - tp) <= 0) by (apply neg; lra). lra. }
    assert (PI < tr - tq).
    { destruct (Rlt_dec PI (tr - tq)); auto. exfalso. assert (sin (tq - tr) <= 0) by (apply neg; lra). lra. }
    lra.
Qed.
End Angular.

(** ** Convex position: consecutive vertices span an edge *)

(** [x] written with weights on the vertices *)
Lemma comb_zero vs : comb vs 0 (0, 0).
Proof.
  induction vs as [|v vs IH].
  - exists []. cbn [combine map]. rewrite rsum_nil. repeat split; simpl; tauto.
  - apply comb_cons. exists 0. split; [lra|]. cbn [fst snd]. replace (0 - 0) with 0 by lra. replace (0 - 0 * fst v) with 0 by lra.
    replace (0 - 0 * snd v) with 0 by lra. auto.
Qed.

Lemma comb_add vs : forall s s' x x', comb vs s x -> comb vs s' x' -> comb vs (s + s') (fst x + fst x', snd x + snd x').
Proof.
  induction vs as [|v vs IH]; intros s s' x x' H H'.
  - destruct H as ([|] & Hl & _ & E1 & E2 & E3); [|discriminate]. destruct H' as ([|] & Hl' & _ & E1' & E2' & E3'); [|discriminate].
    cbn [combine map] in *. rewrite rsum_nil in *. exists []. cbn [combine map fst snd]. rewrite rsum_nil.
    repeat split; simpl; try tauto; lra.
  - apply comb_cons in H as (w & Hw & H). apply comb_cons in H' as (w' & Hw' & H'). apply comb_cons. exists (w + w').
    split; [lra|]. pose proof (IH _ _ _ _ H H') as HH. cbn [fst snd] in *.
    replace (s + s' - (w + w')) with (s - w + (s' - w')) by lra.
    replace (fst x + fst x' - (w + w') * fst v) with (fst x - w * fst v + (fst x' - w' * fst v)) by lra.
    replace (snd x + snd x' - (w + w') * snd v) with (snd x - w * snd v + (snd x' - w' * snd v)) by lra. auto.
Qed.

Lemma comb_one vs v a : In v vs -> 0 <= a -> comb vs a (a * fst v, a * snd v).
Proof.
  intros Hin Ha. induction vs as [|u vs IH]; [destruct Hin|]. destruct Hin as [->|Hin]; apply comb_cons.
  - exists a. split; auto. cbn [fst snd]. replace (a - a) with 0 by lra.
    replace (a * fst v - a * fst v) with 0 by lra. replace (a * snd v - a * snd v) with 0 by lra. apply comb_zero.
  - exists 0. split; [lra|]. cbn [fst snd]. replace (a - 0) with a by lra.
    replace (a * fst v - 0 * fst u) with (a * fst v) by lra. replace (a * snd v - 0 * snd u) with (a * snd v) by lra. auto.
Qed.

Lemma comb_scale vs k : 0 <= k -> forall s x, comb vs s x -> comb vs (k * s) (k * fst x, k * snd x).
Proof.
  intros Hk. induction vs as [|v vs IH]; intros s x H.
  - destruct H as ([|] & Hl & _ & E1 & E2 & E3); [|discriminate].
    cbn [combine map] in *. rewrite rsum_nil in *. exists []. cbn [combine map fst snd]. rewrite rsum_nil.
    repeat split; simpl; try tauto; try rewrite E2; try rewrite E3; subst; lra.
  - apply comb_cons in H as (w & Hw & H). apply comb_cons. exists (k * w). split; [apply Rmult_le_pos; auto|].
    apply IH in H. cbn [fst snd] in *.
    replace (k * s - k * w) with (k * (s - w)) by lra.
    replace (k * fst x - k * w * fst v) with (k * (fst x - w * fst v)) by ring.
    replace (k * snd x - k * w * snd v) with (k * (snd x - w * snd v)) by ring. auto.
Qed.

Lemma comb_all vs : comb vs (INR (length vs)) (rsum (map fst vs), rsum (map snd vs)).
Proof.
  induction vs as [|v vs IH].
  - apply comb_zero.
  - apply comb_cons. exists 1. split; [lra|]. cbn [length map fst snd]. rewrite !rsum_cons, S_INR.
    replace (INR (length vs) + 1 - 1) with (INR (length vs)) by lra.
    replace (fst v + rsum (map fst vs) - 1 * fst v) with (rsum (map fst vs)) by lra.
    replace (snd v + rsum (map snd vs) - 1 * snd v) with (rsum (map snd vs)) by lra. auto.
Qed.

(** a vertex that is a combination of the centroid and two other vertices with total weight of the others... *)
Lemma in_others l1 v l2 q r a b : let vs := l1 ++ v :: l2 in
  In q vs -> In r vs -> 0 <= a -> 0 <= b -> a + b < 1 -> (q = v -> a = 0) -> (r = v -> b = 0) ->
  let c := barycentre vs in
  vec c v = (a * fst (vec c q) + b * fst (vec c r), a * snd (vec c q) + b * snd (vec c r)) ->
  (2 <= length vs)%nat -> in_polygon (l1 ++ l2) v.
Proof.
  intros vs Hq Hr Ha Hb Hab Hqv Hrv c Hv Hlen.
  assert (Hperm : Permutation vs (v :: l1 ++ l2)) by (unfold vs; apply Permutation_sym, Permutation_middle).
  set (o := l1 ++ l2) in *.
  assert (Hn : INR (length vs) = INR (length o) + 1).
  { rewrite (Permutation_length Hperm). cbn [length]. rewrite S_INR. auto. }
  assert (Ho : 1 <= INR (length o)).
  { rewrite (Permutation_length Hperm) in Hlen. simpl in Hlen. replace 1 with (INR 1) by reflexivity. apply le_INR. lia. }
  assert (Sf : rsum (map fst vs) = fst v + rsum (map fst o)).
  { rewrite (rsum_perm (Permutation_map fst Hperm)). cbn [map]. apply rsum_cons. }
  assert (Ss : rsum (map snd vs) = snd v + rsum (map snd o)).
  { rewrite (rsum_perm (Permutation_map snd Hperm)). cbn [map]. apply rsum_cons. }
  assert (Cq : comb o a (a * fst q, a * snd q)).
  { apply (Permutation_in _ Hperm) in Hq. destruct Hq as [E|Hq]; [|apply comb_one; auto].
    rewrite (Hqv (eq_sym E)). rewrite !Rmult_0_l. apply comb_zero. }
  assert (Cr : comb o b (b * fst r, b * snd r)).
  { apply (Permutation_in _ Hperm) in Hr. destruct Hr as [E|Hr]; [|apply comb_one; auto].
    rewrite (Hrv (eq_sym E)). rewrite !Rmult_0_l. apply comb_zero. }
  set (n := INR (length vs)) in *. set (m := INR (length o)) in *.
  (* v = a q + b r + (1-a-b) c, c = (v + S)/n *)
  set (k := 1 - a - b). set (w := 1 - k / n).
  assert (Hk : 0 < k <= 1) by (unfold k; lra).
  assert (Hkn : k / n * n = k) by (unfold Rdiv; rewrite Rmult_assoc, Rinv_l by lra; lra).
  assert (Hkn0 : 0 < k / n) by (apply Rdiv_lt_0_compat; lra).
  assert (Hw : 0 < w) by (unfold w; nra).
  assert (CS : comb o (k / n * m) (k / n * rsum (map fst o), k / n * rsum (map snd o))).
  { apply (@comb_scale o (k / n) ltac:(lra) m (rsum (map fst o), rsum (map snd o))). apply comb_all. }
  pose proof (comb_add (comb_add Cq Cr) CS) as CT. cbn [fst snd] in CT.
  apply (@comb_scale o (/ w)) in CT; [|apply Rlt_le, Rinv_0_lt_compat; auto]. cbn [fst snd] in CT.
  inversion Hv as [[V1 V2]]. unfold c, vec, barycentre in V1, V2. cbn [fst snd] in V1, V2. fold n in V1, V2. rewrite Sf in V1. rewrite Ss in V2.
  assert (T1 : / w * (a + b + k / n * m) = 1).
  { apply (Rmult_eq_reg_l w); [|lra]. rewrite <- Rmult_assoc, Rinv_r by lra. clear - Hkn Hn. unfold w.
    set (z := k / n) in *. clearbody z. rewrite Hn in Hkn. unfold k in *. lra. }
  rewrite T1 in CT.
  assert (T2 : / w * (a * fst q + b * fst r + k / n * rsum (map fst o)) = fst v).
  { apply (Rmult_eq_reg_l w); [|lra]. rewrite <- Rmult_assoc, Rinv_r by lra. unfold w, k, Rdiv in *. lra. }
  assert (T3 : / w * (a * snd q + b * snd r + k / n * rsum (map snd o)) = snd v).
  { apply (Rmult_eq_reg_l w); [|lra]. rewrite <- Rmult_assoc, Rinv_r by lra. unfold w, k, Rdiv in *. lra. }
  rewrite T2, T3 in CT. unfold in_polygon. unfold comb in CT. destruct v; exact CT.
Qed.

(** [convex_position] does not depend on the order *)
Lemma convex_position_perm vs ws : Permutation vs ws -> convex_position vs -> convex_position ws.
Proof.
  intros Hp Hc l1 v l2 E Hin.
  assert (Hv : In v vs) by (apply (Permutation_in _ (Permutation_sym Hp)); rewrite E; apply in_or_app; simpl; auto).
  apply in_split in Hv as (k1 & k2 & Ek). apply (Hc k1 v k2 Ek).
  refine (in_polygon_perm _ Hin). rewrite E, Ek in Hp.
  apply Permutation_sym in Hp. rewrite <- !Permutation_middle in Hp. apply Permutation_cons_inv in Hp. auto.
Qed.

Lemma orient_cw c p q r : orient p q r = - (cw (vec c p) (vec c q) + cw (vec c q) (vec c r) + cw (vec c r) (vec c p)).
Proof. unfold orient, cw, vec. cbn [fst snd]. ring. Qed.

Lemma barycentre_zero vs : vs <> [] -> let c := barycentre vs in
  rsum (map (fun p => fst p - fst c) vs) = 0 /\ rsum (map (fun p => snd p - snd c) vs) = 0.
Proof.
  intros Hne c.
  assert (Hn : 0 < INR (length vs)) by (apply lt_0_INR; destruct vs; simpl; [congruence|lia]).
  assert (G : forall (f : R * R -> R) k l, rsum (map (fun p => f p - k) l) = rsum (map f l) - INR (length l) * k).
  { intros f k l. induction l as [|x l IH]; cbn [map length]; [rewrite !rsum_nil; simpl; lra|].
    rewrite !rsum_cons, IH, S_INR. lra. }
  rewrite !G. unfold c, barycentre. cbn [fst snd]. split; field; lra.
Qed.

Lemma others_in (l1 l2 : list (R * R)) v x : In x (l1 ++ v :: l2) -> x <> v -> In x (l1 ++ l2).
Proof. intros H N. apply in_app_or in H. apply in_or_app. destruct H as [|[E|]]; auto. congruence. Qed.

Lemma in_polygon_two (o : list (R * R)) x y v t : In x o -> In y o -> 0 <= t <= 1 ->
  fst v = (1 - t) * fst x + t * fst y -> snd v = (1 - t) * snd x + t * snd y -> in_polygon o v.
Proof.
  intros Hx Hy Ht E1 E2.
  pose proof (comb_add (@comb_one o x (1 - t) Hx ltac:(lra)) (@comb_one o y t Hy ltac:(lra))) as C.
  cbn [fst snd] in C. replace (1 - t + t) with 1 in C by lra. rewrite <- E1, <- E2 in C. destruct v; exact C.
Qed.

Lemma no_middle vs x y v t : convex_position vs -> In x vs -> In y vs -> In v vs -> x <> v -> y <> v -> 0 <= t <= 1 ->
  fst v = (1 - t) * fst x + t * fst y -> snd v = (1 - t) * snd x + t * snd y -> False.
Proof.
  intros Hc Hx Hy Hv Nx Ny Ht E1 E2. apply in_split in Hv as (l1 & l2 & E). apply (Hc _ _ _ E). rewrite E in Hx, Hy.
  apply (@in_polygon_two _ x y v t); auto; eapply others_in; eauto.
Qed.

Lemma no_collinear vs p q r : convex_position vs -> In p vs -> In q vs -> In r vs -> p <> q -> p <> r -> q <> r ->
  orient p q r <> 0.
Proof.
  intros Hc Hp Hq Hr Npq Npr Nqr E.
  assert (T : exists t, fst r = (1 - t) * fst p + t * fst q /\ snd r = (1 - t) * snd p + t * snd q).
  { unfold orient in E. destruct (Req_dec (fst q - fst p) 0) as [Z|Z].
    - assert (Z2 : snd q - snd p <> 0). { intros Z2. apply Npq. destruct p, q; simpl in *. f_equal; lra. }
      exists ((snd r - snd p) / (snd q - snd p)). rewrite Z in E. assert (fst r - fst p = 0).
      { apply (Rmult_eq_reg_l (snd q - snd p)); [lra|auto]. }
      split; [replace (fst q) with (fst p) by lra; lra|]. field. auto.
    - exists ((fst r - fst p) / (fst q - fst p)). split; [field; auto|].
      assert (snd r - snd p = (snd q - snd p) * (fst r - fst p) / (fst q - fst p)).
      { apply (Rmult_eq_reg_l (fst q - fst p)); auto. transitivity ((snd q - snd p) * (fst r - fst p)); [lra|field; auto]. }
      transitivity (snd p + (snd r - snd p)); [lra|]. rewrite H. field. auto. }
  destruct T as (t & E1 & E2).
  destruct (Rlt_dec t 0) as [L|L]; [|destruct (Rlt_dec 1 t) as [L2|L2]].
  - (* p between r and q *)
    apply (@no_middle vs r q p (- t / (1 - t))); auto.
    + split; [apply Rmult_le_pos; [lra|apply Rlt_le, Rinv_0_lt_compat; lra]|].
      apply (Rmult_le_reg_r (1 - t)); [lra|]. unfold Rdiv. rewrite Rmult_assoc, Rinv_l by lra. lra.
    + rewrite E1. field. lra.
    + rewrite E2. field. lra.
  - apply (@no_middle vs p r q (/ t)); auto.
    + split; [apply Rlt_le, Rinv_0_lt_compat; lra|]. rewrite <- Rinv_1. apply Rinv_le_contravar; lra.
    + rewrite E1. field. lra.
    + rewrite E2. field. lra.
  - apply (@no_middle vs p q r t); auto. lra.
Qed.

(** every pair of consecutive vertices of the sorted list is an edge of the hull, traversed clockwise *)
Section Edges.
Variable (poly : list (R * R)).
Hypothesis Hs : StronglySorted (fun p q => angle_key (barycentre poly) p <= angle_key (barycentre poly) q) poly.
Hypothesis Hcp : convex_position poly.
Let c := barycentre poly.

Lemma follows_in p q : follows poly p q -> In p poly /\ In q poly /\ (2 <= length poly)%nat.
Proof.
  intros [(l1 & l2 & E)|(l & E)]; rewrite E; (repeat split);
    try (apply in_or_app; simpl; auto; fail); try (simpl; auto; right; apply in_or_app; simpl; auto; fail).
  - rewrite app_length. simpl. lia.
  - simpl. rewrite app_length. simpl. lia.
Qed.

Lemma edge_le p q r : follows poly p q -> In r poly -> orient p q r <= 0.
Proof.
  intros Hf Hr. destruct (follows_in Hf) as (Hp & Hq & Hlen).
  assert (Hne : poly <> []) by (destruct poly; simpl in *; [tauto|congruence]).
  pose proof (barycentre_zero Hne) as Hz. fold c in Hz.
  pose proof (@cw_follow poly c Hz Hs p q Hf) as Hpq.
  pose proof (@not_between poly c Hz Hs p q r Hf Hr) as Hnb.
  rewrite (orient_cw c).
  destruct (Rle_dec 0 (cw (vec c p) (vec c q) + cw (vec c q) (vec c r) + cw (vec c r) (vec c p))) as [|N]; [lra|exfalso].
  apply Rnot_le_lt in N.
  assert (anti : forall u v, cw u v = - cw v u) by (intros; unfold cw; ring).
  rewrite (anti (vec c q) (vec c r)) in N.
  destruct (Rlt_dec 0 (cw (vec c p) (vec c r))) as [H1|H1]; destruct (Rlt_dec 0 (cw (vec c r) (vec c q))) as [H2|H2]; auto.
  - (* q is inside *)
    rewrite (anti (vec c r) (vec c p)) in N.
    apply in_split in Hq as (l1 & l2 & E). apply (@Hcp _ _ _ E).
    set (d := cw (vec c p) (vec c r)) in *.
    pose proof Hp as Hp'. pose proof Hr as Hr'. rewrite E in Hp', Hr'.
    apply (@in_others l1 q l2 p r (- cw (vec c r) (vec c q) / d) (cw (vec c p) (vec c q) / d)); auto.
    + apply Rmult_le_pos; [lra|apply Rlt_le, Rinv_0_lt_compat; auto].
    + apply Rmult_le_pos; [lra|apply Rlt_le, Rinv_0_lt_compat; auto].
    + apply (Rmult_lt_reg_r d); auto. unfold Rdiv. rewrite Rmult_plus_distr_r, !Rmult_assoc, Rinv_l by lra. lra.
    + intros ->. exfalso. rewrite (anti (vec c r) (vec c q)) in N. unfold d in *. lra.
    + intros ->. exfalso. unfold d in *. lra.
    + rewrite <- E. fold c. destruct (vec c q) as [q1 q2] eqn:Eq, (vec c p) as [p1 p2] eqn:Ep, (vec c r) as [r1 r2] eqn:Er.
      unfold d, cw in *. cbn [fst snd] in *. f_equal; field; lra.
    + rewrite <- E. auto.
  - (* p is inside *)
    apply in_split in Hp as (l1 & l2 & E). apply (@Hcp _ _ _ E).
    set (d := cw (vec c r) (vec c q)) in *.
    pose proof Hq as Hq'. pose proof Hr as Hr'. rewrite E in Hq', Hr'.
    rewrite (anti (vec c r) (vec c p)) in N.
    apply (@in_others l1 p l2 q r (- cw (vec c p) (vec c r) / d) (cw (vec c p) (vec c q) / d)); auto.
    + apply Rmult_le_pos; [lra|apply Rlt_le, Rinv_0_lt_compat; auto].
    + apply Rmult_le_pos; [lra|apply Rlt_le, Rinv_0_lt_compat; auto].
    + apply (Rmult_lt_reg_r d); auto. unfold Rdiv. rewrite Rmult_plus_distr_r, !Rmult_assoc, Rinv_l by lra. lra.
    + intros ->. exfalso. rewrite (anti (vec c p) (vec c r)) in N. unfold d in *. lra.
    + intros ->. exfalso. unfold d in *. lra.
    + rewrite <- E. fold c. destruct (vec c q) as [q1 q2] eqn:Eq, (vec c p) as [p1 p2] eqn:Ep, (vec c r) as [r1 r2] eqn:Er.
      unfold d, cw in *. cbn [fst snd] in *. f_equal; field; lra.
    + rewrite <- E. auto.
  - rewrite (anti (vec c r) (vec c p)) in N. lra.
Qed.

Lemma follows_neq p q : follows poly p q -> p <> q.
Proof.
  intros Hf ->. destruct (follows_in Hf) as (Hp & Hq & Hlen).
  assert (exists l1 l2, poly = l1 ++ q :: l2 /\ In q (l1 ++ l2)) as (l1 & l2 & E & Hin).
  { destruct Hf as [(l1 & l2 & E)|(l & E)]; [exists l1, (q :: l2)|exists [], (l ++ [q])]; split; auto; simpl;
      apply in_or_app; simpl; auto. }
  apply (@Hcp _ _ _ E). apply (@in_polygon_two _ q q q 0); auto; lra.
Qed.

Lemma edge_lt p q r : follows poly p q -> In r poly -> r <> p -> r <> q -> orient p q r < 0.
Proof.
  intros Hf Hr N1 N2. destruct (follows_in Hf) as (Hp & Hq & _). pose proof (@edge_le p q r Hf Hr). pose proof (follows_neq Hf).
  pose proof (@no_collinear poly p q r Hcp Hp Hq Hr). destruct (Req_dec (orient p q r) 0); [|lra]. exfalso. apply H1; auto.
Qed.
End Edges.
