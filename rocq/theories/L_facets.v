(** Every boundary point of a bounded region with interior is on a facet of full dimension (dimensions two and three), so an
    exact halfspace intersection can report full-dimensional facets only. *)
From Verif Require Import PyBase PyGraph M_champ Spec Spec_graph Spec_champ L_base L_halfspace L_champ L_minkowski L_tiling.
From Coq Require Import Classical.
Set Implicit Arguments.
Open Scope R_scope.

Lemma quad_limit a b c : (forall eps, 0 < eps -> exists t, 0 < t < eps /\ t < 1 /\ 0 <= a + b * t + c * (t * t)) -> 0 <= a.
Proof.
  intros H. apply Rnot_lt_le. intros Ha. set (m := Rabs b + Rabs c + 1).
  assert (Hm : 0 < m) by (unfold m; pose proof (Rabs_pos b); pose proof (Rabs_pos c); lra).
  destruct (H (- a / m)) as (t & (T0 & T1) & T2 & T3).
  { apply Rmult_lt_0_compat; [lra|]. apply Rinv_0_lt_compat; auto. }
  assert (t * m < - a).
  { apply (Rmult_lt_compat_r m) in T1; auto. unfold Rdiv in T1. rewrite Rmult_assoc, Rinv_l, Rmult_1_r in T1 by lra. auto. }
  assert (b * t <= Rabs b * t) by (apply Rmult_le_compat_r; [lra|apply Rle_abs]).
  assert (c * (t * t) <= Rabs c * t).
  { apply Rle_trans with (Rabs c * (t * t)); [apply Rmult_le_compat_r; [nra|apply Rle_abs]|].
    apply Rmult_le_compat_l; [apply Rabs_pos|]. nra. }
  unfold m in *. nra.
Qed.

Section Gauge.
Variables (d : nat) (hs : list halfspace) (pt : list R).
Hypothesis (Hb : bounded d hs) (Lpt : length pt = d) (Hpt : strictly_inside hs pt).

Lemma ray_bounded z : length z = d -> (exists y, In y z /\ y <> 0) -> exists h, In h hs /\ 0 < dot (normal h) z.
Proof.
  intros Lz (y & Hy & Ny). apply NNPP. intros N.
  assert (HF : forall s, 0 <= s -> feasible hs (vadd pt s z)).
  { intros s Hs h Hh. rewrite hval_vadd by lia. specialize (Hpt _ Hh).
    assert (dot (normal h) z <= 0) by (apply Rnot_lt_le; intros K; apply N; eauto). nra. }
  destruct Hb as (M & HM). apply (In_nth _ _ 0) in Hy as (k & Hk & Ek).
  assert (HB : forall s, 0 <= s -> Rabs (nth k pt 0 + s * y) <= M).
  { intros s Hs. apply (HM (vadd pt s z)); [rewrite vadd_length; lia|auto|]. rewrite <- Ek, <- nth_vadd by lia.
    apply nth_In. rewrite vadd_length; lia. }
  assert (Ha : 0 < Rabs y) by (apply Rabs_pos_lt; auto).
  pose proof (HB 0 ltac:(lra)) as B0. rewrite Rmult_0_l, Rplus_0_r in B0.
  assert (HM0 : 0 <= M) by (pose proof (Rabs_pos (nth k pt 0)); lra).
  set (s := (2 * M + 1) / Rabs y). assert (Hs : 0 <= s).
  { unfold s. apply Rmult_le_pos; [lra|]. apply Rlt_le, Rinv_0_lt_compat; auto. }
  specialize (HB s Hs).
  assert (E : Rabs (s * y) = 2 * M + 1).
  { rewrite Rabs_mult, (Rabs_pos_eq s) by auto. unfold s. field. lra. }
  pose proof (Rabs_triang (nth k pt 0 + s * y) (- nth k pt 0)) as T. rewrite Rabs_Ropp in T.
  replace (nth k pt 0 + s * y + - nth k pt 0) with (s * y) in T by ring. lra.
Qed.

(** the curve z0 + t u1 + t^2 u2, as directions from the interior point *)
Variables (z0 u1 u2 : list R).
Hypothesis (L0 : length z0 = d) (L1 : length u1 = d) (L2 : length u2 = d).
Definition curve (t : R) : list R := vadd (vadd z0 t u1) (t * t) u2.
Hypothesis (Hnz : forall t, 0 < t < 1 -> exists y, In y (curve t) /\ y <> 0).

Lemma curve_length t : length (curve t) = d.
Proof. unfold curve. rewrite !vadd_length; try lia. rewrite vadd_length; lia. Qed.

Lemma dot_curve n t : dot n (curve t) = dot n z0 + t * dot n u1 + t * t * dot n u2.
Proof. unfold curve. rewrite !dot_vadd; try lia; [ring|]. rewrite vadd_length; lia. Qed.

Definition gauge (h : halfspace) (z : list R) : R := dot (normal h) z / (- hval h pt).

Lemma gauge_spec h z r : In h hs -> length z = d -> hval h (vadd pt r z) = (- hval h pt) * (r * gauge h z - 1).
Proof. intros Hh Lz. rewrite hval_vadd by lia. unfold gauge. specialize (Hpt _ Hh). field. lra. Qed.

Lemma facet_direction h0 : In h0 hs -> feasible hs (vadd pt 1 z0) -> hval h0 (vadd pt 1 z0) = 0 ->
  exists h, In h hs /\ hval h (vadd pt 1 z0) = 0 /\
    forall eps, 0 < eps -> exists t r, 0 < t < eps /\ t < 1 /\ 0 < r /\
      feasible hs (vadd pt r (curve t)) /\ hval h (vadd pt r (curve t)) = 0.
Proof.
  intros Hh0 Hf Ht.
  assert (Hne : hs <> []) by (intros E; rewrite E in Hh0; destruct Hh0).
  destruct (@pigeon _ hs (fun h t => forall h', In h' hs -> gauge h' (curve t) <= gauge h (curve t))) as (h & Hh & HL).
  { intros t _. destruct (@argmax _ hs (fun h => gauge h (curve t)) Hne) as (h & Hh & M). eauto. }
  exists h. split; auto. split.
  - assert (G0 : gauge h0 z0 = 1).
    { rewrite gauge_spec in Ht by auto. specialize (Hpt _ Hh0). nra. }
    assert (G1 : gauge h z0 <= 1).
    { specialize (Hf h Hh). rewrite gauge_spec in Hf by auto. specialize (Hpt _ Hh). nra. }
    assert (G2 : 0 <= gauge h z0 - gauge h0 z0).
    { apply quad_limit with (b := gauge h u1 - gauge h0 u1) (c := gauge h u2 - gauge h0 u2). intros eps He.
      destruct (HL eps He) as (t & T1 & T2 & M). exists t. split; auto. split; auto. specialize (M h0 Hh0).
      unfold gauge in *. rewrite !dot_curve in M. unfold Rdiv in *. lra. }
    rewrite gauge_spec by auto. replace (gauge h z0) with 1 by lra. ring.
  - intros eps He. destruct (HL eps He) as (t & T1 & T2 & M). exists t, (/ gauge h (curve t)). split; auto. split; auto.
    assert (Hp : 0 < gauge h (curve t)).
    { destruct (@ray_bounded (curve t)) as (h' & Hh' & P); [apply curve_length|apply Hnz; lra|].
      apply Rlt_le_trans with (gauge h' (curve t)); [|auto]. unfold gauge. specialize (Hpt _ Hh').
      apply Rmult_lt_0_compat; auto. apply Rinv_0_lt_compat. lra. }
    split; [apply Rinv_0_lt_compat; auto|]. split.
    + intros h' Hh'. rewrite gauge_spec; auto using curve_length. specialize (M h' Hh'). specialize (Hpt _ Hh').
      assert (/ gauge h (curve t) * gauge h' (curve t) <= 1).
      { rewrite <- (Rinv_l (gauge h (curve t))) by lra. apply Rmult_le_compat_l; auto. apply Rlt_le, Rinv_0_lt_compat; auto. }
      nra.
    + rewrite gauge_spec; auto using curve_length. rewrite Rinv_l by lra. ring.
Qed.
End Gauge.

Definition det2 (a b : R * R) : R := fst a * snd b - snd a * fst b.
Definition det3 (a b c : R * R * R) : R :=
  let '(a1, a2, a3) := a in let '(b1, b2, b3) := b in let '(c1, c2, c3) := c in
  a1 * (b2 * c3 - b3 * c2) - a2 * (b1 * c3 - b3 * c1) + a3 * (b1 * c2 - b2 * c1).

Lemma prod_nz a b : a <> 0 -> b <> 0 -> a * b <> 0.
Proof. intros. apply Rmult_integral_contrapositive_currified; auto. Qed.

Lemma full2 hs pt x h0 : bounded 2 hs -> length pt = 2%nat -> strictly_inside hs pt -> length x = 2%nat -> feasible hs x ->
  In h0 hs -> hval h0 x = 0 ->
  exists h, In h hs /\ hval h x = 0 /\ exists y y', length y = 2%nat /\ length y' = 2%nat /\ feasible hs y /\ feasible hs y' /\
    hval h y = 0 /\ hval h y' = 0 /\ y <> y'.
Proof.
  intros Hb Lpt Hpt Lx Fx Hh0 Hx.
  destruct (list2 _ Lpt) as (p0 & p1 & ->). destruct (list2 _ Lx) as (x0 & x1 & ->).
  assert (Nz : x0 - p0 <> 0 \/ x1 - p1 <> 0).
  { destruct (Req_dec (x0 - p0) 0) as [E0|]; auto. destruct (Req_dec (x1 - p1) 0) as [E1|]; auto. exfalso.
    specialize (Hpt _ Hh0). replace p0 with x0 in Hpt by lra. replace p1 with x1 in Hpt by lra. lra. }
  assert (exists u v, det2 (x0 - p0, x1 - p1) (u, v) <> 0) as (u & v & Hdet).
  { unfold det2. cbn [fst snd]. destruct Nz as [N|N]; [exists 0, 1; lra|exists 1, 0; lra]. }
  unfold det2 in Hdet. cbn [fst snd] in Hdet.
  set (z0 := [x0 - p0; x1 - p1]). set (u1 := [u; v]). set (u2 := [0; 0]).
  assert (Ex : vadd [p0; p1] 1 z0 = [x0; x1]) by (unfold vadd, z0; cbn [combine map fst snd]; f_equal; [ring|f_equal; ring]).
  assert (Ec : forall r t, vadd [p0; p1] r (curve z0 u1 u2 t) = [p0 + r * (x0 - p0 + t * u); p1 + r * (x1 - p1 + t * v)]).
  { intros. unfold curve, vadd, z0, u1, u2. cbn [combine map fst snd]. f_equal; [ring|f_equal; ring]. }
  destruct (@facet_direction 2 hs [p0; p1] Hb eq_refl Hpt z0 u1 u2 eq_refl eq_refl eq_refl) with (h0 := h0) as (h & Hh & Ht & HL); auto.
  { intros t Ht. unfold curve, vadd, z0, u1, u2. cbn [combine map fst snd].
    destruct (Req_dec (x0 - p0 + t * u + t * t * 0) 0) as [E0|]; [|eexists; split; [left; reflexivity|auto]].
    destruct (Req_dec (x1 - p1 + t * v + t * t * 0) 0) as [E1|]; [|eexists; split; [right; left; reflexivity|auto]].
    exfalso. apply Hdet. replace (x0 - p0) with (- t * u) by lra. replace (x1 - p1) with (- t * v) by lra. ring. }
  { rewrite Ex. auto. }
  { rewrite Ex. auto. }
  rewrite Ex in Ht. exists h. split; auto. split; auto.
  destruct (HL 1) as (t & r & T1 & T2 & Hr & F & H); [lra|]. destruct (HL t) as (t' & r' & T1' & T2' & Hr' & F' & H'); [lra|].
  rewrite Ec in *. eexists. eexists. split; [|split; [|split; [exact F|split; [exact F'|split; [exact H|split; [exact H'|]]]]]]; try reflexivity.
  intros E. inversion E as [[E0 E1]].
  assert (K : r * r' * (t' - t) * ((x0 - p0) * v - (x1 - p1) * u) = 0).
  { replace (r * r' * (t' - t) * ((x0 - p0) * v - (x1 - p1) * u)) with
      ((r * (x0 - p0 + t * u)) * (r' * (x1 - p1 + t' * v)) - (r * (x1 - p1 + t * v)) * (r' * (x0 - p0 + t' * u))) by ring.
    replace (r * (x0 - p0 + t * u)) with (r' * (x0 - p0 + t' * u)) by lra.
    replace (r * (x1 - p1 + t * v)) with (r' * (x1 - p1 + t' * v)) by lra. ring. }
  revert K. repeat apply prod_nz; lra.
Qed.

Lemma full3 hs pt x h0 : bounded 3 hs -> length pt = 3%nat -> strictly_inside hs pt -> length x = 3%nat -> feasible hs x ->
  In h0 hs -> hval h0 x = 0 ->
  exists h, In h hs /\ hval h x = 0 /\ exists y1 y2 y3, (forall y, In y [y1; y2; y3] -> length y = 3%nat /\ feasible hs y /\ hval h y = 0) /\
    let m := fun y => (nth 0 y 0 - nth 0 pt 0, nth 1 y 0 - nth 1 pt 0, nth 2 y 0 - nth 2 pt 0) in det3 (m y1) (m y2) (m y3) <> 0.
Proof.
  intros Hb Lpt Hpt Lx Fx Hh0 Hx.
  destruct (list3 _ Lpt) as (p0 & p1 & p2 & ->). destruct (list3 _ Lx) as (x0 & x1 & x2 & ->).
  assert (Nz : x0 - p0 <> 0 \/ x1 - p1 <> 0 \/ x2 - p2 <> 0).
  { destruct (Req_dec (x0 - p0) 0) as [E0|]; auto. destruct (Req_dec (x1 - p1) 0) as [E1|]; auto. destruct (Req_dec (x2 - p2) 0) as [E2|]; auto. exfalso.
    specialize (Hpt _ Hh0). replace p0 with x0 in Hpt by lra. replace p1 with x1 in Hpt by lra. replace p2 with x2 in Hpt by lra. lra. }
  assert (exists a b c a' b' c', det3 (x0 - p0, x1 - p1, x2 - p2) (a, b, c) (a', b', c') <> 0) as (a & b & c & a' & b' & c' & Hdet).
  { unfold det3. destruct Nz as [N|[N|N]]; [exists 0, 1, 0, 0, 0, 1; lra|exists 1, 0, 0, 0, 0, 1; lra|exists 1, 0, 0, 0, 1, 0; lra]. }
  set (z0 := [x0 - p0; x1 - p1; x2 - p2]). set (u1 := [a; b; c]). set (u2 := [a'; b'; c']).
  assert (Ex : vadd [p0; p1; p2] 1 z0 = [x0; x1; x2]) by (unfold vadd, z0; cbn [combine map fst snd]; f_equal; [ring|f_equal; [ring|f_equal; ring]]).
  set (c0 := fun t => x0 - p0 + t * a + t * t * a'). set (c1 := fun t => x1 - p1 + t * b + t * t * b'). set (c2 := fun t => x2 - p2 + t * c + t * t * c').
  assert (Ec : forall r t, vadd [p0; p1; p2] r (curve z0 u1 u2 t) = [p0 + r * c0 t; p1 + r * c1 t; p2 + r * c2 t]).
  { intros. unfold curve, vadd, z0, u1, u2, c0, c1, c2. cbn [combine map fst snd]. reflexivity. }
  assert (Dv : forall t1 t2 t3, det3 (c0 t1, c1 t1, c2 t1) (c0 t2, c1 t2, c2 t2) (c0 t3, c1 t3, c2 t3) =
     (t2 - t1) * (t3 - t1) * (t3 - t2) * det3 (x0 - p0, x1 - p1, x2 - p2) (a, b, c) (a', b', c')).
  { intros. unfold det3, c0, c1, c2. ring. }
  destruct (@facet_direction 3 hs [p0; p1; p2] Hb eq_refl Hpt z0 u1 u2 eq_refl eq_refl eq_refl) with (h0 := h0) as (h & Hh & Ht & HL); auto.
  { intros t Ht. change (curve z0 u1 u2 t) with [c0 t; c1 t; c2 t].
    destruct (Req_dec (c0 t) 0) as [E0|]; [|eexists; split; [left; reflexivity|auto]].
    destruct (Req_dec (c1 t) 0) as [E1|]; [|eexists; split; [right; left; reflexivity|auto]].
    destruct (Req_dec (c2 t) 0) as [E2|]; [|eexists; split; [right; right; left; reflexivity|auto]].
    exfalso. specialize (Dv t (t + 1) (t + 2)). unfold det3 in Dv at 1. rewrite E0, E1, E2 in Dv.
    apply Hdet. ring_simplify in Dv. 
    assert (K : 2 * det3 (x0 - p0, x1 - p1, x2 - p2) (a, b, c) (a', b', c') = 0) by (rewrite Dv; reflexivity). lra. }
  { rewrite Ex. auto. }
  { rewrite Ex. auto. }
  rewrite Ex in Ht. exists h. split; auto. split; auto.
  destruct (HL 1) as (t1 & r1 & A1 & _ & R1 & F1 & H1); [lra|]. destruct (HL t1) as (t2 & r2 & A2 & _ & R2 & F2 & H2); [lra|].
  destruct (HL t2) as (t3 & r3 & A3 & _ & R3 & F3 & H3); [lra|]. rewrite Ec in *.
  eexists. eexists. eexists. split.
  { intros y [<-|[<-|[<-|[]]]]; (split; [|split]); [|exact F1|exact H1| |exact F2|exact H2| |exact F3|exact H3]; reflexivity. }
  cbv zeta. cbn [nth].
  assert (K : forall p r q, p + r * q - p = r * q) by (intros; ring). rewrite !K.
  assert (E : det3 (r1 * c0 t1, r1 * c1 t1, r1 * c2 t1) (r2 * c0 t2, r2 * c1 t2, r2 * c2 t2) (r3 * c0 t3, r3 * c1 t3, r3 * c2 t3) =
    (r1 * r2 * r3) * ((t2 - t1) * (t3 - t1) * (t3 - t2) * det3 (x0 - p0, x1 - p1, x2 - p2) (a, b, c) (a', b', c'))).
  { rewrite <- Dv. unfold det3. ring. }
  rewrite E. repeat apply prod_nz; auto; lra.
Qed.

Lemma irredundant_pair p q : p <> q -> length p = 2%nat -> length q = 2%nat -> irredundant [p; q].
Proof.
  intros N Lp Lq. assert (K : forall a b, length a = 2%nat -> length b = 2%nat -> in_hull [a] b -> a = b).
  { intros a b La Lb (ws & Hl & Hw & Hs & Hk). destruct ws as [|w [|? ?]]; try discriminate. rewrite rsum_cons, rsum_nil in Hs.
    assert (w = 1) by lra. subst w. destruct (list2 _ La) as (a0 & a1 & ->), (list2 _ Lb) as (b0 & b1 & ->).
    pose proof (Hk 0%nat) as H0. pose proof (Hk 1%nat) as H1. cbn [nth combine map fst snd] in H0, H1. rewrite rsum_cons, rsum_nil in H0, H1.
    f_equal; [lra|f_equal; lra]. }
  intros [|a [|b [|? ?]]] v l2 E H; simpl in *; inversion E; subst; simpl in H.
  - apply K in H; auto.
  - apply K in H; auto.
Qed.

Lemma hull_length_2 V y y' : length y = 2%nat -> length y' = 2%nat -> length V = 2%nat -> (forall v, In v V -> length v = 2%nat) ->
  in_hull V y -> in_hull V y' -> y <> y' -> irredundant V.
Proof.
  intros Ly Ly' LV HV Hy Hy' N. destruct V as [|p [|q [|? ?]]]; try discriminate.
  apply irredundant_pair; try (apply HV; simpl; auto). intros ->. apply N.
  destruct (list2 _ Ly) as (a0 & a1 & ->), (list2 _ Ly') as (b0 & b1 & ->).
  assert (K : forall x, in_hull [q; q] x -> forall k, nth k x 0 = nth k q 0).
  { intros x (ws & Hl & Hw & Hs & Hk) k. destruct ws as [|w [|w' [|? ?]]]; try discriminate. rewrite !rsum_cons, rsum_nil in Hs.
    rewrite Hk. cbn [combine map fst snd]. rewrite !rsum_cons, rsum_nil. replace w' with (1 - w) by lra. ring. }
  pose proof (K _ Hy) as K1. pose proof (K _ Hy') as K2.
  f_equal; [|f_equal].
  - transitivity (nth 0 q 0); [apply (K1 0%nat)|symmetry; apply (K2 0%nat)].
  - transitivity (nth 1 q 0); [apply (K1 1%nat)|symmetry; apply (K2 1%nat)].
Qed.

Lemma hull_length_3 V pt y1 y2 y3 : (forall y, In y [y1; y2; y3] -> in_hull V y) ->
  (let m := fun y => (nth 0 y 0 - nth 0 pt 0, nth 1 y 0 - nth 1 pt 0, nth 2 y 0 - nth 2 pt 0) in det3 (m y1) (m y2) (m y3) <> 0) ->
  (3 <= length V)%nat.
Proof.
  cbv zeta. intros HV N. destruct V as [|p [|q [|? ?]]]; [| | |simpl; lia]; exfalso; apply N.
  - destruct (HV y1) as (ws & Hl & _ & Hs & _); [simpl; auto|]. destruct ws; [|discriminate]. rewrite rsum_nil in Hs. lra.
  - assert (K : forall y, In y [y1; y2; y3] -> forall k, nth k y 0 = nth k p 0).
    { intros y Hy k. destruct (HV y Hy) as (ws & Hl & _ & Hs & Hk). destruct ws as [|w [|? ?]]; try discriminate. rewrite rsum_cons, rsum_nil in Hs.
      rewrite Hk. cbn [combine map fst snd]. rewrite rsum_cons, rsum_nil. replace w with 1 by lra. ring. }
    rewrite !(K y1), !(K y2), !(K y3) by (simpl; auto). unfold det3. ring.
  - assert (K : forall y, In y [y1; y2; y3] -> exists w, forall k, nth k y 0 = w * nth k p 0 + (1 - w) * nth k q 0).
    { intros y Hy. destruct (HV y Hy) as (ws & Hl & _ & Hs & Hk). destruct ws as [|w [|w' [|? ?]]]; try discriminate. rewrite !rsum_cons, rsum_nil in Hs.
      exists w. intros k. rewrite Hk. cbn [combine map fst snd]. rewrite !rsum_cons, rsum_nil. replace w' with (1 - w) by lra. ring. }
    destruct (K y1) as (w1 & K1); [simpl; auto|]. destruct (K y2) as (w2 & K2); [simpl; auto|]. destruct (K y3) as (w3 & K3); [simpl; auto|].
    rewrite !K1, !K2, !K3. unfold det3. ring.
Qed.

(** [V] are the corners of the full-dimensional facet of [h]; or [V] is empty and the facet is not full-dimensional. *)
Definition facet_corners (d : nat) (hs : list halfspace) (h : halfspace) (V : list (list R)) : Prop :=
  (forall v, In v V -> length v = d /\ feasible hs v /\ hval h v = 0) /\ irredundant V /\
  (V <> [] -> (d <= length V)%nat /\ (d = 2%nat -> length V = 2%nat) /\ forall x, length x = d -> feasible hs x -> hval h x = 0 -> in_hull V x) /\
  (V = [] -> forall W, (forall x, length x = d -> feasible hs x -> hval h x = 0 -> in_hull W x) -> (d = 2%nat -> W <> [] -> length W = 2%nat) ->
     (forall v, In v W -> length v = d /\ feasible hs v /\ hval h v = 0) -> irredundant W -> (length W < d)%nat).

Lemma irredundant_nil : irredundant [].
Proof. intros [|? ?] v l2 E; discriminate. Qed.

Lemma facet_corners_exist d hs h : (0 < d)%nat -> exists V, facet_corners d hs h V.
Proof.
  intros Hd.
  destruct (classic (exists W, (forall v, In v W -> length v = d /\ feasible hs v /\ hval h v = 0) /\ irredundant W /\ (d <= length W)%nat /\ (d = 2%nat -> W <> [] -> length W = 2%nat) /\
     forall x, length x = d -> feasible hs x -> hval h x = 0 -> in_hull W x)) as [(W & H1 & H2 & H3 & H4 & H5)|N].
  - assert (NW : W <> []) by (intros ->; simpl in H3; lia).
    exists W. split; auto. split; auto. split; [auto|]. congruence.
  - exists []. split; [intros v []|]. split; [apply irredundant_nil|]. split; [congruence|]. intros _ W HW HL HV Hi.
    apply Nat.nle_gt. intros L. apply N. exists W. auto.
Qed.

(** Every bounded system with a strictly interior point has an exact intersection that reports full-dimensional facets only,
    by their corners. *)
Theorem exact_intersection_full d hs pt : d = 2%nat \/ d = 3%nat -> bounded d hs -> length pt = d -> strictly_inside hs pt ->
  exists out, exact_intersection d hs out /\ (forall i vs, map Some vs = listed out i -> irredundant vs) /\
    (forall i, listed out i <> [] -> (d <= length (listed out i))%nat).
Proof.
  intros Hd Hb Lpt Hpt.
  destruct (@choose_list (list (list R)) (fun i V => forall h, nth_error hs i = Some h -> facet_corners d hs h V) [] (length hs) 0) as (F & HF).
  { intros i Hi. destruct (nth_error hs i) as [h|] eqn:E; [|apply nth_error_None in E; lia].
    destruct (@facet_corners_exist d hs h) as (V & HV); [lia|]. exists V. intros h' E'. inversion E'; subst. auto. }
  set (out := flat_map (fun i => map (fun v => (Some v, [i])) (F i)) (seq 0 (length hs))).
  assert (HL : forall i, listed out i = if (Nat.ltb i (length hs))%bool then map Some (F i) else []).
  { intros i. unfold out. rewrite listed_flat. simpl. reflexivity. }
  assert (HN : forall i, listed out i <> [] -> exists h, nth_error hs i = Some h /\ F i <> [] /\ listed out i = map Some (F i) /\ facet_corners d hs h (F i)).
  { intros i Hl. rewrite HL in *. destruct (Nat.ltb_spec i (length hs)) as [Hi|]; [|congruence].
    destruct (nth_error hs i) as [h|] eqn:Eh; [|apply nth_error_None in Eh; lia]. exists h. split; auto. split; [|split; auto].
    - intros EF. rewrite EF in Hl. auto.
    - apply (HF i); [lia|auto]. }
  exists out. split; [|split].
  - constructor.
    + intros v is_ Hin. unfold out in Hin. apply in_flat_map in Hin as (i & Hi & Hin). apply in_map_iff in Hin as (x & E & Hx).
      inversion E; subst. apply in_seq in Hi. destruct (nth_error hs i) as [h|] eqn:Eh; [|apply nth_error_None in Eh; lia].
      destruct (HF i ltac:(lia) h Eh) as (H1 & _). destruct (H1 x Hx) as (L & Fx & Ex). exists x. repeat split; auto.
      intros j [<-|[]]. exists h. auto.
    + intros i h x Hl Hh Lx Fx Ex. destruct (HN i Hl) as (h' & Eh & NF & El & _ & _ & H3 & _). assert (h' = h) by congruence. subst h'.
      exists (F i). split; auto. apply H3; auto.
    + intros h0 x Lx Fx Hin Ex.
      assert (exists h, In h hs /\ hval h x = 0 /\ (exists W, length x = d /\ (d <= length W)%nat /\ irredundant W /\
        (forall z, length z = d -> feasible hs z -> hval h z = 0 -> in_hull W z) /\ (d = 2%nat -> W <> [] -> length W = 2%nat) /\
        (forall v, In v W -> length v = d /\ feasible hs v /\ hval h v = 0))) as (h & Hh & Hx & W & _ & LW & IW & CW & DW & VW).
      { assert (Hnz : forall h, In h hs -> d = 2%nat -> exists x, length x = d /\ hval h x <> 0).
        { intros h Hh _. exists pt. split; auto. specialize (Hpt h Hh). lra. }
        destruct Hd as [-> | ->].
        - destruct (@full2 hs pt x h0 Hb Lpt Hpt Lx Fx Hin Ex) as (h & Hh & Hx & y & y' & Ly & Ly' & Fy & Fy' & Ty & Ty' & N).
          exists h. split; auto. split; auto.
          destruct (@facet_vertices 2 hs h Hb Hh (Hnz h Hh)) as (W & V1 & V2 & V3 & _). exists W. split; auto.
          assert (NW : W <> []).
          { intros ->. destruct (V2 y Ly Fy Ty) as (ws & Hl & _ & Hs & _). destruct ws; [|discriminate]. rewrite rsum_nil in Hs. lra. }
          pose proof (V3 eq_refl NW) as L2. split; [lia|]. split; [|auto].
          apply (@hull_length_2 W y y'); auto. intros v Hv. apply (V1 v Hv).
        - destruct (@full3 hs pt x h0 Hb Lpt Hpt Lx Fx Hin Ex) as (h & Hh & Hx & y1 & y2 & y3 & Hy & Hdet).
          exists h. split; auto. split; auto.
          destruct (@facet_vertices 3 hs h Hb Hh ltac:(discriminate)) as (W & V1 & V2 & V3 & V4). exists W. split; auto. split; [|auto].
          apply (@hull_length_3 W pt y1 y2 y3); auto. intros y Hi. destruct (Hy y Hi) as (? & ? & ?). apply V2; auto. }
      apply In_nth_error in Hh as (i & Ei). exists i, h. split; [|auto].
      assert (Hi : (i < length hs)%nat) by (apply nth_error_Some; rewrite Ei; discriminate).
      rewrite HL. destruct (Nat.ltb_spec i (length hs)); [|lia].
      destruct (HF i ltac:(lia) h Ei) as (_ & _ & _ & H4). intros E. destruct (F i) as [|? ?] eqn:EF; [|discriminate].
      specialize (H4 eq_refl W CW DW VW IW). lia.
    + intros E i Hl. destruct (HN i Hl) as (h & Eh & NF & El & _ & _ & H3 & _). rewrite El, map_length. apply H3; auto.
  - intros i vs E. rewrite HL in E. destruct (Nat.ltb_spec i (length hs)) as [Hi|].
    + destruct (nth_error hs i) as [h|] eqn:Eh; [|apply nth_error_None in Eh; lia]. destruct (HF i ltac:(lia) h Eh) as (_ & H2 & _).
      apply map_Some_inj in E. subst vs. auto.
    + destruct vs; [|discriminate]. apply irredundant_nil.
  - intros i Hl. destruct (HN i Hl) as (h & Eh & NF & El & _ & _ & H3 & _). rewrite El, map_length. apply H3; auto.
Qed.
