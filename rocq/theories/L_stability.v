(** The point-in-polygon test of the stability filter. *)
From Verif Require Import PyBase PyGraph M_partition M_champ M_estimation_utils Spec Spec_graph Spec_champ Spec_polygon Spec_stability
  L_base L_modularity L_angular.
From Coq Require Import Classical.
Set Implicit Arguments.
Open Scope R_scope.

(** ** Consecutive vertices *)
Section Cyclic.
Variable poly : list (R * R).
Let n := length poly.
Let v i := nth i poly (0, 0).
Definition next (i : nat) : nat := ((i + 1) mod n)%nat.

Lemma next_lt i : (S i < n)%nat -> next i = S i.
Proof. intros H. unfold next. rewrite Nat.add_1_r. apply Nat.mod_small. auto. Qed.
Lemma next_last : (0 < n)%nat -> next (n - 1) = 0%nat.
Proof. intros H. unfold next. replace (n - 1 + 1)%nat with n by lia. apply Nat.mod_same. lia. Qed.
Lemma next_cases i : (i < n)%nat -> ((S i < n)%nat /\ next i = S i) \/ (i = (n - 1)%nat /\ next i = 0%nat).
Proof. intros H. destruct (Nat.eq_dec (S i) n) as [E|N]; [right|left; split; [lia|apply next_lt; lia]]. replace i with (n - 1)%nat by lia. split; auto. apply next_last. lia. Qed.
Lemma next_range i : (i < n)%nat -> (next i < n)%nat.
Proof. intros H. destruct (next_cases H) as [[A ->]|[A ->]]; lia. Qed.

Lemma follows_next i : (2 <= n)%nat -> (i < n)%nat -> follows poly (v i) (v (next i)).
Proof.
  intros Hn Hi. destruct (next_cases Hi) as [[A ->]|[A ->]].
  - left. unfold v.
    destruct (nth_split poly (0, 0) Hi) as (l1 & l2 & E & L). exists l1.
    destruct l2 as [|q l2].
    + exfalso. assert (length poly = S i) by (rewrite E, app_length; cbn; lia). unfold n in A. lia.
    + exists l2. assert (nth (S i) poly (0, 0) = q) as ->.
      { rewrite E. rewrite app_nth2 by lia. rewrite L. replace (S i - i)%nat with 1%nat by lia. reflexivity. }
      exact E.
  - right. subst i. assert (S1 : exists q l p, poly = q :: l ++ [p]).
    { clear - Hn. unfold n in Hn. destruct poly as [|q l]; [cbn in Hn; lia|]. destruct (@exists_last _ l) as (l' & p & ->); [intros ->; cbn in Hn; lia|]. eauto. }
    destruct S1 as (q & l & p & E). exists l. unfold v, n. rewrite E. cbn [length nth]. rewrite app_length. cbn [length].
    replace (S (length l + 1) - 1)%nat with (S (length l)) by lia. cbn [nth]. rewrite app_nth2 by lia. rewrite Nat.sub_diag. reflexivity.
Qed.

Lemma follows_index p q : follows poly p q -> exists i, (i < n)%nat /\ p = v i /\ q = v (next i).
Proof.
  intros [(l1 & l2 & E)|(l & E)].
  - exists (length l1). assert (L : (S (length l1) < n)%nat) by (unfold n; rewrite E, app_length; cbn; lia). split; [lia|]. rewrite (next_lt L). unfold v. rewrite E. split.
    + rewrite app_nth2 by lia. rewrite Nat.sub_diag. reflexivity.
    + rewrite app_nth2 by lia. replace (S (length l1) - length l1)%nat with 1%nat by lia. reflexivity.
  - assert (L : n = S (S (length l))) by (unfold n; rewrite E; cbn; rewrite app_length; cbn; lia). exists (n - 1)%nat. split; [lia|]. rewrite next_last by lia. unfold v. rewrite L, E. split.
    + replace (S (S (length l)) - 1)%nat with (S (length l)) by lia. cbn [nth]. rewrite app_nth2 by lia. rewrite Nat.sub_diag. reflexivity.
    + reflexivity.
Qed.

(** the signed area seen from a point does not depend on the point *)
Lemma cyclic_sum (f : nat -> R) : (0 < n)%nat -> sum_to n (fun i => f (next i)) = sum_to n f.
Proof.
  intros Hn. assert (E : n = S (n - 1)) by lia. rewrite E.
  assert (S1 : forall m (h : nat -> R), sum_to (S m) h = sum_to m h + h m).
  { intros m h. unfold sum_to. rewrite seq_S, map_app, fold_right_app. cbn [map fold_right Nat.add]. change (fold_right Rplus (h m + 0) (map h (seq 0 m))) with (fold_right Rplus (h m + 0) (map h (seq 0 m))).
    generalize (map h (seq 0 m)). intros l. induction l as [|a l IH]; cbn; [lra|]. rewrite IH. lra. }
  rewrite S1, next_last by auto.
  assert (S2 : sum_to (S (n - 1)) f = f 0%nat + sum_to (n - 1) (fun i => f (S i))).
  { unfold sum_to. cbn [seq map fold_right]. rewrite <- seq_shift, map_map. reflexivity. }
  rewrite S2. rewrite Rplus_comm. f_equal. apply sum_to_ext. intros i Hi. rewrite next_lt by lia. reflexivity.
Qed.

Lemma area_from x y : (0 < n)%nat -> sum_to n (fun i => orient (v i) (v (next i)) x) = sum_to n (fun i => orient (v i) (v (next i)) y).
Proof.
  intros Hn.
  assert (E : forall z, sum_to n (fun i => orient (v i) (v (next i)) z) =
     sum_to n (fun i => fst (v i) * snd (v (next i)) - snd (v i) * fst (v (next i))) + snd z * sum_to n (fun i => fst (v (next i)) - fst (v i)) - fst z * sum_to n (fun i => snd (v (next i)) - snd (v i))).
  { intros z. rewrite <- !sum_to_scale, <- sum_to_plus, <- sum_to_minus. apply sum_to_ext. intros i _. unfold orient. ring. }
  assert (Z : forall h : R * R -> R, sum_to n (fun i => h (v (next i)) - h (v i)) = 0).
  { intros h. rewrite sum_to_minus, (cyclic_sum (fun i => h (v i)) Hn). lra. }
  rewrite !E, !Z. lra.
Qed.

(** ** The fan argument: a point with all consecutive vertices strictly on one rotational side is in the hull *)
Lemma triangle_weights a b c x : orient b c x * fst a + orient c a x * fst b + orient a b x * fst c = (orient a b x + orient b c x + orient c a x) * fst x /\
  orient b c x * snd a + orient c a x * snd b + orient a b x * snd c = (orient a b x + orient b c x + orient c a x) * snd x.
Proof. unfold orient. split; ring. Qed.

Lemma in_triangle sg a b c x : In a poly -> In b poly -> In c poly -> 0 <= sg * orient a b x -> 0 < sg * orient b c x -> 0 <= sg * orient c a x -> in_polygon poly x.
Proof.
  intros Ha Hb Hc H1 H2 H3. set (w1 := sg * orient b c x) in *. set (w2 := sg * orient c a x) in *. set (w3 := sg * orient a b x) in *.
  assert (P : 0 < w1 + w2 + w3) by lra. set (s := w1 + w2 + w3) in *.
  assert (N : forall w, 0 <= w -> 0 <= w / s) by (intros w Hw; apply Rmult_le_pos; auto; left; apply Rinv_0_lt_compat; auto).
  pose proof (comb_add (comb_add (@comb_one poly a (w1 / s) Ha (N w1 (Rlt_le _ _ H2))) (@comb_one poly b (w2 / s) Hb (N _ H3))) (@comb_one poly c (w3 / s) Hc (N _ H1))) as C.
  cbn [fst snd] in C. destruct (triangle_weights a b c x) as [T1 T2].
  assert (E1 : w1 * fst a + w2 * fst b + w3 * fst c = s * fst x).
  { unfold w1, w2, w3, s. replace (sg * orient b c x * fst a + sg * orient c a x * fst b + sg * orient a b x * fst c) with (sg * (orient b c x * fst a + orient c a x * fst b + orient a b x * fst c)) by ring.
    rewrite T1. unfold w1, w2, w3. ring. }
  assert (E2 : w1 * snd a + w2 * snd b + w3 * snd c = s * snd x).
  { unfold w1, w2, w3, s. replace (sg * orient b c x * snd a + sg * orient c a x * snd b + sg * orient a b x * snd c) with (sg * (orient b c x * snd a + orient c a x * snd b + orient a b x * snd c)) by ring.
    rewrite T2. unfold w1, w2, w3. ring. }
  replace (w1 / s + w2 / s + w3 / s) with 1 in C by (unfold s; field; change (s <> 0); lra).
  replace (w1 / s * fst a + w2 / s * fst b + w3 / s * fst c) with (fst x) in C.
  2:{ apply (Rmult_eq_reg_l s); [|lra]. rewrite <- E1. field. lra. }
  replace (w1 / s * snd a + w2 / s * snd b + w3 / s * snd c) with (snd x) in C.
  2:{ apply (Rmult_eq_reg_l s); [|lra]. rewrite <- E2. field. lra. }
  exact C.
Qed.

Lemma sign_change (s : nat -> R) : forall m, (0 <= s 1%nat) -> s (S (S m)) < 0 -> exists i, (1 <= i <= S m)%nat /\ 0 <= s i /\ s (S i) < 0.
Proof.
  induction m as [|m IH]; intros H1 H2.
  - exists 1%nat. split; [lia|auto].
  - destruct (Rlt_dec (s (S (S m))) 0) as [L|L].
    + destruct (IH H1 L) as (i & A & B). exists i. split; [lia|auto].
    + exists (S (S m)). split; [lia|]. split; [lra|auto].
Qed.

Lemma in_v i : (i < n)%nat -> In (v i) poly.
Proof. intros H. apply nth_In. auto. Qed.

Lemma orient_swap a b x : orient b a x = - orient a b x.
Proof. unfold orient. ring. Qed.
Lemma orient_same a x : orient a a x = 0.
Proof. unfold orient. ring. Qed.

Lemma fan sg x : (0 < n)%nat -> (forall i, (i < n)%nat -> 0 < sg * orient (v i) (v (next i)) x) -> in_polygon poly x.
Proof.
  intros Hn H. destruct (Nat.lt_ge_cases n 3) as [L|L].
  - exfalso. pose proof (H 0%nat Hn) as H0. destruct (Nat.eq_dec n 1) as [E|N].
    + assert (next 0 = 0%nat) as Z by (unfold next; rewrite E; reflexivity). rewrite Z, orient_same in H0. lra.
    + assert (E : n = 2%nat) by lia. pose proof (H 1%nat ltac:(lia)) as H1. rewrite (next_lt (i := 0)) in H0 by lia.
      assert (next 1 = 0%nat) as Z by (unfold next; rewrite E; reflexivity). rewrite Z, orient_swap in H1. nra.
  - destruct (@sign_change (fun i => sg * orient (v 0) (v i) x) (n - 3)) as (i & Hi & A & B).
    + pose proof (H 0%nat Hn) as H0. rewrite next_lt in H0 by lia. lra.
    + replace (S (S (n - 3))) with (n - 1)%nat by lia. pose proof (H (n - 1)%nat ltac:(lia)) as H0. rewrite next_last in H0 by lia. rewrite orient_swap in H0. nra.
    + pose proof (H i ltac:(lia)) as C. rewrite next_lt in C by lia.
      apply (@in_triangle sg (v 0) (v i) (v (S i)) x); try (apply in_v; lia); auto. rewrite orient_swap. lra.
Qed.
End Cyclic.

(** ** The filter's test *)
Lemma left_or_right_iff p q x y : left_or_right p q (Fin x) y = true <-> orient p q (x, y) <= 0.
Proof. unfold left_or_right, orient, Rleb. cbn [fst snd]. destruct (Rle_dec _ _); split; auto; try discriminate; lra. Qed.

Lemma barycentre_centroid poly : centroid poly = barycentre poly.
Proof. unfold centroid, barycentre, mean. rewrite !map_length. reflexivity. Qed.

(** +1 when the centroid is strictly to the left of side [i], -1 otherwise *)
Definition side_sign (poly : list (R * R)) (i : nat) : R :=
  if Rle_dec (orient (nth i poly (0, 0)) (nth (next poly i) poly (0, 0)) (barycentre poly)) 0 then -1 else 1.
Definition side (poly : list (R * R)) (x : R * R) (i : nat) : R :=
  side_sign poly i * orient (nth i poly (0, 0)) (nth (next poly i) poly (0, 0)) x.

Lemma sides_eq poly x y : map (fun e => left_or_right (fst e) (snd e) (Fin x) y) (polygon_edges poly)
  = map (fun i => Rleb (side poly (x, y) i) 0) (seq 0 (length poly)).
Proof.
  unfold polygon_edges. pose proof (barycentre_centroid poly) as E. destruct (centroid poly) as [cx cy]. rewrite map_map. apply map_ext. intros i.
  cbv zeta. fold (next poly i). unfold side, side_sign. rewrite <- E. set (p := nth i poly (0, 0)). set (q := nth (next poly i) poly (0, 0)).
  destruct (left_or_right p q (Fin cx) cy) eqn:L.
  - apply left_or_right_iff in L. destruct (Rle_dec _ _) as [_|N]; [|lra]. cbn [fst snd]. unfold Rleb. destruct (left_or_right q p (Fin x) y) eqn:L2.
    + apply left_or_right_iff in L2. rewrite orient_swap in L2. destruct (Rle_dec _ _); auto. lra.
    + destruct (Rle_dec _ _) as [Q|]; auto. assert (left_or_right q p (Fin x) y = true); [|congruence]. apply left_or_right_iff. rewrite orient_swap. lra.
  - assert (N : ~ orient p q (cx, cy) <= 0) by (intros Q; apply left_or_right_iff in Q; congruence). destruct (Rle_dec _ _) as [Q|_]; [tauto|]. cbn [fst snd]. unfold Rleb.
    destruct (left_or_right p q (Fin x) y) eqn:L2.
    + apply left_or_right_iff in L2. destruct (Rle_dec _ _); auto. lra.
    + destruct (Rle_dec _ _) as [Q|]; auto. assert (left_or_right p q (Fin x) y = true); [|congruence]. apply left_or_right_iff. lra.
Qed.

Lemma forallb_seq (f : nat -> bool) n : forallb f (seq 0 n) = true <-> forall i, (i < n)%nat -> f i = true.
Proof. rewrite forallb_forall. split; intros H i Hi; apply H; [apply in_seq; lia|apply in_seq in Hi; lia]. Qed.

Lemma forallb_map' {A B} (f : B -> bool) (h : A -> B) l : forallb f (map h l) = forallb (fun a => f (h a)) l.
Proof. induction l as [|a l IH]; cbn; auto. rewrite IH. reflexivity. Qed.

Lemma same_side_iff poly x y : same_side poly (Fin x) y = true <->
  (forall i, (i < length poly)%nat -> side poly (x, y) i <= 0) \/ (forall i, (i < length poly)%nat -> 0 < side poly (x, y) i).
Proof.
  unfold same_side. rewrite sides_eq, orb_true_iff, !forallb_map', !forallb_seq. unfold Rleb. split; intros [H|H]; [left|right|left|right]; intros i Hi; specialize (H i Hi).
  - destruct (Rle_dec _ _); [auto|discriminate].
  - destruct (Rle_dec _ _); [discriminate|lra].
  - destruct (Rle_dec _ _); [auto|lra].
  - destruct (Rle_dec _ _); [lra|auto].
Qed.

Lemma same_side_nan poly y : same_side poly NonFinite y = true.
Proof.
  unfold same_side. apply orb_true_iff. right. rewrite forallb_map'. apply forallb_forall. intros e _. reflexivity.
Qed.

(** *** Soundness: clockwise around the centroid and not degenerate *)
Lemma stable_in_polygon poly x y : (forall p q, follows poly p q -> orient p q (barycentre poly) <= 0) -> nondegenerate poly ->
  same_side poly (Fin x) y = true -> in_polygon poly (x, y).
Proof.
  intros Hcw (p0 & q0 & Hf0 & Hz0) H. destruct (@follows_index poly p0 q0 Hf0) as (i0 & Hi0 & -> & ->).
  assert (L2 : (2 <= length poly)%nat) by (destruct Hf0 as [(l1 & l2 & E)|(l & E)]; rewrite E; rewrite ?app_length; cbn; rewrite ?app_length; cbn; lia).
  assert (C : forall i, (i < length poly)%nat -> orient (nth i poly (0, 0)) (nth (next poly i) poly (0, 0)) (barycentre poly) <= 0).
  { intros i Hi. apply Hcw. apply follows_next; auto. }
  assert (Sg : forall i, (i < length poly)%nat -> side poly (x, y) i = -1 * orient (nth i poly (0, 0)) (nth (next poly i) poly (0, 0)) (x, y)).
  { intros i Hi. unfold side, side_sign. destruct (Rle_dec _ _) as [_|N]; auto. specialize (C i Hi). lra. }
  apply same_side_iff in H. destruct H as [H|H].
  - exfalso. pose proof (@area_from poly (x, y) (barycentre poly) ltac:(lia)) as A. cbv beta in A.
    assert (0 <= sum_to (length poly) (fun i => orient (nth i poly (0, 0)) (nth (next poly i) poly (0, 0)) (x, y))).
    { apply sum_to_nonneg. intros i Hi. specialize (H i Hi). rewrite Sg in H by auto. lra. }
    assert (sum_to (length poly) (fun i => orient (nth i poly (0, 0)) (nth (next poly i) poly (0, 0)) (barycentre poly)) < 0); [|lra].
    assert (0 < sum_to (length poly) (fun i => -1 * orient (nth i poly (0, 0)) (nth (next poly i) poly (0, 0)) (barycentre poly))).
    { rewrite sum_to_rsum. apply rsum_map_pos with (x := i0); [|apply in_seq; lia|].
      - intros i Hi. apply in_seq in Hi. specialize (C i ltac:(lia)). lra.
      - specialize (C i0 Hi0). lra. }
    rewrite sum_to_scale in H1. lra.
  - apply (@fan poly (-1) (x, y)); [lia|]. intros i Hi. rewrite <- Sg by auto. apply H. auto.
Qed.

(** *** Exactness on convex polygons *)
Section Convex.
Variable poly : list (R * R).
Variable sg : R.
Hypothesis Hsg : sg = 1 \/ sg = -1.
Hypothesis H3 : (3 <= length poly)%nat.
Hypothesis Hnd : NoDup poly.
Hypothesis Hc : forall p q r, follows poly p q -> In r poly -> r <> p -> r <> q -> 0 < sg * orient p q r.
Let n := length poly.
Let v i := nth i poly (0, 0).

Lemma v_inj i j : (i < n)%nat -> (j < n)%nat -> v i = v j -> i = j.
Proof. intros Hi Hj E. apply (proj1 (NoDup_nth poly (0, 0)) Hnd); auto. Qed.

Lemma edge_vertex i k : (i < n)%nat -> (k < n)%nat -> k <> i -> k <> next poly i -> 0 < sg * orient (v i) (v (next poly i)) (v k).
Proof.
  intros Hi Hk N1 N2. apply Hc; [apply follows_next; auto; lia|apply nth_In; auto| |]; intros E; apply v_inj in E; auto. apply next_range. auto.
Qed.
Lemma edge_vertex_le i k : (i < n)%nat -> (k < n)%nat -> 0 <= sg * orient (v i) (v (next poly i)) (v k).
Proof.
  intros Hi Hk. destruct (Nat.eq_dec k i) as [->|N1]; [unfold orient; nra|]. destruct (Nat.eq_dec k (next poly i)) as [->|N2]; [unfold orient; nra|].
  left. apply edge_vertex; auto.
Qed.

Lemma third i : (i < n)%nat -> exists k, (k < n)%nat /\ k <> i /\ k <> next poly i.
Proof.
  intros Hi. pose proof (@next_range poly i Hi) as Hj. set (j := next poly i) in *. fold n in Hj.
  destruct (Nat.eq_dec 0 i) as [E0|N0]; [|destruct (Nat.eq_dec 0 j) as [E0'|N0']].
  - destruct (Nat.eq_dec 1 j) as [E1|N1]; [exists 2%nat|exists 1%nat]; unfold n in *; lia.
  - destruct (Nat.eq_dec 1 i) as [E1|N1]; [exists 2%nat|exists 1%nat]; unfold n in *; lia.
  - exists 0%nat. unfold n in *. lia.
Qed.

Lemma rsum_nth (h : R * R -> R) : rsum (map h poly) = sum_to n (fun k => h (v k)).
Proof.
  rewrite sum_to_rsum. unfold v, n. f_equal. rewrite <- (map_map (fun k => nth k poly (0, 0)) h). f_equal.
  clear. induction poly as [|a l IH]; auto. cbn [length seq map nth]. f_equal. rewrite <- seq_shift, map_map. apply IH.
Qed.

Lemma edge_centre i : (i < n)%nat -> 0 < sg * orient (v i) (v (next poly i)) (barycentre poly).
Proof.
  intros Hi. assert (Nn : 0 < INR n) by (apply lt_0_INR; unfold n; lia).
  set (p := v i). set (q := v (next poly i)).
  assert (E : orient p q (barycentre poly) = rsum (map (orient p q) poly) / INR n).
  { apply (Rmult_eq_reg_l (INR n)); [|lra]. replace (INR n * (rsum (map (orient p q) poly) / INR n)) with (rsum (map (orient p q) poly)) by (field; lra).
    unfold orient, barycentre. cbn [fst snd]. fold n.
    assert (G : forall l, rsum (map (fun c => (fst q - fst p) * (snd c - snd p) - (snd q - snd p) * (fst c - fst p)) l)
       = (fst q - fst p) * (rsum (map snd l) - INR (length l) * snd p) - (snd q - snd p) * (rsum (map fst l) - INR (length l) * fst p)).
    { induction l as [|a l IH]; [cbn; rewrite ?rsum_nil; lra|]. cbn [map length]. rewrite !rsum_cons, IH, S_INR. ring. }
    rewrite G. fold n. field. lra. }
  rewrite E. replace (sg * (rsum (map (orient p q) poly) / INR n)) with ((sg * rsum (map (orient p q) poly)) / INR n) by (field; lra).
  apply Rdiv_lt_0_compat; auto. rewrite rsum_nth, <- sum_to_scale, sum_to_rsum. destruct (third Hi) as (k & Hk & N1 & N2).
  apply rsum_map_pos with (x := k); [|apply in_seq; lia|apply edge_vertex; auto]. intros j Hj. apply in_seq in Hj. apply edge_vertex_le; auto. lia.
Qed.

Lemma side_convex x i : (i < n)%nat -> side poly x i = sg * orient (v i) (v (next poly i)) x.
Proof.
  intros Hi. pose proof (edge_centre Hi) as C. unfold side, side_sign. fold (v i) (v (next poly i)).
  destruct (Rle_dec _ _) as [L|L]; destruct Hsg as [-> | ->]; auto; lra.
Qed.

Lemma test_convex x y : same_side poly (Fin x) y = true <-> forall i, (i < n)%nat -> 0 < sg * orient (v i) (v (next poly i)) (x, y).
Proof.
  rewrite same_side_iff. split.
  - intros [H|H] i Hi; [|rewrite <- side_convex by auto; apply H; auto]. exfalso.
    pose proof (@area_from poly (x, y) (barycentre poly) ltac:(lia)) as A. cbv beta in A. apply (f_equal (Rmult sg)) in A. rewrite <- !sum_to_scale in A.
    assert (sum_to n (fun i => sg * orient (v i) (v (next poly i)) (x, y)) <= 0).
    { assert (0 <= sum_to n (fun i => - (sg * orient (v i) (v (next poly i)) (x, y)))).
      { apply sum_to_nonneg. intros k Hk. specialize (H k Hk). rewrite side_convex in H by auto. lra. }
      assert (E : sum_to n (fun i => - (sg * orient (v i) (v (next poly i)) (x, y))) = -1 * sum_to n (fun i => sg * orient (v i) (v (next poly i)) (x, y))).
      { rewrite <- sum_to_scale. apply sum_to_ext. intros. lra. }
      lra. }
    assert (0 < sum_to n (fun i => sg * orient (v i) (v (next poly i)) (barycentre poly))).
    { rewrite sum_to_rsum. apply rsum_map_pos with (x := i); [|apply in_seq; lia|apply edge_centre; auto].
      intros k Hk. apply in_seq in Hk. left. apply edge_centre. lia. }
    unfold n, v in *. lra.
  - intros H. right. intros i Hi. rewrite side_convex by auto. apply H. auto.
Qed.

Lemma hull_side x i : (i < n)%nat -> in_polygon poly x -> 0 <= sg * orient (v i) (v (next poly i)) x.
Proof.
  intros Hi (ws & Hl & Hw & Hs & Hx & Hy). set (p := v i). set (q := v (next poly i)).
  assert (E : orient p q x = rsum (map (fun wv => fst wv * orient p q (snd wv)) (combine ws poly))).
  { unfold orient. rewrite Hx, Hy.
    assert (G : forall ws l, length ws = length l -> rsum (map (fun wv => fst wv * ((fst q - fst p) * (snd (snd wv) - snd p) - (snd q - snd p) * (fst (snd wv) - fst p))) (combine ws l))
       = (fst q - fst p) * (rsum (map (fun wv => fst wv * snd (snd wv)) (combine ws l)) - rsum ws * snd p) - (snd q - snd p) * (rsum (map (fun wv => fst wv * fst (snd wv)) (combine ws l)) - rsum ws * fst p)).
    { clear. induction ws as [|w ws IH]; intros [|a l] H; try discriminate; cbn [combine map]; rewrite ?rsum_nil, ?rsum_cons; [lra|]. rewrite IH by (simpl in H; lia). cbn [fst snd]. ring. }
    rewrite G by auto. rewrite Hs. ring. }
  rewrite E, <- rsum_map_scale. apply rsum_map_nonneg. intros [w a] Hin. cbn [fst snd]. pose proof (in_combine_l _ _ _ _ Hin) as Hwi. pose proof (in_combine_r _ _ _ _ Hin) as Hai.
  apply Hw in Hwi. destruct (In_nth _ _ (0, 0) Hai) as (k & Hk & <-). replace (sg * (w * orient p q (nth k poly (0, 0)))) with (w * (sg * orient p q (v k))) by (unfold v; ring).
  apply Rmult_le_pos; auto. apply edge_vertex_le; auto.
Qed.

Lemma convex_interior x y : same_side poly (Fin x) y = true <-> interior poly (x, y).
Proof.
  rewrite test_convex. split.
  - intros H.
    assert (G : forall m, (m <= n)%nat -> exists eps, 0 < eps /\ forall z i, (i < m)%nat -> Rabs (fst z - x) < eps -> Rabs (snd z - y) < eps -> 0 < sg * orient (v i) (v (next poly i)) z).
    { induction m as [|m IH]; intros Hm.
      - exists 1. split; [lra|]. intros; lia.
      - destruct (IH ltac:(lia)) as (e & He & P). specialize (H m ltac:(lia)). set (p := v m) in *. set (q := v (next poly m)) in *.
        set (d := sg * orient p q (x, y)) in *. set (k := Rabs (fst q - fst p) + Rabs (snd q - snd p) + 1).
        assert (Hk : 0 < k) by (unfold k; pose proof (Rabs_pos (fst q - fst p)); pose proof (Rabs_pos (snd q - snd p)); lra).
        exists (Rmin e (d / k)). assert (Hdk : 0 < d / k) by (apply Rdiv_lt_0_compat; auto). split; [apply Rmin_glb_lt; auto|]. intros z i Hi Hx Hy.
        pose proof (Rmin_l e (d / k)). pose proof (Rmin_r e (d / k)). destruct (Nat.eq_dec i m) as [->|N]; [|apply P; auto; try lia; lra]. fold p q.
        set (a := fst q - fst p) in *. set (b := snd q - snd p) in *. set (dx := fst z - x) in *. set (dy := snd z - y) in *.
        assert (E : sg * orient p q z = d + sg * (a * dy - b * dx)) by (unfold d, orient, a, b, dx, dy; cbn [fst snd]; ring).
        rewrite E. assert (B : Rabs (a * dy - b * dx) <= Rabs a * Rabs dy + Rabs b * Rabs dx).
        { unfold Rminus. eapply Rle_trans; [apply Rabs_triang|]. rewrite Rabs_Ropp, !Rabs_mult. lra. }
        assert (Rabs a * Rabs dy <= Rabs a * (d / k)) by (apply Rmult_le_compat_l; [apply Rabs_pos|lra]).
        assert (Rabs b * Rabs dx <= Rabs b * (d / k)) by (apply Rmult_le_compat_l; [apply Rabs_pos|lra]).
        assert (Rabs a * (d / k) + Rabs b * (d / k) < d).
        { replace d with (k * (d / k)) at 3 by (field; lra). unfold k at 3. fold a b. nra. }
        assert (Q : Rabs (a * dy - b * dx) < d) by lra. apply Rabs_def2 in Q. destruct Hsg as [-> | ->]; lra. }
    destruct (G n ltac:(lia)) as (eps & He & P). exists eps. split; auto. intros z Hx Hy. cbn [fst snd] in *. apply (@fan poly sg z); [lia|]. intros i Hi. apply P; auto.
  - intros (eps & He & P) i Hi. set (p := v i). set (q := v (next poly i)).
    pose proof (@hull_side (x, y) i Hi (P (x, y) ltac:(cbn; rewrite Rminus_eq_0, Rabs_R0; auto) ltac:(cbn; rewrite Rminus_eq_0, Rabs_R0; auto))) as H0.
    fold p q in H0. destruct (Rle_lt_or_eq_dec _ _ H0) as [L|L]; auto. exfalso.
    set (a := fst q - fst p). set (b := snd q - snd p). set (k := Rabs a + Rabs b + 1).
    assert (Hk : 0 < k) by (unfold k; pose proof (Rabs_pos a); pose proof (Rabs_pos b); lra).
    set (t := eps / k). assert (Ht : 0 < t) by (apply Rdiv_lt_0_compat; auto).
    assert (Ha : Rabs a * t < eps). { replace eps with (k * t) by (unfold t; field; lra). pose proof (Rabs_pos b). unfold k. nra. }
    assert (Hb : Rabs b * t < eps). { replace eps with (k * t) by (unfold t; field; lra). pose proof (Rabs_pos a). unfold k. nra. }
    assert (Hn : p <> q).
    { intros E. apply v_inj in E; auto; [|apply next_range; auto]. destruct (next_cases poly Hi) as [[A B]|[A B]]; rewrite B in E; unfold n in *; lia. }
    assert (Hab : 0 < a * a + b * b).
    { destruct (Req_EM_T a 0) as [Za|Na]; [destruct (Req_EM_T b 0) as [Zb|Nb]|].
      - exfalso. apply Hn. unfold a, b in *. destruct p, q. cbn in *. f_equal; lra.
      - assert (0 < b * b) by (apply Rsqr_pos_lt; auto). nra.
      - assert (0 < a * a) by (apply Rsqr_pos_lt; auto). nra. }
    set (z := (x + sg * (b * t), y - sg * (a * t))).
    assert (Sa : Rabs sg = 1) by (destruct Hsg as [-> | ->]; [rewrite Rabs_R1|rewrite Rabs_left by lra]; lra).
    pose proof (@hull_side z i Hi) as H1. fold p q in H1.
    assert (H2 : in_polygon poly z).
    { apply P; unfold z; cbn [fst snd].
      - replace (x + sg * (b * t) - x) with (sg * (b * t)) by ring. rewrite !Rabs_mult, Sa, (Rabs_right t) by lra. lra.
      - replace (y - sg * (a * t) - y) with (- (sg * (a * t))) by ring. rewrite Rabs_Ropp, !Rabs_mult, Sa, (Rabs_right t) by lra. lra. }
    specialize (H1 H2). assert (E : sg * orient p q z = sg * orient p q (x, y) - (sg * sg) * t * (a * a + b * b)) by (unfold orient, z, a, b; cbn [fst snd]; ring).
    assert (S2 : sg * sg = 1) by (destruct Hsg as [-> | ->]; ring). rewrite E, S2, <- L in H1. assert (0 < t * (a * a + b * b)) by (apply Rmult_lt_0_compat; auto). lra.
Qed.
End Convex.

Lemma stable_convex poly x y : convex_polygon poly -> (same_side poly (Fin x) y = true <-> interior poly (x, y)).
Proof.
  intros (H3 & Hnd & [H|H]).
  - apply (@convex_interior poly (-1) (or_intror eq_refl) H3 Hnd). intros p q r A B C D. specialize (H p q r A B C D). lra.
  - apply (@convex_interior poly 1 (or_introl eq_refl) H3 Hnd). intros p q r A B C D. specialize (H p q r A B C D). lra.
Qed.
