(** Proofs about the exhaustive checks of CHAMP results. *)
From Verif Require Import PyBase PyGraph M_partition M_champ M_leiden M_parts M_estimation_utils M_checks Spec Spec_graph Spec_champ Spec_polygon Spec_stability
  Spec_leiden Spec_objective L_base L_modularity L_angular L_stability.
From Coq Require Import Classical.
Set Implicit Arguments.
Open Scope R_scope.

(** ** The closed point-in-polygon test *)
Lemma in_triangle_le poly sg a b c x : In a poly -> In b poly -> In c poly -> 0 <= sg * orient a b x -> 0 <= sg * orient b c x -> 0 <= sg * orient c a x ->
  0 < sg * orient a b c -> in_polygon poly x.
Proof.
  intros Ha Hb Hc H1 H2 H3 H4. set (w1 := sg * orient b c x) in *. set (w2 := sg * orient c a x) in *. set (w3 := sg * orient a b x) in *.
  assert (P : w1 + w2 + w3 = sg * orient a b c) by (unfold w1, w2, w3, orient; ring).
  set (s := w1 + w2 + w3) in *. assert (Ps : 0 < s) by lra.
  assert (N : forall w, 0 <= w -> 0 <= w / s) by (intros w Hw; apply Rmult_le_pos; auto; left; apply Rinv_0_lt_compat; auto).
  pose proof (comb_add (comb_add (@comb_one poly a (w1 / s) Ha (N w1 H2)) (@comb_one poly b (w2 / s) Hb (N _ H3))) (@comb_one poly c (w3 / s) Hc (N _ H1))) as C.
  cbn [fst snd] in C. destruct (triangle_weights a b c x) as [T1 T2].
  assert (E1 : w1 * fst a + w2 * fst b + w3 * fst c = s * fst x).
  { unfold w1, w2, w3, s. replace (sg * orient b c x * fst a + sg * orient c a x * fst b + sg * orient a b x * fst c) with (sg * (orient b c x * fst a + orient c a x * fst b + orient a b x * fst c)) by ring.
    rewrite T1. unfold w1, w2, w3. ring. }
  assert (E2 : w1 * snd a + w2 * snd b + w3 * snd c = s * snd x).
  { unfold w1, w2, w3, s. replace (sg * orient b c x * snd a + sg * orient c a x * snd b + sg * orient a b x * snd c) with (sg * (orient b c x * snd a + orient c a x * snd b + orient a b x * snd c)) by ring.
    rewrite T2. unfold w1, w2, w3. ring. }
  replace (w1 / s + w2 / s + w3 / s) with 1 in C by (unfold s; field; change (s <> 0); lra).
  replace (w1 / s * fst a + w2 / s * fst b + w3 / s * fst c) with (fst x) in C.
  2:{ apply (Rmult_eq_reg_l s); [|lra]. rewrite <- E1. field. lra. }
  replace (w1 / s * snd a + w2 / s * snd b + w3 / s * snd c) with (snd x) in C.
  2:{ apply (Rmult_eq_reg_l s); [|lra]. rewrite <- E2. field. lra. }
  exact C.
Qed.

Lemma sign_change_le (s : nat -> R) : forall m, (0 <= s 1%nat) -> s (S (S m)) <= 0 -> exists i, (1 <= i <= S m)%nat /\ 0 <= s i /\ s (S i) <= 0.
Proof.
  induction m as [|m IH]; intros H1 H2.
  - exists 1%nat. split; [lia|auto].
  - destruct (Rle_dec (s (S (S m))) 0) as [L|L].
    + destruct (IH H1 L) as (i & A & B). exists i. split; [lia|auto].
    + exists (S (S m)). split; [lia|]. split; [lra|auto].
Qed.

Section Convex.
Variable poly : list (R * R).
Variable sg : R.
Hypothesis Hsg : sg = 1 \/ sg = -1.
Hypothesis H3 : (3 <= length poly)%nat.
Hypothesis Hnd : NoDup poly.
Hypothesis Hc : forall p q r, follows poly p q -> In r poly -> r <> p -> r <> q -> 0 < sg * orient p q r.
Let n := length poly.
Let v i := nth i poly (0, 0).

Lemma hull_iff_sides x : in_polygon poly x <-> forall i, (i < n)%nat -> 0 <= sg * orient (v i) (v (next poly i)) x.
Proof.
  split; [intros H i Hi; apply (@hull_side poly sg H3 Hnd Hc x i Hi H)|]. intros H.
  destruct (@sign_change_le (fun i => sg * orient (v 0) (v i) x) (n - 3)) as (i & Hi & A & B).
  - pose proof (H 0%nat ltac:(unfold n; lia)) as H0. rewrite next_lt in H0 by lia. exact H0.
  - replace (S (S (n - 3))) with (n - 1)%nat by (unfold n in *; lia). pose proof (H (n - 1)%nat ltac:(unfold n; lia)) as H0. rewrite next_last in H0 by lia. rewrite orient_swap in H0. lra.
  - pose proof (H i ltac:(unfold n in *; lia)) as C. rewrite next_lt in C by (unfold n in *; lia).
    apply (@in_triangle_le poly sg (v 0) (v i) (v (S i)) x); try (apply in_v; unfold n in *; lia); auto.
    + rewrite orient_swap. lra.
    + pose proof (@edge_vertex poly sg H3 Hnd Hc i 0 ltac:(unfold n in *; lia) ltac:(unfold n in *; lia) ltac:(lia)) as E.
      rewrite next_lt in E by (unfold n in *; lia). specialize (E ltac:(lia)). fold (v i) (v (S i)) (v 0) in E.
      replace (orient (v 0) (v i) (v (S i))) with (orient (v i) (v (S i)) (v 0)) by (unfold orient; ring). exact E.
Qed.

Lemma inside_sides gamma omega : point_is_inside_champ_domain gamma omega poly = true <->
  forall i, (i < n)%nat -> (left_or_right (v i) (v (next poly i)) (Fin (fst (barycentre poly))) (snd (barycentre poly)) = left_or_right (v i) (v (next poly i)) (Fin gamma) omega).
Proof.
  unfold point_is_inside_champ_domain. rewrite barycentre_centroid. destruct (barycentre poly) as [cx cy] eqn:E. cbn [fst snd]. rewrite forallb_seq.
  split; intros H i Hi; specialize (H i Hi); [apply eqb_prop in H; exact H|]. cbv zeta. fold (next poly i). unfold v in H. rewrite H. apply eqb_reflx.
Qed.

Lemma inside_cw gamma omega : sg = -1 -> (point_is_inside_champ_domain gamma omega poly = true <-> in_polygon poly (gamma, omega)).
Proof.
  intros Es. rewrite inside_sides, hull_iff_sides. split; intros H i Hi; specialize (H i Hi); pose proof (@edge_centre poly sg H3 Hnd Hc i Hi) as C; cbv beta in C; fold (v i) (v (next poly i)) in C; rewrite Es in C; try rewrite Es in H; try rewrite Es.
  - assert (L : left_or_right (v i) (v (next poly i)) (Fin (fst (barycentre poly))) (snd (barycentre poly)) = true).
    { apply left_or_right_iff. rewrite <- surjective_pairing. lra. }
    rewrite L in H. symmetry in H. apply left_or_right_iff in H. lra.
  - rewrite (proj2 (left_or_right_iff (v i) (v (next poly i)) (fst (barycentre poly)) (snd (barycentre poly)))) by (rewrite <- surjective_pairing; lra).
    symmetry. apply left_or_right_iff. lra.
Qed.

Lemma inside_ccw gamma omega : sg = 1 -> (point_is_inside_champ_domain gamma omega poly = true <-> interior poly (gamma, omega)).
Proof.
  intros Es. rewrite inside_sides, <- (@convex_interior poly sg Hsg H3 Hnd Hc), (@test_convex poly sg Hsg H3 Hnd Hc). fold n.
  split; intros H i Hi; specialize (H i Hi); pose proof (@edge_centre poly sg H3 Hnd Hc i Hi) as C; cbv beta in C; fold (v i) (v (next poly i)) in C; rewrite Es in C; try rewrite Es in H; try rewrite Es.
  - assert (L : left_or_right (v i) (v (next poly i)) (Fin (fst (barycentre poly))) (snd (barycentre poly)) = false).
    { apply not_true_is_false. intros Q. apply left_or_right_iff in Q. rewrite <- surjective_pairing in Q. lra. }
    rewrite L in H. destruct (Rle_dec (orient (v i) (v (next poly i)) (gamma, omega)) 0) as [Q|Q]; [apply left_or_right_iff in Q; congruence|]. fold (v i) (v (next poly i)). lra.
  - fold (v i) (v (next poly i)) in H. transitivity false; [|symmetry]; apply not_true_is_false; intros Q; apply left_or_right_iff in Q; rewrite <- ?surjective_pairing in Q; lra.
Qed.
End Convex.

(** ** Dicts and maxima *)
Lemma tuple_eqb_iff a b : tuple_eqb a b = true <-> a = b.
Proof. unfold tuple_eqb. destruct (list_eq_dec Nat.eq_dec a b); split; auto; discriminate. Qed.

Lemma dict_get_all {V} (d : list (list nat * V)) (P : list nat -> V -> Prop) : (forall k x, In (k, x) d -> P k x) ->
  forall k, (In k (map fst d) -> exists x, dict_get tuple_eqb d k = Ok x /\ P k x) /\ (~ In k (map fst d) -> dict_get tuple_eqb d k = Raise KeyError).
Proof.
  induction d as [|[k' x'] d IH]; intros H k; [split; [intros []|reflexivity]|]. cbn [dict_get map fst].
  destruct (tuple_eqb k k') eqn:E.
  - apply tuple_eqb_iff in E. subst k'. split; [intros _; exists x'; split; auto; apply H; left; auto|]. intros N. exfalso. apply N. left. auto.
  - assert (k <> k') by (intros ->; assert (tuple_eqb k' k' = true) by (apply tuple_eqb_iff; auto); congruence).
    destruct (IH (fun k0 x0 h => H k0 x0 (or_intror h)) k) as [A B]. split.
    + intros [Q|Q]; [congruence|auto].
    + intros N. apply B. intros Q. apply N. right. auto.
Qed.

Lemma py_maxR_ok x l : exists m, py_maxR (x :: l) = Ok m /\ In m (x :: l) /\ forall y, In y (x :: l) -> y <= m.
Proof.
  exists (fold_left Rmax l x). split; [reflexivity|]. revert x. induction l as [|a l IH]; intros x; cbn [fold_left].
  - split; [left; auto|]. intros y [<-|[]]; lra.
  - destruct (IH (Rmax x a)) as [A B]. split.
    + destruct A as [A|A]; [|right; right; auto]. rewrite <- A. unfold Rmax. destruct (Rle_dec x a); [right; left|left]; auto.
    + intros y [<-|[<-|H]]; [| |apply B; right; auto]; eapply Rle_trans; try apply (B (Rmax x a)); [apply Rmax_l|left; auto|apply Rmax_r|left; auto].
Qed.

Lemma foldM_unit {A} (f : A -> res unit) l : foldM (fun _ a => f a) l tt = Ok tt <-> forall a, In a l -> f a = Ok tt.
Proof.
  induction l as [|a l IH]; cbn [foldM]; [split; auto; intros _ a []|]. destruct (f a) as [[]|e] eqn:E; cbn [bind].
  - rewrite IH. split; [intros H b [<-|Hb]; auto|]. intros H b Hb. apply H. right. auto.
  - split; [discriminate|]. intros H. rewrite <- E. apply H. left. auto.
Qed.

Lemma foldM_unit_raise {A} (f : A -> res unit) l e : foldM (fun _ a => f a) l tt = Raise e -> exists a, In a l /\ f a = Raise e.
Proof.
  induction l as [|a l IH]; cbn [foldM]; [discriminate|]. destruct (f a) as [[]|e'] eqn:E; cbn [bind].
  - intros H. destruct (IH H) as (b & Hb & Q). exists b. split; auto. right. auto.
  - intros H. exists a. split; [left; auto|]. congruence.
Qed.

Lemma find_split {A} (f : A -> bool) l a : find f l = Some a <-> exists l1 l2, l = l1 ++ a :: l2 /\ f a = true /\ forall b, In b l1 -> f b = false.
Proof.
  split.
  - induction l as [|b l IH]; cbn; [discriminate|]. destruct (f b) eqn:E.
    + intros H. assert (b = a) by congruence. subst. exists [], l. split; auto. split; auto. intros _ [].
    + intros H. destruct (IH H) as (l1 & l2 & -> & Q & R). exists (b :: l1), l2. split; auto. split; auto. intros c [<-|Hc]; auto.
  - intros (l1 & l2 & -> & Q & R). induction l1 as [|b l1 IH]; cbn; [rewrite Q; auto|]. rewrite (R b (or_introl eq_refl)). apply IH. intros c Hc. apply R. right. auto.
Qed.

(** ** The common part of both checks *)
Section Check.
Variables (V X : Type).
Variable qual : V -> X -> R.
Variable Q : list nat -> X -> R.
Variable d : list (list nat * V).
Variable parts : list (list nat).
Hypothesis Hd : forall k o, In (k, o) d -> forall x, qual o x = Q k x.
Hypothesis Hk : map fst d = parts.

Lemma qualities_ok x : mapM (fun p => let! o := dict_get tuple_eqb d p in Ok (qual o x)) parts = Ok (map (fun p => Q p x) parts).
Proof.
  assert (G : forall l, incl l parts -> mapM (fun p => let! o := dict_get tuple_eqb d p in Ok (qual o x)) l = Ok (map (fun p => Q p x) l)).
  { induction l as [|p l IH]; intros Hl; [reflexivity|]. cbn [mapM map].
    destruct (@dict_get_all V d (fun k o => qual o x = Q k x) (fun k o h => Hd k o h x) p) as [A _].
    destruct A as (o & -> & Eo); [rewrite Hk; apply Hl; left; auto|]. cbn [bind]. rewrite IH by (intros y Hy; apply Hl; right; auto). cbn [bind]. rewrite Eo. reflexivity. }
  apply G. intros y; auto.
Qed.

(** [found] is the range or domain looked up at [x]. *)
Definition check_body (found : option (list nat)) (x : X) : res unit :=
  let! qualities := mapM (fun p => let! o := dict_get tuple_eqb d p in Ok (qual o x)) parts in
  let! best := py_maxR qualities in
  match found with
  | Some m => let! o := dict_get tuple_eqb d m in assert_almost_equal 10 best (qual o x)
  | None => Raise AssertionError
  end.

Lemma check_body_iff found x : check_body found x = Ok tt <->
  exists m, found = Some m /\ In m parts /\ forall c, In c parts -> Q c x <= Q m x + 5 / 10 ^ 11.
Proof.
  unfold check_body. rewrite qualities_ok. cbn [bind]. destruct parts as [|c0 cs] eqn:Ep.
  - cbn. split; [discriminate|]. intros (m & _ & [] & _).
  - cbn [map]. destruct (@py_maxR_ok (Q c0 x) (map (fun p => Q p x) cs)) as (best & -> & B1 & B2). cbn [bind].
    destruct found as [m|]; [|split; [discriminate|]; intros (m & E & _); discriminate].
    destruct (@dict_get_all V d (fun k o => qual o x = Q k x) (fun k o h => Hd k o h x) m) as [A1 A2]. rewrite Hk in A1, A2.
    destruct (in_dec (list_eq_dec Nat.eq_dec) m (c0 :: cs)) as [Hm|Hm].
    + destruct (A1 Hm) as (o & -> & Eo). cbn [bind]. rewrite Eo. unfold assert_almost_equal.
      assert (Hle : Q m x <= best) by (apply B2; change (Q c0 x :: map (fun p => Q p x) cs) with (map (fun p => Q p x) (c0 :: cs)); apply (in_map (fun p => Q p x)); auto).
      rewrite Rabs_right by lra. unfold Rleb. destruct (Rle_dec _ _) as [L|L].
      * split; auto. intros _. exists m. split; auto. split; auto. intros c Hc. assert (Q c x <= best); [|lra].
        apply B2. change (Q c0 x :: map (fun p => Q p x) cs) with (map (fun p => Q p x) (c0 :: cs)). apply (in_map (fun p => Q p x)). auto.
      * split; [discriminate|]. intros (m' & E & _ & H). assert (m' = m) by congruence. subst m'. exfalso.
        change (Q c0 x :: map (fun p => Q p x) cs) with (map (fun p => Q p x) (c0 :: cs)) in B1. apply in_map_iff in B1 as (c & E1 & E2). specialize (H c E2). lra.
    + rewrite (A2 Hm). cbn [bind]. split; [discriminate|]. intros (m' & E & H & _). assert (m' = m) by congruence. subst m'. contradiction.
Qed.

Lemma check_body_raises found x : parts <> [] -> (forall m, found = Some m -> In m parts) -> check_body found x <> Ok tt -> check_body found x = Raise AssertionError.
Proof.
  unfold check_body. rewrite qualities_ok. cbn [bind]. intros Hne Hf. destruct parts as [|c0 cs] eqn:Ep; [congruence|].
  cbn [map]. destruct (@py_maxR_ok (Q c0 x) (map (fun p => Q p x) cs)) as (best & -> & B1 & B2). cbn [bind].
  destruct found as [m|]; auto.
  destruct (@dict_get_all V d (fun k o => qual o x = Q k x) (fun k o h => Hd k o h x) m) as [A1 _]. rewrite Hk in A1.
  destruct (A1 (Hf m eq_refl)) as (o & -> & Eo). cbn [bind]. unfold assert_almost_equal. destruct (Rleb _ _); congruence.
Qed.
End Check.
