(** Property theorems about the stability filters: C38, C39. *)
From Verif Require Import PyBase PyGraph M_partition M_champ M_estimation_utils Spec Spec_graph Spec_champ Spec_polygon Spec_stability
  L_base L_modularity L_angular L_stability L_prune L_complete.
From Coq Require Import Classical.
Open Scope R_scope.

(** ** C38: exactly the memberships whose estimate is a number within their own closed range, in input order. *)
Theorem C38_single_layer_filter : forall estimates,
  selects (fun x => exists v, snd x = Some (Fin v) /\ fst (fst (fst x)) <= v <= snd (fst (fst x))) (fun x => snd (fst x))
    estimates (gamma_estimates_to_stable_partitions estimates).
Proof. intros l. apply selects_filter. intros x _. apply within_iff. Qed.
Print Assumptions C38_single_layer_filter.

(** [selects] determines the result. *)
Theorem C38_determined : forall {A B} (P : A -> Prop) (f : A -> B) l k1 k2, selects P f l k1 -> selects P f l k2 -> k1 = k2.
Proof. intros A B. exact (@selects_unique A B). Qed.
Print Assumptions C38_determined.

Example C38_example : gamma_estimates_to_stable_partitions
  [(0, 1, [0; 1]%nat, Some (Fin 1)); (1, 2, [0; 0]%nat, Some (Fin (1 / 2))); (2, 3, [1; 0]%nat, None); (3, 4, [1; 1]%nat, Some NonFinite);
   (0, 0, [2]%nat, Some (Fin 0))] = [[0; 1]; [2]]%nat.
Proof.
  eapply C38_determined; [apply C38_single_layer_filter|].
  apply (@sel_keep _ _ _ (fun x : R * R * list nat * option npf => snd (fst x)) (0, 1, [0; 1]%nat, Some (Fin 1))); [exists 1; cbn; split; [auto|lra]|].
  apply sel_drop; [intros (v & E & H); cbn in *; inversion E; subst; lra|]. apply sel_drop; [intros (v & E & _); discriminate|]. apply sel_drop; [intros (v & E & _); discriminate|].
  apply (@sel_keep _ _ _ (fun x : R * R * list nat * option npf => snd (fst x)) (0, 0, [2]%nat, Some (Fin 0))); [exists 0; cbn; split; [auto|lra]|]. constructor.
Qed.

(** ** C39: for domains that are convex polygons given in cyclic order, exactly the entries whose (gamma, omega) estimate is
    an interior point of the domain are kept, in order, whatever the number of vertices.  The estimates must be numbers: see
    [C39_nan_is_kept]. *)
Theorem C39_point_in_polygon : forall estimates,
  (forall d, In d estimates -> convex_polygon (fst (fst (fst d))) /\ snd (fst d) <> Some NonFinite) ->
  let stable d := exists gamma omega, snd (fst d) = Some (Fin gamma) /\ snd d = Some omega /\ interior (fst (fst (fst d))) (gamma, omega) in
  selects stable (fun d => d) estimates (stable_domains estimates) /\
  selects stable (fun d => snd (fst (fst d))) estimates (gamma_omega_estimates_to_stable_partitions estimates).
Proof.
  intros l H stable.
  assert (G : forall d, In d l -> (is_stable d = true <-> stable d)).
  { intros d Hd. destruct (H d Hd) as [Hc Hn]. unfold stable. destruct d as [[[poly c] [[x|]|]] [o|]]; cbn [fst snd is_stable] in *.
    - rewrite stable_convex by auto. split; [intros; exists x, o; auto|]. intros (x' & o' & E1 & E2 & I). inversion E1; inversion E2; subst; auto.
    - split; [discriminate|]. intros (x' & o' & E1 & E2 & I). discriminate.
    - congruence.
    - congruence.
    - split; [discriminate|]. intros (x' & o' & E1 & E2 & I). discriminate.
    - split; [discriminate|]. intros (x' & o' & E1 & E2 & I). discriminate. }
  split.
  - unfold stable_domains. rewrite <- (map_id (filter is_stable l)). apply selects_filter. auto.
  - unfold gamma_omega_estimates_to_stable_partitions, stable_domains. apply selects_filter. auto.
Qed.
Print Assumptions C39_point_in_polygon.

(** Points on a side or at a vertex of a convex polygon are not interior, points inside are convex combinations. *)
Theorem C39_boundary_is_not_interior : forall poly p q x, convex_polygon poly -> follows poly p q -> orient p q x = 0 -> ~ interior poly x.
Proof.
  intros poly p q x Hc Hf Hz Hi. destruct x as [a b]. apply stable_convex in Hi; auto. destruct Hc as (L & Nd & [H|H]).
  - pose proof (proj1 (@test_convex poly (-1) (or_intror eq_refl) L Nd ltac:(intros p' q' r A B C D; specialize (H p' q' r A B C D); lra) a b) Hi) as T.
    destruct (follows_index Hf) as (i & Hi' & -> & ->). specialize (T i Hi'). lra.
  - pose proof (proj1 (@test_convex poly 1 (or_introl eq_refl) L Nd ltac:(intros p' q' r A B C D; specialize (H p' q' r A B C D); lra) a b) Hi) as T.
    destruct (follows_index Hf) as (i & Hi' & -> & ->). specialize (T i Hi'). lra.
Qed.
Print Assumptions C39_boundary_is_not_interior.
Theorem C39_interior_is_inside : forall poly x, interior poly x -> in_polygon poly x.
Proof. intros poly x (e & He & H). apply H; rewrite Rminus_eq_0, Rabs_R0; auto. Qed.
Print Assumptions C39_interior_is_inside.

(** Without convex position: for vertices in the order of CHAMP_3D (clockwise around their mean) a kept numeric estimate is
    a convex combination of the vertices, unless every side's line passes through the mean. *)
Theorem C39_kept_is_inside : forall poly c gamma omega,
  (forall p q, follows poly p q -> orient p q (barycentre poly) <= 0) -> nondegenerate poly ->
  stable_domains [(poly, c, Some (Fin gamma), Some omega)] <> [] -> in_polygon poly (gamma, omega).
Proof.
  intros poly c x o H1 H2 H. unfold stable_domains in H. cbn [filter is_stable] in H. destruct (same_side poly (Fin x) o) eqn:E; [|congruence]. apply stable_in_polygon; auto.
Qed.
Print Assumptions C39_kept_is_inside.

(** A nan gamma estimate is kept with every polygon (all comparisons are False). *)
Theorem C39_nan_is_kept : forall poly c omega, stable_domains [(poly, c, Some NonFinite, Some omega)] = [(poly, c, Some NonFinite, Some omega)].
Proof. intros. unfold stable_domains. cbn [filter is_stable]. rewrite same_side_nan. reflexivity. Qed.
Print Assumptions C39_nan_is_kept.

(** Degenerate domains: with one vertex everything is kept, with two whatever is on the line through them. *)
Theorem C39_degenerate : forall p q c gamma omega,
  stable_domains [([p], c, Some (Fin gamma), Some omega)] <> [] /\
  (p <> q -> (stable_domains [([p; q], c, Some (Fin gamma), Some omega)] <> [] <-> orient p q (gamma, omega) = 0)).
Proof.
  intros p q c x o. split.
  - unfold stable_domains. cbn [filter is_stable]. destruct (same_side [p] (Fin x) o) eqn:E; [discriminate|]. exfalso.
    assert (same_side [p] (Fin x) o = true); [|congruence]. apply same_side_iff. left. intros i Hi. assert (i = 0)%nat by (cbn in Hi; lia). subst. unfold side. cbn. rewrite orient_same. lra.
  - intros N. unfold stable_domains. cbn [filter is_stable].
    assert (B : forall r s, (r = p \/ r = q) -> (s = p \/ s = q) -> orient r s (barycentre [p; q]) = 0).
    { intros r s Hr Hs. unfold orient, barycentre. cbn [map length fst snd]. rewrite !rsum_cons, !rsum_nil. destruct Hr as [-> | ->], Hs as [-> | ->]; cbn; field. }
    assert (E : same_side [p; q] (Fin x) o = true <-> orient p q (x, o) = 0).
    { rewrite same_side_iff. assert (S0 : side [p; q] (x, o) 0 = - orient p q (x, o)).
      { unfold side, side_sign, next. cbn [length]. change ((0 + 1) mod 2)%nat with 1%nat. cbn [nth]. rewrite B by auto. destruct (Rle_dec 0 0); [|lra]. ring. }
      assert (S1 : side [p; q] (x, o) 1 = orient p q (x, o)).
      { unfold side, side_sign, next. cbn [length]. change ((1 + 1) mod 2)%nat with 0%nat. cbn [nth]. rewrite B by auto. destruct (Rle_dec 0 0); [|lra]. rewrite orient_swap. ring. }
      split.
      - intros [H|H]; pose proof (H 0%nat ltac:(cbn; lia)); pose proof (H 1%nat ltac:(cbn; lia)); lra.
      - intros Z. left. intros i Hi. destruct i as [|[|i]]; [rewrite S0; lra|rewrite S1; lra|cbn in Hi; lia]. }
    destruct (same_side [p; q] (Fin x) o).
    + split; intros H; [apply E; auto|discriminate].
    + split; intros H; [congruence|]. apply E in H. discriminate.
Qed.
Print Assumptions C39_degenerate.

(** The unit square, clockwise, is a convex polygon; its middle is kept, the middle of a side and an outer point are not. *)
Definition square : list (R * R) := [(0, 0); (0, 1); (1, 1); (1, 0)].
Lemma square_follows p q : follows square p q -> (p, q) = ((0, 0), (0, 1)) \/ (p, q) = ((0, 1), (1, 1)) \/ (p, q) = ((1, 1), (1, 0)) \/ (p, q) = ((1, 0), (0, 0)).
Proof. intros H. apply follows_index in H as (i & Hi & -> & ->). unfold next. cbn [length square] in *. do 4 (destruct i as [|i]; [cbn; auto|]). lia. Qed.
Lemma square_convex : convex_polygon square.
Proof.
  split; [cbn; lia|]. split.
  - unfold square. repeat constructor; cbn [In]; intros H; repeat destruct H as [H|H]; auto; inversion H; lra.
  - left. intros p q r Hf Hr N1 N2. unfold orient. apply square_follows in Hf as [E|[E|[E|E]]]; inversion E; subst; destruct Hr as [<-|[<-|[<-|[<-|[]]]]]; try congruence; cbn [fst snd]; lra.
Qed.
Example C39_example : gamma_omega_estimates_to_stable_partitions
  [(square, [0]%nat, Some (Fin (1 / 2)), Some (1 / 2)); (square, [1]%nat, Some (Fin 0), Some (1 / 2)); (square, [2]%nat, Some (Fin 2), Some (1 / 2)); (square, [3]%nat, None, Some (1 / 2))] = [[0]]%nat.
Proof.
  assert (S : forall x y, interior square (x, y) <-> 0 < x < 1 /\ 0 < y < 1).
  { intros x y. destruct square_convex as (L & Nd & H). rewrite <- (stable_convex _ _ (conj L (conj Nd H))).
    assert (H' : forall p q r, follows square p q -> In r square -> r <> p -> r <> q -> 0 < -1 * orient p q r).
    { intros p q r Hf Hr N1 N2. unfold orient. apply square_follows in Hf as [E|[E|[E|E]]]; inversion E; subst; destruct Hr as [<-|[<-|[<-|[<-|[]]]]]; try congruence; cbn [fst snd]; lra. }
    rewrite (@test_convex square (-1) (or_intror eq_refl) L Nd H'). split.
    - intros T. pose proof (T 0%nat ltac:(cbn; lia)) as T0. pose proof (T 1%nat ltac:(cbn; lia)) as T1. pose proof (T 2%nat ltac:(cbn; lia)) as T2. pose proof (T 3%nat ltac:(cbn; lia)) as T3.
      unfold orient, next in *. cbn in T0, T1, T2, T3. lra.
    - intros [Hx Hy] i Hi. unfold orient, next. cbn in Hi. do 4 (destruct i as [|i]; [cbn; lra|]). lia. }
  destruct (C39_point_in_polygon
    [(square, [0]%nat, Some (Fin (1 / 2)), Some (1 / 2)); (square, [1]%nat, Some (Fin 0), Some (1 / 2)); (square, [2]%nat, Some (Fin 2), Some (1 / 2)); (square, [3]%nat, None, Some (1 / 2))]) as [_ H].
  { intros d [<-|[<-|[<-|[<-|[]]]]]; split; try apply square_convex; discriminate. }
  eapply C38_determined; [apply H|].
  apply (@sel_keep _ _ _ (fun d : domain_estimate => snd (fst (fst d))) (square, [0]%nat, Some (Fin (1 / 2)), Some (1 / 2))).
  { exists (1 / 2), (1 / 2). split; auto. split; auto. apply S. lra. }
  repeat (apply sel_drop; [intros (x & y & E1 & E2 & I); cbn in *; inversion E1; inversion E2; subst; apply S in I; lra|]). constructor.
Qed.
