(** Lemmas for the loop experiments. *)
From Verif Require Import PyBase PyGraph M_partition M_champ M_estimation_utils M_loops Spec Spec_graph Spec_champ Spec_loops L_base L_champ L_champ2 L_prune.
From Coq Require Import Lia Lra Sorted.
Set Implicit Arguments.
Open Scope R_scope.

Lemma within_fin s e x : within s e (Some (Fin x)) = true <-> s <= x <= e.
Proof. cbn [within]. unfold Rleb. destruct (Rle_dec s x), (Rle_dec x e); cbn [andb]; split; try discriminate; try lra; auto. Qed.

Lemma domain_lands ests x b y : gamma_to_domain ests (Fin x) = (Some b, y) <-> lands ests x b y.
Proof.
  unfold lands. induction ests as [|[[[s e] p] z] ests IH]; cbn [gamma_to_domain].
  - split; [discriminate|]. intros (l1 & s & e & l2 & E & _). destruct l1; discriminate.
  - destruct (within s e (Some (Fin x))) eqn:W.
    + apply within_fin in W. split.
      * intros H. inversion H; subst. exists [], s, e, ests. split; [reflexivity|]. split; auto.
      * intros (l1 & s' & e' & l2 & E & H1 & H2). destruct l1 as [|r l1]; cbn in E; inversion E; subst; [reflexivity|].
        exfalso. eapply H2; [left; reflexivity|auto].
    + assert (W' : ~ (s <= x <= e)) by (intros Q; apply within_fin in Q; congruence). rewrite IH. split.
      * intros (l1 & s' & e' & l2 & -> & H1 & H2). exists ((s, e, p, z) :: l1), s', e', l2. split; [reflexivity|]. split; auto.
        intros s1 e1 b1 y1 [Q|Q]; [inversion Q; subst; auto|eauto].
      * intros (l1 & s' & e' & l2 & E & H1 & H2). destruct l1 as [|r l1]; cbn in E; inversion E; subst; [contradiction|].
        exists l1, s', e', l2. split; auto. split; auto. intros. eapply H2. right; eauto.
Qed.

Lemma domain_nan ests : gamma_to_domain ests NonFinite = (None, None).
Proof. induction ests as [|[[[s e] p] z] ests IH]; [reflexivity|]. cbn [gamma_to_domain within]. auto. Qed.

Lemma domain_some ests x : (exists s e p y, In (s, e, p, y) ests /\ s <= x <= e) -> exists b y, gamma_to_domain ests (Fin x) = (Some b, y).
Proof.
  induction ests as [|[[[s e] p] z] ests IH]; intros (s' & e' & p' & y' & Hin & H); [destruct Hin|]. cbn [gamma_to_domain].
  destruct (within s e (Some (Fin x))) eqn:W; [eauto|]. apply IH. destruct Hin as [Q|Q]; [|eauto 10]. inversion Q; subst. apply within_fin in H. congruence.
Qed.
Lemma domain_none ests x y : gamma_to_domain ests x = (None, y) -> y = None.
Proof. induction ests as [|[[[s e] p] z] ests IH]; cbn [gamma_to_domain]; [congruence|]. destruct (within s e (Some x)); [discriminate|auto]. Qed.

Lemma lands_in ests x b y : lands ests x b y -> exists s e, In (s, e, b, y) ests /\ s <= x <= e.
Proof. intros (l1 & s & e & l2 & -> & H & _). exists s, e. split; auto. apply in_or_app. right. left. auto. Qed.

Lemma same_membership_eq a b : same_membership (Some a) (Some b) = true <-> a = b.
Proof. cbn. destruct (list_eq_dec Nat.eq_dec a b); split; congruence. Qed.

(** two more iterations: a move *)
Lemma keeps_moving_step ests n s e a est : In (s, e, a, est) ests -> keeps_moving ests (S (S n)) (Some a) est = true ->
  exists s' e' b y, In (s', e', b, y) ests /\ leads ests a b /\ a <> b /\ keeps_moving ests (S n) (Some b) y = true.
Proof.
  intros Hin H. remember (S n) as m. cbn [keeps_moving] in H. destruct est as [[x|]|]; try discriminate.
  - destruct (gamma_to_domain ests (Fin x)) as [[b|] y] eqn:E.
    + destruct (same_membership (Some a) (Some b)) eqn:Q; [discriminate|].
      assert (N : a <> b) by (intros ->; rewrite (proj2 (same_membership_eq b b) eq_refl) in Q; discriminate).
      apply domain_lands in E. destruct (lands_in E) as (s' & e' & Hb & _). exists s', e', b, y. split; auto. split; [exists s, e, x, y; auto|]. auto.
    + apply domain_none in E. subst y m. cbn in H. discriminate.
  - rewrite domain_nan in H. subst m. cbn in H. discriminate.
Qed.

Definition members (ests : list range_estimate) : list (list nat) := map (fun r => snd (fst r)) ests.

Lemma path_exists ests : forall n s e a est, In (s, e, a, est) ests -> keeps_moving ests (S n) (Some a) est = true ->
  exists f, f 0%nat = a /\ (forall i, (i <= n)%nat -> In (f i) (members ests)) /\ forall i, (i < n)%nat -> leads ests (f i) (f (S i)) /\ f i <> f (S i).
Proof.
  induction n as [|n IH]; intros s e a est Hin H.
  - exists (fun _ => a). split; auto. split; [|intros; lia]. intros. apply in_map_iff. exists (s, e, a, est). auto.
  - destruct (@keeps_moving_step ests n s e a est Hin H) as (s' & e' & b & y & Hb & L & N & H'). destruct (IH s' e' b y Hb H') as (f & F0 & F1 & F2).
    exists (fun i => match i with 0%nat => a | S i => f i end). split; auto. split.
    + intros [|i] Hi; [apply in_map_iff; exists (s, e, a, est); auto|apply F1; lia].
    + intros [|i] Hi; [rewrite F0; auto|apply F2; lia].
Qed.

Lemma dup_exists (f : nat -> list nat) n : (exists i j, (i < j <= n)%nat /\ f i = f j) \/ NoDup (map f (seq 0 (S n))).
Proof.
  induction n as [|n IH]; [right; cbn; constructor; [intros []|constructor]|]. destruct IH as [(i & j & H & E)|Nd]; [left; exists i, j; split; [lia|auto]|].
  rewrite seq_S, map_app. cbn [map plus]. destruct (in_dec (list_eq_dec Nat.eq_dec) (f (S n)) (map f (seq 0 (S n)))) as [Hin|Hn].
  - left. apply in_map_iff in Hin as (i & E & Hi). apply in_seq in Hi. exists i, (S n). split; [lia|auto].
  - right. rewrite <- (rev_involutive (_ ++ _)). apply NoDup_rev. rewrite rev_app_distr. cbn [rev app]. constructor.
    + rewrite <- in_rev. auto.
    + apply NoDup_rev. auto.
Qed.

Lemma detected_cycle ests s e a est n : In (s, e, a, est) ests -> (length ests <= n)%nat -> keeps_moving ests (S n) (Some a) est = true -> estimates_cycle ests.
Proof.
  intros Hin Hn H. destruct (@path_exists ests n s e a est Hin H) as (f & F0 & F1 & F2). destruct (dup_exists f n) as [(i & j & Hij & E)|Nd].
  - exists (fun t => f (i + t)%nat), (j - i)%nat. split; [lia|]. split; [replace (i + (j - i))%nat with j by lia; rewrite Nat.add_0_r; auto|].
    intros t Ht. replace (i + S t)%nat with (S (i + t)) by lia. apply F2. lia.
  - exfalso. assert (L : (length (map f (seq 0 (S n))) <= length (members ests))%nat).
    { apply NoDup_incl_length; auto. intros x Hx. apply in_map_iff in Hx as (i & <- & Hi). apply in_seq in Hi. apply F1. lia. }
    rewrite map_length, seq_length in L. unfold members in L. rewrite map_length in L. lia.
Qed.

Lemma nodup_members ests s e s' e' a y y' : NoDup (members ests) -> In (s, e, a, y) ests -> In (s', e', a, y') ests -> (s, e, y) = (s', e', y').
Proof.
  unfold members. induction ests as [|r l IH]; intros Nd H H'; [destruct H|]. cbn [map] in Nd. inversion Nd as [|? ? N1 N2]; subst.
  destruct H as [E|H], H' as [E'|H'].
  - subst. inversion E'; auto.
  - exfalso. apply N1. subst r. cbn. apply in_map_iff. exists (s', e', a, y'). auto.
  - exfalso. apply N1. subst r. cbn. apply in_map_iff. exists (s, e, a, y). auto.
  - auto.
Qed.

(** any property of partitions that is preserved by moving keeps moving *)
Lemma keeps_moving_forever ests (P : list nat -> Prop) : NoDup (members ests) ->
  (forall a, P a -> exists b, P b /\ leads ests a b /\ a <> b) ->
  forall n s e a est, P a -> In (s, e, a, est) ests -> keeps_moving ests n (Some a) est = true.
Proof.
  intros Nd HP. induction n as [|n IH]; intros s e a est Ha Hin; [reflexivity|]. cbn [keeps_moving].
  destruct (HP a Ha) as (b & Hb & (s1 & e1 & x & y & Hin' & L) & N). pose proof (@nodup_members ests _ _ _ _ _ _ _ Nd Hin Hin') as E. inversion E; subst.
  rewrite (proj2 (domain_lands _ _ _ _) L). destruct (same_membership (Some a) (Some b)) eqn:Q; [apply same_membership_eq in Q; congruence|].
  destruct (lands_in L) as (s' & e' & Hb' & _). eapply IH; eauto.
Qed.

(** ** Enumerating canonical labellings *)
Fixpoint rgs (k n : nat) : list (list nat) :=
  match n with
  | 0%nat => [[]]
  | S n => flat_map (fun x => map (cons x) (rgs (Nat.max k (S x)) n)) (seq 0 (S k))
  end.

Lemma rgs_complete : forall suf pre k, canonical (pre ++ suf) -> (forall x, In x pre <-> (x < k)%nat) -> In suf (rgs k (length suf)).
Proof.
  induction suf as [|x suf IH]; intros pre k Hc Hk; [left; auto|]. cbn [rgs length]. apply in_flat_map. exists x.
  assert (Hx : (x <= k)%nat).
  { destruct (le_lt_dec x k) as [|L]; auto. exfalso.
    assert (F : occurs_first (pre ++ x :: suf) x (length pre)).
    { split; [rewrite nth_error_app2, Nat.sub_diag by lia; reflexivity|]. intros j Hj Q. rewrite nth_error_app1 in Q by lia. apply nth_error_In in Q. apply Hk in Q. lia. }
    destruct (Hc x _ F k ltac:(lia)) as (i & Hi & [F1 _]). rewrite nth_error_app1 in F1 by lia. apply nth_error_In in F1. apply Hk in F1. lia. }
  split; [apply in_seq; lia|]. apply in_map. apply (IH (pre ++ [x])).
  - rewrite <- app_assoc. exact Hc.
  - intros y. rewrite in_app_iff, Hk. cbn. lia.
Qed.
Lemma rgs_all c : canonical c -> In c (rgs 0 (length c)).
Proof. intros H. apply (rgs_complete c []); auto. intros x. cbn. lia. Qed.

Lemma drops_app l1 l2 : drops l2 = true -> drops (l1 ++ l2) = true.
Proof.
  induction l1 as [|a l1 IH]; intros H; [auto|]. specialize (IH H). cbn [app]. destruct (l1 ++ l2) as [|b l]; [discriminate|].
  cbn [drops] in *. rewrite IH. apply orb_true_r.
Qed.
Lemma drops_smaller : forall l a b, In b l -> (b < a)%nat -> drops (a :: l) = true.
Proof.
  induction l as [|c l IH]; intros a b Hin Hlt; [destruct Hin|]. cbn [drops]. destruct Hin as [->|Hin].
  - apply Nat.ltb_lt in Hlt. rewrite Hlt. reflexivity.
  - destruct (Nat.ltb_spec c a); [reflexivity|]. cbn [orb]. apply (IH c b); auto. lia.
Qed.

Lemma StronglySorted_app_r {A} (P : A -> A -> Prop) l1 l2 : StronglySorted P (l1 ++ l2) -> StronglySorted P l2.
Proof. induction l1 as [|a l1 IH]; intros H; [auto|]. inversion H; auto. Qed.

(** In a finite set, always having somewhere to go means going in a circle. *)
Lemma walk_cycle (l : list (list nat)) (P : list nat -> list nat -> Prop) : l <> [] -> (forall a, In a l -> exists b, In b l /\ P a b) ->
  exists f k, (0 < k)%nat /\ f k = f 0%nat /\ forall i, (i < k)%nat -> In (f i) l /\ P (f i) (f (S i)).
Proof.
  intros Hne HP.
  assert (W : forall n a, In a l -> exists f, f 0%nat = a /\ (forall i, (i <= n)%nat -> In (f i) l) /\ forall i, (i < n)%nat -> P (f i) (f (S i))).
  { induction n as [|n IH]; intros a Ha.
    - exists (fun _ => a). split; auto. split; auto. intros; lia.
    - destruct (HP a Ha) as (b & Hb & Hab). destruct (IH b Hb) as (f & F0 & F1 & F2). exists (fun i => match i with 0%nat => a | S i => f i end). split; auto. split.
      + intros [|i] Hi; [auto|apply F1; lia].
      + intros [|i] Hi; [rewrite F0; auto|apply F2; lia]. }
  destruct l as [|a l0] eqn:E; [congruence|]. rewrite <- E in *. destruct (W (length l) a) as (f & _ & F1 & F2); [rewrite E; left; auto|].
  destruct (dup_exists f (length l)) as [(i & j & Hij & Ef)|Nd].
  - exists (fun t => f (i + t)%nat), (j - i)%nat. split; [lia|]. split; [replace (i + (j - i))%nat with j by lia; rewrite Nat.add_0_r; auto|].
    intros t Ht. replace (i + S t)%nat with (S (i + t)) by lia. split; [apply F1; lia|apply F2; lia].
  - exfalso. assert (L : (length (map f (seq 0 (S (length l)))) <= length l)%nat).
    { apply NoDup_incl_length; auto. intros x Hx. apply in_map_iff in Hx as (i & <- & Hi). apply in_seq in Hi. apply F1. lia. }
    rewrite map_length, seq_length in L. lia.
Qed.

Lemma Forall2_in_r {A B} (P : A -> B -> Prop) l l' b : Forall2 P l l' -> In b l' -> exists a, In a l /\ P a b.
Proof. intros F. induction F as [|x y l l' Hxy F IH]; intros H; [destruct H|]. destruct H as [->|H]; [exists x; split; [left|]; auto|]. destruct (IH H) as (a & H1 & H2). exists a. split; [right|]; auto. Qed.
Lemma Forall2_in_l {A B} (P : A -> B -> Prop) l l' a : Forall2 P l l' -> In a l -> exists b, In b l' /\ P a b.
Proof. intros F. induction F as [|x y l l' Hxy F IH]; intros H; [destruct H|]. destruct H as [->|H]; [exists y; split; [left|]; auto|]. destruct (IH H) as (b & H1 & H2). exists b. split; [right|]; auto. Qed.

Lemma range_members_nodup env g parts gs ge st ranges ests : champ_ok_2D (ee_champ env) g parts -> NoDup parts -> CHAMP_2D (ee_champ env) g parts gs ge st = Ok ranges ->
  Forall2 (estimated_from env g) ranges ests -> NoDup (map (fun x => snd (fst x)) ests).
Proof.
  intros C Nd HR F. destruct (@shape_facts _ _ _ _ _ _ C _ HR) as [_ (idx & Nidx & F2)].
  assert (Nr : NoDup (map snd ranges)).
  { clear - Nidx F2 Nd. induction F2 as [|i r idx ranges Hi F2 IH]; [constructor|]. inversion Nidx; subst. cbn [map]. constructor; auto.
    intros Hin. apply in_map_iff in Hin as (r' & E & Hin). destruct (@Forall2_in_r _ _ _ _ _ _ F2 Hin) as (j & Hj & Ej). rewrite E in Ej. assert (i = j); [|subst; contradiction].
    apply (proj1 (NoDup_nth_error parts) Nd); [|congruence]. apply nth_error_Some. congruence. }
  assert (E3 : map (fun x => snd (fst x)) ests = map snd ranges).
  { clear - F. induction F as [|a b l l' [Hab _] F IH]; [reflexivity|]. cbn [map]. rewrite Hab, IH. reflexivity. }
  rewrite E3. auto.
Qed.
