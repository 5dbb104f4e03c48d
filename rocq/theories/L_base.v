(** Lemmas about PyBase. *)
From Verif Require Import PyBase.
From Coq Require Import Sorted.
Set Implicit Arguments.

Lemma bind_ok {A B} (r : res A) (f : A -> res B) b :
  bind r f = Ok b <-> exists a, r = Ok a /\ f a = Ok b.
Proof.
  destruct r; simpl; split; intros H; eauto; try discriminate.
  - destruct H as (a' & Ha & Hf). inversion Ha; subst; auto.
  - destruct H as (a' & Ha & _); discriminate.
Qed.

Lemma mapM_ok {A B} (f : A -> res B) (g : A -> B) l :
  (forall x, In x l -> f x = Ok (g x)) -> mapM f l = Ok (map g l).
Proof.
  induction l as [|x l IH]; simpl; intros H; auto.
  rewrite H by auto. simpl. rewrite IH by auto. reflexivity.
Qed.

Lemma mapM_inv {A B} (f : A -> res B) l l' :
  mapM f l = Ok l' -> Forall2 (fun x y => f x = Ok y) l l'.
Proof.
  revert l'; induction l as [|x l IH]; simpl; intros l' H.
  - inversion H; constructor.
  - apply bind_ok in H as (y & Hy & H). apply bind_ok in H as (ys & Hys & H).
    inversion H; subst. constructor; auto.
Qed.

Lemma mapM_ext {A B} (f g : A -> res B) l :
  (forall x, In x l -> f x = g x) -> mapM f l = mapM g l.
Proof.
  induction l as [|x l IH]; simpl; intros H; auto.
  rewrite H by auto. rewrite IH by auto. reflexivity.
Qed.

Lemma mapM_length {A B} (f : A -> res B) l l' : mapM f l = Ok l' -> length l' = length l.
Proof. intros H. apply mapM_inv in H. induction H; simpl; auto. Qed.

Lemma mapM_app {A B} (f : A -> res B) l1 l2 :
  mapM f (l1 ++ l2) = (let! a := mapM f l1 in let! b := mapM f l2 in Ok (a ++ b)).
Proof.
  induction l1 as [|x l1 IH]; simpl.
  - destruct (mapM f l2); reflexivity.
  - rewrite IH. destruct (f x); simpl; auto. destruct (mapM f l1); simpl; auto.
    destruct (mapM f l2); reflexivity.
Qed.

Lemma foldM_ok {A S} (f : S -> A -> res S) (g : S -> A -> S) l : forall s,
  (forall s x, In x l -> f s x = Ok (g s x)) -> foldM f l s = Ok (fold_left g l s).
Proof.
  induction l as [|x l IH]; simpl; intros s H; auto.
  rewrite H by auto. simpl. apply IH. auto.
Qed.

Lemma py_get_ok {A} (l : list A) i d : i < length l -> py_get l i = Ok (nth i l d).
Proof. intros H. unfold py_get. rewrite (nth_error_nth' l d H). reflexivity. Qed.

Lemma py_get_inv {A} (l : list A) i a : py_get l i = Ok a -> nth_error l i = Some a.
Proof. unfold py_get. destruct (nth_error l i); intros H; inversion H; auto. Qed.

Lemma py_get_err {A} (l : list A) i : length l <= i -> py_get l i = Raise IndexError.
Proof. intros H. unfold py_get. rewrite (proj2 (nth_error_None l i)); auto. Qed.

(** ** Sorting *)
Section Sort.
  Context {A : Type} (leb : A -> A -> bool).

  Lemma insert_by_perm a l : Permutation (insert_by leb a l) (a :: l).
  Proof.
    induction l as [|b l IH]; simpl; auto.
    destruct (leb a b); auto.
    rewrite IH. apply perm_swap.
  Qed.

  Lemma sort_by_perm l : Permutation (sort_by leb l) l.
  Proof.
    induction l as [|a l IH]; simpl; auto.
    rewrite insert_by_perm. constructor; auto.
  Qed.

  Hypothesis leb_total : forall a b, leb a b = false -> leb b a = true.
  Hypothesis leb_trans : forall a b c, leb a b = true -> leb b c = true -> leb a c = true.

  Lemma insert_by_sorted a l :
    StronglySorted (fun x y => leb x y = true) l -> StronglySorted (fun x y => leb x y = true) (insert_by leb a l).
  Proof.
    induction 1 as [|b l Hs IH Hb]; simpl.
    - repeat constructor.
    - destruct (leb a b) eqn:E.
      + constructor; [constructor; auto|]. constructor; auto.
        eapply Forall_impl; [|exact Hb]. intros c Hc. eapply leb_trans; eauto.
      + constructor; auto.
        rewrite Forall_forall. intros x Hx.
        apply (Permutation_in _ (insert_by_perm a l)) in Hx. destruct Hx as [<-|Hx]; auto.
        rewrite Forall_forall in Hb. auto.
  Qed.

  Lemma sort_by_sorted l : StronglySorted (fun x y => leb x y = true) (sort_by leb l).
  Proof. induction l; simpl; [constructor | apply insert_by_sorted; auto]. Qed.
End Sort.

Lemma StronglySorted_nth {A} (P : A -> A -> Prop) l :
  StronglySorted P l -> forall i j a b, i < j -> nth_error l i = Some a -> nth_error l j = Some b -> P a b.
Proof.
  induction 1 as [|x l Hs IH Hx]; intros i j a b Hij Ha Hb.
  - destruct i; discriminate.
  - destruct j as [|j]; [lia|]. simpl in Hb. destruct i as [|i]; simpl in Ha.
    + inversion Ha; subst. rewrite Forall_forall in Hx. apply Hx. eapply nth_error_In; eauto.
    + apply (IH i j); auto; lia.
Qed.

(** ** enumerate *)
Lemma enumerate_from_length {A} (l : list A) i : length (enumerate_from i l) = length l.
Proof. revert i; induction l; simpl; auto. Qed.

Lemma enumerate_from_nth {A} (l : list A) i k :
  nth_error (enumerate_from i l) k = option_map (fun x => (i + k, x)) (nth_error l k).
Proof.
  revert i k; induction l as [|x l IH]; intros i k; destruct k; simpl; auto.
  - rewrite Nat.add_0_r; reflexivity.
  - rewrite IH. destruct (nth_error l k); simpl; auto. repeat f_equal; lia.
Qed.

Lemma enumerate_from_app {A} (l1 l2 : list A) i :
  enumerate_from i (l1 ++ l2) = enumerate_from i l1 ++ enumerate_from (i + length l1) l2.
Proof.
  revert i; induction l1 as [|x l IH]; simpl; intros i.
  - rewrite Nat.add_0_r; auto.
  - rewrite IH. replace (S i + length l) with (i + S (length l)) by lia. reflexivity.
Qed.

Lemma enumerate_from_map_snd {A} (l : list A) i : map snd (enumerate_from i l) = l.
Proof. revert i; induction l; simpl; intros; f_equal; auto. Qed.

Lemma enumerate_from_map_fst {A} (l : list A) i : map fst (enumerate_from i l) = seq i (length l).
Proof. revert i; induction l; simpl; intros; f_equal; auto. Qed.

Lemma in_enumerate_from {A} (l : list A) i k x :
  In (k, x) (enumerate_from i l) <-> i <= k /\ nth_error l (k - i) = Some x.
Proof.
  split.
  - intros H. apply In_nth_error in H as [n H]. rewrite enumerate_from_nth in H.
    destruct (nth_error l n) eqn:E; simpl in H; inversion H; subst. split; [lia|].
    replace (i + n - i) with n by lia. auto.
  - intros [Hk H]. apply nth_error_In with (n := k - i). rewrite enumerate_from_nth, H.
    simpl. repeat f_equal. lia.
Qed.

Lemma in_enumerate {A} (l : list A) k x : In (k, x) (enumerate l) <-> nth_error l k = Some x.
Proof.
  unfold enumerate. rewrite in_enumerate_from. replace (k - 0) with k by lia.
  intuition lia.
Qed.

(** ** Real sums *)
Open Scope R_scope.

Lemma rsum_nil : rsum [] = 0.
Proof. reflexivity. Qed.

Lemma rsum_cons x l : rsum (x :: l) = x + rsum l.
Proof. reflexivity. Qed.

Lemma rsum_app l1 l2 : rsum (l1 ++ l2) = rsum l1 + rsum l2.
Proof. induction l1; simpl; rewrite ?rsum_cons, ?rsum_nil; lra. Qed.

Lemma rsum_perm l1 l2 : Permutation l1 l2 -> rsum l1 = rsum l2.
Proof. induction 1; rewrite ?rsum_cons; try lra; auto. Qed.

Lemma rsum_map_ext {A} (f g : A -> R) l : (forall x, In x l -> f x = g x) -> rsum (map f l) = rsum (map g l).
Proof.
  induction l as [|x l IH]; simpl; intros H; auto.
  rewrite !rsum_cons, H, IH by (simpl; auto). reflexivity.
Qed.

Lemma rsum_map_plus {A} (f g : A -> R) l : rsum (map (fun x => f x + g x) l) = rsum (map f l) + rsum (map g l).
Proof. induction l; simpl; rewrite ?rsum_cons, ?rsum_nil; lra. Qed.

Lemma rsum_map_minus {A} (f g : A -> R) l : rsum (map (fun x => f x - g x) l) = rsum (map f l) - rsum (map g l).
Proof. induction l; simpl; rewrite ?rsum_cons, ?rsum_nil; lra. Qed.

Lemma rsum_map_scale {A} c (f : A -> R) l : rsum (map (fun x => c * f x) l) = c * rsum (map f l).
Proof. induction l; simpl; rewrite ?rsum_cons, ?rsum_nil; lra. Qed.

Lemma rsum_map_scale_r {A} c (f : A -> R) l : rsum (map (fun x => f x * c) l) = rsum (map f l) * c.
Proof. induction l; simpl; rewrite ?rsum_cons, ?rsum_nil; lra. Qed.

Lemma rsum_map_0 {A} (f : A -> R) l : (forall x, In x l -> f x = 0) -> rsum (map f l) = 0.
Proof.
  induction l as [|x l IH]; simpl; intros H; auto.
  rewrite rsum_cons, H, IH by (simpl; auto). lra.
Qed.

Lemma rsum_map_nonneg {A} (f : A -> R) l : (forall x, In x l -> 0 <= f x) -> 0 <= rsum (map f l).
Proof.
  induction l as [|x l IH]; simpl; intros H; [rewrite rsum_nil; lra|].
  rewrite rsum_cons. assert (0 <= f x) by auto. assert (0 <= rsum (map f l)) by auto. lra.
Qed.

Lemma rsum_map_le {A} (f g : A -> R) l : (forall x, In x l -> f x <= g x) -> rsum (map f l) <= rsum (map g l).
Proof.
  induction l as [|x l IH]; simpl; intros H; [lra|].
  rewrite !rsum_cons. assert (f x <= g x) by auto. assert (rsum (map f l) <= rsum (map g l)) by auto. lra.
Qed.

Lemma rsum_map_pos {A} (f : A -> R) l x :
  (forall y, In y l -> 0 <= f y) -> In x l -> 0 < f x -> 0 < rsum (map f l).
Proof.
  induction l as [|y l IH]; simpl; intros H Hin Hx; [tauto|].
  rewrite rsum_cons. destruct Hin as [<-|Hin].
  - assert (0 <= rsum (map f l)) by (apply rsum_map_nonneg; auto). lra.
  - assert (0 <= f y) by auto. specialize (IH (fun z Hz => H z (or_intror Hz)) Hin Hx). lra.
Qed.

Lemma rsum_swap {A B} (f : A -> B -> R) l1 l2 :
  rsum (map (fun x => rsum (map (f x) l2)) l1) = rsum (map (fun y => rsum (map (fun x => f x y) l1)) l2).
Proof.
  induction l1 as [|x l1 IH]; simpl.
  - symmetry. apply rsum_map_0. reflexivity.
  - rewrite rsum_cons, IH, <- rsum_map_plus. apply rsum_map_ext. reflexivity.
Qed.

Lemma INR_list_sum l : INR (list_sum l) = rsum (map INR l).
Proof. induction l; simpl; auto. rewrite plus_INR, IHl. reflexivity. Qed.

Lemma rsum_filter {A} (p : A -> bool) (f : A -> R) l :
  rsum (map f (filter p l)) = rsum (map (fun x => if p x then f x else 0) l).
Proof.
  induction l as [|x l IH]; simpl; auto.
  destruct (p x); simpl; rewrite ?rsum_cons, IH; lra.
Qed.

Lemma rsum_flat_map {A B} (f : A -> list B) (g : B -> R) l :
  rsum (map g (flat_map f l)) = rsum (map (fun x => rsum (map g (f x))) l).
Proof. induction l; simpl; auto. rewrite map_app, rsum_app, rsum_cons, IHl. reflexivity. Qed.

Lemma fold_left_Rmax_ge l : forall x, x <= fold_left Rmax l x /\ forall y, In y l -> y <= fold_left Rmax l x.
Proof.
  induction l as [|a l IH]; simpl; intros x; [split; [lra|tauto]|].
  destruct (IH (Rmax x a)) as [H1 H2]. pose proof (Rmax_l x a). pose proof (Rmax_r x a).
  split; [lra|]. intros y [<-|Hy]; [lra|auto].
Qed.

Lemma fold_left_Rmax_in l : forall x, fold_left Rmax l x = x \/ In (fold_left Rmax l x) l.
Proof.
  induction l as [|a l IH]; simpl; intros x; auto.
  destruct (IH (Rmax x a)) as [H|H]; auto. rewrite H.
  unfold Rmax. destruct (Rle_dec x a); auto.
Qed.

Lemma fold_left_Rmin_le l : forall x, fold_left Rmin l x <= x /\ forall y, In y l -> fold_left Rmin l x <= y.
Proof.
  induction l as [|a l IH]; simpl; intros x; [split; [lra|tauto]|].
  destruct (IH (Rmin x a)) as [H1 H2]. pose proof (Rmin_l x a). pose proof (Rmin_r x a).
  split; [lra|]. intros y [<-|Hy]; [lra|auto].
Qed.

Lemma fold_left_Rmin_in l : forall x, fold_left Rmin l x = x \/ In (fold_left Rmin l x) l.
Proof.
  induction l as [|a l IH]; simpl; intros x; auto.
  destruct (IH (Rmin x a)) as [H|H]; auto. rewrite H.
  unfold Rmin. destruct (Rle_dec x a); auto.
Qed.

Lemma py_maxR_spec l t : py_maxR l = Ok t <-> In t l /\ forall y, In y l -> y <= t.
Proof.
  destruct l as [|x l]; simpl.
  - split; [discriminate | intros [[] _]].
  - pose proof (fold_left_Rmax_ge l x) as [H1 H2]. pose proof (fold_left_Rmax_in l x) as H3.
    split.
    + intros H; inversion H; subst; clear H. split.
      * destruct H3 as [H3|H3]; auto.
      * intros y [<-|Hy]; auto.
    + intros [Hin Hmax]. f_equal. apply Rle_antisym.
      * destruct H3 as [H3|H3]; [rewrite H3|]; apply Hmax; auto.
      * destruct Hin as [<-|Hin]; auto.
Qed.

Lemma py_minR_spec l t : py_minR l = Ok t <-> In t l /\ forall y, In y l -> t <= y.
Proof.
  destruct l as [|x l]; simpl.
  - split; [discriminate | intros [[] _]].
  - pose proof (fold_left_Rmin_le l x) as [H1 H2]. pose proof (fold_left_Rmin_in l x) as H3.
    split.
    + intros H; inversion H; subst; clear H. split.
      * destruct H3 as [H3|H3]; auto.
      * intros y [<-|Hy]; auto.
    + intros [Hin Hmin]. f_equal. apply Rle_antisym.
      * destruct Hin as [<-|Hin]; auto.
      * destruct H3 as [H3|H3]; [rewrite H3|]; apply Hmin; auto.
Qed.

Lemma Rleb_true a b : Rleb a b = true <-> a <= b.
Proof. unfold Rleb; destruct (Rle_dec a b); intuition discriminate. Qed.
Lemma Rltb_true a b : Rltb a b = true <-> a < b.
Proof. unfold Rltb; destruct (Rlt_dec a b); intuition discriminate. Qed.
Lemma Reqb_true a b : Reqb a b = true <-> a = b.
Proof. unfold Reqb; destruct (Req_EM_T a b); intuition discriminate. Qed.

Close Scope R_scope.

(** ** Maximum of naturals *)
Lemma fold_left_max_ge l : forall x, x <= fold_left Nat.max l x /\ forall y, In y l -> y <= fold_left Nat.max l x.
Proof.
  induction l as [|a l IH]; simpl; intros x; [split; [lia|tauto]|].
  destruct (IH (Nat.max x a)) as [H1 H2]. split; [lia|]. intros y [<-|Hy]; [lia|auto].
Qed.
Lemma fold_left_max_in l : forall x, fold_left Nat.max l x = x \/ In (fold_left Nat.max l x) l.
Proof.
  induction l as [|a l IH]; simpl; intros x; auto.
  destruct (IH (Nat.max x a)) as [H|H]; auto. rewrite H.
  destruct (Nat.max_spec x a) as [[? ->]|[? ->]]; auto.
Qed.
Lemma py_max_spec l m : py_max l = Ok m <-> In m l /\ forall y, In y l -> y <= m.
Proof.
  destruct l as [|x l]; simpl.
  - split; [discriminate | intros [[] _]].
  - pose proof (fold_left_max_ge l x) as [H1 H2]. pose proof (fold_left_max_in l x) as H3.
    split.
    + intros H; inversion H; subst; clear H. split.
      * destruct H3 as [H3|H3]; auto.
      * intros y [<-|Hy]; auto.
    + intros [Hin Hmax]. f_equal. apply Nat.le_antisymm.
      * destruct H3 as [H3|H3]; [rewrite H3|]; apply Hmax; auto.
      * destruct Hin as [<-|Hin]; auto.
Qed.

Lemma py_max_nonempty l : l <> [] -> exists m, py_max l = Ok m.
Proof. destruct l; simpl; [congruence | eauto]. Qed.

(** ** In-place updates *)
Lemma py_update_ok {A} (f : A -> A) d : forall (l : list A) i, i < length l ->
  exists l', py_update l i f = Ok l' /\ length l' = length l /\
    forall j, nth j l' d = if Nat.eq_dec i j then f (nth j l d) else nth j l d.
Proof.
  induction l as [|x l IH]; intros i Hi; [simpl in Hi; lia|].
  destruct i as [|i]; simpl.
  - eexists; split; [reflexivity|]. split; auto. intros [|j]; simpl; auto.
  - destruct (IH i) as (l' & -> & Hl & Hn); [simpl in Hi; lia|]. simpl.
    eexists; split; [reflexivity|]. split; [simpl; auto|]. intros [|j]; simpl; auto.
    rewrite Hn. destruct (Nat.eq_dec i j), (Nat.eq_dec (S i) (S j)); auto; congruence.
Qed.
