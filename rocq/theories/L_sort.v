(** Stable insertion sort. *)
From Verif Require Import PyBase L_base.
From Coq Require Import Sorted.
Set Implicit Arguments.

Section Sort.
Context {A : Type} (leb : A -> A -> bool).

Lemma insert_by_perm a l : Permutation (insert_by leb a l) (a :: l).
Proof.
  induction l as [|b l IH]; simpl; auto. destruct (leb a b); auto.
  rewrite IH. apply perm_swap.
Qed.
Lemma sort_by_perm l : Permutation (sort_by leb l) l.
Proof. induction l as [|a l IH]; simpl; auto. rewrite insert_by_perm, IH. auto. Qed.

Lemma insert_by_in a l x : In x (insert_by leb a l) <-> x = a \/ In x l.
Proof.
  split; intros H.
  - apply (Permutation_in _ (insert_by_perm a l)) in H. simpl in H. intuition.
  - apply (Permutation_in _ (Permutation_sym (insert_by_perm a l))). simpl. intuition.
Qed.

Hypothesis total : forall a b, leb a b = true \/ leb b a = true.
Hypothesis trans : forall a b c, leb a b = true -> leb b c = true -> leb a c = true.

Lemma insert_by_sorted a l : StronglySorted (fun x y => leb x y = true) l ->
  StronglySorted (fun x y => leb x y = true) (insert_by leb a l).
Proof.
  induction 1 as [|b l Hl IH Hb]; simpl; [repeat constructor|].
  destruct (leb a b) eqn:E.
  - constructor; [constructor; auto|]. constructor; auto.
    rewrite Forall_forall in *. intros x Hx. eauto.
  - constructor; auto. rewrite Forall_forall in *. intros x Hx. apply insert_by_in in Hx as [->|Hx]; auto.
    destruct (total a b); congruence.
Qed.
Lemma sort_by_sorted l : StronglySorted (fun x y => leb x y = true) (sort_by leb l).
Proof. induction l as [|a l IH]; simpl; [constructor|]. apply insert_by_sorted; auto. Qed.
End Sort.

Lemma Rleb_total (f : R -> R) a b : Rleb (f a) (f b) = true \/ Rleb (f b) (f a) = true.
Proof. rewrite !Rleb_true. lra. Qed.

Lemma sort_by_key {A} (key : A -> R) l :
  Permutation (sort_by (fun a b => Rleb (key a) (key b)) l) l /\
  StronglySorted (fun a b => (key a <= key b)%R) (sort_by (fun a b => Rleb (key a) (key b)) l).
Proof.
  split; [apply sort_by_perm|].
  assert (H : StronglySorted (fun a b => Rleb (key a) (key b) = true) (sort_by (fun a b => Rleb (key a) (key b)) l)).
  { apply (sort_by_sorted (fun a b => Rleb (key a) (key b))).
    - intros a b. rewrite !Rleb_true. lra.
    - intros a b c. rewrite !Rleb_true. lra. }
  induction H as [|a l' Hl IH Ha]; constructor; auto.
  rewrite Forall_forall in *. intros x Hx. apply Rleb_true. auto.
Qed.
