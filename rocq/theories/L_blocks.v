(** The hierarchical block model, and the random graphs and partitions of the tests. *)
From Coq Require Import Permutation.
From Verif Require Import PyBase PyGraph M_partition M_champ M_leiden M_estimation_utils M_generators Spec_graph Spec_sbm Spec_multisbm Spec_check Spec_valid Spec_generators
  L_base L_multisbm L_copying L_generators L_generators2 L_lazega.
Set Implicit Arguments.
Open Scope nat_scope.

(** The loops that draw again until satisfied. *)
Lemma retry_ok {A} (draw : nat -> res A) ok fuel : forall k x, retry draw ok k fuel = Some (Ok x) ->
  exists j, k <= j < k + fuel /\ draw j = Ok x /\ ok x = true /\ forall i, k <= i < j -> exists y, draw i = Ok y /\ ok y = false.
Proof.
  induction fuel as [|fuel IH]; intros k x H; [discriminate|]. cbn [retry] in H. destruct (draw k) as [y|e] eqn:D; [|discriminate]. destruct (ok y) eqn:O.
  - injection H as <-. exists k. split; [lia|]. split; auto. split; auto. intros i Hi. lia.
  - apply IH in H. destruct H as (j & Hj & H1 & H2 & H3). exists j. split; [lia|]. split; auto. split; auto. intros i Hi.
    destruct (Nat.eq_dec i k) as [->|N]; [exists y; auto|]. apply H3. lia.
Qed.
Lemma retry_raise {A} (draw : nat -> res A) ok fuel : forall k e, retry draw ok k fuel = Some (Raise e) -> exists j, k <= j < k + fuel /\ draw j = Raise e.
Proof.
  induction fuel as [|fuel IH]; intros k e H; [discriminate|]. cbn [retry] in H. destruct (draw k) as [y|e'] eqn:D; [|injection H as <-; exists k; split; [lia|auto]].
  destruct (ok y); [discriminate|]. apply IH in H. destruct H as (j & Hj & H). exists j. split; [lia|auto].
Qed.
Lemma retry_none {A} (draw : nat -> res A) ok fuel : forall k, (forall i, k <= i < k + fuel -> exists y, draw i = Ok y /\ ok y = false) <-> retry draw ok k fuel = None.
Proof.
  induction fuel as [|fuel IH]; intros k; cbn [retry]; split; auto; try (intros _ i Hi; lia).
  - intros H. destruct (H k) as (y & D & O); [lia|]. rewrite D, O. apply IH. intros i Hi. apply H. lia.
  - destruct (draw k) as [y|e] eqn:D; [|discriminate]. destruct (ok y) eqn:O; [discriminate|]. intros H i Hi. destruct (Nat.eq_dec i k) as [->|N]; [exists y; auto|].
    apply (proj2 (IH (S k)) H). lia.
Qed.
Lemma retry_first {A} (draw : nat -> res A) ok fuel k j x : k <= j < k + fuel -> draw j = Ok x -> ok x = true ->
  (forall i, k <= i < j -> exists y, draw i = Ok y /\ ok y = false) -> retry draw ok k fuel = Some (Ok x).
Proof.
  revert k. induction fuel as [|fuel IH]; intros k Hj D O H; [lia|]. cbn [retry]. destruct (Nat.eq_dec j k) as [->|N]; [rewrite D, O; auto|].
  destruct (H k) as (y & D' & O'); [lia|]. rewrite D', O'. apply IH; auto; [lia|]. intros i Hi. apply H. lia.
Qed.

(** Sums of a constant over the vertices with some property. *)
Lemma sum_indicator N (P : nat -> bool) p : sum_to N (fun u => if P u then p else 0%R) = (INR (length (filter P (seq 0 N))) * p)%R.
Proof.
  change (sum_to N (fun u => if P u then p else 0%R)) with (rsum (map (fun u => if P u then p else 0%R) (seq 0 N))). generalize (seq 0 N). induction l as [|x l IH]; [cbn; rewrite rsum_nil; lra|].
  cbn [map filter]. rewrite rsum_cons, IH. destruct (P x); cbn [length]; [rewrite S_INR|]; lra.
Qed.
Lemma filter_block n T t : t < T -> length (filter (fun i => Nat.eqb (i / n) t) (seq 0 (n * T))) = n.
Proof.
  intros H. rewrite <- (@nodes_in_lv n T t H) at 2. generalize (seq 0 (n * T)). induction l as [|x l IH]; auto. cbn [filter map count_occ].
  destruct (Nat.eqb_spec (x / n) t), (Nat.eq_dec (x / n) t); cbn [length]; congruence.
Qed.
Lemma filter_minus {A} (a b : A -> bool) l : (forall x, b x = true -> a x = true) -> length (filter a l) = length (filter b l) + length (filter (fun x => a x && negb (b x)) l).
Proof.
  intros H. induction l as [|x l IH]; auto. cbn [filter]. specialize (H x). destruct (a x), (b x); cbn [andb negb length]; try lia; try (specialize (H eq_refl); discriminate).
Qed.
Lemma filter_not {A} (a : A -> bool) l : length l = length (filter a l) + length (filter (fun x => negb (a x)) l).
Proof. induction l as [|x l IH]; auto. cbn [filter]. destruct (a x); cbn [negb length]; lia. Qed.
