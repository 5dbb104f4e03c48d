(** Lemmas for the timing drivers. *)
From Coq Require Import String Lia.
From Verif Require Import PyBase PyGraph M_partition M_champ M_leiden M_estimation_utils M_checks M_sbmtests M_bench Spec_bench.
From Flocq Require Import Core.
Open Scope list_scope.
Open Scope R_scope.

(** *** The benchmark loop *)
Lemma seq_snoc n : seq 0 (S n) = seq 0 n ++ [n].
Proof. rewrite seq_S. reflexivity. Qed.
Lemma grown_step x : (x + x / 2 = 3 * x / 2)%nat.
Proof. replace (3 * x)%nat with (x + x * 2)%nat by lia. rewrite Nat.div_add by lia. lia. Qed.
Lemma Rltb_true a b : Rltb a b = true <-> a < b.
Proof. unfold Rltb. destruct (Rlt_dec a b); split; intros; congruence || auto. Qed.
Lemma Rltb_false a b : Rltb a b = false <-> b <= a.
Proof. unfold Rltb. destruct (Rlt_dec a b); split; intros; try congruence; lra. Qed.

Section Loop.
Variables (ours champs : nat -> nat -> R) (timeout : R) (start : nat).
Definition our_measure i := ours i (grown start i).
Definition champ_measure i := champs i (grown start i).
Definition last_of (measure : nat -> R) (k : nat) : R := match k with O => 0 | S j => measure j end.

(** The state at the beginning of round [n]: [k] rounds of CHAMP have been measured. *)
Definition loop_at (fuel n k : nat) : option (list nat * list R * list R) :=
  benchmark_loop ours champs timeout fuel n (grown start n) (last_of our_measure n) (last_of champ_measure k)
    (map (grown start) (seq 0 n)) (map our_measure (seq 0 n)) (map champ_measure (seq 0 k)).
Definition champ_stopped (n k : nat) : Prop :=
  (k <= n)%nat /\ (forall i, (S i < k)%nat -> champ_measure i < timeout) /\ ((k < n)%nat -> timeout <= last_of champ_measure k).

Lemma loop_step fuel n k : champ_stopped n k -> last_of our_measure n < timeout ->
  exists k', champ_stopped (S n) k' /\ loop_at (S fuel) n k = loop_at fuel (S n) k'.
Proof.
  intros (H1 & H2 & H3) L. unfold loop_at. cbn [benchmark_loop]. rewrite (proj2 (Rltb_true _ _) L). destruct (Rltb (last_of champ_measure k) timeout) eqn:E.
  - apply Rltb_true in E. assert (k = n). { destruct (Nat.eq_dec k n) as [|N]; [assumption|]. exfalso. specialize (H3 ltac:(lia)). lra. } subst k.
    exists (S n). split.
    + split; [lia|]. split; [|lia]. intros i Hi. destruct (Nat.eq_dec (S i) n) as [<-|N]; [exact E|apply H2; lia].
    + rewrite !seq_snoc, !map_app. cbn [map]. rewrite grown_step. reflexivity.
  - apply Rltb_false in E. exists k. split; [split; [lia|split; [exact H2|intros _; exact E]]|].
    rewrite (seq_snoc n), !map_app. cbn [map]. rewrite grown_step. reflexivity.
Qed.

Lemma loop_out : forall fuel n k out, champ_stopped n k -> (forall i, (S i < S n)%nat -> last_of our_measure i < timeout) -> loop_at fuel n k = Some out ->
  exists m k', (n <= m <= n + fuel)%nat /\ champ_stopped m k' /\ (forall i, (i < m)%nat -> last_of our_measure i < timeout) /\ timeout <= last_of our_measure m /\
    out = (map (grown start) (seq 0 m), map our_measure (seq 0 m), map champ_measure (seq 0 k')).
Proof.
  induction fuel as [|fuel IH]; intros n k out C L H.
  - unfold loop_at in H. cbn [benchmark_loop] in H. destruct (Rltb (last_of our_measure n) timeout) eqn:E; [discriminate|]. apply Rltb_false in E. injection H as <-.
    exists n, k. split; [lia|]. split; [exact C|]. split; [intros i Hi; apply L; lia|]. split; [exact E|reflexivity].
  - destruct (Rltb (last_of our_measure n) timeout) eqn:E.
    + apply Rltb_true in E. destruct (loop_step fuel n k C E) as (k' & C' & Q). rewrite Q in H. assert (L' : forall i, (S i < S (S n))%nat -> last_of our_measure i < timeout).
      { intros i Hi. destruct (Nat.eq_dec i n) as [->|N]; [exact E|apply L; lia]. }
      destruct (IH _ _ _ C' L' H) as (m & k2 & B & R). exists m, k2. split; [lia|exact R].
    + unfold loop_at in H. cbn [benchmark_loop] in H. rewrite E in H. apply Rltb_false in E. injection H as <-.
      exists n, k. split; [lia|]. split; [exact C|]. split; [intros i Hi; apply L; lia|]. split; [exact E|reflexivity].
Qed.

Lemma loop_ends : forall fuel n k m, champ_stopped n k -> (n <= m <= n + fuel)%nat -> timeout <= last_of our_measure m -> exists out, loop_at fuel n k = Some out.
Proof.
  induction fuel as [|fuel IH]; intros n k m C B H; destruct (Rltb (last_of our_measure n) timeout) eqn:E.
  - apply Rltb_true in E. assert (m = n) by lia. subst m. lra.
  - unfold loop_at. cbn [benchmark_loop]. rewrite E. eauto.
  - apply Rltb_true in E. destruct (loop_step fuel n k C E) as (k' & C' & Q). rewrite Q. apply (IH (S n) k' m C'); [|exact H].
    destruct (Nat.eq_dec n m) as [<-|N]; [lra|lia].
  - unfold loop_at. cbn [benchmark_loop]. rewrite E. eauto.
Qed.
End Loop.

Lemma grown_bound start n : (2 <= start)%nat -> (start + n <= grown start n)%nat.
Proof.
  intros Hs. induction n as [|n IH]; cbn [grown]; [lia|]. rewrite <- grown_step. assert (1 <= grown start n / 2)%nat by (apply Nat.div_le_lower_bound; lia). lia.
Qed.
Lemma grown_small start n : (start <= 1)%nat -> grown start n = start.
Proof. intros H. induction n as [|n IH]; cbn [grown]; [reflexivity|]. rewrite IH. destruct start as [|[|]]; [reflexivity|reflexivity|lia]. Qed.

(** *** Least and greatest elements, evenly spaced points *)
Lemma fold_min : forall l a, In (fold_left Rmin l a) (a :: l) /\ forall x, In x (a :: l) -> fold_left Rmin l a <= x.
Proof.
  induction l as [|b l IH]; intros a; cbn [fold_left].
  - split; [left; reflexivity|]. intros x [<-|[]]. lra.
  - destruct (IH (Rmin a b)) as [I L]. split.
    + destruct I as [I|I]; [|right; right; exact I]. rewrite <- I. unfold Rmin. destruct (Rle_dec a b); [left|right; left]; reflexivity.
    + assert (M : fold_left Rmin l (Rmin a b) <= Rmin a b) by (apply L; left; reflexivity). pose proof (Rmin_l a b). pose proof (Rmin_r a b).
      intros x [<-|[<-|Hx]]; [lra|lra|apply L; right; exact Hx].
Qed.
Lemma fold_max : forall l a, In (fold_left Rmax l a) (a :: l) /\ forall x, In x (a :: l) -> x <= fold_left Rmax l a.
Proof.
  induction l as [|b l IH]; intros a; cbn [fold_left].
  - split; [left; reflexivity|]. intros x [<-|[]]. lra.
  - destruct (IH (Rmax a b)) as [I L]. split.
    + destruct I as [I|I]; [|right; right; exact I]. rewrite <- I. unfold Rmax. destruct (Rle_dec a b); [right; left|left]; reflexivity.
    + assert (M : Rmax a b <= fold_left Rmax l (Rmax a b)) by (apply L; left; reflexivity). pose proof (Rmax_l a b). pose proof (Rmax_r a b).
      intros x [<-|[<-|Hx]]; [lra|lra|apply L; right; exact Hx].
Qed.
Lemma py_min_least l : l <> [] -> exists a, py_minR l = Ok a /\ least l a.
Proof. destruct l as [|a l]; [contradiction|]. intros _. exists (fold_left Rmin l a). split; [reflexivity|apply fold_min]. Qed.
Lemma py_max_greatest l : l <> [] -> exists a, py_maxR l = Ok a /\ greatest l a.
Proof. destruct l as [|a l]; [contradiction|]. intros _. exists (fold_left Rmax l a). split; [reflexivity|apply fold_max]. Qed.

Lemma linspace_length a b n : length (linspace a b n) = n.
Proof. unfold linspace. rewrite map_length, seq_length. reflexivity. Qed.
Lemma linspace_range a b n : a <= b -> (1 <= n)%nat -> (n = 1%nat -> a = b) -> least (linspace a b n) a /\ greatest (linspace a b n) b.
Proof.
  intros H Hn H1. unfold linspace, least, greatest.
  assert (B : forall x, In x (map (fun i => a + INR i * ((b - a) / INR (n - 1))) (seq 0 n)) -> a <= x <= b).
  { intros x Hx. apply in_map_iff in Hx as (i & <- & Hi). apply in_seq in Hi. destruct (Nat.eq_dec n 1) as [E|E].
    - rewrite (H1 E). replace (b - b) with 0 by ring. unfold Rdiv. rewrite Rmult_0_l, Rmult_0_r. lra.
    - assert (P : 0 < INR (n - 1)) by (apply lt_0_INR; lia). assert (I0 : 0 <= INR i) by apply pos_INR. assert (I1 : INR i <= INR (n - 1)) by (apply le_INR; lia).
      assert (D : 0 <= (b - a) / INR (n - 1)) by (apply Rmult_le_pos; [lra|left; apply Rinv_0_lt_compat; exact P]).
      split; [pose proof (Rmult_le_pos _ _ I0 D); lra|].
      assert (INR i * ((b - a) / INR (n - 1)) <= INR (n - 1) * ((b - a) / INR (n - 1))) by (apply Rmult_le_compat_r; assumption).
      replace (INR (n - 1) * ((b - a) / INR (n - 1))) with (b - a) in H0 by (field; lra). lra. }
  split; (split; [|intros x Hx; apply B; exact Hx]).
  - apply in_map_iff. exists 0%nat. split; [cbn [INR]; ring|apply in_seq; lia].
  - apply in_map_iff. exists (n - 1)%nat. split; [|apply in_seq; lia]. destruct (Nat.eq_dec n 1) as [E|E].
    + rewrite (H1 E). replace (b - b) with 0 by ring. unfold Rdiv. rewrite Rmult_0_l, Rmult_0_r. ring.
    + assert (P : 0 < INR (n - 1)) by (apply lt_0_INR; lia). field. lra.
Qed.
Lemma single_range (l : list R) a b : length l = 1%nat -> least l a -> greatest l b -> a = b.
Proof. destruct l as [|x [|y l]]; try discriminate. intros _ [[<-|[]] _] [[<-|[]] _]. reflexivity. Qed.
Lemma least_le l a b : least l a -> greatest l b -> a <= b.
Proof. intros [I _] [_ G]. apply G. exact I. Qed.
