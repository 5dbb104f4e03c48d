(** The law-firm network. *)
From Verif Require Import PyBase PyGraph M_partition M_champ M_leiden M_estimation_utils M_generators Spec_graph Spec_sbm Spec_multisbm Spec_check Spec_valid Spec_generators Spec_lazega
  L_base L_generators L_generators2.
Set Implicit Arguments.
Open Scope nat_scope.

Lemma enumerate_from_in {A} (l : list A) k i x : In (i, x) (enumerate_from k l) <-> k <= i /\ nth_error l (i - k) = Some x.
Proof.
  revert k. induction l as [|a l IH]; intros k; cbn [enumerate_from].
  - split; [intros []|]. intros [_ H]. destruct (i - k); discriminate.
  - cbn [In]. rewrite IH. split.
    + intros [E|[H1 H2]]; [injection E as -> ->; split; [lia|]; rewrite Nat.sub_diag; reflexivity|]. split; [lia|]. replace (i - k) with (S (i - S k)) by lia. exact H2.
    + intros [H1 H2]. destruct (Nat.eq_dec i k) as [->|N]; [left; rewrite Nat.sub_diag in H2; cbn in H2; congruence|]. right. split; [lia|]. replace (i - k) with (S (i - S k)) in H2 by lia. exact H2.
Qed.
Lemma enumerate_in' {A} (l : list A) i x : In (i, x) (enumerate l) <-> nth_error l i = Some x.
Proof. unfold enumerate. rewrite enumerate_from_in, Nat.sub_0_r. split; [tauto|]. split; auto. lia. Qed.

Lemma lazega_ties_in N adjs a b : In (a, b) (lazega_ties N adjs) <->
  exists t adj i row j, nth_error adjs t = Some adj /\ nth_error adj i = Some row /\ nth_error row j = Some 1%Z /\ a = N * t + i /\ b = N * t + j.
Proof.
  unfold lazega_ties. rewrite in_flat_map. split.
  - intros ([t adj] & H1 & H). apply enumerate_in' in H1. apply in_flat_map in H. destruct H as ([i row] & H2 & H). apply enumerate_in' in H2.
    apply in_flat_map in H. destruct H as ([j x] & H3 & H). apply enumerate_in' in H3. cbn [fst snd] in *. destruct (Z.eqb_spec x 1) as [->|]; [|destruct H].
    destruct H as [E|[]]. injection E as <- <-. exists t, adj, i, row, j. auto.
  - intros (t & adj & i & row & j & H1 & H2 & H3 & -> & ->). exists (t, adj). split; [apply enumerate_in'; auto|]. apply in_flat_map. exists (i, row). split; [apply enumerate_in'; auto|].
    apply in_flat_map. exists (j, 1%Z). split; [apply enumerate_in'; auto|]. left. reflexivity.
Qed.

Lemma ties_network_ok N adjs : (forall adj, In adj adjs -> square N adj) -> ties_network N adjs (graph_of_edges true (lazega_ties N adjs)).
Proof.
  intros H. split; auto. intros a b. cbn [edges graph_of_edges]. rewrite lazega_ties_in. split.
  - intros (t & adj & i & row & j & H1 & H2 & H3 & -> & ->). destruct (H adj) as [S1 S2]; [eapply nth_error_In; eauto|]. pose proof (S2 row ltac:(eapply nth_error_In; eauto)) as S3.
    exists t, i, j. split; [apply nth_error_Some; congruence|]. split; [rewrite <- S1; apply nth_error_Some; congruence|]. split; [rewrite <- S3; apply nth_error_Some; congruence|].
    split; auto. split; auto. unfold tie. rewrite (@nth_error_nth _ _ _ _ [] H1), (@nth_error_nth _ _ _ _ [] H2), (@nth_error_nth _ _ _ _ 0%Z H3). reflexivity.
  - intros (t & i & j & Ht & Hi & Hj & -> & -> & E). destruct (H (nth t adjs [])) as [S1 S2]; [apply nth_In; auto|].
    pose proof (S2 (nth i (nth t adjs []) []) ltac:(apply nth_In; lia)) as S3. unfold tie in E.
    exists t, (nth t adjs []), i, (nth i (nth t adjs []) []), j. split; [apply nth_error_nth'; auto|]. split; [apply nth_error_nth'; lia|]. split; auto. rewrite <- E. apply nth_error_nth'. lia.
Qed.

Lemma couplings_in N T a b : 0 < N -> (In (a, b) (lazega_couplings N T) <-> (a < N /\ b < N * T /\ b mod N = a) \/ (b < N /\ a < N * T /\ a mod N = b)).
Proof.
  intros HN.
  assert (G : forall i b, i < N -> ((exists t, t < T /\ b = t * N + i) <-> b < N * T /\ b mod N = i)).
  { intros i c Hi. split.
    - intros (t & Ht & ->). split; [nia|]. rewrite Nat.mul_comm. apply mod_layer. auto.
    - intros [H1 H2]. exists (c / N). split; [apply Nat.div_lt_upper_bound; lia|]. rewrite (Nat.div_mod c N) at 1 by lia. lia. }
  unfold lazega_couplings. rewrite in_app_iff, !in_flat_map. split.
  - intros [(i & Hi & H)|(i & Hi & H)]; apply in_seq in Hi; apply in_map_iff in H; destruct H as (t & E & Ht); apply in_seq in Ht; injection E as <- <-.
    + left. split; [lia|]. apply G; [lia|]. exists t. split; [lia|auto].
    + right. split; [lia|]. apply G; [lia|]. exists t. split; [lia|auto].
  - intros [(H1 & H2)|(H1 & H2)]; [left|right].
    + exists a. split; [apply in_seq; lia|]. apply (G a b H1) in H2. destruct H2 as (t & Ht & ->). apply in_map_iff. exists t. split; auto. apply in_seq. lia.
    + exists b. split; [apply in_seq; lia|]. apply (G b a H1) in H2. destruct H2 as (t & Ht & ->). apply in_map_iff. exists t. split; auto. apply in_seq. lia.
Qed.
Lemma couplings_length N T : length (lazega_couplings N T) = 2 * N * T.
Proof.
  assert (G : forall (f : nat -> nat -> nat * nat) l, length (flat_map (fun i => map (fun t => f i t) (seq 0 T)) l) = length l * T).
  { intros f l. induction l as [|x l IH]; auto. cbn [flat_map length]. rewrite app_length, IH, map_length, seq_length. lia. }
  unfold lazega_couplings. rewrite app_length, !(G (fun i t => (i, t * N + i))), !(G (fun i t => (t * N + i, i))), !seq_length. lia.
Qed.
Lemma couplings_vcount N : 0 < N -> vcount (graph_of_edges true (lazega_couplings N 3)) = N * 3.
Proof.
  intros HN. apply graph_of_edges_full; [lia| |].
  - intros u v H. apply couplings_in in H; auto. lia.
  - exists (N - 1, N * 3 - 1). split; [|right; reflexivity]. cbn [edges graph_of_edges]. apply couplings_in; auto. left. split; [lia|]. split; [lia|].
    replace (N * 3 - 1) with (N * 2 + (N - 1)) by lia. apply mod_layer. lia.
Qed.

(** Labels kept along the couplings. *)
Lemma filter_flat_sum {A B} (p : B -> bool) (f : A -> list B) l : length (filter p (flat_map f l)) = list_sum (map (fun x => length (filter p (f x))) l).
Proof. induction l as [|x l IH]; auto. cbn [flat_map map]. rewrite filter_app, app_length, IH. reflexivity. Qed.
Lemma count_as_sum {A} (p : A -> bool) l : length (filter p l) = list_sum (map (fun x => b2n (p x)) l).
Proof. induction l as [|x l IH]; auto. cbn [filter map]. destruct (p x); cbn [length b2n]; rewrite IH; reflexivity. Qed.
Lemma list_sum_plus {A} (f g : A -> nat) l : list_sum (map (fun x => f x + g x) l) = list_sum (map f l) + list_sum (map g l).
Proof. induction l as [|x l IH]; auto. change (f x + g x + list_sum (map (fun x => f x + g x) l) = f x + list_sum (map f l) + (g x + list_sum (map g l))). lia. Qed.
Lemma list_sum_one {A} (l : list A) : list_sum (map (fun _ => 1) l) = length l.
Proof. induction l as [|x l IH]; auto. change (1 + list_sum (map (fun _ => 1) l) = S (length l)). lia. Qed.

Lemma kept_star N c : kept (graph_of_edges true (lazega_couplings N 3)) c = 2 * (N + agreeing N c 0 1 + agreeing N c 0 2).
Proof.
  unfold kept. cbn [edges graph_of_edges]. unfold lazega_couplings. rewrite filter_app, app_length, !filter_flat_sum. cbn [seq map].
  assert (G : forall l, list_sum (map (fun i => length (filter (keeps_label c) [(i, 0 * N + i); (i, 1 * N + i); (i, 2 * N + i)])) l)
     = length l + length (filter (fun i => Nat.eqb (nth (N * 0 + i) c 0) (nth (N * 1 + i) c 0)) l) + length (filter (fun i => Nat.eqb (nth (N * 0 + i) c 0) (nth (N * 2 + i) c 0)) l)).
  { intros l. rewrite !count_as_sum, <- (list_sum_one l), <- !list_sum_plus. f_equal. apply map_ext. intros i. rewrite count_as_sum. unfold keeps_label. cbn [map fst snd list_sum fold_right].
    rewrite Nat.mul_0_l, Nat.mul_0_r. cbn [Nat.add]. rewrite Nat.eqb_refl. rewrite (Nat.mul_comm N 1), (Nat.mul_comm N 2). cbn [b2n]. lia. }
  assert (G' : forall l, list_sum (map (fun i => length (filter (keeps_label c) [(0 * N + i, i); (1 * N + i, i); (2 * N + i, i)])) l)
     = length l + length (filter (fun i => Nat.eqb (nth (N * 0 + i) c 0) (nth (N * 1 + i) c 0)) l) + length (filter (fun i => Nat.eqb (nth (N * 0 + i) c 0) (nth (N * 2 + i) c 0)) l)).
  { intros l. rewrite !count_as_sum, <- (list_sum_one l), <- !list_sum_plus. f_equal. apply map_ext. intros i. rewrite count_as_sum. unfold keeps_label. cbn [map fst snd list_sum fold_right].
    rewrite Nat.mul_0_l, Nat.mul_0_r. cbn [Nat.add]. rewrite Nat.eqb_refl. rewrite (Nat.mul_comm N 1), (Nat.mul_comm N 2), (Nat.eqb_sym (nth (1 * N + i) c 0)), (Nat.eqb_sym (nth (2 * N + i) c 0)). cbn [b2n]. lia. }
  rewrite G, G', seq_length. unfold agreeing. lia.
Qed.
Lemma kept_all N c : kept (graph_of_edges true (all_copies N 3)) c = 2 * (agreeing N c 0 1 + agreeing N c 0 2 + agreeing N c 1 2).
Proof.
  unfold kept. cbn [edges graph_of_edges]. unfold all_copies. cbn [seq flat_map Nat.eqb app]. rewrite !app_nil_r. repeat rewrite ?filter_app, ?app_length.
  assert (G : forall s t, length (filter (keeps_label c) (map (fun v => (N * s + v, N * t + v)) (seq 0 N))) = agreeing N c s t).
  { intros s t. unfold agreeing. rewrite !count_as_sum, map_map. reflexivity. }
  assert (Sy : forall s t, agreeing N c s t = agreeing N c t s). { intros s t. unfold agreeing. rewrite !count_as_sum. f_equal. apply map_ext. intros i. f_equal. apply Nat.eqb_sym. }
  rewrite !G, (Sy 1 0), (Sy 2 0), (Sy 2 1). lia.
Qed.
Lemma filter_len_le {A} (p : A -> bool) l : length (filter p l) <= length l.
Proof. induction l as [|x l IH]; cbn [filter length]; auto. destruct (p x); cbn [length]; lia. Qed.
Lemma agreeing_le N c s t : agreeing N c s t <= N.
Proof. unfold agreeing. etransitivity; [apply filter_len_le|rewrite seq_length; auto]. Qed.
