(** Generated networks. *)
From Verif Require Import PyBase PyGraph M_partition M_generators Spec_graph Spec_generators L_base.
Set Implicit Arguments.
Open Scope nat_scope.

(** ** Layer vectors *)
Lemma seq_from a n : seq a n = map (fun v => a + v) (seq 0 n).
Proof.
  revert a. induction n as [|n IH]; intros a; auto. cbn [seq map]. rewrite Nat.add_0_r. f_equal. rewrite IH, (IH 1), map_map. apply map_ext. intros x. lia.
Qed.
Lemma seq_split n T : seq 0 (n * S T) = seq 0 (n * T) ++ map (fun v => n * T + v) (seq 0 n).
Proof. replace (n * S T) with (n * T + n) by lia. rewrite seq_app, <- seq_from. reflexivity. Qed.
Lemma div_layer n t v : v < n -> (n * t + v) / n = t.
Proof. intros H. symmetry. apply (Nat.div_unique _ _ _ v); lia. Qed.
Lemma mod_layer n t v : v < n -> (n * t + v) mod n = v.
Proof. intros H. symmetry. apply (Nat.mod_unique _ _ t v); lia. Qed.
Lemma map_const_len {A B} (x : B) (l : list A) : map (fun _ => x) l = repeat x (length l).
Proof. induction l; cbn; congruence. Qed.

Lemma lv_flat n T : flat_map (fun i => repeat i n) (seq 0 T) = map (fun i => i / n) (seq 0 (n * T)).
Proof.
  induction T as [|T IH]; [rewrite Nat.mul_0_r; reflexivity|]. rewrite seq_S, flat_map_app, IH, seq_split, map_app. f_equal. cbn [flat_map Nat.add]. rewrite app_nil_r, map_map.
  rewrite (map_ext_in _ (fun _ => T)). { rewrite map_const_len, seq_length. reflexivity. }
  intros v Hv. apply in_seq in Hv. apply div_layer. lia.
Qed.

Section Layers.
Variables (n T : nat).
Hypothesis Hn : 0 < n.
Let lv := map (fun i => i / n) (seq 0 (n * T)).
Lemma lv_length : length lv = n * T.
Proof. unfold lv. rewrite map_length, seq_length. reflexivity. Qed.
Lemma lv_nth i : i < n * T -> nth i lv 0 = i / n.
Proof.
  intros H. unfold lv. rewrite (@nth_indep _ _ i 0 (0 / n)) by (rewrite map_length, seq_length; auto).
  rewrite (map_nth (fun i => i / n) (seq 0 (n * T)) 0 i), seq_nth; auto.
Qed.
Lemma div_lt i : i < n * T -> i / n < T.
Proof. intros H. apply Nat.div_lt_upper_bound; lia. Qed.
Lemma lv_in x : In x lv <-> x < T.
Proof.
  unfold lv. rewrite in_map_iff. split.
  - intros (i & <- & Hi). apply in_seq in Hi. apply div_lt. lia.
  - intros H. exists (n * x + 0). split; [apply div_layer; auto|]. apply in_seq. nia.
Qed.
Lemma lv_max : 0 < T -> S (list_max lv) = T.
Proof.
  intros H. assert (A : list_max lv <= T - 1). { apply list_max_le. apply Forall_forall. intros x Hx. apply lv_in in Hx. lia. }
  assert (B : In (T - 1) lv) by (apply lv_in; lia). assert (C : list_max lv <= list_max lv) by auto. apply list_max_le in C. rewrite Forall_forall in C. specialize (C _ B). lia.
Qed.
End Layers.

Lemma count_occ_repeat x y n : count_occ Nat.eq_dec (repeat x n) y = if Nat.eq_dec x y then n else 0.
Proof. induction n as [|n IH]; cbn; [destruct (Nat.eq_dec x y); auto|]. rewrite IH. destruct (Nat.eq_dec x y); auto. Qed.
Lemma nodes_in_lv n T t : t < T -> count_occ Nat.eq_dec (map (fun i => i / n) (seq 0 (n * T))) t = n.
Proof.
  intros H. rewrite <- lv_flat.
  assert (G : count_occ Nat.eq_dec (flat_map (fun i => repeat i n) (seq 0 T)) t = if t <? T then n else 0).
  { clear H. induction T as [|k IH]; auto. rewrite seq_S, flat_map_app, count_occ_app, IH. cbn [flat_map Nat.add]. rewrite app_nil_r, count_occ_repeat.
    destruct (Nat.ltb_spec t k); destruct (Nat.ltb_spec t (S k)); destruct (Nat.eq_dec k t); lia. }
  rewrite G. destruct (Nat.ltb_spec t T); lia.
Qed.

(** ** Labels *)
Lemma label_layers_length d eta n t k l : length (label_layers d eta n t k l) = S k.
Proof. revert t l. induction k as [|k IH]; intros t l; auto. cbn [label_layers length]. f_equal. apply IH. Qed.
Lemma next_layer_length d eta n t l : length (next_layer d eta n t l) = n.
Proof. unfold next_layer. rewrite map_length, seq_length. reflexivity. Qed.
Lemma label_layers_each d eta n t k l x : length l = n -> In x (label_layers d eta n t k l) -> length x = n.
Proof.
  revert t l. induction k as [|k IH]; intros t l Hl H; cbn [label_layers] in H; destruct H as [<-|H]; auto; [destruct H|].
  revert H. apply IH. apply next_layer_length.
Qed.
Lemma concat_layers_length {A} (L : list (list A)) n : (forall x, In x L -> length x = n) -> length (concat L) = n * length L.
Proof.
  induction L as [|x L IH]; intros H; [cbn; lia|]. cbn [concat length]. rewrite app_length, IH by (intros; apply H; right; auto).
  rewrite (H x) by (left; auto). lia.
Qed.
Lemma concat_layers_nth (L : list (list nat)) n t v : (forall x, In x L -> length x = n) -> v < n -> t < length L -> nth (t * n + v) (concat L) 0 = nth v (nth t L []) 0.
Proof.
  revert t. induction L as [|x L IH]; intros t H Hv Ht; [cbn in Ht; lia|]. cbn [concat]. pose proof (H x (or_introl eq_refl)) as Hx. destruct t as [|t].
  - rewrite app_nth1 by (cbn; lia). reflexivity.
  - rewrite app_nth2 by (rewrite Hx; cbn; lia). rewrite Hx. replace (S t * n + v - n) with (t * n + v) by (cbn; lia). cbn [nth]. apply IH; auto; [intros; apply H; right; auto|cbn in Ht; lia].
Qed.
Lemma label_layers_step d eta n t k l i : i < k -> nth (S i) (label_layers d eta n t k l) [] = next_layer d eta n (S t + i) (nth i (label_layers d eta n t k l) []).
Proof.
  revert t l i. induction k as [|k IH]; intros t l i H; [lia|]. destruct i as [|i].
  - cbn [label_layers nth]. destruct k; cbn [label_layers nth]; f_equal; lia.
  - change (nth (S (S i)) (label_layers d eta n t (S k) l) []) with (nth (S i) (label_layers d eta n (S t) k (next_layer d eta n (S t) l)) []).
    change (nth (S i) (label_layers d eta n t (S k) l) []) with (nth i (label_layers d eta n (S t) k (next_layer d eta n (S t) l)) []).
    rewrite IH by lia. f_equal. lia.
Qed.
Lemma next_layer_nth d eta n t l v : v < n -> nth v (next_layer d eta n t l) 0 = if Rlt_dec (d_copy d t v) eta then nth v l 0 else d_label d t v.
Proof.
  intros H. unfold next_layer. set (f := fun v => if Rlt_dec (d_copy d t v) eta then nth v l 0 else d_label d t v).
  rewrite (@nth_indep _ _ v 0 (f 0)) by (rewrite map_length, seq_length; auto). rewrite map_nth, seq_nth; auto.
Qed.
Lemma label_layers_bound d eta n t k l K : (forall t v, d_label d t v < K) -> (forall x, In x l -> x < K) -> length l = n ->
  forall L x, In L (label_layers d eta n t k l) -> In x L -> x < K.
Proof.
  intros Hd. revert t l. induction k as [|k IH]; intros t l Hl Hn L x HL Hx; cbn [label_layers] in HL; destruct HL as [<-|HL]; auto; [destruct HL|].
  revert HL Hx. apply IH; [|apply next_layer_length]. intros y Hy. unfold next_layer in Hy. apply in_map_iff in Hy. destruct Hy as (v & <- & Hv). apply in_seq in Hv.
  destruct (Rlt_dec _ _); [apply Hl, nth_In; lia|apply Hd].
Qed.

(** ** Edges *)
Lemma NoDup_glue {A} (l m : list A) : NoDup l -> NoDup m -> (forall x, In x l -> ~ In x m) -> NoDup (l ++ m).
Proof.
  induction l as [|a l IH]; intros H1 H2 H3; auto. inversion H1; subst. cbn [app]. constructor.
  - intros H. apply in_app_or in H. destruct H as [H|H]; [contradiction|]. apply (H3 a); [left|]; auto.
  - apply IH; auto. intros x Hx. apply H3. right. auto.
Qed.
Lemma NoDup_flat {A B} (f : A -> list B) l : NoDup l -> (forall x, In x l -> NoDup (f x)) -> (forall x y z, In x l -> In y l -> In z (f x) -> In z (f y) -> x = y) -> NoDup (flat_map f l).
Proof.
  induction l as [|a l IH]; intros H1 H2 H3; [constructor|]. cbn [flat_map]. inversion H1; subst. apply NoDup_glue; [apply H2; left; auto| |].
  - apply IH; auto; [intros; apply H2; right; auto|]. intros x y z Hx Hy. apply H3; right; auto.
  - intros z Hz Hz'. apply in_flat_map in Hz'. destruct Hz' as (y & Hy & Hzy). assert (a = y) by (apply (H3 a y z); auto; [left; auto|right; auto]). subst. auto.
Qed.

Section Edges.
Variables (d : draws) (p_in p_out : R) (lv comm : list nat).
Lemma sbm_edges_in u v : In (u, v) (sbm_edges d p_in p_out lv comm) <->
  v < u < length comm /\ nth v lv 0 = nth u lv 0 /\ Rlt (d_pair d v u) (if Nat.eqb (nth v comm 0) (nth u comm 0) then p_in else p_out).
Proof.
  unfold sbm_edges. rewrite in_flat_map. split.
  - intros (v' & Hv & H). apply in_flat_map in H. destruct H as (u' & Hu & H). apply in_seq in Hv. apply in_seq in Hu.
    destruct (Nat.eqb_spec (nth v' lv 0) (nth u' lv 0)) as [E|E]; [|destruct H].
    destruct (Rlt_dec (d_pair d v' u') _) as [L|L]; [|destruct H]. destruct H as [H|[]]. injection H as -> ->. split; [lia|]. split; auto.
  - intros (H1 & H2 & H3). exists v. split; [apply in_seq; lia|]. apply in_flat_map. exists u. split; [apply in_seq; lia|].
    rewrite H2, Nat.eqb_refl. destruct (Rlt_dec (d_pair d v u) _) as [L|L]; [left; auto|contradiction].
Qed.
Lemma sbm_edges_nodup : NoDup (sbm_edges d p_in p_out lv comm).
Proof.
  unfold sbm_edges. apply NoDup_flat; [apply seq_NoDup| |].
  - intros v _. apply NoDup_flat; [apply seq_NoDup| |].
    + intros u _. destruct (Nat.eqb _ _); [|constructor]. destruct (Rlt_dec _ _); repeat constructor; cbn; tauto.
    + intros x y z _ _ Hx Hy. destruct (Nat.eqb (nth v lv 0) (nth x lv 0)), (Nat.eqb (nth v lv 0) (nth y lv 0)); try (destruct Hx; fail); try (destruct Hy; fail).
      destruct (Rlt_dec (d_pair d v x) _); [|destruct Hx]. destruct (Rlt_dec (d_pair d v y) _); [|destruct Hy]. destruct Hx as [<-|[]]. destruct Hy as [E|[]]. injection E as ->. auto.
  - intros x y [a b] _ _ Hx Hy. apply in_flat_map in Hx. destruct Hx as (u & _ & Hx). apply in_flat_map in Hy. destruct Hy as (w & _ & Hy).
    assert (G : forall v w0, In (a, b) (if Nat.eqb (nth v lv 0) (nth w0 lv 0) then if Rlt_dec (d_pair d v w0) (if Nat.eqb (nth v comm 0) (nth w0 comm 0) then p_in else p_out) then [(w0, v)] else [] else []) -> b = v).
    { intros v w0 Q. destruct (Nat.eqb (nth v lv 0) (nth w0 lv 0)); [|destruct Q]. destruct (Rlt_dec (d_pair d v w0) _); [|destruct Q]. destruct Q as [Q|[]]. congruence. }
    apply G in Hx. apply G in Hy. congruence.
Qed.
End Edges.

(** ** Vertex counts *)
Lemma graph_of_edges_lt dir es u v : In (u, v) es -> u < vcount (graph_of_edges dir es) /\ v < vcount (graph_of_edges dir es).
Proof.
  intros H. cbn [vcount graph_of_edges]. set (L := map (fun e => S (Nat.max (fst e) (snd e))) es).
  assert (C : list_max L <= list_max L) by auto. apply list_max_le in C. rewrite Forall_forall in C. specialize (C (S (Nat.max u v))).
  assert (In (S (Nat.max u v)) L) by (apply in_map_iff; exists (u, v); auto). specialize (C H0). lia.
Qed.
Lemma graph_of_edges_wf dir es : wf_graph (graph_of_edges dir es).
Proof. split; [intros u v H; apply graph_of_edges_lt; auto|]. intros ws H. discriminate. Qed.
Lemma graph_of_edges_le dir es n : (forall u v, In (u, v) es -> u < n /\ v < n) -> vcount (graph_of_edges dir es) <= n.
Proof.
  intros H. cbn [vcount graph_of_edges]. apply list_max_le. apply Forall_forall. intros x Hx. apply in_map_iff in Hx. destruct Hx as ([u v] & <- & Hx). apply H in Hx. cbn. lia.
Qed.
Lemma graph_of_edges_full dir es n : 0 < n -> (forall u v, In (u, v) es -> u < n /\ v < n) -> (vcount (graph_of_edges dir es) = n <-> has_edge_at (graph_of_edges dir es) (n - 1)).
Proof.
  intros Hn H. split.
  - intros E. set (L := map (fun e => S (Nat.max (fst e) (snd e))) es). assert (E' : list_max L = n) by exact E.
    destruct (Nat.le_gt_cases (list_max L) (n - 1)) as [C|C]; [lia|].
    assert (B : ~ Forall (fun k => k <= n - 1) L) by (intros F; apply list_max_le in F; lia).
    destruct (Exists_dec (fun k => ~ k <= n - 1) L) as [X|X]; [intros k; destruct (le_dec k (n - 1)); [right; tauto|left; auto]| |].
    + apply Exists_exists in X. destruct X as (k & Hk & K). apply in_map_iff in Hk. destruct Hk as ([u v] & <- & Hk). exists (u, v). split; [exact Hk|]. apply H in Hk. cbn in *. lia.
    + exfalso. apply B. apply Forall_forall. intros k Hk. destruct (le_dec k (n - 1)); auto. exfalso. apply X. apply Exists_exists. exists k. auto.
  - intros ([u v] & He & Hor). pose proof (@graph_of_edges_lt dir es u v He). pose proof (@graph_of_edges_le dir es n H). cbn [fst snd edges graph_of_edges] in *. destruct Hor; subst; lia.
Qed.

(** ** Couplings *)
Lemma next_copies_eq n T : next_copies n T = map (fun i => (i, i + n)) (seq 0 (n * (T - 1))).
Proof.
  unfold next_copies. generalize (T - 1). clear T. intros T. induction T as [|T IH]; [rewrite Nat.mul_0_r; reflexivity|].
  rewrite seq_S, flat_map_app, IH, seq_split, map_app. f_equal. cbn [flat_map Nat.add]. rewrite app_nil_r, map_map. reflexivity.
Qed.
Lemma next_copies_couplings n T : 0 < n -> temporal_couplings (graph_of_edges true (next_copies n T)) n T.
Proof.
  intros Hn. split; auto. cbn [edges graph_of_edges]. rewrite next_copies_eq. split.
  - apply FinFun.Injective_map_NoDup; [|apply seq_NoDup]. intros x y E. congruence.
  - intros a b. rewrite in_map_iff. split.
    + intros (i & E & Hi). injection E as <- <-. apply in_seq in Hi. split; auto. destruct T as [|T]; [cbn in Hi; lia|]. cbn [Nat.sub] in Hi. nia.
    + intros (H & ->). exists a. split; auto. apply in_seq. split; [lia|]. destruct T as [|T]; [lia|]. cbn [Nat.sub]. nia.
Qed.
Lemma all_copies_couplings n T : 0 < n -> multiplex_couplings (graph_of_edges true (all_copies n T)) n T.
Proof.
  intros Hn. split; auto. cbn [edges graph_of_edges]. split.
  - unfold all_copies. apply NoDup_flat; [apply seq_NoDup| |].
    + intros s Hs. apply NoDup_flat; [apply seq_NoDup| |].
      * intros t _. destruct (Nat.eqb s t); [constructor|]. apply FinFun.Injective_map_NoDup; [|apply seq_NoDup]. intros x y E. injection E as E E'. lia.
      * intros t t' z _ _ H H'. destruct (Nat.eqb s t); [destruct H|]. destruct (Nat.eqb s t'); [destruct H'|].
        apply in_map_iff in H. destruct H as (v & <- & Hv). apply in_map_iff in H'. destruct H' as (w & E & Hw). apply in_seq in Hv. apply in_seq in Hw.
        injection E as E1 E2. assert (v = w) by lia. subst w. nia.
    + intros s s' [a b] _ _ H H'. apply in_flat_map in H. destruct H as (t & _ & H). apply in_flat_map in H'. destruct H' as (t' & _ & H').
      destruct (Nat.eqb s t); [destruct H|]. destruct (Nat.eqb s' t'); [destruct H'|].
      apply in_map_iff in H. destruct H as (v & E & Hv). apply in_map_iff in H'. destruct H' as (w & E' & Hw). apply in_seq in Hv. apply in_seq in Hw.
      injection E as E1 E2. injection E' as E3 E4. rewrite <- (@div_layer n s v), <- (@div_layer n s' w) by lia. congruence.
  - intros a b. unfold all_copies. rewrite in_flat_map. split.
    + intros (s & Hs & H). apply in_flat_map in H. destruct H as (t & Ht & H). destruct (Nat.eqb_spec s t) as [E|E]; [destruct H|].
      apply in_map_iff in H. destruct H as (v & E' & Hv). apply in_seq in Hs. apply in_seq in Ht. apply in_seq in Hv. injection E' as <- <-.
      rewrite !mod_layer by lia. split; [nia|]. split; [nia|]. split; auto. intros C. apply E. rewrite <- (@div_layer n s v), <- (@div_layer n t v) by lia. congruence.
    + intros (Ha & Hb & Hab & M). pose proof (Nat.div_mod a n ltac:(lia)) as Da. pose proof (Nat.div_mod b n ltac:(lia)) as Db.
      exists (a / n). split; [apply in_seq; split; [lia|apply Nat.div_lt_upper_bound; lia]|]. apply in_flat_map. exists (b / n). split; [apply in_seq; split; [lia|apply Nat.div_lt_upper_bound; lia]|].
      destruct (Nat.eqb_spec (a / n) (b / n)) as [E|E]; [exfalso; apply Hab; rewrite Da, Db, E, M; reflexivity|].
      apply in_map_iff. exists (a mod n). split; [rewrite <- Da, M, <- Db; reflexivity|]. apply in_seq. pose proof (Nat.mod_upper_bound a n). lia.
Qed.
Lemma all_copies_length n T : length (all_copies n T) = n * T * (T - 1).
Proof.
  unfold all_copies.
  assert (G : forall s l, length (flat_map (fun t => if Nat.eqb s t then [] else map (fun v => (n * s + v, n * t + v)) (seq 0 n)) l) + n * count_occ Nat.eq_dec l s = n * length l).
  { intros s l. induction l as [|t l IH]; [cbn; lia|]. cbn [flat_map length count_occ]. rewrite app_length. destruct (Nat.eqb_spec s t) as [E|E]; destruct (Nat.eq_dec t s) as [E'|E']; try congruence; cbn [length].
    - lia.
    - rewrite map_length, seq_length. lia. }
  assert (F : forall l k, (forall s, In s l -> In s (seq 0 T)) -> k = n * (T - 1) ->
     length (flat_map (fun s => flat_map (fun t => if Nat.eqb s t then [] else map (fun v => (n * s + v, n * t + v)) (seq 0 n)) (seq 0 T)) l) = k * length l).
  { induction l as [|s l IH]; intros k Hl Hk; [cbn; lia|]. cbn [flat_map]. rewrite app_length, (IH k) by (auto; intros; apply Hl; right; auto).
    specialize (G s (seq 0 T)). assert (C : count_occ Nat.eq_dec (seq 0 T) s = 1) by (apply NoDup_count_occ'; [apply seq_NoDup|apply Hl; left; auto]).
    rewrite C, seq_length in G. assert (In s (seq 0 T)) as Hs by (apply Hl; left; auto). apply in_seq in Hs. cbn [length].
    assert (n * T = n * (T - 1) + n) by nia. lia. }
  rewrite (F (seq 0 T) (n * (T - 1))); auto. rewrite seq_length. lia.
Qed.
