(** Property theorems about the connectivity warning of pruning: C84. *)
From Coq Require ClassicalDedekindReals.
From Verif Require Import PyBase PyGraph M_partition M_pool M_champ M_estimation_utils Spec Spec_leiden Spec_graph Spec_champ Spec_sbm Spec_prune
  Spec_connected Properties_sbm Properties_options.
From Coq Require Import Classical.
Local Open Scope nat_scope.

Lemma linked_touches es a b : linked es a b -> a <> b -> exists c, In (c, b) es \/ In (b, c) es.
Proof. intros H N. destruct H as [a|a b c H E|a b c H E]; [congruence|exists b; left; auto|exists b; right; auto]. Qed.

Lemma vcount_combined_le n g gi : wf_graph g -> wf_graph gi -> vcount g = n -> vcount gi = n -> vcount (combined g gi) <= n.
Proof.
  intros [W _] [Wi _] E Ei. unfold combined. cbn [vcount]. apply list_max_le. apply Forall_forall. intros x Hx.
  apply in_map_iff in Hx as ([u v] & <- & Hx). cbn [fst snd]. apply in_app_or in Hx as [Hx|Hx]; [apply W in Hx|apply Wi in Hx]; lia.
Qed.

Lemma vcount_combined_ge g gi u v : In (u, v) (edges g ++ edges gi) -> u < vcount (combined g gi) /\ v < vcount (combined g gi).
Proof.
  intros H. unfold combined. cbn [vcount].
  pose proof (proj1 (list_max_le (map (fun e => Nat.max (S (fst e)) (S (snd e))) (edges g ++ edges gi)) _) (le_n _)) as F.
  rewrite Forall_forall in F. specialize (F (Nat.max (S u) (S v))).
  assert (Nat.max (S u) (S v) <= list_max (map (fun e => Nat.max (S (fst e)) (S (snd e))) (edges g ++ edges gi))); [|lia].
  apply F. apply in_map_iff. exists (u, v). auto.
Qed.

Lemma wf_combined g gi : wf_graph (combined g gi).
Proof. split; [apply vcount_combined_ge|discriminate]. Qed.

Lemma disconnected_first env g gi lv model parts gs ge os oe restrict w g' r :
  prune_to_multilayer_stable_partitions env g gi lv model parts gs ge os oe restrict false = (w, g', r) ->
  (In Disconnected w <-> ee_connected env (combined g gi) = false \/ vcount (combined g gi) <> vcount gi).
Proof.
  unfold prune_to_multilayer_stable_partitions.
  set (w1 := if negb (ee_connected env (combined g gi)) || negb (vcount (combined g gi) =? vcount gi) then [Disconnected] else []).
  set (w2 := if really_weighted g || really_weighted gi then [Weighted] else []). intros H.
  assert (N2 : ~ In Disconnected w2) by (unfold w2; destruct (really_weighted g || really_weighted gi)%bool; [intros [F|[]]; discriminate F|intros []]).
  assert (W1 : In Disconnected w1 <-> ee_connected env (combined g gi) = false \/ vcount (combined g gi) <> vcount gi).
  { unfold w1. destruct (ee_connected env (combined g gi)), (Nat.eqb_spec (vcount (combined g gi)) (vcount gi)); cbn [negb orb In];
      (split; [intros H'|intros H']); tauto || (left; reflexivity) || (destruct H'; congruence) || auto. }
  assert (Q : exists w3, w = (w1 ++ w2) ++ w3 /\ ~ In Disconnected w3).
  { clear W1. destruct (considered_parts env parts restrict) as [[|c ps]|e];
      [exists []; rewrite app_nil_r; split; [congruence|intros []]| |exists []; rewrite app_nil_r; split; [congruence|intros []]].
    destruct (CHAMP_3D (ee_champ env) g gi lv (c :: ps) gs ge os oe) as [ds|e]; [|exists []; rewrite app_nil_r; split; [congruence|intros []]].
    destruct (domains_to_gamma_omega_estimates env g gi lv ds model) as [g2 [ests|e]]; [|exists []; rewrite app_nil_r; split; [congruence|intros []]].
    exists (if needs_truncation oe ests then [Truncation] else []). split; [congruence|]. destruct (needs_truncation oe ests); [intros [F|[]]; discriminate F|intros []]. }
  destruct Q as (w3 & -> & N3). rewrite !in_app_iff. tauto.
Qed.

(** ** C84 *)
(** prune_to_multilayer_stable_partitions warns about connectivity exactly when some two of the vertices are not linked by the
    intralayer and interlayer edges together (or when there is a single vertex and no edge) - whatever the partitions, the model and
    the ranges, and whether or not the pruning succeeds. *)
Theorem C84_multilayer_connectivity_warning : forall env n g gi lv model parts gamma_start gamma_end omega_start omega_end restrict warnings g' r,
  is_connected_contract (ee_connected env) -> wf_graph g -> wf_graph gi -> vcount g = n -> vcount gi = n -> 0 < n ->
  prune_to_multilayer_stable_partitions env g gi lv model parts gamma_start gamma_end omega_start omega_end restrict false = (warnings, g', r) ->
  (In Disconnected warnings <-> ~ all_linked n (edges g ++ edges gi) \/ (n = 1 /\ edges g ++ edges gi = [])).
Proof.
  intros env n g gi lv model parts gs ge os oe restrict w g' r HC W Wi E Ei Pn H. rewrite (disconnected_first _ _ _ _ _ _ _ _ _ _ _ _ _ _ H).
  pose proof (vcount_combined_le n g gi W Wi E Ei) as Le. pose proof (vcount_combined_ge g gi) as Ge. rewrite Ei. clear H.
  assert (HC' : 0 < vcount (combined g gi) -> (ee_connected env (combined g gi) = true <-> all_linked (vcount (combined g gi)) (edges g ++ edges gi))).
  { intros P. exact (HC (combined g gi) (wf_combined g gi) P). }
  destruct (Nat.eq_dec (vcount (combined g gi)) n) as [En|Nn].
  - rewrite En in HC'. specialize (HC' Pn). split.
    + intros [F|F]; [|congruence]. left. intros A. apply HC' in A. congruence.
    + intros [A|[En1 Em]].
      * left. destruct (ee_connected env (combined g gi)); [|reflexivity]. exfalso. apply A. apply HC'. reflexivity.
      * exfalso. unfold combined in En. cbn [vcount] in En. rewrite Em in En. cbn in En. lia.
  - split; [intros _|right; exact Nn]. destruct (Nat.eq_dec n 1) as [->|N1].
    + right. split; [reflexivity|]. destruct (edges g ++ edges gi) as [|[u v] es] eqn:Ee; [reflexivity|]. destruct (Ge u v (or_introl eq_refl)). lia.
    + left. intros A. destruct (linked_touches (edges g ++ edges gi) 0 (n - 1)) as (c & [Hc|Hc]); [apply A; lia|lia|..]; apply Ge in Hc; lia.
Qed.
Print Assumptions C84_multilayer_connectivity_warning.

(** prune_to_stable_partitions warns about connectivity exactly when some two vertices are not linked (in a directed graph: when some
    vertex cannot be reached from another along the direction of the edges), and about weights exactly when some weight is not 1. *)
Theorem C84_single_layer_warnings : forall env g parts gamma_start gamma_end restrict single_threaded warnings g' r,
  is_connected_contract (ee_connected env) -> wf_graph g -> 0 < vcount g ->
  prune_to_stable_partitions env g parts gamma_start gamma_end restrict single_threaded = (warnings, g', r) ->
  (In Disconnected warnings <->
     exists a b, a < vcount g /\ b < vcount g /\ if directed g then ~ reaches (edges g) a b else ~ linked (edges g) a b) /\
  (In Weighted warnings <-> unequal_weights g) /\ ~ In Truncation warnings /\ NoDup warnings.
Proof.
  intros env g parts gs ge restrict st w g' r HC W P H. specialize (HC g W P). unfold prune_to_stable_partitions in H.
  set (w1 := if ee_connected env g then [] else [Disconnected]) in H.
  set (w2 := if really_weighted g then [Weighted] else []) in H.
  assert (Ew : w = w1 ++ w2).
  { destruct (considered_parts env parts restrict) as [[|c ps]|e]; [congruence| |congruence].
    destruct (CHAMP_2D (ee_champ env) g (c :: ps) gs ge st) as [ds|e]; [|congruence].
    destruct (ranges_to_gamma_estimates env g ds). congruence. }
  subst w. rewrite <- really_weighted_iff, !in_app_iff.
  assert (C : (ee_connected env g = false) <-> exists a b, a < vcount g /\ b < vcount g /\ if directed g then ~ reaches (edges g) a b else ~ linked (edges g) a b).
  { split.
    - intros F. apply NNPP. intros N. assert (ee_connected env g = true); [|congruence]. apply HC. intros a b Ha Hb. apply NNPP. intros M. apply N. exists a, b.
      destruct (directed g); auto.
    - intros (a & b & Ha & Hb & M). destruct (ee_connected env g); [|reflexivity]. exfalso. specialize (proj1 HC eq_refl a b Ha Hb). destruct (directed g); auto. }
  rewrite <- C. unfold w1, w2. clear. destruct (ee_connected env g), (really_weighted g); cbn [app In];
    (split; [intuition discriminate|split; [intuition discriminate|split; [intuition discriminate|repeat constructor; cbn; intuition discriminate]]]).
Qed.
Print Assumptions C84_single_layer_warnings.

(** The contract can be met. *)
Fixpoint walk (step : nat -> nat -> bool) (n k a b : nat) : bool :=
  match k with O => a =? b | S k => (a =? b) || existsb (fun c => walk step n k a c && step c b) (seq 0 n) end.

Lemma decide_exists (f : nat -> bool) : {exists k, f k = true} + {forall k, f k = false}.
Proof.
  destruct (ClassicalDedekindReals.sig_forall_dec (fun k => f k = false)) as [[k H]|H]; [intros k; destruct (f k); [right; discriminate|left; reflexivity]|left; exists k; destruct (f k); congruence|right; exact H].
Qed.

Definition step_of (g : graph) (b c : nat) : bool :=
  existsb (fun e => (fst e =? b) && (snd e =? c) || negb (directed g) && (snd e =? b) && (fst e =? c)) (edges g).

Definition true_connected (g : graph) : bool :=
  forallb (fun a => forallb (fun b => if decide_exists (fun k => walk (step_of g) (vcount g) k a b) then true else false) (seq 0 (vcount g))) (seq 0 (vcount g)).

Lemma step_of_iff g b c : step_of g b c = true <-> In (b, c) (edges g) \/ (directed g = false /\ In (c, b) (edges g)).
Proof.
  unfold step_of. rewrite existsb_exists. split.
  - intros ([u v] & Hin & E). cbn [fst snd] in E. apply orb_prop in E as [E|E].
    + apply andb_prop in E as [A B]. apply Nat.eqb_eq in A, B. subst. auto.
    + apply andb_prop in E as [E B]. apply andb_prop in E as [D A]. apply Nat.eqb_eq in A, B. subst. right. split; auto. destruct (directed g); auto.
  - intros [H|[D H]]; eexists; (split; [exact H|]); cbn [fst snd]; rewrite ?D, !Nat.eqb_refl; cbn [negb andb]; auto using orb_true_r.
Qed.

Definition goes (g : graph) (a b : nat) : Prop := if directed g then reaches (edges g) a b else linked (edges g) a b.

Lemma walk_sound g k : forall a b, walk (step_of g) (vcount g) k a b = true -> goes g a b.
Proof.
  unfold goes. induction k as [|k IH]; cbn [walk]; intros a b H.
  - apply Nat.eqb_eq in H. subst. destruct (directed g); constructor.
  - apply orb_prop in H as [H|H]; [apply Nat.eqb_eq in H; subst; destruct (directed g); constructor|].
    apply existsb_exists in H as (c & _ & H). apply andb_prop in H as [H1 H2]. apply IH in H1. apply step_of_iff in H2.
    destruct (directed g).
    + destruct H2 as [H2|[? _]]; [|discriminate]. econstructor; eauto.
    + destruct H2 as [H2|[_ H2]]; [eapply linked_fwd|eapply linked_bwd]; eauto.
Qed.

Lemma walk_complete g (W : wf_graph g) a b : goes g a b -> exists k, walk (step_of g) (vcount g) k a b = true.
Proof.
  assert (St : forall b c, step_of g b c = true -> (exists k, walk (step_of g) (vcount g) k a b = true) -> exists k, walk (step_of g) (vcount g) k a c = true).
  { intros x c H (k & Hk). exists (S k). cbn [walk]. apply orb_true_intro. right. apply existsb_exists. exists x. rewrite Hk, H. split; [|reflexivity].
    apply in_seq. apply step_of_iff in H as [H|[_ H]]; apply W in H; lia. }
  unfold goes. destruct (directed g) eqn:D; intros H; induction H.
  - exists 0. apply Nat.eqb_refl.
  - eapply St; eauto. apply step_of_iff. auto.
  - exists 0. apply Nat.eqb_refl.
  - eapply St; eauto. apply step_of_iff. auto.
  - eapply St; eauto. apply step_of_iff. auto.
Qed.

Lemma true_connected_contract : is_connected_contract true_connected.
Proof.
  intros g W _. unfold true_connected. rewrite forallb_forall. split.
  - intros H a b Ha Hb. assert (Ia : In a (seq 0 (vcount g))) by (apply in_seq; lia). assert (Ib : In b (seq 0 (vcount g))) by (apply in_seq; lia).
    specialize (H a Ia). rewrite forallb_forall in H. specialize (H b Ib).
    destruct (decide_exists _) as [(k & E)|_]; [|discriminate]. exact (walk_sound g k a b E).
  - intros H a Ha. apply forallb_forall. intros b Hb. apply in_seq in Ha, Hb. destruct (decide_exists _) as [_|N]; [reflexivity|].
    destruct (walk_complete g W a b) as (k & E); [apply H; lia|]. specialize (N k). cbn beta in N. congruence.
Qed.

(** Two layers of two vertices each, without interlayer edges: a warning; with the two interlayer edges: none, although the
    intralayer graph alone is disconnected. *)
Definition c84_intra : graph := mkGraph 4 false [(0, 1); (2, 3)] None.
Definition c84_inter (coupled : bool) : graph := mkGraph 4 true (if coupled then [(0, 2); (1, 3)] else []) None.
Example C84_example : forall env0, let env := with_connectivity env0 true_connected in
  is_connected_contract (ee_connected env) /\ wf_graph c84_intra /\ (forall c, wf_graph (c84_inter c)) /\
  (forall c gs ge os oe w g' r,
     prune_to_multilayer_stable_partitions env c84_intra (c84_inter c) [0; 0; 1; 1] "temporal"%string (Tuples [[0; 0; 1; 1]%Z]) gs ge os oe None false = (w, g', r) ->
     (In Disconnected w <-> c = false)).
Proof.
  intros env0 env. assert (C : is_connected_contract (ee_connected env)) by apply true_connected_contract.
  assert (W : wf_graph c84_intra) by (split; [|discriminate]; cbn; intros u v [E|[E|[]]]; inversion E; lia).
  assert (Wi : forall c, wf_graph (c84_inter c)) by (intros [|]; (split; [|discriminate]); cbn; [intros u v [E|[E|[]]]; inversion E; lia|intros u v []]).
  split; [exact C|]. split; [exact W|]. split; [exact Wi|]. intros c gs ge os oe w g' r H.
  rewrite (C84_multilayer_connectivity_warning env 4 _ _ _ _ _ _ _ _ _ _ _ _ _ C W (Wi c) eq_refl eq_refl ltac:(lia) H). destruct c; cbn [c84_inter edges c84_intra app].
  - split; [|discriminate]. intros [N|[E _]]; [|discriminate]. exfalso. apply N.
    set (es := [(0, 1); (2, 3); (0, 2); (1, 3)]).
    assert (F : forall b, b < 4 -> linked es 0 b).
    { assert (L1 : linked es 0 1) by (eapply linked_fwd; [apply linked_refl|left; reflexivity]).
      assert (L2 : linked es 0 2) by (eapply linked_fwd; [apply linked_refl|right; right; left; reflexivity]).
      assert (L3 : linked es 0 3) by (eapply linked_fwd; [exact L2|right; left; reflexivity]).
      intros [|[|[|[|b]]]] Hb; try lia; auto. apply linked_refl. }
    intros a b Ha Hb.
    assert (T : forall x y z, linked es y z -> linked es x y -> linked es x z) by (intros x y z Hyz Hxy; induction Hyz; eauto using linked_fwd, linked_bwd).
    assert (Sy : forall x y, linked es x y -> linked es y x).
    { intros x y Hxy. induction Hxy; [apply linked_refl|eapply T; [exact IHHxy|]; eapply linked_bwd; [apply linked_refl|assumption]|eapply T; [exact IHHxy|]; eapply linked_fwd; [apply linked_refl|assumption]]. }
    eapply T; [apply (F b Hb)|]. apply Sy, F, Ha.
  - split; [reflexivity|]. intros _. left. intros A. specialize (A 0 2 ltac:(lia) ltac:(lia)).
    assert (Inv : forall x y, linked [(0, 1); (2, 3)] x y -> x < 2 -> y < 2).
    { intros x y Hxy. induction Hxy as [|a b c Hab IH Hin|a b c Hab IH Hin]; intros Hx; [exact Hx|..]; specialize (IH Hx); cbn in Hin; destruct Hin as [E|[E|[]]]; inversion E; lia. }
    specialize (Inv 0 2 A). lia.
Qed.
