(** C114: the multilayer example of the documentation and what its test asserts. *)
From Coq Require Import String Classical Sorted.
From Verif Require Import PyBase PyGraph M_partition M_champ M_leiden M_estimation_utils M_checks M_generators M_sbmtests M_studies M_docs
  Spec Spec_graph Spec_leiden Spec_champ Spec_lp Spec_prune Spec_stability Spec_sbm Spec_multisbm Spec_check Spec_valid Spec_tiling Spec_generators Spec_lfr Spec_sbmtests Spec_docs
  L_base L_canon L_leiden L_multileiden L_modularity L_sbm L_sbm2 L_prune L_generators L_generators2 L_sbmtests L_champ_total L_checks L_split Properties_multisbm
  Properties_sbm Properties_leiden Properties_pipeline Properties_interior Properties_prune Properties_multiprune Properties_tiling Properties_reproducible Properties_sbmtests Properties_docs.
Open Scope list_scope.
Open Scope R_scope.

(** *** The most common label *)
Lemma occurrences_cons l x y : occurrences (x :: l) y = ((if Nat.eqb y x then 1 else 0) + occurrences l y)%nat.
Proof. unfold occurrences. cbn [filter]. destruct (Nat.eqb y x); reflexivity. Qed.
Lemma occurrences_absent l x : ~ In x l -> occurrences l x = 0%nat.
Proof.
  induction l as [|y l IH]; intros H; [reflexivity|]. rewrite occurrences_cons, IH by (intros I; apply H; right; exact I). destruct (Nat.eqb_spec x y) as [->|N]; [exfalso; apply H; left; reflexivity|reflexivity].
Qed.
Lemma tally part : forall counts, (forall x, In x part -> (x < length counts)%nat) -> exists counts', foldM (fun counts label => py_update counts label S) part counts = Ok counts' /\
  length counts' = length counts /\ forall x, nth x counts' 0%nat = (nth x counts 0 + occurrences part x)%nat.
Proof.
  induction part as [|y part IH]; intros counts H; cbn [foldM].
  - exists counts. split; [reflexivity|]. split; [reflexivity|]. intros x. cbn. lia.
  - destruct (@py_update_ok _ S 0%nat counts y (H y (or_introl eq_refl))) as (c1 & H1 & _). rewrite H1. cbn [bind]. destruct (update_S _ _ _ H1) as [L1 U].
    destruct (IH c1) as (c2 & E & L2 & V); [intros x Hx; rewrite L1; apply H; right; exact Hx|]. exists c2. split; [exact E|]. split; [congruence|]. intros x. rewrite V, U, occurrences_cons, (Nat.eqb_sym x y). lia.
Qed.
Lemma first_max (l : list (nat * nat)) : forall x, StronglySorted (fun a b => (fst a < fst b)%nat) (x :: l) ->
  let r := fold_left (fun m y => if Rltb (INR (snd m)) (INR (snd y)) then y else m) l x in
  In r (x :: l) /\ forall y, In y (x :: l) -> (snd y <= snd r)%nat /\ ((fst y < fst r)%nat -> (snd y < snd r)%nat).
Proof.
  induction l as [|y l IH]; intros x HS; cbn [fold_left].
  - split; [left; reflexivity|]. intros y [<-|[]]. lia.
  - inversion HS as [|? ? HS1 F1]; subst. inversion HS1 as [|? ? HS2 F2]; subst. inversion F1 as [|? ? Lxy F1']; subst.
    destruct (Rltb (INR (snd x)) (INR (snd y))) eqn:E.
    + assert (Q : (snd x < snd y)%nat) by (unfold Rltb in E; destruct (Rlt_dec _ _) as [Lt|]; [apply INR_lt; exact Lt|discriminate]).
      destruct (IH y HS1) as [I M]. split; [right; exact I|]. intros z [<-|Hz]; [destruct (M y (or_introl eq_refl)); lia|apply M; exact Hz].
    + assert (Q : (snd y <= snd x)%nat) by (unfold Rltb in E; destruct (Rlt_dec _ _) as [|Ge]; [discriminate|]; destruct (le_lt_dec (snd y) (snd x)) as [|Lt]; [assumption|apply lt_INR in Lt; contradiction]).
      assert (HSx : StronglySorted (fun a b => (fst a < fst b)%nat) (x :: l)) by (constructor; assumption). destruct (IH x HSx) as [I M].
      split; [destruct I as [<-|I]; [left; reflexivity|right; right; exact I]|]. intros z [<-|[<-|Hz]]; [apply M; left; reflexivity| |apply M; right; exact Hz].
      destruct (M x (or_introl eq_refl)) as [M1 M2]. split; [lia|]. intros Hr. assert (snd x < snd (fold_left (fun m y => if Rltb (INR (snd m)) (INR (snd y)) then y else m) l x))%nat by (apply M2; lia). lia.
Qed.
Lemma enumerate_sorted {A} (l : list A) : forall k, StronglySorted (fun a b : nat * A => (fst a < fst b)%nat) (enumerate_from k l).
Proof.
  induction l as [|x l IH]; intros k; cbn [enumerate_from]; constructor; [apply IH|]. apply Forall_forall. intros [i y] H. cbn [fst].
  assert (In i (map fst (enumerate_from (S k) l))) by (apply in_map_iff; exists (i, y); split; [reflexivity|exact H]). rewrite enumerate_from_map_fst in H0. apply in_seq in H0. lia.
Qed.
Lemma most_common_spec c part : c <> [] -> (forall x, In x part -> In x c) -> exists x, most_common_label c part = Ok (x, occurrences part x) /\ modal_label part x.
Proof.
  intros Hc Hp. unfold most_common_label. destruct (py_max c) as [m|e] eqn:HM; [|destruct c; [contradiction|discriminate]]. apply py_max_spec in HM as [_ HM]. cbn [bind].
  destruct (tally part (repeat 0%nat (m + 1))) as (counts & E & L & V); [intros x Hx; rewrite repeat_length; specialize (HM x (Hp x Hx)); lia|]. rewrite E. cbn [bind]. rewrite repeat_length in L.
  assert (V' : forall x, nth x counts 0%nat = occurrences part x). { intros x. rewrite V. replace (nth x (repeat 0%nat (m + 1)) 0%nat) with 0%nat; [lia|]. symmetry. apply nth_repeat. }
  unfold enumerate. pose proof (enumerate_sorted counts 0) as HS. destruct (enumerate_from 0 counts) as [|p l] eqn:EE.
  { assert (Z : length (enumerate_from 0 counts) = 0%nat) by (rewrite EE; reflexivity). rewrite enumerate_from_length in Z. lia. }
  cbn [py_max_by]. destruct (first_max l p HS) as [I M]. set (r := fold_left _ l p) in *.
  assert (N : forall i y, In (i, y) (p :: l) <-> nth_error counts i = Some y) by (intros i y; rewrite <- EE; apply (in_enumerate counts)).
  destruct r as [i y] eqn:ER. pose proof (proj1 (N i y) I) as Hi. assert (Ly : (i < length counts)%nat) by (apply nth_error_Some; congruence).
  assert (y = occurrences part i) by (rewrite <- V'; symmetry; apply nth_error_nth; exact Hi). subst y. exists i. split; [reflexivity|]. intros z.
  destruct (le_lt_dec (length counts) z) as [Lz|Lz].
  - rewrite <- (V' z), nth_overflow by exact Lz. lia.
  - destruct (M (z, nth z counts 0%nat)) as [M1 M2]; [apply N; apply nth_error_nth'; exact Lz|]. cbn [fst snd] in *. rewrite V' in M1, M2. split; assumption.
Qed.
Lemma modal_unique l x y : modal_label l x -> modal_label l y -> x = y.
Proof. intros Hx Hy. destruct (lt_eq_lt_dec x y) as [[L|E]|L]; [|exact E|]; exfalso; destruct (Hx y) as [A B], (Hy x) as [C D]; lia. Qed.

Lemma slice_window c i : py_slice c (10 * i) (10 * (i + 1)) = window (10 * i) 10 c.
Proof. unfold py_slice, window. f_equal. lia. Qed.
Lemma window_in a n (c : list nat) x : In x (window a n c) -> In x c.
Proof.
  unfold window. intros H. assert (I : In x (skipn a c)). { rewrite <- (firstn_skipn n (skipn a c)). apply in_or_app. left. exact H. }
  rewrite <- (firstn_skipn a c). apply in_or_app. right. exact I.
Qed.
Lemma has_unique (c : list nat) k k' : has_communities c k -> has_communities c k' -> k = k'.
Proof. intros. eapply has_communities_unique; eassumption. Qed.
Lemma check_three_spec c : canonical c -> c <> [] ->
  (check_three_communities c = Ok tt \/ check_three_communities c = Raise AssertionError) /\
  (check_three_communities c = Ok tt <-> forall l0 l1 l2, has_communities c 3 -> modal_label (window 0 10 c) l0 -> modal_label (window 10 10 c) l1 -> modal_label (window 20 10 c) l2 -> l0 <> l1 /\ l1 <> l2).
Proof.
  intros Hc Hn. destruct (num_communities_canonical Hc Hn) as (k & HK & Hk). unfold check_three_communities. rewrite HK. cbn [bind].
  destruct (Nat.eqb_spec k 3) as [->|N]; cbn [negb].
  2: { split; [left; reflexivity|]. split; [|reflexivity]. intros _ l0 l1 l2 H3. exfalso. apply N. eapply has_unique; eassumption. }
  assert (MC : forall i, exists x, most_common_label c (py_slice c (10 * i) (10 * (i + 1))) = Ok (x, occurrences (window (10 * i) 10 c) x) /\ modal_label (window (10 * i) 10 c) x).
  { intros i. rewrite slice_window. apply most_common_spec; [exact Hn|]. intros x. apply window_in. }
  destruct (MC 0%nat) as (x0 & E0 & M0), (MC 1%nat) as (x1 & E1 & M1), (MC 2%nat) as (x2 & E2 & M2), (MC 3%nat) as (x3 & E3 & M3), (MC 4%nat) as (x4 & E4 & M4), (MC 5%nat) as (x5 & E5 & M5).
  cbn [seq mapM]. rewrite E0, E1, E2, E3, E4, E5. cbn [bind fst py_get nth_error].
  assert (P : (x0 <> x1 /\ x1 <> x2) <-> forall l0 l1 l2, has_communities c 3 -> modal_label (window 0 10 c) l0 -> modal_label (window 10 10 c) l1 -> modal_label (window 20 10 c) l2 -> l0 <> l1 /\ l1 <> l2).
  { split.
    - intros Q l0 l1 l2 _ A0 A1 A2. rewrite <- (modal_unique _ _ _ M0 A0), <- (modal_unique _ _ _ M1 A1), <- (modal_unique _ _ _ M2 A2). exact Q.
    - intros Q. apply Q; assumption. }
  rewrite <- P. destruct (Nat.eqb_spec x0 x1) as [->|N01]; cbn [bind].
  - split; [right; reflexivity|]. split; [discriminate|]. intros [X _]. congruence.
  - destruct (Nat.eqb_spec x1 x2) as [->|N12].
    + split; [right; reflexivity|]. split; [discriminate|]. intros [_ X]. congruence.
    + split; [left; reflexivity|]. split; [auto|]. reflexivity.
Qed.
Lemma count_final_spec stable : (forall c, In c stable -> c <> []) -> forall u s, exists u' s', foldM count_final_layer stable (u, s) = Ok (u', s') /\
  ((0 < u')%nat <-> (0 < u)%nat \/ exists c x, In c stable /\ (28 <= occurrences (last_layer c) x)%nat) /\
  ((0 < s')%nat <-> (0 < s)%nat \/ exists c, In c stable /\ forall x, (occurrences (last_layer c) x <= 14)%nat).
Proof.
  induction stable as [|c stable IH]; intros H u s; cbn [foldM].
  - exists u, s. split; [reflexivity|]. split; (split; [tauto|]); [intros [X|(c & x & [] & _)]|intros [X|(c & [] & _)]]; exact X.
  - destruct (most_common_spec c (last_layer c)) as (x & E & M).
    + apply H. left. reflexivity.
    + intros x Hx. unfold last_layer in Hx. rewrite <- (firstn_skipn (length c - 30) c). apply in_or_app. right. exact Hx.
    + set (o := occurrences (last_layer c) x) in *.
      assert (EC : count_final_layer (u, s) c = Ok (if Rltb (9 / 10) (INR o / 30) then (u + 1, s)%nat else if Rltb (INR o / 30) (1 / 2) then (u, s + 1)%nat else (u, s))) by (unfold count_final_layer; change (skipn (length c - 30) c) with (last_layer c); rewrite E; reflexivity).
      rewrite EC. cbn [bind].
      assert (B1 : (exists y, (28 <= occurrences (last_layer c) y)%nat) <-> (28 <= o)%nat) by (split; [intros (y & Hy); destruct (M y) as [M1 _]; unfold o; lia|intros Hy; exists x; exact Hy]).
      assert (B2 : (forall y, (occurrences (last_layer c) y <= 14)%nat) <-> (o <= 14)%nat) by (split; [intros Hy; apply Hy|intros Hy y; destruct (M y) as [M1 _]; unfold o in Hy; lia]).
      assert (R1 : 9 / 10 < INR o / 30 <-> (28 <= o)%nat).
      { split; intros Q.
        - assert (X : INR 27 < INR o) by (replace (INR 27) with 27 by (cbn; lra); lra). apply INR_lt in X. lia.
        - apply le_INR in Q. replace (INR 28) with 28 in Q by (cbn; lra). lra. }
      assert (R2 : INR o / 30 < 1 / 2 <-> (o <= 14)%nat).
      { split; intros Q.
        - assert (X : INR o < INR 15) by (replace (INR 15) with 15 by (cbn; lra); lra). apply INR_lt in X. lia.
        - apply le_INR in Q. replace (INR 14) with 14 in Q by (cbn; lra). lra. }
      assert (C1 : (exists c0 x, In c0 (c :: stable) /\ (28 <= occurrences (last_layer c0) x)%nat) <-> (28 <= o)%nat \/ exists c0 x, In c0 stable /\ (28 <= occurrences (last_layer c0) x)%nat).
      { rewrite <- B1. split.
        - intros (c0 & y & [<-|I] & Q); [left; exists y; exact Q|right; exists c0, y; split; assumption].
        - intros [(y & Q)|(c0 & y & I & Q)]; [exists c, y; split; [left; reflexivity|exact Q]|exists c0, y; split; [right; exact I|exact Q]]. }
      assert (C2 : (exists c0, In c0 (c :: stable) /\ forall x, (occurrences (last_layer c0) x <= 14)%nat) <-> (o <= 14)%nat \/ exists c0, In c0 stable /\ forall x, (occurrences (last_layer c0) x <= 14)%nat).
      { rewrite <- B2. split.
        - intros (c0 & [<-|I] & Q); [left; exact Q|right; exists c0; split; assumption].
        - intros [Q|(c0 & I & Q)]; [exists c; split; [left; reflexivity|exact Q]|exists c0; split; [right; exact I|exact Q]]. }
      clear B1 B2 M E. specialize (IH (fun c0 I => H c0 (or_intror I))). unfold Rltb.
      destruct (Rlt_dec (9 / 10) (INR o / 30)) as [D1|D1].
      * destruct (IH (u + 1)%nat s) as (u' & s' & EF & I1 & I2). exists u', s'. split; [exact EF|]. rewrite C1, C2, I1, I2. apply R1 in D1. split; (split; [|intuition lia]); [intros _; right; left; exact D1|intros [X|X]; [left; exact X|right; right; exact X]].
      * assert (o < 28)%nat by (destruct (le_lt_dec 28 o) as [Q|Q]; [apply R1 in Q; contradiction|exact Q]). destruct (Rlt_dec (INR o / 30) (1 / 2)) as [D2|D2].
        -- destruct (IH u (s + 1)%nat) as (u' & s' & EF & I1 & I2). exists u', s'. split; [exact EF|]. rewrite C1, C2, I1, I2. apply R2 in D2. split; [split; [intros [X|X]; [left; exact X|right; right; exact X]|intuition lia]|]. split; [intros _; right; left; exact D2|intuition lia].
        -- assert (14 < o)%nat by (destruct (le_lt_dec o 14) as [Q|Q]; [apply R2 in Q; contradiction|exact Q]). destruct (IH u s) as (u' & s' & EF & I1 & I2). exists u', s'. split; [exact EF|]. rewrite C1, C2, I1, I2.
           split; (split; [intros [X|X]; [left; exact X|right; right; exact X]|intuition lia]).
Qed.
Lemma checks_fold stable : (forall c, In c stable -> canonical c /\ c <> []) ->
  (foldM (fun _ c => check_three_communities c) stable tt = Ok tt /\ (forall c, In c stable -> check_three_communities c = Ok tt)) \/
  (foldM (fun _ c => check_three_communities c) stable tt = Raise AssertionError /\ ~ forall c, In c stable -> check_three_communities c = Ok tt).
Proof.
  induction stable as [|c stable IH]; intros H; cbn [foldM]; [left; split; [reflexivity|intros c []]|].
  destruct (H c (or_introl eq_refl)) as [Hc Hn]. destruct (proj1 (check_three_spec c Hc Hn)) as [E|E]; rewrite E; cbn [bind].
  - destruct (IH (fun d I => H d (or_intror I))) as [[E1 E2]|[E1 E2]]; [left|right]; (split; [exact E1|]).
    + intros d [<-|I]; [exact E|apply E2; exact I].
    + intros X. apply E2. intros d I. apply X. right. exact I.
  - right. split; [reflexivity|]. intros X. rewrite (X c (or_introl eq_refl)) in E. discriminate.
Qed.

(** The assertions of the multilayer example hold exactly when the stable partitions look as documented; otherwise the test fails with an assertion. *)
Theorem C114_checks : forall stable, (forall c, In c stable -> canonical c /\ c <> []) ->
  (as_documented stable -> documentation_checks stable = Ok tt) /\ (~ as_documented stable -> documentation_checks stable = Raise AssertionError).
Proof.
  intros stable H. unfold documentation_checks, as_documented.
  destruct (count_final_spec stable (fun c I => proj2 (H c I)) 0%nat 0%nat) as (u & s & EF & HU & HS).
  assert (P : (forall c, In c stable -> check_three_communities c = Ok tt) <-> forall c l0 l1 l2, In c stable -> has_communities c 3 -> modal_label (window 0 10 c) l0 -> modal_label (window 10 10 c) l1 -> modal_label (window 20 10 c) l2 -> l0 <> l1 /\ l1 <> l2).
  { split.
    - intros Q c l0 l1 l2 I. destruct (H c I) as [Hc Hn]. apply (proj2 (check_three_spec c Hc Hn)). apply Q. exact I.
    - intros Q c I. destruct (H c I) as [Hc Hn]. apply (proj2 (check_three_spec c Hc Hn)). intros l0 l1 l2. apply Q. exact I. }
  destruct (checks_fold stable H) as [[E1 E2]|[E1 E2]]; rewrite E1; cbn [bind].
  - rewrite EF. cbn [bind fst snd]. destruct (Nat.ltb_spec 0 u) as [Lu|Lu]; [destruct (Nat.ltb_spec 0 s) as [Ls|Ls]|].
    + split; [reflexivity|]. intros X. exfalso. apply X. split; [apply P; exact E2|]. split; [apply HU in Lu as [Lu|Lu]; [lia|exact Lu]|apply HS in Ls as [Ls|Ls]; [lia|exact Ls]].
    + split; [|reflexivity]. intros (_ & _ & X). assert (0 < s)%nat by (apply HS; right; exact X). lia.
    + split; [|reflexivity]. intros (_ & X & _). assert (0 < u)%nat by (apply HU; right; exact X). lia.
  - split; [|reflexivity]. intros (X & _). exfalso. apply E2. apply P. exact X.
Qed.
Print Assumptions C114_checks.

(** *** The pipeline *)
Lemma collected_count {A} (out : nat -> A -> res (list nat)) (tasks : list A) parts : NoDup parts ->
  (forall t, In t parts -> exists i x m, nth_error tasks i = Some x /\ out i x = Ok m /\ canonical_form_of m t) -> (length parts <= length tasks)%nat.
Proof.
  intros ND H. set (f := fun it : nat * A => match out (fst it) (snd it) with Ok m => match sorted_tuple (map Z.of_nat m) with Ok t => t | Raise _ => [] end | Raise _ => [] end).
  rewrite <- (enumerate_from_length tasks 0), <- (map_length f). apply NoDup_incl_length; [exact ND|]. intros t Ht. apply H in Ht as (i & x & m & Hi & Hm & Hc). apply in_map_iff. exists (i, x). split.
  - unfold f. cbn [fst snd]. rewrite Hm. apply sorted_tuple_form in Hc. rewrite Hc. reflexivity.
  - apply (in_enumerate tasks). exact Hi.
Qed.
Lemma linspace_length a b n : length (linspace a b n) = n.
Proof. unfold linspace. rewrite map_length, seq_length. reflexivity. Qed.
Section Pipeline.
Variables (env : run_env) (worker_cache : nat -> split_cache) (d : draws) (g gi : graph) (lv : list nat) (g' gi' : graph) (ws : list R) (layers : list graph).
Hypothesis HG : generate_basic_multilayer_network d = (g, gi, lv).
Hypothesis He : has_edge_at g 89.
Hypothesis Hl : forall t, (t < 3)%nat -> layer_has_edge g lv t.
Hypothesis HR : multilayer_ready env.
Hypothesis Dg : weights_defaulted (le_contains (ru_leiden env) g) g g'.
Hypothesis Di : weights_defaulted (le_contains (ru_leiden env) gi) gi gi'.
Hypothesis Hw : weights g' = Some ws.
Hypothesis HL : layer_graphs g' ws lv layers.
Hypothesis HC : forall j v, In (key_of 0 g' lv, v) (worker_cache j) -> v = layers.
Let found := snd (repeated_parallel_leiden_from_gammas_omegas (ru_leiden env) worker_cache (ru_cpus env) (ru_order env) g gi lv (linspace 0 2 32) (linspace 0 2 32) false).
Lemma found_collects : collects (fun i x => le_multiplex (ru_leiden env) i (map (fun gt => (mkVP RBConfiguration gt (fst x), 1)) layers ++ [(mkVP CPM gi' 0, snd x)]))
  (list_prod (linspace 0 2 32) (linspace 0 2 32)) found.
Proof.
  destruct (C112_documented_network _ _ _ _ HG) as (LV & LN & W & V & Dd & Wt & Nd & HE & Wi & Vi & Wti & TC & F & VM). assert (V90 : vcount g = 90%nat) by (apply F; exact He).
  pose proof (C06_parallel_grid (ru_leiden env) worker_cache (ru_cpus env) (ru_order env) g gi g' gi' ws lv layers (linspace 0 2 32) (linspace 0 2 32) false) as C.
  rewrite !linspace_length in C. unfold found. destruct (repeated_parallel_leiden_from_gammas_omegas _ _ _ _ _ _ _ _ _ _) as [log r]. cbn [snd]. apply C; auto.
  - apply (mr_cpus _ HR).
  - apply (mr_completion _ HR).
  - congruence.
  - intros ->. discriminate.
Qed.
Lemma documented_network_ok parts : found = Ok parts -> grid_found (ru_leiden env) layers gi' (linspace 0 2 32) (linspace 0 2 32) parts /\
  prune_ok_3D (ru_est env) g gi lv (map (map Z.of_nat) parts) /\ (length parts <= 1024)%nat /\ forall c, considered (map (map Z.of_nat) parts) None c <-> In c parts.
Proof.
  intros HP. pose proof found_collects as C. rewrite HP in C. pose proof (collects_Ok _ _ _ C) as IN.
  assert (NDp : NoDup parts).
  { destruct C as [C1 C2]. destruct C1 as (S & E & Nd & _); [|injection E as <-; exact Nd]. intros i x Hx. destruct (le_multiplex _ _ _) as [m|e] eqn:M; [eauto|]. exfalso. destruct C2 as (i' & x' & e' & _ & _ & X); [exists i, x, e; auto|discriminate]. }
  destruct (C112_documented_network _ _ _ _ HG) as (LV & LN & W & V & Dd & Wt & Nd & HE & Wi & Vi & Wti & TC & F & VM). assert (V90 : vcount g = 90%nat) by (apply F; exact He).
  assert (Lp : (length parts <= 1024)%nat).
  { replace 1024%nat with (length (list_prod (linspace 0 2 32) (linspace 0 2 32))) by (rewrite prod_length, !linspace_length; reflexivity). eapply collected_count; [exact NDp|]. intros t Ht. apply IN. exact Ht. }
  assert (SH : forall c, In c parts -> length c = 90%nat /\ canonical c).
  { intros c Hc. apply IN in Hc as (i & p & m & _ & Hm & [Hs Hc]). split; [|exact Hc]. rewrite <- (proj1 Hs).
    rewrite (mr_leiden _ HR _ _ _ (mkVP CPM gi' 0, snd p) Hm) by (apply in_app_iff; right; left; reflexivity). cbn [fst vp_graph].
    destruct (le_contains (ru_leiden env) gi); cbn in Di; [rewrite Di; exact Vi|destruct Di as (-> & _); exact Vi]. }
  split; [split; [exact NDp|exact IN]|]. split; [|split; [exact Lp|intros c; apply considered_canonical; intros p Hp; apply SH; exact Hp]].
  constructor.
  - apply (mr_order _ HR).
  - intros t Ht. apply in_map_iff in Ht as (p & <- & Hp). rewrite map_length, V90. apply SH. exact Hp.
  - rewrite map_length. lia.
  - exact W.
  - exact Wi.
  - congruence.
  - intros ->. discriminate.
  - lia.
  - intros u v I. apply HE in I as (I1 & I2 & _). rewrite !LN by lia. congruence.
  - intros l Il. apply (In_nth _ _ 0%nat) in Il as (i & Li & <-). rewrite LV in Li. rewrite LN by exact Li. destruct (Hl (i / 30)%nat) as (u & v & I & E); [apply Nat.div_lt_upper_bound; lia|]. exists u, v. split; [exact I|exact E].
  - apply (mr_pool _ HR).
  - apply (mr_lp _ HR).
  - apply (mr_hsi _ HR).
Qed.
Lemma documented_multilayer_sound stable : documented_multilayer_stable env worker_cache d = Ok stable ->
  exists parts, grid_found (ru_leiden env) layers gi' (linspace 0 2 32) (linspace 0 2 32) parts /\
    multilayer_stable_among (ru_est env) g gi lv "temporal" 0 2 0 2 (fun c => In c parts) stable.
Proof.
  intros HS. unfold documented_multilayer_stable in HS. rewrite HG in HS. apply bind_ok in HS as (parts & HP & HS). fold found in HP.
  destruct (documented_network_ok parts HP) as (GF & OK & LP & CI). exists parts. split; [exact GF|].
  destruct (prune_to_multilayer_stable_partitions (ru_est env) g gi lv "temporal" (Tuples (map (map Z.of_nat) parts)) 0 2 0 2 None false) as [[w g2] r] eqn:E. cbn [snd] in HS. subst r.
  split; [|split].
  - apply (C43_multilayer_prune_sound _ _ _ _ _ _ _ _ _ _ _ _ _ _ OK E).
  - intros c Hc. destruct (C70_multilayer_prune_sound _ _ _ _ _ _ _ _ _ _ _ _ _ _ c OK (mr_irredundant _ HR) (mr_facets _ HR) E Hc) as (C1 & ge & oe & C2 & C3). split; [apply CI; exact C1|].
    exists ge, oe. split; [exact C2|]. intros x Hx. destruct (C3 x Hx) as (B1 & B2 & B3). split; [exact B1|]. split; [exact B2|]. intros b Hb. apply B3. apply CI. exact Hb.
  - intros c x oe Hc Hx omega B1 B2 Ho. apply (C57_multilayer_prune_complete _ _ _ _ _ _ _ _ _ _ _ _ _ _ c x oe OK (mr_irredundant _ HR) E); [apply CI; exact Hc|exact Hx|exact B1|exact B2|]. intros b Hb. apply Ho. apply CI. exact Hb.
Qed.
Lemma documented_multilayer_returns : (forall i objs n, objs <> [] -> (forall o, In o objs -> vcount (vp_graph (fst o)) = n) -> exists m, le_multiplex (ru_leiden env) i objs = Ok m) ->
  working_solver (ee_champ (ru_est env)) 1024 -> hsi_answers 3 (ee_champ (ru_est env)) ->
  (forall parts c, grid_found (ru_leiden env) layers gi' (linspace 0 2 32) (linspace 0 2 32) parts -> In c parts -> exists x, snd (gamma_omega_estimate (ru_est env) g gi lv c 1000 "temporal" None None None None) = Ok x) ->
  exists stable, documented_multilayer_stable env worker_cache d = Ok stable.
Proof.
  intros HA WS HH HE. unfold documented_multilayer_stable. rewrite HG. fold found.
  destruct (C112_documented_network _ _ _ _ HG) as (_ & _ & _ & _ & _ & _ & _ & _ & _ & Vi & _ & _ & F & _).
  destruct (proj1 found_collects) as (parts & HP & _).
  { intros i x _. apply (HA i _ 90%nat); [intros E; apply app_eq_nil in E as [_ E]; discriminate|]. intros o Io. apply in_app_iff in Io as [Io|[<-|[]]].
    - apply in_map_iff in Io as (gt & <- & Igt). cbn [fst vp_graph]. apply In_nth_error in Igt as (t & Ht). destruct HL as (_ & _ & HL'). destruct (HL' t gt Ht) as (Vg & _). rewrite Vg.
      replace (vcount g') with (vcount g); [apply F; exact He|]. destruct (le_contains (ru_leiden env) g); cbn in Dg; [rewrite Dg; reflexivity|destruct Dg as (-> & _); reflexivity].
    - cbn [fst vp_graph]. destruct (le_contains (ru_leiden env) gi); cbn in Di; [rewrite Di; exact Vi|destruct Di as (-> & _); exact Vi]. }
  rewrite HP. cbn [bind]. destruct (documented_network_ok parts HP) as (GF & OK & LP & CI).
  destruct (C112_documented_network _ _ _ _ HG) as (_ & _ & _ & _ & Dd & _).
  apply C57_multilayer_prune_returns; auto; [lra|lra| |].
  - eapply working_solver_le; [|exact WS]. rewrite map_length. exact LP.
  - intros c Hc. apply CI in Hc. exact (HE parts c GF Hc).
Qed.
End Pipeline.

(** On a network whose last vertex and every layer have an edge, what is returned by the documented multilayer example consists of partitions that some of the 1024 runs on the
    grid found, stable among all of them in the square [0, 2] x [0, 2], and no partition that is strictly the best one at its own estimate is missing. *)
Theorem C114_documented_stable : forall env worker_cache d g gi lv g' gi' ws layers stable,
  generate_basic_multilayer_network d = (g, gi, lv) -> has_edge_at g 89 -> (forall t, (t < 3)%nat -> layer_has_edge g lv t) -> multilayer_ready env ->
  weights_defaulted (le_contains (ru_leiden env) g) g g' -> weights_defaulted (le_contains (ru_leiden env) gi) gi gi' -> weights g' = Some ws -> layer_graphs g' ws lv layers ->
  (forall j v, In (key_of 0 g' lv, v) (worker_cache j) -> v = layers) ->
  documented_multilayer_stable env worker_cache d = Ok stable ->
  exists parts, grid_found (ru_leiden env) layers gi' (linspace 0 2 32) (linspace 0 2 32) parts /\
    multilayer_stable_among (ru_est env) g gi lv "temporal" 0 2 0 2 (fun c => In c parts) stable.
Proof. intros env wc d g gi lv g' gi' ws layers stable H1 H2 H3 H4 H5 H6 H7 H8 H9 H. eapply documented_multilayer_sound; eassumption. Qed.
Print Assumptions C114_documented_stable.
(** It returns if leidenalg and the routines behind CHAMP_3D answer and every partition found has an estimate. *)
Theorem C114_returns : forall env worker_cache d g gi lv g' gi' ws layers,
  generate_basic_multilayer_network d = (g, gi, lv) -> has_edge_at g 89 -> (forall t, (t < 3)%nat -> layer_has_edge g lv t) -> multilayer_ready env ->
  weights_defaulted (le_contains (ru_leiden env) g) g g' -> weights_defaulted (le_contains (ru_leiden env) gi) gi gi' -> weights g' = Some ws -> layer_graphs g' ws lv layers ->
  (forall j v, In (key_of 0 g' lv, v) (worker_cache j) -> v = layers) ->
  (forall i objs n, objs <> [] -> (forall o, In o objs -> vcount (vp_graph (fst o)) = n) -> exists m, le_multiplex (ru_leiden env) i objs = Ok m) ->
  working_solver (ee_champ (ru_est env)) 1024 -> hsi_answers 3 (ee_champ (ru_est env)) ->
  (forall parts c, grid_found (ru_leiden env) layers gi' (linspace 0 2 32) (linspace 0 2 32) parts -> In c parts -> exists x, snd (gamma_omega_estimate (ru_est env) g gi lv c 1000 "temporal" None None None None) = Ok x) ->
  exists stable, documented_multilayer_stable env worker_cache d = Ok stable.
Proof. intros env wc d g gi lv g' gi' ws layers H1 H2 H3 H4 H5 H6 H7 H8 H9 H10 H11 H12 H13. eapply documented_multilayer_returns; eassumption. Qed.
Print Assumptions C114_returns.
(** The test passes exactly when the stable partitions it gets look as documented. *)
Theorem C114_passes : forall env worker_cache d g gi lv g' gi' ws layers,
  generate_basic_multilayer_network d = (g, gi, lv) -> has_edge_at g 89 -> (forall t, (t < 3)%nat -> layer_has_edge g lv t) -> multilayer_ready env ->
  weights_defaulted (le_contains (ru_leiden env) g) g g' -> weights_defaulted (le_contains (ru_leiden env) gi) gi gi' -> weights g' = Some ws -> layer_graphs g' ws lv layers ->
  (forall j v, In (key_of 0 g' lv, v) (worker_cache j) -> v = layers) ->
  (test_basic_multilayer_example env worker_cache d = Ok tt <-> exists stable, documented_multilayer_stable env worker_cache d = Ok stable /\ as_documented stable).
Proof.
  intros env wc d g gi lv g' gi' ws layers H1 H2 H3 H4 H5 H6 H7 H8 H9. unfold test_basic_multilayer_example.
  assert (SH : forall stable, documented_multilayer_stable env wc d = Ok stable -> forall c, In c stable -> canonical c /\ c <> []).
  { intros stable HS c Hc. destruct (C114_documented_stable env wc d g gi lv g' gi' ws layers stable H1 H2 H3 H4 H5 H6 H7 H8 H9 HS) as (parts & (_ & GF) & (_ & S2 & _)).
    destruct (S2 c Hc) as (I & _). apply GF in I as (i & p & m & _ & Hm & [Hs Hcn]). split; [exact Hcn|]. intros ->.
    pose proof (mr_leiden _ H4 _ _ _ (mkVP CPM gi' 0, snd p) Hm) as L. cbn [fst vp_graph] in L.
    destruct (C112_documented_network _ _ _ _ H1) as (_ & _ & _ & _ & _ & _ & _ & _ & _ & Vi & _). assert (vcount gi' = 90%nat) by (destruct (le_contains (ru_leiden env) gi); cbn in H6; [rewrite H6; exact Vi|destruct H6 as (-> & _); exact Vi]).
    specialize (L ltac:(apply in_app_iff; right; left; reflexivity)). pose proof (proj1 Hs) as L2. cbn [length] in L2. lia. }
  destruct (documented_multilayer_stable env wc d) as [stable|e] eqn:E; cbn [bind].
  - destruct (C114_checks stable (SH stable eq_refl)) as [A B]. split.
    + intros X. exists stable. split; [reflexivity|]. destruct (classic (as_documented stable)) as [Y|Y]; [exact Y|]. rewrite (B Y) in X. discriminate.
    + intros (s & X & Y). injection X as <-. apply A. exact Y.
  - split; [discriminate|]. intros (s & X & _). discriminate.
Qed.
Print Assumptions C114_passes.

(** *** What the assertions leave open, and examples *)
Lemma modal_const a b n l : window a n l = repeat b n -> (0 < n)%nat -> modal_label (window a n l) b.
Proof.
  intros -> Hn y. assert (O : forall k, occurrences (repeat b k) b = k) by (induction k as [|k IH]; [reflexivity|]; cbn [repeat]; rewrite occurrences_cons, IH, Nat.eqb_refl; lia).
  rewrite O. destruct (Nat.eq_dec y b) as [->|N]; [rewrite O; lia|]. rewrite (occurrences_absent (repeat b n) y); [lia|]. intros I. apply repeat_spec in I. contradiction.
Qed.
(** First and third block in one community, which the comment in the test excludes, and the second alone; the last layer on its own. *)
Definition merged_blocks : list nat := (repeat 0 10 ++ repeat 1 10 ++ repeat 0 10 ++ repeat 0 10 ++ repeat 1 10 ++ repeat 0 10 ++ repeat 2 30)%nat.
Definition planted_blocks : list nat := (repeat 0 10 ++ repeat 1 10 ++ repeat 2 10 ++ repeat 0 10 ++ repeat 1 10 ++ repeat 2 10 ++ repeat 2 30)%nat.
Definition split_last : list nat := (repeat 0 60 ++ repeat 1 10 ++ repeat 2 10 ++ repeat 3 10)%nat.
Lemma merged_canonical : canonical merged_blocks /\ canonical planted_blocks /\ canonical split_last.
Proof. split; [|split]; eapply sorted_tuple_canonical; [instantiate (1 := map Z.of_nat merged_blocks)|instantiate (1 := map Z.of_nat planted_blocks)|instantiate (1 := map Z.of_nat split_last)]; vm_compute; reflexivity. Qed.
Lemma occurrences_last c k : last_layer c = repeat k 30 -> (28 <= occurrences (last_layer c) k)%nat.
Proof. intros ->. assert (O : forall n, length (filter (Nat.eqb k) (repeat k n)) = n) by (induction n as [|n IH]; [reflexivity|]; cbn [repeat filter]; rewrite Nat.eqb_refl; cbn [length]; rewrite IH; reflexivity). change (28 <= length (filter (Nat.eqb k) (repeat k 30)))%nat. rewrite O. lia. Qed.
Lemma split_few x : (occurrences (last_layer split_last) x <= 14)%nat.
Proof.
  destruct (in_dec Nat.eq_dec x (last_layer split_last)) as [I|I]; [|rewrite occurrences_absent by exact I; lia].
  assert (x = 1 \/ x = 2 \/ x = 3)%nat as [-> | [-> | ->]]; [|vm_compute; lia|vm_compute; lia|vm_compute; lia].
  assert (E : last_layer split_last = (repeat 1 10 ++ repeat 2 10 ++ repeat 3 10)%nat) by reflexivity. rewrite E in I. apply in_app_iff in I as [I|I]; [apply repeat_spec in I; auto|]. apply in_app_iff in I as [I|I]; apply repeat_spec in I; auto.
Qed.
Lemma four_communities : has_communities split_last 4.
Proof. apply num_communities_has. reflexivity. Qed.
Lemma looks_documented c l0 l1 l2 : window 0 10 c = repeat l0 10 -> window 10 10 c = repeat l1 10 -> window 20 10 c = repeat l2 10 -> l0 <> l1 -> l1 <> l2 ->
  (exists k, last_layer c = repeat k 30) -> as_documented [c; split_last].
Proof.
  intros W0 W1 W2 N1 N2 (k & EK). split; [|split].
  - intros c' m0 m1 m2 [<-|[<-|[]]] H3 M0 M1 M2.
    + rewrite (modal_unique _ _ _ M0 (modal_const 0 l0 10 c W0 ltac:(lia))), (modal_unique _ _ _ M1 (modal_const 10 l1 10 c W1 ltac:(lia))), (modal_unique _ _ _ M2 (modal_const 20 l2 10 c W2 ltac:(lia))). split; assumption.
    + exfalso. pose proof (has_unique _ _ _ H3 four_communities). lia.
  - exists c, k. split; [left; reflexivity|]. apply occurrences_last. exact EK.
  - exists split_last. split; [right; left; reflexivity|]. apply split_few.
Qed.
(** The assertions do not compare the first block with the third: stable partitions that put both in one community pass. *)
Theorem C114_refuted_blocks : (forall c, In c [merged_blocks; split_last] -> canonical c /\ c <> []) /\ has_communities merged_blocks 3 /\ modal_label (window 0 10 merged_blocks) 0 /\ modal_label (window 20 10 merged_blocks) 0 /\
  documentation_checks [merged_blocks; split_last] = Ok tt.
Proof.
  assert (SH : forall c, In c [merged_blocks; split_last] -> canonical c /\ c <> []) by (intros c [<-|[<-|[]]]; (split; [apply merged_canonical|discriminate])).
  split; [exact SH|]. split; [apply num_communities_has; reflexivity|]. split; [apply modal_const; [reflexivity|lia]|]. split; [apply modal_const; [reflexivity|lia]|].
  apply (C114_checks _ SH). apply (looks_documented merged_blocks 0%nat 1%nat 0%nat); try reflexivity; try discriminate. exists 2%nat. reflexivity.
Qed.
Print Assumptions C114_refuted_blocks.
Example C114_checks_example : documentation_checks [planted_blocks; split_last] = Ok tt /\ documentation_checks [planted_blocks] = Raise AssertionError /\ documentation_checks [] = Raise AssertionError.
Proof.
  assert (SH : forall c, In c [planted_blocks; split_last] -> canonical c /\ c <> []) by (intros c [<-|[<-|[]]]; (split; [apply merged_canonical|discriminate])).
  split; [|split].
  - apply (C114_checks _ SH). apply (looks_documented planted_blocks 0%nat 1%nat 2%nat); try reflexivity; try discriminate. exists 2%nat. reflexivity.
  - apply C114_checks; [intros c [<-|[]]; apply SH; left; reflexivity|]. intros (_ & _ & (c & [<-|[]] & X)). specialize (X 2%nat). assert (28 <= occurrences (last_layer planted_blocks) 2)%nat by (apply occurrences_last; reflexivity). lia.
  - apply C114_checks; [intros c []|]. intros (_ & (c & x & [] & _) & _).
Qed.

(** The whole example on the network with every pair linked, with leidenalg putting everything in one community. *)
Example C114_documented_stable_example : exists env d g gi lv g' gi' ws layers stable,
  generate_basic_multilayer_network d = (g, gi, lv) /\ has_edge_at g 89 /\ (forall t, (t < 3)%nat -> layer_has_edge g lv t) /\ multilayer_ready env /\
  weights_defaulted (le_contains (ru_leiden env) g) g g' /\ weights_defaulted (le_contains (ru_leiden env) gi) gi gi' /\ weights g' = Some ws /\ layer_graphs g' ws lv layers /\
  documented_multilayer_stable env (fun _ => []) d = Ok stable.
Proof.
  destruct all_linked as (d & g & gi & lv & HG & _ & He & Hl). destruct (C72_working_routines_exist 3 1024 (or_intror eq_refl)) as (ce & E1 & E2 & WS & LP & X & IR & FF & HA).
  destruct (C112_documented_network _ _ _ _ HG) as (LV & LN & W & V & Dd & Wt & Nd & HE & Wi & Vi & Wti & TC & F & VM). assert (V90 : vcount g = 90%nat) by (apply F; exact He).
  set (env := mkRun (mkLeiden (fun _ => false) (fun _ _ => Raise ValueError) (fun _ objs => match objs with [] => Ok [] | o :: _ => if forallb (fun o' => Nat.eqb (vcount (vp_graph (fst o'))) (vcount (vp_graph (fst o)))) objs then Ok (repeat 0%nat (vcount (vp_graph (fst o)))) else Raise ValueError end))
                    (seq 0 1024) 1 (mkEst (fun _ => false) (fun _ x => x) ce (fun l => l) (fun _ => true))).
  assert (HR : multilayer_ready env).
  { constructor; cbn [env ru_cpus ru_order ru_leiden ru_est ee_set_order ee_champ]; auto; try lia.
    - intros k objs m o HM I. cbn [le_multiplex] in HM. destruct objs as [|o0 objs]; [destruct I|]. destruct (forallb _ _) eqn:FB; [|discriminate]. injection HM as <-. rewrite repeat_length.
      apply (proj1 (forallb_forall _ _) FB) in I. apply Nat.eqb_eq in I. symmetry. exact I.
    - intros l. apply Permutation_refl.
    - rewrite E1, E2. split; [lia|apply Permutation_refl]. }
  set (ws := repeat 1 (length (edges g))). set (g' := mkGraph (vcount g) (directed g) (edges g) (Some ws)). set (gi' := mkGraph (vcount gi) (directed gi) (edges gi) (Some (repeat 1 (length (edges gi))))).
  assert (Dg : weights_defaulted (le_contains (ru_leiden env) g) g g').
  { cbn. split; [reflexivity|]. split; [reflexivity|]. split; [reflexivity|]. exists ws. split; [reflexivity|]. split; [apply repeat_length|]. intros w I. apply repeat_spec in I. exact I. }
  assert (Dgi : weights_defaulted (le_contains (ru_leiden env) gi) gi gi').
  { cbn. split; [reflexivity|]. split; [reflexivity|]. split; [reflexivity|]. eexists. split; [reflexivity|]. split; [apply repeat_length|]. intros w I. apply repeat_spec in I. exact I. }
  assert (Wg' : wf_graph g') by (exact (weighted_wf (ru_leiden env) W)).
  destruct (@split_layer_graphs g' ws lv Wg' eq_refl) as (layers & _ & HL); [intros E; rewrite E in LV; discriminate|cbn [g' vcount]; lia|].
  assert (Q : exists stable, documented_multilayer_stable env (fun _ => []) d = Ok stable).
  { apply (C114_returns env (fun _ => []) d g gi lv g' gi' ws layers); auto.
    - intros j v [].
    - intros i objs n Hne HV. cbn [env ru_leiden le_multiplex]. destruct objs as [|o objs]; [contradiction|]. eexists. rewrite (proj2 (forallb_forall _ _)); [reflexivity|].
      intros o' Io. apply Nat.eqb_eq. rewrite (HV o' Io), (HV o (or_introl eq_refl)). reflexivity.
    - intros parts c (_ & GF) Hc. apply GF in Hc as (i & p & m & _ & Hm & [Hs Hcn]). cbn [env ru_leiden le_multiplex] in Hm.
      assert (M : m = repeat 0%nat (length m)) by (destruct (map _ layers ++ _) as [|o objs]; [injection Hm as <-; reflexivity|]; destruct (forallb _ _); [|discriminate]; injection Hm as <-; rewrite repeat_length; reflexivity).
      assert (Lm : length m = 90%nat).
      { assert (HM : le_multiplex (ru_leiden env) i (map (fun gt => (mkVP RBConfiguration gt (fst p), 1)) layers ++ [(mkVP CPM gi' 0, snd p)]) = Ok m) by exact Hm.
        rewrite (mr_leiden _ HR _ _ _ (mkVP CPM gi' 0, snd p) HM) by (apply in_app_iff; right; left; reflexivity). exact Vi. }
      assert (Hc0 : c = repeat 0%nat 90).
      { symmetry. rewrite Lm in M. rewrite M in Hs. eapply canonical_unique; [|exact Hcn|exact Hs]. eapply sorted_tuple_canonical. instantiate (1 := map Z.of_nat (repeat 0%nat 90)). vm_compute. reflexivity. }
      subst c. assert (VV : valid_multilayer g' gi ws lv "temporal") by (apply (VM "temporal"%string); [left; reflexivity|split; assumption]).
      destruct (C37_exact (ru_est env) g g' gi ws lv (repeat 0%nat 90) "temporal" 1000 None None None None W Wi) as (pers & pr & r & _ & HP & _ & HGO & _ & _ & HOK); auto; try (left; reflexivity); try (intros w I; apply repeat_spec in I; lra); try (rewrite repeat_length; symmetry; exact V90).
      rewrite HGO. cbn [snd]. destruct HOK as (o & -> & _); [|eexists; reflexivity]. left.
        assert (K1 : list_max (map S (repeat 0%nat 90)) = 1%nat) by reflexivity. rewrite K1 in HP. destruct HP as [(_ & ->)|[(_ & X1 & _)|(_ & X1 & _)]]; [lra|lia|lia]. }
  destruct Q as (stable & Q). exists env, d, g, gi, lv, g', gi', ws, layers, stable. repeat (split; [assumption|]). split; [reflexivity|]. split; assumption.
Qed.
