(** Lemmas for the SBM and karate club experiments. *)
From Coq Require Import String.
From Verif Require Import PyBase PyGraph M_partition M_champ M_leiden M_estimation_utils M_checks M_generators M_sbmtests
  Spec Spec_graph Spec_leiden Spec_champ Spec_prune Spec_plotting Spec_stability Spec_lfr Spec_sbmtests
  L_base L_canon L_leiden L_multileiden L_sbm2 L_plotting L_prune Properties_champ Properties_leiden Properties_pipeline.
Open Scope list_scope.
Open Scope R_scope.
Set Implicit Arguments.

(** *** Stable partitions *)
Lemma champ_stable env G n parts lo hi ests : run_ready env G n -> NoDup parts -> (length parts <= n)%nat -> (forall c, In c parts -> length c = vcount G) ->
  run_CHAMP env G parts lo hi = Ok ests ->
  stable_among (ru_est env) G lo hi (fun c => In c parts) (gamma_estimates_to_stable_partitions ests) /\ forall x, In x ests -> In (snd (fst x)) parts.
Proof.
  intros [R1 R2 R3 R4 R5 R6 R7 R8 R9] Nd Hn HL H. unfold run_CHAMP in H. apply bind_ok in H as (ranges & HR & HE).
  set (ps := ee_set_order (ru_est env) parts) in *. assert (PP : Permutation ps parts) by apply R6.
  assert (I : forall c, In c ps <-> In c parts) by (intros c; split; apply Permutation_in; [exact PP|apply Permutation_sym; exact PP]).
  assert (NP : NoDup ps) by (eapply Permutation_NoDup; [apply Permutation_sym; exact PP|exact Nd]).
  assert (C : champ_ok_2D (ee_champ (ru_est env)) G ps).
  { constructor; auto; [|intros c Hc; apply HL; apply I; exact Hc]. split; [apply R7|]. split; [apply R7|]. rewrite (Permutation_length PP). lia. }
  destruct (ranges_to_gamma_estimates (ru_est env) G ranges) as [g' ests'] eqn:EE. cbn [snd] in HE. subst ests'.
  pose proof (ranges_estimates _ _ R1 EE) as F.
  assert (Hs : selects in_own_range (fun x => snd (fst x)) ests (gamma_estimates_to_stable_partitions ests)) by (apply selects_filter; intros; apply within_iff).
  assert (HB : forall x, In x ests -> exists r, In r ranges /\ estimated_from (ru_est env) G r x).
  { clear - F. induction F as [|a b l l' Hab F IH]; intros x Hx; [destruct Hx|]. destruct Hx as [<-|Hx]; [exists a; split; [left|]; auto|]. destruct (IH x Hx) as (r & A & B). exists r. split; [right|]; auto. }
  assert (HF : forall r, In r ranges -> exists x, In x ests /\ estimated_from (ru_est env) G r x).
  { clear - F. induction F as [|a b l l' Hab F IH]; intros x Hx; [destruct Hx|]. destruct Hx as [<-|Hx]; [exists b; split; [left|]; auto|]. destruct (IH x Hx) as (r & A & B). exists r. split; [right|]; auto. }
  assert (Hin : forall c, In c (gamma_estimates_to_stable_partitions ests) <-> exists s e x, In (s, e, c) ranges /\ snd (gamma_estimate (ru_est env) G (Membership c)) = Ok (Some (Fin x)) /\ s <= x <= e).
  { intros c. rewrite (selects_in c Hs). split.
    - intros ([r o] & Hi & (v & Hv & Hr) & Hc). cbn [fst snd] in *. subst o. destruct (HB _ Hi) as (r' & Hr' & E1 & E2). cbn [fst snd] in *. subst r' c. destruct r as [[s e] c]. exists s, e, v. auto.
    - intros (s & e & x & Hi & Hest & Hr). destruct (HF _ Hi) as ([r o] & Hb & E1 & E2). cbn [fst snd] in *. subst r. rewrite Hest in E2. injection E2 as E2. subst o. exists (s, e, c, Some (Fin x)). split; auto. split; [|reflexivity]. exists x. auto. }
  split; [split; [|split]|].
  - destruct (proj2 (proj2 (C23_ranges_well_formed _ _ _ _ _ _ _ C HR))) as (idx & Nidx & F2).
    assert (Nr : NoDup (map snd ranges)).
    { clear - Nidx F2 NP. induction F2 as [|i r idx ranges Hi F2 IH]; [constructor|]. inversion Nidx; subst. cbn [map]. constructor; auto.
      intros Hin. apply in_map_iff in Hin as (r' & E & Hin).
      assert (Q : exists j, In j idx /\ nth_error ps j = Some (snd r')).
      { clear - F2 Hin. induction F2 as [|a b l l' Hab F IH]; [destruct Hin|]. destruct Hin as [->|Hin]; [exists a; split; [left|]; auto|]. destruct (IH Hin) as (j & A & B). exists j. split; [right|]; auto. }
      destruct Q as (j & Hj & Ej). rewrite E in Ej. assert (i = j); [|subst; contradiction].
      apply (proj1 (NoDup_nth_error ps) NP); [|congruence]. apply nth_error_Some. congruence. }
    assert (E3 : map (fun x => snd (fst x)) ests = map snd ranges).
    { clear - F. induction F as [|a b l l' [Hab _] F IH]; [reflexivity|]. cbn [map]. rewrite Hab, IH. reflexivity. }
    unfold gamma_estimates_to_stable_partitions. rewrite <- E3 in Nr. clear - Nr. induction ests as [|a l IH]; [constructor|]. cbn [map filter] in *. inversion Nr; subst.
    destruct (within _ _ _); auto. cbn [map]. constructor; auto. intros Hin. apply H1. apply in_map_iff in Hin as (b & E & Hin). apply filter_In in Hin as [Hin _]. apply in_map_iff. eauto.
  - intros c Hc. apply Hin in Hc as (s & e & x & Hr & He & Hx). destruct (C21_ranges_are_optimal _ _ _ _ _ _ _ C HR s e c Hr) as [Hp Hopt].
    destruct (proj1 (C23_ranges_well_formed _ _ _ _ _ _ _ C HR) s e c Hr) as (B1 & B2 & B3).
    split; [apply I; exact Hp|]. exists x. split; [exact He|]. split; [lra|]. intros d Hd. apply Hopt; auto. apply I. exact Hd.
  - intros c x Hc He Hx Hb. destruct (C22_strictly_best_is_returned _ _ _ _ _ _ _ x c C HR Hx) as (s & e & Hr & Hse).
    + apply I. exact Hc.
    + intros d Hd N. apply Hb; auto. apply I. exact Hd.
    + apply Hin. exists s, e, x. auto.
  - intros x Hx. destruct (HB x Hx) as (r & Hr & E & _). rewrite E. destruct r as [[s e] c]. cbn [snd]. apply I. apply (C21_ranges_are_optimal _ _ _ _ _ _ _ C HR s e c Hr).
Qed.

(** *** Parallel runs *)
Lemma filter_app_collect events : forall acc S, foldM (fun total (ev : nat * R * res (list nat)) => let! m := snd ev in let! t := sorted_tuple (map Z.of_nat m) in Ok (set_add t total)) events acc = Ok S -> (length S <= length acc + length events)%nat.
Proof.
  induction events as [|ev events IH]; intros acc S H; cbn [foldM] in H; [injection H as <-; cbn; lia|]. destruct (snd ev) as [m|e]; cbn [bind] in H; [|discriminate]. destruct (sorted_tuple (map Z.of_nat m)) as [t|e]; cbn [bind] in H; [|discriminate].
  apply IH in H. cbn [length]. assert (length (set_add t acc) <= Datatypes.S (length acc))%nat by (unfold set_add; destruct (in_dec _ _ _); cbn; lia). lia.
Qed.
Lemma parallel_found env G gammas keywords parts : (forall k, In k keywords -> In k louvain_parameters) -> Permutation (ru_order env) (seq 0 (length gammas)) ->
  call_parallel_louvain env G gammas keywords = Ok parts ->
  all_found (ru_leiden env) (weighted (ru_leiden env) G) gammas parts /\ (length parts <= length gammas)%nat.
Proof.
  intros Hk Ho H. unfold call_parallel_louvain in H. destruct (forallb _ _); [|discriminate].
  destruct (@parallel_gammas (ru_leiden env) (ru_cpus env) (ru_order env) G (weighted (ru_leiden env) G) gammas false Ho (weighted_defaulted _ _)) as [P C].
  split; [split; [|apply collects_Ok; rewrite <- H; exact C]|].
  - rewrite H in C. destruct C as [C1 C2]. destruct C1 as (S & E & Nd & _); [|injection E as <-; exact Nd].
    intros i x Hi. destruct (le_find (ru_leiden env) i (mkVP RBConfiguration (weighted (ru_leiden env) G) x)) as [m|e] eqn:E; [eauto|]. exfalso. destruct C2 as (? & ? & ? & _ & _ & F); eauto. discriminate.
  - unfold repeated_parallel_leiden_from_gammas in H, P. destruct (imap_unordered _ _ _ _) as [events|e]; cbn [fst snd] in *; [|discriminate].
    apply Permutation_length in P. rewrite map_length in P. unfold enumerate in P. apply filter_app_collect in H. cbn [length] in H. rewrite P in H.
    assert (EL : forall k (l : list R), length (enumerate_from k l) = length l) by (clear; intros k l; revert k; induction l as [|x l IH]; intros k; cbn; auto). rewrite EL in H. lia.
Qed.

(** *** The pass over the estimates *)
Lemma stability_spec ests : (forall x, In x ests -> exists k, num_communities (snd (fst x)) = Ok k) ->
  exists s2 s3, stability ests = Ok (s2, s3) /\
    (s2 = true <-> exists c, In c (gamma_estimates_to_stable_partitions ests) /\ num_communities c = Ok 2%nat) /\
    (s3 = true <-> exists c, In c (gamma_estimates_to_stable_partitions ests) /\ num_communities c = Ok 3%nat).
Proof.
  intros H. unfold stability.
  assert (X : forall ests a b, (forall x, In x ests -> exists k, num_communities (snd (fst x)) = Ok k) -> exists s2 s3, foldM stability_step ests (a, b) = Ok (s2, s3) /\
    (s2 = true <-> a = true \/ exists c, In c (gamma_estimates_to_stable_partitions ests) /\ num_communities c = Ok 2%nat) /\
    (s3 = true <-> b = true \/ exists c, In c (gamma_estimates_to_stable_partitions ests) /\ num_communities c = Ok 3%nat)).
  { clear. induction ests as [|x ests IH]; intros a b H; cbn [foldM].
    - exists a, b. split; [reflexivity|]. split; (split; [auto|intros [E|(c & [] & _)]; exact E]).
    - destruct x as [[[s e] c] o]. destruct (H _ (or_introl eq_refl)) as (k & Hk). cbn [fst snd] in Hk.
      assert (H' : forall x, In x ests -> exists k, num_communities (snd (fst x)) = Ok k) by (intros x Hx; apply H; right; exact Hx).
      unfold stability_step at 1. unfold gamma_estimates_to_stable_partitions. cbn [filter fst snd]. destruct (within s e o) eqn:EW.
      + rewrite Hk. cbn [bind map fst snd]. destruct (Nat.eqb_spec k 2) as [->|N2].
        * cbn [bind]. destruct (IH true b H') as (s2 & s3 & E & A & B). exists s2, s3. split; [exact E|]. split.
          -- rewrite A. split; [intros _; right; exists c; split; [left; reflexivity|exact Hk]|auto].
          -- rewrite B. split; [intros [Y|(d & D1 & D2)]; [auto|right; exists d; split; [right; exact D1|exact D2]]|]. intros [Y|(d & [<-|D1] & D2)]; [auto|congruence|right; exists d; split; [exact D1|exact D2]].
        * destruct (Nat.eqb_spec k 3) as [->|N3]; cbn [bind].
          -- destruct (IH a true H') as (s2 & s3 & E & A & B). exists s2, s3. split; [exact E|]. split.
             ++ rewrite A. split; [intros [Y|(d & D1 & D2)]; [auto|right; exists d; split; [right; exact D1|exact D2]]|]. intros [Y|(d & [<-|D1] & D2)]; [auto|congruence|right; exists d; split; [exact D1|exact D2]].
             ++ rewrite B. split; [intros _; right; exists c; split; [left; reflexivity|exact Hk]|auto].
          -- destruct (IH a b H') as (s2 & s3 & E & A & B). exists s2, s3. split; [exact E|]. split.
             ++ rewrite A. split; [intros [Y|(d & D1 & D2)]; [auto|right; exists d; split; [right; exact D1|exact D2]]|]. intros [Y|(d & [<-|D1] & D2)]; [auto|congruence|right; exists d; split; [exact D1|exact D2]].
             ++ rewrite B. split; [intros [Y|(d & D1 & D2)]; [auto|right; exists d; split; [right; exact D1|exact D2]]|]. intros [Y|(d & [<-|D1] & D2)]; [auto|congruence|right; exists d; split; [exact D1|exact D2]].
      + cbn [bind]. apply IH. exact H'. }
  destruct (X ests false false H) as (s2 & s3 & E & A & B). exists s2, s3. split; [exact E|]. split; [rewrite A|rewrite B]; (split; [intros [Y|Y]; [discriminate|exact Y]|auto]).
Qed.

(** *** Loops *)
Lemma how_many_app {A} (f : A -> bool) l l' : how_many f (l ++ l') = (how_many f l + how_many f l')%nat.
Proof. induction l; cbn [app how_many]; [reflexivity|]. rewrite IHl. lia. Qed.
Lemma how_many_le {A} (f g : A -> bool) l : (forall x, f x = true -> g x = true) -> (how_many f l <= how_many g l)%nat.
Proof. intros H. induction l; cbn [how_many]; [lia|]. specialize (H a). destruct (f a); [rewrite H by reflexivity; lia|]. destruct (g a); lia. Qed.
Lemma how_many_length {A} (f : A -> bool) l : (how_many f l <= length l)%nat.
Proof. induction l; cbn [how_many length]; [lia|]. destruct (f a); lia. Qed.
Lemma how_many_union {A} (f g : A -> bool) l : (how_many f l + how_many g l <= length l + how_many (fun x => f x && g x) l)%nat.
Proof. induction l; cbn [how_many length]; [lia|]. destruct (f a), (g a); cbn; lia. Qed.

Lemma bistable_loop_spec n : forall trials c c', bistable_loop n trials c = Some (Ok c') -> (ct_total c <= n)%nat ->
  exists used rest, trials = used ++ rest /\ (forall t, In t used -> exists o, t = Ok o) /\ ct_total c' = n /\ n = (ct_total c + length (counted used))%nat /\
    ct_2 c' = (ct_2 c + how_many fst (counted used))%nat /\ ct_3 c' = (ct_3 c + how_many snd (counted used))%nat /\
    ct_both c' = (ct_both c + how_many (fun s => fst s && snd s) (counted used))%nat /\
    (forall t used', used = used' ++ [t] -> exists s, t = Ok (Some s)).
Proof.
  induction trials as [|t trials IH]; intros c c' H L; cbn [bistable_loop] in H.
  - destruct (Nat.ltb_spec (ct_total c) n); [discriminate|]. injection H as <-. exists [], []. split; [reflexivity|]. split; [intros t []|]. cbn [counted length how_many]. repeat (split; [lia|]). intros t [|] E; discriminate.
  - destruct (Nat.ltb_spec (ct_total c) n) as [Hl|Hl].
    + destruct t as [[st|]|e]; [| |discriminate].
      * destruct (IH _ _ H) as (used & rest & -> & A & B & C & D & E & F & G); [destruct st; cbn; lia|]. exists (Ok (Some st) :: used), rest. split; [reflexivity|]. split; [intros t [<-|Ht]; [eauto|auto]|].
        destruct st as [b2 b3]. cbn [counted how_many length fst snd count_trial ct_total ct_2 ct_3 ct_both] in *. split; [exact B|]. split; [lia|]. split; [rewrite D; destruct b2; lia|]. split; [rewrite E; destruct b3; lia|]. split; [rewrite F; destruct b2, b3; cbn [andb]; lia|].
        intros t used' Eu. destruct used' as [|x used']; [cbn in Eu; injection Eu as <- _; eauto|]. cbn in Eu. injection Eu as _ Eu. eapply G; exact Eu.
      * destruct (IH _ _ H) as (used & rest & -> & A & B & C & D & E & F & G); [exact L|]. exists (Ok None :: used), rest. split; [reflexivity|]. split; [intros t [<-|Ht]; [eauto|auto]|].
        cbn [counted]. repeat (split; [assumption|]). intros t used' Eu. destruct used' as [|x used']; [|cbn in Eu; injection Eu as _ Eu; eapply G; exact Eu].
        cbn in Eu. injection Eu as <- Eu. subst used. cbn [counted length] in C. lia.
    + injection H as <-. exists [], (t :: trials). split; [reflexivity|]. split; [intros x []|]. cbn [counted length how_many]. repeat (split; [lia|]). intros x [|] E; discriminate.
Qed.
