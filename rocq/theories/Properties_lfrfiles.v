(** C98: the LFR experiment can be killed and restarted at any time, except while a file is being written. *)
From Coq Require Import String.
From Flocq Require Import Core.
From Verif Require Import PyBase PyGraph M_partition M_champ M_leiden M_estimation_utils M_checks M_generators M_lfr Spec Spec_graph Spec_prune Spec_lfr L_base L_canon L_prune L_lfr
  Properties_sbm Properties_prune.
Open Scope list_scope.
Open Scope R_scope.

(** Whatever happened before: graph files hold the requested number of graphs, all of them produced by a trial; the saved results
    cover a first part of the mus, the same for all four methods, with one answer for every stored graph, obtained by this method
    on this graph; the final results cover all mus in this way. *)
Theorem C98_consistent : forall P (ok : session -> Prop) runs num_graphs mus d,
  (forall s, ok s -> produces P s) -> NoDup mus -> reachable ok runs num_graphs mus d ->
  (forall key graphs, d_graphs d key = Stored graphs -> length graphs = fst key /\ forall b, In b graphs -> P b) /\
  (forall x, d_partial d = Stored x -> exists k, (k <= length mus)%nat /\ complete_plots ok runs num_graphs d (firstn k mus) x) /\
  (forall x, d_results d = Stored x -> complete_plots ok runs num_graphs d mus x).
Proof. intros P ok runs n mus d HP Nd H. exact (@reachable_consistent P ok runs n mus HP Nd d H). Qed.
Print Assumptions C98_consistent.

(** Graphs and final results, once written, never change; saved results are only ever continued, or truncated by a crash while they
    are saved. *)
Lemma history_later P (ok : session -> Prop) runs n mus d0 d : (forall s, ok s -> produces P s) -> NoDup mus -> reachable ok runs n mus d0 -> history ok runs n mus d0 d ->
  reachable ok runs n mus d /\ grows d0 d /\ (d_results d0 <> Absent -> d_results d = d_results d0 /\ d_partial d = d_partial d0) /\
  (d_partial d0 = Torn -> d_partial d = Torn) /\
  (forall x, d_partial d0 = Stored x -> d_partial d = Torn \/ exists y, d_partial d = Stored y /\ continues x y).
Proof.
  intros HP Nd H0. induction 1 as [|s d d' Hs Hd IH Hin].
  - split; [exact H0|]. split; [apply grows_refl|]. split; [auto|]. split; [auto|]. intros x Hx. right. exists x. split; [exact Hx|apply continues_refl].
  - destruct IH as (R1 & G1 & A1 & T1 & B1). assert (R2 : reachable ok runs n mus d') by (eapply one_more_run; eauto). split; [exact R2|].
    destruct Hin as [<-|Hin]; [auto 6|]. pose proof (@reachable_consistent P ok runs n mus HP Nd d R1) as C1.
    destruct (proj1 (@main_wp P ok runs n mus HP Nd s d Hs C1) d' Hin) as [_ (G2 & A2 & B2 & _)].
    assert (TT : d_partial d = Torn -> d_partial d' = Torn).
    { intros ET. destruct (d_results d) as [| |x] eqn:ER.
      - apply (proj1 (@partial_torn s runs n mus d ET ER) d' Hin).
      - rewrite <- ET. apply A2. discriminate.
      - rewrite <- ET. apply A2. discriminate. }
    split; [eapply grows_trans; eauto|]. split; [|split; [auto|]].
    + intros N. destruct (A1 N) as [E1 E2]. destruct A2 as [E3 E4]; [congruence|]. split; congruence.
    + intros x Hx. destruct (B1 x Hx) as [ET|(y & Ey & Cy)]; [left; auto|]. destruct (B2 y Ey) as [ET|(z & Ez & Cz)]; [left; exact ET|]. right. exists z. split; [exact Ez|]. eapply continues_trans; eauto.
Qed.
Theorem C98_never_lost : forall P (ok : session -> Prop) runs num_graphs mus d d',
  (forall s, ok s -> produces P s) -> NoDup mus -> reachable ok runs num_graphs mus d -> history ok runs num_graphs mus d d' ->
  (forall key graphs, d_graphs d key = Stored graphs -> d_graphs d' key = Stored graphs) /\
  (forall x, d_results d = Stored x -> d_results d' = Stored x) /\
  (forall x, d_partial d = Stored x -> d_partial d' = Torn \/ exists y, d_partial d' = Stored y /\ continues x y).
Proof.
  intros P ok runs n mus d d' HP Nd H0 H. destruct (history_later P ok runs n mus d d' HP Nd H0 H) as (_ & A & B & _ & C). split; [exact A|]. split; [|exact C].
  intros x Hx. rewrite <- Hx. apply B. congruence.
Qed.
Print Assumptions C98_never_lost.

Lemma in_last (l : list disk) : forall d, In (last_disk d l) (d :: l).
Proof.
  unfold last_disk. induction l as [|e l IH]; intros d; [left; reflexivity|]. destruct l as [|f l]; [right; left; reflexivity|].
  change (last (e :: f :: l) d) with (last (f :: l) d). destruct (IH d) as [E|E]; [left; exact E|right; right; exact E].
Qed.
(** If no file is truncated, an undisturbed run ends with the results for all mus; those saved before are kept. *)
Theorem C98_resume : forall P (ok : session -> Prop) runs num_graphs mus s d,
  (forall s, ok s -> produces P s) -> NoDup mus -> reachable ok runs num_graphs mus d -> intact num_graphs mus d ->
  ok s -> (forall mu, In mu mus -> trials_succeed num_graphs (se_prepare s mu)) -> methods_answer P runs s ->
  exists x d', outcome s runs num_graphs mus d = Done x /\ In d' (during s runs num_graphs mus d) /\
    d_results d' = Stored x /\ complete_plots ok runs num_graphs d' mus x /\
    (forall y, d_results d = Stored y -> x = y) /\
    (d_results d = Absent -> forall y, d_partial d = Stored y -> continues y x).
Proof.
  intros P ok runs n mus s d HP Nd HR HI Hs HT HA. pose proof (@reachable_consistent P ok runs n mus HP Nd d HR) as C.
  destruct (@main_twp P ok runs n mus HP s d Hs C HI HT HA) as (x & Ex).
  destruct (@main_wp P ok runs n mus HP Nd s d Hs C) as [H1 H2]. destruct (H2 x Ex) as (C2 & L2 & R2 & S2).
  set (d' := last_disk d (fst (main s runs n mus d))) in *. exists x, d'. split; [exact Ex|]. split; [|split; [exact R2|split; [apply C2; exact R2|split]]].
  - apply in_last.
  - intros y Hy. destruct L2 as (_ & L & _). destruct L as [L _]; [congruence|]. congruence.
  - intros RA. apply S2. exact RA.
Qed.
Print Assumptions C98_resume.

(** A truncated file is never repaired: no later run completes, whatever happens in between. *)
Theorem C98_truncated_for_ever : forall (ok : session -> Prop) runs num_graphs mus d d' s,
  history ok runs num_graphs mus d d' ->
  (d_partial d = Torn -> d_results d = Absent ->
     d_partial d' = Torn /\ d_results d' = Absent /\ forall x, outcome s runs num_graphs mus d' <> Done x) /\
  (d_results d = Torn -> d_results d' = Torn /\ forall x, outcome s runs num_graphs mus d' <> Done x) /\
  (forall mu, In mu mus -> d_graphs d (file_key num_graphs mu) = Torn ->
     d_graphs d' (file_key num_graphs mu) = Torn /\ d_results d' = d_results d /\ forall x, outcome s runs num_graphs mus d' <> Done x).
Proof.
  intros ok runs n mus d d' s H. split; [|split].
  - intros H1 H2. assert (X : d_partial d' = Torn /\ d_results d' = Absent).
    { induction H as [|s' d1 d2 Hs Hd IH Hin]; [auto|]. destruct IH as [E1 E2]. destruct Hin as [<-|Hin]; [auto|]. apply (proj1 (@partial_torn s' runs n mus d1 E1 E2) d2 Hin). }
    destruct X as [E1 E2]. split; [exact E1|]. split; [exact E2|]. intros x Ex. exact (proj2 (@partial_torn s runs n mus d' E1 E2) x Ex).
  - intros H1. assert (E1 : d_results d' = Torn).
    { induction H as [|s' d1 d2 Hs Hd IH Hin]; [auto|]. destruct Hin as [<-|Hin]; [auto|]. apply (proj1 (@results_torn s' runs n mus d1 IH) d2 Hin). }
    split; [exact E1|]. intros x Ex. exact (proj2 (@results_torn s runs n mus d' E1) x Ex).
  - intros mu Hm H1. assert (X : d_graphs d' (file_key n mu) = Torn /\ d_results d' = d_results d).
    { induction H as [|s' d1 d2 Hs Hd IH Hin]; [auto|]. destruct IH as [E1 E2]. destruct Hin as [<-|Hin]; [auto|]. destruct (proj1 (@graphs_torn s' runs n mus d1 mu Hm E1) d2 Hin) as (A & B & _). split; [exact A|congruence]. }
    destruct X as [E1 E2]. split; [exact E1|]. split; [exact E2|]. intros x Ex. exact (proj2 (@graphs_torn s runs n mus d' mu Hm E1) x Ex).
Qed.
Print Assumptions C98_truncated_for_ever.

(** Every save opens such a window: during a run that completes, each file that it writes is truncated at some moment; for the saved
    results this includes those of earlier runs. *)
Theorem C98_crash_window : forall P (ok : session -> Prop) runs num_graphs mus s d x,
  (forall s, ok s -> produces P s) -> NoDup mus -> reachable ok runs num_graphs mus d -> ok s ->
  outcome s runs num_graphs mus d = Done x ->
  (d_results d = Absent -> exists d', In d' (during s runs num_graphs mus d) /\ d_results d' = Torn) /\
  (d_results d = Absent -> mus <> [] -> d_partial d <> Stored x ->
     exists d', In d' (during s runs num_graphs mus d) /\ d_partial d' = Torn /\ d_results d' = Absent) /\
  (forall mu, In mu mus -> d_graphs d (file_key num_graphs mu) = Absent ->
     exists d', In d' (during s runs num_graphs mus d) /\ d_graphs d' (file_key num_graphs mu) = Torn).
Proof.
  intros P ok runs n mus s d x HP Nd HR Hs Ex. pose proof (@reachable_consistent P ok runs n mus HP Nd d HR) as C.
  destruct (@main_wp P ok runs n mus HP Nd s d Hs C) as [H1 H2]. destruct (H2 x Ex) as (C2 & L2 & R2 & S2).
  set (d' := last_disk d (fst (main s runs n mus d))) in *. split; [|split].
  - intros RA. destruct (@main_tears_results s runs n mus d) as [E|(e & E1 & E2)]; [fold d' in E; congruence|]. exists e. split; [right; exact E1|exact E2].
  - intros RA Nm NP. destruct (S2 RA) as [_ [SP|SP]]; [|contradiction]. destruct (@main_tears_partial s runs n mus d) as [E|(e & E1 & E2)]; [fold d' in E; congruence|].
    exists e. split; [right; exact E1|]. split; [exact E2|]. destruct (H1 e E1) as [_ (_ & _ & _ & L)]. auto.
  - intros mu Hm GA. destruct (@main_tears_graphs s runs n mus (file_key n mu) d) as [E|(e & E1 & E2)]; [|exists e; split; [right; exact E1|exact E2]].
    exfalso. fold d' in E. rewrite GA in E. pose proof (proj2 (proj2 C2) x R2) as X. destruct x as [[[x1 x2] x3] x4]. destruct X as [[K1 K2] _].
    rewrite <- K1 in Hm. apply in_map_iff in Hm as ([m ls] & <- & Hi). destruct (K2 _ _ Hi) as (gs & G1 & _). cbn [fst] in E. congruence.
Qed.
Print Assumptions C98_crash_window.

(** ** File names *)

(** The seventeen values of the script have different files; values that agree to three decimals share one, so that the second gets the
    graphs of the first. *)
Lemma lfr_mus_eq : lfr_mus = map (fun i => IZR (100 + 25 * Z.of_nat i) / 1000) (seq 0 17).
Proof.
  unfold lfr_mus, linspace. apply map_ext. intros i. rewrite plus_IZR, mult_IZR, <- INR_IZR_INZ. change (INR (17 - 1)) with (INR 16). replace (INR 16) with 16 by (cbn; lra). lra.
Qed.
Lemma lfr_file_key i : file_key lfr_num_graphs (IZR (100 + 25 * Z.of_nat i) / 1000) = (100%nat, (100 + 25 * Z.of_nat i)%Z).
Proof.
  unfold file_key. f_equal. replace (1000 * (IZR (100 + 25 * Z.of_nat i) / 1000)) with (IZR (100 + 25 * Z.of_nat i)) by field. apply (@Zrnd_IZR ZnearestE). apply valid_rnd_N.
Qed.
Theorem C98_file_names :
  (NoDup lfr_mus /\ length lfr_mus = 17%nat /\
   forall mu mu', In mu lfr_mus -> In mu' lfr_mus -> file_key lfr_num_graphs mu = file_key lfr_num_graphs mu' -> mu = mu') /\
  forall num_graphs mu mu' batches d graphs, ZnearestE (1000 * mu') = ZnearestE (1000 * mu) -> d_graphs d (file_key num_graphs mu) = Stored graphs ->
    generate_LFR_graphs batches num_graphs mu' d = ([], Done graphs).
Proof.
  split; [split; [|split]|].
  - rewrite lfr_mus_eq. apply FinFun.Injective_map_NoDup; [|apply seq_NoDup]. intros i j E. assert (E' : IZR (100 + 25 * Z.of_nat i) = IZR (100 + 25 * Z.of_nat j)) by lra. apply eq_IZR in E'. lia.
  - rewrite lfr_mus_eq, map_length, seq_length. reflexivity.
  - intros mu mu'. rewrite lfr_mus_eq. rewrite !in_map_iff. intros (i & <- & _) (j & <- & _). rewrite !lfr_file_key. intros E. apply (f_equal snd) in E. cbn [snd] in E. replace j with i by lia. reflexivity.
  - intros n mu mu' batches d gs E HG. unfold generate_LFR_graphs, file_key in *. rewrite E. unfold andThen, exists_, load, ret, last_disk. cbn [last app]. rewrite HG. cbn [last app]. rewrite HG. reflexivity.
Qed.
Print Assumptions C98_file_names.

(** ** An example: one barbell per mu, found by every method. *)
Definition barbell_benchmark (b : benchmark) : Prop := b = (barbell, barbell_c).
Definition barbell_leiden : leiden_env := mkLeiden (fun _ => true) (fun _ _ => Ok barbell_c) (fun _ _ => Ok barbell_c).
Lemma barbell_sorted : sorted_tuple (map Z.of_nat barbell_c) = Ok barbell_c.
Proof. reflexivity. Qed.
Lemma barbell_runs gammas : gammas <> [] -> repeated_leiden_from_gammas barbell_leiden barbell gammas = (barbell, Ok [barbell_c]).
Proof.
  intros N. unfold repeated_leiden_from_gammas. destruct gammas as [|x gammas]; [contradiction|]. cbn [leiden_serial_loop singlelayer_leiden default_weights le_contains barbell_leiden le_find bind].
  rewrite barbell_sorted. change (set_add barbell_c []) with [barbell_c]. clear N. generalize 1%nat. induction gammas as [|y gammas IH]; intros k; [reflexivity|].
  cbn [leiden_serial_loop singlelayer_leiden default_weights le_contains barbell_leiden le_find bind]. rewrite barbell_sorted.
  assert (E : set_add barbell_c [barbell_c] = [barbell_c]) by (unfold set_add; destruct (in_dec _ _ _) as [|N']; [reflexivity|exfalso; apply N'; left; reflexivity]). rewrite E. apply IH.
Qed.
Definition barbell_found : list (list Z) := [map Z.of_nat barbell_c].
Lemma barbell_found_considered k c : considered barbell_found k c -> c = barbell_c.
Proof.
  intros (Hc & (t & [<-|[]] & Hs) & _). eapply canonical_unique; auto; [eapply sorted_tuple_canonical; apply barbell_sorted|].
  eapply same_partition_trans; [apply same_partition_sym; apply Hs|eapply sorted_tuple_same_partition; apply barbell_sorted].
Qed.
Lemma barbell_worker k : exists env, ee_contains env = (fun _ => true) /\
  exists result, snd (prune_to_stable_partitions env barbell (Tuples barbell_found) (1 / 2) 2 k true) = Ok result.
Proof.
  destruct (C40_realisable barbell barbell_found (1 / 2) 2 k true (fun _ => true) (fun _ x => x) (fun _ => true)) as (env & Hok & Hc & _ & _ & H).
  - apply barbell_wf.
  - reflexivity.
  - discriminate.
  - intros t [<-|[]]; reflexivity.
  - cbn; lia.
  - lra.
  - exists env. split; [exact Hc|]. apply H. intros c Hcc. apply barbell_found_considered in Hcc as ->. destruct (barbell_estimate env) as (x & Hx & _); [rewrite Hc; reflexivity|]. eauto.
Qed.

Lemma barbell_methods env runs : (0 < runs)%nat -> ee_contains env = (fun _ => true) -> forall nmi nan,
  let e := mkLfr barbell_leiden env nmi nan in
  (exists r, run_method e barbell barbell_c runs sweep (1 / 2) 2 = Ok r) /\ (exists r, run_method e barbell barbell_c runs truth_gamma (1 / 2) 2 = Ok r) /\
  (forall result, runs = 2%nat -> snd (prune_to_stable_partitions env barbell (Tuples barbell_found) (1 / 2) 2 None true) = Ok result -> exists r, run_method e barbell barbell_c runs pruning (1 / 2) 2 = Ok r) /\
  (forall result, runs = 2%nat -> snd (prune_to_stable_partitions env barbell (Tuples barbell_found) (1 / 2) 2 (Some 2%nat) true) = Ok result -> exists r, run_method e barbell barbell_c runs pruning_K (1 / 2) 2 = Ok r).
Proof.
  intros Hr Hc nmi nan e. assert (HE : ee_contains env barbell = true) by (rewrite Hc; reflexivity). destruct (barbell_estimate env HE) as (x & Hx & _).
  assert (HG : gamma_estimate (lf_est e) barbell (Membership barbell_c) = (barbell, Ok (Some (Fin x)))).
  { rewrite (surjective_pairing (gamma_estimate _ _ _)). cbn [lf_est e]. rewrite Hx. f_equal. unfold gamma_estimate. rewrite HE. reflexivity. }
  assert (NE : forall a b, linspace a b runs <> []). { intros a b E. apply (f_equal (@length R)) in E. unfold linspace in E. rewrite map_length, seq_length in E. cbn in E. lia. }
  split; [|split; [|split]].
  - unfold run_method. rewrite HG. cbn [bind]. change (String.eqb sweep pruning || String.eqb sweep pruning_K || String.eqb sweep sweep)%bool with true. cbv iota.
    cbn [lf_leiden e]. rewrite barbell_runs by apply NE. cbn [bind]. unfold reported_partitions. change (String.eqb sweep pruning) with false. change (String.eqb sweep pruning_K) with false. cbv iota. cbn [bind]. eauto.
  - unfold run_method. rewrite HG. cbn [bind]. change (String.eqb truth_gamma pruning || String.eqb truth_gamma pruning_K || String.eqb truth_gamma sweep)%bool with false.
    change (String.eqb truth_gamma truth_gamma) with true. cbv iota. cbn [lf_leiden e]. rewrite barbell_runs by apply NE. cbn [bind snd]. eauto.
  - intros result -> HP. unfold run_method. rewrite HG. cbn [bind]. change (String.eqb pruning pruning || String.eqb pruning pruning_K || String.eqb pruning sweep)%bool with true. cbv iota.
    cbn [lf_leiden e]. rewrite barbell_runs by apply NE. cbn [bind]. unfold reported_partitions. change (String.eqb pruning pruning) with true. cbv iota.
    assert (E0 : py_get (linspace (1 / 2) 2 2) 0 = Ok (1 / 2)) by (cbn; f_equal; lra). assert (E1 : py_get (linspace (1 / 2) 2 2) (length (linspace (1 / 2) 2 2) - 1) = Ok 2) by (cbn; f_equal; lra).
    rewrite E0, E1. cbn [bind lf_est e]. change (map (map Z.of_nat) [barbell_c]) with barbell_found. rewrite HP. cbn [bind]. eauto.
  - intros result -> HP. unfold run_method. rewrite HG. cbn [bind]. change (String.eqb pruning_K pruning || String.eqb pruning_K pruning_K || String.eqb pruning_K sweep)%bool with true. cbv iota.
    cbn [lf_leiden e]. rewrite barbell_runs by apply NE. cbn [bind]. unfold reported_partitions. change (String.eqb pruning_K pruning) with false. change (String.eqb pruning_K pruning_K) with true. cbv iota.
    change (num_communities barbell_c) with (Ok 2%nat). cbn [bind].
    assert (E0 : py_get (linspace (1 / 2) 2 2) 0 = Ok (1 / 2)) by (cbn; f_equal; lra). assert (E1 : py_get (linspace (1 / 2) 2 2) (length (linspace (1 / 2) 2 2) - 1) = Ok 2) by (cbn; f_equal; lra).
    rewrite E0, E1. cbn [bind lf_est e]. change (map (map Z.of_nat) [barbell_c]) with barbell_found. rewrite HP. cbn [bind]. eauto.
Qed.

(** One graph per mu, two runs per method: the first round of trials times out, the second finds a graph in its second trial. *)
Definition barbell_batches : list batch := [TimedOut; Trials [None; Some (barbell, barbell_c); None]].
Example C98_example : exists s, produces barbell_benchmark s /\ methods_answer barbell_benchmark 2 s /\ (forall mu, trials_succeed 1 (se_prepare s mu)) /\
  exists x, outcome s 2 1 [1 / 10; 1 / 5] empty_disk = Done x /\ map fst (fst (fst (fst x))) = [1 / 10; 1 / 5].
Proof.
  destruct (barbell_worker None) as (env1 & Hc1 & r1 & P1). destruct (barbell_worker (Some 2%nat)) as (env2 & Hc2 & r2 & P2).
  set (nmi := fun _ _ : list nat => 1). set (nan := fun (g : graph) (_ : nat) => (g, Ok [barbell_c])).
  set (s := mkSession (fun _ => barbell_batches) (fun _ => barbell_batches) (fun _ m _ => mkLfr barbell_leiden (if String.eqb m pruning_K then env2 else env1) nmi nan)).
  assert (A1 : produces barbell_benchmark s). { intros mu l b [[E|[E|[]]]|[E|[E|[]]]] Hb; try discriminate; injection E as <-; destruct Hb as [E|[E|[E|[]]]]; try discriminate; injection E as <-; reflexivity. }
  assert (A2 : methods_answer barbell_benchmark 2 s).
  { intros mu m i b Hm ->. cbn [fst snd]. destruct (barbell_methods env1 2 ltac:(lia) Hc1 nmi nan) as (B1 & B2 & B3 & _). destruct (barbell_methods env2 2 ltac:(lia) Hc2 nmi nan) as (_ & _ & _ & B4).
    destruct Hm as [<-|[<-|[<-|[<-|[]]]]]; [apply (B3 r1 eq_refl P1)|exact B1|apply (B4 r2 eq_refl P2)|exact B2]. }
  assert (A3 : forall mu, trials_succeed 1 (se_prepare s mu)).
  { intros mu. exists barbell_batches, []. split; [reflexivity|]. split; [|cbn; lia]. intros b [<-|[<-|[]]]; eexists; [right|left]; reflexivity. Unshelve. exact []. }
  exists s. split; [exact A1|]. split; [exact A2|]. split; [exact A3|].
  destruct (C98_resume barbell_benchmark (fun s' => s' = s) 2 1 [1 / 10; 1 / 5] s empty_disk) as (x & d' & E & _ & _ & C & _); auto.
  - intros s' ->. exact A1.
  - repeat constructor; cbn; [intros [E|[]]; lra|tauto].
  - apply no_run.
  - split; [intros; discriminate|]. split; discriminate.
  - exists x. split; [exact E|]. destruct x as [[[x1 x2] x3] x4]. apply (proj1 (proj1 C)).
Qed.
