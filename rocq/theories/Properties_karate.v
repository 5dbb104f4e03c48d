(** Property theorems about the karate club estimates from many starting values: C108. *)
From Coq Require Import String.
From Verif Require Import PyBase PyGraph M_partition M_champ M_leiden M_parts M_estimation_utils M_estimation M_checks M_studies Spec Spec_graph Spec_leiden Spec_sbm Spec_iteration Spec_newman Spec_karate
  L_base L_canon L_modularity L_leiden L_sbm L_sbm2 L_split L_omega L_prune L_iteration L_newman L_karate Properties_sbm Properties_iteration.
From Coq Require Import Classical.
Open Scope R_scope.

Definition tries (method : string) (many : nat) : nat := if string_dec method "louvain" then many else 1%nat.
Lemma tries_ok method many : estimation_trials method many = tries method many.
Proof. unfold estimation_trials, tries. destruct (string_dec method "louvain") as [->|N]; [reflexivity|]. rewrite (proj2 (String.eqb_neq _ _)); auto. Qed.

(** ** The scatter plot: if every trial returns or raises ValueError, the two lists hold, trial after trial, the starting values and results of
    exactly those that returned; otherwise the first other exception goes through.  Trials are calls on the network as it was given: that
    earlier trials have given it weights makes no difference. *)
Theorem C108_pairs : forall env opt G h ws method grid,
  wf_graph G -> weights_defaulted (ee_contains env G) G h -> weights h = Some ws -> known_method method ->
  let trials := all_trials (tries method 10) opt grid in
  let result t := snd (iterative_monolayer_resolution_parameter_estimation env (snd t) G (fst t) (1 / 100) 25 false method) in
  ((forall t, In t trials -> tolerated (result t)) ->
   exists pairs, run_estimation_until_convergence env opt G method grid = Ok (map fst pairs, map snd pairs) /\
     pairs = flat_map (fun t => match result t with Ok (y, _) => [(fst t, y)] | Raise _ => [] end) trials) /\
  ((exists t, In t trials /\ ~ tolerated (result t)) ->
   exists before t after e, trials = before ++ t :: after /\ (forall u, In u before -> tolerated (result u)) /\
     result t = Raise e /\ e <> ValueError /\ run_estimation_until_convergence env opt G method grid = Raise e).
Proof.
  intros env opt G h ws method grid Hwf Hh Hws Hm trials result.
  set (step := fun st (t : R * opt_env) => convergence_trial env (snd t) method (fst t) st).
  set (pairs := fun l => flat_map (fun t : R * opt_env => match result t with Ok (y, _) => [(fst t, y)] | Raise _ => [] end) l).
  assert (E : run_estimation_until_convergence env opt G method grid = (let! st := foldM step trials (G, ([], [])) in Ok (snd st))).
  { unfold run_estimation_until_convergence, trials, all_trials. rewrite foldM_flat_map, tries_ok. f_equal. apply foldM_ext'. intros s [i x]. cbn [fst snd].
    rewrite foldM_map. reflexivity. }
  set (I := fun (st : graph * (list R * list npf)) done => (fst st = G \/ fst st = h) /\ snd st = (map fst (pairs done), map snd (pairs done))).
  destruct (@foldM_trials _ _ _ step result I trials) with (s := (G, (@nil R, @nil npf))) (done := @nil (R * opt_env)) as [P1 P2].
  - intros [g [xs ys]] done t _ [Hg Hp] Ht. cbn [fst snd] in *. unfold step, convergence_trial.
    rewrite (@call_graph env G h ws Hwf Hh Hws g (snd t) (fst t) (1 / 100) 25%Z false method Hg Hm). fold (result t).
    destruct Ht as [[[y p] Er]|Er]; rewrite Er; cbn [bind attempt fst]; eexists; (split; [reflexivity|]); split; cbn [fst snd]; auto; inversion Hp; subst; unfold pairs; rewrite flat_map_app, !map_app; cbn [flat_map]; rewrite Er; cbn [app map]; rewrite ?app_nil_r; reflexivity.
  - intros [g [xs ys]] done t _ [Hg Hp] Ht. cbn [fst snd] in *. unfold step, convergence_trial.
    rewrite (@call_graph env G h ws Hwf Hh Hws g (snd t) (fst t) (1 / 100) 25%Z false method Hg Hm). fold (result t).
    destruct (result t) as [x|e] eqn:Er; [exfalso; apply Ht; left; eauto|]. exists e. split; auto. cbn [bind].
    destruct e; try (split; [discriminate|reflexivity]). exfalso. apply Ht. right. auto.
  - split; [left; reflexivity|reflexivity].
  - split.
    + intros Hall. destruct (P1 Hall) as ([g st] & Ef & [_ Hst]). exists (pairs trials). split; [|reflexivity]. rewrite E, Ef. cbn [bind snd]. cbn [snd app] in Hst. rewrite Hst. reflexivity.
    + intros Hex. destruct (P2 Hex) as (b & t & a & e & E1 & E2 & E3 & E4 & E5). exists b, t, a, e. do 4 (split; auto). rewrite E, E5. reflexivity.
Qed.
Print Assumptions C108_pairs.

(** What a point (y, x) of the scatter plot means: x is a grid value, y is the gamma estimate of a partition that the optimiser found, and
    either the last move to y was below 0.01 or 25 partitions were found in a row. *)
Theorem C108_points : forall env opt G h ws method grid xs ys x y,
  wf_graph G -> weights_defaulted (ee_contains env G) G h -> weights h = Some ws -> known_method method ->
  run_estimation_until_convergence env opt G method grid = Ok (xs, ys) ->
  length xs = length ys /\ (length xs <= tries method 10 * length grid)%nat /\
  (In (x, y) (combine xs ys) -> In x grid /\
   exists i j calls last p, nth_error grid i = Some x /\ (j < tries method 10)%nat /\ (1 <= calls <= 25)%nat /\
     answer_mono (opt i j) method h (calls - 1) last = Ok p /\ gamma_estimate env h (Partition p) = (h, Ok (Some y)) /\
     (gamma_close (1 / 100) y last \/ calls = 25%nat)).
Proof.
  intros env opt G h ws method grid xs ys x y Hwf Hh Hws Hm R. pose proof (C108_pairs env opt G h ws method grid Hwf Hh Hws Hm) as [P1 P2]. cbv zeta in P1, P2.
  set (trials := all_trials (tries method 10) opt grid) in *.
  set (result := fun t : Rdefinitions.R * opt_env => snd (iterative_monolayer_resolution_parameter_estimation env (snd t) G (fst t) (1 / 100) 25 false method)) in *.
  destruct (classic (exists t, In t trials /\ ~ tolerated (result t))) as [Hex|Hall].
  { destruct (P2 Hex) as (b & t & a & e & _ & _ & _ & _ & E). rewrite E in R. discriminate. }
  destruct P1 as (pairs & E & Ep). { intros t Ht. destruct (classic (tolerated (result t))); auto. exfalso. apply Hall. eauto. }
  rewrite E in R. inversion R. subst xs ys. clear R. split; [rewrite !map_length; auto|]. split.
  - rewrite map_length, Ep. transitivity (length trials).
    + clear. induction trials as [|t l IH]; [auto|]. cbn [flat_map length]. rewrite app_length. destruct (snd (iterative_monolayer_resolution_parameter_estimation env (snd t) G (fst t) (1 / 100) 25 false method)) as [[]|]; cbn [length]; lia.
    + unfold trials, all_trials. generalize 0%nat as k. unfold enumerate. generalize 0%nat. clear. induction grid as [|g l IH]; intros n k; [cbn; lia|]. cbn [enumerate_from flat_map length]. rewrite app_length, map_length, seq_length. specialize (IH (S n) k). lia.
  - intros Hin. assert (Hp : In (x, y) pairs). { clear - Hin. induction pairs as [|[a b] l IH]; [destruct Hin|]. cbn in Hin. destruct Hin as [X|X]; [left; auto|right; auto]. }
    rewrite Ep in Hp. apply in_flat_map in Hp. destruct Hp as ([x' o] & Ht & Hp). cbn [fst snd] in Hp.
    destruct (snd (iterative_monolayer_resolution_parameter_estimation env o G x' (1 / 100) 25 false method)) as [[y' part]|] eqn:Er; [|destruct Hp]. destruct Hp as [Hp|[]]. inversion Hp. subst x' y'. clear Hp.
    unfold trials, all_trials in Ht. apply in_flat_map in Ht. destruct Ht as ([i g] & Hi & Ht). apply in_map_iff in Ht. destruct Ht as (j & Ej & Hj). cbn [fst snd] in Ej. inversion Ej. subst g o. clear Ej. apply in_seq in Hj.
    apply in_enumerate in Hi. split; [eapply nth_error_In; exact Hi|].
    destruct (iterative_monolayer_resolution_parameter_estimation env (opt i j) G x (1 / 100) 25 false method) as [[calls g'] r] eqn:Ei. cbn [snd] in Er. subst r.
    destruct (C45_returned env (opt i j) G h ws x (1 / 100) 25 false method calls g' y part Hwf Hh Hws ltac:(lia) Ei) as (_ & _ & L1 & L2 & _ & last & p & _ & _ & A & Eg & C).
    exists i, j, (length calls), last, p. split; [exact Hi|]. split; [clear - Hj; lia|]. split; [clear - L1 L2; lia|]. split; [exact A|]. split; [exact Eg|]. destruct C as [C|C]; [left; exact C|right; clear - C; lia].
Qed.
Print Assumptions C108_points.

(** ** The arrows: one optimisation per trial.  [one_step i j x] is what trial j of starting value number i gives: the gamma estimate of the
    partition the optimiser finds at x; ValueError if there is none. *)
Definition one_step (env : est_env) (opt : opt_env) (h : graph) (method : string) (x : R) : res npf :=
  let! p := answer_mono opt method h 0 (Fin x) in
  let! o := snd (gamma_estimate env h (Partition p)) in
  match o with None => Raise ValueError | Some y => Ok y end.

(** The arrow of a starting value [x] when its trials returned the estimates [ys]. *)
Definition arrow_of (x : R) (ys : list npf) (arrow : option npf) : Prop :=
  (ys = [] -> arrow = None) /\
  (forall rs, ys = map Fin rs -> rs <> [] -> exists m, arrow = Some (Fin m) /\ x + m = rsum rs / INR (length rs)) /\
  (In NonFinite ys -> arrow = Some NonFinite).

Theorem C108_arrows : forall env opt G h ws method grid,
  wf_graph G -> weights_defaulted (ee_contains env G) G h -> weights h = Some ws -> known_method method ->
  let n := tries method 100 in
  let result i j x := one_step env (opt i j) h method x in
  ((forall i j x, nth_error grid i = Some x -> (j < n)%nat -> tolerated (result i j x)) ->
   exists arrows, plot_one_step_estimation env opt G method grid = Ok arrows /\ map fst arrows = grid /\
     forall i x a, nth_error arrows i = Some (x, a) -> arrow_of x (returned (map (fun j => result i j x) (seq 0 n))) a) /\
  ((exists i j x, nth_error grid i = Some x /\ (j < n)%nat /\ ~ tolerated (result i j x)) ->
   exists i j x e, nth_error grid i = Some x /\ (j < n)%nat /\ result i j x = Raise e /\ e <> ValueError /\
     (forall i' j' x', nth_error grid i' = Some x' -> (j' < n)%nat -> (i' < i)%nat \/ i' = i /\ (j' < j)%nat -> tolerated (result i' j' x')) /\
     plot_one_step_estimation env opt G method grid = Raise e).
Proof.
  intros env opt G h ws method grid Hwf Hh Hws Hm n result.
  assert (Call : forall g i j x, g = G \/ g = h -> estimated_gamma env (opt i j) g x (1 / 100) 1 false method = (h, result i j x)).
  { intros g i j x Hg. rewrite (@call_graph env G h ws Hwf Hh Hws g (opt i j) x (1 / 100) 1%Z false method Hg Hm). f_equal.
    rewrite (@one_iteration env (opt i j) G h ws) by auto. unfold result, one_step. destruct (answer_mono (opt i j) method h 0 (Fin x)) as [p|]; [|reflexivity]. cbn [bind].
    destruct (snd (gamma_estimate env h (Partition p))) as [[y|]|]; reflexivity. }
  set (Ig := fun g : graph => g = G \/ g = h).
  (* one starting value *)
  assert (Inner : forall i x g, Ig g ->
    let fold := foldM (fun s j => one_step_trial env (opt i j) method x s) (seq 0 n) (g, (Fin 0, 0%nat)) in
    let ys := returned (map (fun j => result i j x) (seq 0 n)) in
    ((forall j, (j < n)%nat -> tolerated (result i j x)) -> exists g', Ig g' /\ fold = Ok (g', (npf_total x ys, length ys))) /\
    ((exists j, (j < n)%nat /\ ~ tolerated (result i j x)) ->
     exists j e, (j < n)%nat /\ result i j x = Raise e /\ e <> ValueError /\ (forall j', (j' < j)%nat -> tolerated (result i j' x)) /\ fold = Raise e)).
  { intros i x g Hg. cbv zeta.
    set (I := fun (st : graph * (npf * nat)) done => Ig (fst st) /\
       snd st = (npf_total x (returned (map (fun j => result i j x) done)), length (returned (map (fun j => result i j x) done)))).
    destruct (@foldM_trials _ _ _ (fun s j => one_step_trial env (opt i j) method x s) (fun j => result i j x) I (seq 0 n)) with (s := (g, (Fin 0, 0%nat))) (done := @nil nat) as [P1 P2].
    - intros [g1 [t c]] done j _ [H1 H2] Ht. cbn [fst snd] in *. unfold one_step_trial. rewrite (Call g1 i j x H1).
      inversion H2. subst t c. destruct Ht as [[y Er]|Er]; rewrite Er; cbn [bind attempt]; eexists; (split; [reflexivity|]); (split; [right; reflexivity|]); cbn [snd];
        unfold returned; rewrite map_app, flat_map_app; cbn [map flat_map]; rewrite Er; cbn [app]; rewrite ?app_nil_r; [|reflexivity].
      unfold npf_total. rewrite fold_left_app, app_length. cbn [fold_left length]. rewrite Nat.add_1_r. reflexivity.
    - intros [g1 [t c]] done j _ [H1 H2] Ht. cbn [fst snd] in *. unfold one_step_trial. rewrite (Call g1 i j x H1).
      destruct (@untolerated_attempt _ _ Ht) as (e & E1 & E2 & E3). exists e. rewrite E3. auto.
    - split; [exact Hg|reflexivity].
    - split.
      + intros Hall. destruct P1 as ([g' [t c]] & Ef & [Hg' Hs]). { intros j Hj. apply Hall. apply in_seq in Hj. lia. }
        cbn [fst snd app] in *. exists g'. split; auto. rewrite Ef, Hs. reflexivity.
      + intros (j & Hj & Nj). destruct P2 as (b & t & a & e & E1 & E2 & E3 & E4 & E5). { exists j. split; auto. apply in_seq. lia. }
        assert (Eb : t = length b /\ (t < n)%nat /\ b = seq 0 t).
        { assert (Hn : nth_error (seq 0 n) (length b) = Some t) by (rewrite E1, nth_error_app2, Nat.sub_diag by lia; reflexivity).
          assert (Hl : (length b < n)%nat) by (apply (f_equal (@length nat)) in E1; rewrite seq_length, app_length in E1; cbn in E1; lia).
          rewrite (nth_error_nth' _ 0%nat) in Hn by (rewrite seq_length; lia). rewrite seq_nth in Hn by lia. inversion Hn. cbn. split; auto. split; [lia|].
          assert (Hb : firstn (length b) (seq 0 n) = b) by (rewrite E1, firstn_app, Nat.sub_diag, firstn_all; cbn; apply app_nil_r).
          rewrite <- Hb at 1. replace n with (length b + (n - length b))%nat by lia. rewrite seq_app, firstn_app, seq_length, Nat.sub_diag. cbn [firstn]. rewrite app_nil_r. rewrite firstn_all2 by (rewrite seq_length; lia). reflexivity. }
        destruct Eb as (_ & Hn & Eb). exists t, e. split; auto. split; auto. split; auto. split; auto. intros j' Hj'. apply E2. rewrite Eb. apply in_seq. lia. }
  set (step := fun (st : graph * list (R * option npf)) ig =>
      let! s := foldM (fun s j => one_step_trial env (opt (fst ig) j) method (snd ig) s) (seq 0 (estimation_trials method 100)) (fst st, (Fin 0, 0%nat)) in
      let '(G', (total, count)) := s in
      Ok (G', snd st ++ [(snd ig, if Nat.ltb 0 count then Some (npf_div total (Fin (INR count))) else None)])).
  assert (Hstep : forall l k g acc, Ig g ->
     ((forall i j x, nth_error l i = Some x -> (j < n)%nat -> tolerated (result (k + i)%nat j x)) ->
      exists g' arrows, foldM step (enumerate_from k l) (g, acc) = Ok (g', acc ++ arrows) /\ map fst arrows = l /\
        forall i x a, nth_error arrows i = Some (x, a) -> arrow_of x (returned (map (fun j => result (k + i)%nat j x) (seq 0 n))) a) /\
     ((exists i j x, nth_error l i = Some x /\ (j < n)%nat /\ ~ tolerated (result (k + i)%nat j x)) ->
      exists i j x e, nth_error l i = Some x /\ (j < n)%nat /\ result (k + i)%nat j x = Raise e /\ e <> ValueError /\
        (forall i' j' x', nth_error l i' = Some x' -> (j' < n)%nat -> (i' < i)%nat \/ i' = i /\ (j' < j)%nat -> tolerated (result (k + i')%nat j' x')) /\
        foldM step (enumerate_from k l) (g, acc) = Raise e)).
  { induction l as [|x l IH]; intros k g acc Hg.
    - split; [intros _; exists g, []; split; [cbn; rewrite app_nil_r; reflexivity|split; [reflexivity|]]; intros [|i] x a Hi; discriminate|].
      intros ([|i] & j & x & Hi & _); discriminate.
    - cbn [enumerate_from foldM]. destruct (Inner k x g Hg) as [I1 I2]. cbv zeta in I1, I2.
      destruct (classic (exists j, (j < n)%nat /\ ~ tolerated (result k j x))) as [Hbad|Hgood].
      + destruct (I2 Hbad) as (j & e & Hj & Er & Ne & Hb & Ef). split.
        * intros Hall. exfalso. destruct Hbad as (j' & Hj' & Nj). apply Nj. specialize (Hall 0%nat j' x eq_refl Hj'). rewrite Nat.add_0_r in Hall. exact Hall.
        * intros _. exists 0%nat, j, x, e. rewrite Nat.add_0_r. split; [reflexivity|]. split; auto. split; auto. split; auto. split.
          -- intros i' j' x' Hi' Hj' [?|[-> Hlt]]; [lia|]. inversion Hi'. subst x'. rewrite Nat.add_0_r. auto.
          -- assert (Es : step (g, acc) (k, x) = Raise e) by (unfold step; cbn [fst snd]; rewrite tries_ok; fold n; rewrite Ef; reflexivity). rewrite Es. reflexivity.
      + assert (Hok : forall j, (j < n)%nat -> tolerated (result k j x)) by (intros j Hj; destruct (classic (tolerated (result k j x))); auto; exfalso; eauto).
        destruct (I1 Hok) as (g1 & Hg1 & Ef). set (ys := returned (map (fun j => result k j x) (seq 0 n))) in *.
        set (arrow := if Nat.ltb 0 (length ys) then Some (npf_div (npf_total x ys) (Fin (INR (length ys)))) else None).
        assert (Es : step (g, acc) (k, x) = Ok (g1, acc ++ [(x, arrow)])). { unfold step. cbn [fst snd]. rewrite tries_ok. fold n. rewrite Ef. reflexivity. }
        rewrite Es. cbn [bind]. destruct (IH (S k) g1 (acc ++ [(x, arrow)]) Hg1) as [A1 A2]. split.
        * intros Hall. destruct A1 as (g' & arrows & E1 & E2 & E3). { intros i j x' Hi Hj. specialize (Hall (S i) j x' Hi Hj). rewrite Nat.add_succ_r in Hall. exact Hall. }
          exists g', ((x, arrow) :: arrows). split; [rewrite E1, <- app_assoc; reflexivity|]. split; [cbn; rewrite E2; reflexivity|].
          intros [|i] x' a Hi; [|rewrite Nat.add_succ_r; apply E3; exact Hi].
          cbn in Hi. inversion Hi. subst x' a. rewrite Nat.add_0_r. fold ys. unfold arrow. split; [|split].
          -- intros ->. reflexivity.
          -- intros rs E Hne. rewrite E. rewrite map_length. assert (0 < length rs)%nat by (destruct rs; [congruence|cbn; lia]).
             rewrite (proj2 (Nat.ltb_lt _ _)) by auto. unfold npf_total. rewrite npf_total_fin. cbn [npf_div]. unfold np_div.
             assert (Hp : 0 < INR (length rs)) by (apply (lt_INR 0); auto). destruct (Req_EM_T (INR (length rs)) 0); [lra|]. eexists. split; [reflexivity|]. field. lra.
          -- intros Hin. assert (0 < length ys)%nat by (destruct ys; [destruct Hin|cbn; lia]). rewrite (proj2 (Nat.ltb_lt _ _)) by auto. unfold npf_total. rewrite (@npf_total_non x ys Hin). reflexivity.
        * intros (i & j & x' & Hi & Hj & Nj). destruct i as [|i]. { exfalso. cbn in Hi. inversion Hi. subst x'. rewrite Nat.add_0_r in Nj. auto. }
          destruct A2 as (i1 & j1 & x1 & e & B1 & B2 & B3 & B4 & B5 & B6). { exists i, j, x'. split; auto. split; auto. rewrite Nat.add_succ_r in Nj. exact Nj. }
          exists (S i1), j1, x1, e. split; auto. split; auto. rewrite Nat.add_succ_r. split; auto. split; auto. split; [|exact B6].
          intros [|i'] j' x'' Hi' Hj' Hlt; [cbn in Hi'; inversion Hi'; subst x''; rewrite Nat.add_0_r; auto|]. rewrite Nat.add_succ_r. apply (B5 i' j' x''); auto.
          destruct Hlt as [?|[? ?]]; [left; lia|right; split; [lia|auto]]. }
  destruct (Hstep grid 0%nat G [] (or_introl eq_refl)) as [A1 A2]. unfold plot_one_step_estimation. fold step. unfold enumerate. split.
  - intros Hall. destruct (A1 Hall) as (g' & arrows & E1 & E2 & E3). exists arrows. rewrite E1. split; [reflexivity|]. split; [exact E2|]. exact E3.
  - intros Hex. destruct (A2 Hex) as (i & j & x & e & B1 & B2 & B3 & B4 & B5 & B6). exists i, j, x, e. do 5 (split; auto). rewrite B6. reflexivity.
Qed.
Print Assumptions C108_arrows.

(** ** One run of the per-community study: a pair only if the optimiser's partition has an estimate and contiguous labels; None exactly for a
    ValueError. *)
Theorem C108_one_run : forall env opt G h ws gamma,
  wf_graph G -> weights_defaulted (ee_contains env G) G h -> weights h = Some ws ->
  (forall y k, one_run env opt G gamma = Ok (Some (y, k)) <->
     exists p, answer_mono opt "leiden" h 0 (Fin gamma) = Ok p /\ snd (gamma_estimate env h (Partition p)) = Ok (Some y) /\ num_communities (part_membership p) = Ok k) /\
  (one_run env opt G gamma = Ok None <->
     one_step env opt h "leiden" gamma = Raise ValueError \/
     exists p y, answer_mono opt "leiden" h 0 (Fin gamma) = Ok p /\ snd (gamma_estimate env h (Partition p)) = Ok (Some y) /\ part_membership p = []).
Proof.
  intros env opt G h ws gamma Hwf Hh Hws.
  assert (E : one_run env opt G gamma = attempt (let! p := answer_mono opt "leiden" h 0 (Fin gamma) in let! o := snd (gamma_estimate env h (Partition p)) in
     match o with None => Raise ValueError | Some y => let! k := num_communities (part_membership p) in Ok (y, k) end)).
  { unfold one_run. f_equal. pose proof (@one_iteration env opt G h ws gamma (1 / 100) "leiden" Hwf Hh Hws (or_intror (or_introl eq_refl))) as E1.
    destruct (iterative_monolayer_resolution_parameter_estimation env opt G gamma (1 / 100) 1 false "leiden") as [[c g'] r]. cbn [snd] in E1. subst r.
    destruct (answer_mono opt "leiden" h 0 (Fin gamma)) as [p|]; [|reflexivity]. cbn [bind]. destruct (snd (gamma_estimate env h (Partition p))) as [[y|]|]; reflexivity. }
  rewrite E. unfold one_step. destruct (answer_mono opt "leiden" h 0 (Fin gamma)) as [p|e]; cbn [bind].
  2:{ split; [intros y k; split; [destruct e; discriminate|intros (p & X & _); discriminate]|]. split; [destruct e; try discriminate; auto|]. intros [X|(p & y & X & _)]; [inversion X; reflexivity|discriminate]. }
  destruct (snd (gamma_estimate env h (Partition p))) as [[y|]|e] eqn:EY; cbn [bind].
  - destruct (num_communities (part_membership p)) as [k|e] eqn:Ek; cbn [bind attempt].
    + split; [intros y' k'; split; [intros X; inversion X; subst; exists p; auto|intros (p' & X & Y & Z); inversion X; subst p'; rewrite EY in Y; inversion Y; subst y'; rewrite Ek in Z; inversion Z; subst k'; reflexivity]|].
      split; [discriminate|]. intros [X|(p' & y' & X & Y & Z)]; [discriminate|]. inversion X. subst p'. rewrite Z in Ek. discriminate.
    + split; [intros y' k'; split; [destruct e; discriminate|intros (p' & X & Y & Z); inversion X; subst; congruence]|].
      destruct (num_communities_errors _ Ek) as [[El ->]|(Nl & -> & _)]; (split; [intros X; try discriminate; right; exists p, y; auto|]); intros [X|(p' & y' & X & Y & Z)]; try discriminate; auto.
      inversion X. subst p'. contradiction.
  - split; [intros y' k'; split; [discriminate|intros (p' & X & Y & Z); inversion X; subst p'; congruence]|]. split; [auto|]. reflexivity.
  - split; [intros y k; split; [destruct e; discriminate|intros (p' & X & Y & _); inversion X; subst p'; congruence]|]. split; [destruct e; try discriminate; auto|]. intros [X|(p' & y & X & Y & _)]; [inversion X; reflexivity|inversion X; subst p'; congruence].
Qed.
Print Assumptions C108_one_run.

(** ** The histograms. *)
Theorem C108_histograms : forall results,
  let kept := flat_map (fun x => match x with Some y => [y] | None => [] end) results in
  (kept = [] -> histograms_per_K results = Raise ValueError) /\
  (forall y0 k0 rest, kept = (y0, k0) :: rest ->
   let usable := (exists r, y0 = Fin r) /\ forall r k, In (Fin r, k) kept -> 6 / 10 < r < 16 / 10 in
   (~ usable -> histograms_per_K results = Raise AssertionError) /\
   (usable -> exists bars, histograms_per_K results = Ok bars /\ NoDup (map fst bars) /\
      (forall K, (exists heights, In (K, heights) bars) <-> (2 <= K <= 9)%nat /\ exists y, In (y, K) kept) /\
      forall K heights, In (K, heights) bars -> exists N F, count_of (fun x => snd x = K) kept N /\ (0 < N)%nat /\
        count_of (fun x => snd x = K /\ exists r, fst x = Fin r) kept F /\ rsum heights = INR F / INR N /\ length heights = 99%nat /\
        forall j, (j < 99)%nat -> exists M, count_of (fun x => snd x = K /\ falls_in_bin (6 / 10) (16 / 10) 99 j (fst x)) kept M /\ nth j heights 0 = INR M / INR N)).
Proof.
  intros results kept. split; [intros E; unfold histograms_per_K; fold kept; rewrite E; reflexivity|].
  intros y0 k0 rest Ek usable.
  set (bars := flat_map (fun fixed_K =>
            let K_community_gammas := map fst (filter (fun x => Nat.eqb (snd x) fixed_K) kept) in
            if Nat.ltb 0 (List.length K_community_gammas)
            then [(fixed_K, hist_heights (linspace (6 / 10) (16 / 10) 100) (map (fun g => (g, 0 + 1 / INR (List.length K_community_gammas))) K_community_gammas))]
            else []) (seq 2 8)).
  assert (Hk : In (y0, k0) kept) by (rewrite Ek; left; auto).
  assert (Hmem : forall r, In (Fin r) (map fst rest) -> exists k, In (Fin r, k) kept).
  { intros r Hin. apply in_map_iff in Hin. destruct Hin as ([y k] & E & Hin). cbn in E. subst y. exists k. rewrite Ek. right. auto. }
  assert (Hmem' : forall r k, In (Fin r, k) kept -> Fin r = y0 \/ In (Fin r) (map fst rest)).
  { intros r k Hin. rewrite Ek in Hin. destruct Hin as [Hin|Hin]; [inversion Hin; auto|right; apply in_map_iff; exists (Fin r, k); auto]. }
  assert (Hpass : usable -> histograms_per_K results = Ok bars).
  { intros [[r0 ->] Hall]. unfold histograms_per_K. fold kept. rewrite Ek. cbn [map fst py_min_npf py_max_npf bind].
    destruct (npf_min_fold (map fst rest) r0) as (lo & -> & L1 & L2 & L3). destruct (npf_max_fold (map fst rest) r0) as (hi & -> & M1 & M2 & M3). cbn [bind npf_ltb].
    assert (6 / 10 < lo). { destruct L3 as [->|L3]; [apply (Hall r0 k0 Hk)|]. destruct (Hmem _ L3) as (k & X). apply (Hall lo k X). }
    assert (hi < 16 / 10). { destruct M3 as [->|M3]; [apply (Hall r0 k0 Hk)|]. destruct (Hmem _ M3) as (k & X). apply (Hall hi k X). }
    unfold Rltb. destruct (Rlt_dec (6 / 10) lo); [|contradiction]. destruct (Rlt_dec hi (16 / 10)); [|contradiction]. cbn [andb]. unfold bars. rewrite Ek. reflexivity. }
  assert (Hfail : ~ usable -> histograms_per_K results = Raise AssertionError).
  { intros N. unfold histograms_per_K. fold kept. rewrite Ek. cbn [map fst py_min_npf py_max_npf bind]. destruct y0 as [r0|].
    - destruct (npf_min_fold (map fst rest) r0) as (lo & -> & L1 & L2 & L3). destruct (npf_max_fold (map fst rest) r0) as (hi & -> & M1 & M2 & M3). cbn [bind npf_ltb].
      unfold Rltb. destruct (Rlt_dec (6 / 10) lo); [|reflexivity]. destruct (Rlt_dec hi (16 / 10)); [|reflexivity]. exfalso. apply N. split; [eauto|].
      intros r' k Hin. destruct (Hmem' _ _ Hin) as [X|X]; [inversion X; subst; lra|]. specialize (L2 _ X). specialize (M2 _ X). lra.
    - rewrite npf_min_nan. reflexivity. }
  split; [exact Hfail|]. intros U. exists bars. split; [auto|].
  assert (Hbars : forall K heights, In (K, heights) bars <-> (2 <= K <= 9)%nat /\ (0 < length (filter (fun x : npf * nat => Nat.eqb (snd x) K) kept))%nat /\
     heights = hist_heights (linspace (6 / 10) (16 / 10) 100) (map (fun g => (g, 0 + 1 / INR (length (filter (fun x : npf * nat => Nat.eqb (snd x) K) kept)))) (map fst (filter (fun x => Nat.eqb (snd x) K) kept)))).
  { intros K heights. unfold bars. rewrite in_flat_map. split.
    - intros (K' & HK & Hin). cbv zeta in Hin. rewrite map_length in Hin. destruct (Nat.ltb_spec 0 (length (filter (fun x : npf * nat => Nat.eqb (snd x) K') kept))); [|destruct Hin].
      destruct Hin as [Hin|[]]. inversion Hin. subst K'. apply in_seq in HK. split; [lia|]. split; auto.
    - intros (HK & Hl & ->). exists K. split; [apply in_seq; lia|]. cbv zeta. rewrite map_length, (proj2 (Nat.ltb_lt _ _)) by auto. left. reflexivity. }
  split.
  { unfold bars. assert (Hs : NoDup (seq 2 8)) by apply seq_NoDup. revert Hs. generalize (seq 2 8) as l. clear. induction l as [|K l IH]; intros Hs; [constructor|]. inversion Hs. subst.
    cbn [flat_map]. rewrite map_app. destruct (Nat.ltb 0 _); [|apply IH; auto]. cbn [map app fst]. constructor; [|apply IH; auto].
    intros Hin. apply in_map_iff in Hin. destruct Hin as ([K' hs] & E & Hin). cbn in E. subst K'. apply in_flat_map in Hin. destruct Hin as (K' & HK & Hin).
    destruct (Nat.ltb 0 _); [|destruct Hin]. destruct Hin as [Hin|[]]. inversion Hin. subst. contradiction. }
  split.
  { intros K. split.
    - intros (hs & Hin). apply Hbars in Hin. destruct Hin as (HK & Hl & _). split; auto. destruct (filter (fun x : npf * nat => Nat.eqb (snd x) K) kept) as [|[y k] l] eqn:Ef; [cbn in Hl; lia|].
      exists y. assert (X : In (y, k) (filter (fun x : npf * nat => Nat.eqb (snd x) K) kept)) by (rewrite Ef; left; auto). apply filter_In in X. destruct X as [X Y]. apply Nat.eqb_eq in Y. cbn in Y. subst. auto.
    - intros (HK & y & Hin). eexists. apply Hbars. split; auto. split; [|reflexivity].
      assert (X : In (y, K) (filter (fun x : npf * nat => Nat.eqb (snd x) K) kept)) by (apply filter_In; split; [auto|apply Nat.eqb_refl]). destruct (filter _ kept); [destruct X|cbn; lia]. }
  intros K heights Hin. apply Hbars in Hin. destruct Hin as (HK & Hl & Eh).
  set (N := length (filter (fun x : npf * nat => Nat.eqb (snd x) K) kept)) in *.
  set (fin := fun x : npf * nat => Nat.eqb (snd x) K && match fst x with Fin _ => true | NonFinite => false end).
  set (binned := fun j (x : npf * nat) => Nat.eqb (snd x) K && in_bin (linspace (6 / 10) (16 / 10) 100) j (fst x)).
  assert (PN : 0 < INR N) by (apply (lt_INR 0); auto).
  assert (Lh : length heights = 99%nat) by (rewrite Eh; unfold hist_heights, linspace; rewrite !map_length, !seq_length; reflexivity).
  assert (Hnth : forall j, (j < 99)%nat -> nth j heights 0 = INR (length (filter (binned j) kept)) / INR N).
  { intros j Hj. rewrite Eh. unfold hist_heights at 1. replace (length (linspace (6 / 10) (16 / 10) 100) - 1)%nat with 99%nat by (unfold linspace; rewrite map_length, seq_length; reflexivity).
    rewrite nth_map_seq by auto. rewrite weighted_filter. fold N. replace (0 + 1 / INR N) with (/ INR N) by (field; lra). unfold Rdiv. f_equal. f_equal.
    unfold binned. clear. clearbody kept. induction kept as [|[y k] l IH]; [reflexivity|]. cbn [filter snd]. destruct (Nat.eqb k K); cbn [andb map filter fst]; [|exact IH]. destruct (in_bin _ j y); cbn [length]; auto. }
  exists N, (length (filter fin kept)). split; [apply count_filter; intros x; apply Nat.eqb_eq|]. split; [auto|]. split.
  { apply count_filter. intros [y k]. unfold fin. cbn [fst snd]. rewrite andb_true_iff, Nat.eqb_eq. split; intros [X Y]; (split; [exact X|]); [destruct y; [eauto|discriminate]|destruct Y as [r ->]; reflexivity]. }
  split.
  { assert (Es : rsum heights = rsum (map (fun j => INR (length (filter (binned j) kept)) / INR N) (seq 0 99))).
    { f_equal. apply nth_ext with (d := 0) (d' := 0); [rewrite map_length, seq_length; auto|]. intros j Hj. rewrite Lh in Hj. rewrite nth_map_seq by auto. apply Hnth; auto. }
    rewrite Es. unfold Rdiv. rewrite rsum_map_scale_r. f_equal.
    assert (Hsum : forall l, (forall r k, In (Fin r, k) l -> 6 / 10 < r < 16 / 10) -> rsum (map (fun j => INR (length (filter (binned j) l))) (seq 0 99)) = INR (length (filter fin l))).
    { induction l as [|[y k] l IH]; intros Hr; [cbn [filter length INR]; apply rsum_map_0; auto|].
      transitivity (rsum (map (fun j => (if binned j (y, k) then 1 else 0) + INR (length (filter (binned j) l))) (seq 0 99))).
      { apply rsum_map_ext. intros j _. cbn [filter]. destruct (binned j (y, k)); [cbn [length]; rewrite S_INR; ring|ring]. }
      rewrite rsum_map_plus, IH by (intros r1 k1 Hr1; apply (Hr r1 k1); right; exact Hr1). cbn [filter]. unfold fin at 2. unfold binned. cbn [fst snd].
      destruct (Nat.eqb k K); cbn [andb]; [|rewrite rsum_map_0 by auto; ring].
      destruct y as [r|]; [|cbn [in_bin]; rewrite rsum_map_0 by auto; ring]. cbn [length]. rewrite S_INR.
      enough (X : rsum (map (fun j => if in_bin (linspace (6 / 10) (16 / 10) 100) j (Fin r) then 1 else 0) (seq 0 99)) = 1) by (rewrite X; ring).
      assert (Hb : 6 / 10 <= r < 16 / 10) by (destruct (Hr r k (or_introl eq_refl)); lra).
      pose proof (@one_bin (6 / 10) (16 / 10) 99 r ltac:(lra) ltac:(lia) Hb) as O. apply (f_equal INR) in O. change (INR 1) with 1 in O. eapply eq_trans; [|exact O]. clear.
      generalize (seq 0 99) as js. induction js as [|j js IHj]; [reflexivity|]. cbn [map]. rewrite rsum_cons, IHj. unfold list_sum. cbn [fold_right]. rewrite plus_INR. f_equal.
      change (S 99) with 100%nat. destruct (in_bin _ j (Fin r)); reflexivity. }
    apply Hsum. apply U. }
  split; [exact Lh|]. intros j Hj. exists (length (filter (binned j) kept)). split; [|apply Hnth; auto].
  apply count_filter. intros [y k]. unfold binned. cbn [fst snd]. rewrite andb_true_iff, Nat.eqb_eq. rewrite (@in_bin_spec (6 / 10) (16 / 10) 99 j y Hj). reflexivity.
Qed.
Print Assumptions C108_histograms.

(** ** No trial fails otherwise: on a network with positive weights, an edge, and no isolated vertex, with an optimiser that always answers
    with a partition of the network whose labels are contiguous, only ValueError can occur (for partitions without an estimate), so the
    studies always run to their end. *)
Theorem C108_total : forall env opt G h ws method,
  wf_graph G -> weights_defaulted (ee_contains env G) G h -> weights h = Some ws -> known_method method ->
  (forall w, In w ws -> 0 < w) -> edges G <> [] -> (forall v, (v < vcount G)%nat -> exists e, In e (edges G) /\ (fst e = v \/ snd e = v)) ->
  (forall i j k x, exists c, answer_mono (opt i j) method h k x = Ok (mkPart (list_max (map S c)) c) /\ length c = vcount G /\ forall a, (a <= list_max c)%nat -> In a c) ->
  (forall i j x tol max_iter, tolerated (snd (iterative_monolayer_resolution_parameter_estimation env (opt i j) G x tol max_iter false method))) /\
  (forall grid, exists xs ys, run_estimation_until_convergence env opt G method grid = Ok (xs, ys)) /\
  (forall grid, exists arrows, plot_one_step_estimation env opt G method grid = Ok arrows) /\
  (method = "leiden"%string -> forall i j x, exists r, one_run env (opt i j) G x = Ok r).
Proof.
  intros env opt G h ws method Hwf Hh Hws Hm Hpos Hne Hiso Hopt.
  assert (Eh : h = weighted_e env G) by (apply weighted_e_defaulted; exact Hh).
  assert (Ve : vcount h = vcount G) by (rewrite Eh; apply weighted_e_vcount).
  assert (Ee : edges h = edges G) by (rewrite Eh; apply weighted_e_edges).
  assert (Hwh : wf_graph h) by (rewrite Eh; apply weighted_e_wf; auto).
  assert (Lw : length ws = length (edges h)) by (apply (proj2 Hwh); auto).
  assert (Hest : forall c, length c = vcount G -> (forall a, (a <= list_max c)%nat -> In a c) ->
     exists o, snd (gamma_estimate env h (Partition (mkPart (list_max (map S c)) c))) = Ok o).
  { intros c Lc Hc.
    assert (E1 : snd (gamma_estimate env h (Partition (mkPart (list_max (map S c)) c))) = snd (gamma_estimate env h (Membership c))).
    { rewrite !gamma_estimate_graph by auto. cbn [snd bind]. unfold leiden_part_with_membership. rewrite weighted_e_vcount, Ve, Lc, Nat.eqb_refl. reflexivity. }
    rewrite E1. destruct (C30_exact env h h ws c Hwh) as [_ H]; auto.
    { apply (@h_again env G h); auto. }
    { congruence. }
    apply H. intros [X|[Hmx Hall]]; [congruence|].
    assert (Hend : forall v, (v < vcount G)%nat -> end_point (weighted_edges h ws) v).
    { intros v Hv. destruct (Hiso v Hv) as ([a b] & Hin & Hab). rewrite <- Ee in Hin. apply In_nth_error in Hin. destruct Hin as (k & Hk).
      assert (Hk' : (k < length ws)%nat) by (rewrite Lw; apply nth_error_Some; congruence).
      destruct (nth_error ws k) as [w|] eqn:Ew; [|apply nth_error_None in Ew; lia].
      exists a, b, w. split; [|destruct Hab as [Hab|Hab]; cbn in Hab; auto]. unfold weighted_edges. clear - Hk Ew. revert k Hk Ew. generalize (edges h) as E. induction ws as [|w0 l IH]; intros [|e E] [|k] Hk Ew; try discriminate.
      - cbn in *. inversion Hk. inversion Ew. subst. left. auto.
      - right. apply (IH E k); auto. }
    destruct (In_nth c 0%nat 0%nat (Hc 0%nat ltac:(lia))) as (i & Hi & Ei). destruct (In_nth c (list_max c) 0%nat (Hc (list_max c) ltac:(lia))) as (j & Hj & Ej).
    specialize (Hall i j (Hend i ltac:(lia)) (Hend j ltac:(lia))). lia. }
  assert (T1 : forall i j x tol max_iter, tolerated (snd (iterative_monolayer_resolution_parameter_estimation env (opt i j) G x tol max_iter false method))).
  { intros i j x tol max_iter. destruct (C45_outcome env (opt i j) G h ws x tol max_iter false method Hwf Hh Hws Hm) as (calls & answers & r & O & ->). cbn [snd andb].
    inversion O as [steps y' L Ge Le NC C E1 E2 E3|steps x' e L Ge Le NC F E1 E2 E3|steps x' p' e L Ge Le NC F U E1 E2 E3].
    - left. eauto.
    - exfalso. destruct (Hopt i j (length steps) x') as (c & E & _). rewrite E in F. discriminate.
    - right. destruct (Hopt i j (length steps) x') as (c & E & Lc & Hc). rewrite E in F. inversion F. subst p'. destruct (Hest c Lc Hc) as (o & Eo). unfold updates_mono in U. rewrite Eo in U. destruct o; [discriminate|inversion U; reflexivity]. }
  assert (T2 : forall i j x, tolerated (one_step env (opt i j) h method x)).
  { intros i j x. unfold one_step. destruct (Hopt i j 0%nat (Fin x)) as (c & -> & Lc & Hc). cbn [bind]. destruct (Hest c Lc Hc) as (o & ->). cbn [bind]. destruct o; [left; eauto|right; auto]. }
  split; [exact T1|]. split; [|split].
  - intros grid. destruct (C108_pairs env opt G h ws method grid Hwf Hh Hws Hm) as [P _]. destruct P as (pairs & E & _); [|eauto].
    intros [x o] Hin. cbn [fst snd]. unfold all_trials in Hin. apply in_flat_map in Hin. destruct Hin as ([i g] & _ & Hin). apply in_map_iff in Hin. destruct Hin as (j & Ej & _). cbn [fst snd] in Ej. inversion Ej. subst. apply T1.
  - intros grid. destruct (C108_arrows env opt G h ws method grid Hwf Hh Hws Hm) as [P _]. destruct P as (arrows & E & _); [|eauto]. intros i j x _ _. apply T2.
  - intros -> i j x. unfold one_run. pose proof (@one_iteration env (opt i j) G h ws x (1 / 100) "leiden"%string Hwf Hh Hws Hm) as E1.
    destruct (iterative_monolayer_resolution_parameter_estimation env (opt i j) G x (1 / 100) 1 false "leiden") as [[cs g'] r]. cbn [snd] in E1. subst r.
    destruct (Hopt i j 0%nat (Fin x)) as (c & E & Lc & Hc). change (part_membership (mkPart (list_max (map S c)) c)) with c in *. rewrite E. cbn [bind]. destruct (Hest c Lc Hc) as (o & ->). cbn [bind]. destruct o as [y|]; [|eexists; reflexivity].
    cbn [bind part_membership]. destruct (num_communities c) as [k|e] eqn:Ek; [eexists; reflexivity|].
    destruct (num_communities_errors _ Ek) as [[_ ->]|(_ & -> & a & b & Hab & Hb & Na)]; [eexists; reflexivity|]. exfalso. apply Na, Hc.
    assert (b <= list_max c)%nat; [|lia]. pose proof (proj1 (list_max_le c (list_max c)) (Nat.le_refl _)) as F. rewrite Forall_forall in F. auto.
Qed.
Print Assumptions C108_total.

(** Two triangles joined by an edge, with an optimiser that finds a single community at the first starting value and the triangles at all
    others: the hypotheses hold; there is no arrow at the first starting value, and the arrow at the second one ends at (10/7) / ln 6. *)
Definition triangles : graph := mkGraph 6 false [(0, 1); (0, 2); (1, 2); (2, 3); (3, 4); (3, 5); (4, 5)]%nat None.
Definition triangles_c (i : nat) : list nat := match i with 0%nat => [0; 0; 0; 0; 0; 0]%nat | _ => [0; 0; 0; 1; 1; 1]%nat end.
Definition triangles_opt (i j : nat) : opt_env :=
  mkOpt (fun _ _ _ => Ok (mkPart (list_max (map S (triangles_c i))) (triangles_c i))) (fun _ _ _ => Ok (triangles_c i)) (fun _ _ _ _ _ _ => Raise ValueError).

Example C108_example : forall env, ee_contains env triangles = false -> forall x0 x1 a,
  (exists xs ys, run_estimation_until_convergence env triangles_opt triangles "louvain" [x0; x1] = Ok (xs, ys)) /\
  (plot_one_step_estimation env triangles_opt triangles "louvain" [x0; x1] = Ok a ->
   exists m, a = [(x0, None); (x1, Some (Fin m))] /\ x1 + m = (10 / 7) / ln 6) /\
  (exists a, plot_one_step_estimation env triangles_opt triangles "louvain" [x0; x1] = Ok a) /\
  (forall g, exists r, one_run env (triangles_opt 0 0) triangles g = Ok r).
Proof.
  intros env He x0 x1 a. set (h := mkGraph 6 false [(0, 1); (0, 2); (1, 2); (2, 3); (3, 4); (3, 5); (4, 5)]%nat (Some (repeat 1 7))).
  assert (Hwf : wf_graph triangles) by (split; [cbn [edges triangles vcount]; literal_edges|discriminate]).
  assert (Hh : weights_defaulted (ee_contains env triangles) triangles h).
  { rewrite He. cbn. do 3 (split; auto). exists (repeat 1 7). split; auto. split; auto. intros w Hw. apply repeat_spec in Hw. auto. }
  assert (Ew : weights h = Some (repeat 1 7)) by reflexivity.
  assert (Hpos : forall w, In w (repeat 1 7) -> 0 < w) by (intros w Hw; apply repeat_spec in Hw; lra).
  assert (Hiso : forall v, (v < vcount triangles)%nat -> exists e, In e (edges triangles) /\ (fst e = v \/ snd e = v)).
  { intros v Hv. cbn in Hv. cbn [edges triangles].
    destruct v as [|[|[|[|[|[|v]]]]]]; [exists (0, 1)%nat|exists (0, 1)%nat|exists (0, 2)%nat|exists (2, 3)%nat|exists (3, 4)%nat|exists (3, 5)%nat|lia]; (split; [cbn; tauto|cbn; tauto]). }
  assert (Hopt : forall method, method = "louvain"%string \/ method = "leiden"%string -> forall i j k x,
     exists c, answer_mono (triangles_opt i j) method h k x = Ok (mkPart (list_max (map S c)) c) /\ length c = vcount triangles /\ forall b, (b <= list_max c)%nat -> In b c).
  { intros method Hm i j k x. exists (triangles_c i). split; [destruct Hm as [-> | ->]; reflexivity|]. split; [destruct i; reflexivity|].
    intros b Hb. destruct i; cbn in Hb; [destruct b; [cbn; tauto|lia]|destruct b as [|[|b]]; [cbn; tauto|cbn; tauto|lia]]. }
  destruct (C108_total env triangles_opt triangles h (repeat 1 7) "louvain" Hwf Hh Ew (or_introl eq_refl) Hpos ltac:(discriminate) Hiso (Hopt _ (or_introl eq_refl))) as (T1 & T2 & T3 & _).
  destruct (C108_total env triangles_opt triangles h (repeat 1 7) "leiden" Hwf Hh Ew (or_intror (or_introl eq_refl)) Hpos ltac:(discriminate) Hiso (Hopt _ (or_intror eq_refl))) as (_ & _ & _ & T4).
  split; [apply T2|]. split; [|split; [apply T3|apply T4; reflexivity]].
  assert (Hwh : wf_graph h) by (apply (@h_wf env triangles h); auto).
  assert (Eh : weighted_e env h = h). { symmetry. apply weighted_e_defaulted. apply (@h_again env triangles h); auto. }
  assert (Z : forall j x, one_step env (triangles_opt 0 j) h "louvain" x = Raise ValueError).
  { intros j x. unfold one_step. change (answer_mono (triangles_opt 0 j) "louvain" h 0 (Fin x)) with (Ok (mkPart 1 [0; 0; 0; 0; 0; 0]%nat)). cbn [bind].
    rewrite gamma_estimate_graph by auto. cbn [snd bind]. rewrite Eh.
    rewrite (@estimate_single h (repeat 1 7) [0; 0; 0; 0; 0; 0]%nat 1 None); auto.
    2:{ intros v Hv. do 6 (destruct v as [|v]; [cbn; lia|]). cbn in Hv. lia. }
    destruct (C30_exact env h h (repeat 1 7) [0; 0; 0; 0; 0; 0]%nat Hwh) as [_ H]; auto; [apply (@h_again env triangles h); auto|].
    destruct H as (o & Eo). { intros [X|[X _]]; [discriminate|cbn in X; lia]. }
    rewrite (@gamma_estimate_membership env h (repeat 1 7)) in Eo; auto; [|rewrite Eh; auto]. cbn [snd] in Eo. unfold weighted_edges.
    change (list_max (map S [0; 0; 0; 0; 0; 0]%nat)) with 1%nat in Eo.
    unfold sbm_outcome in *. destruct (Req_EM_T _ 0); [discriminate|]. destruct (Req_EM_T _ 0); [discriminate|]. cbn [Nat.ltb Nat.leb bind] in *.
    rewrite (proj2 (proj1 (C29_degenerate _ _))) by (right; reflexivity). reflexivity. }
  assert (Y : forall i j x, one_step env (triangles_opt (S i) j) h "louvain" x = Ok (Fin ((10 / 7) / ln 6))).
  { intros i j x. unfold one_step. change (answer_mono (triangles_opt (S i) j) "louvain" h 0 (Fin x)) with (Ok (mkPart 2 [0; 0; 0; 1; 1; 1]%nat)). cbn [bind].
    rewrite gamma_estimate_graph by auto. cbn [snd bind]. rewrite Eh.
    rewrite (@even_estimates 2 h [0; 0; 0; 1; 1; 1]%nat None); auto; [|discriminate|].
    2:{ split; [reflexivity|]. split; [intros l Hl; cbn in Hl; lia|]. intros r Hr. destruct r as [|[|r]]; [reflexivity|reflexivity|lia]. }
    cbn [bind]. change (edges_inside h [0; 0; 0; 1; 1; 1]%nat) with 6%nat. change (length (edges h)) with 7%nat.
    replace (INR 2 * INR 6 / INR 7) with (12 / 7) by (cbn; field). replace (INR 2 * (INR 7 - INR 6) / ((INR 2 - 1) * INR 7)) with (2 / 7) by (cbn; field).
    unfold gamma_estimate_from_parameters, np_log. destruct (Req_EM_T (12 / 7) 0); [lra|]. destruct (Req_EM_T (2 / 7) 0); [lra|]. unfold Rltb. destruct (Rlt_dec 0 (12 / 7)); [|lra]. destruct (Rlt_dec 0 (2 / 7)); [|lra].
    assert (E6 : ln (12 / 7) - ln (2 / 7) = ln 6). { replace (12 / 7) with (6 * (2 / 7)) by field. rewrite ln_mult by lra. ring. }
    assert (0 < ln 6) by (rewrite <- ln_1; apply ln_increasing; lra). rewrite E6. unfold np_div. destruct (Req_EM_T (ln 6) 0); [lra|]. f_equal. f_equal. field. lra. }
  intros Ha. destruct (C108_arrows env triangles_opt triangles h (repeat 1 7) "louvain" [x0; x1] Hwf Hh Ew (or_introl eq_refl)) as [P _].
  destruct P as (arrows & E1 & E2 & E3). { intros i j x _ _. destruct i; [rewrite Z; right; auto|rewrite Y; left; eauto]. }
  rewrite E1 in Ha. inversion Ha. subst arrows. clear Ha.
  destruct a as [|[y0 a0] [|[y1 a1] [|]]]; try discriminate. cbn in E2. inversion E2. subst y0 y1.
  destruct (E3 0%nat x0 a0 eq_refl) as (N0 & _). destruct (E3 1%nat x1 a1 eq_refl) as (_ & N1 & _).
  assert (R0 : returned (map (fun j => one_step env (triangles_opt 0 j) h "louvain" x0) (seq 0 (tries "louvain" 100))) = []).
  { generalize (seq 0 (tries "louvain" 100)) as l. induction l as [|j l IH]; [reflexivity|]. cbn [map]. rewrite Z. exact IH. }
  assert (R1 : returned (map (fun j => one_step env (triangles_opt 1 j) h "louvain" x1) (seq 0 (tries "louvain" 100))) = map Fin (repeat ((10 / 7) / ln 6) 100)).
  { assert (Eg : forall l, returned (map (fun j => one_step env (triangles_opt 1 j) h "louvain" x1) l) = map Fin (repeat ((10 / 7) / ln 6) (length l))).
    { induction l as [|j l IH]; [reflexivity|]. cbn [map]. rewrite Y. unfold returned in *. cbn [flat_map app length repeat map]. rewrite IH. reflexivity. }
    rewrite Eg, seq_length. reflexivity. }
  specialize (N0 R0). destruct (N1 _ R1) as (m & Em & Es). { cbn. discriminate. }
  exists m. split; [rewrite N0, Em; reflexivity|]. rewrite Es, repeat_length.
  assert (Er : forall n y, rsum (repeat y n) = INR n * y). { induction n as [|n IH]; intros y; [cbn [repeat INR]; rewrite rsum_nil; ring|]. cbn [repeat]. rewrite rsum_cons, IH, S_INR. ring. }
  rewrite Er. field. split; [|apply (not_INR 100 0); lia]. apply Rgt_not_eq. rewrite <- ln_1. apply ln_increasing; lra.
Qed.

(** A histogram of two estimates with two communities and one with three: two panels, in each of which the bars sum to 1. *)
Example C108_histogram_example : exists bars, histograms_per_K [Some (Fin (7 / 10), 2%nat); None; Some (Fin (15 / 10), 3%nat); Some (Fin 1, 2%nat)] = Ok bars /\
  (exists a, In (2%nat, a) bars /\ rsum a = 1) /\ (exists b, In (3%nat, b) bars /\ rsum b = 1) /\ length bars = 2%nat.
Proof.
  set (rs := [Some (Fin (7 / 10), 2%nat); None; Some (Fin (15 / 10), 3%nat); Some (Fin 1, 2%nat)]).
  destruct (C108_histograms rs) as [_ H]. destruct (H (Fin (7 / 10)) 2%nat [(Fin (15 / 10), 3%nat); (Fin 1, 2%nat)] eq_refl) as [_ U].
  destruct U as (bars & E & Nd & Hin & Hb).
  { split; [eauto|]. intros r k X. cbn in X. repeat (destruct X as [X|X]; [inversion X; subst; lra|]). destruct X. }
  exists bars. split; [exact E|].
  assert (S2 : forall K a, In (K, a) bars -> rsum a = 1).
  { intros K a Ha. destruct (Hb K a Ha) as (N & F & CN & PN & CF & ES & _). rewrite ES.
    assert (N = F). { apply (@count_of_unique _ (fun x => snd x = K) _ N F CN). clear - CF. remember (flat_map _ rs) as l eqn:El.
      assert (Fl : forall x, In x l -> exists r, fst x = Fin r) by (intros x Hx; subst l; cbn in Hx; repeat (destruct Hx as [<-|Hx]; [cbn; eauto|]); destruct Hx). clear El.
      induction CF as [|x l k Hx C IH|x l k Hx C IH].
      - constructor.
      - constructor; [tauto|]. apply IH. intros y Hy. apply Fl. right. auto.
      - apply count_no; [|apply IH; intros y Hy; apply Fl; right; auto]. intros X. apply Hx. split; auto. apply Fl. left. auto. }
    subst F. field. apply not_0_INR. lia. }
  destruct (proj2 (Hin 2%nat)) as (a & Ha). { split; [lia|]. exists (Fin 1). cbn. tauto. }
  destruct (proj2 (Hin 3%nat)) as (b & Hb3). { split; [lia|]. exists (Fin (15 / 10)). cbn. tauto. }
  split; [eauto|]. split; [eauto|].
  assert (L : (length (map fst bars) <= length [2; 3]%nat)%nat).
  { apply NoDup_incl_length; auto. intros K HK. apply in_map_iff in HK. destruct HK as ([K' hs] & EK & HK). cbn in EK. subst K'. destruct (proj1 (Hin K) (ex_intro _ hs HK)) as (_ & y & Y). cbn in Y. cbn.
    repeat (destruct Y as [Y|Y]; [inversion Y; subst; tauto|]). destruct Y. }
  assert (L' : (length [2; 3]%nat <= length (map fst bars))%nat).
  { apply NoDup_incl_length; [repeat constructor; cbn; intuition lia|]. intros K [<-|[<-|[]]]; apply in_map_iff; [exists (2%nat, a)|exists (3%nat, b)]; auto. }
  rewrite map_length in L, L'. cbn in L, L'. lia.
Qed.
