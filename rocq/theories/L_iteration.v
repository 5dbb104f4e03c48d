(** Facts about the iterations of M_estimation.v. *)
From Verif Require Import PyBase PyGraph M_partition M_champ M_leiden M_estimation_utils M_estimation Spec Spec_graph Spec_leiden Spec_sbm
  Spec_multisbm Spec_check Spec_valid Spec_iteration L_base L_modularity L_modularity3 L_leiden L_sbm L_sbm2 L_check L_multisbm L_accepted L_omega L_prune.
From Coq Require Import Classical.
Open Scope R_scope.
Set Implicit Arguments.

Section Generic.
Variables (X P : Type) (answer : nat -> X -> res P) (update : P -> res X -> Prop) (converged : X -> X -> Prop).

(** The loop as a relation, at iteration [k] with [n] left. *)
Inductive run : nat -> nat -> X -> list X -> list P -> res X -> Prop :=
| run_out k x : run 0 k x [] [] (Ok x)
| run_answer_fails n k x e : answer k x = Raise e -> run (S n) k x [x] [] (Raise e)
| run_update_fails n k x p e : answer k x = Ok p -> update p (Raise e) -> run (S n) k x [x] [p] (Raise e)
| run_converges n k x p y : answer k x = Ok p -> update p (Ok y) -> converged x y -> run (S n) k x [x] [p] (Ok y)
| run_continues n k x p y calls ps r : answer k x = Ok p -> update p (Ok y) -> ~ converged x y -> run n (S k) y calls ps r ->
    run (S n) k x (x :: calls) (p :: ps) r.

Hypothesis functional : forall p r r', update p r -> update p r' -> r = r'.

Lemma run_unique n k x calls ps r calls' ps' r' : run n k x calls ps r -> run n k x calls' ps' r' -> calls' = calls /\ ps' = ps /\ r' = r.
Proof.
  intros H. revert calls' ps' r'. induction H; intros calls' ps' r' H'; inversion H'; subst; auto;
    repeat match goal with
    | A : answer ?k ?x = _, B : answer ?k ?x = _ |- _ => rewrite A in B; inversion B; subst; clear B
    | A : update ?p _, B : update ?p _ |- _ => pose proof (functional A B) as F; inversion F; subst; clear B F
    end; try congruence; try tauto.
  match goal with A : run n (S k) _ ?c ?q r' |- _ => destruct (IHrun _ _ _ A) as (-> & -> & ->) end. auto.
Qed.

Definition genuine_from (k : nat) (steps : list (step X P)) : Prop :=
  forall i s, nth_error steps i = Some s -> answer (k + i) (called s) = Ok (found s) /\ update (found s) (Ok (estimated s)).
Notation small := (small X P converged).

Inductive outcome_from (n k : nat) (start : X) : list X -> list P -> res X -> Prop :=
| finished_from steps y :
    linked X P start steps y -> genuine_from k steps -> (length steps <= n)%nat ->
    (forall i s, nth_error steps i = Some s -> (S i < length steps)%nat -> ~ small s) ->
    (length steps = n \/ exists before s, steps = before ++ [s] /\ small s) ->
    outcome_from n k start (map called steps) (map found steps) (Ok y)
| optimiser_failed_from steps x e :
    linked X P start steps x -> genuine_from k steps -> (length steps < n)%nat -> (forall s, In s steps -> ~ small s) ->
    answer (k + length steps) x = Raise e ->
    outcome_from n k start (map called steps ++ [x]) (map found steps) (Raise e)
| estimate_failed_from steps x p e :
    linked X P start steps x -> genuine_from k steps -> (length steps < n)%nat -> (forall s, In s steps -> ~ small s) ->
    answer (k + length steps) x = Ok p -> update p (Raise e) ->
    outcome_from n k start (map called steps ++ [x]) (map found steps ++ [p]) (Raise e).

Lemma genuine_cons k s steps : answer k (called s) = Ok (found s) -> update (found s) (Ok (estimated s)) -> genuine_from (S k) steps ->
  genuine_from k (s :: steps).
Proof.
  intros A B H [|i] s' E; cbn in E.
  - inversion E. subst. rewrite Nat.add_0_r. auto.
  - replace (k + S i)%nat with (S k + i)%nat by lia. apply H. auto.
Qed.
Lemma genuine_nil k : genuine_from k [].
Proof. intros [|i] s E; discriminate. Qed.

Lemma run_outcome n k x calls ps r : run n k x calls ps r -> outcome_from n k x calls ps r.
Proof.
  induction 1 as [k x|n k x e A|n k x p e A U|n k x p y A U C|n k x p y calls ps r A U C H IH].
  - apply (@finished_from 0 k x [] x); [apply linked_nil|apply genuine_nil|auto| |left; auto]. intros [|i] s E; discriminate.
  - apply (@optimiser_failed_from (S n) k x [] x e); [apply linked_nil|apply genuine_nil|cbn; lia|intros s []|]. cbn. rewrite Nat.add_0_r. auto.
  - apply (@estimate_failed_from (S n) k x [] x p e); [apply linked_nil|apply genuine_nil|cbn; lia|intros s []| |auto]. cbn. rewrite Nat.add_0_r. auto.
  - apply (@finished_from (S n) k x [mkStep x p y] y).
    + apply (@linked_cons X P (mkStep x p y) [] y). apply linked_nil.
    + apply genuine_cons; auto. apply genuine_nil.
    + cbn. lia.
    + intros i s _ L. cbn in L. lia.
    + right. exists [], (mkStep x p y). split; auto.
  - set (s0 := mkStep x p y).
    assert (G : forall steps, genuine_from (S k) steps -> genuine_from k (s0 :: steps)) by (intros; apply genuine_cons; auto).
    assert (Lk : forall steps z, linked X P y steps z -> linked X P x (s0 :: steps) z) by (intros steps z HL; apply (@linked_cons X P s0); auto).
    assert (NS : ~ small s0) by (exact C).
    destruct IH as [steps z L Ge Le NC E|steps z e L Ge Lt NC E|steps z q e L Ge Lt NC E1 E2].
    + apply (@finished_from (S n) k x (s0 :: steps) z); auto; [cbn; lia| |].
      * intros [|i] s Es Hi; cbn in *; [inversion Es; subst; auto|]. apply (NC i s); auto. lia.
      * destruct E as [E|(b & s & -> & Hs)]; [left; cbn; lia|right]. exists (s0 :: b), s. auto.
    + apply (@optimiser_failed_from (S n) k x (s0 :: steps) z e); auto; [cbn; lia| |].
      * intros s [<-|Hs]; auto.
      * cbn [length]. replace (k + S (length steps))%nat with (S k + length steps)%nat by lia. auto.
    + apply (@estimate_failed_from (S n) k x (s0 :: steps) z q e); auto; [cbn; lia| |].
      * intros s [<-|Hs]; auto.
      * cbn [length]. replace (k + S (length steps))%nat with (S k + length steps)%nat by lia. auto.
Qed.

Lemma genuine_tail k s steps : genuine_from k (s :: steps) -> answer k (called s) = Ok (found s) /\ update (found s) (Ok (estimated s)) /\ genuine_from (S k) steps.
Proof.
  intros H. destruct (H 0%nat s eq_refl) as [A B]. rewrite Nat.add_0_r in A. split; auto. split; auto. intros i s' E.
  replace (S k + i)%nat with (k + S i)%nat by lia. apply H. auto.
Qed.

Lemma outcome_run n k x calls ps r : outcome_from n k x calls ps r -> run n k x calls ps r.
Proof.
  intros [steps y L Ge Le NC E|steps y e L Ge Lt NC E|steps y q e L Ge Lt NC E1 E2].
  - revert n k Ge Le NC E. induction L as [x|s steps y L IH]; intros n k Ge Le NC E.
    + destruct E as [<-|(b & s & Eb & _)]; [constructor|destruct b; discriminate].
    + apply genuine_tail in Ge. destruct Ge as (A & U & Ge). cbn in Le. destruct n as [|n]; [lia|]. cbn [map].
      destruct steps as [|s' steps].
      * inversion L. subst y. destruct (classic (converged (called s) (estimated s))) as [C|C]; [eapply run_converges; eauto|].
        destruct E as [E|(b & s1 & Eb & C')].
        -- cbn in E. assert (n = 0%nat) by lia. subst n. eapply run_continues; eauto. constructor.
        -- destruct b as [|b0 [|b1 b]]; inversion Eb. subst. exfalso. auto.
      * eapply run_continues; eauto; [apply (NC 0%nat s); cbn; auto; lia|]. apply IH; auto; [lia| |].
        -- intros i s1 Es Hi. apply (NC (S i)); cbn in *; auto. lia.
        -- destruct E as [E|(b & s1 & Eb & C')]; [left; cbn in *; lia|]. right. destruct b as [|b0 b]; [inversion Eb|]. inversion Eb. exists b, s1. auto.
  - revert n k Ge Lt E. induction L as [x|s steps y L IH]; intros n k Ge Lt E.
    + destruct n; [cbn in Lt; lia|]. cbn in *. rewrite Nat.add_0_r in E. constructor. auto.
    + apply genuine_tail in Ge. destruct Ge as (A & U & Ge). cbn in Lt. destruct n as [|n]; [lia|]. cbn [map app].
      eapply run_continues; eauto; [apply (NC s); left; auto|]. apply IH; auto; [intros; apply NC; right; auto|lia|].
      cbn [length] in E. replace (S k + length steps)%nat with (k + S (length steps))%nat by lia. auto.
  - revert n k Ge Lt E1. induction L as [x|s steps y L IH]; intros n k Ge Lt E1.
    + destruct n; [cbn in Lt; lia|]. cbn in *. rewrite Nat.add_0_r in E1. apply run_update_fails; auto.
    + apply genuine_tail in Ge. destruct Ge as (A & U & Ge). cbn in Lt. destruct n as [|n]; [lia|]. cbn [map app].
      eapply run_continues; eauto; [apply (NC s); left; auto|]. apply IH; auto; [intros; apply NC; right; auto|lia|].
      cbn [length] in E1. replace (S k + length steps)%nat with (k + S (length steps))%nat by lia. auto.
Qed.

Lemma outcome_iff max_iter x calls ps r : outcome X P answer update converged max_iter x calls ps r <-> run (Z.to_nat max_iter) 0 x calls ps r.
Proof.
  split.
  - intros H. apply outcome_run. destruct H as [steps y L Ge Le NC E|steps y e L Ge Lt NC E|steps y q e L Ge Lt NC E1 E2].
    + apply finished_from; auto; [lia|]. destruct E as [E|E]; [left; lia|auto].
    + apply optimiser_failed_from; auto. lia.
    + apply estimate_failed_from; auto. lia.
  - intros H. apply run_outcome in H. destruct H as [steps y L Ge Le NC E|steps y e L Ge Lt NC E|steps y q e L Ge Lt NC E1 E2].
    + apply finished; auto; [lia|]. destruct E as [E|E]; [left; lia|auto].
    + apply optimiser_failed; auto. lia.
    + apply estimate_failed; auto. lia.
Qed.

Lemma outcome_unique max_iter x calls ps r calls' ps' r' : outcome X P answer update converged max_iter x calls ps r ->
  outcome X P answer update converged max_iter x calls' ps' r' -> calls' = calls /\ ps' = ps /\ r' = r.
Proof. rewrite !outcome_iff. apply run_unique. Qed.

Lemma run_length n k x calls ps r : run n k x calls ps r -> (length calls <= n)%nat /\ (length ps <= length calls)%nat /\ (forall y, r = Ok y -> length ps = length calls) /\
  (calls = [] <-> n = 0%nat) /\ (n = 0%nat -> r = Ok x) /\ forall c cs, calls = c :: cs -> c = x.
Proof.
  induction 1 as [k x|n k x e A|n k x p e A U|n k x p y A U C|n k x p y calls ps r A U C H IH]; cbn; repeat split; intros; try lia; try discriminate; try congruence; auto;
    destruct IH as (I1 & I2 & I3 & _); try lia. rewrite (I3 y0); auto.
Qed.
End Generic.

Lemma linked_last X P (x : X) (b : list (step X P)) s y : linked X P x (b ++ [s]) y -> estimated s = y.
Proof.
  revert x. induction b as [|s0 b IH]; intros x L; inversion L as [|? ? ? L' E1]; subst; [inversion L'; auto|eapply IH; eauto].
Qed.

Lemma last_of_cons {A} (a : A) l : last_of (a :: l) = match last_of l with None => Some a | x => x end.
Proof.
  assert (N : forall l : list A, l <> [] -> last (map Some l) None <> None).
  { clear. induction l as [|b [|c l] IH]; intros H; [congruence|discriminate|]. apply IH. discriminate. }
  destruct l as [|b l]; [reflexivity|]. change (last_of (a :: b :: l)) with (last_of (b :: l)). specialize (N (b :: l)). unfold last_of.
  destruct (last (map Some (b :: l)) None); auto. exfalso. apply N; [discriminate|auto].
Qed.
Lemma last_of_app {A} (l : list A) a : last_of (l ++ [a]) = Some a.
Proof. induction l as [|b l IH]; [reflexivity|]. cbn [app]. rewrite last_of_cons, IH. reflexivity. Qed.
Lemma last_of_none {A} (l : list A) : last_of l = None <-> l = [].
Proof. destruct l as [|a l]; [cbn; tauto|]. rewrite last_of_cons. destruct (last_of l); split; discriminate. Qed.

Lemma close_iff tol a b : close tol a b = true <-> gamma_close tol a b.
Proof.
  unfold close, gamma_close, Rltb. destruct a as [x|], b as [y|]; try (split; [discriminate|intros (x' & y' & A & B & _); congruence]).
  destruct (Rlt_dec (Rabs (x - y)) tol); split; auto; [intros _; exists x, y; auto|discriminate|]. intros (x' & y' & A & B & C). inversion A. inversion B. subst. lra.
Qed.

(** ** Single layer *)

Section Mono.
Variables (env : est_env) (opt : opt_env) (h : graph) (ws : list R) (tol : R).
Hypothesis Hh : weighted_e env h = h.
Hypothesis Hwf : wf_graph h.
Hypothesis Hws : weights h = Some ws.

Lemma estimate_m p : estimate_singlelayer_SBM_parameters h p (Some (rsum ws)) = estimate_singlelayer_SBM_parameters h p None.
Proof. unfold estimate_singlelayer_SBM_parameters. rewrite Hws. reflexivity. Qed.

Lemma updates_mono_iff p r : updates_mono env h p r <->
  r = (let! (a, b) := estimate_singlelayer_SBM_parameters h p (Some (rsum ws)) in match gamma_estimate_from_parameters a b with None => Raise ValueError | Some x => Ok x end).
Proof.
  unfold updates_mono. rewrite gamma_estimate_graph by auto. rewrite Hh. cbn [snd bind]. rewrite estimate_m.
  destruct (estimate_singlelayer_SBM_parameters h p None) as [[a b]|e]; cbn [bind]; [|tauto]. destruct (gamma_estimate_from_parameters a b); tauto.
Qed.
Lemma updates_mono_fun p r r' : updates_mono env h p r -> updates_mono env h p r' -> r = r'.
Proof. rewrite !updates_mono_iff. congruence. Qed.

Variable method : string.
Variable maximize : nat -> graph -> npf -> graph * res lpart.
Hypothesis Hmax : forall k x, maximize k h x = (h, answer_mono opt method h k x).
Definition mono_run := run (answer_mono opt method h) (updates_mono env h) (fun x y => gamma_close tol y x).

Lemma mono_loop_run n : forall k x part last_gamma, exists ps r,
  mono_run n k x (fst (fst (mono_loop maximize (rsum ws) tol n k h x part last_gamma))) ps r /\
  snd (fst (mono_loop maximize (rsum ws) tol n k h x part last_gamma)) = h /\
  match r with
  | Raise e => snd (mono_loop maximize (rsum ws) tol n k h x part last_gamma) = Raise e
  | Ok y => exists lg how, snd (mono_loop maximize (rsum ws) tol n k h x part last_gamma)
              = Ok (y, match last_of ps with None => part | Some p => Some p end, lg, how) /\
              (ps = [] -> lg = last_gamma /\ how = Exhausted) /\ (ps <> [] -> lg <> None)
  end.
Proof.
  induction n as [|n IH]; intros k x part lg.
  - exists [], (Ok x). cbn. split; [constructor|]. split; auto. exists lg, Exhausted. split; auto.
  - cbn [mono_loop]. rewrite Hmax. destruct (answer_mono opt method h k x) as [p|e] eqn:A; cbn [bind].
    2:{ exists [], (Raise e). cbn. split; [constructor; auto|auto]. }
    pose proof (updates_mono_iff p) as U.
    destruct (estimate_singlelayer_SBM_parameters h p (Some (rsum ws))) as [[a b]|e]; cbn [bind] in *.
    2:{ exists [p], (Raise e). cbn. split; [apply run_update_fails; auto; apply U; auto|auto]. }
    destruct (gamma_estimate_from_parameters a b) as [y|].
    2:{ exists [p], (Raise ValueError). cbn. split; [apply run_update_fails; auto; apply U; auto|auto]. }
    destruct (close tol y x) eqn:C.
    + exists [p], (Ok y). cbn. split; [apply run_converges; auto; [apply U; auto|apply close_iff; auto]|]. split; auto.
      exists (Some x), Broke. split; auto. split; [congruence|discriminate].
    + assert (NC : ~ gamma_close tol y x) by (rewrite <- close_iff, C; discriminate).
      specialize (IH (S k) y (Some p) (Some x)). destruct (mono_loop maximize (rsum ws) tol n (S k) h y (Some p) (Some x)) as [[calls g'] out]. cbn [fst snd] in IH.
      destruct IH as (ps & r & Hr & -> & E). exists (p :: ps), r. cbn [fst snd]. split; [eapply run_continues; eauto; apply U; auto|]. split; auto.
      destruct r as [z|e]; auto. destruct E as (lg' & how & -> & E1 & E2). exists lg', how. rewrite last_of_cons. split.
      * destruct (last_of ps); reflexivity.
      * split; [discriminate|]. intros _. destruct (classic (ps = [])) as [Ep|Np]; [destruct (E1 Ep) as [-> _]; discriminate|auto].
Qed.
End Mono.

Section MonoWhole.
Variables (env : est_env) (opt : opt_env) (g : graph) (ws : list R) (gamma tol : R) (max_iter : Z) (verbose : bool) (method : string).
Hypothesis Hwf : wf_graph g.
Notation h := (weighted_e env g).
Notation whole := (iterative_monolayer_resolution_parameter_estimation env opt g gamma tol max_iter verbose method).

Definition part_of (verbose : bool) (max_iter : Z) (ps : list lpart) (r : res npf) : res (npf * option lpart) :=
  match r with
  | Raise e => Raise e
  | Ok y => if verbose && (max_iter <=? 0)%Z then Raise TypeError else Ok (y, last_of ps)
  end.

Lemma maximize_of : known_method method ->
  exists maximize, (if String.eqb method "louvain" || String.eqb method "leiden" then Ok (maximize_leiden env opt)
             else if String.eqb method "2-spinglass" then Ok (maximize_spinglass opt)
             else Raise ValueError) = Ok maximize /\ forall k x, maximize k h x = (h, answer_mono opt method h k x).
Proof.
  assert (L : forall k x, maximize_leiden env opt k h x = (h, oe_find opt k h x)).
  { intros k x. unfold maximize_leiden. rewrite default_weights_weighted, weighted_e_idem. reflexivity. }
  intros [->|[->| ->]]; cbn [String.eqb Ascii.eqb Bool.eqb orb]; eexists; (split; [reflexivity|]); intros k x; try apply L.
  unfold maximize_spinglass, answer_mono. cbn. destruct (oe_spinglass opt k h x); reflexivity.
Qed.

Lemma mono_whole : weights h = Some ws -> known_method method ->
  exists calls ps r, outcome npf lpart (answer_mono opt method h) (updates_mono env h) (fun x y => gamma_close tol y x) max_iter (Fin gamma) calls ps r /\
    whole = (calls, h, part_of verbose max_iter ps r).
Proof.
  intros Hws Hm. destruct (maximize_of Hm) as (maximize & Em & Hmax). unfold iterative_monolayer_resolution_parameter_estimation.
  rewrite default_weights_weighted, Hws, Em.
  destruct (@mono_loop_run env opt h ws tol (weighted_e_idem env g) (weighted_e_wf env Hwf) Hws method maximize Hmax (Z.to_nat max_iter) 0%nat (Fin gamma) None None) as (ps & r & Hr & Hg & Er).
  destruct (mono_loop maximize (rsum ws) tol (Z.to_nat max_iter) 0 h (Fin gamma) None None) as [[calls g'] out]. cbn [fst snd] in *. subst g'.
  exists calls, ps, r. split; [apply outcome_iff; exact Hr|]. f_equal. unfold part_of. destruct r as [y|e]; [|rewrite Er; reflexivity].
  destruct Er as (lg & how & -> & E1 & E2). cbn [bind]. apply run_length in Hr. destruct Hr as (_ & _ & H3 & H4 & _). specialize (H3 y eq_refl).
  unfold mono_report. destruct verbose; cbn [andb]; [|destruct (last_of ps); reflexivity].
  destruct (Z.leb_spec max_iter 0) as [L|L].
  - assert (Ep : ps = []). { destruct ps; auto. assert (calls = []) by (apply H4; lia). subst. discriminate. }
    destruct (E1 Ep) as [-> ->]. reflexivity.
  - assert (Np : ps <> []). { intros ->. destruct calls; [|discriminate]. assert (Z.to_nat max_iter = 0%nat) by (apply H4; auto). lia. }
    specialize (E2 Np). destruct lg as [lg|]; [|congruence]. destruct (last_of ps) as [p|] eqn:El; [|apply last_of_none in El; congruence].
    destruct how; reflexivity.
Qed.

Lemma mono_unknown : ~ known_method method -> weights h <> None -> whole = ([], h, Raise ValueError).
Proof.
  intros Hm Hws. unfold iterative_monolayer_resolution_parameter_estimation. rewrite default_weights_weighted. destruct (weights h); [|congruence].
  destruct (String.eqb_spec method "louvain"); [exfalso; apply Hm; left; auto|]. destruct (String.eqb_spec method "leiden"); [exfalso; apply Hm; right; auto|].
  destruct (String.eqb_spec method "2-spinglass"); [exfalso; apply Hm; right; auto|]. reflexivity.
Qed.
Lemma mono_unweighted : weights h = None -> whole = ([], h, Raise KeyError).
Proof. intros Hws. unfold iterative_monolayer_resolution_parameter_estimation. rewrite default_weights_weighted, Hws. reflexivity. Qed.
End MonoWhole.

(** ** Multilayer *)

Section Numbers.
Variables (h : graph) (ws : list R) (lv : list nat).
Hypothesis Hws : weights h = Some ws.
Hypothesis Hr : forall u v, In (u, v) (edges h) -> (u < length lv)%nat /\ (v < length lv)%nat.
Hypothesis Hne : lv <> [].
Let T := S (list_max lv).

Lemma lv_le v : (v < length lv)%nat -> (nth v lv 0%nat < T)%nat.
Proof.
  intros Hv. unfold T. assert (G : Forall (fun k => (k <= list_max lv)%nat) lv) by (apply list_max_le; auto).
  rewrite Forall_forall in G. specialize (G (nth v lv 0%nat) (nth_In _ _ Hv)). lia.
Qed.
Lemma numbers_T : layer_count_T lv = Ok T.
Proof. unfold layer_count_T. rewrite (@py_max_list lv _ Hne eq_refl). cbn [bind]. unfold T. f_equal. lia. Qed.
Lemma numbers_N : nodes_per_layer h T = Ok (vcount h / T)%nat.
Proof. reflexivity. Qed.
Lemma numbers_Nt : layer_nodes lv T = Ok (map (nodes_in lv) (seq 0 T)).
Proof.
  unfold layer_nodes. rewrite <- (map_const_repeat 0%nat T). rewrite layer_nodes_loop; [reflexivity|].
  intros x Hx. unfold T. assert (G : Forall (fun k => (k <= list_max lv)%nat) lv) by (apply list_max_le; auto). rewrite Forall_forall in G. specialize (G x Hx). lia.
Qed.
Lemma numbers_m : layer_weights h lv T = Ok (map (weight_in (weighted_edges h ws) lv) (seq 0 T)).
Proof.
  unfold layer_weights, wedges. rewrite Hws. cbn [bind]. rewrite <- (map_const_repeat 0 T).
  rewrite (@layer_weights_loop (length lv) T lv lv eq_refl eq_refl lv_le).
  - f_equal. apply map_ext. intros t. rewrite Rplus_0_l. reflexivity.
  - intros u v w H. apply in_combine_l in H. auto.
Qed.
End Numbers.

Section Multi.
Variables (env : est_env) (opt : opt_env) (h gi : graph) (ws : list R) (lv : list nat) (model : string) (omega_max gamma_tol omega_tol : R).
Hypothesis Hh : weighted_e env h = h.
Hypothesis Hws : weights h = Some ws.
Hypothesis Hr : forall u v, In (u, v) (edges h) -> (u < length lv)%nat /\ (v < length lv)%nat.
Hypothesis Hne : lv <> [].
Let T := S (list_max lv).
Let N := (vcount h / T)%nat.
Let Nt := map (nodes_in lv) (seq 0 T).
Let m_t := map (weight_in (weighted_edges h ws) lv) (seq 0 T).
Variable f : R -> R -> R -> nat -> res R.
Hypothesis Hf : omega_function_from_model model omega_max T = Ok f.

Lemma estimate_given part : estimate_multilayer_SBM_parameters env h gi lv part model (Some N) (Some T) (Some Nt) (Some m_t)
  = estimate_multilayer_SBM_parameters env h gi lv part model None None None None.
Proof.
  unfold estimate_multilayer_SBM_parameters. destruct (default_weights_e env h) as [h'|e] eqn:D; auto.
  rewrite default_weights_weighted, Hh in D. inversion D. subst h'. f_equal. unfold estimate_multilayer_weighted, or_default.
  rewrite (numbers_T Hne). cbn [bind]. rewrite numbers_N. cbn [bind]. rewrite (@numbers_m h ws lv Hws Hr). cbn [bind]. rewrite numbers_Nt. reflexivity.
Qed.

Lemma updates_multi_iff ps r : updates_multi env h gi lv model omega_max ps r <->
  r = (let! part := py_get ps 0 in
       let! (theta_in, theta_out, p, K) := snd (estimate_multilayer_SBM_parameters env h gi lv part model None None None None) in
       if Rleb 0 p && Rleb p 1 then
         match gamma_estimate_from_parameters theta_in theta_out with
         | None => Raise ValueError
         | Some gamma' => let! omega' := f theta_in theta_out p K in Ok (gamma', omega')
         end
       else Raise ValueError).
Proof.
  assert (D : forall p, if Rleb 0 p && Rleb p 1 then 0 <= p <= 1 else ~ (0 <= p <= 1)).
  { intros p. unfold Rleb. destruct (Rle_dec 0 p), (Rle_dec p 1); cbn; lra. }
  split.
  - intros H. destruct H as [|part parts e H|part parts ti to p K H Hp|part parts ti to p K H Hp Hg|part parts ti to p K g f' o H Hp Hg Hf' Ho]; cbn [py_get nth_error bind]; auto; rewrite H; cbn [bind]; auto;
      specialize (D p); destruct (Rleb 0 p && Rleb p 1); try tauto; rewrite Hg; auto.
    assert (f' = f) by (unfold T in Hf; congruence). subst. destruct (f ti to p K); reflexivity.
  - intros ->. destruct ps as [|part parts]; cbn [py_get nth_error bind]; [constructor|].
    destruct (snd (estimate_multilayer_SBM_parameters env h gi lv part model None None None None)) as [[[[ti to] p] K]|e] eqn:H; cbn [bind]; [|eapply sbm_fails; eauto].
    specialize (D p). destruct (Rleb 0 p && Rleb p 1); [|eapply impossible_p; eauto].
    destruct (gamma_estimate_from_parameters ti to) as [g|] eqn:Hg; [|eapply degenerate; eauto].
    assert (U := @both_estimates env h gi lv model omega_max part parts ti to p K g f (f ti to p K) H D Hg Hf eq_refl).
    destruct (f ti to p K); exact U.
Qed.
Lemma updates_multi_fun ps r r' : updates_multi env h gi lv model omega_max ps r -> updates_multi env h gi lv model omega_max ps r' -> r = r'.
Proof. rewrite !updates_multi_iff. congruence. Qed.

Lemma both_close_iff x y : close gamma_tol (fst y) (fst x) && Rltb (Rabs (snd y - snd x)) omega_tol = true <-> both_close gamma_tol omega_tol x y.
Proof. rewrite andb_true_iff, close_iff. unfold both_close, Rltb. destruct (Rlt_dec _ _); split; intros [A B]; split; auto; try discriminate. Qed.

Definition multi_run := run (answer_multi opt h gi lv) (updates_multi env h gi lv model omega_max) (both_close gamma_tol omega_tol).
Notation loop := (multi_loop env opt f gi lv model N T Nt m_t gamma_tol omega_tol).

Lemma estimate_graph part N' T' Nt' m' : fst (estimate_multilayer_SBM_parameters env h gi lv part model N' T' Nt' m') = h.
Proof. unfold estimate_multilayer_SBM_parameters. rewrite default_weights_weighted, Hh. reflexivity. Qed.

Lemma multi_loop_run n : forall k parts gamma omega last, exists ps r,
  multi_run n k (gamma, omega) (fst (fst (fst (loop n k parts h gamma omega last)))) ps r /\
  snd (fst (fst (loop n k parts h gamma omega last))) = match last_of ps with None => parts | Some p => Some p end /\
  snd (fst (loop n k parts h gamma omega last)) = h /\
  match r with
  | Raise e => snd (loop n k parts h gamma omega last) = Raise e
  | Ok (y, z) => exists lg how, snd (loop n k parts h gamma omega last) = Ok (y, z, lg, how) /\
              (ps = [] -> lg = last /\ how = Exhausted) /\ (ps <> [] -> lg <> None)
  end.
Proof.
  induction n as [|n IH]; intros k parts gamma omega last.
  - exists [], (Ok (gamma, omega)). cbn. split; [constructor|]. split; auto. split; auto. exists last, Exhausted. split; auto.
  - cbn [multi_loop]. change (oe_multi opt k h gi lv gamma omega) with (answer_multi opt h gi lv k (gamma, omega)).
    destruct (answer_multi opt h gi lv k (gamma, omega)) as [q|e] eqn:A.
    2:{ exists [], (Raise e). cbn. split; [constructor; auto|auto]. }
    pose proof (updates_multi_iff q) as U. destruct (py_get q 0) as [part|e]; cbn [bind] in U.
    2:{ exists [q], (Raise e). cbn. split; [apply run_update_fails; auto; apply U; auto|auto]. }
    rewrite estimate_given. pose proof (estimate_graph part None None None None) as G.
    destruct (estimate_multilayer_SBM_parameters env h gi lv part model None None None None) as [g' est]. cbn [fst snd] in G, U. subst g'.
    match type of U with forall r, _ <-> r = ?x => set (upd := x) in * end.
    match goal with |- context [match ?x with Ok _ => _ | Raise _ => _ end] => change x with upd end.
    clearbody upd. destruct upd as [[y z]|e].
    2:{ exists [q], (Raise e). cbn. split; [apply run_update_fails; auto; apply U; auto|auto]. }
    pose proof (both_close_iff (gamma, omega) (y, z)) as C. cbn [fst snd] in C.
    destruct (close gamma_tol y gamma && Rltb (Rabs (z - omega)) omega_tol).
    + exists [q], (Ok (y, z)). cbn. split; [apply run_converges; auto; [apply U; auto|apply C; auto]|]. split; auto. split; auto.
      exists (Some (gamma, omega)), Broke. split; auto. split; [congruence|discriminate].
    + assert (NC : ~ both_close gamma_tol omega_tol (gamma, omega) (y, z)) by (rewrite <- C; discriminate).
      specialize (IH (S k) (Some q) y z (Some (gamma, omega))). destruct (loop n (S k) (Some q) h y z (Some (gamma, omega))) as [[[calls parts'] g'] out]. cbn [fst snd] in IH.
      destruct IH as (ps & r & Hrun & -> & -> & E). exists (q :: ps), r. cbn [fst snd]. split; [eapply run_continues; eauto; apply U; auto|].
      split; [rewrite last_of_cons; destruct (last_of ps); reflexivity|]. split; auto.
      destruct r as [[y' z']|e]; auto. destruct E as (lg' & how & -> & E1 & E2). exists lg', how. split; auto.
      split; [discriminate|]. intros _. destruct (classic (ps = [])) as [Ep|Np]; [destruct (E1 Ep) as [-> _]; discriminate|auto].
Qed.
End Multi.

Lemma weighted_e_directed env g : directed (weighted_e env g) = directed g.
Proof. unfold weighted_e. destruct (ee_contains env g); reflexivity. Qed.
Lemma omega_function_models model omega_max T : is_model model -> exists f, omega_function_from_model model omega_max T = Ok f.
Proof. intros [->|[->| ->]]; eexists; reflexivity. Qed.
Lemma omega_function_unknown model omega_max T : ~ is_model model -> omega_function_from_model model omega_max T = Raise ValueError.
Proof.
  intros H. unfold omega_function_from_model. destruct (String.eqb_spec model "multiplex"); [exfalso; apply H; right; auto|].
  destruct (String.eqb_spec model "temporal"); [exfalso; apply H; left; auto|]. destruct (String.eqb_spec model "multilevel"); [exfalso; apply H; right; auto|]. reflexivity.
Qed.

Section MultiWhole.
Variables (env : est_env) (opt : opt_env) (parts : option (list lpart)) (g gi : graph) (ws : list R) (lv : list nat).
Variables (gamma omega gamma_tol omega_tol omega_max : R) (max_iter : Z) (model : string) (verbose : bool).
Hypothesis Hwf : wf_graph g.
Notation h := (weighted_e env g).
Notation hi := (weighted_e env gi).
Hypothesis Hws : weights h = Some ws.
Notation whole := (iterative_multilayer_resolution_parameter_estimation env opt parts g gi lv gamma omega gamma_tol omega_tol omega_max max_iter model verbose).

(** The module-level variable after the optimiser gave the answers [ps]. *)
Definition parts_after (parts : option (list lpart)) (ps : list (list lpart)) : option (list lpart) :=
  match last_of ps with None => parts | Some p => Some p end.
Definition multi_of (verbose : bool) (max_iter : Z) (parts' : option (list lpart)) (r : res (npf * R)) : res (npf * R * list lpart) :=
  match r with
  | Raise e => Raise e
  | Ok (y, z) => if verbose && (max_iter <=? 0)%Z then Raise TypeError
                 else match parts' with None => Raise NameError | Some ps => Ok (y, z, ps) end
  end.

Lemma multi_whole : valid_multilayer h hi ws lv model -> is_model model ->
  exists calls ps r, outcome (npf * R) (list lpart) (answer_multi opt h hi lv) (updates_multi env h hi lv model omega_max) (both_close gamma_tol omega_tol)
                             max_iter (Fin gamma, omega) calls ps r /\
    whole = (calls, parts_after parts ps, (h, hi), multi_of verbose max_iter (parts_after parts ps) r).
Proof.
  intros Hv Hm. pose proof (valid_accepted (weighted_e_wf env Hwf) Hv) as Ha. pose proof (accepted_length _ _ _ _ _ _ _ _ Ha) as Hl.
  assert (Hr : forall u v, In (u, v) (edges h) -> (u < length lv)%nat /\ (v < length lv)%nat).
  { intros u v H. rewrite Hl. apply (weighted_e_wf env Hwf). auto. }
  assert (Hne : lv <> []). { intros ->. unfold valid_multilayer, structural_rules in Hv. rewrite Forall_cons_iff in Hv. destruct Hv as [Hv _]. cbn in Hv. lia. }
  destruct (@omega_function_models model omega_max (S (list_max lv)) Hm) as [f Hf].
  unfold iterative_multilayer_resolution_parameter_estimation. rewrite !default_weights_weighted.
  rewrite (numbers_T Hne). cbn [bind]. rewrite (@numbers_m h ws lv Hws Hr). cbn [bind]. rewrite numbers_N. cbn [bind]. rewrite numbers_Nt. cbn [bind].
  unfold accepted in Ha. rewrite Ha, Hf. cbn [bind].
  destruct (@multi_loop_run env opt h hi ws lv model omega_max gamma_tol omega_tol (weighted_e_idem env g) Hws Hr Hne f Hf (Z.to_nat max_iter) 0%nat parts (Fin gamma) omega None) as (ps & r & H1 & H2 & H3 & H4).
  destruct (multi_loop _ _ _ _ _ _ _ _ _ _ _ _ _ _ _ _ _ _ _) as [[[calls parts'] g'] out]. cbn [fst snd] in *. subst parts' g'.
  exists calls, ps, r. split; [apply outcome_iff; exact H1|]. fold (parts_after parts ps). f_equal. unfold multi_of.
  destruct r as [[y z]|e]; [|rewrite H4; reflexivity]. destruct H4 as (lg & how & -> & E1 & E2). cbn [bind]. apply run_length in H1. destruct H1 as (_ & _ & H3 & H4 & _).
  specialize (H3 _ eq_refl). unfold multi_report. destruct verbose; cbn [andb]; [|reflexivity].
  destruct (Z.leb_spec max_iter 0) as [L|L].
  - assert (Ep : ps = []). { destruct ps; auto. assert (calls = []) by (apply H4; lia). subst. discriminate. }
    destruct (E1 Ep) as [-> ->]. reflexivity.
  - assert (Np : ps <> []). { intros ->. destruct calls; [|discriminate]. assert (Z.to_nat max_iter = 0%nat) by (apply H4; auto). lia. }
    specialize (E2 Np). destruct lg as [lg|]; [|congruence]. destruct how; reflexivity.
Qed.

Lemma multi_rejected : (forall u v, In (u, v) (edges g) -> (u < length lv)%nat /\ (v < length lv)%nat) ->
  ~ (valid_multilayer h hi ws lv model /\ is_model model) -> whole = ([], parts, (h, hi), Raise ValueError).
Proof.
  intros Hr Hn. unfold iterative_multilayer_resolution_parameter_estimation. rewrite !default_weights_weighted.
  destruct (classic (lv = [])) as [->|Hne]; [reflexivity|].
  assert (Hr' : forall u v, In (u, v) (edges h) -> (u < length lv)%nat /\ (v < length lv)%nat) by (intros u v; rewrite weighted_e_edges; auto).
  rewrite (numbers_T Hne). cbn [bind]. rewrite (@numbers_m h ws lv Hws Hr'). cbn [bind]. rewrite numbers_N. cbn [bind]. rewrite numbers_Nt. cbn [bind].
  set (T := S (list_max lv)) in *.
  destruct (@check_lines h hi lv model (map (weight_in (weighted_edges h ws) lv) (seq 0 T)) T (vcount h / T) (map (nodes_in lv) (seq 0 T)) ltac:(unfold T; lia) Hr') as (lines & Hlines & ->).
  destruct lines as [|l lines]; [|reflexivity].
  apply violated_none in Hlines. rewrite omega_function_unknown; [reflexivity|]. intros Hm. apply Hn. split; auto.
Qed.

Lemma multi_accepts_only : fst (fst (fst whole)) <> [] \/ (exists x, snd whole = Ok x) \/ snd (fst (fst whole)) <> parts -> valid_multilayer h hi ws lv model /\ is_model model.
Proof.
  intros H. destruct (classic (valid_multilayer h hi ws lv model /\ is_model model)) as [|N]; auto. exfalso.
  assert (E : exists e, whole = ([], parts, (h, hi), Raise e)).
  2:{ destruct E as [e E]. rewrite E in H. cbn [fst snd] in H. destruct H as [H|[[x H]|H]]; [auto|discriminate|auto]. }
  unfold iterative_multilayer_resolution_parameter_estimation. rewrite !default_weights_weighted.
  destruct (layer_count_T lv) as [T|e] eqn:ET; [|eexists; reflexivity]. cbn [bind].
  destruct (layer_weights h lv T) as [mt|e] eqn:EW; [|eexists; reflexivity]. cbn [bind].
  destruct (nodes_per_layer h T) as [n|e] eqn:EN; [|eexists; reflexivity]. cbn [bind].
  destruct (layer_nodes lv T) as [nt|e] eqn:ENt; [|eexists; reflexivity]. cbn [bind].
  destruct (check_multilayer_graph_consistency h hi lv model mt T (Some n) (Some nt)) as [|lines|e] eqn:EC; [|eexists; reflexivity|eexists; reflexivity].
  pose proof (accepted_length _ _ _ _ _ _ _ _ EC) as Hl.
  exfalso. assert (Hr : forall u v, In (u, v) (edges g) -> (u < length lv)%nat /\ (v < length lv)%nat).
  { intros u v Huv. rewrite Hl, weighted_e_vcount. apply Hwf. auto. }
  pose proof (multi_rejected Hr N) as E. rewrite E in H. cbn [fst snd] in H. destruct H as [H|[[x H]|H]]; [auto|discriminate|auto].
Qed.
End MultiWhole.
