(** C102: the experiments on synthetic temporal networks keep their intermediate results in files (easy_regime_generation.py,
    hard_regime_generation.py).  Any number of runs of both scripts in one directory, each killed at any moment. *)
From Coq Require Import String Permutation.
From Verif Require Import PyBase PyGraph M_partition M_champ M_leiden M_estimation_utils M_estimation M_checks M_generators M_plotting M_lfr M_staged Spec Spec_graph Spec_leiden Spec_sbm Spec_multisbm Spec_check Spec_valid Spec_champ Spec_generators Spec_iteration Spec_staged L_base L_sbm2 L_multisbm L_iteration L_champ_total L_prune L_staged
  Properties_sbm Properties_multisbm Properties_iteration Properties_generators Properties_champ.
Open Scope list_scope.
Open Scope R_scope.

Lemma names_apart r : NoDup (names r) ->
  (rg_graph r <> rg_iteration r /\ rg_graph r <> rg_louvain r /\ rg_graph r <> rg_domains r /\ rg_graph r <> rg_restricted r) /\
  (rg_iteration r <> rg_louvain r /\ rg_iteration r <> rg_domains r /\ rg_iteration r <> rg_restricted r) /\
  (rg_louvain r <> rg_domains r /\ rg_louvain r <> rg_restricted r) /\ rg_domains r <> rg_restricted r.
Proof.
  unfold names. intros H. inversion H as [|? ? N1 H1]; subst. inversion H1 as [|? ? N2 H2]; subst. inversion H2 as [|? ? N3 H3]; subst. inversion H3 as [|? ? N4 H4]; subst. clear - N1 N2 N3 N4. cbn in *.
  repeat split; intros E; rewrite E in *; tauto.
Qed.
Lemma nodup_parts {A} (l l' : list A) : NoDup (l ++ l') -> NoDup l /\ NoDup l'.
Proof. induction l as [|a l IH]; intros H; [split; [constructor|exact H]|]. inversion H as [|? ? N H']; subst. destruct (IH H') as [H1 H2]. split; [constructor; [intros X; apply N, in_app_iff; auto|exact H1]|exact H2]. Qed.
Lemma own_names rs r : NoDup (flat_map names rs) -> In r rs -> NoDup (names r).
Proof. induction rs as [|s rs IH]; intros H []; cbn [flat_map] in H; [subst; apply nodup_parts in H; apply H|apply IH; auto; apply nodup_parts in H; apply H]. Qed.
Lemma nodup_app_not {A} (l l' : list A) x : NoDup (l ++ l') -> In x l -> ~ In x l'.
Proof. induction l as [|a l IH]; intros H [].  - subst. inversion H as [|? ? N _]; subst. intros X. apply N, in_app_iff. auto. - inversion H; subst. auto. Qed.
Lemma shared_name rs r s n : NoDup (flat_map names rs) -> In r rs -> In s rs -> In n (names r) -> In n (names s) -> r = s.
Proof.
  induction rs as [|a rs IH]; intros H Hr Hs Nr Ns; [destruct Hr|]. cbn [flat_map] in H.
  destruct Hr as [->|Hr], Hs as [Es|Hs]; [congruence| | |].
  - exfalso. apply (nodup_app_not _ _ n H Nr). apply in_flat_map. eauto.
  - subst a. exfalso. apply (nodup_app_not _ _ n H Ns). apply in_flat_map. eauto.
  - apply IH; auto. apply nodup_parts in H. apply H.
Qed.
Lemma consistent_other ok r d d' : (forall n, In n (names r) -> d' n = d n) -> consistent ok r d -> consistent ok r d'.
Proof.
  intros H [C1 C2 C3 C4 C5].
  assert (E1 : d' (rg_graph r) = d (rg_graph r)) by (apply H; cbn; tauto). assert (E2 : d' (rg_iteration r) = d (rg_iteration r)) by (apply H; cbn; tauto). assert (E3 : d' (rg_louvain r) = d (rg_louvain r)) by (apply H; cbn; tauto).
  assert (E4 : d' (rg_domains r) = d (rg_domains r)) by (apply H; cbn; tauto). assert (E5 : d' (rg_restricted r) = d (rg_restricted r)) by (apply H; cbn; tauto).
  constructor; rewrite ?E1, ?E2, ?E3, ?E4, ?E5; assumption.
Qed.
Ltac at_put := repeat first [rewrite put_same in * | rewrite put_other in * by (assumption || (apply not_eq_sym; assumption))].
Lemma consistent_own (ok : stage_env -> Prop) r env : NoDup (names r) -> ok env -> forall d, consistent ok r d ->
  (forall x, d (rg_graph r) = Absent -> rg_generate r (sg_est env (rg_graph r)) (sg_draws env) (sg_attempts env) = Some (Ok x) ->
     consistent ok r (put (rg_graph r) Torn d) /\ consistent ok r (put (rg_graph r) (Stored (Network x)) d)) /\
  (forall x l, d (rg_iteration r) = Absent -> d (rg_graph r) = Stored (Network x) -> pamfil_movements env (sg_est env (rg_iteration r)) r x = Ok l ->
     consistent ok r (put (rg_iteration r) Torn d) /\ consistent ok r (put (rg_iteration r) (Stored (Movements l)) d)) /\
  (forall x l, d (rg_louvain r) = Absent -> d (rg_graph r) = Stored (Network x) ->
     leiden_on_grid env (fst (fst (fst x))) (snd (fst (fst x))) (snd (fst x)) (rg_gammas r) (rg_omegas r) = Ok l ->
     consistent ok r (put (rg_louvain r) Torn d) /\ consistent ok r (put (rg_louvain r) (Stored (Parts l)) d)) /\
  (forall x ps l, d (rg_domains r) = Absent -> d (rg_graph r) = Stored (Network x) -> d (rg_louvain r) = Stored (Parts ps) ->
     domains_with_estimates (sg_est env (rg_domains r)) None x ps = Ok l ->
     consistent ok r (put (rg_domains r) Torn d) /\ consistent ok r (put (rg_domains r) (Stored (Estimates l)) d)) /\
  (forall x ps l, d (rg_restricted r) = Absent -> d (rg_graph r) = Stored (Network x) -> d (rg_louvain r) = Stored (Parts ps) ->
     domains_with_estimates (sg_est env (rg_restricted r)) (Some 2%nat) x ps = Ok l ->
     consistent ok r (put (rg_restricted r) Torn d) /\ consistent ok r (put (rg_restricted r) (Stored (Estimates l)) d)).
Proof.
  intros ND Hok d [C1 C2 C3 C4 C5]. destruct (names_apart r ND) as ((N1 & N2 & N3 & N4) & (N5 & N6 & N7) & (N8 & N9) & N10). clear ND.
  split; [|split; [|split; [|split]]]; intros; (split; constructor); intros v Hv; at_put; try discriminate; try (injection Hv as <-); eauto 10.
  all: try (apply C2 in Hv as (? & ? & ? & ? & ? & ? & ?); congruence).
  all: try (apply C3 in Hv as (? & ? & ? & ? & ? & ? & ?); congruence).
  all: try (apply C4 in Hv as (? & ? & ? & ? & ? & ? & ? & ? & ?); congruence).
  all: try (apply C5 in Hv as (? & ? & ? & ? & ? & ? & ? & ? & ?); congruence).
Qed.
Lemma safe_consistent (ok : stage_env -> Prop) rs env r : NoDup (flat_map names rs) -> ok env -> In r rs ->
  safe (fun d => forall s, In s rs -> consistent ok s d) (regime_main env r).
Proof.
  intros ND Hok Hr.
  assert (X : forall d n (P : file content), In n (names r) -> (forall s, In s rs -> consistent ok s d) -> consistent ok r (put n P d) -> forall s, In s rs -> consistent ok s (put n P d)).
  { intros d n P Hn Hd Hown s Hs. destruct (in_dec string_dec n (names s)) as [Hin|Hout]; [rewrite <- (shared_name rs r s n); auto|].
    apply consistent_other with (d := d); [|auto]. intros m Hm. apply put_other. intros ->. contradiction. }
  assert (O := fun d Hd => consistent_own ok r env (own_names rs r ND Hr) Hok d (Hd r Hr : consistent ok r d)).
  apply safe_regime.
  - intros d x Hd H1 H2. destruct (O d Hd) as (Y & _). destruct (Y x H1 H2) as [Y1 Y2]. split; apply X; auto; cbn; tauto.
  - intros d x l Hd H1 H2 H3. destruct (O d Hd) as (_ & Y & _). destruct (Y x l H1 H2 H3) as [Y1 Y2]. split; apply X; auto; cbn; tauto.
  - intros d x l Hd H1 H2 H3. destruct (O d Hd) as (_ & _ & Y & _). destruct (Y x l H1 H2 H3) as [Y1 Y2]. split; apply X; auto; cbn; tauto.
  - intros d x p l Hd H1 H2 H3 H4. destruct (O d Hd) as (_ & _ & _ & Y & _). destruct (Y x p l H1 H2 H3 H4) as [Y1 Y2]. split; apply X; auto; cbn; tauto.
  - intros d x p l Hd H1 H2 H3 H4. destruct (O d Hd) as (_ & _ & _ & _ & Y). destruct (Y x p l H1 H2 H3 H4) as [Y1 Y2]. split; apply X; auto; cbn; tauto.
Qed.

(** Whenever the runs are killed, every complete file of every script is what its step answers, in a possible run, on the files that are
    there now. *)
Theorem C102_consistent : forall (ok : stage_env -> Prop) rs d0 d r, NoDup (flat_map names rs) -> (forall s, In s rs -> consistent ok s d0) ->
  history (regime_run ok rs) d0 d -> In r rs -> consistent ok r d.
Proof.
  intros ok rs d0 d r ND H0 H. revert r. induction H as [|d d' _ IH (env & s & Hok & Hs & Hseen)]; [exact H0|]. 
  eapply (safe_seen _ _ d d' (safe_consistent ok rs env s ND Hok Hs)); eauto.
Qed.
Print Assumptions C102_consistent.

(** Both scripts in an empty directory. *)
Lemma two_regimes : NoDup (flat_map names [easy_regime; hard_regime]).
Proof. cbn. repeat (constructor; [cbn; intros H; repeat (destruct H as [H|H]; [discriminate|]); exact H|]). constructor. Qed.
Lemma consistent_empty ok r : consistent ok r empty_directory.
Proof. constructor; discriminate. Qed.
Corollary C102_both_scripts : forall (ok : stage_env -> Prop) d r, history (regime_run ok [easy_regime; hard_regime]) empty_directory d ->
  r = easy_regime \/ r = hard_regime -> consistent ok r d.
Proof. intros ok d r H Hr. eapply C102_consistent; [apply two_regimes|intros; apply consistent_empty|exact H|]. cbn. destruct Hr; auto. Qed.
Print Assumptions C102_both_scripts.

(** A file that exists, complete or truncated, is never changed, and no other file is touched. *)
Theorem C102_kept : forall (ok : stage_env -> Prop) rs d0 d, history (regime_run ok rs) d0 d ->
  (forall n, d0 n <> Absent -> d n = d0 n) /\ (forall n, ~ In n (flat_map names rs) -> d n = d0 n).
Proof.
  intros ok rs d0 d H. induction H as [|d d' _ [IH1 IH2] (env & s & Hok & Hs & Hseen)]; [auto|].
  assert (S : safe (fun x => (forall n, d0 n <> Absent -> x n = d0 n) /\ (forall n, ~ In n (flat_map names rs) -> x n = d0 n)) (regime_main env s)).
  { assert (X : forall n v (x : directory), In n (names s) -> ((forall n, d0 n <> Absent -> x n = d0 n) /\ (forall n, ~ In n (flat_map names rs) -> x n = d0 n)) -> x n = Absent ->
      ((forall m, d0 m <> Absent -> put n v x m = d0 m) /\ (forall m, ~ In m (flat_map names rs) -> put n v x m = d0 m))).
    { intros n v x Hn [A B] E. split; intros m Hm; rewrite put_other; auto.
      - intros ->. rewrite (A n Hm) in E. contradiction.
      - intros ->. apply Hm, in_flat_map. eauto. }
    apply safe_regime; intros; split; apply X; auto; cbn; tauto. }
  eapply (safe_seen _ _ d d' S); eauto.
Qed.
Print Assumptions C102_kept.

(** If a run finishes, the five figures show one network, the movements computed on it, and CHAMP's domains, without restriction and with two
    communities, of one set of partitions that Leiden found on it. *)
Theorem C102_figures : forall (ok : stage_env -> Prop) rs d0 d r env f, NoDup (flat_map names rs) -> (forall s, In s rs -> consistent ok s d0) ->
  history (regime_run ok rs) d0 d -> In r rs -> ok env -> outcome (regime_main env r) d = Done f ->
  exists x l parts ds ks, shows env x l ds ks f /\
    final (regime_main env r) d (rg_graph r) = Stored (Network x) /\ final (regime_main env r) d (rg_louvain r) = Stored (Parts parts) /\
    generated ok r x /\ (exists e, ok e /\ pamfil_movements e (sg_est e (rg_iteration r)) r x = Ok l) /\
    (exists e, ok e /\ domains_with_estimates (sg_est e (rg_domains r)) None x parts = Ok ds) /\
    (exists e, ok e /\ domains_with_estimates (sg_est e (rg_restricted r)) (Some 2%nat) x parts = Ok ks).
Proof.
  intros ok rs d0 d r env f ND H0 H Hr Hok Hf.
  assert (Hfin : final (regime_main env r) d = now d (fst (regime_files env r d)) /\ snd (draw env r (now d (fst (regime_files env r d)))) = Done f).
  { unfold outcome in Hf. rewrite main_draw in Hf. destruct (and_then_done _ _ _ _ Hf) as (u & Hu & HD). split; [|exact HD].
    unfold final. rewrite main_draw, (and_then_is _ _ _ u Hu). cbn [fst]. rewrite quiet_draw, app_nil_r. reflexivity. }
  destruct Hfin as [Efin HD].
  assert (Hc : consistent ok r (final (regime_main env r) d)).
  { apply (safe_seen _ (regime_main env r) d _ (safe_consistent ok rs env r ND Hok Hr)); auto.
    - intros s Hs. eapply C102_consistent; eauto.
    - apply seen_now. }
  rewrite <- Efin in HD. apply draw_done in HD as (x & l & ds & ks & Hx & Hl & Hds & Hks & HS). destruct Hc as [C1 C2 C3 C4 C5].
  destruct (C1 _ Hx) as (e1 & x1 & O1 & E1 & G1). injection E1 as <-. destruct (C2 _ Hl) as (e2 & x2 & l2 & O2 & E2 & G2 & M2). injection E2 as <-. rewrite Hx in G2. injection G2 as <-.
  destruct (C4 _ Hds) as (e4 & x4 & p4 & l4 & O4 & E4 & G4 & P4 & M4). injection E4 as <-. rewrite Hx in G4. injection G4 as <-.
  destruct (C5 _ Hks) as (e5 & x5 & p5 & l5 & O5 & E5 & G5 & P5 & M5). injection E5 as <-. rewrite Hx in G5. injection G5 as <-. rewrite P4 in P5. injection P5 as <-.
  exists x, l, p4, ds, ks. split; [exact HS|]. split; [exact Hx|]. split; [exact P4|]. split; [exists e1; auto|]. split; [eauto|]. split; eauto.
Qed.
Print Assumptions C102_figures.

Lemma final_files env r d : final (regime_main env r) d = now d (fst (regime_files env r d)).
Proof.
  unfold final. rewrite main_draw. destruct (regime_files env r d) as [l e] eqn:E. unfold and_then. rewrite E. destruct e as [u|e| |]; try reflexivity.
  destruct (draw env r (now d l)) as [l' e'] eqn:E'. cbn [fst]. pose proof (quiet_draw env r (now d l)) as Q. rewrite E' in Q. cbn in Q. subst l'. rewrite app_nil_r. reflexivity.
Qed.
Lemma run_keeps env r d n : d n <> Absent -> final (regime_main env r) d n = d n.
Proof.
  intros H. apply (proj1 (C102_kept (fun _ => True) [r] d (final (regime_main env r) d) ltac:(eapply another; [apply nothing|]; exists env, r; split; [exact I|]; split; [left; reflexivity|apply seen_now]))). exact H.
Qed.

(** A truncated file that the figures need stays truncated, and no later run finishes. *)
Theorem C102_truncated : forall (ok : stage_env -> Prop) rs d0 d r n, history (regime_run ok rs) d0 d -> In n (needed r) -> d0 n = Torn ->
  d n = Torn /\ forall env f, outcome (regime_main env r) d <> Done f.
Proof.
  intros ok rs d0 d r n H Hn Ht. assert (E : d n = Torn). { destruct (C102_kept ok rs d0 d H) as [K _]. rewrite K by congruence. exact Ht. } split; [exact E|].
  intros env f Hf. unfold outcome in Hf. rewrite main_draw in Hf. destruct (and_then_done _ _ _ _ Hf) as (u & _ & HD). rewrite <- (final_files env r d) in HD.
  apply draw_done in HD as (x & l & ds & ks & H1 & H2 & H3 & H4 & _).
  assert (K : final (regime_main env r) d n = Torn) by (rewrite run_keeps; [exact E|rewrite E; discriminate]).
  destruct Hn as [<-|[<-|[<-|[<-|[]]]]]; congruence.
Qed.
Print Assumptions C102_truncated.

(** Whenever a run writes a file there is a moment at which killing it leaves that file truncated. *)
Definition torn_first {A} (p : prog A) : Prop := forall d n d', d n = Absent -> In d' (fst (p d)) -> d' n <> Absent -> exists d'', In d'' (fst (p d)) /\ d'' n = Torn.
Lemma torn_first_quiet {A} (p : prog A) : quiet p -> torn_first p.
Proof. intros Q d n d' _ H. rewrite (Q d) in H. destruct H. Qed.
Lemma torn_first_then {A B} (x : prog A) (f : A -> prog B) : torn_first x -> (forall a, torn_first (f a)) -> torn_first (and_then x f).
Proof.
  intros H1 H2 d n d' Ha Hin Hn.
  assert (D : (exists y, In y (fst (x d)) /\ y n <> Absent) \/ forall y, In y (fst (x d)) -> y n = Absent).
  { generalize (fst (x d)). clear. induction l as [|y l IH]; [right; intros y []|]. destruct IH as [(z & Hz & Nz)|IH]; [left; exists z; split; [right|]; auto|].
    destruct (y n) eqn:E; [right|left; exists y; split; [left; reflexivity|congruence]..]. intros z [<-|Hz]; auto. }
  destruct D as [(y & Hy & Ny)|D].
  - destruct (H1 d n y Ha Hy Ny) as (z & Hz & Tz). exists z. split; [|exact Tz]. apply and_then_trace. auto.
  - apply and_then_trace in Hin as [Hin|(a & Hd & Hin)]; [apply D in Hin; contradiction|].
    assert (Hnow : now d (fst (x d)) n = Absent) by (destruct (seen_now x d) as [->|E]; [exact Ha|apply D; exact E]).
    destruct (H2 a _ n d' Hnow Hin Hn) as (z & Hz & Tz). exists z. split; [|exact Tz]. apply and_then_trace. eauto.
Qed.
Lemma torn_first_ensure n make : quiet make -> torn_first (ensure n make).
Proof.
  intros Q d m d' Ha Hin Hm. destruct (ensure_cases n make d Q) as [[_ E]|[(_ & v & _ & E)|(_ & _ & E & _)]]; rewrite E in *; [destruct Hin| |destruct Hin].
  destruct (string_dec m n) as [->|N].
  - exists (put n Torn d). split; [left; reflexivity|apply put_same].
  - exfalso. destruct Hin as [<-|[<-|[]]]; rewrite put_other in Hm by exact N; contradiction.
Qed.
Theorem C102_can_be_truncated : forall env r d d' n, d n = Absent -> seen (regime_main env r) d d' -> d' n <> Absent ->
  exists d'', seen (regime_main env r) d d'' /\ d'' n = Torn.
Proof.
  intros env r d d' n Ha [->|Hin] Hn; [contradiction|].
  assert (T : torn_first (regime_main env r)).
  { change (regime_main env r) with (and_then (regime_files env r) (fun _ => draw env r)). apply torn_first_then; [|intros _; apply torn_first_quiet, quiet_draw].
    unfold regime_files. apply torn_first_then; [apply torn_first_ensure; auto with quiet|intros _]. apply torn_first_then; [apply torn_first_ensure; auto with quiet|intros _].
    apply torn_first_then; [apply torn_first_ensure; auto with quiet|intros _]. apply torn_first_then; [apply torn_first_ensure; auto with quiet|intros _]. apply torn_first_ensure; auto with quiet. }
  destruct (T d n d' Ha Hin Hn) as (d'' & H1 & H2). exists d''. split; [right; exact H1|exact H2].
Qed.
Print Assumptions C102_can_be_truncated.

(** ** Resuming *)
Lemma one_stage (ok : stage_env -> Prop) r n make d : quiet make -> consistent ok r d -> d n <> Torn ->
  (d n = Absent -> exists v, snd (make d) = Done v) ->
  (forall v, d n = Absent -> snd (make d) = Done v -> consistent ok r (put n (Stored v) d)) ->
  exists d', snd (ensure n make d) = Done tt /\ now d (fst (ensure n make d)) = d' /\ consistent ok r d' /\ (exists v, d' n = Stored v) /\ (forall m, m <> n -> d' m = d m).
Proof.
  intros Q C T A P. destruct (ensure_cases n make d Q) as [[Hn E]|[(Ha & v & Hv & E)|(Ha & N & _)]].
  - rewrite E. exists d. split; [reflexivity|]. split; [reflexivity|]. split; [exact C|]. split; [|auto]. destruct (d n) as [| |v]; [contradiction|contradiction|eauto].
  - rewrite E. exists (put n (Stored v) d). split; [reflexivity|]. split; [reflexivity|]. split; [auto|]. split; [exists v; apply put_same|]. intros m Hm. apply put_other. exact Hm.
  - destruct (A Ha) as (v & Hv). destruct (N v Hv).
Qed.

(** From any directory that earlier runs can have left, if no file of the script is truncated, a run in which every step answers completes the
    five files, keeping those that are there; its figures are those of the five files. *)
Theorem C102_resume : forall (ok : stage_env -> Prop) rs d0 d r env, NoDup (flat_map names rs) -> (forall s, In s rs -> consistent ok s d0) ->
  history (regime_run ok rs) d0 d -> In r rs -> ok env -> (forall n, In n (names r) -> d n <> Torn) -> steps_answer ok r env ->
  exists d' x l parts ds ks, final (regime_main env r) d = d' /\ (forall n, d n <> Absent -> d' n = d n) /\ consistent ok r d' /\
    d' (rg_graph r) = Stored (Network x) /\ d' (rg_iteration r) = Stored (Movements l) /\ d' (rg_louvain r) = Stored (Parts parts) /\
    d' (rg_domains r) = Stored (Estimates ds) /\ d' (rg_restricted r) = Stored (Estimates ks) /\
    forall f, outcome (regime_main env r) d = Done f <-> shows env x l ds ks f.
Proof.
  intros ok rs d0 d r env ND H0 H Hr Hok HT [A1 A2 A3 A4].
  assert (Hc : consistent ok r d) by (eapply C102_consistent; eauto).
  assert (NR := own_names rs r ND Hr). destruct (names_apart r NR) as ((N1 & N2 & N3 & N4) & (N5 & N6 & N7) & (N8 & N9) & N10).
  assert (T1 : d (rg_graph r) <> Torn) by (apply HT; cbn; tauto). assert (T2 : d (rg_iteration r) <> Torn) by (apply HT; cbn; tauto). assert (T3 : d (rg_louvain r) <> Torn) by (apply HT; cbn; tauto).
  assert (T4 : d (rg_domains r) <> Torn) by (apply HT; cbn; tauto). assert (T5 : d (rg_restricted r) <> Torn) by (apply HT; cbn; tauto).
  assert (Own := consistent_own ok r env NR Hok).
  destruct (one_stage ok r (rg_graph r) (make_network env r) d) as (d1 & E1 & W1 & C1 & (v1 & S1) & O1); auto with quiet.
  { intros _. destruct A1 as (x & Hx). exists (Network x). apply make_network_done. eauto. }
  { intros v Ha Hv. apply make_network_done in Hv as (x & -> & Hx). apply (proj1 (Own d Hc)); auto. }
  destruct (co_graph _ _ _ C1 _ S1) as (e1 & x & Oe1 & -> & G1). assert (GX : generated ok r x) by (exists e1; auto).
  destruct (one_stage ok r (rg_iteration r) (step v <- run_pamfil_iteration env r; give (Movements v)) d1) as (d2 & E2 & W2 & C2 & (v2 & S2) & O2); auto with quiet.
  { rewrite O1 by auto. exact T2. }
  { intros _. destruct (A2 x GX) as (l & Hl). exists (Movements l). apply iteration_done. eauto. }
  { intros v Ha Hv. apply iteration_done in Hv as (x' & l & Hx & -> & Hl). eapply (proj1 (proj2 (Own d1 C1))); eauto. }
  destruct (co_iteration _ _ _ C2 _ S2) as (e2 & x2 & l & Oe2 & -> & G2 & _).
  assert (X2 : d2 (rg_graph r) = Stored (Network x)) by (rewrite O2 by auto; exact S1).
  destruct (one_stage ok r (rg_louvain r) (step p <- run_louvain_on_grid env r; give (Parts p)) d2) as (d3 & E3 & W3 & C3 & (v3 & S3) & O3); auto with quiet.
  { rewrite O2, O1 by auto. exact T3. }
  { intros _. destruct (A3 x GX) as (p & Hp). exists (Parts p). apply louvain_done. exists x, p. auto. }
  { intros v Ha Hv. apply louvain_done in Hv as (x' & p & Hx & -> & Hp). eapply (proj1 (proj2 (proj2 (Own d2 C2)))); eauto. }
  assert (X3 : d3 (rg_graph r) = Stored (Network x)) by (rewrite O3 by auto; exact X2).
  destruct (co_louvain _ _ _ C3 _ S3) as (e3 & x3 & parts & Oe3 & -> & G3 & L3). rewrite X3 in G3. injection G3 as <-.
  assert (FP : found ok r x parts) by (exists e3; auto). destruct (A4 x parts GX FP) as [(ds & Hds) (ks & Hks)].
  destruct (one_stage ok r (rg_domains r) (step l <- generate_domains_with_estimates env r (rg_domains r) None; give (Estimates l)) d3) as (d4 & E4 & W4 & C4 & (v4 & S4) & O4); auto with quiet.
  { rewrite O3, O2, O1 by auto. exact T4. }
  { intros _. exists (Estimates ds). apply generate_done. exists x, parts, ds. auto. }
  { intros v Ha Hv. apply generate_done in Hv as (x' & p & l' & Hx & Hp & -> & Hl'). eapply (proj1 (proj2 (proj2 (proj2 (Own d3 C3))))); eauto. }
  assert (X4 : d4 (rg_graph r) = Stored (Network x)) by (rewrite O4 by auto; exact X3). assert (Y4 : d4 (rg_louvain r) = Stored (Parts parts)) by (rewrite O4 by auto; exact S3).
  destruct (one_stage ok r (rg_restricted r) (step l <- generate_domains_with_estimates env r (rg_restricted r) (Some 2%nat); give (Estimates l)) d4) as (d5 & E5 & W5 & C5 & (v5 & S5) & O5); auto with quiet.
  { rewrite O4, O3, O2, O1 by auto. exact T5. }
  { intros _. exists (Estimates ks). apply generate_done. exists x, parts, ks. auto. }
  { intros v Ha Hv. apply generate_done in Hv as (x' & p & l' & Hx & Hp & -> & Hl'). eapply (proj2 (proj2 (proj2 (proj2 (Own d4 C4))))); eauto. }
  destruct (co_domains _ _ _ C4 _ S4) as (e4 & x4 & p4 & ds' & _ & -> & _ & _ & _). destruct (co_restricted _ _ _ C5 _ S5) as (e5 & x5 & p5 & ks' & _ & -> & _ & _ & _).
  assert (F : exists l, regime_files env r d = (l, Done tt) /\ now d l = d5).
  { unfold regime_files. eexists. split.
    - rewrite (and_then_is _ _ _ tt E1), W1. rewrite (and_then_is _ _ _ tt E2), W2. rewrite (and_then_is _ _ _ tt E3), W3. rewrite (and_then_is _ _ _ tt E4), W4. cbn [fst snd]. rewrite E5. reflexivity.
    - unfold now in *. rewrite !last_app_default. rewrite W1, W2, W3, W4. exact W5. }
  destruct F as (tr & F & Fd).
  assert (Efin : final (regime_main env r) d = d5) by (rewrite final_files, F; exact Fd).
  exists d5, x, l, parts, ds', ks'. split; [exact Efin|]. split; [intros n Hn; rewrite <- Efin; apply run_keeps; exact Hn|]. split; [exact C5|].
  assert (G : d5 (rg_graph r) = Stored (Network x) /\ d5 (rg_iteration r) = Stored (Movements l) /\ d5 (rg_louvain r) = Stored (Parts parts) /\ d5 (rg_domains r) = Stored (Estimates ds') /\ d5 (rg_restricted r) = Stored (Estimates ks')).
  { repeat split; auto; rewrite ?O5, ?O4, ?O3, ?O2 by auto; auto. }
  destruct G as (Q1 & Q2 & Q3 & Q4 & Q5). repeat (split; [assumption|]). intros f. unfold outcome. rewrite main_draw, (and_then_is _ _ _ tt); rewrite F; [|reflexivity]. cbn [fst snd]. rewrite Fd. split.
  - intros HD. apply draw_done in HD as (x' & l' & a & b & R1 & R2 & R3 & R4 & RS). congruence.
  - intros HS. apply draw_done. exists x, l, ds', ks'. auto.
Qed.
Print Assumptions C102_resume.

(** ** Removing files by hand *)

(** A removal that takes with a file everything computed from it keeps the directory consistent. *)
Theorem C102_remove_with_dependents : forall (ok : stage_env -> Prop) r ns d d', consistent ok r d -> removed ns d d' ->
  (In (rg_graph r) ns -> In (rg_iteration r) ns /\ In (rg_louvain r) ns) ->
  (In (rg_louvain r) ns -> In (rg_domains r) ns /\ In (rg_restricted r) ns) -> consistent ok r d'.
Proof.
  intros ok r ns d d' [C1 C2 C3 C4 C5] HR Hg Hl.
  assert (X : forall n v, d' n = Stored v -> ~ In n ns /\ d n = Stored v). { intros n v Hv. destruct (HR n) as [R1 R2]. destruct (in_dec string_dec n ns) as [I|I]; [rewrite R1 in Hv by exact I; discriminate|]. rewrite R2 in Hv by exact I. auto. }
  assert (Y : forall n, ~ In n ns -> d' n = d n) by (intros n Hn; apply HR; exact Hn).
  constructor; intros v Hv; destruct (X _ _ Hv) as [Hn Hd].
  - auto.
  - rewrite (Y (rg_graph r)) by tauto. auto.
  - rewrite (Y (rg_graph r)) by tauto. auto.
  - rewrite (Y (rg_graph r)), (Y (rg_louvain r)) by tauto. auto.
  - rewrite (Y (rg_graph r)), (Y (rg_louvain r)) by tauto. auto.
Qed.
Print Assumptions C102_remove_with_dependents.

(** If only the network's file is removed, the next run draws a new network and shows the old network's movements and domains next to
    the new network's planted partition, without an error. *)
Theorem C102_stale_results : forall env r d d' x l parts ds ks x', NoDup (names r) ->
  d (rg_graph r) = Stored (Network x) -> d (rg_iteration r) = Stored (Movements l) -> d (rg_louvain r) = Stored (Parts parts) ->
  d (rg_domains r) = Stored (Estimates ds) -> d (rg_restricted r) = Stored (Estimates ks) -> removed [rg_graph r] d d' ->
  rg_generate r (sg_est env (rg_graph r)) (sg_draws env) (sg_attempts env) = Some (Ok x') ->
  final (regime_main env r) d' (rg_graph r) = Stored (Network x') /\ (forall n, n <> rg_graph r -> final (regime_main env r) d' n = d n) /\
  forall f, outcome (regime_main env r) d' = Done f <-> shows env x' l ds ks f.
Proof.
  intros env r d d' x l parts ds ks x' NR H1 H2 H3 H4 H5 HR HG. destruct (names_apart r NR) as ((N1 & N2 & N3 & N4) & (N5 & N6 & N7) & (N8 & N9) & N10).
  assert (Ha : d' (rg_graph r) = Absent) by (apply HR; left; reflexivity). assert (Y : forall n, n <> rg_graph r -> d' n = d n) by (intros n Hn; apply HR; intros [E|[]]; congruence).
  set (d1 := put (rg_graph r) (Stored (Network x')) d').
  assert (D1 : forall n, n <> rg_graph r -> d1 n = d n) by (intros n Hn; unfold d1; rewrite put_other by exact Hn; auto).
  assert (E : forall n make, quiet make -> d1 n <> Absent -> ensure n make d1 = ([], Done tt)). { intros n make Q Hn. destruct (ensure_cases n make d1 Q) as [[_ E]|[(E & _)|(E & _)]]; [exact E|contradiction|contradiction]. }
  assert (F : exists t, regime_files env r d' = (t, Done tt) /\ now d' t = d1).
  { exists [put (rg_graph r) Torn d'; d1]. split; [|reflexivity]. unfold regime_files.
    assert (E1 : ensure (rg_graph r) (make_network env r) d' = ([put (rg_graph r) Torn d'; d1], Done tt)).
    { destruct (ensure_cases (rg_graph r) (make_network env r) d') as [[X _]|[(_ & v & Hv & X)|(_ & X & _)]]; [auto with quiet|contradiction| |].
      - apply make_network_done in Hv as (y & -> & Hy). rewrite HG in Hy. injection Hy as <-. exact X.
      - exfalso. apply (X (Network x')). apply make_network_done. eauto. }
    rewrite (and_then_is _ _ _ tt) by (rewrite E1; reflexivity). rewrite E1. cbn [fst snd]. change (now d' [put (rg_graph r) Torn d'; d1]) with d1.
    assert (K : (step _ <- ensure (rg_iteration r) (step v <- run_pamfil_iteration env r; give (Movements v)); step _ <- ensure (rg_louvain r) (step p <- run_louvain_on_grid env r; give (Parts p));
        step _ <- ensure (rg_domains r) (step l <- generate_domains_with_estimates env r (rg_domains r) None; give (Estimates l));
        ensure (rg_restricted r) (step l <- generate_domains_with_estimates env r (rg_restricted r) (Some 2%nat); give (Estimates l))) d1 = ([], Done tt)).
    { rewrite (and_then_is _ _ _ tt) by (rewrite E; [reflexivity|auto with quiet|rewrite D1 by auto; congruence]). rewrite E; [|auto with quiet|rewrite D1 by auto; congruence]. change (now d1 (fst ([], Done tt))) with d1.
      rewrite (and_then_is _ _ _ tt) by (rewrite E; [reflexivity|auto with quiet|rewrite D1 by auto; congruence]). rewrite E; [|auto with quiet|rewrite D1 by auto; congruence]. change (now d1 (fst ([], Done tt))) with d1.
      rewrite (and_then_is _ _ _ tt) by (rewrite E; [reflexivity|auto with quiet|rewrite D1 by auto; congruence]). rewrite E; [|auto with quiet|rewrite D1 by auto; congruence]. change (now d1 (fst ([], Done tt))) with d1.
      rewrite E; [reflexivity|auto with quiet|rewrite D1 by auto; congruence]. }
    rewrite K. reflexivity. }
  destruct F as (t & F & Fd). rewrite final_files, F. cbn [fst]. rewrite Fd. split; [unfold d1; apply put_same|]. split; [exact D1|].
  intros f. unfold outcome. rewrite main_draw, (and_then_is _ _ _ tt); rewrite F; [|reflexivity]. cbn [fst snd]. rewrite Fd. rewrite draw_done.
  assert (G : d1 (rg_graph r) = Stored (Network x')) by apply put_same. split.
  - intros (x0 & l0 & a & b & R1 & R2 & R3 & R4 & RS). rewrite D1 in R2, R3, R4 by auto. congruence.
  - intros HS. exists x', l, ds, ks. split; [exact G|]. rewrite (D1 (rg_iteration r)), (D1 (rg_domains r)), (D1 (rg_restricted r)) by auto. auto.
Qed.
Print Assumptions C102_stale_results.

(** ** A regime with which a run gets through: the network of C92, one point of either grid, Leiden always answers the planted partition. *)
Definition has_weights (g : graph) : bool := match weights g with Some _ => true | None => false end.
Definition paths_value : R := (4 / 3 - 2 / 3) / (ln (4 / 3) - ln (2 / 3)).
Definition paths_network : network := (paths_g, paths_gi, paths_lv, paths_c).
Definition small_regime : regime :=
  mkRegime (fun env ds fuel => synthetic_loop env ds 4 2 2 (1 / 2) (1 / 2) (1 / 4) paths_value 1000 0 fuel) "network" "movements" "partitions" "domains" "restricted" [1] [1] 1 [1] [1].
Definition paths_est (champ : champ_env) : est_env := mkEst has_weights (fun _ x => x) champ (fun l => l) (fun _ => true).
Definition paths_env (champ : champ_env) : stage_env :=
  mkStage (fun _ => paths_est champ) (mkLeiden has_weights (fun _ _ => Ok paths_c) (fun _ objs => if forallb (fun o => Nat.eqb (vcount (vp_graph (fst o))) 8) objs then Ok paths_c else Raise ValueError)) (fun _ => []) 1 [0%nat] (fun _ => stubborn paths_c) (fun _ => path_draws) 1
    (fun _ => mkPlot (fun _ n => n) (fun l => l) (fun l => l) (fun _ n => n) (fun _ _ => 1)).

Lemma paths_weighted_estimate champ omega_max : omega_max = 1000 -> gamma_omega_estimate (paths_est champ) paths_g paths_gi paths_lv paths_c omega_max "temporal" None None None None = (paths_g, Ok (Some (Fin paths_value), 1000)).
Proof.
  intros ->. pose proof (paths_estimate (paths_est champ) eq_refl) as E. 
  assert (W : weighted_e (paths_est champ) paths_bare = paths_g) by reflexivity. rewrite <- W at 1. rewrite (surjective_pairing (gamma_omega_estimate _ (weighted_e _ _) _ _ _ _ _ _ _ _ _)).
  rewrite gamma_omega_twice, E. reflexivity.
Qed.
Lemma paths_valid hi : vcount hi = 8%nat -> edges hi = edges paths_gi -> directed hi = true -> valid_multilayer paths_g hi (repeat 1 6) paths_lv "temporal".
Proof.
  intros H1 H2 H3. destruct hi as [n d es ws]. cbn in *. subst. 
  unfold valid_multilayer, structural_rules. rules; cbn; try lia; try discriminate; auto.
  - intros m [<-|[<-|[]]]; lra.
  - intros u v H. repeat (destruct H as [E|H]; [inversion E; reflexivity|]). destruct H.
  - intros _. split; divides.
Qed.

Lemma paths_movement champ parts : snd (one_step (paths_env champ) (paths_est champ) paths_lv (0%nat, parts, (paths_g, paths_gi)) 1 1) = Ok (Some (Fin paths_value, 1000)).
Proof.
  set (hi := mkGraph 8 true (edges paths_gi) (Some (repeat 1 4))).
  assert (Hh : weights_defaulted (ee_contains (paths_est champ) paths_g) paths_g paths_g) by reflexivity.
  assert (Hhi : weights_defaulted (ee_contains (paths_est champ) paths_gi) paths_gi hi) by (apply weighted_e_defaulted; reflexivity).
  assert (W1 : wf_graph paths_g) by (apply wf_literal; [literal_edges|reflexivity]).
  assert (V : valid_multilayer paths_g hi (repeat 1 6) paths_lv "temporal") by (apply paths_valid; reflexivity).
  unfold one_step, paths_env. cbn [sg_opt].
  destruct (C46_outcome (paths_est champ) (stubborn paths_c) parts paths_g paths_gi paths_g hi (repeat 1 6) paths_lv 1 1 (1 / 100) (5 / 100) 1000 1 "temporal" false W1 Hh Hhi eq_refl V ltac:(left; reflexivity)) as (calls & answers & r & O & ->).
  assert (B : updates_multi (paths_est champ) paths_g hi paths_lv "temporal" 1000 [mkPart 2 paths_c; mkPart 2 paths_c] (Ok (Fin paths_value, 1000))).
  { apply (C46_estimates (paths_est champ) paths_g hi paths_lv "temporal" 1000 paths_c [mkPart 2 paths_c]); try discriminate; auto.
    pose proof (paths_weighted_estimate champ 1000 eq_refl) as E. unfold gamma_omega_estimate in *. exact E. }
  assert (NC : ~ both_close (1 / 100) (5 / 100) (Fin 1, 1) (Fin paths_value, 1000)).
  { intros [_ Z]. cbn in Z. rewrite Rabs_pos_eq in Z by lra. lra. }
  assert (O' : multi_outcome (paths_est champ) (stubborn paths_c) paths_g hi paths_lv "temporal" 1000 (1 / 100) (5 / 100) 1 (Fin 1, 1) [(Fin 1, 1)]
    [[mkPart 2 paths_c; mkPart 2 paths_c]] (Ok (Fin paths_value, 1000))).
  { apply outcome_iff. change (Z.to_nat 1) with 1%nat. eapply run_continues; [reflexivity|exact B|apply NC|]. apply run_out. }
  destruct (C46_determined (paths_est champ) _ paths_g hi _ _ _ _ _ _ _ _ _ _ _ _ _ ltac:(left; reflexivity) O O') as (<- & <- & <-). reflexivity.
Qed.
Lemma paths_found champ : leiden_on_grid (paths_env champ) paths_g paths_gi paths_lv [1] [1] = Ok [paths_c].
Proof. reflexivity. Qed.
Lemma paths_domains champ domains : CHAMP_3D champ paths_g paths_gi paths_lv [paths_c] 0 2 0 2 = Ok domains -> (forall d, In d domains -> snd d = paths_c) ->
  forall k, k = None \/ k = Some 2%nat -> exists l, domains_with_estimates (paths_est champ) k paths_network [paths_c] = Ok l.
Proof.
  intros H HD k Hk. unfold domains_with_estimates, paths_network. 
  assert (E : with_communities (paths_est champ) k [paths_c] = Ok [paths_c]) by (destruct Hk as [-> | ->]; reflexivity). rewrite E. cbn [bind]. unfold paths_est at 1. cbn [ee_champ]. rewrite H. cbn [bind].
  destruct (@domains_estimates_total (paths_est champ) paths_gi paths_lv "temporal" domains paths_g) as (g' & l & El).
  - intros d Hd. rewrite (HD d Hd). unfold go_estimate. rewrite paths_weighted_estimate by reflexivity. eexists. reflexivity.
  - rewrite El. eexists. reflexivity.
Qed.
Lemma small_run : exists champ, champ_ok_3D champ paths_g paths_gi paths_lv [paths_c] /\ (exists domains, CHAMP_3D champ paths_g paths_gi paths_lv [paths_c] 0 2 0 2 = Ok domains) /\
  steps_answer (eq (paths_env champ)) small_regime (paths_env champ) /\ NoDup (names small_regime) /\ consistent (eq (paths_env champ)) small_regime empty_directory /\
  let d := final (regime_main (paths_env champ) small_regime) empty_directory in
  history (regime_run (eq (paths_env champ)) [small_regime]) empty_directory d /\
  d "network"%string = Stored (Network paths_network) /\ d "movements"%string = Stored (Movements [(1, 1, [Fin (paths_value - 1)], [1000 - 1])]) /\
  d "partitions"%string = Stored (Parts [paths_c]) /\ (exists ds, d "domains"%string = Stored (Estimates ds)) /\ (exists ks, d "restricted"%string = Stored (Estimates ks)) /\
  exists d', removed ["network"%string] d d' /\ final (regime_main (paths_env champ) small_regime) d' "network"%string = Stored (Network paths_network).
Proof.
  assert (Wi : wf_graph paths_gi) by (split; [literal_edges|discriminate]).
  assert (W : wf_graph paths_g) by (apply wf_literal; [literal_edges|reflexivity]).
  destruct (@champ_3D_realisable_full paths_g paths_gi paths_lv [paths_c] 0 2 0 2) as (champ & domains & Hok & _ & _ & HC); auto; try discriminate; try lra; try (cbn; lia).
  { intros u v H. repeat (destruct H as [E|H]; [inversion E; reflexivity|]). destruct H. }
  { intros l Hl. assert (l = 0%nat \/ l = 1%nat) as [-> | ->] by (cbn in Hl; intuition congruence); [exists 1%nat, 0%nat|exists 5%nat, 4%nat]; cbn; auto 8. }
  { intros c [<-|[]]. reflexivity. }
  assert (HD : forall d, In d domains -> snd d = paths_c).
  { intros [poly c] Hd. destruct (C24_domains_are_optimal _ _ _ _ _ _ _ _ _ _ Hok HC poly c Hd) as ([<-|[]] & _). reflexivity. }
  exists champ. set (env := paths_env champ).
  assert (HG : rg_generate small_regime (sg_est env (rg_graph small_regime)) (sg_draws env) (sg_attempts env) = Some (Ok paths_network)) by (apply C92_example; reflexivity).
  assert (HM : pamfil_movements env (sg_est env (rg_iteration small_regime)) small_regime paths_network = Ok [(1, 1, [Fin (paths_value - 1)], [1000 - 1])]).
  { unfold pamfil_movements, paths_network. cbn [rg_gammas0 rg_omegas0 rg_repeats small_regime]. change (grid [1] [1]) with [(1, 1)]. cbn [foldM fst snd repeat_step bind].
    pose proof (paths_movement champ None) as E. fold env in E. change (sg_est env (rg_iteration small_regime)) with (paths_est champ). destruct (one_step env (paths_est champ) paths_lv (0%nat, None, (paths_g, paths_gi)) 1 1) as [w o]. cbn [snd] in E. subst o. reflexivity. }
  assert (HDs := paths_domains champ domains HC HD).
  assert (SA : steps_answer (eq env) small_regime env).
  { constructor.
    - eauto.
    - intros x (e & <- & Hx). rewrite HG in Hx. injection Hx as <-. eauto.
    - intros x (e & <- & Hx). rewrite HG in Hx. injection Hx as <-. exists [paths_c]. apply paths_found.
    - intros x ps (e & <- & Hx) (e' & <- & Hp). rewrite HG in Hx. injection Hx as <-. cbn [fst snd paths_network rg_gammas rg_omegas small_regime] in Hp. unfold env in Hp. rewrite paths_found in Hp. injection Hp as <-. split; apply HDs; auto. }
  assert (ND : NoDup (flat_map names [small_regime])). { cbn. repeat (constructor; [cbn; intros H; repeat (destruct H as [H|H]; [discriminate|]); exact H|]). constructor. }
  assert (HE : forall s, In s [small_regime] -> consistent (eq env) s empty_directory) by (intros; apply consistent_empty).
  assert (Hh0 : history (regime_run (eq env) [small_regime]) empty_directory empty_directory) by constructor.
  destruct (C102_resume (eq env) [small_regime] empty_directory empty_directory small_regime env ND HE Hh0 (or_introl eq_refl) eq_refl ltac:(discriminate) SA)
    as (d' & x & l & ps & ds & ks & F & K & C & D1 & D2 & D3 & D4 & D5 & _).
  split; [exact Hok|]. split; [eauto|]. split; [exact SA|]. split; [apply (own_names [small_regime]); [exact ND|left; reflexivity]|]. split; [apply consistent_empty|]. cbv zeta. rewrite F.
  destruct (co_graph _ _ _ C _ D1) as (e1 & x1 & <- & E1 & G1). injection E1 as <-. rewrite HG in G1. injection G1 as <-.
  destruct (co_iteration _ _ _ C _ D2) as (e2 & x2 & l2 & <- & E2 & G2 & M2). rewrite D1 in G2. injection G2 as <-. injection E2 as <-. rewrite HM in M2. injection M2 as <-.
  destruct (co_louvain _ _ _ C _ D3) as (e3 & x3 & p3 & <- & E3 & G3 & M3). rewrite D1 in G3. injection G3 as <-. injection E3 as <-. cbn [fst snd paths_network rg_gammas rg_omegas small_regime] in M3. unfold env in M3. rewrite paths_found in M3. injection M3 as <-.
  split; [|split; [exact D1|split; [exact D2|split; [exact D3|split; [eauto|split; [eauto|]]]]]].
  { eapply another; [exact Hh0|]. exists env, small_regime. split; [reflexivity|]. split; [left; reflexivity|]. rewrite <- F. unfold seen, final. generalize (fst (regime_main env small_regime empty_directory)). clear.
    intros l. destruct l as [|a l] using rev_ind; [left; reflexivity|right]. rewrite last_last. apply in_app_iff. right. left. reflexivity. }
  exists (put "network" Absent d'). assert (Rm : removed ["network"%string] d' (put "network" Absent d')).
  { intros n. split; [intros [<-|[]]; apply put_same|]. intros N. apply put_other. intros ->. apply N. left. reflexivity. }
  split; [exact Rm|]. apply (C102_stale_results env small_regime d' _ paths_network _ _ ds ks paths_network (own_names [small_regime] _ ND (or_introl eq_refl)) D1 D2 D3 D4 D5 Rm HG).
Qed.
Example C102_example : exists champ,
  steps_answer (eq (paths_env champ)) small_regime (paths_env champ) /\ NoDup (names small_regime) /\ consistent (eq (paths_env champ)) small_regime empty_directory /\
  let d := final (regime_main (paths_env champ) small_regime) empty_directory in
  history (regime_run (eq (paths_env champ)) [small_regime]) empty_directory d /\
  d "network"%string = Stored (Network paths_network) /\ d "movements"%string = Stored (Movements [(1, 1, [Fin (paths_value - 1)], [1000 - 1])]) /\
  d "partitions"%string = Stored (Parts [paths_c]) /\ (exists ds, d "domains"%string = Stored (Estimates ds)) /\ (exists ks, d "restricted"%string = Stored (Estimates ks)) /\
  exists d', removed ["network"%string] d d' /\ final (regime_main (paths_env champ) small_regime) d' "network"%string = Stored (Network paths_network).
Proof. destruct small_run as (champ & _ & _ & H). exists champ. exact H. Qed.
