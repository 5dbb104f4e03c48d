(** C105: the law-firm experiment keeps its partitions and domains in eight files (lazega_figures.py).  Any number of runs in one directory,
    each killed at any moment. *)
From Coq Require Import String Permutation.
From Verif Require Import PyBase PyGraph M_partition M_champ M_leiden M_estimation_utils M_estimation M_checks M_generators M_plotting M_lfr M_staged Spec Spec_graph Spec_leiden Spec_sbm Spec_multisbm Spec_check Spec_valid Spec_champ Spec_generators Spec_iteration Spec_staged Spec_lazega Spec_lawfirm
  L_base L_canon L_leiden L_champ_total L_multileiden L_generators L_parallel L_prune L_staged L_lawfirm Properties_champ Properties_leiden Properties_lazega Properties_staged Properties_stageddata.
Open Scope list_scope.
Open Scope R_scope.

Notation partitions_file := "lazega_1M_louvain.p"%string.
Lemma steps_apart n k : In (n, k) firm_steps -> n <> partitions_file.
Proof. intros H E. subst n. cbn in H. repeat (destruct H as [H|H]; [discriminate|]). exact H. Qed.
Lemma steps_function n k k' : In (n, k) firm_steps -> In (n, k') firm_steps -> k = k'.
Proof. intros H H'. cbn in H, H'. repeat (destruct H as [H|H]; [injection H as <- <-; repeat (destruct H' as [H'|H']; [congruence|]); destruct H'|]). destruct H. Qed.
Lemma steps_nodup : NoDup (map fst firm_steps).
Proof. cbn. repeat (constructor; [cbn; intros H; repeat (destruct H as [H|H]; [discriminate|]); exact H|]). constructor. Qed.
Lemma firm_consistent_empty ok f : firm_consistent ok f empty_directory.
Proof. constructor; discriminate. Qed.

Lemma firm_own (ok : stage_env -> Prop) f env d : ok env -> firm_consistent ok f d ->
  (forall parts, d partitions_file = Absent -> firm_partitions env f = Ok parts ->
     firm_consistent ok f (put partitions_file Torn d) /\ firm_consistent ok f (put partitions_file (Stored (Parts parts)) d)) /\
  (forall n k parts l, In (n, k) firm_steps -> d n = Absent -> d partitions_file = Stored (Parts parts) -> firm_domains (sg_est env n) f k parts = Ok l ->
     firm_consistent ok f (put n Torn d) /\ firm_consistent ok f (put n (Stored (Domains l)) d)).
Proof.
  intros Hok [C1 C2]. split.
  - intros parts Ha Hp. split; constructor.
    + intros v Hv. rewrite put_same in Hv. discriminate.
    + intros n k v Hn Hv. rewrite put_other in Hv by (eapply steps_apart; eauto). destruct (C2 n k v Hn Hv) as (e & ps & l & _ & _ & X & _). congruence.
    + intros v Hv. rewrite put_same in Hv. injection Hv as <-. eauto.
    + intros n k v Hn Hv. rewrite put_other in Hv by (eapply steps_apart; eauto). destruct (C2 n k v Hn Hv) as (e & ps & l & _ & _ & X & _). congruence.
  - intros n k parts l Hn Ha Hp Hl. assert (N := steps_apart n k Hn). split; constructor.
    + intros v Hv. rewrite put_other in Hv by congruence. auto.
    + intros m j v Hm Hv. rewrite (put_other n _ d partitions_file) by congruence. destruct (string_dec m n) as [->|E]; [rewrite put_same in Hv; discriminate|]. rewrite put_other in Hv by exact E. eauto.
    + intros v Hv. rewrite put_other in Hv by congruence. auto.
    + intros m j v Hm Hv. rewrite (put_other n _ d partitions_file) by congruence. destruct (string_dec m n) as [->|E].
      * rewrite put_same in Hv. injection Hv as <-. rewrite (steps_function n j k Hm Hn). exists env, parts, l. auto.
      * rewrite put_other in Hv by exact E. eauto.
Qed.

Lemma quiet_stage_make env f s : quiet (run_champ env f (fst s) (snd s)). Proof. apply quiet_run_champ. Qed.
Lemma safe_ext {A} (Inv : directory -> Prop) (p q : prog A) : (forall d, p d = q d) -> safe Inv q -> safe Inv p.
Proof. intros E H d d' Hd Hin. rewrite E in Hin. eapply H; eauto. Qed.
Lemma safe_firm (Inv : directory -> Prop) env f :
  (forall d parts, Inv d -> d partitions_file = Absent -> firm_partitions env f = Ok parts -> Inv (put partitions_file Torn d) /\ Inv (put partitions_file (Stored (Parts parts)) d)) ->
  (forall d n k parts l, In (n, k) firm_steps -> Inv d -> d n = Absent -> d partitions_file = Stored (Parts parts) -> firm_domains (sg_est env n) f k parts = Ok l ->
     Inv (put n Torn d) /\ Inv (put n (Stored (Domains l)) d)) -> safe Inv (firm_main env f).
Proof.
  intros H1 H2. apply (safe_ext Inv _ (and_then (firm_files env f) (fun _ => firm_draw env f)) (firm_main_draw env f)). apply safe_and_then; [|intros _; apply safe_quiet, quiet_firm_draw].
  eapply safe_ext; [apply firm_files_steps|]. apply safe_and_then.
  - apply safe_ensure; [apply quiet_run_partitions|]. intros d v Hd Ha Hv. apply run_partitions_done in Hv as (ps & -> & Hp). apply H1; auto.
  - intros _. apply safe_and_then; [|intros _; apply safe_quiet, quiet_give]. apply safe_for_all. intros [n k] Hn. unfold firm_stage. cbn [fst snd]. apply safe_ensure; [apply quiet_run_champ|].
    intros d v Hd Ha Hv. apply run_champ_done in Hv as (ps & l & Hp & -> & Hl). eapply H2; eauto.
Qed.

(** Whenever the runs are killed, every complete file is what its step answers, in a possible run, on the files that are there now. *)
Theorem C105_consistent : forall (ok : stage_env -> Prop) f d0 d, firm_consistent ok f d0 -> history (firm_run ok f) d0 d -> firm_consistent ok f d.
Proof.
  intros ok f d0 d H0 H. induction H as [|d d' _ IH (env & Hok & Hs)]; [exact H0|]. eapply (safe_seen _ (firm_main env f) d d'); eauto. apply safe_firm.
  - intros x parts Hx. apply (proj1 (firm_own ok f env x Hok Hx)).
  - intros x n k parts l Hn Hx. apply (proj2 (firm_own ok f env x Hok Hx)); auto.
Qed.
Print Assumptions C105_consistent.

(** A file that exists, complete or truncated, is never changed, and no other file is touched. *)
Theorem C105_kept : forall (ok : stage_env -> Prop) f d0 d, history (firm_run ok f) d0 d ->
  (forall n, d0 n <> Absent -> d n = d0 n) /\ (forall n, ~ In n firm_names -> d n = d0 n).
Proof.
  intros ok f d0 d H. induction H as [|d d' _ [IH1 IH2] (env & Hok & Hseen)]; [auto|].
  assert (S : safe (fun x => (forall n, d0 n <> Absent -> x n = d0 n) /\ (forall n, ~ In n firm_names -> x n = d0 n)) (firm_main env f)).
  { assert (X : forall n v (x : directory), In n firm_names -> ((forall n, d0 n <> Absent -> x n = d0 n) /\ (forall n, ~ In n firm_names -> x n = d0 n)) -> x n = Absent ->
      ((forall m, d0 m <> Absent -> put n v x m = d0 m) /\ (forall m, ~ In m firm_names -> put n v x m = d0 m))).
    { intros n v x Hn [A B] E. split; intros m Hm; rewrite put_other; auto; intros ->; [rewrite (A n Hm) in E|]; contradiction. }
    apply safe_firm.
    - intros x parts Hx Ha _. split; apply X; auto; left; reflexivity.
    - intros x n k parts l Hn Hx Ha _ _. assert (I : In n firm_names) by (right; apply in_map_iff; exists (n, k); auto). split; apply X; auto. }
  eapply (safe_seen _ _ d d' S); eauto.
Qed.
Print Assumptions C105_kept.

Lemma firm_final env f d : final (firm_main env f) d = now d (fst (firm_files env f d)).
Proof.
  unfold final. rewrite firm_main_draw. destruct (firm_files env f d) as [l e] eqn:E. unfold and_then. rewrite E. destruct e as [u|e| |]; try reflexivity.
  destruct (firm_draw env f (now d l)) as [l' e'] eqn:E'. cbn [fst]. pose proof (quiet_firm_draw env f (now d l)) as Q. rewrite E' in Q. cbn in Q. subst l'. rewrite app_nil_r. reflexivity.
Qed.
Lemma firm_outcome env f d ff : outcome (firm_main env f) d = Done ff -> (exists u, snd (firm_files env f d) = Done u) /\ snd (firm_draw env f (final (firm_main env f) d)) = Done ff.
Proof. unfold outcome. rewrite firm_final, firm_main_draw. intros H. destruct (and_then_done _ _ _ _ H) as (u & Hu & HD). eauto. Qed.
Lemma firm_keeps env f d n : d n <> Absent -> final (firm_main env f) d n = d n.
Proof. apply (C105_kept (fun _ => True) f d (final (firm_main env f) d)). eapply another; [apply nothing|]. exists env. split; [exact I|apply seen_now]. Qed.
Lemma firm_final_consistent (ok : stage_env -> Prop) f d env : ok env -> firm_consistent ok f d -> firm_consistent ok f (final (firm_main env f) d).
Proof. intros Hok H. apply (C105_consistent ok f d); [exact H|]. eapply another; [apply nothing|]. exists env. split; [exact Hok|apply seen_now]. Qed.

(** If a run finishes, its figures show CHAMP's domains, without restriction and with two, three and four communities, of one set of
    partitions that Leiden found on the firm's network. *)
Theorem C105_figures : forall (ok : stage_env -> Prop) f d0 d env ff, firm_consistent ok f d0 -> history (firm_run ok f) d0 d -> ok env ->
  outcome (firm_main env f) d = Done ff ->
  exists parts all k2 k3 k4, firm_shows env f all k2 k3 k4 ff /\ (exists e, ok e /\ firm_partitions e f = Ok parts) /\
    forall n restrict domains, In (n, restrict, domains) [("lazega_CHAMP.p", None, all); ("lazega_CHAMP2.p", Some 2%nat, k2); ("lazega_CHAMP3.p", Some 3%nat, k3); ("lazega_CHAMP4.p", Some 4%nat, k4)]%string ->
      final (firm_main env f) d n = Stored (Domains domains) /\ exists e, ok e /\ firm_domains (sg_est e n) f restrict parts = Ok domains.
Proof.
  intros ok f d0 d env ff H0 H Hok Ho. apply firm_outcome in Ho as [_ HD]. assert (C := firm_final_consistent ok f d env Hok (C105_consistent ok f d0 d H0 H)).
  apply firm_draw_done in HD as (all & k2 & k3 & k4 & A & A2 & A3 & A4 & HS). set (d' := final (firm_main env f) d) in *. destruct C as [C1 C2].
  assert (P : exists parts, d' partitions_file = Stored (Parts parts)) by (destruct (C2 _ None _ (or_introl eq_refl) A) as (e & ps & l & _ & _ & X & _); eauto).
  destruct P as (parts & P). exists parts, all, k2, k3, k4. split; [exact HS|]. split; [destruct (C1 _ P) as (e & ps & Oe & E & X); injection E as <-; eauto|].
  assert (X : forall n k ds, In (n, k) firm_steps -> d' n = Stored (Domains ds) -> d' n = Stored (Domains ds) /\ exists e, ok e /\ firm_domains (sg_est e n) f k parts = Ok ds).
  { intros n k ds Hn Hd. split; [exact Hd|]. destruct (C2 n k _ Hn Hd) as (e & ps & l & Oe & E & Y & Z). rewrite P in Y. injection Y as <-. injection E as <-. eauto. }
  intros n k ds [Hin|[Hin|[Hin|[Hin|[]]]]]; injection Hin as <- <- <-; apply X; auto; cbn; tauto.
Qed.
Print Assumptions C105_figures.

(** A truncated file of domains that the figures need stays truncated, and no later run finishes. *)
Theorem C105_truncated : forall (ok : stage_env -> Prop) f d0 d n, history (firm_run ok f) d0 d -> In n firm_needed -> d0 n = Torn ->
  d n = Torn /\ forall env ff, outcome (firm_main env f) d <> Done ff.
Proof.
  intros ok f d0 d n H Hn Ht. assert (E : d n = Torn) by (rewrite (proj1 (C105_kept ok f d0 d H)); congruence). split; [exact E|].
  intros env ff Ho. apply firm_outcome in Ho as [_ HD]. apply firm_draw_done in HD as (all & k2 & k3 & k4 & A & A2 & A3 & A4 & _).
  assert (K : final (firm_main env f) d n = Torn) by (rewrite firm_keeps; congruence). destruct Hn as [<-|[<-|[<-|[<-|[]]]]]; congruence.
Qed.
Print Assumptions C105_truncated.

(** The other four files: a run reads them only to make a missing file.  If all eight exist, the run's result depends on the four needed ones only,
    whatever the others hold; if the file of partitions is truncated and a file of domains is missing, no run finishes. *)
Lemma all_there env f d : (forall n, In n firm_names -> d n <> Absent) -> firm_files env f d = ([], Done tt).
Proof.
  intros H. rewrite firm_files_steps.
  assert (E : forall n make, quiet make -> In n firm_names -> ensure n make d = ([], Done tt)).
  { intros n make Q Hn. destruct (ensure_cases n make d Q) as [[_ E]|[(E & _)|(E & _)]]; [exact E|destruct (H n Hn E)..]. }
  assert (F : forall l, (forall s, In s l -> In s firm_steps) -> exists us, for_all (firm_stage env f) l d = ([], Done us)).
  { induction l as [|s l IH]; intros Hl; [exists []; reflexivity|]. destruct IH as (us & IH); [intros; apply Hl; right; assumption|]. cbn [for_all]. unfold and_then, firm_stage at 1. rewrite E; [|apply quiet_run_champ|right; apply in_map, Hl; left; reflexivity].
    change (now d []) with d. rewrite IH. cbn. eauto. }
  destruct (F firm_steps (fun s h => h)) as (us & Fs). unfold and_then at 1. rewrite E; [|apply quiet_run_partitions|left; reflexivity]. change (now d []) with d. unfold and_then. rewrite Fs. reflexivity.
Qed.
Theorem C105_unread : forall env f d d', (forall n, In n firm_names -> d n <> Absent /\ d' n <> Absent) -> (forall n, In n firm_needed -> d n = d' n) ->
  final (firm_main env f) d = d /\ forall ff, outcome (firm_main env f) d = Done ff <-> outcome (firm_main env f) d' = Done ff.
Proof.
  intros env f d d' Ha He.
  assert (F : forall x, (forall n, In n firm_names -> x n <> Absent) -> final (firm_main env f) x = x /\ outcome (firm_main env f) x = snd (firm_draw env f x)).
  { intros x Hx. rewrite firm_final. unfold outcome. rewrite firm_main_draw, (and_then_is _ _ _ tt); rewrite (all_there env f x Hx); [|reflexivity]. split; reflexivity. }
  destruct (F d (fun n Hn => proj1 (Ha n Hn))) as [F1 F2]. destruct (F d' (fun n Hn => proj2 (Ha n Hn))) as [_ F3]. split; [exact F1|].
  intros ff. rewrite F2, F3, !firm_draw_done. rewrite !He by (cbn; tauto). reflexivity.
Qed.
Print Assumptions C105_unread.
Lemma for_all_blocked env f n k d : d partitions_file = Torn -> In (n, k) firm_steps -> d n = Absent ->
  forall l, (forall s, In s l -> In s firm_steps) -> In (n, k) l -> forall u, snd (for_all (firm_stage env f) l d) <> Done u.
Proof.
  intros Ht Hn Ha. induction l as [|[m j] l IH]; intros Hl Hin us; [destruct Hin|]. cbn [for_all].
  intros H. destruct (and_then_done _ _ _ _ H) as (u & Hu & H'). destruct (and_then_done _ _ _ _ H') as (us' & Hu' & _). clear H H'. unfold firm_stage in Hu, Hu'. cbn [fst snd] in Hu, Hu'.
  destruct (ensure_cases m (run_champ env f m j) d (quiet_run_champ _ _ _ _)) as [[Hm E]|[(_ & v & Hv & _)|(_ & _ & _ & E)]].
  - destruct Hin as [Hin|Hin]; [injection Hin as -> ->; contradiction|]. rewrite E in Hu'. apply (IH (fun s h => Hl s (or_intror h)) Hin us'). exact Hu'.
  - apply run_champ_done in Hv as (ps & l0 & X & _). congruence.
  - destruct (E _ Hu).
Qed.
Theorem C105_partitions_truncated : forall (ok : stage_env -> Prop) f d0 d n, history (firm_run ok f) d0 d -> d0 partitions_file = Torn -> In n (map fst firm_steps) -> d0 n = Absent ->
  d partitions_file = Torn /\ d n = Absent /\ forall env ff, outcome (firm_main env f) d <> Done ff.
Proof.
  intros ok f d0 d n H Ht Hn Ha. apply in_map_iff in Hn as ([m k] & <- & Hn). cbn [fst] in *.
  assert (X : d partitions_file = Torn /\ d m = Absent).
  { induction H as [|d d' _ IH (env & Hok & Hs)]; [auto|]. apply (safe_seen (fun x => x partitions_file = Torn /\ x m = Absent) (firm_main env f) d d'); auto. apply safe_firm.
    - intros x ps [X _] Y _. congruence.
    - intros x n' k' ps l _ [X _] _ Y _. congruence. }
  destruct X as [X1 X2]. split; [exact X1|]. split; [exact X2|]. intros env ff Ho. apply firm_outcome in Ho as [(u & Hu) _]. rewrite firm_files_steps in Hu. destruct (and_then_done _ _ _ _ Hu) as (u1 & _ & H2).
  assert (E : ensure firm_louvain (step p <- ends (of_res (firm_partitions env f)); give (Parts p)) d = ([], Done tt)).
  { destruct (ensure_cases firm_louvain _ d (quiet_run_partitions env f)) as [[_ E]|[(E & _)|(E & _)]]; [exact E|change firm_louvain with partitions_file in E; congruence..]. }
  rewrite E in H2. change (now d (fst ([], Done tt))) with d in H2. destruct (and_then_done _ _ _ _ H2) as (us & Hus & _). eapply (for_all_blocked env f m k d X1 Hn X2 firm_steps (fun s h => h) Hn). exact Hus.
Qed.
Print Assumptions C105_partitions_truncated.

(** Whenever a run writes a file there is a moment at which killing it leaves that file truncated. *)
Lemma torn_first_for_all {A B} (body : A -> prog B) l : (forall a, torn_first (body a)) -> torn_first (for_all body l).
Proof. intros H. induction l as [|a l IH]; cbn [for_all]; [apply torn_first_quiet, quiet_give|]. apply torn_first_then; [apply H|]. intros b. apply torn_first_then; [exact IH|]. intros bs. apply torn_first_quiet, quiet_give. Qed.
Theorem C105_can_be_truncated : forall env f d d' n, d n = Absent -> seen (firm_main env f) d d' -> d' n <> Absent ->
  exists d'', seen (firm_main env f) d d'' /\ d'' n = Torn.
Proof.
  intros env f d d' n Ha [->|Hin] Hn; [contradiction|].
  assert (T : torn_first (firm_files env f)).
  { assert (T : torn_first (step _ <- ensure firm_louvain (step p <- ends (of_res (firm_partitions env f)); give (Parts p)); step _ <- for_all (firm_stage env f) firm_steps; give tt)).
    { apply torn_first_then; [apply torn_first_ensure, quiet_run_partitions|intros _]. apply torn_first_then; [|intros _; apply torn_first_quiet, quiet_give]. apply torn_first_for_all. intros s. apply torn_first_ensure, quiet_run_champ. }
    intros x m x' H1 H2 H3. rewrite firm_files_steps in *. eapply T; eauto. }
  assert (T' : torn_first (firm_main env f)) by (change (firm_main env f) with (and_then (firm_files env f) (fun _ => firm_draw env f)); apply torn_first_then; [exact T|intros _; apply torn_first_quiet, quiet_firm_draw]).
  destruct (T' d n d' Ha Hin Hn) as (d'' & H1 & H2). exists d''. split; [right; exact H1|exact H2].
Qed.
Print Assumptions C105_can_be_truncated.

(** ** Resuming *)
Lemma stages_run (ok : stage_env -> Prop) f env parts : ok env -> (forall n k, In (n, k) firm_steps -> exists l, firm_domains (sg_est env n) f k parts = Ok l) ->
  forall steps d, (forall s, In s steps -> In s firm_steps) -> NoDup (map fst steps) -> firm_consistent ok f d -> d partitions_file = Stored (Parts parts) -> (forall n, In n (map fst steps) -> d n <> Torn) ->
  exists tr us d', for_all (firm_stage env f) steps d = (tr, Done us) /\ now d tr = d' /\ firm_consistent ok f d' /\ (forall n, In n (map fst steps) -> exists l, d' n = Stored (Domains l)) /\ (forall n, ~ In n (map fst steps) -> d' n = d n).
Proof.
  intros Hok HA. induction steps as [|[n k] steps IH]; intros d Hs ND C P HT.
  - exists [], [], d. split; [reflexivity|]. split; [reflexivity|]. split; [exact C|]. split; [intros m []|auto].
  - cbn [map fst] in ND. inversion ND as [|? ? Nn ND']; subst. assert (Hn : In (n, k) firm_steps) by (apply Hs; left; reflexivity). destruct (HA n k Hn) as (l & Hl).
    assert (X : exists t d1, firm_stage env f (n, k) d = (t, Done tt) /\ now d t = d1 /\ firm_consistent ok f d1 /\ (exists l, d1 n = Stored (Domains l)) /\ forall m, m <> n -> d1 m = d m).
    { unfold firm_stage. cbn [fst snd]. destruct (ensure_cases n (run_champ env f n k) d (quiet_run_champ _ _ _ _)) as [[Hp E]|[(Ha & v & Hv & E)|(Ha & N & _)]].
      - exists [], d. split; [exact E|]. split; [reflexivity|]. split; [exact C|]. split; [|auto]. destruct (d n) as [| |v] eqn:Ed; [contradiction|destruct (HT n (or_introl eq_refl) Ed)|]. destruct (fc_domains _ _ _ C n k v Hn Ed) as (e & ps & l' & _ & -> & _). eauto.
      - apply run_champ_done in Hv as (ps & l' & Hp & -> & Hl'). exists [put n Torn d; put n (Stored (Domains l')) d], (put n (Stored (Domains l')) d). split; [exact E|]. split; [reflexivity|].
        split; [eapply (proj2 (firm_own ok f env d Hok C)); eauto|]. split; [exists l'; apply put_same|]. intros m Hm. apply put_other. exact Hm.
      - exfalso. apply (N (Domains l)). apply run_champ_done. eauto. }
    destruct X as (t & d1 & E1 & W1 & C1 & (l1 & S1) & O1). assert (P1 : d1 partitions_file = Stored (Parts parts)) by (rewrite O1; [exact P|]; intros X; apply (steps_apart n k Hn); auto).
    destruct (IH d1) as (tr & us & d2 & E2 & W2 & C2 & S2 & O2).
    + intros s Hin. apply Hs. right. exact Hin.
    + exact ND'.
    + exact C1.
    + exact P1.
    + intros m Hm. rewrite O1; [apply HT; right; exact Hm|]. intros ->. contradiction.
    + exists (t ++ tr ++ []), (tt :: us), d2. split; [|split; [|split; [exact C2|split]]].
      * cbn [for_all]. unfold and_then. rewrite E1, W1, E2. reflexivity.
      * unfold now in *. rewrite app_nil_r, last_app_default, W1. exact W2.
      * intros m [<-|Hm]; [exists l1; rewrite O2 by exact Nn; exact S1|auto].
      * intros m Hm. rewrite O2 by (intros X; apply Hm; right; exact X). apply O1. intros ->. apply Hm. left. reflexivity.
Qed.

(** From any directory that earlier runs can have left, if no file is truncated, a run in which every step answers completes the eight files, keeping
    those that are there; its figures are those of the files. *)
Theorem C105_resume : forall (ok : stage_env -> Prop) f d0 d env, firm_consistent ok f d0 -> history (firm_run ok f) d0 d -> ok env ->
  (forall n, In n firm_names -> d n <> Torn) -> firm_answers ok f env ->
  exists d' parts all k2 k3 k4, final (firm_main env f) d = d' /\ (forall n, d n <> Absent -> d' n = d n) /\ firm_consistent ok f d' /\
    d' partitions_file = Stored (Parts parts) /\ (forall n, In n (map fst firm_steps) -> exists l, d' n = Stored (Domains l)) /\
    d' "lazega_CHAMP.p"%string = Stored (Domains all) /\ d' "lazega_CHAMP2.p"%string = Stored (Domains k2) /\ d' "lazega_CHAMP3.p"%string = Stored (Domains k3) /\ d' "lazega_CHAMP4.p"%string = Stored (Domains k4) /\
    forall ff, outcome (firm_main env f) d = Done ff <-> firm_shows env f all k2 k3 k4 ff.
Proof.
  intros ok f d0 d env H0 H Hok HT [(p0 & A1) A2]. assert (C := C105_consistent ok f d0 d H0 H).
  assert (X : exists t d1 parts, ensure firm_louvain (step p <- ends (of_res (firm_partitions env f)); give (Parts p)) d = (t, Done tt) /\ now d t = d1 /\ firm_consistent ok f d1 /\ d1 partitions_file = Stored (Parts parts) /\ forall m, m <> partitions_file -> d1 m = d m).
  { change firm_louvain with partitions_file. destruct (ensure_cases partitions_file _ d (quiet_run_partitions env f)) as [[Hp E]|[(Ha & v & Hv & E)|(Ha & N & _)]].
    - destruct (d partitions_file) as [| |v] eqn:Ed; [contradiction|destruct (HT partitions_file (or_introl eq_refl) Ed)|]. destruct (fc_partitions _ _ _ C v Ed) as (e & ps & _ & -> & _).
      exists [], d, ps. auto.
    - apply run_partitions_done in Hv as (ps & -> & Hp). exists [put partitions_file Torn d; put partitions_file (Stored (Parts ps)) d], (put partitions_file (Stored (Parts ps)) d), ps. split; [exact E|]. split; [reflexivity|].
      split; [apply (proj1 (firm_own ok f env d Hok C)); auto|]. split; [apply put_same|]. intros m Hm. apply put_other. exact Hm.
    - exfalso. apply (N (Parts p0)). apply run_partitions_done. eauto. }
  destruct X as (t & d1 & parts & E1 & W1 & C1 & P1 & O1). destruct (fc_partitions _ _ _ C1 _ P1) as (e & ps & Oe & Ep & Hps). injection Ep as <-.
  destruct (stages_run ok f env parts Hok (fun n k Hn => A2 e parts n k Oe Hps Hn) firm_steps d1 (fun s h => h) steps_nodup C1 P1) as (tr & us & d2 & E2 & W2 & C2 & S2 & O2).
  { intros n Hn. rewrite O1; [apply HT; right; exact Hn|]. intros ->. apply in_map_iff in Hn as ([m k] & Em & Hm). cbn in Em. subst m. apply (steps_apart _ _ Hm). reflexivity. }
  assert (P2 : d2 partitions_file = Stored (Parts parts)). { rewrite O2; [exact P1|]. intros Hn. apply in_map_iff in Hn as ([m k] & Em & Hm). cbn in Em. subst m. apply (steps_apart _ _ Hm). reflexivity. }
  assert (F : exists l, firm_files env f d = (l, Done tt) /\ now d l = d2).
  { rewrite firm_files_steps. exists (t ++ tr ++ []). split.
    - unfold and_then at 1. rewrite E1, W1. unfold and_then. rewrite E2. reflexivity.
    - unfold now in *. rewrite app_nil_r, last_app_default, W1. exact W2. }
  destruct F as (fl & F & Fd). assert (Efin : final (firm_main env f) d = d2) by (rewrite firm_final, F; exact Fd).
  destruct (S2 "lazega_CHAMP.p"%string) as (all & B1); [cbn; tauto|]. destruct (S2 "lazega_CHAMP2.p"%string) as (k2 & B2); [cbn; tauto|]. destruct (S2 "lazega_CHAMP3.p"%string) as (k3 & B3); [cbn; tauto|]. destruct (S2 "lazega_CHAMP4.p"%string) as (k4 & B4); [cbn; tauto|].
  exists d2, parts, all, k2, k3, k4. split; [exact Efin|]. split; [intros n Hn; rewrite <- Efin; apply firm_keeps; exact Hn|]. split; [exact C2|]. split; [exact P2|]. split; [exact S2|]. repeat (split; [assumption|]).
  intros ff. unfold outcome. rewrite firm_main_draw, (and_then_is _ _ _ tt); rewrite F; [|reflexivity]. cbn [fst snd]. rewrite Fd, firm_draw_done. split.
  - intros (a & b2 & b3 & b4 & X & X2 & X3 & X4 & HS). congruence.
  - intros HS. exists all, k2, k3, k4. auto.
Qed.
Print Assumptions C105_resume.

(** ** Removing files by hand *)

(** Removing files is safe if the file of partitions goes only together with all files of domains. *)
Theorem C105_remove_with_dependents : forall (ok : stage_env -> Prop) f ns d d', firm_consistent ok f d -> removed ns d d' ->
  (In partitions_file ns -> forall n, In n (map fst firm_steps) -> In n ns) -> firm_consistent ok f d'.
Proof.
  intros ok f ns d d' [C1 C2] HR Hp.
  assert (X : forall n v, d' n = Stored v -> ~ In n ns /\ d n = Stored v). { intros n v Hv. destruct (HR n) as [R1 R2]. destruct (in_dec string_dec n ns) as [I|I]; [rewrite R1 in Hv by exact I; discriminate|]. rewrite R2 in Hv by exact I. auto. }
  constructor.
  - intros v Hv. apply X in Hv as [_ Hv]. auto.
  - intros n k v Hn Hv. apply X in Hv as [Hns Hv]. assert (Hp' : ~ In partitions_file ns). { intros I. apply Hns. apply (Hp I). apply in_map_iff. exists (n, k). auto. }
    rewrite (proj2 (HR partitions_file) Hp'). eauto.
Qed.
Print Assumptions C105_remove_with_dependents.
(** If only the file of partitions is removed, the next run finds new partitions and stores them next to the domains of the old ones; its figures are
    the old ones. *)
Theorem C105_stale_results : forall env f d d' parts all k2 k3 k4, (forall n, In n firm_names -> d n <> Absent) -> removed [partitions_file] d d' ->
  d "lazega_CHAMP.p"%string = Stored (Domains all) -> d "lazega_CHAMP2.p"%string = Stored (Domains k2) -> d "lazega_CHAMP3.p"%string = Stored (Domains k3) -> d "lazega_CHAMP4.p"%string = Stored (Domains k4) ->
  firm_partitions env f = Ok parts ->
  final (firm_main env f) d' partitions_file = Stored (Parts parts) /\ (forall n, n <> partitions_file -> final (firm_main env f) d' n = d n) /\
  forall ff, outcome (firm_main env f) d' = Done ff <-> firm_shows env f all k2 k3 k4 ff.
Proof.
  intros env f d d' parts all k2 k3 k4 Ha HR B1 B2 B3 B4 Hp.
  assert (A' : d' partitions_file = Absent) by (apply HR; left; reflexivity). assert (Y : forall n, n <> partitions_file -> d' n = d n) by (intros n Hn; apply HR; intros [E|[]]; congruence).
  set (d1 := put partitions_file (Stored (Parts parts)) d'). assert (D1 : forall n, n <> partitions_file -> d1 n = d n) by (intros n Hn; unfold d1; rewrite put_other by exact Hn; auto).
  assert (E : ensure firm_louvain (step p <- ends (of_res (firm_partitions env f)); give (Parts p)) d' = ([put partitions_file Torn d'; d1], Done tt)).
  { change firm_louvain with partitions_file. destruct (ensure_cases partitions_file _ d' (quiet_run_partitions env f)) as [[X _]|[(_ & v & Hv & X)|(_ & X & _)]]; [contradiction| |].
    - apply run_partitions_done in Hv as (ps & -> & Hps). rewrite Hp in Hps. injection Hps as <-. exact X.
    - exfalso. apply (X (Parts parts)). apply run_partitions_done. eauto. }
  assert (T1 : forall n, In n firm_names -> d1 n <> Absent). { intros n Hn. destruct (string_dec n partitions_file) as [->|N]; [unfold d1; rewrite put_same; discriminate|]. rewrite D1 by exact N. auto. }
  assert (F : firm_files env f d' = ([put partitions_file Torn d'; d1], Done tt)).
  { pose proof (all_there env f d1 T1) as F1. rewrite firm_files_steps in F1 |- *. unfold and_then at 1. rewrite E. change (now d' [put partitions_file Torn d'; d1]) with d1.
    assert (E1 : ensure firm_louvain (step p <- ends (of_res (firm_partitions env f)); give (Parts p)) d1 = ([], Done tt)).
    { destruct (ensure_cases firm_louvain _ d1 (quiet_run_partitions env f)) as [[_ X]|[(X & _)|(X & _)]]; [exact X|destruct (T1 firm_louvain (or_introl eq_refl) X)..]. }
    unfold and_then at 1 in F1. rewrite E1 in F1. change (now d1 []) with d1 in F1. destruct ((step _ <- for_all (firm_stage env f) firm_steps; give tt) d1) as [l e]. cbn [app] in F1. injection F1 as -> ->. reflexivity. }
  rewrite firm_final, F. cbn [fst]. change (now d' [put partitions_file Torn d'; d1]) with d1. split; [unfold d1; apply put_same|]. split; [exact D1|].
  intros ff. unfold outcome. rewrite firm_main_draw, (and_then_is _ _ _ tt); rewrite F; [|reflexivity]. cbn [fst snd]. change (now d' [put partitions_file Torn d'; d1]) with d1. rewrite firm_draw_done.
  rewrite !D1 by discriminate. split.
  - intros (a & b2 & b3 & b4 & X & X2 & X3 & X4 & HS). congruence.
  - intros HS. exists all, k2, k3, k4. auto.
Qed.
Print Assumptions C105_stale_results.
