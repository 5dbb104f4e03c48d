(** Lemmas for the experiments with intermediate files. *)
From Coq Require Import String.
From Verif Require Import PyBase PyGraph M_partition M_champ M_leiden M_estimation_utils M_estimation M_checks M_generators M_plotting M_lfr M_staged Spec_staged.
Open Scope list_scope.
Open Scope R_scope.

(** ** Programs *)
Lemma put_same n f d : put n f d n = f.
Proof. unfold put. rewrite String.eqb_refl. reflexivity. Qed.
Lemma put_other n f d m : m <> n -> put n f d m = d m.
Proof. intros H. unfold put. destruct (String.eqb_spec m n); [contradiction|reflexivity]. Qed.
Lemma last_app_default {A} (l l' : list A) d : last (l ++ l') d = last l' (last l d).
Proof.
  revert d. induction l as [|a l IH]; intros d; [reflexivity|]. destruct l' as [|b l']; [rewrite app_nil_r; reflexivity|].
  change ((a :: l) ++ b :: l') with (a :: (l ++ b :: l')). assert (E : l ++ b :: l' <> []) by (destruct l; discriminate).
  transitivity (last (l ++ b :: l') a); [|rewrite IH].
  - destruct (l ++ b :: l') as [|c k] eqn:E'; [congruence|]. clear. revert c a d. induction k as [|x k IH]; intros c a d; [reflexivity|]. cbn in *. destruct k; [reflexivity|]. apply (IH x a d).
  - assert (X : forall (m : list A) b x y, last (b :: m) x = last (b :: m) y). { clear. induction m as [|z m IH]; intros b x y; [reflexivity|]. cbn in *. destruct m; [reflexivity|]. apply (IH z). }
    apply X.
Qed.
Lemma seen_now {A} (p : prog A) d : seen p d (now d (fst (p d))).
Proof.
  unfold seen, now. destruct (fst (p d)) as [|a l] eqn:E; [left; reflexivity|right]. clear. revert a. induction l as [|b l IH]; intros a; [left; reflexivity|].
  right. change (last (a :: b :: l) d) with (last (b :: l) d). apply IH.
Qed.

Lemma and_then_trace {A B} (x : prog A) (f : A -> prog B) d d' :
  In d' (fst (and_then x f d)) <-> In d' (fst (x d)) \/ exists a, snd (x d) = Done a /\ In d' (fst (f a (now d (fst (x d))))).
Proof.
  unfold and_then. destruct (x d) as [l e]. cbn [fst snd]. destruct e as [a|e| |]; cbn [fst snd].
  - destruct (f a (now d l)) as [l' e'] eqn:E. cbn [fst]. rewrite in_app_iff. split.
    + intros [H|H]; [left; exact H|right]. exists a. rewrite E. auto.
    + intros [H|(b & Hb & H)]; [left; exact H|right]. injection Hb as <-. rewrite E in H. exact H.
  - split; [auto|]. intros [H|(b & Hb & _)]; [exact H|discriminate].
  - split; [auto|]. intros [H|(b & Hb & _)]; [exact H|discriminate].
  - split; [auto|]. intros [H|(b & Hb & _)]; [exact H|discriminate].
Qed.
Lemma and_then_done {A B} (x : prog A) (f : A -> prog B) d b : snd (and_then x f d) = Done b ->
  exists a, snd (x d) = Done a /\ snd (f a (now d (fst (x d)))) = Done b.
Proof. unfold and_then. destruct (x d) as [l e]. cbn [fst snd]. destruct e as [a|e| |]; cbn [snd]; try discriminate. destruct (f a (now d l)) as [l' e'] eqn:E. cbn [snd]. intros ->. exists a. rewrite E. auto. Qed.
Lemma and_then_is {A B} (x : prog A) (f : A -> prog B) d a : snd (x d) = Done a ->
  and_then x f d = (fst (x d) ++ fst (f a (now d (fst (x d)))), snd (f a (now d (fst (x d))))).
Proof. intros H. unfold and_then. destruct (x d) as [l e]. cbn [fst snd] in *. subst e. destruct (f a (now d l)) as [l' e']. reflexivity. Qed.

(** A program that writes nothing. *)
Definition quiet {A} (p : prog A) : Prop := forall d, fst (p d) = [].
Lemma quiet_give {A} (a : A) : quiet (give a). Proof. intros d. reflexivity. Qed.
Lemma quiet_ends {A} (e : ending A) : quiet (ends e). Proof. intros d. reflexivity. Qed.
Lemma quiet_read n : quiet (read n). Proof. intros d. reflexivity. Qed.
Lemma quiet_and_then {A B} (x : prog A) (f : A -> prog B) : quiet x -> (forall a, quiet (f a)) -> quiet (and_then x f).
Proof.
  intros H1 H2 d. specialize (H1 d). unfold and_then. destruct (x d) as [l e]. cbn [fst] in H1. subst l. destruct e as [a|e| |]; [|reflexivity..].
  specialize (H2 a (now d [])). destruct (f a (now d [])) as [l' e']. exact H2.
Qed.
Lemma quiet_network n : quiet (read_network n). Proof. apply quiet_and_then; [apply quiet_read|]. intros []; intros d; reflexivity. Qed.
Lemma quiet_movements n : quiet (read_movements n). Proof. apply quiet_and_then; [apply quiet_read|]. intros []; intros d; reflexivity. Qed.
Lemma quiet_parts n : quiet (read_parts n). Proof. apply quiet_and_then; [apply quiet_read|]. intros []; intros d; reflexivity. Qed.
Lemma quiet_domains n : quiet (read_domains n). Proof. apply quiet_and_then; [apply quiet_read|]. intros []; intros d; reflexivity. Qed.
Lemma quiet_estimates n : quiet (read_estimates n). Proof. apply quiet_and_then; [apply quiet_read|]. intros []; intros d; reflexivity. Qed.
#[global] Hint Resolve quiet_give quiet_ends quiet_read quiet_network quiet_movements quiet_parts quiet_domains quiet_estimates : quiet.
Lemma quiet_then {A B} (x : prog A) (f : A -> prog B) d : quiet x -> and_then x f d =
  match snd (x d) with Done a => f a d | Error e => ([], Error e) | Unreadable => ([], Unreadable) | Never => ([], Never) end.
Proof.
  intros H. unfold and_then. specialize (H d). destruct (x d) as [l e]. cbn [fst snd] in *. subst l. destruct e as [a|e| |]; try reflexivity. change (now d []) with d. destruct (f a d). reflexivity.
Qed.
Lemma quiet_done {A B} (x : prog A) (f : A -> prog B) d b : quiet x -> snd (and_then x f d) = Done b -> exists a, snd (x d) = Done a /\ snd (f a d) = Done b.
Proof. intros Q H. rewrite quiet_then in H by exact Q. destruct (snd (x d)) as [a|e| |]; try discriminate. eauto. Qed.

Lemma read_done n d v : snd (read n d) = Done v <-> d n = Stored v.
Proof. cbn. destruct (d n); split; intros H; try discriminate; congruence. Qed.
Lemma read_network_done n d x : snd (read_network n d) = Done x <-> d n = Stored (Network x).
Proof. unfold read_network. rewrite quiet_then by apply quiet_read. cbn. destruct (d n) as [| |v]; [split; discriminate..|]. destruct v; cbn; split; intros H; try discriminate; congruence. Qed.
Lemma read_movements_done n d x : snd (read_movements n d) = Done x <-> d n = Stored (Movements x).
Proof. unfold read_movements. rewrite quiet_then by apply quiet_read. cbn. destruct (d n) as [| |v]; [split; discriminate..|]. destruct v; cbn; split; intros H; try discriminate; congruence. Qed.
Lemma read_parts_done n d x : snd (read_parts n d) = Done x <-> d n = Stored (Parts x).
Proof. unfold read_parts. rewrite quiet_then by apply quiet_read. cbn. destruct (d n) as [| |v]; [split; discriminate..|]. destruct v; cbn; split; intros H; try discriminate; congruence. Qed.
Lemma read_domains_done n d x : snd (read_domains n d) = Done x <-> d n = Stored (Domains x).
Proof. unfold read_domains. rewrite quiet_then by apply quiet_read. cbn. destruct (d n) as [| |v]; [split; discriminate..|]. destruct v; cbn; split; intros H; try discriminate; congruence. Qed.
Lemma read_estimates_done n d x : snd (read_estimates n d) = Done x <-> d n = Stored (Estimates x).
Proof. unfold read_estimates. rewrite quiet_then by apply quiet_read. cbn. destruct (d n) as [| |v]; [split; discriminate..|]. destruct v; cbn; split; intros H; try discriminate; congruence. Qed.
Lemma of_res_done {A} (r : res A) a : of_res r = Done a <-> r = Ok a.
Proof. destruct r as [b|[]]; cbn; split; intros H; try discriminate; congruence. Qed.

(** ** Invariants *)
Definition safe {A} (Inv : directory -> Prop) (p : prog A) : Prop := forall d d', Inv d -> In d' (fst (p d)) -> Inv d'.
Lemma safe_now {A} Inv (p : prog A) d : safe Inv p -> Inv d -> Inv (now d (fst (p d))).
Proof. intros H Hd. destruct (seen_now p d) as [->|E]; [exact Hd|]. eapply H; eauto. Qed.
Lemma safe_and_then {A B} Inv (x : prog A) (f : A -> prog B) : safe Inv x -> (forall a, safe Inv (f a)) -> safe Inv (and_then x f).
Proof. intros H1 H2 d d' Hd H. apply and_then_trace in H as [H|(a & Ha & H)]; [eapply H1; eauto|]. eapply (H2 a); [|exact H]. apply safe_now; auto. Qed.
Lemma safe_quiet {A} Inv (p : prog A) : quiet p -> safe Inv p.
Proof. intros Q d d' _ H. rewrite (Q d) in H. destruct H. Qed.
Lemma ensure_cases n make d : quiet make ->
  (d n <> Absent /\ ensure n make d = ([], Done tt)) \/
  (d n = Absent /\ exists v, snd (make d) = Done v /\ ensure n make d = ([put n Torn d; put n (Stored v) d], Done tt)) \/
  (d n = Absent /\ (forall v, snd (make d) <> Done v) /\ fst (ensure n make d) = [] /\ forall u, snd (ensure n make d) <> Done u).
Proof.
  intros Q. unfold ensure. destruct (d n) as [| |v] eqn:E; [right|left; split; [discriminate|reflexivity]..].
  rewrite (quiet_then make (fun v => write n v) d Q). destruct (snd (make d)) as [v|e| |]; [left; split; [reflexivity|]; exists v; split; reflexivity|right..];
    (split; [reflexivity|]; split; [discriminate|]; split; [reflexivity|discriminate]).
Qed.
Lemma safe_ensure (Inv : directory -> Prop) n make : quiet make ->
  (forall d v, Inv d -> d n = Absent -> snd (make d) = Done v -> Inv (put n Torn d) /\ Inv (put n (Stored v) d)) -> safe Inv (ensure n make).
Proof.
  intros Q H d d' Hd Hin. destruct (ensure_cases n make d Q) as [[_ E]|[(Ha & v & Hv & E)|(_ & _ & E & _)]]; rewrite E in Hin; [destruct Hin| |destruct Hin].
  destruct (H d v Hd Ha Hv) as [H1 H2]. destruct Hin as [<-|[<-|[]]]; assumption.
Qed.
Lemma safe_for_all {A B} Inv (body : A -> prog B) l : (forall a, In a l -> safe Inv (body a)) -> safe Inv (for_all body l).
Proof. induction l as [|a l IH]; intros H; cbn [for_all]; [apply safe_quiet, quiet_give|]. apply safe_and_then; [apply H; left; reflexivity|]. intros b. apply safe_and_then; [apply IH; intros; apply H; right; auto|]. intros bs. apply safe_quiet, quiet_give. Qed.
Lemma quiet_for_all {A B} (body : A -> prog B) l : (forall a, quiet (body a)) -> quiet (for_all body l).
Proof. intros H. induction l as [|a l IH]; cbn [for_all]; [apply quiet_give|]. apply quiet_and_then; [apply H|]. intros b. apply quiet_and_then; [exact IH|]. intros bs. apply quiet_give. Qed.
Lemma safe_seen {A} Inv (p : prog A) d d' : safe Inv p -> Inv d -> seen p d d' -> Inv d'.
Proof. intros H Hd [->|E]; [exact Hd|eapply H; eauto]. Qed.

(** After [ensure] that ends normally the file is there. *)
Lemma ensure_done n make d u : quiet make -> snd (ensure n make d) = Done u -> now d (fst (ensure n make d)) n <> Absent /\
  (forall m, m <> n -> now d (fst (ensure n make d)) m = d m) /\ (d n <> Absent -> now d (fst (ensure n make d)) = d).
Proof.
  intros Q H. destruct (ensure_cases n make d Q) as [[Hn E]|[(Ha & v & Hv & E)|(_ & _ & _ & E)]]; [rewrite E; cbn; auto|rewrite E|destruct (E _ H)].
  change (now d (fst ([put n Torn d; put n (Stored v) d], Done tt))) with (put n (Stored v) d). rewrite put_same. split; [discriminate|]. split; [intros m Hm; apply put_other; exact Hm|congruence].
Qed.
(** A step whose input allows it ends normally. *)
Lemma ensure_runs n make d v : quiet make -> (d n = Absent -> snd (make d) = Done v) -> snd (ensure n make d) = Done tt /\
  forall w, now d (fst (ensure n make d)) n = Stored w <-> (d n = Stored w \/ (d n = Absent /\ w = v)).
Proof.
  intros Q H. destruct (ensure_cases n make d Q) as [[Hn E]|[(Ha & v' & Hv & E)|(Ha & N & _)]].
  - rewrite E. cbn. split; [reflexivity|]. intros w. split; [auto|]. intros [X|[X _]]; [exact X|contradiction].
  - rewrite E. split; [reflexivity|]. change (now d (fst ([put n Torn d; put n (Stored v') d], Done tt))) with (put n (Stored v') d). rewrite put_same.
    rewrite (H Ha) in Hv. injection Hv as <-. intros w. split; [intros X; right; split; [exact Ha|congruence]|]. intros [X|[_ ->]]; [congruence|reflexivity].
  - destruct (N v (H Ha)).
Qed.

(** ** The regime scripts *)
Lemma quiet_make_network env r : quiet (make_network env r). Proof. apply quiet_ends. Qed.
Lemma quiet_iteration env r : quiet (step v <- run_pamfil_iteration env r; give (Movements v)).
Proof. apply quiet_and_then; [|auto with quiet]. apply quiet_and_then; [auto with quiet|]. intros x. apply quiet_ends. Qed.
Lemma quiet_louvain env r : quiet (step p <- run_louvain_on_grid env r; give (Parts p)).
Proof. apply quiet_and_then; [|auto with quiet]. apply quiet_and_then; [auto with quiet|]. intros [[[g gi] lv] t]. apply quiet_ends. Qed.
Lemma quiet_generate env r n k : quiet (step l <- generate_domains_with_estimates env r n k; give (Estimates l)).
Proof. apply quiet_and_then; [|auto with quiet]. apply quiet_and_then; [auto with quiet|]. intros x. apply quiet_and_then; [auto with quiet|]. intros ps. apply quiet_ends. Qed.
Lemma quiet_plot_iteration env r : quiet (plot_pamfil_iteration env r).
Proof. apply quiet_and_then; [auto with quiet|]. intros [[[g gi] lv] t]. apply quiet_and_then; [auto with quiet|]. intros v. apply quiet_and_then; auto with quiet. Qed.
Lemma quiet_plot_domains env a b : quiet (plot_domains env a b). Proof. apply quiet_and_then; auto with quiet. Qed.
Lemma quiet_plot_amis env r : quiet (plot_domains_with_amis env r). Proof. apply quiet_and_then; [auto with quiet|]. intros x. apply quiet_and_then; auto with quiet. Qed.
Lemma quiet_plot_Ks env r : quiet (plot_domains_with_Ks env r). Proof. apply quiet_and_then; auto with quiet. Qed.
#[global] Hint Resolve quiet_make_network quiet_iteration quiet_louvain quiet_generate quiet_plot_iteration quiet_plot_domains quiet_plot_amis quiet_plot_Ks : quiet.

Lemma make_network_done env r d v : snd (make_network env r d) = Done v <->
  exists x, v = Network x /\ rg_generate r (sg_est env (rg_graph r)) (sg_draws env) (sg_attempts env) = Some (Ok x).
Proof.
  unfold make_network, ends. cbn [snd]. destruct (rg_generate _ _ _ _) as [[x|e]|]; split; try discriminate.
  - intros H. exists x. split; [congruence|reflexivity].
  - intros (y & -> & H). congruence.
  - intros (y & _ & H). discriminate.
  - intros (y & _ & H). discriminate.
Qed.
Lemma iteration_done env r d v : snd ((step v <- run_pamfil_iteration env r; give (Movements v)) d) = Done v <->
  exists x l, d (rg_graph r) = Stored (Network x) /\ v = Movements l /\ pamfil_movements env (sg_est env (rg_iteration r)) r x = Ok l.
Proof.
  split.
  - intros H. apply quiet_done in H as (l & Hl & H); [|apply quiet_and_then; auto with quiet]. cbn in H. injection H as <-.
    apply quiet_done in Hl as (x & Hx & Hl); [|auto with quiet]. apply read_network_done in Hx. apply of_res_done in Hl. eauto.
  - intros (x & l & Hx & -> & Hl). apply read_network_done in Hx. rewrite quiet_then by (apply quiet_and_then; auto with quiet). unfold run_pamfil_iteration. rewrite quiet_then by auto with quiet. rewrite Hx. cbn [ends snd]. rewrite (proj2 (of_res_done _ _) Hl). reflexivity.
Qed.
Lemma louvain_done env r d v : snd ((step p <- run_louvain_on_grid env r; give (Parts p)) d) = Done v <->
  exists x parts, d (rg_graph r) = Stored (Network x) /\ v = Parts parts /\
    leiden_on_grid env (fst (fst (fst x))) (snd (fst (fst x))) (snd (fst x)) (rg_gammas r) (rg_omegas r) = Ok parts.
Proof.
  assert (Q : quiet (run_louvain_on_grid env r)). { apply quiet_and_then; [auto with quiet|]. intros [[[g gi] lv] t]. apply quiet_ends. }
  split.
  - intros H. apply quiet_done in H as (l & Hl & H); [|exact Q]. cbn in H. injection H as <-.
    apply quiet_done in Hl as ([[[g gi] lv] t] & Hx & Hl); [|auto with quiet]. apply read_network_done in Hx. apply of_res_done in Hl. eauto.
  - intros ([[[g gi] lv] t] & l & Hx & -> & Hl). apply read_network_done in Hx. rewrite quiet_then by exact Q. unfold run_louvain_on_grid. rewrite quiet_then by auto with quiet. rewrite Hx. cbn [ends fst snd] in *. rewrite (proj2 (of_res_done _ _) Hl). reflexivity.
Qed.
Lemma generate_done env r n k d v : snd ((step l <- generate_domains_with_estimates env r n k; give (Estimates l)) d) = Done v <->
  exists x parts l, d (rg_graph r) = Stored (Network x) /\ d (rg_louvain r) = Stored (Parts parts) /\ v = Estimates l /\
    domains_with_estimates (sg_est env n) k x parts = Ok l.
Proof.
  assert (Q' : forall x, quiet (step all_parts <- read_parts (rg_louvain r); ends (of_res (domains_with_estimates (sg_est env n) k x all_parts)))) by (intros x; apply quiet_and_then; auto with quiet).
  assert (Q : quiet (generate_domains_with_estimates env r n k)) by (apply quiet_and_then; auto with quiet).
  split.
  - intros H. apply quiet_done in H as (l & Hl & H); [|exact Q]. cbn in H. injection H as <-.
    apply quiet_done in Hl as (x & Hx & Hl); [|auto with quiet]. apply quiet_done in Hl as (ps & Hp & Hl); [|auto with quiet].
    apply read_network_done in Hx. apply read_parts_done in Hp. apply of_res_done in Hl. exists x, ps, l. auto.
  - intros (x & ps & l & Hx & Hp & -> & Hl). apply read_network_done in Hx. apply read_parts_done in Hp. rewrite quiet_then by exact Q. unfold generate_domains_with_estimates. rewrite quiet_then by auto with quiet. rewrite Hx.
    rewrite quiet_then by auto with quiet. rewrite Hp. cbn [ends snd]. rewrite (proj2 (of_res_done _ _) Hl). reflexivity.
Qed.

Lemma safe_regime (Inv : directory -> Prop) env r :
  (forall d x, Inv d -> d (rg_graph r) = Absent -> rg_generate r (sg_est env (rg_graph r)) (sg_draws env) (sg_attempts env) = Some (Ok x) ->
     Inv (put (rg_graph r) Torn d) /\ Inv (put (rg_graph r) (Stored (Network x)) d)) ->
  (forall d x l, Inv d -> d (rg_iteration r) = Absent -> d (rg_graph r) = Stored (Network x) -> pamfil_movements env (sg_est env (rg_iteration r)) r x = Ok l ->
     Inv (put (rg_iteration r) Torn d) /\ Inv (put (rg_iteration r) (Stored (Movements l)) d)) ->
  (forall d x l, Inv d -> d (rg_louvain r) = Absent -> d (rg_graph r) = Stored (Network x) ->
     leiden_on_grid env (fst (fst (fst x))) (snd (fst (fst x))) (snd (fst x)) (rg_gammas r) (rg_omegas r) = Ok l ->
     Inv (put (rg_louvain r) Torn d) /\ Inv (put (rg_louvain r) (Stored (Parts l)) d)) ->
  (forall d x ps l, Inv d -> d (rg_domains r) = Absent -> d (rg_graph r) = Stored (Network x) -> d (rg_louvain r) = Stored (Parts ps) ->
     domains_with_estimates (sg_est env (rg_domains r)) None x ps = Ok l ->
     Inv (put (rg_domains r) Torn d) /\ Inv (put (rg_domains r) (Stored (Estimates l)) d)) ->
  (forall d x ps l, Inv d -> d (rg_restricted r) = Absent -> d (rg_graph r) = Stored (Network x) -> d (rg_louvain r) = Stored (Parts ps) ->
     domains_with_estimates (sg_est env (rg_restricted r)) (Some 2%nat) x ps = Ok l ->
     Inv (put (rg_restricted r) Torn d) /\ Inv (put (rg_restricted r) (Stored (Estimates l)) d)) ->
  safe Inv (regime_files env r) /\ safe Inv (regime_main env r).
Proof.
  intros H1 H2 H3 H4 H5. assert (S : safe Inv (regime_files env r)).
  { unfold regime_files. apply safe_and_then; [apply safe_ensure; [auto with quiet|]|intros _; apply safe_and_then; [apply safe_ensure; [auto with quiet|]|intros _; apply safe_and_then; [apply safe_ensure; [auto with quiet|]|intros _; apply safe_and_then; [apply safe_ensure; [auto with quiet|]|intros _; apply safe_ensure; [auto with quiet|]]]]].
    - intros d v Hd Ha Hv. apply make_network_done in Hv as (x & -> & Hx). auto.
    - intros d v Hd Ha Hv. apply iteration_done in Hv as (x & l & Hx & -> & Hl). eauto.
    - intros d v Hd Ha Hv. apply louvain_done in Hv as (x & l & Hx & -> & Hl). eauto.
    - intros d v Hd Ha Hv. apply generate_done in Hv as (x & ps & l & Hx & Hp & -> & Hl). eauto.
    - intros d v Hd Ha Hv. apply generate_done in Hv as (x & ps & l & Hx & Hp & -> & Hl). eauto. }
  split; [exact S|]. unfold regime_main. apply safe_and_then; [exact S|]. intros _. apply safe_quiet.
  apply quiet_and_then; [auto with quiet|]. intros [a t]. apply quiet_and_then; [auto with quiet|]. intros ds. apply quiet_and_then; [auto with quiet|]. intros am. apply quiet_and_then; [auto with quiet|]. intros Ks. apply quiet_and_then; auto with quiet.
Qed.

(** Drawing. *)
Definition draw (env : stage_env) (r : regime) : prog figures :=
  step (arrows, truth) <- plot_pamfil_iteration env r;
  step domains <- plot_domains env "domains" (rg_domains r);
  step amis <- plot_domains_with_amis env r;
  step Ks <- plot_domains_with_Ks env r;
  step restricted <- plot_domains env "restricted" (rg_restricted r);
  give (mkFigures arrows truth domains amis Ks restricted).
Lemma quiet_draw env r : quiet (draw env r).
Proof. apply quiet_and_then; [auto with quiet|]. intros [a t]. apply quiet_and_then; [auto with quiet|]. intros ds. apply quiet_and_then; [auto with quiet|]. intros am. apply quiet_and_then; [auto with quiet|]. intros Ks. apply quiet_and_then; auto with quiet. Qed.
Lemma main_draw env r d : regime_main env r d = and_then (regime_files env r) (fun _ => draw env r) d. Proof. reflexivity. Qed.
Lemma draw_done env r d f : snd (draw env r d) = Done f <->
  exists x l ds rs, d (rg_graph r) = Stored (Network x) /\ d (rg_iteration r) = Stored (Movements l) /\ d (rg_domains r) = Stored (Estimates ds) /\
    d (rg_restricted r) = Stored (Estimates rs) /\ shows env x l ds rs f.
Proof.
  split.
  - intros H. unfold draw in H. apply quiet_done in H as ([a t] & Hat & H); [|auto with quiet]. apply quiet_done in H as (fd & Hfd & H); [|auto with quiet]. apply quiet_done in H as (fa & Hfa & H); [|auto with quiet].
    apply quiet_done in H as (fk & Hfk & H); [|auto with quiet]. apply quiet_done in H as (fr & Hfr & H); [|auto with quiet]. cbn in H. injection H as <-.
    unfold plot_pamfil_iteration in Hat. apply quiet_done in Hat as ([[[g gi] lv] tr] & Hx & Hat); [|auto with quiet]. apply quiet_done in Hat as (l & Hl & Hat); [|auto with quiet]. apply quiet_done in Hat as (e & He & Hat); [|auto with quiet].
    cbn in Hat. injection Hat as <- <-. apply of_res_done in He. apply read_network_done in Hx. apply read_movements_done in Hl.
    apply quiet_done in Hfd as (ds & Hds & Hfd); [|auto with quiet]. apply read_estimates_done in Hds. apply of_res_done in Hfd.
    unfold plot_domains_with_amis in Hfa. apply quiet_done in Hfa as (x' & Hx' & Hfa); [|auto with quiet]. apply read_network_done in Hx'. rewrite Hx in Hx'. injection Hx' as <-. apply quiet_done in Hfa as (ds' & Hds' & Hfa); [|auto with quiet]. apply read_estimates_done in Hds'. rewrite Hds in Hds'. injection Hds' as <-. apply of_res_done in Hfa.
    unfold plot_domains_with_Ks in Hfk. apply quiet_done in Hfk as (ds' & Hds' & Hfk); [|auto with quiet]. apply read_estimates_done in Hds'. rewrite Hds in Hds'. injection Hds' as <-. apply of_res_done in Hfk.
    apply quiet_done in Hfr as (rs & Hrs & Hfr); [|auto with quiet]. apply read_estimates_done in Hrs. apply of_res_done in Hfr.
    exists (g, gi, lv, tr), l, ds, rs. repeat split; auto. cbn [fst snd fg_truth]. rewrite He. destruct e; reflexivity.
  - intros ([[[g gi] lv] tr] & l & ds & rs & Hx & Hl & Hds & Hrs & [S1 S2 S3 S4 S5 S6]). apply read_network_done in Hx. apply read_movements_done in Hl. apply read_estimates_done in Hds, Hrs.
    assert (E : snd (plot_pamfil_iteration env r d) = Done (fg_arrows f, fg_truth f)).
    { unfold plot_pamfil_iteration. rewrite quiet_then by auto with quiet. rewrite Hx. rewrite quiet_then by auto with quiet. rewrite Hl. cbn [fst snd] in S2. rewrite quiet_then by auto with quiet. cbn [ends snd]. rewrite S2. cbn. rewrite S1. destruct (fg_truth f); reflexivity. }
    unfold draw. rewrite quiet_then by auto with quiet. rewrite E. rewrite quiet_then by auto with quiet. unfold plot_domains at 1. rewrite quiet_then by auto with quiet. rewrite Hds. cbn [ends snd]. change omega_window with (4 / 10, 16 / 10). change gamma_window with (6 / 10, 145 / 100). rewrite S3. cbn [of_res].
    rewrite quiet_then by auto with quiet. unfold plot_domains_with_amis. rewrite quiet_then by auto with quiet. rewrite Hx. rewrite quiet_then by auto with quiet. rewrite Hds. cbn [ends snd] in *. change omega_window with (4 / 10, 16 / 10). change gamma_window with (6 / 10, 145 / 100). rewrite S4. cbn [of_res].
    rewrite quiet_then by auto with quiet. unfold plot_domains_with_Ks. rewrite quiet_then by auto with quiet. rewrite Hds. cbn [ends snd]. change omega_window with (4 / 10, 16 / 10). change gamma_window with (6 / 10, 145 / 100). rewrite S5. cbn [of_res].
    rewrite quiet_then by auto with quiet. unfold plot_domains. rewrite quiet_then by auto with quiet. rewrite Hrs. cbn [ends snd]. change omega_window with (4 / 10, 16 / 10). change gamma_window with (6 / 10, 145 / 100). rewrite S6. cbn [of_res give snd]. destruct f; reflexivity.
Qed.
