(** Lemmas for the law-firm experiment. *)
From Coq Require Import String Permutation.
From Verif Require Import PyBase PyGraph M_partition M_champ M_leiden M_estimation_utils M_estimation M_checks M_generators M_plotting M_lfr M_staged Spec Spec_graph Spec_leiden Spec_champ Spec_staged Spec_lawfirm L_base L_staged.
Open Scope list_scope.
Open Scope R_scope.

(** ** Loops *)
Lemma for_all_done {A B} (body : A -> prog B) l d bs : (forall a, quiet (body a)) -> (snd (for_all body l d) = Done bs <-> Forall2 (fun a b => snd (body a d) = Done b) l bs).
Proof.
  intros Q. revert bs. induction l as [|a l IH]; intros bs; cbn [for_all].
  - cbn. split; [intros H; injection H as <-; constructor|intros H; inversion H; reflexivity].
  - rewrite quiet_then by apply Q. split.
    + intros H. destruct (snd (body a d)) as [b|e| |] eqn:E; try discriminate. apply quiet_done in H as (bs' & H1 & H2); [|apply quiet_for_all; exact Q]. cbn in H2. injection H2 as <-. constructor; [exact E|apply IH; exact H1].
    + intros H. inversion H as [|? b ? bs' H1 H2]; subst. rewrite H1. rewrite quiet_then by (apply quiet_for_all; exact Q). rewrite (proj2 (IH bs') H2). reflexivity.
Qed.
Lemma for_all_map {A B C} (g : C -> A) (body : A -> prog B) l : forall d, for_all (fun c => body (g c)) l d = for_all body (map g l) d.
Proof.
  induction l as [|c l IH]; intros d; [reflexivity|]. cbn [for_all map]. unfold and_then. destruct (body (g c) d) as [t [b|e| |]]; try reflexivity. rewrite IH. reflexivity.
Qed.
Lemma mapM_forall2 {A B} (f : A -> res B) l ys : mapM f l = Ok ys <-> Forall2 (fun a b => f a = Ok b) l ys.
Proof.
  revert ys. induction l as [|a l IH]; intros ys; cbn [mapM].
  - split; [intros H; injection H as <-; constructor|intros H; inversion H; reflexivity].
  - split.
    + intros H. apply bind_ok in H as (b & Hb & H). apply bind_ok in H as (bs & Hbs & H). injection H as <-. constructor; [exact Hb|apply IH; exact Hbs].
    + intros H. inversion H as [|? b ? bs H1 H2]; subst. rewrite H1. cbn [bind]. rewrite (proj2 (IH bs) H2). reflexivity.
Qed.
Lemma forall2_imp {A B} (P Q : A -> B -> Prop) l l' : (forall a b, P a b -> Q a b) -> Forall2 P l l' -> Forall2 Q l l'.
Proof. intros H F. induction F; constructor; auto. Qed.

(** ** Steps *)
Lemma quiet_run_champ env f n k : quiet (run_champ env f n k).
Proof. apply quiet_and_then; [auto with quiet|]. intros x. apply quiet_and_then; [auto with quiet|]. intros ps. apply quiet_and_then; auto with quiet. Qed.
Lemma quiet_run_partitions env f : quiet (step p <- ends (of_res (firm_partitions env f)); give (Parts p)).
Proof. apply quiet_and_then; auto with quiet. Qed.
Lemma quiet_read_cut env f a m n : quiet (read_cut env f a m n). Proof. apply quiet_and_then; auto with quiet. Qed.
#[global] Hint Resolve quiet_run_champ quiet_run_partitions quiet_read_cut : quiet.
Lemma run_partitions_done env f d v : snd ((step p <- ends (of_res (firm_partitions env f)); give (Parts p)) d) = Done v <-> exists parts, v = Parts parts /\ firm_partitions env f = Ok parts.
Proof.
  rewrite quiet_then by auto with quiet. cbn [ends snd]. split.
  - destruct (of_res (firm_partitions env f)) as [p|e| |] eqn:E; try discriminate. apply of_res_done in E. cbn. intros H. injection H as <-. eauto.
  - intros (p & -> & H). rewrite H. reflexivity.
Qed.
Lemma firm_domains_network est f k ps l : firm_domains est f k ps = Ok l -> exists x, firm_network f = Ok x.
Proof. unfold firm_domains. intros H. apply bind_ok in H as (x & Hx & _). eauto. Qed.
Lemma run_champ_done env f n k d v : snd (run_champ env f n k d) = Done v <->
  exists parts l, d "lazega_1M_louvain.p"%string = Stored (Parts parts) /\ v = Domains l /\ firm_domains (sg_est env n) f k parts = Ok l.
Proof.
  change "lazega_1M_louvain.p"%string with firm_louvain. unfold run_champ. split.
  - intros H. apply quiet_done in H as (x & _ & H); [|auto with quiet]. apply quiet_done in H as (ps & Hp & H); [|auto with quiet]. apply quiet_done in H as (l & Hl & H); [|auto with quiet].
    cbn in H. injection H as <-. apply read_parts_done in Hp. apply of_res_done in Hl. eauto.
  - intros (ps & l & Hp & -> & Hl). destruct (firm_domains_network _ _ _ _ _ Hl) as (x & Hx). apply read_parts_done in Hp.
    rewrite quiet_then by auto with quiet. rewrite Hx. cbn [ends of_res snd]. rewrite quiet_then by auto with quiet. rewrite Hp. rewrite quiet_then by auto with quiet. rewrite Hl. reflexivity.
Qed.
Lemma read_cut_done env f a m n d l : snd (read_cut env f a m n d) = Done l <-> exists ds, d n = Stored (Domains ds) /\ firm_estimates (sg_est env a) f m ds = Ok l.
Proof.
  unfold read_cut. split.
  - intros H. apply quiet_done in H as (ds & Hd & H); [|auto with quiet]. apply read_domains_done in Hd. apply of_res_done in H. eauto.
  - intros (ds & Hd & H). apply read_domains_done in Hd. rewrite quiet_then by auto with quiet. rewrite Hd. cbn. rewrite H. reflexivity.
Qed.

Definition firm_stage (env : stage_env) (f : law_firm) (s : string * option nat) : prog unit := ensure (fst s) (run_champ env f (fst s) (snd s)).
Lemma and_then_ext {A B} (x : prog A) (f g : A -> prog B) d : (forall a d, f a d = g a d) -> and_then x f d = and_then x g d.
Proof. intros H. unfold and_then. destruct (x d) as [l [a|e| |]]; try reflexivity. rewrite H. reflexivity. Qed.
Lemma firm_files_steps env f d : firm_files env f d =
  (step _ <- ensure firm_louvain (step p <- ends (of_res (firm_partitions env f)); give (Parts p)); step _ <- for_all (firm_stage env f) firm_steps; give tt) d.
Proof.
  unfold firm_files. change firm_steps with ((firm_champ, None) :: map (fun k => (firm_champ_K k, Some k)) [2; 3; 4; 5; 6; 7]%nat). generalize [2; 3; 4; 5; 6; 7]%nat. intros ks.
  apply and_then_ext. intros _ d1. cbn [for_all]. unfold and_then. change (firm_stage env f (firm_champ, None) d1) with (ensure firm_champ (run_champ env f firm_champ None) d1).
  destruct (ensure firm_champ (run_champ env f firm_champ None) d1) as [t2 [u2|e| |]]; try reflexivity. set (d2 := now d1 t2). clearbody d2.
  assert (M : for_all (fun k => ensure (firm_champ_K k) (run_champ env f (firm_champ_K k) (Some k))) ks d2 = for_all (firm_stage env f) (map (fun k => (firm_champ_K k, Some k)) ks) d2)
    by exact (for_all_map (fun k => (firm_champ_K k, Some k)) (firm_stage env f) ks d2).
  rewrite M. clear M.
  destruct (for_all (firm_stage env f) (map (fun k => (firm_champ_K k, Some k)) ks) d2) as [t3 [u3|e| |]]; cbn [give]; rewrite ?app_nil_r; reflexivity.
Qed.

(** ** Figures *)
Definition firm_draw (env : stage_env) (f : law_firm) : prog firm_figures :=
  step (a, b, points) <- firm_figure1 env f;
  step restricted <- firm_figure1_restricted env f;
  step Ks <- firm_figure2 env f;
  step matrices <- firm_figure3 env f;
  give (mkFirmFigures a b points restricted Ks matrices).
Lemma quiet_figure1 env f : quiet (firm_figure1 env f).
Proof.
  apply quiet_and_then; [auto with quiet|]. intros x. apply quiet_and_then; [auto with quiet|]. intros l. apply quiet_and_then; [auto with quiet|]. intros a. apply quiet_and_then; [auto with quiet|]. intros b.
  apply quiet_and_then; [|auto with quiet]. apply quiet_for_all. intros K. apply quiet_and_then; auto with quiet.
Qed.
Lemma quiet_figure1r env f : quiet (firm_figure1_restricted env f).
Proof. apply quiet_and_then; [auto with quiet|]. intros x. apply quiet_for_all. intros K. apply quiet_and_then; auto with quiet. Qed.
Lemma quiet_figure2 env f : quiet (firm_figure2 env f).
Proof. apply quiet_and_then; [auto with quiet|]. intros x. apply quiet_and_then; auto with quiet. Qed.
Lemma quiet_figure3 env f : quiet (firm_figure3 env f).
Proof. apply quiet_and_then; [auto with quiet|]. intros [[g gi] lv]. apply quiet_and_then; [|auto with quiet]. apply quiet_for_all. intros K. apply quiet_and_then; auto with quiet. Qed.
#[global] Hint Resolve quiet_figure1 quiet_figure1r quiet_figure2 quiet_figure3 : quiet.
Lemma quiet_firm_draw env f : quiet (firm_draw env f).
Proof. apply quiet_and_then; [auto with quiet|]. intros [[a b] p]. apply quiet_and_then; [auto with quiet|]. intros r. apply quiet_and_then; [auto with quiet|]. intros k. apply quiet_and_then; auto with quiet. Qed.
Lemma firm_main_draw env f d : firm_main env f d = and_then (firm_files env f) (fun _ => firm_draw env f) d. Proof. reflexivity. Qed.

(** A sequence of three files. *)
Lemma three_files {B} env f a m (post : list domain_estimate -> ending B) K1 K2 K3 d bs :
  Forall2 (fun K b => snd ((step lK <- read_cut env f a m (firm_champ_K K); ends (post lK)) d) = Done b) [K1; K2; K3] bs <->
  exists x1 x2 x3 l1 l2 l3, d (firm_champ_K K1) = Stored (Domains x1) /\ d (firm_champ_K K2) = Stored (Domains x2) /\ d (firm_champ_K K3) = Stored (Domains x3) /\
    Forall2 (fun k l => firm_estimates (sg_est env a) f m k = Ok l) [x1; x2; x3] [l1; l2; l3] /\ Forall2 (fun l b => post l = Done b) [l1; l2; l3] bs.
Proof.
  assert (X : forall K b, snd ((step lK <- read_cut env f a m (firm_champ_K K); ends (post lK)) d) = Done b <-> exists x l, d (firm_champ_K K) = Stored (Domains x) /\ firm_estimates (sg_est env a) f m x = Ok l /\ post l = Done b).
  { intros K b. split.
    - intros H. apply quiet_done in H as (l & Hl & H); [|auto with quiet]. apply read_cut_done in Hl as (x & Hx & Hl). cbn in H. eauto.
    - intros (x & l & Hx & Hl & H). rewrite quiet_then by auto with quiet. rewrite (proj2 (read_cut_done env f a m (firm_champ_K K) d l)) by eauto. cbn. exact H. }
  split.
  - intros H. inversion H as [|? b1 ? bs1 H1 F1]; subst. inversion F1 as [|? b2 ? bs2 H2 F2]; subst. inversion F2 as [|? b3 ? bs3 H3 F3]; subst. inversion F3; subst.
    apply X in H1 as (x1 & l1 & A1 & B1 & C1). apply X in H2 as (x2 & l2 & A2 & B2 & C2). apply X in H3 as (x3 & l3 & A3 & B3 & C3).
    exists x1, x2, x3, l1, l2, l3. split; [exact A1|]. split; [exact A2|]. split; [exact A3|]. split; repeat (constructor; [assumption|]); constructor.
  - intros (x1 & x2 & x3 & l1 & l2 & l3 & A1 & A2 & A3 & FB & C). inversion FB as [|? ? ? ? B1 B']; subst. inversion B' as [|? ? ? ? B2 B'']; subst. inversion B'' as [|? ? ? ? B3 _]; subst.
    inversion C as [|? ? ? ? C1 C']; subst. inversion C' as [|? ? ? ? C2 C'']; subst. inversion C'' as [|? ? ? ? C3 C''']; subst. inversion C'''; subst.
    repeat (constructor; [apply X; eauto|]); constructor.
Qed.

Lemma figure1_done env f d r : snd (firm_figure1 env f d) = Done r <-> (exists x, firm_network f = Ok x) /\
  exists all k2 k3 k4 l l2 l3 l4, d firm_champ = Stored (Domains all) /\ d (firm_champ_K 2) = Stored (Domains k2) /\ d (firm_champ_K 3) = Stored (Domains k3) /\ d (firm_champ_K 4) = Stored (Domains k4) /\
    firm_estimates (sg_est env "5.8") f (1 / 1000) all = Ok l /\
    plot_2d_domains_with_estimates (sg_plot env "5.8") l firm_x firm_y true true = Ok (fst (fst r)) /\
    plot_2d_domains_with_estimates (sg_plot env "5.8 stable") (stable_domains l) firm_x firm_y false true = Ok (snd (fst r)) /\
    Forall2 (fun k l => firm_estimates (sg_est env "5.8 K") f (1 / 100) k = Ok l) [k4; k3; k2] [l4; l3; l2] /\
    snd r = map (fun l => map (fun d : domain_estimate => (snd d, snd (fst d))) (stable_domains l)) [l4; l3; l2].
Proof.
  assert (Q : forall K, quiet (step lK <- read_cut env f "5.8 K" (1 / 100) (firm_champ_K K); give (map (fun d : domain_estimate => (snd d, snd (fst d))) (stable_domains lK)))) by (intros K; apply quiet_and_then; auto with quiet).
  assert (T := three_files env f "5.8 K" (1 / 100) (fun lK => Done (map (fun d : domain_estimate => (snd d, snd (fst d))) (stable_domains lK))) 4 3 2 d).
  unfold firm_figure1. split.
  - intros H. apply quiet_done in H as (x & Hx & H); [|auto with quiet]. apply of_res_done in Hx. split; [eauto|]. apply quiet_done in H as (l & Hl & H); [|auto with quiet]. apply read_cut_done in Hl as (all & Hall & Hl).
    apply quiet_done in H as (a & Ha & H); [|auto with quiet]. apply of_res_done in Ha. apply quiet_done in H as (b & Hb & H); [|auto with quiet]. apply of_res_done in Hb.
    apply quiet_done in H as (ps & Hp & H); [|apply quiet_for_all; exact Q]. cbn in H. injection H as <-. apply for_all_done in Hp; [|exact Q].
    destruct (proj1 (T ps) Hp) as (k4 & k3 & k2 & l4 & l3 & l2 & A4 & A3 & A2 & F & E). exists all, k2, k3, k4, l, l2, l3, l4. cbn [fst snd].
    repeat (split; [assumption|]). inversion E as [|? ? ? ? E1 E']; subst. inversion E' as [|? ? ? ? E2 E'']; subst. inversion E'' as [|? ? ? ? E3 E''']; subst. inversion E'''; subst. cbn [map]. congruence.
  - intros ((x & Hx) & all & k2 & k3 & k4 & l & l2 & l3 & l4 & A & A2 & A3 & A4 & Hl & Ha & Hb & F & E). destruct r as [[a b] ps]. cbn [fst snd] in *.
    rewrite quiet_then by auto with quiet. rewrite Hx. cbn [ends of_res snd]. rewrite quiet_then by auto with quiet. rewrite (proj2 (read_cut_done env f "5.8" (1 / 1000) firm_champ d l)) by eauto.
    rewrite quiet_then by auto with quiet. cbn [ends snd]. rewrite Ha. cbn [of_res]. rewrite quiet_then by auto with quiet. cbn [ends snd]. rewrite Hb. cbn [of_res].
    rewrite quiet_then by (apply quiet_for_all; exact Q).
    assert (P : snd (for_all (fun K => step lK <- read_cut env f "5.8 K" (1 / 100) (firm_champ_K K); give (map (fun d : domain_estimate => (snd d, snd (fst d))) (stable_domains lK))) [4; 3; 2]%nat d) = Done ps).
    { apply for_all_done; [exact Q|]. apply (proj2 (T ps)). exists k4, k3, k2, l4, l3, l2. split; [exact A4|]. split; [exact A3|]. split; [exact A2|]. split; [exact F|]. rewrite E. cbn [map]. repeat (constructor; [reflexivity|]). constructor. }
    rewrite P. reflexivity.
Qed.
Lemma figure1r_done env f d r : snd (firm_figure1_restricted env f d) = Done r <-> (exists x, firm_network f = Ok x) /\
  exists k2 k3 k4 l2 l3 l4, d (firm_champ_K 2) = Stored (Domains k2) /\ d (firm_champ_K 3) = Stored (Domains k3) /\ d (firm_champ_K 4) = Stored (Domains k4) /\
    Forall2 (fun k l => firm_estimates (sg_est env "5.9") f (1 / 1000) k = Ok l) [k2; k3; k4] [l2; l3; l4] /\
    Forall2 (fun l p => plot_2d_domains_with_estimates (sg_plot env "5.9") (stable_domains l) firm_x (4 / 10, 14 / 10) true true = Ok p) [l2; l3; l4] r.
Proof.
  set (post := fun lK => of_res (plot_2d_domains_with_estimates (sg_plot env "5.9") (stable_domains lK) firm_x (4 / 10, 14 / 10) true true)).
  assert (Q : forall K, quiet (step lK <- read_cut env f "5.9" (1 / 1000) (firm_champ_K K); ends (post lK))) by (intros K; apply quiet_and_then; auto with quiet).
  assert (T := three_files env f "5.9" (1 / 1000) post 2 3 4 d r).
  unfold firm_figure1_restricted. split.
  - intros H. apply quiet_done in H as (x & Hx & H); [|auto with quiet]. apply of_res_done in Hx. split; [eauto|]. apply for_all_done in H; [|exact Q]. destruct (proj1 T H) as (k2 & k3 & k4 & l2 & l3 & l4 & A2 & A3 & A4 & F & E).
    exists k2, k3, k4, l2, l3, l4. repeat (split; [assumption|]). eapply forall2_imp; [|exact E]. intros l p Hp. apply of_res_done in Hp. exact Hp.
  - intros ((x & Hx) & k2 & k3 & k4 & l2 & l3 & l4 & A2 & A3 & A4 & F & E). rewrite quiet_then by auto with quiet. rewrite Hx. cbn [ends of_res snd]. apply for_all_done; [exact Q|]. apply (proj2 T). exists k2, k3, k4, l2, l3, l4.
    repeat (split; [assumption|]). eapply forall2_imp; [|exact E]. intros l p Hp. apply of_res_done. exact Hp.
Qed.
Lemma figure2_done env f d r : snd (firm_figure2 env f d) = Done r <-> (exists x, firm_network f = Ok x) /\
  exists all l, d firm_champ = Stored (Domains all) /\ firm_estimates (sg_est env "5.7") f (1 / 1000) all = Ok l /\ plot_2d_domains_with_num_communities l firm_x firm_y true (Some 5%nat) 1 = Ok r.
Proof.
  unfold firm_figure2. split.
  - intros H. apply quiet_done in H as (x & Hx & H); [|auto with quiet]. apply of_res_done in Hx. split; [eauto|]. apply quiet_done in H as (l & Hl & H); [|auto with quiet]. apply read_cut_done in Hl as (all & Hall & Hl). apply of_res_done in H. exists all, l. auto.
  - intros ((x & Hx) & all & l & A & Hl & H). rewrite quiet_then by auto with quiet. rewrite Hx. cbn [ends of_res snd]. rewrite quiet_then by auto with quiet. rewrite (proj2 (read_cut_done env f "5.7" (1 / 1000) firm_champ d l)) by eauto. cbn [ends snd]. rewrite H. reflexivity.
Qed.
Lemma figure3_done env f d r : snd (firm_figure3 env f d) = Done r <->
  exists g gi lv k2 k3 k4 l2 l3 l4, firm_network f = Ok (g, gi, lv) /\ d (firm_champ_K 2) = Stored (Domains k2) /\ d (firm_champ_K 3) = Stored (Domains k3) /\ d (firm_champ_K 4) = Stored (Domains k4) /\
    Forall2 (fun k l => firm_estimates (sg_est env "5.10") f (1 / 1000) k = Ok l) [k2; k3; k4] [l2; l3; l4] /\
    Forall2 (fun c m => firm_matrix f lv c = Ok m) (flat_map gamma_omega_estimates_to_stable_partitions [l2; l3; l4]) r.
Proof.
  set (post := fun lK : list domain_estimate => Done (gamma_omega_estimates_to_stable_partitions lK)).
  assert (Q : forall K, quiet (step lK <- read_cut env f "5.10" (1 / 1000) (firm_champ_K K); ends (post lK))) by (intros K; apply quiet_and_then; auto with quiet).
  assert (T := fun bs => three_files env f "5.10" (1 / 1000) post 2 3 4 d bs).
  unfold firm_figure3. split.
  - intros H. apply quiet_done in H as ([[g gi] lv] & Hx & H); [|auto with quiet]. apply of_res_done in Hx. apply quiet_done in H as (st & Hs & H); [|apply quiet_for_all; exact Q]. apply of_res_done in H.
    apply for_all_done in Hs; [|exact Q]. destruct (proj1 (T st) Hs) as (k2 & k3 & k4 & l2 & l3 & l4 & A2 & A3 & A4 & F & E). exists g, gi, lv, k2, k3, k4, l2, l3, l4. repeat (split; [assumption|]).
    inversion E as [|? ? ? ? E1 E']; subst. inversion E' as [|? ? ? ? E2 E'']; subst. inversion E'' as [|? ? ? ? E3 E''']; subst. inversion E'''; subst. injection E1 as <-. injection E2 as <-. injection E3 as <-. apply mapM_forall2 in H. exact H.
  - intros (g & gi & lv & k2 & k3 & k4 & l2 & l3 & l4 & Hx & A2 & A3 & A4 & F & E). rewrite quiet_then by auto with quiet. rewrite Hx. cbn [ends of_res snd]. rewrite quiet_then by (apply quiet_for_all; exact Q).
    assert (P : snd (for_all (fun K => step lK <- read_cut env f "5.10" (1 / 1000) (firm_champ_K K); give (gamma_omega_estimates_to_stable_partitions lK)) [2; 3; 4]%nat d) = Done (map gamma_omega_estimates_to_stable_partitions [l2; l3; l4])).
    { apply for_all_done; [exact Q|]. apply (proj2 (T _)). exists k2, k3, k4, l2, l3, l4. repeat (split; [assumption|]). cbn [map]. repeat (constructor; [reflexivity|]). constructor. }
    rewrite P. cbn [ends snd]. apply of_res_done. apply mapM_forall2. exact E.
Qed.

Lemma firm_draw_done env f d ff : snd (firm_draw env f d) = Done ff <->
  exists all k2 k3 k4, d "lazega_CHAMP.p"%string = Stored (Domains all) /\ d "lazega_CHAMP2.p"%string = Stored (Domains k2) /\ d "lazega_CHAMP3.p"%string = Stored (Domains k3) /\
    d "lazega_CHAMP4.p"%string = Stored (Domains k4) /\ firm_shows env f all k2 k3 k4 ff.
Proof.
  change "lazega_CHAMP.p"%string with firm_champ. change "lazega_CHAMP2.p"%string with (firm_champ_K 2). change "lazega_CHAMP3.p"%string with (firm_champ_K 3). change "lazega_CHAMP4.p"%string with (firm_champ_K 4).
  unfold firm_draw. split.
  - intros H. apply quiet_done in H as ([[a b] ps] & H1 & H); [|auto with quiet]. apply quiet_done in H as (r & H2 & H); [|auto with quiet]. apply quiet_done in H as (Ks & H3 & H); [|auto with quiet]. apply quiet_done in H as (ms & H4 & H); [|auto with quiet].
    cbn in H. injection H as <-. apply figure1_done in H1 as (_ & all & k2 & k3 & k4 & l & l2 & l3 & l4 & A & A2 & A3 & A4 & B1 & B2 & B3 & B4 & B5).
    apply figure1r_done in H2 as (_ & j2 & j3 & j4 & m2 & m3 & m4 & C2 & C3 & C4 & C5 & C6). apply figure2_done in H3 as (_ & all' & l' & D1 & D2 & D3).
    apply figure3_done in H4 as (g & gi & lv & i2 & i3 & i4 & n2 & n3 & n4 & E1 & E2 & E3 & E4 & E5 & E6).
    rewrite A in D1. injection D1 as <-. rewrite A2 in C2, E2. injection C2 as <-. injection E2 as <-. rewrite A3 in C3, E3. injection C3 as <-. injection E3 as <-. rewrite A4 in C4, E4. injection C4 as <-. injection E4 as <-.
    exists all, k2, k3, k4. repeat (split; [assumption|]). constructor; cbn [ff_domains ff_stable ff_points ff_restricted ff_communities ff_matrices].
    + exists l. auto.
    + exists l2, l3, l4. auto.
    + exists m2, m3, m4. auto.
    + exists l'. auto.
    + exists g, gi, lv, n2, n3, n4. auto.
  - intros (all & k2 & k3 & k4 & A & A2 & A3 & A4 & [(l & B1 & B2 & B3) (l2 & l3 & l4 & B4 & B5) (m2 & m3 & m4 & C1 & C2) (l' & D1 & D2) (g & gi & lv & n2 & n3 & n4 & E1 & E2 & E3)]).
    rewrite quiet_then by auto with quiet. rewrite (proj2 (figure1_done env f d (ff_domains ff, ff_stable ff, ff_points ff))).
    2:{ split; [eauto|]. exists all, k2, k3, k4, l, l2, l3, l4. repeat (split; [assumption|]). exact B5. }
    rewrite quiet_then by auto with quiet. rewrite (proj2 (figure1r_done env f d (ff_restricted ff))).
    2:{ split; [eauto|]. exists k2, k3, k4, m2, m3, m4. repeat (split; [assumption|]). exact C2. }
    rewrite quiet_then by auto with quiet. rewrite (proj2 (figure2_done env f d (ff_communities ff))).
    2:{ split; [eauto|]. exists all, l'. auto. }
    rewrite quiet_then by auto with quiet. rewrite (proj2 (figure3_done env f d (ff_matrices ff))).
    2:{ exists g, gi, lv, k2, k3, k4, n2, n3, n4. repeat (split; [assumption|]). exact E3. }
    cbn. destruct ff; reflexivity.
Qed.
