(** C100, C101: the bistable and hierarchical block model experiments and the karate club experiment. *)
From Coq Require Import String Classical.
From Verif Require Import PyBase PyGraph M_partition M_champ M_leiden M_estimation_utils M_checks M_generators M_sbmtests
  Spec Spec_graph Spec_leiden Spec_champ Spec_prune Spec_plotting Spec_stability Spec_lfr Spec_sbmtests
  L_base L_canon L_leiden L_multileiden L_sbm2 L_plotting L_prune L_sbmtests L_champ_total Properties_sbm Properties_champ Properties_leiden Properties_prune Properties_lfr.
Open Scope list_scope.
Open Scope R_scope.

Lemma run_ready_weighted env G n : run_ready env G n -> run_ready env (weighted_e (ru_est env) G) n.
Proof.
  intros [R1 R2 R3 R4 R5 R6 R7 R8 R9]. constructor; auto; [apply weighted_e_wf; exact R1|rewrite weighted_e_edges; exact R2|]. rewrite weighted_e_vcount. exact R3.
Qed.
Lemma found_shape env G n gammas parts : run_ready env G n -> vcount (weighted (ru_leiden env) G) = vcount G -> all_found (ru_leiden env) (weighted (ru_leiden env) G) gammas parts ->
  forall c, In c parts -> length c = vcount G /\ canonical c /\ c <> [].
Proof.
  intros HR HV [_ F] c Hc. apply F in Hc as (i & x & m & _ & Hm & Hs & Hcan).
  assert (L : length c = vcount G). { rewrite <- (rr_leiden _ _ _ HR i (mkVP RBConfiguration (weighted (ru_leiden env) G) x) m HV Hm). symmetry. apply Hs. }
  split; [exact L|]. split; [exact Hcan|]. intros ->. cbn [length] in L. destruct (rr_graph _ _ _ HR) as [W _]. pose proof (rr_edges _ _ _ HR) as NE. destruct (edges G) as [|[u v] es] eqn:E; [contradiction|].
  destruct (W u v) as [W1 _]; [rewrite ?E; left; reflexivity|]. lia.
Qed.
Lemma weighted_vcount env g : vcount (weighted env g) = vcount g.
Proof. unfold weighted. destruct (le_contains env g); reflexivity. Qed.

(** Whatever the routines that meet their contracts answer, the flags of a counted trial say whether some stable partition of the
    sweep has two and three communities: the partitions are the canonical forms of the answers of Leiden on the drawn network (with
    weights 1), stable ones are optimal at their own estimate among all of them, and no strictly optimal one is missed. *)
Theorem C100_trial : forall N iterations d s2 s3, run_ready (dr_env d) (dr_graph d) iterations ->
  bistable_trial N iterations d = Ok (Some (s2, s3)) ->
  dr_connected d = true /\
  exists H H' parts stable,
    weights_defaulted (ee_contains (ru_est (dr_env d)) (dr_graph d)) (dr_graph d) H /\ weights_defaulted (le_contains (ru_leiden (dr_env d)) H) H H' /\
    all_found (ru_leiden (dr_env d)) H' (linspace 0 2 iterations) parts /\ stable_among (ru_est (dr_env d)) H 0 2 (fun c => In c parts) stable /\
    (s2 = true <-> exists c, In c stable /\ has_communities c 2) /\ (s3 = true <-> exists c, In c stable /\ has_communities c 3).
Proof.
  intros N iterations d s2 s3 HR HT. unfold bistable_trial in HT. destruct (dr_connected d); [|discriminate]. split; [reflexivity|]. cbn [negb] in HT.
  apply bind_ok in HT as (t & Ht & HT). apply bind_ok in HT as (t2 & Ht2 & HT). set (env := dr_env d) in *. set (G := dr_graph d) in *.
  pose proof (rr_graph _ _ _ HR) as W. rewrite gamma_estimate_graph in HT by exact W. apply bind_ok in HT as (g1 & _ & HT).
  rewrite gamma_estimate_graph in HT by (apply weighted_e_wf; exact W). rewrite weighted_e_idem in HT. apply bind_ok in HT as (g2 & _ & HT).
  destruct g1 as [g1|]; [|discriminate]. destruct g2 as [g2|]; [|discriminate]. apply bind_ok in HT as (parts & HP & HT). apply bind_ok in HT as (ests & HE & HT). apply bind_ok in HT as (st & HS & HT).
  injection HT as ->. set (H := weighted_e (ru_est env) G) in *. pose proof (run_ready_weighted _ _ _ HR) as HRw. fold H in HRw.
  apply parallel_found in HP as [HF HL]; [|intros k [<-|[<-|[]]]; cbn; auto|rewrite linspace_length; apply (rr_completion _ _ _ HR)]. rewrite linspace_length in HL.
  assert (SH := found_shape _ _ _ _ _ HRw (weighted_vcount _ _) HF).
  destruct (@champ_stable env H iterations parts 0 2 ests HRw (proj1 HF) HL (fun c Hc => proj1 (SH c Hc)) HE) as [SA IN].
  destruct (@stability_spec ests) as (a & b & Eab & A & B).
  { intros x Hx. destruct (SH _ (IN x Hx)) as (_ & C1 & C2). destruct (num_communities_canonical C1 C2) as (k & Hk & _). eauto. }
  rewrite HS in Eab. injection Eab as -> ->. exists H, (weighted (ru_leiden env) H), parts, (gamma_estimates_to_stable_partitions ests).
  split; [apply weighted_e_defaulted; reflexivity|]. split; [apply weighted_defaulted|]. split; [exact HF|]. split; [exact SA|].
  assert (K : forall k, (exists c, In c (gamma_estimates_to_stable_partitions ests) /\ num_communities c = Ok k) <-> exists c, In c (gamma_estimates_to_stable_partitions ests) /\ has_communities c k).
  { intros k. split; intros (c & H1 & H2); exists c; (split; [exact H1|]); [apply num_communities_has; exact H2|].
    destruct (proj1 (proj2 SA) c H1) as [Hin _]. destruct (SH _ Hin) as (_ & C1 & C2). destruct (num_communities_canonical C1 C2) as (k' & Hk' & Hh). rewrite Hk'. f_equal. eapply has_communities_unique; eauto. }
  rewrite <- !K. split; assumption.
Qed.
Print Assumptions C100_trial.

(** A network is skipped exactly if it is not connected or one of the planted partitions has no estimate. *)
Theorem C100_skipped : forall N iterations d, (3 <= N)%nat -> wf_graph (dr_graph d) ->
  let estimate := fun c => snd (gamma_estimate (ru_est (dr_env d)) (dr_graph d) (Membership c)) in
  let truth := map (fun i => (i / (N / 3))%nat) (seq 0 N) in let truth2 := map (fun i => Nat.min 1 (i / (N / 3))) (seq 0 N) in
  bistable_trial N iterations d = Ok None <->
  dr_connected d = false \/ exists x y, estimate truth = Ok x /\ estimate truth2 = Ok y /\ (x = None \/ y = None).
Proof.
  intros N iterations d HN W estimate truth truth2. unfold bistable_trial. destruct (dr_connected d); cbn [negb]; [|split; auto].
  unfold bistable_truth, bistable_truth2. destruct (Nat.eqb_spec (N / 3) 0) as [E|E]; [exfalso; apply Nat.div_small_iff in E; lia|]. cbn [bind]. fold truth. fold truth2.
  unfold estimate. rewrite !(@gamma_estimate_graph _ (dr_graph d)) by exact W. cbn [snd]. rewrite !(@gamma_estimate_graph _ (weighted_e _ _)) by (apply weighted_e_wf; exact W). rewrite weighted_e_idem.
  set (a := bind (leiden_part_with_membership _ truth) _). set (b := bind (leiden_part_with_membership _ truth2) _). clearbody a b.
  destruct a as [a|e]; cbn [bind]; [|split; [discriminate|intros [F|(x & y & F & _)]; discriminate]].
  destruct b as [b|e]; cbn [bind]; [|split; [discriminate|intros [F|(x & y & _ & F & _)]; discriminate]].
  destruct a as [a|]; [|split; [intros _; right; exists None, b; auto|auto]]. destruct b as [b|]; [|split; [intros _; right; exists (Some a), None; auto|auto]].
  split.
  - intros F. exfalso. apply bind_ok in F as (p & _ & F). apply bind_ok in F as (q & _ & F). apply bind_ok in F as (r & _ & F). discriminate.
  - intros [F|(x & y & F1 & F2 & [F|F])]; [discriminate| |]; subst; discriminate.
Qed.
Print Assumptions C100_skipped.

(** For every delta the loop uses a first part of the trials, none of which raises: up to and including the last one that is needed to
    count the requested number; the three values are the shares of counted trials with the flags. *)
Theorem C100_shares : forall n trials p2s rows, (0 < n)%nat -> bistable_probabilities n trials p2s = Some (Ok rows) ->
  Forall2 (fun p row => exists used rest, trials p = used ++ rest /\ (forall t, In t used -> exists o, t = Ok o) /\ length (counted used) = n /\
      (forall t used', used = used' ++ [t] -> exists s, t = Ok (Some s)) /\
      row = (INR (how_many fst (counted used)) / INR n, INR (how_many snd (counted used)) / INR n, INR (how_many (fun s => fst s && snd s) (counted used)) / INR n)) p2s rows.
Proof.
  intros n trials p2s rows Hn. revert rows. induction p2s as [|p p2s IH]; intros rows H; cbn [bistable_probabilities] in H; [injection H as <-; constructor|].
  destruct (bistable_loop n (trials p) (mkCounts 0 0 0 0)) as [[c|e]|] eqn:EL; [|discriminate|discriminate].
  destruct (@bistable_loop_spec n (trials p) _ c EL) as (used & rest & A & B & C & D & F2 & F3 & F4 & G); [cbn; lia|]. cbn [ct_total ct_2 ct_3 ct_both Nat.add] in *.
  rewrite C in H. assert (Nz : INR n <> 0) by (apply not_0_INR; lia). unfold py_div in H. destruct (Req_EM_T (INR n) 0) as [Z|_]; [contradiction|]. cbn [bind] in H.
  destruct (bistable_probabilities n trials p2s) as [[rows'|e]|]; [|discriminate|discriminate]. injection H as <-. constructor; [|apply IH; reflexivity].
  exists used, rest. split; [exact A|]. split; [exact B|]. split; [lia|]. split; [exact G|]. rewrite F2, F3, F4. reflexivity.
Qed.
Print Assumptions C100_shares.

(** So they are probabilities: between 0 and 1, bistability is at most either one, and they fit together. *)
Theorem C100_probabilities : forall n trials p2s rows, (0 < n)%nat -> bistable_probabilities n trials p2s = Some (Ok rows) ->
  length rows = length p2s /\
  forall a b both, In (a, b, both) rows -> 0 <= both /\ both <= a /\ both <= b /\ a <= 1 /\ b <= 1 /\ a + b - both <= 1.
Proof.
  intros n trials p2s rows Hn H. apply C100_shares in H; [|exact Hn]. split; [induction H; cbn; congruence|]. intros a b both Hin.
  assert (X : exists l : list (bool * bool), length l = n /\ (a, b, both) = (INR (how_many fst l) / INR n, INR (how_many snd l) / INR n, INR (how_many (fun s => fst s && snd s) l) / INR n)).
  { clear - H Hin. induction H as [|p row p2s rows Hrow F IH]; [destruct Hin|]. destruct Hin as [->|Hin]; [|auto]. destruct Hrow as (used & rest & _ & _ & L & _ & E). eauto. }
  clear H Hin. destruct X as (l & L & E). injection E as -> -> ->. assert (P : 0 < INR n) by (apply lt_0_INR; exact Hn).
  assert (U : (how_many (fun s => fst s && snd s) l <= how_many fst l)%nat) by (apply how_many_le; intros [[|] [|]]; cbn; auto).
  assert (V : (how_many (fun s => fst s && snd s) l <= how_many snd l)%nat) by (apply how_many_le; intros [[|] [|]]; cbn; auto).
  pose proof (how_many_length fst l) as A1. pose proof (how_many_length snd l) as A2. pose proof (how_many_union fst snd l) as A3. rewrite L in *.
  apply le_INR in U, V, A1, A2, A3. rewrite !plus_INR in A3. pose proof (pos_INR (how_many (fun s => fst s && snd s) l)) as A4.
  assert (I : 0 < / INR n) by (apply Rinv_0_lt_compat; exact P). assert (One : INR n * / INR n = 1) by (apply Rinv_r; lra). unfold Rdiv.
  set (i := / INR n) in *. set (m := INR n) in *. set (x := INR (how_many fst l)) in *. set (y := INR (how_many snd l)) in *. set (z := INR (how_many (fun s => fst s && snd s) l)) in *. clearbody i m x y z. clear - U V A1 A2 A3 A4 I One.
  assert (M : forall u v, u <= v -> u * i <= v * i) by (intros u v Huv; apply Rmult_le_compat_r; lra).
  pose proof (M _ _ U). pose proof (M _ _ V). pose proof (M _ _ A1). pose proof (M _ _ A2). pose proof (M _ _ A3) as M3. pose proof (M _ _ A4) as M4. rewrite !Rmult_plus_distr_r in M3. lra.
Qed.
Print Assumptions C100_probabilities.

(** The grid of deltas runs from 0.01 to 0.06 in 45 steps, four of which are empty: the pieces share their ends. *)
Theorem C100_grid : length bistable_p2s = 45%nat /\ nth 0 bistable_p2s 0 = 1 / 100 /\ nth 44 bistable_p2s 0 = 6 / 100 /\
  forall i, (i < 44)%nat ->
    if existsb (Nat.eqb i) [4; 19; 24; 39]%nat then nth i bistable_p2s 0 = nth (S i) bistable_p2s 0 else nth i bistable_p2s 0 < nth (S i) bistable_p2s 0.
Proof.
  split; [reflexivity|]. split; [unfold bistable_p2s, linspace; cbn [seq map app nth Nat.sub INR]; lra|]. split; [unfold bistable_p2s, linspace; cbn [seq map app nth Nat.sub INR]; lra|].
  intros i Hi. do 44 (destruct i as [|i]; [unfold bistable_p2s, linspace; cbn [seq map app nth Nat.sub INR existsb Nat.eqb orb]; lra|]). lia.
Qed.
Print Assumptions C100_grid.

(** With a number of nodes divisible by three igraph accepts the parameters for every probability, and the planted partitions have three
    and two communities, the second joining the last two blocks of the first; otherwise igraph refuses. *)
Theorem C100_planted : forall N p sample k, (3 <= N)%nat -> 0 <= p <= 1 ->
  ((N mod 3 = 0)%nat -> igraph_SBM sample k N (bistable_matrix p) (bistable_blocks N) = Ok (sample k) /\
     exists t t2, bistable_truth N = Ok t /\ bistable_truth2 N = Ok t2 /\ length t = N /\ length t2 = N /\ has_communities t 3 /\ has_communities t2 2 /\
       (forall i a, nth_error t i = Some a -> nth_error t2 i = Some (if Nat.eqb a 0 then 0 else 1)%nat) /\
       (forall i a, nth_error t i = Some a <-> (i < N /\ a * (N / 3) <= i < (a + 1) * (N / 3))%nat)) /\
  ((N mod 3 <> 0)%nat -> igraph_SBM sample k N (bistable_matrix p) (bistable_blocks N) = Raise ValueError) /\
  (forall i j, nth j (nth i (bistable_matrix p) []) 0 = nth i (nth j (bistable_matrix p) []) 0).
Proof.
  intros N p sample k HN Hp. assert (S3 : list_sum (bistable_blocks N) = (3 * (N / 3))%nat) by (unfold bistable_blocks; cbn [repeat list_sum fold_right]; lia).
  pose proof (Nat.div_mod N 3 ltac:(lia)) as DM. unfold igraph_SBM. rewrite S3.
  assert (HB : (0 < N / 3)%nat) by (apply Nat.div_str_pos; lia). set (B := (N / 3)%nat) in *.
  split; [|split].
  - intros HM. replace (Nat.eqb (3 * B) N) with true by (symmetry; apply Nat.eqb_eq; lia). split.
    + assert (Q : forallb (forallb (fun q => if Rle_dec 0 q then if Rle_dec q 1 then true else false else false)) (bistable_matrix p) = true); [|rewrite Q; reflexivity].
      unfold bistable_matrix. cbn [forallb]. repeat match goal with |- context [Rle_dec ?x ?y] => destruct (Rle_dec x y) as [?|Hn]; [|exfalso; lra] end. reflexivity.
    + unfold bistable_truth, bistable_truth2. fold B. destruct (Nat.eqb_spec B 0) as [Z|_]; [lia|]. do 2 eexists. split; [reflexivity|]. split; [reflexivity|]. rewrite !map_length, !seq_length.
      assert (NE : forall i, (i < N)%nat -> nth_error (seq 0 N) i = Some i). { intros i Hi. rewrite (nth_error_nth' _ 0%nat) by (rewrite seq_length; lia). rewrite seq_nth by lia. reflexivity. }
      split; [reflexivity|]. split; [reflexivity|]. split; [|split; [|split]].
      * exists [0; 1; 2]%nat. split; [repeat constructor; cbn; lia|]. split; [reflexivity|]. intros x. rewrite in_map_iff. split.
        -- intros Hx. exists (x * B)%nat. split; [apply Nat.div_mul; lia|]. apply in_seq. cbn in Hx. destruct Hx as [<-|[<-|[<-|[]]]]; lia.
        -- intros (i & <- & Hi). apply in_seq in Hi. assert (Q : (i / B < 3)%nat) by (apply Nat.div_lt_upper_bound; lia). revert Q. generalize (i / B)%nat. intros q Q. cbn. lia.
      * exists [0; 1]%nat. split; [repeat constructor; cbn; lia|]. split; [reflexivity|]. intros x. rewrite in_map_iff. split.
        -- intros Hx. exists (x * B)%nat. rewrite Nat.div_mul by lia. cbn in Hx. destruct Hx as [<-|[<-|[]]]; (split; [reflexivity|]; apply in_seq; lia).
        -- intros (i & <- & Hi). generalize (i / B)%nat. intros q. destruct q as [|q]; [left; reflexivity|right; left; destruct q; reflexivity].
      * intros i a Ha. rewrite nth_error_map in Ha |- *. destruct (nth_error (seq 0 N) i) as [j|]; [|discriminate]. cbn [option_map] in *. injection Ha as <-. f_equal. destruct (Nat.eqb_spec (j / B) 0); lia.
      * intros i a. rewrite nth_error_map. destruct (Nat.lt_ge_cases i N) as [Hi|Hi].
        -- rewrite NE by exact Hi. cbn [option_map]. pose proof (Nat.div_mod i B ltac:(lia)) as DI. pose proof (Nat.mod_upper_bound i B ltac:(lia)) as MI. split.
           ++ intros E. injection E as <-. split; [exact Hi|]. rewrite Nat.mul_comm. nia.
           ++ intros (_ & H1 & H2). f_equal. symmetry. apply (Nat.div_unique i B a (i - a * B)); lia.
        -- replace (nth_error (seq 0 N) i) with (@None nat) by (symmetry; apply nth_error_None; rewrite seq_length; exact Hi). cbn [option_map]. split; [discriminate|lia].
  - intros HM. replace (Nat.eqb (3 * B) N) with false by (symmetry; apply Nat.eqb_neq; lia). reflexivity.
  - intros i j. do 3 (destruct i as [|i]; [do 3 (destruct j as [|j]; [reflexivity|]); unfold bistable_matrix; cbn; destruct j; reflexivity|]). unfold bistable_matrix. cbn. destruct i, j as [|[|[|[|j]]]]; reflexivity.
Qed.
Print Assumptions C100_planted.

(** The output file over all runs: none, or the first lines of the output of a run that completed its trials.  If all five are there
    every later run plots the results as they were computed; if the process was killed while it wrote the file, every later run
    fails, and the file stays as it is. *)
Theorem C100_file : forall N n file, file_history N n file -> file = None \/
  exists rows k trials, file = Some (firstn k (output_lines N bistable_p2s rows)) /\ (k <= 5)%nat /\ bistable_probabilities n trials bistable_p2s = Some (Ok rows) /\
    (k = 5%nat -> forall trials', bistable_main N n trials' file = ([], Some (Ok (N, bistable_p2s, map (fun r => fst (fst r)) rows, map (fun r => snd (fst r)) rows, map snd rows)))) /\
    ((k < 5)%nat -> forall trials', bistable_main N n trials' file = ([], Some (Raise ValueError))).
Proof.
  intros N n file H. induction H as [|file file' trials H IH Hin]; [left; reflexivity|]. unfold bistable_main in Hin. destruct file as [lines|]; [destruct Hin|].
  destruct (bistable_probabilities n trials bistable_p2s) as [[rows|e]|] eqn:EP; cbn [fst] in Hin; [|destruct Hin|destruct Hin].
  apply in_map_iff in Hin as (k & <- & Hk). apply in_seq in Hk. right. exists rows, k, trials. split; [reflexivity|]. split; [lia|]. split; [exact EP|]. split.
  - intros -> trials'. reflexivity.
  - intros Hk5 trials'. do 5 (destruct k as [|k]; [reflexivity|]). lia.
Qed.
Print Assumptions C100_file.
(** A run that is not killed writes the whole file and plots one value per delta. *)
Theorem C100_complete_run : forall N n trials rows, (0 < n)%nat -> bistable_probabilities n trials bistable_p2s = Some (Ok rows) ->
  let a := map (fun r => fst (fst r)) rows in let b := map (fun r => snd (fst r)) rows in let both := map snd rows in
  snd (bistable_main N n trials None) = Some (Ok (N, bistable_p2s, a, b, both)) /\
  last (fst (bistable_main N n trials None)) None = Some (output_lines N bistable_p2s rows) /\
  length a = 45%nat /\ length b = 45%nat /\ length both = 45%nat.
Proof.
  intros N n trials rows Hn H a b both. unfold bistable_main. rewrite H. split; [reflexivity|]. split; [reflexivity|]. unfold a, b, both. rewrite !map_length. rewrite (proj1 (C100_probabilities _ _ _ _ Hn H)). repeat split; reflexivity.
Qed.
Print Assumptions C100_complete_run.

(** The drawn realizations carry the wrong names: the files called 2-community show three communities, and the other way round. *)
Theorem C100_realizations_swapped : forall N, (3 <= N)%nat -> (N mod 3 = 0)%nat ->
  exists t t2, realization_files N = Ok [(t, 2%nat); (t2, 3%nat)] /\ has_communities t 3 /\ has_communities t2 2.
Proof.
  intros N HN HM. destruct (proj1 (C100_planted N 0 (fun _ => mkGraph 0 false [] None) 0 HN ltac:(lra)) HM) as (_ & t & t2 & E1 & E2 & _ & _ & H3 & H2 & _).
  exists t, t2. unfold realization_files. rewrite E1, E2. auto.
Qed.
Print Assumptions C100_realizations_swapped.

(** ** C101 *)

(** No trial of the hierarchical experiment can take place: the keyword chunk_dispatch does not exist, so Louvain is never run and the
    statistics are never written. *)
Theorem C101_hierarchical_raises : forall iterations d draws, hierarchical_trial iterations d = Raise TypeError /\
  (draws <> [] -> find_stability_probabilities (map (hierarchical_trial iterations) draws) = Raise TypeError).
Proof. intros iterations d draws. split; [reflexivity|]. destruct draws as [|x draws]; [contradiction|]. intros _. reflexivity. Qed.
Print Assumptions C101_hierarchical_raises.

(** Its steps other than this call: stable partitions are what they should be. *)
Theorem C101_hierarchical_stable : forall env G n parts stable, run_ready env G n -> NoDup parts -> (length parts <= n)%nat -> (forall c, In c parts -> length c = vcount G) ->
  hierarchical_stable env G parts = Ok stable -> stable_among (ru_est env) G 0 (5 / 2) (fun c => In c parts) stable.
Proof.
  intros env G n parts stable HR Nd HL HV H. unfold hierarchical_stable in H. apply bind_ok in H as (ests & HE & H). injection H as <-. exact (proj1 (@champ_stable env G n parts 0 (5 / 2) ests HR Nd HL HV HE)).
Qed.
Print Assumptions C101_hierarchical_stable.

(** Whether a partition has K communities. *)
Definition has_K (K : nat) (p : list nat) : bool := match num_communities p with Ok k => Nat.eqb k K | _ => false end.
Lemma update_S (l : list nat) : forall k l', py_update l k S = Ok l' -> length l' = length l /\ forall K, nth K l' 0%nat = (nth K l 0 + if Nat.eqb k K then 1 else 0)%nat.
Proof.
  induction l as [|x l IH]; intros [|k] l' H; cbn [py_update] in H; try discriminate.
  - injection H as <-. split; [reflexivity|]. intros [|K]; cbn [nth Nat.eqb]; lia.
  - apply bind_ok in H as (r & Hr & H). injection H as <-. destruct (IH _ _ Hr) as [A B]. split; [cbn; congruence|]. intros [|K]; cbn [nth Nat.eqb]; [lia|apply B].
Qed.
Lemma count_stable_spec stable : forall counts, (forall p, In p stable -> exists k, num_communities p = Ok k /\ (k < length counts)%nat) ->
  exists counts', foldM count_stable stable counts = Ok counts' /\ length counts' = length counts /\ forall K, nth K counts' 0%nat = (nth K counts 0 + how_many (has_K K) stable)%nat.
Proof.
  induction stable as [|p stable IH]; intros counts H; cbn [foldM].
  - exists counts. split; [reflexivity|]. split; [reflexivity|]. intros K. cbn [how_many]. lia.
  - destruct (H p (or_introl eq_refl)) as (k & Hk & Lk). unfold count_stable at 1. rewrite Hk. cbn [bind]. destruct (Nat.ltb_spec k (length counts)) as [_|Hn]; [|lia].
    destruct (@py_update_ok _ S 0%nat counts k Lk) as (c1 & H1 & _). rewrite H1. cbn [bind]. destruct (update_S _ _ _ H1) as [L1 U].
    destruct (IH c1) as (c2 & E & L2 & V); [rewrite L1; intros q Hq; apply H; right; exact Hq|]. exists c2. split; [exact E|]. split; [congruence|].
    intros K. rewrite V, U. cbn [how_many]. replace (has_K K p) with (Nat.eqb k K) by (unfold has_K; rewrite Hk; reflexivity). lia.
Qed.
Lemma count_stable_fails stable : forall counts, ~ (forall p, In p stable -> exists k, num_communities p = Ok k /\ (k < length counts)%nat) -> exists e, foldM count_stable stable counts = Raise e.
Proof.
  induction stable as [|p stable IH]; intros counts H; [exfalso; apply H; intros p []|]. cbn [foldM]. unfold count_stable at 1. destruct (num_communities p) as [k|e] eqn:Hk; cbn [bind]; [|eexists; reflexivity].
  destruct (Nat.ltb_spec k (length counts)) as [Lk|Lk]; [|eexists; reflexivity]. destruct (@py_update_ok _ S 0%nat counts k Lk) as (c1 & H1 & _). rewrite H1. cbn [bind]. destruct (update_S _ _ _ H1) as [L1 U].
  apply IH. rewrite L1. intros X. apply H. intros q [<-|Hq]; [eauto|apply X; exact Hq].
Qed.
Lemma trials_fold trials : forall counts, (forall stable p, In stable trials -> In p stable -> exists k, num_communities p = Ok k /\ (k < length counts)%nat) ->
  exists counts', foldM (fun num_stable trial => let! stable_parts := trial in foldM count_stable stable_parts num_stable) (map (@Ok _) trials) counts = Ok counts' /\
    length counts' = length counts /\ forall K, nth K counts' 0%nat = (nth K counts 0 + how_many (has_K K) (concat trials))%nat.
Proof.
  induction trials as [|t trials IH]; intros counts H; cbn [map foldM concat].
  - exists counts. split; [reflexivity|]. split; [reflexivity|]. intros K. cbn [how_many]. lia.
  - cbn [bind]. destruct (count_stable_spec t counts) as (c1 & E1 & L1 & V1); [intros p Hp; eapply H; [left; reflexivity|exact Hp]|]. rewrite E1. cbn [bind].
    destruct (IH c1) as (c2 & E2 & L2 & V2); [rewrite L1; intros s p Hs; apply H; right; exact Hs|]. exists c2. split; [exact E2|]. split; [congruence|]. intros K. rewrite V2, V1, how_many_app. lia.
Qed.
(** With trials that return, the bar of K is the number of stable partitions with K communities in all trials together, divided by the
    number of trials: the average number of them, not the share of trials that have one. *)
Theorem C101_bars : forall trials, trials <> [] ->
  (forall stable p, In stable trials -> In p stable -> exists k, labelled p k /\ (k < 20)%nat) ->
  exists probabilities, find_stability_probabilities (map (@Ok _) trials) = Ok probabilities /\ length probabilities = 20%nat /\
    map fst (plotted_bars probabilities) = seq 3 14 /\
    forall K height, In (K, height) (plotted_bars probabilities) ->
      (3 <= K <= 16)%nat /\ height = INR (how_many (with_communities K) (concat trials)) / INR (length trials).
Proof.
  intros trials NE H. destruct (trials_fold trials (repeat 0%nat 20)) as (c & E & L & V).
  { intros s p Hs Hp. destruct (H s p Hs Hp) as (k & Hk & Lk). exists k. split; [apply num_communities_labelled; exact Hk|exact Lk]. }
  unfold find_stability_probabilities. rewrite E. cbn [bind]. rewrite map_length. assert (Nz : INR (length trials) <> 0) by (apply not_0_INR; destruct trials; [contradiction|discriminate]).
  assert (M : forall l : list nat, mapM (fun x => py_div (INR x) (INR (length trials))) l = Ok (map (fun x => INR x / INR (length trials)) l)).
  { induction l as [|x l IH]; [reflexivity|]. cbn [mapM map]. unfold py_div at 1. destruct (Req_EM_T _ 0); [contradiction|]. cbn [bind]. rewrite IH. reflexivity. }
  rewrite M. eexists. split; [reflexivity|]. rewrite map_length, L. split; [reflexivity|]. rewrite repeat_length in L.
  assert (V' : forall K, nth K c 0%nat = how_many (has_K K) (concat trials)) by (intros K; rewrite V; assert (Z : nth K (repeat 0%nat 20) 0%nat = 0%nat) by (do 20 (destruct K as [|K]; [reflexivity|]); destruct K; reflexivity); lia).
  assert (W : forall K, how_many (has_K K) (concat trials) = how_many (with_communities K) (concat trials)).
  { intros K. assert (Z : forall p, In p (concat trials) -> has_K K p = with_communities K p).
    { intros p Hp. apply in_concat in Hp as (s & Hs & Hp). destruct (H s p Hs Hp) as (k & Hk & _). unfold has_K, with_communities. rewrite (proj2 (num_communities_labelled p k) Hk). f_equal.
      apply (has_communities_unique (c := p)); [apply num_communities_has; apply num_communities_labelled; exact Hk|]. exists (nodup Nat.eq_dec p). split; [apply NoDup_nodup|]. split; [reflexivity|]. intros x. apply nodup_In. }
    clear - Z. induction (concat trials) as [|p l IH]; [reflexivity|]. cbn [how_many]. rewrite Z by (left; reflexivity). rewrite IH; [reflexivity|]. intros q Hq. apply Z. right. exact Hq. }
  setoid_rewrite W in V'. clear V E M W. unfold plotted_bars. do 20 (destruct c as [|? c]; [discriminate|]). destruct c; [|discriminate]. cbn [map skipn firstn seq combine fst]. split; [reflexivity|].
  intros K height Hin. repeat (destruct Hin as [Hin|Hin]; [injection Hin as <- <-; (split; [lia|]); rewrite <- V'; reflexivity|]). destruct Hin.
Qed.
Print Assumptions C101_bars.
(** They can exceed 1; and one stable partition with twenty communities ends the computation. *)
Theorem C101_not_a_probability : exists trials probabilities, find_stability_probabilities (map (@Ok _) trials) = Ok probabilities /\ (forall stable, In stable trials -> NoDup stable) /\
  exists K height, In (K, height) (plotted_bars probabilities) /\ 1 < height.
Proof.
  exists [[[0; 1; 2; 2]; [0; 1; 1; 2]]]%nat. destruct (C101_bars [[[0; 1; 2; 2]; [0; 1; 1; 2]]]%nat) as (q & E & L & F & B); [discriminate| |].
  - intros s p [<-|[]] Hp. exists 3%nat. split; [|lia]. split; [lia|]. destruct Hp as [<-|[<-|[]]]; intros x; cbn; lia.
  - exists q. split; [exact E|]. split; [intros s [<-|[]]; repeat constructor; cbn; intuition discriminate|].
    assert (In 3%nat (map fst (plotted_bars q))) as Hin by (rewrite F; left; reflexivity). apply in_map_iff in Hin as ((K & h) & E3 & Hin). cbn [fst] in E3. subst K. exists 3%nat, h. split; [exact Hin|].
    destruct (B _ _ Hin) as [_ ->]. cbn. lra.
Qed.
Print Assumptions C101_not_a_probability.
Theorem C101_twenty_communities : forall before stable after p k, In p stable -> labelled p k -> (20 <= k)%nat ->
  exists e, find_stability_probabilities (before ++ Ok stable :: after) = Raise e.
Proof.
  intros before stable after p k Hp Hk Lk. unfold find_stability_probabilities. rewrite L_split.foldM_app.
  assert (X : forall l counts, length counts = 20%nat -> (exists e, foldM (fun num_stable trial => let! stable_parts := trial in foldM count_stable stable_parts num_stable) l counts = Raise e) \/
     exists c, foldM (fun num_stable trial => let! stable_parts := trial in foldM count_stable stable_parts num_stable) l counts = Ok c /\ length c = 20%nat).
  { induction l as [|t l IH]; intros counts Lc; cbn [foldM]; [right; eauto|]. destruct t as [t|e]; cbn [bind]; [|left; eauto].
    destruct (classic (forall q, In q t -> exists j, num_communities q = Ok j /\ (j < length counts)%nat)) as [Y|Y].
    - destruct (count_stable_spec t counts Y) as (c1 & E1 & L1 & _). rewrite E1. cbn [bind]. apply IH. congruence.
    - destruct (count_stable_fails t counts Y) as (e & E). rewrite E. left. cbn [bind]. eauto. }
  destruct (X before (repeat 0%nat 20) (repeat_length _ _)) as [(e & E)|(c & E & Lc)]; rewrite E; cbn [bind]; [eauto|].
  cbn [foldM bind]. destruct (count_stable_fails stable c) as (e & Ee); [|rewrite Ee; cbn [bind]; eauto].
  intros Y. destruct (Y p Hp) as (j & Hj & Lj). apply num_communities_labelled in Hk. rewrite Hk in Hj. injection Hj as <-. lia.
Qed.
Print Assumptions C101_twenty_communities.

(** The example network is accepted exactly if at least four of its stable partitions have at most nine communities. *)
Theorem C101_accepted : forall stable answer, enough_stable stable = Ok answer ->
  (answer = true <-> (4 <= how_many (fun p => Nat.leb (length (nodup Nat.eq_dec p)) 9) stable)%nat).
Proof.
  intros stable answer H. unfold enough_stable in H. apply bind_ok in H as (ks & HM & E). injection E as <-.
  assert (X : length (filter (fun k => Nat.leb k 9) ks) = how_many (fun p => Nat.leb (length (nodup Nat.eq_dec p)) 9) stable).
  { revert ks HM. induction stable as [|p stable IH]; intros ks H; cbn [mapM] in H; [injection H as <-; reflexivity|]. apply bind_ok in H as (k & Hk & H). apply bind_ok in H as (rest & Hr & E). injection E as <-.
    cbn [filter how_many]. assert (length (nodup Nat.eq_dec p) = k) as ->.
    { apply (has_communities_unique (c := p)); [exists (nodup Nat.eq_dec p); split; [apply NoDup_nodup|]; split; [reflexivity|]; intros x; apply nodup_In|apply num_communities_has; exact Hk]. }
    destruct (Nat.leb k 9); cbn [length]; rewrite (IH _ Hr); lia. }
  rewrite X. rewrite Nat.ltb_lt. lia.
Qed.
Print Assumptions C101_accepted.
Example C101_accepted_example : enough_stable [[0; 1; 2; 2]; [0; 1; 1; 2]; [0; 0; 0; 1]; [0; 0; 0; 0]]%nat = Ok true /\ enough_stable [[0; 1; 2; 2]]%nat = Ok false.
Proof. split; reflexivity. Qed.

(** The pictures of the example network: a file shows a stable partition with the number of communities in its name; if several have it,
    only the last one is kept. *)
Theorem C101_pictures : forall stable pictures, example_pictures stable = Ok pictures -> map snd pictures = stable /\
  (forall K p, file_content pictures K = Some p -> In p stable /\ has_communities p K) /\
  (forall before K p after, pictures = before ++ (K, p) :: after -> ~ In K (map fst after) -> file_content pictures K = Some p).
Proof.
  intros stable pictures H. unfold example_pictures in H.
  assert (A : map snd pictures = stable /\ forall K p, In (K, p) pictures -> has_communities p K).
  { revert pictures H. induction stable as [|p stable IH]; intros pictures H; cbn [mapM] in H; [injection H as <-; split; [reflexivity|intros K p []]|].
    apply bind_ok in H as (kp & Hkp & H). apply bind_ok in Hkp as (k & Hk & E). injection E as <-. apply bind_ok in H as (rest & Hr & E). injection E as <-.
    destruct (IH _ Hr) as [I1 I2]. split; [cbn; congruence|]. intros K q [E|Hq]; [injection E as <- <-; apply num_communities_has; exact Hk|auto]. }
  destruct A as [A B]. split; [exact A|].
  assert (FA : forall l l' c K, fold_left (fun c (kp : nat * list nat) => if Nat.eqb (fst kp) K then Some (snd kp) else c) (l ++ l') c = fold_left (fun c kp => if Nat.eqb (fst kp) K then Some (snd kp) else c) l' (fold_left (fun c kp => if Nat.eqb (fst kp) K then Some (snd kp) else c) l c)) by (intros; apply fold_left_app).
  split.
  - intros K p Hf. assert (In (K, p) pictures); [|split; [rewrite <- A; apply (in_map snd) in H0; exact H0|auto]]. unfold file_content in Hf. clear - Hf.
    assert (X : forall l c, fold_left (fun c (kp : nat * list nat) => if Nat.eqb (fst kp) K then Some (snd kp) else c) l c = Some p -> c = Some p \/ In (K, p) l).
    { induction l as [|[k q] l IH]; intros c H; cbn [fold_left] in H; [left; exact H|]. destruct (IH _ H) as [E|E]; [|right; right; exact E]. cbn [fst snd] in E. destruct (Nat.eqb_spec k K) as [->|]; [right; left; congruence|left; exact E]. }
    destruct (X _ _ Hf) as [E|E]; [discriminate|exact E].
  - intros before K p after -> Hn. unfold file_content. rewrite FA. cbn [fold_left fst snd]. rewrite Nat.eqb_refl. clear - Hn. induction after as [|[k q] after IH]; [reflexivity|]. cbn [fold_left fst snd map] in *.
    destruct (Nat.eqb_spec k K) as [->|]; [exfalso; apply Hn; left; reflexivity|]. apply IH. intros X. apply Hn. right. exact X.
Qed.
Print Assumptions C101_pictures.

(** *** Karate club *)
Lemma classify parts ks : mapM (fun p => let! k := num_communities p in Ok (k, p)) parts = Ok ks -> forall K c, In c (map snd (filter (fun kp => Nat.eqb (fst kp) K) ks)) <-> In c parts /\ num_communities c = Ok K.
Proof.
  revert ks. induction parts as [|p parts IH]; intros ks H K c; cbn [mapM] in H; [injection H as <-; cbn; tauto|].
  apply bind_ok in H as (kp & Hkp & H). apply bind_ok in Hkp as (k & Hk & E). injection E as <-. apply bind_ok in H as (rest & Hr & E). injection E as <-. specialize (IH _ Hr K c). cbn [filter fst].
  destruct (Nat.eqb_spec k K) as [->|N]; cbn [map snd In]; rewrite IH; [|intuition congruence]. split; [intros [<-|X]; tauto|]. intros [[<-|X] Y]; auto.
Qed.
Lemma classify_nodup parts ks : mapM (fun p => let! k := num_communities p in Ok (k, p)) parts = Ok ks -> NoDup parts -> forall K, NoDup (map snd (filter (fun kp => Nat.eqb (fst kp) K) ks)) /\ (length (map snd (filter (fun kp => Nat.eqb (fst kp) K) ks)) <= length parts)%nat.
Proof.
  revert ks. induction parts as [|p parts IH]; intros ks H Nd K; cbn [mapM] in H; [injection H as <-; split; [constructor|cbn; lia]|].
  apply bind_ok in H as (kp & Hkp & H). apply bind_ok in Hkp as (k & Hk & E). injection E as <-. apply bind_ok in H as (rest & Hr & E). injection E as <-. inversion Nd; subst. destruct (IH _ Hr H2 K) as [I1 I2]. cbn [filter fst].
  destruct (Nat.eqb_spec k K) as [->|N]; cbn [map snd length]; [|split; [exact I1|lia]]. split; [|lia]. constructor; [|exact I1]. intros X. apply (classify _ _ Hr) in X. tauto.
Qed.
(** For K = 2, 3, 4 the pictures are numbered from 0 and show the partitions that are stable among those with K communities that the sweep
    found. *)
Theorem C101_karate : forall env G n parts files, run_ready env G n -> NoDup parts -> (length parts <= n)%nat -> (forall c, In c parts -> length c = vcount G) ->
  karate_files env G parts = Ok files ->
  forall K, (In K [2; 3; 4]%nat -> exists stable, stable_among (ru_est env) G 0 2 (fun c => In c parts /\ has_communities c K) stable /\
     forall i p, In (K, i, p) files <-> nth_error stable i = Some p) /\ (~ In K [2; 3; 4]%nat -> forall i p, ~ In (K, i, p) files).
Proof.
  intros env G n parts files HR Nd HL HV H. unfold karate_files in H. apply bind_ok in H as (per & HM & E). injection E as <-.
  assert (S : forall K l, karate_stable env G parts K = Ok l -> exists stable, stable_among (ru_est env) G 0 2 (fun c => In c parts /\ has_communities c K) stable /\ l = enumerate stable).
  { clear HM. intros K l HK. unfold karate_stable in HK. apply bind_ok in HK as (ks & Hks & HK). pose proof (classify _ _ Hks K) as CL. destruct (classify_nodup _ _ Hks Nd K) as [ND LE].
    set (rp := map snd (filter (fun kp => Nat.eqb (fst kp) K) ks)) in *.
    assert (IFF : forall c, In c rp <-> In c parts /\ has_communities c K).
    { intros c. rewrite CL. split; (intros [X Y]; split; [exact X|]); [apply num_communities_has; exact Y|].
      assert (exists k, num_communities c = Ok k) as (k & Hk). { clear - Hks X. revert ks Hks. induction parts as [|q parts IH]; intros ks H; [destruct X|]. cbn [mapM] in H. apply bind_ok in H as (kp & Hkp & H). apply bind_ok in Hkp as (k & Hk & _). apply bind_ok in H as (rest & Hr & _). destruct X as [->|X]; eauto. }
      rewrite Hk. f_equal. eapply has_communities_unique; [apply num_communities_has; exact Hk|exact Y]. }
    assert (SA : forall st, stable_among (ru_est env) G 0 2 (fun c => In c rp) st -> stable_among (ru_est env) G 0 2 (fun c => In c parts /\ has_communities c K) st).
    { intros st (S1 & S2 & S3). split; [exact S1|]. split.
      - intros c Hc. destruct (S2 c Hc) as (Q1 & x & Q2 & Q3 & Q4). split; [apply IFF; exact Q1|]. exists x. split; [exact Q2|]. split; [exact Q3|]. intros d Hd. apply Q4. apply IFF. exact Hd.
      - intros c x Hc Hx Hb Ho. apply (S3 c x); auto; [apply IFF; exact Hc|]. intros d Hd. apply Ho. apply IFF. exact Hd. }
    destruct rp as [|p rp'] eqn:ER.
    - injection HK as <-. exists []. split; [|reflexivity]. apply SA. split; [constructor|]. split; [intros c []|intros c x []].
    - rewrite <- ER in *. apply bind_ok in HK as (ests & HE & HK). injection HK as <-. exists (gamma_estimates_to_stable_partitions ests). split; [|reflexivity]. apply SA.
      refine (proj1 (@champ_stable env G n rp 0 2 ests HR ND _ _ HE)); [lia|]. intros c Hc. apply HV. apply IFF. exact Hc. }
  assert (X : forall Ks per, NoDup Ks -> mapM (fun K => let! l := karate_stable env G parts K in Ok (map (fun ip : nat * list nat => (K, fst ip, snd ip)) l)) Ks = Ok per ->
    forall K, (In K Ks -> exists stable, stable_among (ru_est env) G 0 2 (fun c => In c parts /\ has_communities c K) stable /\ forall i p, In (K, i, p) (concat per) <-> nth_error stable i = Some p) /\ (~ In K Ks -> forall i p, ~ In (K, i, p) (concat per))).
  { clear HM per. induction Ks as [|K0 Ks IH]; intros per NK HM K; cbn [mapM] in HM; [injection HM as <-; split; [intros []|intros _ i p []]|].
    apply bind_ok in HM as (r & Hr & HM). apply bind_ok in Hr as (l & Hl & E). injection E as <-. apply bind_ok in HM as (rest & Hrest & E). injection E as <-. inversion NK; subst. destruct (IH _ H2 Hrest K) as [I1 I2].
    destruct (S K0 l Hl) as (st & SA & ->). cbn [concat]. assert (IM : forall i p, In (K, i, p) (map (fun ip : nat * list nat => (K0, fst ip, snd ip)) (enumerate st)) <-> K = K0 /\ nth_error st i = Some p).
    { intros i p. rewrite in_map_iff. split.
      - intros ((j & q) & E & Hin). cbn [fst snd] in E. injection E as -> -> ->. split; [reflexivity|]. apply in_enumerate in Hin. exact Hin.
      - intros (-> & Hn). exists (i, p). split; [reflexivity|]. apply in_enumerate. exact Hn. }
    split.
    - intros [->|HK].
      + exists st. split; [exact SA|]. intros i p. rewrite in_app_iff, IM. split; [intros [[_ Y]|Y]; [exact Y|exfalso; apply (I2 H1 i p Y)]|auto].
      + destruct (I1 HK) as (st' & SA' & Q). exists st'. split; [exact SA'|]. intros i p. rewrite in_app_iff, IM, Q. split; [intros [[-> _]|Y]; [contradiction|exact Y]|auto].
    - intros HK i p Hin. apply in_app_iff in Hin as [Hin|Hin]; [apply IM in Hin as [-> _]; apply HK; left; reflexivity|]. apply (I2 (fun Y => HK (or_intror Y)) i p Hin). }
  apply (X [2; 3; 4]%nat per); [repeat constructor; cbn; lia|exact HM].
Qed.
Print Assumptions C101_karate.

(** ** Examples: a ring of six nodes, with pairs as planted communities, which Leiden finds at every resolution. *)
Definition ring : graph := mkGraph 6 false [(0, 1); (2, 3); (4, 5); (1, 2); (3, 4); (5, 0)]%nat (Some [1; 1; 1; 1; 1; 1]).
Definition ring_c : list nat := [0; 0; 1; 1; 2; 2]%nat.
Definition ring_c2 : list nat := [0; 0; 1; 1; 1; 1]%nat.
Lemma ring_wf : wf_graph ring.
Proof. apply wf_literal; [literal_edges|reflexivity]. Qed.
Lemma ring_parameters : estimate_singlelayer_SBM_parameters ring (mkPart 3 ring_c) None = Ok (3 / 2, 3 / 4).
Proof.
  assert (K : foldM (add_strength ring_c) (combine (edges ring) [1; 1; 1; 1; 1; 1]) (repeat 0 3) = Ok [4; 4; 4]) by (cbn; repeat (f_equal; try lra)).
  unfold estimate_singlelayer_SBM_parameters. cbn [weights ring bind wedges part_membership part_len].
  change (combine [(0%nat, 1%nat); (2%nat, 3%nat); (4%nat, 5%nat); (1%nat, 2%nat); (3%nat, 4%nat); (5%nat, 0%nat)] [1; 1; 1; 1; 1; 1]) with (combine (edges ring) [1; 1; 1; 1; 1; 1]).
  cbn [mapM internal_weight same_label py_get nth_error ring_c bind fst snd edges ring combine Nat.eqb] in *.
  rewrite K. cbn [bind]. unfold sum_squares. cbn [map]. rewrite ?rsum_cons, ?rsum_nil.
  unfold py_div. match goal with |- context [Req_EM_T ?x 0] => destruct (Req_EM_T x 0) as [Z|_]; [exfalso; lra|] end. cbn [bind].
  match goal with |- context [Req_EM_T ?x 0] => destruct (Req_EM_T x 0) as [Z|_]; [exfalso; lra|] end. cbn [bind Nat.ltb Nat.leb].
  match goal with |- context [Req_EM_T ?x 0] => destruct (Req_EM_T x 0) as [Z|_]; [exfalso; lra|] end. cbn [bind].
  f_equal. f_equal; field; lra.
Qed.
Lemma ring_parameters2 : estimate_singlelayer_SBM_parameters ring (mkPart 2 ring_c2) None = Ok (6 / 5, 3 / 4).
Proof.
  assert (K : foldM (add_strength ring_c2) (combine (edges ring) [1; 1; 1; 1; 1; 1]) (repeat 0 2) = Ok [4; 8]) by (cbn; repeat (f_equal; try lra)).
  unfold estimate_singlelayer_SBM_parameters. cbn [weights ring bind wedges part_membership part_len].
  change (combine [(0%nat, 1%nat); (2%nat, 3%nat); (4%nat, 5%nat); (1%nat, 2%nat); (3%nat, 4%nat); (5%nat, 0%nat)] [1; 1; 1; 1; 1; 1]) with (combine (edges ring) [1; 1; 1; 1; 1; 1]).
  cbn [mapM internal_weight same_label py_get nth_error ring_c2 bind fst snd edges ring combine Nat.eqb] in *.
  rewrite K. cbn [bind]. unfold sum_squares. cbn [map]. rewrite ?rsum_cons, ?rsum_nil.
  unfold py_div. match goal with |- context [Req_EM_T ?x 0] => destruct (Req_EM_T x 0) as [Z|_]; [exfalso; lra|] end. cbn [bind].
  match goal with |- context [Req_EM_T ?x 0] => destruct (Req_EM_T x 0) as [Z|_]; [exfalso; lra|] end. cbn [bind Nat.ltb Nat.leb].
  match goal with |- context [Req_EM_T ?x 0] => destruct (Req_EM_T x 0) as [Z|_]; [exfalso; lra|] end. cbn [bind].
  f_equal. f_equal; field; lra.
Qed.
Lemma ring_estimates env : ee_contains env ring = true ->
  (exists x, gamma_estimate env ring (Membership ring_c) = (ring, Ok (Some (Fin x))) /\ 0 < x < 2) /\ exists y, gamma_estimate env ring (Membership ring_c2) = (ring, Ok (Some (Fin y))).
Proof.
  intros He. unfold gamma_estimate. rewrite He. change (leiden_part_with_membership ring ring_c) with (Ok (mkPart 3 ring_c)). change (leiden_part_with_membership ring ring_c2) with (Ok (mkPart 2 ring_c2)). cbn [bind].
  rewrite ring_parameters, ring_parameters2. cbn [bind].
  destruct (C29_log_mean (3 / 2) (3 / 4)) as (x & Hx & _ & B & _); try lra. destruct (C29_log_mean (6 / 5) (3 / 4)) as (y & Hy & _); try lra. rewrite Hx, Hy. split; [|eauto]. exists x. split; [reflexivity|].
  rewrite Rmin_right, Rmax_left in B by lra. lra.
Qed.
Definition ring_leiden : leiden_env := mkLeiden (fun _ => true) (fun _ _ => Ok ring_c) (fun _ _ => Ok ring_c).
Lemma ring_env hi : 0 < hi -> exists env, run_ready env ring 2 /\ ru_leiden env = ring_leiden /\ ru_order env = [1; 0]%nat /\ ru_cpus env = 1%nat /\ ee_contains (ru_est env) = (fun _ => true) /\ exists ests, run_CHAMP env ring [ring_c] 0 hi = Ok ests.
Proof.
  intros Hhi. destruct (@champ_2D_realisable_full ring [ring_c] 0 hi false) as (ce & ranges & C & _ & HR); [apply ring_wf|reflexivity|discriminate|intros c [<-|[]]; reflexivity|cbn; lia|discriminate|lra|].
  set (est := mkEst (fun _ => true) (fun _ x => x) ce (fun l => l) (fun _ => true)). exists (mkRun ring_leiden [1; 0]%nat 1 est). split; [|split; [reflexivity|split; [reflexivity|split; [reflexivity|split; [reflexivity|]]]]].
  - constructor; cbn [ru_leiden ru_order ru_est est ee_set_order ee_champ].
    + apply ring_wf.
    + discriminate.
    + intros k vp m _ E. cbn in E. injection E as <-. reflexivity.
    + apply perm_swap.
    + cbn. lia.
    + intros l. apply Permutation_refl.
    + destruct (c2_pool C) as (Q1 & Q2 & _). auto.
    + apply (c2_lp C).
    + apply (c2_hsi C).
  - unfold run_CHAMP. cbn [ru_est est ee_set_order ee_champ]. rewrite HR. cbn [bind].
    destruct (@ranges_estimates_total est ranges ring ring_wf) as (g' & ests & EE).
    + intros [[s e] d] Hr. destruct (C21_ranges_are_optimal _ _ _ _ _ _ _ C HR s e d Hr) as [[<-|[]] _]. destruct (ring_estimates est eq_refl) as [(x & Hx & _) _]. cbn [snd]. rewrite Hx. eexists; reflexivity.
    + fold est. rewrite EE. eexists; reflexivity.
Qed.
Lemma ring_runs env gammas : ru_leiden env = ring_leiden -> ru_order env = [1; 0]%nat -> ru_cpus env = 1%nat -> length gammas = 2%nat ->
  call_parallel_louvain env ring gammas ["gammas"; "show_progress"]%string = Ok [ring_c].
Proof.
  intros E1 E2 E3 L. unfold call_parallel_louvain. change (forallb (fun k => existsb (String.eqb k) louvain_parameters) ["gammas"; "show_progress"]%string) with true. cbv iota. rewrite E1, E2, E3.
  destruct gammas as [|x [|y [|z gammas]]]; try discriminate. reflexivity.
Qed.
(** The trial is counted: the pairs are stable, nothing with two communities is. *)
Example C100_trial_example : exists env, run_ready env ring 2 /\ bistable_trial 6 2 (mkDraw ring true env) = Ok (Some (false, true)).
Proof.
  destruct (ring_env 2) as (env & HR & E1 & E2 & E3 & EC & ests & HE); [lra|]. exists env. split; [exact HR|].
  assert (EQ : exists s2 s3, bistable_trial 6 2 (mkDraw ring true env) = Ok (Some (s2, s3))).
  { unfold bistable_trial. cbn [dr_connected dr_env dr_graph negb]. change (bistable_truth 6) with (Ok ring_c). change (bistable_truth2 6) with (Ok ring_c2). cbn [bind].
    destruct (ring_estimates (ru_est env)) as [(x & Hx & _) (y & Hy)]; [rewrite EC; reflexivity|]. rewrite Hx. cbn [bind]. rewrite Hy. cbn [bind].
    rewrite (ring_runs env _ E1 E2 E3) by reflexivity. cbn [bind]. rewrite HE. cbn [bind].
    assert (Nd : NoDup [ring_c]) by (constructor; [intros []|constructor]).
    destruct (@champ_stable env ring 2 [ring_c] 0 2 ests HR Nd ltac:(cbn; lia) ltac:(intros c [<-|[]]; reflexivity) HE) as [_ IN].
    destruct (@stability_spec ests) as (a & b & Eab & _ & _); [intros z Hz; destruct (IN z Hz) as [<-|[]]; exists 3%nat; reflexivity|]. rewrite Eab. cbn [bind]. eauto. }
  destruct EQ as (s2 & s3 & EQ). rewrite EQ. destruct (C100_trial _ _ (mkDraw ring true env) s2 s3 HR EQ) as (_ & H & H' & parts & stable & W1 & W2 & F & (S1 & S2 & S3) & T2 & T3).
  cbn [dr_env dr_graph] in *. rewrite EC in W1. cbn in W1. subst H. rewrite E1 in W2. cbn in W2. subst H'.
  assert (HP : forall c, In c parts <-> c = ring_c).
  { destruct F as [_ F]. intros c. rewrite F, E1. split.
    - intros (i & g & m & _ & Hm & Hc). cbn in Hm. injection Hm as <-. destruct Hc as [Hs Hc]. symmetry. eapply canonical_unique; [|exact Hc|exact Hs]. apply (@sorted_tuple_canonical [0; 0; 1; 1; 2; 2]%Z ring_c). reflexivity.
    - intros ->. exists 0%nat, 0, ring_c. split; [cbn; f_equal; lra|]. split; [reflexivity|]. split; [|apply (@sorted_tuple_canonical [0; 0; 1; 1; 2; 2]%Z ring_c); reflexivity].
      split; [reflexivity|]. intros i j a a' b b' Ha Ha' Hb Hb'. rewrite Ha in Hb. rewrite Ha' in Hb'. inversion Hb; inversion Hb'; subst; tauto. }
  assert (H3 : has_communities ring_c 3). { exists [0; 1; 2]%nat. split; [repeat constructor; cbn; lia|]. split; [reflexivity|]. intros x. cbn. tauto. }
  destruct (ring_estimates (ru_est env)) as [(x & Hx & Bx) _]; [rewrite EC; reflexivity|].
  assert (In ring_c stable) as Hin. { apply (S3 ring_c x); [apply HP; reflexivity|rewrite Hx; reflexivity|lra|]. intros d Hd N. apply HP in Hd. contradiction. }
  f_equal. f_equal. f_equal.
  - destruct s2; [|reflexivity]. destruct (proj1 T2 eq_refl) as (c & Hc & H2). destruct (S2 c Hc) as [Hp _]. apply HP in Hp. subst c. pose proof (has_communities_unique H2 H3). discriminate.
  - apply T3. eauto.
Qed.
Example C100_shares_example : exists rows, bistable_probabilities 2 (fun _ => [Ok (Some (true, false)); Ok None; Ok (Some (true, true)); Raise ValueError]) bistable_p2s = Some (Ok rows) /\ forall row, In row rows -> row = (1, 1 / 2, 1 / 2).
Proof.
  assert (X : forall p2s, exists rows, bistable_probabilities 2 (fun _ => [Ok (Some (true, false)); Ok None; Ok (Some (true, true)); Raise ValueError]) p2s = Some (Ok rows)).
  { induction p2s as [|p p2s (rows & E)]; [eexists; reflexivity|]. cbn [bistable_probabilities]. change (bistable_loop _ _ _) with (Some (Ok (mkCounts 2 2 1 1))). cbn [ct_total ct_2 ct_3 ct_both]. unfold py_div.
    destruct (Req_EM_T (INR 2) 0) as [Z|_]; [cbn in Z; lra|]. cbn [bind]. rewrite E. eauto. }
  destruct (X bistable_p2s) as (rows & E). exists rows. split; [exact E|]. apply C100_shares in E; [|lia]. intros row Hin. clear X.
  induction E as [|p r ps rs Hr F IH]; [destruct Hin|]. destruct Hin as [->|Hin]; [|auto]. destruct Hr as (used & rest & A & B & C & D & ->).
  destruct used as [|t1 [|t2 [|t3 [|t4 used]]]]; cbn [app] in A; [discriminate C|injection A as <- A; discriminate C|injection A as <- <- A; discriminate C| |].
  - injection A as <- <- <- A. cbn [counted how_many fst snd andb Nat.add]. replace (INR 2 / INR 2) with 1 by (cbn; lra). replace (INR 1 / INR 2) with (1 / 2) by (cbn; lra). reflexivity.
  - injection A as <- <- <- <- A. exfalso. destruct (B (Raise ValueError)) as (o & F'); [cbn; auto|discriminate].
Qed.
Lemma main_writes N n trials rows : bistable_probabilities n trials bistable_p2s = Some (Ok rows) -> fst (bistable_main N n trials None) = map (fun k => Some (firstn k (output_lines N bistable_p2s rows))) (seq 0 6).
Proof. intros E. unfold bistable_main. rewrite E. reflexivity. Qed.
Example C100_file_example : forall N, exists n file, file_history N n file /\ file <> None /\ forall trials, snd (bistable_main N n trials file) = Some (Raise ValueError).
Proof.
  intros N. destruct C100_shares_example as (rows & E & _). exists 2%nat, (Some (firstn 3 (output_lines N bistable_p2s rows))). split; [|split; [discriminate|reflexivity]].
  eapply after_run; [constructor|]. rewrite (main_writes _ _ _ _ E). apply in_map_iff. exists 3%nat. split; [reflexivity|]. apply in_seq. lia.
Qed.
Example C101_karate_example : exists env files, run_ready env ring 2 /\ karate_files env ring [ring_c] = Ok files /\ forall x, In x files <-> x = (3, 0, ring_c)%nat.
Proof.
  destruct (ring_env 2) as (env & HR & E1 & E2 & E3 & EC & ests & HE); [lra|]. exists env.
  assert (X : exists files, karate_files env ring [ring_c] = Ok files).
  { unfold karate_files. cbn [mapM]. assert (K : forall K, karate_stable env ring [ring_c] K = match map snd (filter (fun kp => Nat.eqb (fst kp) K) [(3%nat, ring_c)]) with [] => Ok [] | restricted_parts => let! gamma_estimates := run_CHAMP env ring restricted_parts 0 2 in Ok (enumerate (gamma_estimates_to_stable_partitions gamma_estimates)) end) by reflexivity.
    rewrite !K. cbn [filter fst Nat.eqb map snd bind]. rewrite HE. cbn [bind]. eauto. }
  destruct X as (files & HF). exists files. split; [exact HR|]. split; [exact HF|].
  assert (H3 : has_communities ring_c 3). { exists [0; 1; 2]%nat. split; [repeat constructor; cbn; lia|]. split; [reflexivity|]. intros x. cbn. tauto. }
  assert (Q := C101_karate env ring 2 [ring_c] files HR ltac:(constructor; [intros []|constructor]) ltac:(cbn; lia) ltac:(intros c [<-|[]]; reflexivity) HF).
  destruct (ring_estimates (ru_est env)) as [(x & Hx & Bx) _]; [rewrite EC; reflexivity|].
  assert (ST : exists stable, (forall c, In c stable <-> c = ring_c) /\ NoDup stable /\ forall i p, In (3%nat, i, p) files <-> nth_error stable i = Some p).
  { destruct (Q 3%nat) as [Q3 _]. destruct Q3 as (stable & (S1 & S2 & S3) & I); [right; left; reflexivity|]. exists stable. split; [|auto]. intros c. split.
    - intros Hc. destruct (S2 c Hc) as [[[<-|[]] _] _]. reflexivity.
    - intros ->. apply (S3 ring_c x); [split; [left; reflexivity|exact H3]|rewrite Hx; reflexivity|lra|]. intros d [[<-|[]] _] N. contradiction. }
  destruct ST as (stable & IS & NS & I). assert (stable = [ring_c]) as ->.
  { destruct stable as [|a [|b l]]; [exfalso; apply (proj2 (IS ring_c) eq_refl)| |].
    - f_equal. apply IS. left. reflexivity.
    - exfalso. inversion NS as [|? ? N1 _]. apply N1. left. rewrite (proj1 (IS a) (or_introl eq_refl)). apply IS. right. left. reflexivity. }
  intros [[K i] p]. split.
  - intros Hin. destruct (in_dec Nat.eq_dec K [2; 3; 4]%nat) as [HK|HK]; [|exfalso; exact (proj2 (Q K) HK i p Hin)].
    destruct (Nat.eq_dec K 3) as [->|N3].
    + apply I in Hin. destruct i as [|[|i]]; try discriminate. injection Hin as <-. reflexivity.
    + exfalso. destruct (proj1 (Q K) HK) as (st & (S1 & S2 & _) & J). apply J in Hin. apply nth_error_In in Hin. destruct (S2 p Hin) as [[[<-|[]] HC] _]. apply N3. eapply has_communities_unique; eauto.
  - intros E. injection E as -> -> ->. apply I. reflexivity.
Qed.
