(** Property theorems: what changes along CHAMP's ranges (C86), and gamma estimates that lead in circles (C87). *)
From Verif Require Import PyBase PyGraph M_partition M_pool M_champ M_estimation_utils M_loops Spec Spec_leiden Spec_graph Spec_champ Spec_sbm Spec_prune Spec_loops
  L_base L_canon L_leiden L_modularity L_modularity3 L_champ L_champ2 L_champ3 L_sbm L_sbm2 L_prune L_loops
  Properties_partition Properties_coefficients Properties_champ Properties_sbm Properties_prune Properties_pipeline.
From Coq Require Import Permutation Sorted.
Open Scope R_scope.

(** ** C86 *)
(** Going to a larger gamma, the optimal partitions' P_hat and (for gamma >= 0) A_hat can only go down, and they go down together. *)
Theorem C86_coefficients_decrease : forall env g parts gamma_0 gamma_f single_threaded ranges s e p s' e' p' a a' q q' gamma gamma',
  champ_ok_2D env g parts -> CHAMP_2D env g parts gamma_0 gamma_f single_threaded = Ok ranges ->
  In (s, e, p) ranges -> In (s', e', p') ranges ->
  partition_coefficients_2D_serial g [p; p'] = Ok ([a; a'], [Fin q; Fin q']) ->
  s <= gamma <= e -> s' <= gamma' <= e' -> gamma < gamma' ->
  q' <= q /\ (q' = q -> a' = a) /\ (0 <= gamma -> a' <= a) /\ (0 < gamma -> q' < q -> a' < a).
Proof.
  intros env g parts g0 gf st ranges s e p s' e' p' a a' q q' x x' Hok H H1 H2 HC Hx Hx' Hlt.
  destruct (C21_ranges_are_optimal _ _ _ _ _ _ _ Hok H s e p H1) as [Hp O1]. destruct (C21_ranges_are_optimal _ _ _ _ _ _ _ Hok H s' e' p' H2) as [Hp' O2].
  specialize (O1 x p' Hx Hp'). specialize (O2 x' p Hx' Hp). rewrite !modularity_AP in O1, O2.
  rewrite coefficients_2D_ok in HC; [|apply Hok|apply Hok|intros c [<-|[<-|[]]]; apply (c2_parts Hok); auto]. inversion HC; subst. clear HC.
  assert (Q : 0 <= (x' - x) * (P_of g p - P_of g p')) by lra. assert (D : P_of g p' <= P_of g p) by nra. split; auto. split; [intros E; rewrite E in *; nra|]. split; intros; nra.
Qed.
Print Assumptions C86_coefficients_decrease.

(** Multilayer: along a line of constant omega P_hat goes down with gamma; along a line of constant gamma C_hat goes up with omega. *)
Theorem C86_multilayer : forall env g gi lv parts gamma_0 gamma_f omega_0 omega_f domains poly p poly' p' a a' q q' c c' gamma omega gamma' omega',
  champ_ok_3D env g gi lv parts -> CHAMP_3D env g gi lv parts gamma_0 gamma_f omega_0 omega_f = Ok domains ->
  In (poly, p) domains -> In (poly', p') domains ->
  partition_coefficients_3D_serial g gi lv [p; p'] = Ok ([a; a'], [Fin q; Fin q'], [c; c']) ->
  in_polygon poly (gamma, omega) -> in_polygon poly' (gamma', omega') ->
  (gamma' - gamma) * (q' - q) <= (omega' - omega) * (c' - c) /\
  (omega = omega' -> gamma < gamma' -> q' <= q) /\ (gamma = gamma' -> omega < omega' -> c <= c').
Proof.
  intros env g gi lv parts g0 gf o0 of domains poly p poly' p' a a' q q' c c' x y x' y' Hok H H1 H2 HC Hx Hx'.
  destruct (C24_domains_are_optimal _ _ _ _ _ _ _ _ _ _ Hok H poly p H1) as (Hp & _ & _ & O1). destruct (C24_domains_are_optimal _ _ _ _ _ _ _ _ _ _ Hok H poly' p' H2) as (Hp' & _ & _ & O2).
  specialize (O1 x y p' Hx Hp'). specialize (O2 x' y' p Hx' Hp). rewrite !multilayer_APC in O1, O2.
  destruct Hok. rewrite coefficients_3D_ok in HC; auto; [|intros d [<-|[<-|[]]]; auto]. inversion HC; subst. clear HC.
  assert (Q : (x' - x) * (P3_of g lv p' - P3_of g lv p) <= (y' - y) * (A_of gi p' - A_of gi p)) by lra.
  split; auto. split; intros; subst; nra.
Qed.
Print Assumptions C86_multilayer.

(** The experiment's test is exact: it fires when some range is followed by one whose partition has fewer communities. *)
Theorem C86_experiment_exact : forall ranges found, finds_nonmonotonic_K ranges = Ok found ->
  found = true <-> exists before s e p s' e' p' after k k', ranges = before ++ (s, e, p) :: (s', e', p') :: after /\
    has_communities p k /\ has_communities p' k' /\ (k' < k)%nat.
Proof.
  intros ranges found H. unfold finds_nonmonotonic_K in H. apply bind_ok in H as (Ks & HK & H). inversion H; subst. clear H. apply mapM_inv in HK.
  induction HK as [|[[s e] p] k l Ks Hk F IH]; [split; [discriminate|intros (b & ? & ? & ? & ? & ? & ? & ? & ? & ? & E & _); destruct b; discriminate]|].
  cbn [snd] in Hk. apply num_communities_has in Hk. destruct F as [|[[s' e'] p'] k' l Ks Hk' F].
  - split; [discriminate|]. intros (b & ? & ? & ? & ? & ? & ? & ? & ? & ? & E & _). destruct b as [|? [|]]; discriminate.
  - cbn [drops]. cbn [snd] in Hk'. apply num_communities_has in Hk'. rewrite orb_true_iff. split.
    + intros [L|D]; [apply Nat.ltb_lt in L; exists [], s, e, p, s', e', p', l, k, k'; auto|].
      apply IH in D as (b & s1 & e1 & p1 & s2 & e2 & p2 & aft & k1 & k2 & E & R). exists ((s, e, p) :: b), s1, e1, p1, s2, e2, p2, aft, k1, k2. rewrite E. split; [reflexivity|auto].
    + intros (b & s1 & e1 & p1 & s2 & e2 & p2 & aft & k1 & k2 & E & R1 & R2 & L). destruct b as [|r b].
      * cbn [app] in E. inversion E; subst. left. apply Nat.ltb_lt. rewrite (has_communities_unique Hk R1), (has_communities_unique Hk' R2). auto.
      * right. apply IH. cbn [app] in E. inversion E. exists b, s1, e1, p1, s2, e2, p2, aft, k1, k2. auto.
Qed.
Print Assumptions C86_experiment_exact.

(** The number of communities, in contrast, can go down: a graph with nine vertices and twelve edges whose best partition has three
    communities at gamma = 7/10 and two at gamma = 19/20; both are the only optima among all partitions. *)
Definition nine : graph := mkGraph 9 false [(0, 1); (0, 2); (0, 4); (0, 5); (1, 2); (1, 4); (2, 4); (2, 7); (2, 8); (3, 7); (4, 5); (6, 8)]%nat None.
Definition nine_3 : list nat := [0; 0; 0; 1; 0; 0; 2; 1; 2]%nat.
Definition nine_2 : list nat := [0; 0; 1; 1; 0; 0; 1; 1; 1]%nat.
Lemma nine_wf : wf_graph nine.
Proof. split; [|discriminate]. intros u v H. cbn in H. repeat (destruct H as [E|H]; [inversion E; subst; cbn; lia|]). destruct H. Qed.

(** den * 24 * (A - num / den * P), in integers *)
Definition nine_quality (num den : Z) (c : list nat) : option Z :=
  match count_internal (edges nine) c, p_numerator nine c with
  | Ok a, Ok s => Some (den * 48 * Z.of_nat a - num * Z.of_nat s)%Z
  | _, _ => None
  end.
Lemma nine_quality_ok num den c : (0 < den)%Z -> length c = 9%nat ->
  exists z, nine_quality num den c = Some z /\ modularity nine (IZR num / IZR den) c = IZR z / (24 * IZR den).
Proof.
  intros Hd Hl. pose proof nine_wf as W. assert (Hl' : length c = vcount nine) by (rewrite Hl; reflexivity).
  destruct (@p_hat_ok nine c W ltac:(discriminate) Hl') as (s & Hs & HP).
  assert (HA : internal_hat nine c = Ok (A_of nine c)) by (apply internal_hat_ok; auto; lia).
  unfold internal_hat in HA. destruct (count_internal (edges nine) c) as [a|] eqn:Ha; [|discriminate]. cbn [bind directed nine] in HA.
  assert (EA : INR (2 * a) = A_of nine c) by (inversion HA; auto).
  unfold nine_quality. rewrite Ha, Hs. eexists. split; [reflexivity|]. rewrite modularity_AP, <- EA.
  change (if directed nine then ecount nine else (2 * ecount nine)%nat) with 24%nat in HP. replace (INR 24) with 24 in HP by (cbn; lra).
  unfold np_div in HP. destruct (Req_EM_T 24 0); [lra|]. assert (EP : INR s / 24 = P_of nine c) by (inversion HP; auto). rewrite <- EP.
  rewrite minus_IZR, !mult_IZR, <- !INR_IZR_INZ, mult_INR. replace (INR 2) with 2 by (cbn; lra). apply IZR_lt in Hd. field. lra.
Qed.

Definition nine_check (num den : Z) (best : list nat) : bool :=
  match nine_quality num den best with
  | None => false
  | Some b => forallb (fun c => match nine_quality num den c with
                                | Some z => Z.ltb z b || (if list_eq_dec Nat.eq_dec c best then true else false)
                                | None => false end) (rgs 0 9)
  end.
Lemma nine_check_3 : nine_check 7 10 nine_3 = true.
Proof. vm_compute. reflexivity. Qed.
Lemma nine_check_2 : nine_check 19 20 nine_2 = true.
Proof. vm_compute. reflexivity. Qed.

Lemma nine_best num den best : (0 < den)%Z -> length best = 9%nat -> nine_check num den best = true ->
  forall d, length d = 9%nat -> modularity nine (IZR num / IZR den) d <= modularity nine (IZR num / IZR den) best /\
    (modularity nine (IZR num / IZR den) d = modularity nine (IZR num / IZR den) best -> same_partition d best).
Proof.
  intros Hd Hb Hc d Hl. destruct (sorted_tuple_total (map Z.of_nat d)) as [c Hs].
  pose proof (sorted_tuple_same_partition _ Hs) as S. apply same_partition_Z in S. pose proof (sorted_tuple_canonical _ Hs) as C.
  assert (Lc : length c = 9%nat) by (destruct S; congruence). rewrite (modularity_same nine _ d c S) by (cbn; lia).
  pose proof (rgs_all C) as I. rewrite Lc in I. unfold nine_check in Hc. destruct (nine_quality_ok num den best Hd Hb) as (b & Eb & Qb). rewrite Eb in Hc.
  rewrite forallb_forall in Hc. specialize (Hc c I). destruct (nine_quality_ok num den c Hd Lc) as (z & Ez & Qz). rewrite Ez in Hc. rewrite Qb, Qz.
  assert (Hd' : 0 < / (24 * IZR den)) by (apply Rinv_0_lt_compat; apply IZR_lt in Hd; lra).
  apply orb_true_iff in Hc as [Hc|Hc].
  - apply Z.ltb_lt in Hc. apply IZR_lt in Hc. unfold Rdiv. split; [nra|]. intros E. exfalso. nra.
  - destruct (list_eq_dec Nat.eq_dec c best) as [->|]; [|discriminate]. assert (z = b) by congruence. subst. split; [lra|]. auto.
Qed.

Theorem C86_communities_can_decrease :
  (forall d, length d = vcount nine -> modularity nine (7 / 10) d <= modularity nine (7 / 10) nine_3 /\
     (modularity nine (7 / 10) d = modularity nine (7 / 10) nine_3 -> same_partition d nine_3)) /\ has_communities nine_3 3 /\
  (forall d, length d = vcount nine -> modularity nine (19 / 20) d <= modularity nine (19 / 20) nine_2 /\
     (modularity nine (19 / 20) d = modularity nine (19 / 20) nine_2 -> same_partition d nine_2)) /\ has_communities nine_2 2 /\
  (forall env parts single_threaded ranges, champ_ok_2D env nine parts -> (forall c, In c parts -> canonical c) ->
     In nine_3 parts -> In nine_2 parts -> CHAMP_2D env nine parts 0 1 single_threaded = Ok ranges ->
     finds_nonmonotonic_K ranges = Ok true).
Proof.
  assert (B3 := nine_best 7 10 nine_3 ltac:(lia) eq_refl nine_check_3). assert (B2 := nine_best 19 20 nine_2 ltac:(lia) eq_refl nine_check_2).
  split; [exact B3|]. split; [exists [0; 1; 2]%nat; split; [repeat (constructor; [cbn; lia|]); constructor|split; [reflexivity|]]; intros x; cbn; tauto|].
  split; [exact B2|]. split; [exists [0; 1]%nat; split; [repeat (constructor; [cbn; lia|]); constructor|split; [reflexivity|]]; intros x; cbn; tauto|].
  intros env parts st ranges Hok Hcan I3 I2 H.
  assert (W : forall gamma best, In best parts -> 0 <= gamma <= 1 ->
     (forall d, length d = vcount nine -> modularity nine gamma d <= modularity nine gamma best /\ (modularity nine gamma d = modularity nine gamma best -> same_partition d best)) ->
     (exists s e, In (s, e, best) ranges /\ s <= gamma <= e) /\ forall s e p, In (s, e, p) ranges -> s <= gamma <= e -> p = best).
  { intros gamma best Ib Hg Hb.
    assert (U : forall s e p, In (s, e, p) ranges -> s <= gamma <= e -> p = best).
    { intros s e p Hin Hse. destruct (C21_ranges_are_optimal _ _ _ _ _ _ _ Hok H s e p Hin) as [Hp O]. specialize (O gamma best Hse Ib).
      destruct (Hb p (c2_parts Hok p Hp)) as [Q1 Q2]. apply canonical_unique; auto. apply Q2. lra. }
    split; auto. destruct (C22_ranges_cover env nine parts 0 1 st ranges gamma Hok ltac:(intros Q; rewrite Q in Ib; destruct Ib) H Hg) as (s & e & p & Hin & Hse).
    exists s, e. rewrite <- (U s e p Hin Hse). auto. }
  destruct (W (7 / 10) nine_3 I3 ltac:(lra) B3) as [(s3 & e3 & R3 & G3) U3]. destruct (W (19 / 20) nine_2 I2 ltac:(lra) B2) as [(s2 & e2 & R2 & G2) _].
  assert (L : 7 / 10 < s2).
  { destruct (Rlt_dec (7 / 10) s2) as [|N]; auto. exfalso. assert (E : nine_2 = nine_3) by (apply (U3 s2 e2 nine_2 R2); lra). discriminate. }
  destruct (C23_ranges_well_formed _ _ _ _ _ _ _ Hok H) as (_ & So & _).
  assert (K : forall r, In r ranges -> num_communities (snd r) = Ok (length (nodup Nat.eq_dec (snd r)))).
  { intros [[s e] p] Hr. destruct (C21_ranges_are_optimal _ _ _ _ _ _ _ Hok H s e p Hr) as [Hp _]. cbn [snd].
    destruct (@num_communities_canonical p (Hcan p Hp)) as (k & Hk & _); [intros ->; pose proof (c2_parts Hok _ Hp); discriminate|].
    unfold num_communities in *. destruct (py_max p) as [m|]; [|discriminate]. cbn [bind] in *. destruct (_ =? _)%nat; [reflexivity|discriminate]. }
  unfold finds_nonmonotonic_K. rewrite (mapM_ok (fun r : R * R * list nat => num_communities (snd r)) (fun r => length (nodup Nat.eq_dec (snd r)))) by exact K. cbn [bind].
  f_equal. apply in_split in R3 as (l1 & l2 & ->).
  assert (R2' : In (s2, e2, nine_2) l2).
  { apply in_app_or in R2 as [R2|[R2|R2]]; [|inversion R2|auto]. exfalso. apply in_split in R2 as (l3 & l4 & ->).
    rewrite <- app_assoc in So. apply StronglySorted_app_r in So. cbn [app] in So. inversion So as [|? ? _ F]; subst. rewrite Forall_forall in F.
    specialize (F (s3, e3, nine_3)). cbn [fst] in F. assert (s2 <= s3) by (apply F; apply in_or_app; right; left; auto). lra. }
  rewrite map_app. apply drops_app. cbn [map snd]. eapply drops_smaller; [apply in_map_iff; exists (s2, e2, nine_2); split; [reflexivity|exact R2']|]. cbn. lia.
Qed.
Print Assumptions C86_communities_can_decrease.

Example C86_example : exists env ranges, champ_ok_2D env nine [nine_2; nine_3] /\ CHAMP_2D env nine [nine_2; nine_3] 0 1 false = Ok ranges /\ finds_nonmonotonic_K ranges = Ok true.
Proof.
  destruct (C21_C22_C23_realisable nine [nine_2; nine_3] 0 1 false) as (env & ranges & H1 & H2); auto; try discriminate; try lra; try (cbn; lia).
  - apply nine_wf.
  - intros c [<-|[<-|[]]]; reflexivity.
  - exists env, ranges. split; auto. split; auto. apply (proj2 (proj2 (proj2 (proj2 C86_communities_can_decrease))) env _ false ranges H1); auto.
    + intros c [<-|[<-|[]]]; [apply (sorted_tuple_canonical (map Z.of_nat nine_2))|apply (sorted_tuple_canonical (map Z.of_nat nine_3))]; reflexivity.
    + right. left. reflexivity.
    + left. reflexivity.
Qed.

(** ** C87 *)
(** The search for loops by following estimates for 1000 steps is exact, for fewer than 1000 ranges with different partitions. *)
Theorem C87_loop_detection_exact : forall gamma_estimates, NoDup (map (fun r => snd (fst r)) gamma_estimates) -> (length gamma_estimates < 1000)%nat ->
  loop_detected gamma_estimates = true <-> estimates_cycle gamma_estimates.
Proof.
  intros ests Nd Hl. unfold loop_detected. split.
  - intros H. apply existsb_exists in H as ([[[s e] a] est] & Hin & H). cbn [fst snd] in H. apply (@detected_cycle ests s e a est 999); auto. lia.
  - intros (f & k & Hk & E & HF).
    assert (HP : forall a, (exists i, (i < k)%nat /\ a = f i) -> exists b, (exists i, (i < k)%nat /\ b = f i) /\ leads ests a b /\ a <> b).
    { intros a (i & Hi & ->). destruct (HF i Hi) as [L N]. exists (f (S i)). split; auto.
      destruct (Nat.eq_dec (S i) k) as [Q|Q]; [exists 0%nat; split; [lia|congruence]|exists (S i); split; [lia|auto]]. }
    destruct (HF 0%nat Hk) as [(s & e & x & y & Hin & _) _]. apply existsb_exists. exists (s, e, f 0%nat, Some (Fin x)). split; auto. cbn [fst snd].
    eapply (@keeps_moving_forever ests _ Nd HP); [exists 0%nat; auto|exact Hin].
Qed.
Print Assumptions C87_loop_detection_exact.

(** If every estimate lies in some range, then some partition is stable or there is a loop. *)
Theorem C87_stable_or_loop : forall gamma_estimates, NoDup (map (fun r => snd (fst r)) gamma_estimates) -> gamma_estimates <> [] ->
  (forall s e a est, In (s, e, a, est) gamma_estimates -> exists x s' e' b y, est = Some (Fin x) /\ In (s', e', b, y) gamma_estimates /\ s' <= x <= e') ->
  gamma_estimates_to_stable_partitions gamma_estimates <> [] \/ loop_detected gamma_estimates = true.
Proof.
  intros ests Nd Hne Hin. destruct (gamma_estimates_to_stable_partitions ests) as [|c l] eqn:E; [|left; discriminate]. right.
  assert (Ns : forall s e a x, In (s, e, a, Some (Fin x)) ests -> ~ (s <= x <= e)).
  { intros s e a x H Q. unfold gamma_estimates_to_stable_partitions in E. apply map_eq_nil in E.
    assert (I : In (s, e, a, Some (Fin x)) (filter (fun x => within (fst (fst (fst x))) (snd (fst (fst x))) (snd x)) ests)); [|rewrite E in I; destruct I].
    apply filter_In. split; auto. cbn [fst snd]. apply within_fin. auto. }
  destruct ests as [|[[[s e] a] est] rest] eqn:Ee; [congruence|]. rewrite <- Ee in *. clear Hne.
  assert (Ia : In (s, e, a, est) ests) by (rewrite Ee; left; auto). unfold loop_detected. apply existsb_exists. exists (s, e, a, est). split; auto. cbn [fst snd].
  apply (@keeps_moving_forever ests (fun a => exists s e y, In (s, e, a, y) ests) Nd) with (s := s) (e := e); auto; [|eauto].
  intros a0 (s0 & e0 & y0 & H0). destruct (Hin s0 e0 a0 y0 H0) as (x & s' & e' & b' & y' & -> & Hb' & Hx).
  destruct (@domain_some ests x) as (b & y & D); [eauto 10|]. apply domain_lands in D. destruct (lands_in D) as (s2 & e2 & Hb & Hxb).
  exists b. split; [eauto|]. split; [exists s0, e0, x, y; auto|]. intros ->. pose proof (@nodup_members ests _ _ _ _ _ _ _ Nd H0 Hb) as Q. inversion Q; subst. apply (Ns _ _ _ _ H0). auto.
Qed.
Print Assumptions C87_stable_or_loop.

(** If pruning returns nothing although every considered partition has an estimate within the interval, then the estimates lead in a
    circle: each partition's estimate is where another one is optimal. *)
Theorem C87_pruned_to_nothing : forall env g inputs gamma_start gamma_end restrict single_threaded warnings g',
  prune_ok_2D env g inputs -> (exists c, considered inputs restrict c) ->
  (forall c, considered inputs restrict c -> exists gamma, snd (gamma_estimate env g (Membership c)) = Ok (Some (Fin gamma)) /\ gamma_start <= gamma <= gamma_end) ->
  prune_to_stable_partitions env g (Tuples inputs) gamma_start gamma_end restrict single_threaded = (warnings, g', Ok []) ->
  exists (f : nat -> list nat) (k : nat), (0 < k)%nat /\ f k = f 0%nat /\ forall i, (i < k)%nat ->
    considered inputs restrict (f i) /\ f i <> f (S i) /\
    exists gamma, snd (gamma_estimate env g (Membership (f i))) = Ok (Some (Fin gamma)) /\
      forall d, considered inputs restrict d -> modularity g gamma d <= modularity g gamma (f (S i)).
Proof.
  intros env g inputs gs ge restrict st w g' Hok (c0 & Hc0) Hest H.
  destruct (@prune_2D_ok env g inputs gs ge restrict st Hok []) as (ps & ranges & Nd & I & C & HR & Hin & _); [rewrite H; reflexivity|].
  assert (Hps : ps <> []) by (intros E; apply I in Hc0; rewrite E in Hc0; destruct Hc0).
  destruct (@walk_cycle (map snd ranges) (fun a b => considered inputs restrict a /\ a <> b /\ exists gamma, snd (gamma_estimate env g (Membership a)) = Ok (Some (Fin gamma)) /\
      forall d, considered inputs restrict d -> modularity g gamma d <= modularity g gamma b)) as (f & k & Hk & Ef & F).
  - destruct (Hest c0 Hc0) as (x & _ & Hx). destruct (C22_ranges_cover _ _ _ _ _ _ _ x C Hps HR Hx) as (s & e & p & Hp & _). intros E. apply (in_map snd) in Hp. rewrite E in Hp. destruct Hp.
  - intros a Ha. apply in_map_iff in Ha as ([[s e] a'] & E & Ha). cbn in E. subst a'.
    destruct (C21_ranges_are_optimal _ _ _ _ _ _ _ C HR s e a Ha) as [Hp _]. apply I in Hp. destruct (Hest a Hp) as (x & Ex & Hx).
    destruct (C22_ranges_cover _ _ _ _ _ _ _ x C Hps HR Hx) as (s' & e' & b & Hb & Hx'). exists b. split; [apply in_map_iff; exists (s', e', b); auto|]. split; auto. split.
    + intros <-. assert (Q : In a []); [|destruct Q]. apply Hin. eauto 10.
    + exists x. split; auto. intros d Hd. apply (C21_ranges_are_optimal _ _ _ _ _ _ _ C HR s' e' b Hb); auto. apply I. auto.
  - exists f, k. split; auto. split; auto. intros i Hi. apply (F i Hi).
Qed.
Print Assumptions C87_pruned_to_nothing.

(** The condition that the second experiment searches for: two partitions, each better than the other one at the other one's
    estimate.  Pruning these two returns nothing, and following the estimates would report a loop. *)
Theorem C87_loop_pair : forall env g inputs gamma_start gamma_end restrict single_threaded warnings g' result p1 p2,
  prune_ok_2D env g inputs -> (forall c, considered inputs restrict c <-> c = p1 \/ c = p2) ->
  loop_pair (fun c gamma => modularity g gamma c) (fun c => snd (gamma_estimate env g (Membership c))) p1 p2 = Ok true ->
  prune_to_stable_partitions env g (Tuples inputs) gamma_start gamma_end restrict single_threaded = (warnings, g', Ok result) -> result = [].
Proof.
  intros env g inputs gs ge restrict st w g' result p1 p2 Hok Hc HL H. unfold loop_pair in HL.
  destruct (snd (gamma_estimate env g (Membership p1))) as [o1|] eqn:E1; [|discriminate]. destruct (snd (gamma_estimate env g (Membership p2))) as [o2|] eqn:E2; [|discriminate].
  cbn [bind] in HL. destruct o1 as [[x1|]|]; try discriminate. destruct o2 as [[x2|]|]; try discriminate.
  destruct (Rlt_dec (modularity g x2 p2) (modularity g x2 p1)) as [L2|]; [|discriminate]. destruct (Rlt_dec (modularity g x1 p1) (modularity g x1 p2)) as [L1|]; [|discriminate].
  destruct result as [|c result]; [reflexivity|]. exfalso. destruct (C40_prune_sound _ _ _ _ _ _ _ _ _ _ Hok H c (or_introl eq_refl)) as (Hcc & x & Ex & _ & O).
  apply Hc in Hcc as [-> | ->].
  - assert (x = x1) by congruence. subst. specialize (O p2 (proj2 (Hc p2) (or_intror eq_refl))). lra.
  - assert (x = x2) by congruence. subst. specialize (O p1 (proj2 (Hc p1) (or_introl eq_refl))). lra.
Qed.
Print Assumptions C87_loop_pair.

(** ... and, when the two estimates lie within the interval, following the estimates through CHAMP's ranges reports a loop. *)
Theorem C87_loop_pair_detected : forall env g parts gamma_start gamma_end single_threaded ranges g' gamma_estimates p1 p2 gamma1 gamma2,
  champ_ok_2D (ee_champ env) g parts -> NoDup parts -> (forall c, In c parts <-> c = p1 \/ c = p2) ->
  CHAMP_2D (ee_champ env) g parts gamma_start gamma_end single_threaded = Ok ranges ->
  ranges_to_gamma_estimates env g ranges = (g', Ok gamma_estimates) ->
  snd (gamma_estimate env g (Membership p1)) = Ok (Some (Fin gamma1)) -> gamma_start <= gamma1 <= gamma_end ->
  snd (gamma_estimate env g (Membership p2)) = Ok (Some (Fin gamma2)) -> gamma_start <= gamma2 <= gamma_end ->
  loop_pair (fun c gamma => modularity g gamma c) (fun c => snd (gamma_estimate env g (Membership c))) p1 p2 = Ok true ->
  gamma_estimates_to_stable_partitions gamma_estimates = [] /\ loop_detected gamma_estimates = true.
Proof.
  intros env g parts gs ge st ranges g' ests p1 p2 x1 x2 C Nd I HR HE E1 B1 E2 B2 HL.
  pose proof (ranges_estimates _ _ (c2_graph C) HE) as F. pose proof (@range_members_nodup env g parts gs ge st ranges ests C Nd HR F) as Nm.
  assert (Hps : parts <> []) by (intros E; assert (Q : In p1 parts) by (apply I; auto); rewrite E in Q; destruct Q).
  unfold loop_pair in HL. rewrite E1, E2 in HL. cbn [bind] in HL.
  destruct (Rlt_dec (modularity g x2 p2) (modularity g x2 p1)) as [L2|]; [|discriminate]. destruct (Rlt_dec (modularity g x1 p1) (modularity g x1 p2)) as [L1|]; [|discriminate].
  assert (R1 : forall s e a est, In (s, e, a, est) ests -> In (s, e, a) ranges /\ snd (gamma_estimate env g (Membership a)) = Ok est).
  { intros s e a est Hin. destruct (@Forall2_in_r _ _ _ _ _ _ F Hin) as ([[s' e'] a'] & Hr & Q1 & Q2). cbn [fst snd] in *. inversion Q1; subst. auto. }
  assert (R2 : forall s e a, In (s, e, a) ranges -> exists est, In (s, e, a, est) ests).
  { intros s e a Hin. destruct (@Forall2_in_l _ _ _ _ _ _ F Hin) as ([r est] & Hr & Q1 & Q2). cbn [fst snd] in *. subst r. eauto. }
  assert (S0 : gamma_estimates_to_stable_partitions ests = []).
  { unfold gamma_estimates_to_stable_partitions. destruct (filter _ ests) as [|[[[s e] a] est] l] eqn:E; [reflexivity|exfalso].
    assert (Q : In (s, e, a, est) ((s, e, a, est) :: l)) by (left; auto). rewrite <- E in Q. apply filter_In in Q as [Hin W]. cbn [fst snd] in W.
    destruct (R1 s e a est Hin) as [Hr Ea]. destruct (C21_ranges_are_optimal _ _ _ _ _ _ _ C HR s e a Hr) as [Hp O]. apply I in Hp as [-> | ->].
    - assert (est = Some (Fin x1)) by congruence. subst. apply within_fin in W. specialize (O x1 p2 W (proj2 (I p2) (or_intror eq_refl))). lra.
    - assert (est = Some (Fin x2)) by congruence. subst. apply within_fin in W. specialize (O x2 p1 W (proj2 (I p1) (or_introl eq_refl))). lra. }
  split; auto. destruct (C87_stable_or_loop ests Nm) as [Q|Q]; [| |congruence|auto].
  - destruct (C22_ranges_cover _ _ _ _ _ _ _ x1 C Hps HR B1) as (s & e & p & Hp & _). apply R2 in Hp as (est & Hp). intros E. rewrite E in Hp. destruct Hp.
  - intros s e a est Hin. destruct (R1 s e a est Hin) as [Hr Ea]. destruct (C21_ranges_are_optimal _ _ _ _ _ _ _ C HR s e a Hr) as [Hp _].
    assert (X : exists x, est = Some (Fin x) /\ gs <= x <= ge).
    { apply I in Hp as [-> | ->]; [exists x1|exists x2]; split; auto; congruence. }
    destruct X as (x & -> & Bx). destruct (C22_ranges_cover _ _ _ _ _ _ _ x C Hps HR Bx) as (s' & e' & b & Hb & Hx). destruct (R2 s' e' b Hb) as (y & Hy). exists x, s', e', b, y. auto.
Qed.
Print Assumptions C87_loop_pair_detected.

(** This happens: a path with four vertices, with the partitions {0,1,2},{3} and {0},{1,2},{3}.  The first one is better below
    gamma = 1 and has its estimate above 1, the second one is better above 1 and has its estimate below 1. *)
Definition path4 : graph := mkGraph 4 false [(0, 1); (0, 3); (1, 2)]%nat (Some [1; 1; 1]).
Definition path4_1 : list nat := [0; 0; 0; 1]%nat.
Definition path4_2 : list nat := [0; 1; 1; 2]%nat.
Lemma path4_wf : wf_graph path4.
Proof. apply wf_literal; [literal_edges|reflexivity]. Qed.
Lemma path4_modularity gamma : modularity path4 gamma path4_1 = 4 - gamma * (13 / 3) /\ modularity path4 gamma path4_2 = 2 - gamma * (7 / 3).
Proof.
  assert (Q : forall c a s, length c = 4%nat -> count_internal (edges path4) c = Ok a -> p_numerator path4 c = Ok s -> modularity path4 gamma c = 2 * INR a - gamma * (INR s / 6)).
  { intros c a s Hl Ha Hs. destruct (@p_hat_ok path4 c path4_wf ltac:(discriminate) Hl) as (s' & Hs' & HP). assert (s' = s) by congruence. subst s'.
    assert (HA : internal_hat path4 c = Ok (A_of path4 c)) by (apply internal_hat_ok; [apply path4_wf|cbn; lia]).
    unfold internal_hat in HA. rewrite Ha in HA. cbn [bind directed path4] in HA. assert (EA : INR (2 * a) = A_of path4 c) by (inversion HA; auto).
    rewrite modularity_AP, <- EA, mult_INR. change (if directed path4 then ecount path4 else (2 * ecount path4)%nat) with 6%nat in HP. replace (INR 6) with 6 in HP by (cbn; lra).
    unfold np_div in HP. destruct (Req_EM_T 6 0); [lra|]. assert (EP : INR s / 6 = P_of path4 c) by (inversion HP; auto). rewrite <- EP. replace (INR 2) with 2 by (cbn; lra). reflexivity. }
  split; [rewrite (Q path4_1 2%nat 26%nat)|rewrite (Q path4_2 1%nat 14%nat)]; try reflexivity; rewrite ?INR_IZR_INZ; cbn [Z.of_nat Pos.of_succ_nat Pos.succ]; lra.
Qed.
Lemma path4_parameters : estimate_singlelayer_SBM_parameters path4 (mkPart 2 path4_1) None = Ok (12 / 13, 6 / 5) /\
  estimate_singlelayer_SBM_parameters path4 (mkPart 3 path4_2) None = Ok (6 / 7, 12 / 11).
Proof.
  split.
  - assert (K : foldM (add_strength path4_1) (combine (edges path4) [1; 1; 1]) (repeat 0 2) = Ok [5; 1]).
    { cbn. repeat (f_equal; try lra). }
    unfold estimate_singlelayer_SBM_parameters. cbn [weights path4 bind wedges part_membership part_len].
    change (combine [(0%nat, 1%nat); (0%nat, 3%nat); (1%nat, 2%nat)] [1; 1; 1]) with (combine (edges path4) [1; 1; 1]).
    cbn [mapM internal_weight same_label py_get nth_error path4_1 bind fst snd edges path4 combine Nat.eqb] in *.
    rewrite K. cbn [bind]. unfold sum_squares. cbn [map]. rewrite ?rsum_cons, ?rsum_nil.
    unfold py_div. match goal with |- context [Req_EM_T ?x 0] => destruct (Req_EM_T x 0) as [Z|_]; [exfalso; lra|] end. cbn [bind].
    match goal with |- context [Req_EM_T ?x 0] => destruct (Req_EM_T x 0) as [Z|_]; [exfalso; lra|] end. cbn [bind Nat.ltb Nat.leb].
    match goal with |- context [Req_EM_T ?x 0] => destruct (Req_EM_T x 0) as [Z|_]; [exfalso; lra|] end. cbn [bind].
    f_equal. f_equal; field; lra.
  - assert (K : foldM (add_strength path4_2) (combine (edges path4) [1; 1; 1]) (repeat 0 3) = Ok [2; 3; 1]).
    { cbn. repeat (f_equal; try lra). }
    unfold estimate_singlelayer_SBM_parameters. cbn [weights path4 bind wedges part_membership part_len].
    change (combine [(0%nat, 1%nat); (0%nat, 3%nat); (1%nat, 2%nat)] [1; 1; 1]) with (combine (edges path4) [1; 1; 1]).
    cbn [mapM internal_weight same_label py_get nth_error path4_2 bind fst snd edges path4 combine Nat.eqb] in *.
    rewrite K. cbn [bind]. unfold sum_squares. cbn [map]. rewrite ?rsum_cons, ?rsum_nil.
    unfold py_div. match goal with |- context [Req_EM_T ?x 0] => destruct (Req_EM_T x 0) as [Z|_]; [exfalso; lra|] end. cbn [bind].
    match goal with |- context [Req_EM_T ?x 0] => destruct (Req_EM_T x 0) as [Z|_]; [exfalso; lra|] end. cbn [bind Nat.ltb Nat.leb].
    match goal with |- context [Req_EM_T ?x 0] => destruct (Req_EM_T x 0) as [Z|_]; [exfalso; lra|] end. cbn [bind].
    f_equal. f_equal; field; lra.
Qed.
Lemma path4_estimates env : ee_contains env path4 = true ->
  exists x1 x2, snd (gamma_estimate env path4 (Membership path4_1)) = Ok (Some (Fin x1)) /\ 1 < x1 < 2 /\
    snd (gamma_estimate env path4 (Membership path4_2)) = Ok (Some (Fin x2)) /\ 0 < x2 < 1.
Proof.
  intros He. unfold gamma_estimate. rewrite He. cbn [snd]. change (leiden_part_with_membership path4 path4_1) with (Ok (mkPart 2 path4_1)).
  change (leiden_part_with_membership path4 path4_2) with (Ok (mkPart 3 path4_2)). cbn [bind]. rewrite (proj1 path4_parameters), (proj2 path4_parameters). cbn [bind].
  destruct (C29_log_mean (12 / 13) (6 / 5)) as (x1 & -> & _ & _ & B1 & B2); try lra. destruct (C29_log_mean (6 / 7) (12 / 11)) as (x2 & -> & _ & _ & B3 & B4); try lra.
  exists x1, x2. split; auto. split; [|split; auto; split; [|lra]].
  - split; [|lra]. apply Rlt_trans with (sqrt (12 / 13 * (6 / 5))); auto. apply Rsqr_incrst_0; [rewrite Rsqr_sqrt by lra; unfold Rsqr; lra|lra|apply sqrt_pos].
  - pose proof (sqrt_pos (6 / 7 * (12 / 11))). lra.
Qed.
Lemma path4_considered c : considered [[0; 0; 0; 1]; [0; 1; 1; 2]]%Z None c <-> c = path4_1 \/ c = path4_2.
Proof.
  assert (S1 : sorted_tuple [0; 0; 0; 1]%Z = Ok path4_1) by reflexivity. assert (S2 : sorted_tuple [0; 1; 1; 2]%Z = Ok path4_2) by reflexivity. split.
  - intros (Hc & (t & [<-|[<-|[]]] & Hs) & _); [left|right]; (eapply canonical_unique; auto; [eapply sorted_tuple_canonical; eassumption|]); (eapply same_partition_trans; [apply same_partition_sym; apply Hs|eapply sorted_tuple_same_partition; eassumption]).
  - intros [-> | ->]; (split; [eapply sorted_tuple_canonical; eassumption|]); (split; [|discriminate]).
    + eexists. split; [left; reflexivity|]. eapply sorted_tuple_same_partition; apply S1.
    + eexists. split; [right; left; reflexivity|]. eapply sorted_tuple_same_partition; apply S2.
Qed.
Example C87_example : exists env, prune_ok_2D env path4 [[0; 0; 0; 1]; [0; 1; 1; 2]]%Z /\
  loop_pair (fun c gamma => modularity path4 gamma c) (fun c => snd (gamma_estimate env path4 (Membership c))) path4_1 path4_2 = Ok true /\
  snd (prune_to_stable_partitions env path4 (Tuples [[0; 0; 0; 1]; [0; 1; 1; 2]]%Z) 0 2 None false) = Ok [].
Proof.
  destruct (C40_realisable path4 [[0; 0; 0; 1]; [0; 1; 1; 2]]%Z 0 2 None false (fun _ => true) (fun _ x => x) (fun _ => true)) as (env & Hok & Hc & _ & _ & H).
  - apply path4_wf.
  - reflexivity.
  - discriminate.
  - intros t [<-|[<-|[]]]; reflexivity.
  - cbn; lia.
  - lra.
  - destruct (path4_estimates env) as (x1 & x2 & E1 & B1 & E2 & B2); [rewrite Hc; reflexivity|].
    assert (L : loop_pair (fun c gamma => modularity path4 gamma c) (fun c => snd (gamma_estimate env path4 (Membership c))) path4_1 path4_2 = Ok true).
    { unfold loop_pair. rewrite E1, E2. cbn [bind]. rewrite !(proj1 (path4_modularity _)), !(proj2 (path4_modularity _)).
      destruct (Rlt_dec _ _) as [|N]; [|exfalso; lra]. destruct (Rlt_dec _ _) as [|N]; [reflexivity|exfalso; lra]. }
    destruct H as (result & H); [intros c Hcc; apply path4_considered in Hcc as [-> | ->]; eauto|]. exists env. split; auto. split; auto. rewrite H. f_equal.
    destruct (prune_to_stable_partitions env path4 (Tuples [[0; 0; 0; 1]; [0; 1; 1; 2]]%Z) 0 2 None false) as [[w g'] r] eqn:E. cbn [snd] in H. subst r.
    apply (C87_loop_pair env path4 _ 0 2 None false w g' result path4_1 path4_2 Hok path4_considered L E).
Qed.
