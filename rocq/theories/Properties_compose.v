(** Property theorems: CHAMP and pruning in several steps (C88). *)
From Verif Require Import PyBase PyGraph M_partition M_pool M_champ M_estimation_utils Spec Spec_graph Spec_champ Spec_polygon Spec_stability Spec_sbm Spec_multisbm Spec_prune Spec_tiling Spec_compose
  L_base L_sort L_canon L_modularity L_modularity3 L_champ L_champ2 L_champ3 L_minkowski L_convex L_stability L_complete L_prune
  L_tiling L_tiling3 L_compose Properties_coefficients Properties_champ Properties_sbm Properties_multisbm Properties_prune Properties_multiprune Properties_tiling Properties_reproducible.
From Coq Require Import Sorted Classical.
Open Scope R_scope.

(** ** CHAMP_2D.  A narrower interval: the same ranges, cut to it; those of which no more than a point is left are gone. *)
Theorem C88_narrower_interval : forall g parts parts' gamma_0 gamma_f gamma_0' gamma_f' ranges ranges' s' e' c,
  champ_result_2D g parts gamma_0 gamma_f ranges -> champ_result_2D g parts' gamma_0' gamma_f' ranges' ->
  (forall c, In c parts <-> In c parts') -> distinguishable g parts -> gamma_0 <= gamma_0' -> gamma_f' <= gamma_f ->
  (In (s', e', c) ranges' <-> s' < e' /\ exists s e, In (s, e, c) ranges /\ s' = Rmax s gamma_0' /\ e' = Rmin e gamma_f').
Proof.
  intros g parts parts' a b a' b' r r' s' e' c (env & st & Hok & Hir & H) (env' & st' & Hok' & Hir' & H') Hs (_ & Hd) La Lb.
  assert (H12 : forall gamma c, a' <= gamma <= b' -> In c parts -> exists c', In c' parts' /\ modularity g gamma c <= modularity g gamma c').
  { intros gamma d _ Hc. exists d. split; [apply Hs; auto|lra]. }
  assert (H21 : forall gamma c, a' <= gamma <= b' -> In c parts' -> exists c', In c' parts /\ modularity g gamma c <= modularity g gamma c').
  { intros gamma d _ Hc. exists d. split; [apply Hs; auto|lra]. }
  assert (Eq : forall p p', In p parts -> In p' parts' -> (forall gamma, modularity g gamma p = modularity g gamma p') -> p = p').
  { intros p p' Hp Hp' Hl. apply NNPP. intros N. destruct (Hd p p' Hp (proj2 (Hs p') Hp') N) as (x & Nx). apply Nx, Hl. }
  split.
  - intros Hin. split; [apply (C66_range_is_proper _ _ _ _ _ _ _ _ _ _ Hok' Hir' H' Hin)|].
    destruct (@range_from_wider env env' g parts parts' a b a' b' st st' Hok Hok' Hir' La Lb H12 H21 r r' H H' s' e' c Hin) as (s & e & p & Hp & E1 & E2 & Hl).
    rewrite <- (Eq p c); auto; [exists s, e; auto| |].
    + apply (proj1 (C21_ranges_are_optimal _ _ _ _ _ _ _ Hok H s e p Hp)).
    + apply (proj1 (C21_ranges_are_optimal _ _ _ _ _ _ _ Hok' H' s' e' c Hin)).
  - intros (L & s & e & Hin & -> & ->).
    destruct (@restricted_range env env' g parts parts' a b a' b' st st' Hok Hok' La Lb H12 H21 r r' H H' s e c Hin L) as (p' & Hp' & Hl).
    rewrite (Eq c p'); auto.
    + apply (proj1 (C21_ranges_are_optimal _ _ _ _ _ _ _ Hok H s e c Hin)).
    + apply (proj1 (C21_ranges_are_optimal _ _ _ _ _ _ _ Hok' H' _ _ p' Hp')).
Qed.
Print Assumptions C88_narrower_interval.

(** Dropping inputs: the ones left keep their ranges or get wider ones. *)
Theorem C88_fewer_inputs : forall g parts parts' gamma_0 gamma_f ranges ranges' s e c,
  champ_result_2D g parts gamma_0 gamma_f ranges -> champ_result_2D g parts' gamma_0 gamma_f ranges' ->
  (forall d, In d parts' -> In d parts) -> NoDup parts' -> distinguishable g parts -> In (s, e, c) ranges -> In c parts' ->
  exists s' e', In (s', e', c) ranges' /\ s' <= s /\ e <= e'.
Proof.
  intros g parts parts' a b r r' s e c (env & st & Hok & Hir & H) (env' & st' & Hok' & Hir' & H') Hs ND (_ & Hd) Hin Hc.
  assert (Hd' : distinguishable g parts') by (split; auto).
  destruct (C21_ranges_are_optimal _ _ _ _ _ _ _ Hok H s e c Hin) as [_ D].
  destruct (proj1 (C23_ranges_well_formed _ _ _ _ _ _ _ Hok H) s e c Hin) as (B1 & B2 & B3).
  pose proof (C66_range_is_proper _ _ _ _ _ _ _ _ _ _ Hok Hir H Hin) as L.
  destruct (proj2 (C66_returned_iff_optimal_twice _ _ _ _ _ _ _ c Hok' Hir' Hd' H' Hc)) as (s' & e' & Hin').
  { exists s, e. split; [lra|]. split; [lra|]. split; intros d Hdd; apply D; auto; lra. }
  exists s', e'. split; auto.
  pose proof (proj2 (C66_range_is_where_optimal _ _ _ _ _ _ _ _ _ _ Hok' H' Hin' s ltac:(lra)) (fun d Hdd => D s d ltac:(lra) (Hs d Hdd))).
  pose proof (proj2 (C66_range_is_where_optimal _ _ _ _ _ _ _ _ _ _ Hok' H' Hin' e ltac:(lra)) (fun d Hdd => D e d ltac:(lra) (Hs d Hdd))). lra.
Qed.
Print Assumptions C88_fewer_inputs.

(** Batches: CHAMP_2D on what it returned for the batches gives what it gives on all partitions together. *)
Theorem C88_batches : forall g batches parts kept gamma_0 gamma_f ranges ranges',
  split_into_batches batches parts kept -> distinguishable g parts ->
  (forall batch, In batch batches -> champ_result_2D g (fst batch) gamma_0 gamma_f (snd batch)) ->
  champ_result_2D g parts gamma_0 gamma_f ranges -> champ_result_2D g kept gamma_0 gamma_f ranges' -> ranges = ranges'.
Proof.
  intros g batches parts kept a b r r' (Hp & ND & Hk) Hd HB (env & st & Hok & Hir & H) (env' & st' & Hok' & Hir' & H').
  assert (Hsub : forall c, In c kept -> In c parts).
  { intros c Hc. apply Hk in Hc as (batch & [s e] & Hba & Hin). apply Hp. exists batch. split; auto.
    destruct (HB batch Hba) as (env0 & st0 & Hok0 & Hir0 & H0). apply (proj1 (C21_ranges_are_optimal _ _ _ _ _ _ _ Hok0 H0 s e c Hin)). }
  assert (H12 : forall gamma c, a <= gamma <= b -> In c parts -> exists c', In c' kept /\ modularity g gamma c <= modularity g gamma c').
  { intros gamma c G Hc. apply Hp in Hc as (batch & Hba & Hc). destruct (HB batch Hba) as (env0 & st0 & Hok0 & Hir0 & H0).
    assert (Hne : fst batch <> []) by (intros E; rewrite E in Hc; destruct Hc).
    destruct (C22_ranges_cover _ _ _ _ _ _ _ gamma Hok0 Hne H0 G) as (s & e & p & Hin & Q). exists p. split; [apply Hk; exists batch, (s, e); auto|].
    apply (C21_ranges_are_optimal _ _ _ _ _ _ _ Hok0 H0 s e p Hin); auto. }
  destruct (classic (parts = [])) as [E|Hne].
  { assert (E' : kept = []) by (destruct kept as [|c l]; auto; exfalso; rewrite E in Hsub; apply (Hsub c); left; auto).
    rewrite E in H. rewrite E' in H'. rewrite C23_empty_input in H, H'. congruence. }
  assert (Hne' : kept <> []).
  { destruct (@CHAMP_2D_inv _ _ _ _ _ _ Hok _ Hne H) as (hs & pt & out & d & rs & Hhs & Hl & Hss & _).
    pose proof (@g0_lt_gf _ _ _ _ _ _ Hhs Hl Hss). destruct parts as [|c l]; [congruence|].
    destruct (H12 a c ltac:(lra) (or_introl eq_refl)) as (c' & Hc' & _). intros ->. destruct Hc'. }
  eapply (@same_envelope_equal env env' g parts kept a b st st'); eauto.
Qed.
Print Assumptions C88_batches.

(** In particular, running CHAMP_2D on its own output changes nothing. *)
Theorem C88_twice : forall g parts gamma_0 gamma_f ranges ranges',
  distinguishable g parts -> champ_result_2D g parts gamma_0 gamma_f ranges -> champ_result_2D g (map snd ranges) gamma_0 gamma_f ranges' ->
  ranges' = ranges.
Proof.
  intros g parts a b r r' Hd H H'. symmetry. apply (C88_batches g [(parts, r)] parts (map snd r) a b r r'); auto.
  - split; [|split].
    + intros c. split; [intros Hc; exists (parts, r); split; [left; auto|auto]|intros (x & [<-|[]] & Hc); auto].
    + destruct H as (env & st & Hok & Hir & H). destruct (C23_ranges_well_formed _ _ _ _ _ _ _ Hok H) as (_ & _ & idx & NDi & F).
      clear - Hd NDi F. destruct Hd as [ND _]. induction F as [|i [x c] idx l Hi F IH]; [constructor|]. inversion NDi as [|? ? Ni NDi']; subst.
      cbn [map snd]. constructor; auto. intros Hc. apply Ni. apply in_map_iff in Hc as ([x' c'] & <- & Hc). cbn [snd] in *.
      clear - ND F Hc Hi. induction F as [|j [y c] idx l Hj F IH]; [destruct Hc|]. destruct Hc as [E|Hc]; [left|right; auto].
      inversion E; subst. cbn [snd] in Hj. eapply NoDup_nth_error; [exact ND| |congruence]. apply nth_error_Some. congruence.
    + intros c. split.
      * intros Hc. apply in_map_iff in Hc as ([x c'] & <- & Hc). exists (parts, r), x. split; [left; auto|exact Hc].
      * intros (batch & x & [<-|[]] & Hc). apply in_map_iff. exists (x, c). auto.
  - intros batch [<-|[]]. exact H.
Qed.
Print Assumptions C88_twice.

(** ** CHAMP_3D.  A smaller rectangle: the domains are cut to it, those with no inner point left inside it are gone. *)
Theorem C88_smaller_rectangle : forall g gi lv parts parts' gamma_0 gamma_f omega_0 omega_f gamma_0' gamma_f' omega_0' omega_f' domains domains' c,
  champ_result_3D g gi lv parts gamma_0 gamma_f omega_0 omega_f domains ->
  champ_result_3D g gi lv parts' gamma_0' gamma_f' omega_0' omega_f' domains' ->
  (forall c, In c parts <-> In c parts') -> distinguishable_3D g gi lv parts ->
  gamma_0 <= gamma_0' -> gamma_f' <= gamma_f -> omega_0 <= omega_0' -> omega_f' <= omega_f ->
  (forall poly', In (poly', c) domains' -> exists poly, In (poly, c) domains /\
     forall x, in_polygon poly' x <-> in_polygon poly x /\ gamma_0' <= fst x <= gamma_f' /\ omega_0' <= snd x <= omega_f') /\
  (forall poly x, In (poly, c) domains -> interior poly x -> gamma_0' < fst x < gamma_f' -> omega_0' < snd x < omega_f' ->
     exists poly', In (poly', c) domains').
Proof.
  intros g gi lv parts parts' a b o q a' b' o' q' ds ds' c (env & Hok & Hir & Hf & H) (env' & Hok' & Hir' & Hf' & H') Hs (_ & Hd) La Lb Lo Lq.
  assert (Hb : a <= a' /\ b' <= b /\ o <= o' /\ q' <= q) by auto.
  assert (H12 : forall gamma omega p, a' <= fst (gamma, omega) <= b' /\ o' <= snd (gamma, omega) <= q' -> In p parts ->
     exists p', In p' parts' /\ multilayer_modularity g gi lv gamma omega p <= multilayer_modularity g gi lv gamma omega p').
  { intros gamma omega d _ Hc. exists d. split; [apply Hs; auto|lra]. }
  assert (H21 : forall gamma omega p, a' <= fst (gamma, omega) <= b' /\ o' <= snd (gamma, omega) <= q' -> In p parts' ->
     exists p', In p' parts /\ multilayer_modularity g gi lv gamma omega p <= multilayer_modularity g gi lv gamma omega p').
  { intros gamma omega d _ Hc. exists d. split; [apply Hs; auto|lra]. }
  assert (Eq : forall p p', In p parts -> In p' parts' -> (forall gamma omega, multilayer_modularity g gi lv gamma omega p = multilayer_modularity g gi lv gamma omega p') -> p = p').
  { intros p p' Hp Hp' Hl. apply NNPP. intros N. destruct (Hd p p' Hp (proj2 (Hs p') Hp') N) as (x & y & Nx). apply Nx, Hl. }
  split.
  - intros poly' Hin.
    destruct (@domain_from_wider env env' g gi lv parts parts' a b o q a' b' o' q' Hok Hok' Hir' Hf' Hb H12 H21 ds ds' H H' poly' c Hin) as (poly & p & Hp & Hl & Hi).
    exists poly. rewrite <- (Eq p c); auto.
    + apply (proj1 (C24_domains_are_optimal _ _ _ _ _ _ _ _ _ _ Hok H poly p Hp)).
    + apply (proj1 (C24_domains_are_optimal _ _ _ _ _ _ _ _ _ _ Hok' H' poly' c Hin)).
  - intros poly x Hin Hx X1 X2.
    destruct (@restricted_domain env env' g gi lv parts parts' a b o q a' b' o' q' Hok Hok' Hb H12 H21 ds ds' H H' poly c x Hin Hx X1 X2) as (poly' & p' & Hp' & Hl & Hi).
    exists poly'. rewrite (Eq c p'); auto.
    + apply (proj1 (C24_domains_are_optimal _ _ _ _ _ _ _ _ _ _ Hok H poly c Hin)).
    + apply (proj1 (C24_domains_are_optimal _ _ _ _ _ _ _ _ _ _ Hok' H' poly' p' Hp')).
Qed.
Print Assumptions C88_smaller_rectangle.

Theorem C88_multilayer_batches : forall g gi lv batches parts kept gamma_0 gamma_f omega_0 omega_f domains domains',
  split_into_batches batches parts kept -> distinguishable_3D g gi lv parts ->
  (forall batch, In batch batches -> champ_result_3D g gi lv (fst batch) gamma_0 gamma_f omega_0 omega_f (snd batch)) ->
  champ_result_3D g gi lv parts gamma_0 gamma_f omega_0 omega_f domains -> champ_result_3D g gi lv kept gamma_0 gamma_f omega_0 omega_f domains' ->
  Permutation domains domains'.
Proof.
  intros g gi lv batches parts kept a b o q r r' (Hp & ND & Hk) Hd HB (env & Hok & Hir & Hf & H) (env' & Hok' & Hir' & Hf' & H').
  assert (Hsub : forall c, In c kept -> In c parts).
  { intros c Hc. apply Hk in Hc as (batch & poly & Hba & Hin). apply Hp. exists batch. split; auto.
    destruct (HB batch Hba) as (env0 & Hok0 & Hir0 & _ & H0). apply (proj1 (C24_domains_are_optimal _ _ _ _ _ _ _ _ _ _ Hok0 H0 poly c Hin)). }
  eapply (@same_envelope_equal_3D env env' g gi lv parts kept a b o q r r'); eauto.
  intros gamma omega c G O Hc. apply Hp in Hc as (batch & Hba & Hc). destruct (HB batch Hba) as (env0 & Hok0 & Hir0 & _ & H0).
  assert (Hne : fst batch <> []) by (intros E; rewrite E in Hc; destruct Hc).
  destruct (C25_domains_cover _ _ _ _ _ _ _ _ _ _ gamma omega Hok0 Hne H0 G O) as (poly & p & Hin & Q). exists p. split; [apply Hk; exists batch, poly; auto|].
  apply (C24_domains_are_optimal _ _ _ _ _ _ _ _ _ _ Hok0 H0 poly p Hin); auto.
Qed.
Print Assumptions C88_multilayer_batches.

(** ** Pruning.  A partition that survives among many survives among fewer, also with a wider interval and with any interval around its
    estimate. *)
Theorem C88_prune_fewer_inputs :
  forall env env' g inputs inputs' restrict restrict' gamma_start gamma_end gamma_start' gamma_end' single_threaded single_threaded' result result' c,
  prune_ok_2D env g inputs -> prune_ok_2D env' g inputs' -> irredundant_hsi 2 (env_hsi (ee_champ env)) -> irredundant_hsi 2 (env_hsi (ee_champ env')) ->
  same_estimation env env' -> told_apart g inputs restrict ->
  (forall d, considered inputs' restrict' d -> considered inputs restrict d) ->
  snd (prune_to_stable_partitions env g (Tuples inputs) gamma_start gamma_end restrict single_threaded) = Ok result ->
  snd (prune_to_stable_partitions env' g (Tuples inputs') gamma_start' gamma_end' restrict' single_threaded') = Ok result' ->
  In c result -> considered inputs' restrict' c ->
  (gamma_start' <= gamma_start /\ gamma_end <= gamma_end' \/
   forall gamma, snd (gamma_estimate env g (Membership c)) = Ok (Some (Fin gamma)) -> gamma_start' < gamma < gamma_end') ->
  In c result'.
Proof.
  intros env env' g inputs inputs' rs rs' a b a' b' st st' r r' c Hok Hok' Hir Hir' (S1 & S2 & S3) Ht Hsub H H' Hc Hc' Hi.
  destruct (prune_to_stable_partitions env g (Tuples inputs) a b rs st) as [[w g1] res] eqn:E. cbn [snd] in H. subst res.
  destruct (prune_to_stable_partitions env' g (Tuples inputs') a' b' rs' st') as [[w' g1'] res'] eqn:E'. cbn [snd] in H'. subst res'.
  apply (C70_prune_characterised _ _ _ _ _ _ _ _ _ _ c Hok Hir Ht E) in Hc as (_ & x & Ex & Hx & Ho & y & Nxy & Hy & Hoy).
  assert (Ht' : told_apart g inputs' rs') by (intros d d' Hd Hd'; apply Ht; auto).
  assert (EE : gamma_estimate env' g (Membership c) = gamma_estimate env g (Membership c)).
  { clear - S1 S2 S3. destruct env, env'. cbn in S1, S2, S3. subst. reflexivity. }
  apply (C70_prune_characterised _ _ _ _ _ _ _ _ _ _ c Hok' Hir' Ht' E'). split; auto. exists x. rewrite EE. split; auto.
  destruct Hi as [[L1 L2]|Hi].
  - split; [lra|]. split; [intros d Hd; apply Ho; auto|]. exists y. split; auto. split; [lra|]. intros d Hd. apply Hoy; auto.
  - specialize (Hi x Ex). split; [lra|]. split; [intros d Hd; apply Ho; auto|].
    assert (exists t, 0 < t <= 1 /\ a' <= x + t * (y - x) <= b') as (t & T & B).
    { assert (K : exists dlt, 0 < dlt /\ dlt <= x - a' /\ dlt <= b' - x) by (exists (Rmin (x - a') (b' - x)); unfold Rmin; destruct (Rle_dec (x - a') (b' - x)); lra).
      destruct K as (dlt & D1 & D2 & D3). assert (Yx : 0 < Rabs (y - x)) by (apply Rabs_pos_lt; lra).
      exists (Rmin 1 (dlt / Rabs (y - x))).
      assert (Q : 0 < dlt / Rabs (y - x)) by (apply Rdiv_lt_0_compat; auto).
      assert (T : 0 < Rmin 1 (dlt / Rabs (y - x)) <= 1) by (unfold Rmin; destruct (Rle_dec 1 (dlt / Rabs (y - x))); lra). split; auto.
      assert (Ub : Rmin 1 (dlt / Rabs (y - x)) * Rabs (y - x) <= dlt).
      { apply Rle_trans with (dlt / Rabs (y - x) * Rabs (y - x)); [apply Rmult_le_compat_r; [lra|apply Rmin_r]|]. right. field. lra. }
      set (t := Rmin 1 (dlt / Rabs (y - x))) in *. clearbody t.
      assert (Rabs (t * (y - x)) <= dlt) by (rewrite Rabs_mult, (Rabs_pos_eq t); lra). pose proof (Rle_abs (t * (y - x))). pose proof (Rle_abs (- (t * (y - x)))) as Q2. rewrite Rabs_Ropp in Q2. lra. }
    exists (x + t * (y - x)). split; [intros E0; assert (t * (y - x) = 0) by lra; destruct (Rmult_integral _ _ H); lra|]. split; auto.
    intros d Hd. specialize (Ho d (Hsub d Hd)). specialize (Hoy d (Hsub d Hd)). rewrite !modularity_AP in *. nra.
Qed.
Print Assumptions C88_prune_fewer_inputs.

Theorem C88_multilayer_prune_fewer_inputs :
  forall env env' g gi lv model inputs inputs' restrict restrict' gamma_start gamma_end omega_start gamma_start' gamma_end' omega_start' omega_end result result' c gamma omega_est,
  prune_ok_3D env g gi lv inputs -> prune_ok_3D env' g gi lv inputs' ->
  irredundant_hsi 3 (env_hsi (ee_champ env)) -> irredundant_hsi 3 (env_hsi (ee_champ env')) ->
  full_facets_hsi 3 (env_hsi (ee_champ env)) -> full_facets_hsi 3 (env_hsi (ee_champ env')) ->
  same_estimation env env' -> told_apart_3D g gi lv inputs restrict ->
  (forall d, considered inputs' restrict' d -> considered inputs restrict d) ->
  snd (prune_to_multilayer_stable_partitions env g gi lv model (Tuples inputs) gamma_start gamma_end omega_start omega_end restrict false) = Ok result ->
  snd (prune_to_multilayer_stable_partitions env' g gi lv model (Tuples inputs') gamma_start' gamma_end' omega_start' omega_end restrict' false) = Ok result' ->
  In c result -> considered inputs' restrict' c ->
  estimate_of env g gi lv model c = Ok (Some (Fin gamma), omega_est) ->
  gamma_start' < gamma < gamma_end' -> omega_start' < Rmin omega_est (omega_end - 1 / 1000) ->
  In c result'.
Proof.
  intros env env' g gi lv model inputs inputs' rs rs' a b o a' b' o' q r r' c gamma oe Hok Hok' Hir Hir' Hf Hf' (S1 & S2 & S3) Ht Hsub H H' Hc Hc' He Hg Ho.
  destruct (prune_to_multilayer_stable_partitions env g gi lv model (Tuples inputs) a b o q rs false) as [[w g1] res] eqn:E. cbn [snd] in H. subst res.
  destruct (prune_to_multilayer_stable_partitions env' g gi lv model (Tuples inputs') a' b' o' q rs' false) as [[w' g1'] res'] eqn:E'. cbn [snd] in H'. subst res'.
  apply (C70_multilayer_prune_characterised _ _ _ _ _ _ _ _ _ _ _ _ _ _ c gamma oe Hok Hir Hf Ht E He) in Hc as (_ & _ & Ho2 & Hs).
  assert (Ht' : told_apart_3D g gi lv inputs' rs') by (intros d d' Hd Hd'; apply Ht; auto).
  assert (EE : estimate_of env' g gi lv model c = estimate_of env g gi lv model c).
  { clear - S1 S2 S3. destruct env, env'. cbn in S1, S2, S3. subst. reflexivity. }
  rewrite <- EE in He.
  apply (C70_multilayer_prune_characterised _ _ _ _ _ _ _ _ _ _ _ _ _ _ c gamma oe Hok' Hir' Hf' Ht' E' He). split; auto. split; auto. split; [lra|].
  intros d Hd N. apply Hs; auto.
Qed.
Print Assumptions C88_multilayer_prune_fewer_inputs.

(** Pruning what CHAMP_2D kept gives what pruning everything gives. *)
Theorem C88_prune_after_CHAMP :
  forall env env' g inputs inputs' restrict gamma_start gamma_end single_threaded single_threaded' parts ranges result result',
  prune_ok_2D env g inputs -> prune_ok_2D env' g inputs' -> irredundant_hsi 2 (env_hsi (ee_champ env)) -> irredundant_hsi 2 (env_hsi (ee_champ env')) ->
  same_estimation env env' -> told_apart g inputs restrict ->
  NoDup parts -> (forall c, In c parts <-> considered inputs restrict c) -> champ_result_2D g parts gamma_start gamma_end ranges ->
  (forall c, considered inputs' restrict c <-> exists s e, In (s, e, c) ranges) ->
  snd (prune_to_stable_partitions env g (Tuples inputs) gamma_start gamma_end restrict single_threaded) = Ok result ->
  snd (prune_to_stable_partitions env' g (Tuples inputs') gamma_start gamma_end restrict single_threaded') = Ok result' ->
  result = result'.
Proof.
  intros env env' g inputs inputs' rs a b st st' parts ranges r r' Hok Hok' Hir Hir' (S1 & S2 & S3) Ht ND Hps HC Hk H H'.
  destruct (@prune_2D_unfold env g inputs a b rs st Hok) as (ps & Nd & I & C & _ & E). rewrite E in H. apply bind_ok in H as (rng & HR & H).
  destruct (@prune_2D_unfold env' g inputs' a b rs st' Hok') as (ps' & Nd' & I' & C' & _ & E'). rewrite E' in H'. apply bind_ok in H' as (rng' & HR' & H').
  assert (Hd : distinguishable g parts) by (split; auto; intros x y Hx Hy; apply Ht; apply Hps; auto).
  assert (Hds : distinguishable g ps) by (split; auto; intros x y Hx Hy; apply Ht; apply I; auto).
  assert (X1 : ranges = rng).
  { destruct HC as (envc & stc & Hokc & Hirc & HC). apply (C68_same_list envc (ee_champ env) g parts ps a b stc st ranges rng); auto.
    apply NoDup_Permutation; auto. intros c. rewrite Hps, I. tauto. }
  assert (X2 : rng = rng').
  { apply (C88_batches g [(parts, ranges)] ps ps' a b rng rng'); auto.
    - split; [|split]; auto.
      + intros c. split; [intros Hc; exists (parts, ranges); split; [left; auto|cbn; apply Hps, I; auto]|intros (x & [<-|[]] & Hc); apply I, Hps; auto].
      + intros c. rewrite I', Hk. split; [intros (s & e & Hc); exists (parts, ranges), (s, e); split; [left; auto|auto]|intros (x & [s e] & [<-|[]] & Hc); exists s, e; auto].
    - intros batch [<-|[]]. exact HC.
    - exists (ee_champ env), st. auto.
    - exists (ee_champ env'), st'. auto. }
  subst rng rng'.
  assert (EE : ranges_to_gamma_estimates env g ranges = ranges_to_gamma_estimates env' g ranges).
  { clear - S1 S2 S3. destruct env, env'. cbn in S1, S2, S3. subst. reflexivity. }
  rewrite EE in H. rewrite H in H'. congruence.
Qed.
Print Assumptions C88_prune_after_CHAMP.

(** *** Examples.  The barbell of two triangles, its two partitions first alone and then together, on [0, 2] and on [1, 2]. *)
Lemma result_2D_exists g parts a b : wf_graph g -> directed g = false -> edges g <> [] -> (forall c, In c parts -> length c = vcount g) ->
  (Z.of_nat (length parts) <= 2 ^ 53)%Z -> parts <> [] -> a < b -> exists ranges, champ_result_2D g parts a b ranges.
Proof.
  intros. destruct (C66_C67_C68_realisable g parts a b false) as (env & ranges & K1 & K2 & K3); auto. exists ranges, env, false. auto.
Qed.

Example C88_example : exists r1 r2 r r',
  champ_result_2D barbell [whole] 0 2 r1 /\ champ_result_2D barbell [barbell_c] 0 2 r2 /\ champ_result_2D barbell [whole; barbell_c] 0 2 r /\
  split_into_batches [([whole], r1); ([barbell_c], r2)] [whole; barbell_c] [whole; barbell_c] /\ distinguishable barbell [whole; barbell_c] /\
  champ_result_2D barbell [whole; barbell_c] 1 2 r' /\ r' = [(1, 2, barbell_c)].
Proof.
  assert (L : forall c, In c [whole; barbell_c] -> length c = vcount barbell) by (intros c [<-|[<-|[]]]; reflexivity).
  destruct (result_2D_exists barbell [whole] 0 2) as (r1 & H1); auto using barbell_wf; try discriminate; try lra; try (cbn; lia); [intros c [<-|[]]; reflexivity|].
  destruct (result_2D_exists barbell [barbell_c] 0 2) as (r2 & H2); auto using barbell_wf; try discriminate; try lra; try (cbn; lia); [intros c [<-|[]]; reflexivity|].
  destruct (result_2D_exists barbell [whole; barbell_c] 0 2) as (r & H); auto using barbell_wf; try discriminate; try lra; try (cbn; lia).
  destruct (result_2D_exists barbell [whole; barbell_c] 1 2) as (r' & H'); auto using barbell_wf; try discriminate; try lra; try (cbn; lia).
  pose proof barbell_distinguishable as Hd. exists r1, r2, r, r'. split; auto. split; auto. split; auto. split.
  { assert (G : forall c0 rr, champ_result_2D barbell [c0] 0 2 rr -> forall c, c = c0 <-> exists x, In (x, c) rr).
    { intros c0 rr (env & st & Hok & Hir & HH) c. split.
      - intros ->. destruct (C22_ranges_cover _ _ _ _ _ _ _ 1 Hok ltac:(discriminate) HH ltac:(lra)) as (s & e & p & Hin & _).
        destruct (proj1 (C21_ranges_are_optimal _ _ _ _ _ _ _ Hok HH s e p Hin)) as [<-|[]]. eauto.
      - intros ([s e] & Hin). destruct (proj1 (C21_ranges_are_optimal _ _ _ _ _ _ _ Hok HH s e c Hin)) as [<-|[]]. reflexivity. }
    split; [|split].
    - intros c. split; [intros [<-|[<-|[]]]; [exists ([whole], r1)|exists ([barbell_c], r2)]; cbn; auto|].
      intros (bt & [<-|[<-|[]]] & Hc); cbn [fst] in Hc; destruct Hc as [<-|[]]; cbn; auto.
    - apply Hd.
    - intros c. split.
      + intros [<-|[<-|[]]]; [destruct (proj1 (G _ _ H1 whole) eq_refl) as (x & Hx); exists ([whole], r1), x|destruct (proj1 (G _ _ H2 barbell_c) eq_refl) as (x & Hx); exists ([barbell_c], r2), x]; cbn; auto.
      + intros (bt & x & [<-|[<-|[]]] & Hx); cbn [snd] in Hx; [left|right; left]; symmetry; [apply (G _ _ H1)|apply (G _ _ H2)]; eauto. }
  split; auto. split; auto.
  destruct H' as (env & st & Hok & Hir & HH). pose proof (C67_ranges_tile _ _ _ _ _ _ _ Hok Hir ltac:(discriminate) Hd HH) as T.
  assert (W : forall s e p, In (s, e, p) r' -> p = barbell_c /\ s = 1 /\ e = 2).
  { intros s e p Hin. destruct (proj1 (C23_ranges_well_formed _ _ _ _ _ _ _ Hok HH) s e p Hin) as (B1 & B2 & B3).
    pose proof (fun x X => C66_range_is_where_optimal _ _ _ _ _ _ _ _ _ _ Hok HH Hin x X) as O.
    assert (p = barbell_c) as ->.
    { destruct (proj1 (C21_ranges_are_optimal _ _ _ _ _ _ _ Hok HH s e p Hin)) as [<-|[<-|[]]]; auto. exfalso.
      pose proof (proj1 (O s ltac:(lra)) ltac:(lra) barbell_c (or_intror (or_introl eq_refl))) as K. rewrite barbell_whole, barbell_split in K. lra. }
    assert (Q : forall x, 1 <= x <= 2 -> s <= x <= e).
    { intros x X. apply O; auto. intros c [<-|[<-|[]]]; rewrite ?barbell_whole, ?barbell_split; lra. }
    pose proof (Q 1 ltac:(lra)). pose proof (Q 2 ltac:(lra)). split; auto. lra. }
  destruct r' as [|[[s e] p] l]; [cbn in T; lra|]. destruct (W _ _ _ (or_introl eq_refl)) as (-> & -> & ->). f_equal.
  destruct l as [|[[s e] p] l]; auto. destruct (W _ _ _ (or_intror (or_introl eq_refl))) as (-> & -> & ->). destruct T as (_ & _ & -> & ?). lra.
Qed.

Example C88_example_3D : exists domains domains',
  champ_result_3D (ex_intra false) ex_inter ex_layers ex_parts 0 2 0 1 domains /\ distinguishable_3D (ex_intra false) ex_inter ex_layers ex_parts /\
  split_into_batches [(ex_parts, domains)] ex_parts (nodup (list_eq_dec Nat.eq_dec) (map snd domains)) /\
  champ_result_3D (ex_intra false) ex_inter ex_layers ex_parts (1 / 2) 1 (1 / 4) (1 / 2) domains'.
Proof.
  destruct C68_C69_example as (env & ds & K1 & K2 & K3 & K4 & K5).
  destruct (C14_example false) as (H1 & H2 & H3 & H4 & H5 & H6 & H7).
  destruct (C68_C69_realisable (ex_intra false) ex_inter ex_layers ex_parts (1 / 2) 1 (1 / 4) (1 / 2)) as (env' & ds' & K1' & K2' & K3' & K4'); auto; try discriminate; try lra; try (simpl; lia).
  exists ds, ds'. split; [exists env; auto|]. split; auto. split; [|exists env'; auto]. split; [|split].
  - intros c. split; [intros Hc; exists (ex_parts, ds); split; [left; auto|auto]|intros (x & [<-|[]] & Hc); auto].
  - apply NoDup_nodup.
  - intros c. rewrite nodup_In. split.
    + intros Hc. apply in_map_iff in Hc as ([x c'] & <- & Hc). exists (ex_parts, ds), x. split; [left; auto|exact Hc].
    + intros (batch & x & [<-|[]] & Hc). apply in_map_iff. exists (x, c). auto.
Qed.

(** The two triangles survive in [0, 2] next to the one-community partition (C70_C71_example), so alone, and on [0, 1] around their
    estimate. *)
Example C88_prune_example : exists env env' result result',
  prune_ok_2D env barbell barbell_inputs /\ prune_ok_2D env' barbell [[5; 5; 5; -1; -1; -1]%Z] /\
  irredundant_hsi 2 (env_hsi (ee_champ env)) /\ irredundant_hsi 2 (env_hsi (ee_champ env')) /\
  (forall d, considered [[5; 5; 5; -1; -1; -1]%Z] None d -> considered barbell_inputs None d) /\
  snd (prune_to_stable_partitions env barbell (Tuples barbell_inputs) 0 2 None false) = Ok result /\
  snd (prune_to_stable_partitions env' barbell (Tuples [[5; 5; 5; -1; -1; -1]%Z]) 0 3 None false) = Ok result' /\
  In barbell_c result /\ considered [[5; 5; 5; -1; -1; -1]%Z] None barbell_c.
Proof.
  destruct C70_C71_example as (_ & env & result & H1 & H2 & H3 & H4).
  assert (S : sorted_tuple [5; 5; 5; -1; -1; -1]%Z = Ok barbell_c) by reflexivity. pose proof (fun d => considered_one _ barbell_c d S) as HC.
  destruct (C70_C71_realisable barbell [[5; 5; 5; -1; -1; -1]%Z] 0 3 None false (fun _ => true) (fun _ x => x) (fun _ => true)) as (env' & Hok & Hir & Hc & _ & _ & H);
    auto using barbell_wf; try discriminate; try lra; try (cbn; lia); [intros t [<-|[]]; reflexivity|].
  destruct (barbell_estimate env') as (x & Hx & Hb); [rewrite Hc; reflexivity|].
  destruct H as (result' & H). { intros c Hcc. apply HC in Hcc. subst. eauto. }
  exists env, env', result, result'. split; auto. split; auto. split; auto. split; auto. split.
  { intros d (K1 & (t & [<-|[]] & K3) & K4). split; auto. split; auto. exists [5; 5; 5; -1; -1; -1]%Z. split; auto. cbn; auto. }
  split; auto. split; auto. split; auto. apply HC. reflexivity.
Qed.
