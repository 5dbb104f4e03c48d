(** Property theorems about the iterative parameter estimations and the accepted models and methods: C45-C47, C56. *)
From Verif Require Import PyBase PyGraph M_partition M_champ M_leiden M_estimation_utils M_estimation Spec Spec_graph Spec_leiden Spec_sbm Spec_multisbm Spec_check Spec_valid
  Spec_iteration L_base L_modularity L_leiden L_sbm L_sbm2 L_multisbm L_omega L_prune L_iteration Properties_sbm Properties_multisbm.
From Coq Require Import Classical.
Open Scope R_scope.

(** ** C45: the exact outcome of the single-layer iteration, for every optimiser behaviour, start, tolerance and max_iter.  [h] is
    the graph after weight defaulting.  The iterations follow [outcome]; the partition returned is the optimiser's last answer
    (None without iterations); verbose reports fail without iterations. *)
Definition mono_outcome (env : est_env) (opt : opt_env) (method : string) (h : graph) (tol : R) :=
  outcome npf lpart (answer_mono opt method h) (updates_mono env h) (fun x y => gamma_close tol y x).

Theorem C45_outcome : forall env opt g h ws gamma tol max_iter verbose method,
  wf_graph g -> weights_defaulted (ee_contains env g) g h -> weights h = Some ws -> known_method method ->
  exists calls answers r, mono_outcome env opt method h tol max_iter (Fin gamma) calls answers r /\
    iterative_monolayer_resolution_parameter_estimation env opt g gamma tol max_iter verbose method
    = (calls, h, match r with
                 | Raise e => Raise e
                 | Ok y => if verbose && (max_iter <=? 0)%Z then Raise TypeError else Ok (y, last_of answers)
                 end).
Proof.
  intros env opt g h ws gamma tol max_iter verbose method Hg Hh Hw Hm. apply weighted_e_defaulted in Hh. subst h. exact (@mono_whole env opt g ws gamma tol max_iter verbose method Hg Hw Hm).
Qed.
Print Assumptions C45_outcome.

(** The outcome is determined by the optimiser's behaviour. *)
Theorem C45_determined : forall env opt h method tol max_iter start calls answers r calls' answers' r',
  mono_outcome env opt method h tol max_iter start calls answers r ->
  mono_outcome env opt method h tol max_iter start calls' answers' r' -> calls' = calls /\ answers' = answers /\ r' = r.
Proof.
  intros env opt h method tol mi x c a r c' a' r'. apply outcome_unique. intros p q q'. unfold updates_mono.
  destruct (snd (gamma_estimate env h (Partition p))) as [[y|]|e]; congruence.
Qed.
Print Assumptions C45_determined.

(** What a caller sees: if it returns, the optimiser was called between 1 and max_iter times, first at the starting value; the
    returned partition is its last answer, the returned gamma is the gamma estimate of that partition, and either the last move
    was below the tolerance or exactly max_iter calls were made. *)
Theorem C45_returned : forall env opt g h ws gamma tol max_iter verbose method calls g' gamma' part,
  wf_graph g -> weights_defaulted (ee_contains env g) g h -> weights h = Some ws -> (1 <= max_iter)%Z ->
  iterative_monolayer_resolution_parameter_estimation env opt g gamma tol max_iter verbose method = (calls, g', Ok (gamma', part)) ->
  g' = h /\ known_method method /\ (1 <= length calls)%nat /\ (Z.of_nat (length calls) <= max_iter)%Z /\ hd_error calls = Some (Fin gamma) /\
  exists x p, last_of calls = Some x /\ part = Some p /\ answer_mono opt method h (length calls - 1) x = Ok p /\
    gamma_estimate env h (Partition p) = (h, Ok (Some gamma')) /\
    (gamma_close tol gamma' x \/ Z.of_nat (length calls) = max_iter).
Proof.
  intros env opt g h ws gamma tol mi verbose method calls g' gamma' part Hg Hh Hw Hmi H.
  destruct (classic (known_method method)) as [Hm|Hm].
  2:{ apply weighted_e_defaulted in Hh. subst h. rewrite mono_unknown in H; auto; congruence. }
  destruct (C45_outcome env opt g h ws gamma tol mi verbose method Hg Hh Hw Hm) as (calls' & answers & r & O & E). rewrite E in H. clear E.
  destruct r as [y|e]; [|discriminate]. replace ((mi <=? 0)%Z) with false in H by (symmetry; apply Z.leb_gt; lia). rewrite andb_false_r in H. inversion H. subst calls' g' y part. clear H.
  inversion O as [steps y L Ge Le NC C E1 E2 E3| |]. subst y. split; auto. split; auto.
  destruct (classic (steps = [])) as [->|Ns]. { exfalso. destruct C as [C|(b & s & C & _)]; [cbn in C; lia|destruct b; discriminate]. }
  destruct (exists_last Ns) as (b & s & ->). rewrite map_app, !app_length, map_length in *. cbn [map length] in *.
  split; [lia|]. split; [lia|]. split.
  { clear - L. destruct b as [|s0 b]; inversion L; subst; reflexivity. }
  destruct (Ge (length b) s) as [A U]. { rewrite nth_error_app2, Nat.sub_diag by lia. reflexivity. }
  assert (Ey : estimated s = gamma').
  { eapply linked_last; exact L. }
  exists (called s), (found s). split; [apply last_of_app|]. split; [rewrite map_app; apply last_of_app|].
  replace (length b + 1 - 1)%nat with (length b) by lia. split; auto. split.
  - unfold updates_mono in U. pose proof Hh as Hh'. apply weighted_e_defaulted in Hh'. assert (Hwf : wf_graph h) by (subst h; apply weighted_e_wf; auto).
    rewrite gamma_estimate_graph in * by auto. cbn [snd] in U. assert (Eh : weighted_e env h = h) by (subst h; apply weighted_e_idem). rewrite Eh in *.
    destruct (let! q := Ok (found s) in _) as [[y|]|e]; inversion U; subst. congruence.
  - destruct C as [C|(b' & s' & Es & Sm)]; [right; lia|left]. apply app_inj_tail in Es. destruct Es as [_ <-]. unfold small in Sm. rewrite Ey in Sm. exact Sm.
Qed.
Print Assumptions C45_returned.

(** The number of optimiser calls is bounded also when it raises; without iterations nothing is called and the starting value comes
    back without a partition; the graph afterwards is the graph with defaulted weights. *)
Theorem C45_calls_bounded : forall env opt g h gamma tol max_iter verbose method,
  wf_graph g -> weights_defaulted (ee_contains env g) g h ->
  let '(calls, g', r) := iterative_monolayer_resolution_parameter_estimation env opt g gamma tol max_iter verbose method in
  g' = h /\ (Z.of_nat (length calls) <= Z.max 0 max_iter)%Z /\
  ((max_iter <= 0)%Z -> known_method method -> weights h <> None -> r = if verbose then Raise TypeError else Ok (Fin gamma, None)).
Proof.
  intros env opt g h gamma tol mi verbose method Hg Hh. destruct (weights h) as [ws|] eqn:Hw.
  - destruct (classic (known_method method)) as [Hm|Hm].
    + destruct (C45_outcome env opt g h ws gamma tol mi verbose method Hg Hh Hw Hm) as (calls & answers & r & O & ->). apply outcome_iff in O.
      split; auto. pose proof (run_length O) as (A & B & C & D & E & _). split; [lia|]. intros Hmi _ _. assert (Z.to_nat mi = 0%nat) as Z by lia. rewrite (E Z).
      replace ((mi <=? 0)%Z) with true by (symmetry; apply Z.leb_le; auto). rewrite andb_true_r. destruct verbose; auto.
      assert (answers = []) as ->; [|reflexivity]. rewrite (E Z) in C. specialize (C _ eq_refl). apply D in Z. subst calls. destruct answers; [auto|discriminate].
    + apply weighted_e_defaulted in Hh. subst h. rewrite mono_unknown by (auto; congruence). split; auto. split; [cbn; lia|]. tauto.
  - apply weighted_e_defaulted in Hh. subst h. rewrite mono_unweighted by auto. split; auto. split; [cbn; lia|]. intros _ _ Z. congruence.
Qed.
Print Assumptions C45_calls_bounded.

(** A partition without a gamma estimate ends the iteration with ValueError. *)
Theorem C45_degenerate : forall env opt g h ws gamma tol max_iter verbose method p,
  wf_graph g -> weights_defaulted (ee_contains env g) g h -> weights h = Some ws -> known_method method -> (1 <= max_iter)%Z ->
  answer_mono opt method h 0 (Fin gamma) = Ok p -> snd (gamma_estimate env h (Partition p)) = Ok None ->
  iterative_monolayer_resolution_parameter_estimation env opt g gamma tol max_iter verbose method = ([Fin gamma], h, Raise ValueError).
Proof.
  intros env opt g h ws gamma tol mi verbose method p Hg Hh Hw Hm Hmi A N.
  destruct (C45_outcome env opt g h ws gamma tol mi verbose method Hg Hh Hw Hm) as (calls & answers & r & O & ->). apply outcome_iff in O.
  assert (Z.to_nat mi = S (Z.to_nat mi - 1)) as E by lia. rewrite E in O. clear E. unfold updates_mono in O.
  inversion O as [|? ? ? e A'|? ? ? p' e A' U|? ? ? p' y A' U C|? ? ? p' y c ps r' A' U C H]; subst; rewrite A in A'; inversion A'; subst; rewrite N in U; try discriminate.
  inversion U. reflexivity.
Qed.
Print Assumptions C45_degenerate.

(** The barbell with an optimiser that always answers its two triangles: a large tolerance stops after one call; with tolerance
    zero two iterations are made and the second call is at the estimate of the first. *)
Definition stubborn (c : list nat) : opt_env :=
  mkOpt (fun _ _ _ => Ok (mkPart (list_max (map S c)) c)) (fun _ _ _ => Ok c) (fun _ _ _ _ _ _ => Ok [mkPart (list_max (map S c)) c; mkPart (list_max (map S c)) c]).
Definition barbell_gamma : R := (14 * 16 / 130 - 2 / (16 - 130 / 16)) / (ln (14 * 16 / 130) - ln (2 / (16 - 130 / 16))).
Lemma barbell_estimate env : ee_contains env barbell = true -> gamma_estimate env barbell (Partition (mkPart 2 barbell_c)) = (barbell, Ok (Some (Fin barbell_gamma))).
Proof.
  intros He. rewrite gamma_estimate_graph by apply barbell_wf. unfold weighted_e. rewrite He. cbn [bind]. rewrite C27_example. cbn [bind]. f_equal. f_equal.
  destruct (C29_log_mean (14 * 16 / 130) (2 / (16 - 130 / 16))) as (x & -> & -> & _); try lra. reflexivity.
Qed.
Lemma barbell_gamma_range : 0 < barbell_gamma < 2.
Proof.
  destruct (C29_log_mean (14 * 16 / 130) (2 / (16 - 130 / 16))) as (x & _ & -> & [A B] & _); try lra. fold barbell_gamma in *.
  unfold Rmin in A. unfold Rmax in B. destruct (Rle_dec _ _) in A; destruct (Rle_dec _ _) in B; lra.
Qed.
Example C45_example_converged : forall env, ee_contains env barbell = true ->
  iterative_monolayer_resolution_parameter_estimation env (stubborn barbell_c) barbell 1 2 25 true "leiden"
  = ([Fin 1], barbell, Ok (Fin barbell_gamma, Some (mkPart 2 barbell_c))).
Proof.
  intros env He. assert (Hh : weights_defaulted (ee_contains env barbell) barbell barbell) by (rewrite He; reflexivity).
  destruct (C45_outcome env (stubborn barbell_c) barbell barbell [1; 1; 2; 1; 1; 1; 1] 1 2 25 true "leiden" barbell_wf Hh eq_refl ltac:(right; left; reflexivity)) as (calls & answers & r & O & ->).
  pose proof (barbell_estimate env He) as B. pose proof barbell_gamma_range.
  assert (O' : mono_outcome env (stubborn barbell_c) "leiden" barbell 2 25 (Fin 1) [Fin 1] [mkPart 2 barbell_c] (Ok (Fin barbell_gamma))).
  { apply outcome_iff. change (Z.to_nat 25) with (S 24). apply run_converges; [reflexivity|unfold updates_mono; rewrite B; reflexivity|].
    exists barbell_gamma, 1. split; auto. split; auto. apply Rabs_def1; lra. }
  destruct (C45_determined env _ barbell _ _ _ _ _ _ _ _ _ _ O O') as (<- & <- & <-). reflexivity.
Qed.
Example C45_example_exhausted : forall env, ee_contains env barbell = true ->
  iterative_monolayer_resolution_parameter_estimation env (stubborn barbell_c) barbell 1 0 2 false "2-spinglass"
  = ([Fin 1; Fin barbell_gamma], barbell, Ok (Fin barbell_gamma, Some (mkPart 2 barbell_c))).
Proof.
  intros env He. assert (Hh : weights_defaulted (ee_contains env barbell) barbell barbell) by (rewrite He; reflexivity).
  destruct (C45_outcome env (stubborn barbell_c) barbell barbell [1; 1; 2; 1; 1; 1; 1] 1 0 2 false "2-spinglass" barbell_wf Hh eq_refl ltac:(right; right; reflexivity)) as (calls & answers & r & O & ->).
  pose proof (barbell_estimate env He) as B. assert (NC : forall a b, ~ gamma_close 0 a b) by (intros a b (x & y & _ & _ & Z); pose proof (Rabs_pos (x - y)); lra).
  assert (O' : mono_outcome env (stubborn barbell_c) "2-spinglass" barbell 0 2 (Fin 1) [Fin 1; Fin barbell_gamma] [mkPart 2 barbell_c; mkPart 2 barbell_c] (Ok (Fin barbell_gamma))).
  { apply outcome_iff. change (Z.to_nat 2) with 2%nat. eapply run_continues; [reflexivity|unfold updates_mono; rewrite B; reflexivity|apply NC|].
    eapply run_continues; [reflexivity|unfold updates_mono; rewrite B; reflexivity|apply NC|]. apply run_out. }
  destruct (C45_determined env _ barbell _ _ _ _ _ _ _ _ _ _ O O') as (<- & <- & <-). reflexivity.
Qed.

(** ** C46: the multilayer iteration.  [h] and [hi] are the graphs after weight defaulting. *)
Definition multi_outcome (env : est_env) (opt : opt_env) (h hi : graph) (lv : list nat) (model : string) (omega_max gamma_tol omega_tol : R) :=
  outcome (npf * R) (list lpart) (answer_multi opt h hi lv) (updates_multi env h hi lv model omega_max) (both_close gamma_tol omega_tol).

(** On valid networks of the three models: the exact outcome; [parts] is the module-level variable before the call. *)
Theorem C46_outcome : forall env opt parts g gi h hi ws lv gamma omega gamma_tol omega_tol omega_max max_iter model verbose,
  wf_graph g -> weights_defaulted (ee_contains env g) g h -> weights_defaulted (ee_contains env gi) gi hi -> weights h = Some ws ->
  valid_multilayer h hi ws lv model -> is_model model ->
  exists calls answers r, multi_outcome env opt h hi lv model omega_max gamma_tol omega_tol max_iter (Fin gamma, omega) calls answers r /\
    let parts' := match last_of answers with Some ps => Some ps | None => parts end in
    iterative_multilayer_resolution_parameter_estimation env opt parts g gi lv gamma omega gamma_tol omega_tol omega_max max_iter model verbose
    = (calls, parts', (h, hi),
       match r with
       | Raise e => Raise e
       | Ok (gamma', omega') =>
         if verbose && (max_iter <=? 0)%Z then Raise TypeError
         else match parts' with None => Raise NameError | Some ps => Ok (gamma', omega', ps) end
       end).
Proof.
  intros env opt parts g gi h hi ws lv gamma omega gt ot omax mi model verbose Hg Hh Hhi Hw Hv Hm.
  apply weighted_e_defaulted in Hh. apply weighted_e_defaulted in Hhi. subst h hi.
  destruct (@multi_whole env opt parts g gi ws lv gamma omega gt ot omax mi model verbose Hg Hw Hv Hm) as (calls & ps & r & O & E). exists calls, ps, r. split; [exact O|].
  cbv zeta. rewrite E. unfold parts_after, multi_of. destruct (last_of ps); reflexivity.
Qed.
Print Assumptions C46_outcome.

(** Everything else is rejected before any optimisation: ValueError if the layer vector covers the edges, and some exception
    otherwise. *)
Theorem C46_rejected : forall env opt parts g gi h hi ws lv gamma omega gamma_tol omega_tol omega_max max_iter model verbose,
  wf_graph g -> weights_defaulted (ee_contains env g) g h -> weights_defaulted (ee_contains env gi) gi hi -> weights h = Some ws ->
  ~ (valid_multilayer h hi ws lv model /\ is_model model) ->
  exists e, iterative_multilayer_resolution_parameter_estimation env opt parts g gi lv gamma omega gamma_tol omega_tol omega_max max_iter model verbose
    = ([], parts, (h, hi), Raise e) /\
    ((forall u v, In (u, v) (edges g) -> (u < length lv)%nat /\ (v < length lv)%nat) -> e = ValueError).
Proof.
  intros env opt parts g gi h hi ws lv gamma omega gt ot omax mi model verbose Hg Hh Hhi Hw N.
  apply weighted_e_defaulted in Hh. apply weighted_e_defaulted in Hhi. subst h hi.
  pose proof (@multi_rejected env opt parts g gi ws lv gamma omega gt ot omax mi model verbose Hw) as Rj.
  pose proof (@multi_accepts_only env opt parts g gi ws lv gamma omega gt ot omax mi model verbose Hg Hw) as Ac.
  destruct (iterative_multilayer_resolution_parameter_estimation env opt parts g gi lv gamma omega gt ot omax mi model verbose) as [[[calls parts'] [g1 g2]] r] eqn:E. cbn [fst snd] in Ac.
  assert (calls = [] /\ (exists e, r = Raise e) /\ parts' = parts) as (-> & (e & ->) & ->).
  { destruct (classic (calls = [])) as [->|]; [|exfalso; apply N, Ac; auto]. split; auto.
    destruct r as [x|e]; [exfalso; apply N, Ac; right; left; eauto|]. split; [eauto|]. destruct (classic (parts' = parts)); auto. exfalso. apply N, Ac. auto. }
  exists e. split.
  - f_equal. f_equal. clear - E. unfold iterative_multilayer_resolution_parameter_estimation in E. rewrite !default_weights_weighted in E.
    destruct (let! T := layer_count_T lv in _) as [[[[[T mt] n] nt] f]|e']; [|inversion E; auto].
    assert (G : forall n0 k p g0 a b l, g0 = weighted_e env g -> snd (fst (multi_loop env opt f (weighted_e env gi) lv model n T nt mt gt ot n0 k p g0 a b l)) = weighted_e env g).
    { clear. induction n0 as [|n0 IH]; intros k p g0 a b l Hg0; cbn [multi_loop]; auto. destruct (oe_multi opt k g0 (weighted_e env gi) lv a b) as [q|e]; auto. destruct (py_get q 0) as [part|e]; auto.
      assert (Eg : fst (estimate_multilayer_SBM_parameters env g0 (weighted_e env gi) lv part model (Some n) (Some T) (Some nt) (Some mt)) = weighted_e env g).
      { unfold estimate_multilayer_SBM_parameters. rewrite default_weights_weighted. cbn [fst]. subst g0. apply weighted_e_idem. }
      destruct (estimate_multilayer_SBM_parameters env g0 (weighted_e env gi) lv part model (Some n) (Some T) (Some nt) (Some mt)) as [g' est]. cbn [fst] in Eg. subst g'.
      destruct (let! (theta_in, theta_out, p0, K) := est in _) as [[y z]|e]; auto. destruct (close gt y a && Rltb (Rabs (z - b)) ot); auto.
      specialize (IH (S k) (Some q) (weighted_e env g) y z (Some (a, b)) eq_refl). destruct (multi_loop _ _ _ _ _ _ _ _ _ _ _ _ n0 _ _ _ _ _ _) as [[[? ?] ?] ?]. exact IH. }
    specialize (G (Z.to_nat mi) 0%nat parts (weighted_e env g) (Fin gamma) omega None eq_refl).
    destruct (multi_loop _ _ _ _ _ _ _ _ _ _ _ _ _ _ _ _ _ _ _) as [[[? ?] ?] ?]. cbn [fst snd] in G. inversion E. subst. auto.
  - intros Hr. specialize (Rj Hr N). inversion Rj. auto.
Qed.
Print Assumptions C46_rejected.

(** The two cases exclude each other and [outcome] is deterministic, so together they determine every run. *)
Theorem C46_determined : forall env opt h hi lv model omega_max gamma_tol omega_tol max_iter start calls answers r calls' answers' r',
  is_model model ->
  multi_outcome env opt h hi lv model omega_max gamma_tol omega_tol max_iter start calls answers r ->
  multi_outcome env opt h hi lv model omega_max gamma_tol omega_tol max_iter start calls' answers' r' -> calls' = calls /\ answers' = answers /\ r' = r.
Proof.
  intros env opt h hi lv model omax gt ot mi x c a r c' a' r' Hm. destruct (@omega_function_models model omax (S (list_max lv)) Hm) as [f Hf].
  apply outcome_unique. intros p q q'. rewrite !(updates_multi_iff env h hi lv model omax Hf). congruence.
Qed.
Print Assumptions C46_determined.

(** What a caller sees, as for C45. *)
Theorem C46_returned : forall env opt parts g gi h hi ws lv gamma omega gamma_tol omega_tol omega_max max_iter model verbose calls parts' gs gamma' omega' ps,
  wf_graph g -> weights_defaulted (ee_contains env g) g h -> weights_defaulted (ee_contains env gi) gi hi -> weights h = Some ws -> (1 <= max_iter)%Z ->
  iterative_multilayer_resolution_parameter_estimation env opt parts g gi lv gamma omega gamma_tol omega_tol omega_max max_iter model verbose
    = (calls, parts', gs, Ok (gamma', omega', ps)) ->
  gs = (h, hi) /\ valid_multilayer h hi ws lv model /\ is_model model /\ parts' = Some ps /\
  (1 <= length calls)%nat /\ (Z.of_nat (length calls) <= max_iter)%Z /\ hd_error calls = Some (Fin gamma, omega) /\
  exists x o, last_of calls = Some (x, o) /\ oe_multi opt (length calls - 1) h hi lv x o = Ok ps /\
    updates_multi env h hi lv model omega_max ps (Ok (gamma', omega')) /\
    (gamma_close gamma_tol gamma' x /\ Rabs (omega' - o) < omega_tol \/ Z.of_nat (length calls) = max_iter).
Proof.
  intros env opt parts g gi h hi ws lv gamma omega gt ot omax mi model verbose calls parts' gs gamma' omega' ps Hg Hh Hhi Hw Hmi H.
  assert (Hvm : valid_multilayer h hi ws lv model /\ is_model model).
  { pose proof (@multi_accepts_only env opt parts g gi ws lv gamma omega gt ot omax mi model verbose Hg) as Ac. apply weighted_e_defaulted in Hh. apply weighted_e_defaulted in Hhi. subst h hi.
    apply Ac; auto. right. left. rewrite H. cbn. eauto. }
  destruct Hvm as [Hv Hm].
  destruct (C46_outcome env opt parts g gi h hi ws lv gamma omega gt ot omax mi model verbose Hg Hh Hhi Hw Hv Hm) as (calls' & answers & r & O & E). cbv zeta in E. rewrite E in H. clear E.
  destruct r as [[y z]|e]; [|discriminate]. replace ((mi <=? 0)%Z) with false in H by (symmetry; apply Z.leb_gt; lia). rewrite andb_false_r in H.
  inversion O as [steps y' L Ge Le NC C E1 E2 E3| |]. subst calls' answers y'.
  destruct (classic (steps = [])) as [->|Ns]. { exfalso. destruct C as [C|(b & s & C & _)]; [cbn in C; lia|destruct b; discriminate]. }
  destruct (exists_last Ns) as (b & s & ->). assert (El : last_of (map found (b ++ [s])) = Some (found s)) by (rewrite map_app; apply last_of_app). rewrite El in H. inversion H. subst gs y z ps parts'. clear H.
  rewrite map_app, !app_length, map_length in *. cbn [map length] in *.
  split; auto. split; auto. split; auto. split; auto. split; [lia|]. split; [lia|]. split.
  { clear - L. destruct b as [|s0 b]; inversion L; subst; reflexivity. }
  destruct (Ge (length b) s) as [A U]. { rewrite nth_error_app2, Nat.sub_diag by lia. reflexivity. }
  assert (Ey : estimated s = (gamma', omega')).
  { eapply linked_last; exact L. }
  destruct (called s) as [x o] eqn:Ec. exists x, o. split; [apply last_of_app|].
  replace (length b + 1 - 1)%nat with (length b) by lia. rewrite Ey in U. split; [exact A|]. split; [exact U|].
  destruct C as [C|(b' & s' & Es & Sm)]; [right; lia|left]. apply app_inj_tail in Es. destruct Es as [_ <-]. unfold small in Sm. rewrite Ec, Ey in Sm. exact Sm.
Qed.
Print Assumptions C46_returned.

(** The estimates are those of gamma_omega_estimate for the membership of the first partition object, if its length is that of its
    labels (as leidenalg guarantees); for the multiplex model they are additionally rejected if p > 1. *)
Theorem C46_estimates : forall env h gi lv model omega_max c rest gamma omega,
  weights_defaulted (ee_contains env h) h h -> lv <> [] -> length c = vcount h ->
  let part := mkPart (list_max (map S c)) c in
  (updates_multi env h gi lv model omega_max (part :: rest) (Ok (gamma, omega)) ->
   gamma_omega_estimate env h gi lv c omega_max model None None None None = (h, Ok (Some gamma, omega))) /\
  (model <> "multiplex"%string -> gamma_omega_estimate env h gi lv c omega_max model None None None None = (h, Ok (Some gamma, omega)) ->
   updates_multi env h gi lv model omega_max (part :: rest) (Ok (gamma, omega))).
Proof.
  intros env h gi lv model omax c rest gamma omega Hh Hne Hc part. apply weighted_e_defaulted in Hh.
  assert (ET : layer_count_T lv = Ok (S (list_max lv))) by (apply numbers_T; auto).
  assert (Es : estimate_multilayer_SBM_parameters env h gi lv part model None (Some (S (list_max lv))) None None = estimate_multilayer_SBM_parameters env h gi lv part model None None None None).
  { unfold estimate_multilayer_SBM_parameters. destruct (default_weights_e env h); auto. unfold estimate_multilayer_weighted, or_default. rewrite ET. reflexivity. }
  assert (Eg : fst (estimate_multilayer_SBM_parameters env h gi lv part model None None None None) = h).
  { unfold estimate_multilayer_SBM_parameters. rewrite default_weights_weighted, <- Hh. reflexivity. }
  unfold gamma_omega_estimate. cbn [or_default]. rewrite ET. cbn [bind]. unfold leiden_part_with_membership. rewrite Hc, Nat.eqb_refl. cbn [bind]. fold part. rewrite Es.
  pose proof (C33_probability env h gi lv part model None None None None) as Pr.
  destruct (estimate_multilayer_SBM_parameters env h gi lv part model None None None None) as [g' est] eqn:E. cbn [fst snd] in Eg, Pr. subst g'. split.
  - intros U. inversion U as [| | | |p0 ps ti to p K g f o A B C D F G]; subst. rewrite E in A. cbn [snd] in A. rewrite A. cbn [bind]. rewrite D. cbn [bind].
    destruct (f ti to p K) as [o|e]; inversion H0. subst. rewrite C. reflexivity.
  - intros Nm H. assert (H' : (let! (theta_in, theta_out, p, K) := est in
        let! update_omega := omega_function_from_model model omax (S (list_max lv)) in
        let! omega0 := update_omega theta_in theta_out p K in Ok (gamma_estimate_from_parameters theta_in theta_out, omega0)) = Ok (Some gamma, omega)) by congruence. clear H.
    destruct est as [[[[ti to] p] K]|e]; [|discriminate]. cbn [bind] in H'. destruct (omega_function_from_model model omax (S (list_max lv))) as [f|e] eqn:Hf; [|discriminate]. cbn [bind] in H'.
    destruct (f ti to p K) as [o|e] eqn:Ho; [|discriminate]. cbn [bind] in H'. inversion H'.
    pose proof (@both_estimates env h gi lv model omax part rest ti to p K gamma f (Ok o)) as B. subst o. apply B; auto. rewrite E. reflexivity. apply (Pr ti to p K); auto.
Qed.
Print Assumptions C46_estimates.

(** The two paths with an optimiser that always answers [two_paths_c]. *)
Definition paths_gamma : R := (4 / 5 - 4 / 3) / (ln (4 / 5) - ln (4 / 3)).
Definition paths_omega : R := ln 2 / (2 * (ln (4 / 5) - ln (4 / 3))).
Lemma paths_answer env hi : ee_contains env two_paths = true -> hi = two_paths_i ->
  updates_multi env two_paths hi two_paths_lv "temporal" 1000 [mkPart 2 two_paths_c; mkPart 2 two_paths_c] (Ok (Fin paths_gamma, paths_omega)).
Proof.
  intros He ->. apply (C46_estimates env two_paths two_paths_i two_paths_lv "temporal" 1000 two_paths_c [mkPart 2 two_paths_c] (Fin paths_gamma) paths_omega); try discriminate; auto.
  - rewrite He. reflexivity.
  - apply C37_example. auto.
Qed.
Example C46_example : forall env parts, ee_contains env two_paths = true -> ee_contains env two_paths_i = true ->
  iterative_multilayer_resolution_parameter_estimation env (stubborn two_paths_c) parts two_paths two_paths_i two_paths_lv 1 1 0 0 1000 2 "temporal" true
  = ([(Fin 1, 1); (Fin paths_gamma, paths_omega)], Some [mkPart 2 two_paths_c; mkPart 2 two_paths_c], (two_paths, two_paths_i),
     Ok (Fin paths_gamma, paths_omega, [mkPart 2 two_paths_c; mkPart 2 two_paths_c])).
Proof.
  intros env parts He Hi. destruct two_paths_valid as (W1 & W2 & V).
  assert (Hh : weights_defaulted (ee_contains env two_paths) two_paths two_paths) by (rewrite He; reflexivity).
  assert (Hhi : weights_defaulted (ee_contains env two_paths_i) two_paths_i two_paths_i) by (rewrite Hi; reflexivity).
  destruct (C46_outcome env (stubborn two_paths_c) parts two_paths two_paths_i two_paths two_paths_i [1; 1; 1; 1] two_paths_lv 1 1 0 0 1000 2 "temporal" true W1 Hh Hhi eq_refl V ltac:(left; reflexivity)) as (calls & answers & r & O & ->).
  assert (NC : forall x y, ~ both_close 0 0 x y) by (intros x y [_ Z]; pose proof (Rabs_pos (snd y - snd x)); lra).
  pose proof (paths_answer env two_paths_i He eq_refl) as B.
  assert (O' : multi_outcome env (stubborn two_paths_c) two_paths two_paths_i two_paths_lv "temporal" 1000 0 0 2 (Fin 1, 1) [(Fin 1, 1); (Fin paths_gamma, paths_omega)]
    [[mkPart 2 two_paths_c; mkPart 2 two_paths_c]; [mkPart 2 two_paths_c; mkPart 2 two_paths_c]] (Ok (Fin paths_gamma, paths_omega))).
  { apply outcome_iff. change (Z.to_nat 2) with 2%nat. eapply run_continues; [reflexivity|exact B|apply NC|]. eapply run_continues; [reflexivity|exact B|apply NC|]. apply run_out. }
  destruct (C46_determined env _ two_paths two_paths_i _ _ _ _ _ _ _ _ _ _ _ _ _ ltac:(left; reflexivity) O O') as (<- & <- & <-). reflexivity.
Qed.

(** ** C47: the module-level variable.  With at least one iteration the module-level variable left by earlier calls has no effect on
    the calls made and on the result. *)
Theorem C47_independent : forall env opt parts parts' g gi h ws lv gamma omega gamma_tol omega_tol omega_max max_iter model verbose,
  wf_graph g -> weights_defaulted (ee_contains env g) g h -> weights h = Some ws -> (1 <= max_iter)%Z ->
  let run p := iterative_multilayer_resolution_parameter_estimation env opt p g gi lv gamma omega gamma_tol omega_tol omega_max max_iter model verbose in
  fst (fst (fst (run parts))) = fst (fst (fst (run parts'))) /\ snd (run parts) = snd (run parts').
Proof.
  intros env opt parts parts' g gi h ws lv gamma omega gt ot omax mi model verbose Hg Hh Hw Hmi run.
  assert (Hhi : weights_defaulted (ee_contains env gi) gi (weighted_e env gi)) by (apply weighted_e_defaulted; auto). set (hi := weighted_e env gi) in *. clearbody hi.
  destruct (classic (valid_multilayer h hi ws lv model /\ is_model model)) as [[Hv Hm]|N]; unfold run; clear run.
  - destruct (C46_outcome env opt parts g gi h hi ws lv gamma omega gt ot omax mi model verbose Hg Hh Hhi Hw Hv Hm) as (calls & answers & r & O & ->).
    destruct (C46_outcome env opt parts' g gi h hi ws lv gamma omega gt ot omax mi model verbose Hg Hh Hhi Hw Hv Hm) as (calls' & answers' & r' & O' & ->).
    destruct (C46_determined env opt h hi lv model omax gt ot mi _ _ _ _ _ _ _ Hm O O') as (-> & -> & ->). cbn [fst snd]. split; auto.
    destruct r as [[y z]|e]; auto. apply outcome_iff in O. pose proof (run_length O) as (_ & _ & A & B & _). specialize (A _ eq_refl).
    destruct (last_of answers) as [p|] eqn:El; auto. apply last_of_none in El. subst answers. destruct calls; [|discriminate]. destruct B as [B _]. specialize (B eq_refl). lia.
  - destruct (C46_rejected env opt parts g gi h hi ws lv gamma omega gt ot omax mi model verbose Hg Hh Hhi Hw N) as (e & E & _).
    destruct (C46_rejected env opt parts' g gi h hi ws lv gamma omega gt ot omax mi model verbose Hg Hh Hhi Hw N) as (e' & E' & _).
    rewrite E, E'. cbn [fst snd]. split; auto. f_equal.
    assert (G : forall p e0, snd (iterative_multilayer_resolution_parameter_estimation env opt p g gi lv gamma omega gt ot omax mi model verbose) = Raise e0 ->
      fst (fst (fst (iterative_multilayer_resolution_parameter_estimation env opt p g gi lv gamma omega gt ot omax mi model verbose))) = [] ->
      (let! T := layer_count_T lv in
       let! m_t := layer_weights (weighted_e env g) lv T in
       let! N := nodes_per_layer (weighted_e env g) T in
       let! Nt := layer_nodes lv T in
       match check_multilayer_graph_consistency (weighted_e env g) (weighted_e env gi) lv model m_t T (Some N) (Some Nt) with
       | Malformed _ => Raise ValueError
       | Failed e => Raise e
       | Accepted => let! update_omega := omega_function_from_model model omax T in Ok (T, m_t, N, Nt, update_omega)
       end) = Raise e0).
    { clear - Hmi. intros p e0. unfold iterative_multilayer_resolution_parameter_estimation. rewrite !default_weights_weighted.
      destruct (let! T := layer_count_T lv in _) as [[[[[T mt] n] nt] f]|e']; [|cbn; congruence].
      replace (Z.to_nat mi) with (S (Z.to_nat mi - 1)) by lia. cbn [multi_loop].
      destruct (oe_multi opt 0 (weighted_e env g) (weighted_e env gi) lv (Fin gamma) omega) as [q|e]; [|discriminate]. destruct (py_get q 0) as [part|e]; [|discriminate].
      destruct (estimate_multilayer_SBM_parameters _ _ _ _ _ _ _ _ _ _) as [g' est]. destruct (let! (theta_in, theta_out, p0, K) := est in _) as [[y z]|e]; [|discriminate].
      destruct (close gt y (Fin gamma) && Rltb (Rabs (z - omega)) ot); [discriminate|]. destruct (multi_loop _ _ _ _ _ _ _ _ _ _ _ _ _ _ _ _ _ _ _) as [[[? ?] ?] ?]. discriminate. }
    assert (A := G parts e). assert (B := G parts' e'). rewrite E in A. rewrite E' in B. cbn [fst snd] in A, B. specialize (A eq_refl eq_refl). specialize (B eq_refl eq_refl). congruence.
Qed.
Print Assumptions C47_independent.

(** A call, as made by the program: everything but the module-level variable. *)
Record call : Type := mkCall { c_env : est_env; c_opt : opt_env; c_g : graph; c_gi : graph; c_lv : list nat; c_gamma : R; c_omega : R;
  c_gamma_tol : R; c_omega_tol : R; c_omega_max : R; c_max_iter : Z; c_model : string; c_verbose : bool }.
Definition make (parts : option (list lpart)) (c : call) :=
  iterative_multilayer_resolution_parameter_estimation (c_env c) (c_opt c) parts (c_g c) (c_gi c) (c_lv c) (c_gamma c) (c_omega c) (c_gamma_tol c) (c_omega_tol c)
    (c_omega_max c) (c_max_iter c) (c_model c) (c_verbose c).
(** The module-level variable after a sequence of calls in a fresh process. *)
Definition parts_left (calls : list call) : option (list lpart) := fold_left (fun parts c => snd (fst (fst (make parts c)))) calls None.
(** The optimiser's answers during a call (none if the graphs are rejected). *)
Definition answered (c : call) (answers : list (list lpart)) : Prop :=
  exists h hi ws, wf_graph (c_g c) /\ weights_defaulted (ee_contains (c_env c) (c_g c)) (c_g c) h /\ weights_defaulted (ee_contains (c_env c) (c_gi c)) (c_gi c) hi /\ weights h = Some ws /\
    ((valid_multilayer h hi ws (c_lv c) (c_model c) /\ is_model (c_model c) /\
      exists calls r, multi_outcome (c_env c) (c_opt c) h hi (c_lv c) (c_model c) (c_omega_max c) (c_gamma_tol c) (c_omega_tol c) (c_max_iter c) (Fin (c_gamma c), c_omega c) calls answers r) \/
     (~ (valid_multilayer h hi ws (c_lv c) (c_model c) /\ is_model (c_model c)) /\ answers = [])).

(** After any sequence of calls the variable holds the last answer the optimiser gave in any of them. *)
Theorem C47_history : forall calls answers, Forall2 answered calls answers -> parts_left calls = last_of (concat answers).
Proof.
  assert (G : forall calls answers, Forall2 answered calls answers -> forall parts,
    fold_left (fun parts c => snd (fst (fst (make parts c)))) calls parts = match last_of (concat answers) with Some ps => Some ps | None => parts end).
  { intros calls answers H. induction H as [|c a cs as_ Hc H IH]; intros parts; [reflexivity|]. cbn [fold_left concat]. rewrite IH. clear IH H.
    assert (E : snd (fst (fst (make parts c))) = match last_of a with Some ps => Some ps | None => parts end).
    { destruct Hc as (h & hi & ws & Hg & Hh & Hhi & Hw & [(Hv & Hm & calls & r & O)|(N & ->)]); unfold make.
      - destruct (C46_outcome (c_env c) (c_opt c) parts (c_g c) (c_gi c) h hi ws (c_lv c) (c_gamma c) (c_omega c) (c_gamma_tol c) (c_omega_tol c) (c_omega_max c) (c_max_iter c) (c_model c) (c_verbose c) Hg Hh Hhi Hw Hv Hm)
          as (calls' & answers' & r' & O' & ->). cbn [fst snd]. destruct (C46_determined _ _ _ _ _ _ _ _ _ _ _ _ _ _ _ _ _ Hm O O') as (-> & -> & ->). reflexivity.
      - destruct (C46_rejected (c_env c) (c_opt c) parts (c_g c) (c_gi c) h hi ws (c_lv c) (c_gamma c) (c_omega c) (c_gamma_tol c) (c_omega_tol c) (c_omega_max c) (c_max_iter c) (c_model c) (c_verbose c) Hg Hh Hhi Hw N)
          as (e & -> & _). reflexivity. }
    rewrite E. clear E Hc. assert (La : last_of (a ++ concat as_) = match last_of (concat as_) with Some ps => Some ps | None => last_of a end).
    { induction a as [|x a IH]; cbn [app]; [destruct (last_of (concat as_)); reflexivity|]. rewrite !last_of_cons, IH. destruct (last_of (concat as_)), (last_of a); reflexivity. }
    rewrite La. destruct (last_of (concat as_)); reflexivity. }
  intros calls answers H. unfold parts_left. rewrite (G _ _ H). destruct (last_of (concat answers)); reflexivity.
Qed.
Print Assumptions C47_history.

(** Without iterations (and not verbose) a call on a valid network returns the starting parameters together with the last answer the
    optimiser gave in any earlier call, or NameError if there is none: the module-level variable leaks between calls. *)
Theorem C47_refuted : forall calls answers c h hi ws,
  Forall2 answered calls answers ->
  wf_graph (c_g c) -> weights_defaulted (ee_contains (c_env c) (c_g c)) (c_g c) h -> weights_defaulted (ee_contains (c_env c) (c_gi c)) (c_gi c) hi -> weights h = Some ws ->
  valid_multilayer h hi ws (c_lv c) (c_model c) -> is_model (c_model c) -> (c_max_iter c <= 0)%Z -> c_verbose c = false ->
  snd (make (parts_left calls) c) = match last_of (concat answers) with
                                    | Some ps => Ok (Fin (c_gamma c), c_omega c, ps)
                                    | None => Raise NameError
                                    end.
Proof.
  intros calls answers c h hi ws Hc Hg Hh Hhi Hw Hv Hm Hmi Hverb. rewrite (C47_history _ _ Hc). unfold make.
  destruct (C46_outcome (c_env c) (c_opt c) (last_of (concat answers)) (c_g c) (c_gi c) h hi ws (c_lv c) (c_gamma c) (c_omega c) (c_gamma_tol c) (c_omega_tol c) (c_omega_max c) (c_max_iter c) (c_model c) (c_verbose c) Hg Hh Hhi Hw Hv Hm)
    as (calls' & answers' & r' & O' & ->). cbn [snd]. rewrite Hverb. cbn [andb]. apply outcome_iff in O'. pose proof (run_length O') as (_ & _ & A & B & C & _).
  assert (Z : Z.to_nat (c_max_iter c) = 0%nat) by lia. specialize (C Z). subst r'. specialize (A _ eq_refl). apply B in Z. subst calls'. destruct answers'; [|discriminate]. reflexivity.
Qed.
Print Assumptions C47_refuted.

(** A first call with zero iterations fails with NameError; after the call of C46's example it returns that call's partitions. *)
Definition paths_call (env : est_env) (max_iter : Z) : call := mkCall env (stubborn two_paths_c) two_paths two_paths_i two_paths_lv 1 1 0 0 1000 max_iter "temporal" false.
Example C47_example : forall env, ee_contains env two_paths = true -> ee_contains env two_paths_i = true ->
  snd (make (parts_left []) (paths_call env 0)) = Raise NameError /\
  snd (make (parts_left [paths_call env 2]) (paths_call env 0)) = Ok (Fin 1, 1, [mkPart 2 two_paths_c; mkPart 2 two_paths_c]).
Proof.
  intros env He Hi. destruct two_paths_valid as (W1 & W2 & V).
  assert (Hh : weights_defaulted (ee_contains env two_paths) two_paths two_paths) by (rewrite He; reflexivity).
  assert (Hhi : weights_defaulted (ee_contains env two_paths_i) two_paths_i two_paths_i) by (rewrite Hi; reflexivity).
  assert (NC : forall x y, ~ both_close 0 0 x y) by (intros x y [_ Z]; pose proof (Rabs_pos (snd y - snd x)); lra).
  pose proof (paths_answer env two_paths_i He eq_refl) as B.
  split.
  - rewrite (C47_refuted [] [] (paths_call env 0) two_paths two_paths_i [1; 1; 1; 1]); auto; cbn; try lia. left; reflexivity.
  - rewrite (C47_refuted [paths_call env 2] [[[mkPart 2 two_paths_c; mkPart 2 two_paths_c]; [mkPart 2 two_paths_c; mkPart 2 two_paths_c]]] (paths_call env 0) two_paths two_paths_i [1; 1; 1; 1]); auto; cbn [c_max_iter paths_call]; try lia; [| left; reflexivity].
    constructor; [|constructor]. exists two_paths, two_paths_i, [1; 1; 1; 1]. split; auto. split; auto. split; auto. split; auto. left. split; auto. split; [left; reflexivity|].
    exists [(Fin 1, 1); (Fin paths_gamma, paths_omega)], (Ok (Fin paths_gamma, paths_omega)). apply outcome_iff. change (Z.to_nat 2) with 2%nat.
    eapply run_continues; [reflexivity|exact B|apply NC|]. eapply run_continues; [reflexivity|exact B|apply NC|]. apply run_out.
Qed.

(** ** C56: accepted models and methods. *)
Theorem C56_omega_function : forall model omega_max T,
  (is_model model -> exists f, omega_function_from_model model omega_max T = Ok f) /\
  (~ is_model model -> omega_function_from_model model omega_max T = Raise ValueError).
Proof. intros model omax T. split; [apply omega_function_models|apply omega_function_unknown]. Qed.
Print Assumptions C56_omega_function.

(** The parameters that the persistence of each model needs. *)
Definition has_parameters (model : string) (layer_vec : option (list nat)) (N T : option nat) (Nt : option (list nat)) : Prop :=
  (model = "temporal"%string /\ N <> None /\ T <> None) \/ (model = "multiplex"%string /\ N <> None /\ T <> None) \/
  (model = "multilevel"%string /\ Nt <> None /\ T <> None /\ layer_vec <> None).
Theorem C56_persistence_function : forall model gi layer_vec N T Nt,
  (has_parameters model layer_vec N T Nt -> exists f, persistence_function_from_model model gi layer_vec N T Nt = Ok f) /\
  (~ has_parameters model layer_vec N T Nt -> persistence_function_from_model model gi layer_vec N T Nt = Raise ValueError).
Proof.
  intros model gi lv N T Nt. split.
  - intros [(-> & A & B)|[(-> & A & B)|(-> & A & B & C)]]; unfold persistence_function_from_model; cbn [String.eqb Ascii.eqb Bool.eqb].
    + destruct N, T; try congruence. eauto.
    + destruct N, T; try congruence. eauto.
    + destruct Nt, T, lv; try congruence. eauto.
  - intros H. unfold persistence_function_from_model, has_parameters in *. destruct (String.eqb_spec model "temporal") as [->|].
    { destruct N, T; auto. exfalso. apply H. left. repeat split; discriminate. }
    destruct (String.eqb_spec model "multilevel") as [->|].
    { destruct Nt, T, lv; auto. exfalso. apply H. right. right. repeat split; discriminate. }
    destruct (String.eqb_spec model "multiplex") as [->|]; auto.
    destruct N, T; auto. exfalso. apply H. right. left. repeat split; discriminate.
Qed.
Print Assumptions C56_persistence_function.

Theorem C56_method : forall env opt g h ws gamma tol max_iter verbose method,
  wf_graph g -> weights_defaulted (ee_contains env g) g h -> weights h = Some ws -> ~ known_method method ->
  iterative_monolayer_resolution_parameter_estimation env opt g gamma tol max_iter verbose method = ([], h, Raise ValueError).
Proof. intros env opt g h ws gamma tol mi verbose method Hg Hh Hw Hm. apply weighted_e_defaulted in Hh. subst h. apply mono_unknown; auto. congruence. Qed.
Print Assumptions C56_method.

(** Unknown models are also rejected by the estimates that use these functions: gamma_omega_estimate never succeeds. *)
Theorem C56_estimates : forall env g gi lv c omega_max model N T Nt m_t x,
  snd (gamma_omega_estimate env g gi lv c omega_max model N T Nt m_t) = Ok x -> is_model model.
Proof.
  intros env g gi lv c omax model N T Nt m_t x H. destruct (classic (is_model model)) as [|Hm]; auto. exfalso. revert H. unfold gamma_omega_estimate.
  destruct (let! T := or_default T (layer_count_T lv) in _) as [[T' p]|e]; [|discriminate]. destruct (estimate_multilayer_SBM_parameters _ _ _ _ _ _ _ _ _ _) as [g' [[[[a b] q] K]|e]]; [|discriminate].
  cbn [snd bind]. rewrite omega_function_unknown by auto. discriminate.
Qed.
Print Assumptions C56_estimates.

Example C56_example : omega_function_from_model "ordinal" 1000 3 = Raise ValueError /\
  persistence_function_from_model "temporal" two_paths_i None None (Some 2%nat) None = Raise ValueError /\
  exists f, persistence_function_from_model "temporal" two_paths_i None (Some 3%nat) (Some 2%nat) None = Ok f /\ f two_paths_c = Ok (2 / 3).
Proof.
  split; [reflexivity|]. split; [reflexivity|]. eexists. split; [reflexivity|]. unfold ordinal_persistence. change (kept_edges two_paths_i two_paths_c) with (Ok 2%nat : res nat). cbn [bind].
  rewrite py_div_ok by (cbn; lra). f_equal. cbn. field.
Qed.
