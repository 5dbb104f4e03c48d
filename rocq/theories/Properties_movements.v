(** C103: the movements of the iterative estimation in the experiments on synthetic networks (easy_regime_generation.py:92-124, 144-149). *)
From Coq Require Import String Permutation.
From Verif Require Import PyBase PyGraph M_partition M_champ M_leiden M_estimation_utils M_estimation M_checks M_generators M_plotting M_lfr M_staged Spec Spec_graph Spec_leiden Spec_sbm Spec_multisbm Spec_check Spec_valid Spec_champ Spec_generators Spec_iteration Spec_staged L_base L_sbm2 L_multisbm L_omega L_multileiden L_iteration L_staged
  Properties_sbm Properties_multisbm Properties_iteration Properties_generators Properties_staged.
Open Scope list_scope.
Open Scope R_scope.

Section Steps.
Variables (env : stage_env) (est : est_env) (g gi h hi : graph) (ws : list R) (lv : list nat).
Hypothesis Wg : wf_graph g.
Hypothesis Hh : weights_defaulted (ee_contains est g) g h.
Hypothesis Hhi : weights_defaulted (ee_contains est gi) gi hi.
Hypothesis Hws : weights h = Some ws.
Hypothesis Hv : valid_multilayer h hi ws lv "temporal".

(** The graph objects before and after the first call. *)
Definition pair_of (gs : graph * graph) : Prop := gs = (g, gi) \/ gs = (h, hi).
Lemma second_h : wf_graph h /\ weights_defaulted (ee_contains est h) h h /\ weights_defaulted (ee_contains est hi) hi hi.
Proof.
  pose proof Hh as A. pose proof Hhi as B. apply weighted_e_defaulted in A. apply weighted_e_defaulted in B. subst h hi. split; [|split].
  - apply weighted_e_wf. exact Wg.
  - apply weighted_e_defaulted. symmetry. apply weighted_e_idem.
  - apply weighted_e_defaulted. symmetry. apply weighted_e_idem.
Qed.
Lemma step_unique k g0 o0 o o' : step_from env est h hi lv k g0 o0 o -> step_from env est h hi lv k g0 o0 o' -> o = o'.
Proof.
  destruct (@omega_function_models "temporal"%string 1000 (S (list_max lv)) ltac:(left; reflexivity)) as [f Hf].
  intros [ps g1 o1 A U|A|ps A U] [ps' g1' o1' A' U'|A'|ps' A' U']; try congruence; rewrite A in A'; injection A' as <-; pose proof (@updates_multi_fun est h hi lv "temporal"%string 1000 f Hf _ _ _ U U'); congruence.
Qed.
Lemma one_step_cases k parts gs g0 o0 : pair_of gs ->
  exists parts', (exists o, step_from env est h hi lv k g0 o0 o /\ one_step env est lv (k, parts, gs) g0 o0 = ((S k, parts', (h, hi)), Ok o)) \/
    (exists e, (forall o, ~ step_from env est h hi lv k g0 o0 o) /\ one_step env est lv (k, parts, gs) g0 o0 = ((S k, parts', (h, hi)), Raise e)).
Proof.
  intros HP. destruct second_h as (Wh & Hh2 & Hhi2). destruct gs as [a b].
  assert (O : exists calls answers r, multi_outcome est (sg_opt env k) h hi lv "temporal" 1000 (1 / 100) (5 / 100) 1 (Fin g0, o0) calls answers r /\
    let parts' := match last_of answers with Some ps => Some ps | None => parts end in
    iterative_multilayer_resolution_parameter_estimation est (sg_opt env k) parts a b lv g0 o0 (1 / 100) (5 / 100) 1000 1 "temporal" false
    = (calls, parts', (h, hi), match r with Raise e => Raise e | Ok (gamma', omega') => if false && (1 <=? 0)%Z then Raise TypeError else match parts' with None => Raise NameError | Some ps => Ok (gamma', omega', ps) end end)).
  { destruct HP as [E|E]; injection E as -> ->.
    - apply (C46_outcome est (sg_opt env k) parts g gi h hi ws lv g0 o0 (1 / 100) (5 / 100) 1000 1 "temporal" false Wg Hh Hhi Hws Hv ltac:(left; reflexivity)).
    - apply (C46_outcome est (sg_opt env k) parts h hi h hi ws lv g0 o0 (1 / 100) (5 / 100) 1000 1 "temporal" false Wh Hh2 Hhi2 Hws Hv ltac:(left; reflexivity)). }
  destruct O as (calls & answers & r & O & E). cbv zeta in E. unfold one_step. rewrite E. clear E HP. eexists.
  destruct (@omega_function_models "temporal"%string 1000 (S (list_max lv)) ltac:(left; reflexivity)) as [f Hf].
  assert (UF := @updates_multi_fun est h hi lv "temporal"%string 1000 f Hf).
  inversion O as [steps y L Ge Le NC C E1 E2 E3|steps x e L Ge Le NC A E1 E2 E3|steps x p e L Ge Le NC A U E1 E2 E3]; subst; clear O.
  - assert (Ls : length steps = 1%nat).
    { destruct C as [C|(b0 & s & -> & _)]; [lia|]. rewrite app_length in *. cbn [length] in *. lia. }
    destruct steps as [|s [|]]; try discriminate. destruct (Ge 0%nat s eq_refl) as [A U]. inversion L as [|? ? ? L']; subst. inversion L'; subst. cbn [map]. cbn [last_of last].
    destruct (estimated s) as [g1 o1]. left. exists (Some (g1, o1)). split; [|reflexivity].
    match goal with Ec : called s = (Fin g0, o0) |- _ => rewrite Ec in A end. econstructor; [exact A|exact U].
  - destruct steps as [|s steps]; [|cbn [length] in Le; lia]. inversion L; subst. cbn [map last_of last length] in *. unfold answer_multi in A. cbn [fst snd] in A.
    destruct e; try (right; eexists; split; [|reflexivity]; intros o [? ? ? A'|A'|? A']; congruence). left. exists None. split; [|reflexivity]. apply not_optimised. exact A.
  - destruct steps as [|s steps]; [|cbn [length] in Le; lia]. inversion L; subst. cbn [map last_of last length app] in *. unfold answer_multi in A. cbn [fst snd] in A.
    destruct e; try (right; eexists; split; [|reflexivity]; intros o [? ? ? A' U'|A'|? A' U']; try congruence; rewrite A in A'; injection A' as <-; pose proof (UF _ _ _ U U'); discriminate).
    left. exists None. split; [|reflexivity]. econstructor; [exact A|exact U].
Qed.

Definition gd_of (g0 : R) (o : option (npf * R)) : list npf := match o with Some (g1, _) => [difference g1 g0] | None => [] end.
Definition od_of (o0 : R) (o : option (npf * R)) : list R := match o with Some (_, o1) => [o1 - o0] | None => [] end.
Lemma repeat_cases g0 o0 : forall n k parts gs gd od, pair_of gs ->
  (exists outs parts' gs', length outs = n /\ pair_of gs' /\ (forall j o, nth_error outs j = Some o -> step_from env est h hi lv (k + j) g0 o0 o) /\
     repeat_step env est lv g0 o0 n (k, parts, gs) gd od = Ok ((k + n)%nat, parts', gs', gd ++ flat_map (gd_of g0) outs, od ++ flat_map (od_of o0) outs)) \/
  (exists j e, (j < n)%nat /\ (forall o, ~ step_from env est h hi lv (k + j) g0 o0 o) /\ repeat_step env est lv g0 o0 n (k, parts, gs) gd od = Raise e).
Proof.
  induction n as [|n IH]; intros k parts gs gd od HP.
  - left. exists [], parts, gs. cbn [repeat_step flat_map]. rewrite !app_nil_r, Nat.add_0_r. split; [reflexivity|]. split; [exact HP|]. split; [|reflexivity]. intros [|j] o E; discriminate.
  - cbn [repeat_step]. destruct (one_step_cases k parts gs g0 o0 HP) as (parts1 & [(o & S1 & E)|(e & N & E)]).
    + rewrite E. cbn [bind].
      assert (Q : repeat_step env est lv g0 o0 n (S k, parts1, (h, hi)) (gd ++ gd_of g0 o) (od ++ od_of o0 o) =
        match o with
        | Some (g1, o1) => repeat_step env est lv g0 o0 n (S k, parts1, (h, hi)) (gd ++ [np_minus g1 g0]) (od ++ [o1 - o0])
        | None => repeat_step env est lv g0 o0 n (S k, parts1, (h, hi)) gd od
        end) by (destruct o as [[g1 o1]|]; cbn [gd_of od_of]; [reflexivity|rewrite !app_nil_r; reflexivity]).
      rewrite <- Q. clear Q. destruct (IH (S k) parts1 (h, hi) (gd ++ gd_of g0 o) (od ++ od_of o0 o) (or_intror eq_refl)) as [(outs & parts2 & gs2 & L & P2 & S2 & E2)|(j & e & Hj & N & E2)].
      * left. exists (o :: outs), parts2, gs2. rewrite E2. cbn [length flat_map]. rewrite <- !app_assoc, <- Nat.add_succ_comm. split; [congruence|]. split; [exact P2|]. split; [|reflexivity].
        intros [|j] o' Ho; [cbn in Ho; injection Ho as <-; rewrite Nat.add_0_r; exact S1|]. rewrite <- Nat.add_succ_comm. apply S2. exact Ho.
      * right. exists (S j), e. split; [lia|]. rewrite <- Nat.add_succ_comm. split; [exact N|exact E2].
    + right. exists 0%nat, e. rewrite Nat.add_0_r, E. split; [lia|]. split; [exact N|reflexivity].
Qed.

Lemma fold_cases n (body : walk * list movement -> R * R -> res (walk * list movement)) :
  (forall st p, body st p = let! (w', gdiffs, odiffs) := repeat_step env est lv (fst p) (snd p) n (fst st) [] [] in Ok (w', snd st ++ [(fst p, snd p, gdiffs, odiffs)])) ->
  forall P k parts gs acc, pair_of gs ->
  (exists ms w', foldM body P ((k, parts, gs), acc) = Ok (w', acc ++ ms) /\ map (fun m : movement => (fst (fst (fst m)), snd (fst (fst m)))) ms = P /\
     forall i g0 o0 gd od, nth_error ms i = Some (g0, o0, gd, od) -> differences env est h hi lv (k + i * n) n g0 o0 gd od) \/
  (exists i p j e, nth_error P i = Some p /\ (j < n)%nat /\ (forall o, ~ step_from env est h hi lv (k + i * n + j) (fst p) (snd p) o) /\ foldM body P ((k, parts, gs), acc) = Raise e).
Proof.
  intros HB. induction P as [|[g0 o0] P IH]; intros k parts gs acc HP.
  - left. exists [], (k, parts, gs). cbn [foldM]. rewrite app_nil_r. split; [reflexivity|]. split; [reflexivity|]. intros [|i] ? ? ? ? E; discriminate.
  - cbn [foldM]. rewrite HB. cbn [fst snd].
    destruct (repeat_cases g0 o0 n k parts gs [] [] HP) as [(outs & parts1 & gs1 & L & P1 & S1 & E)|(j & e & Hj & N & E)].
    + rewrite E. cbn [bind app]. specialize (IH (k + n)%nat parts1 gs1 (acc ++ [(g0, o0, flat_map (gd_of g0) outs, flat_map (od_of o0) outs)]) P1).
      destruct IH as [(ms & w' & E2 & M2 & D2)|(i & p & j & e & Hi & Hj & N & E2)].
      * left. exists ((g0, o0, flat_map (gd_of g0) outs, flat_map (od_of o0) outs) :: ms), w'. cbn [map fst snd]. split; [rewrite <- app_assoc in E2; exact E2|]. split; [f_equal; exact M2|].
        intros [|i] a b gd od Hn.
        -- cbn in Hn. injection Hn as <- <- <- <-. rewrite Nat.mul_0_l, Nat.add_0_r. exists outs. split; [exact L|]. split; [exact S1|]. split; reflexivity.
        -- replace (k + S i * n)%nat with (k + n + i * n)%nat by lia. apply D2. exact Hn.
      * right. exists (S i), p, j, e. replace (k + S i * n)%nat with (k + n + i * n)%nat by lia. split; [exact Hi|]. split; [exact Hj|]. split; [exact N|exact E2].
    + right. exists 0%nat, (g0, o0), j, e. rewrite Nat.mul_0_l, Nat.add_0_r. split; [reflexivity|]. split; [exact Hj|]. split; [exact N|]. rewrite E. reflexivity.
Qed.
End Steps.

(** The points are those of the grid, gamma in the outer loop; at each of them the differences of that point's own calls.  The function
    answers exactly when every call of the optimiser does, or fails with a ValueError. *)
Theorem C103_movements : forall env est r g gi lv truth h hi ws,
  wf_graph g -> weights_defaulted (ee_contains est g) g h -> weights_defaulted (ee_contains est gi) gi hi -> weights h = Some ws -> valid_multilayer h hi ws lv "temporal" ->
  let points := list_prod (rg_gammas0 r) (rg_omegas0 r) in let n := rg_repeats r in
  (forall l, pamfil_movements env est r (g, gi, lv, truth) = Ok l ->
     map (fun m : movement => (fst (fst (fst m)), snd (fst (fst m)))) l = points /\
     forall i g0 o0 gdiffs odiffs, nth_error l i = Some (g0, o0, gdiffs, odiffs) -> differences env est h hi lv (i * n) n g0 o0 gdiffs odiffs) /\
  ((exists l, pamfil_movements env est r (g, gi, lv, truth) = Ok l) <->
   forall i p j, nth_error points i = Some p -> (j < n)%nat -> exists o, step_from env est h hi lv (i * n + j) (fst p) (snd p) o).
Proof.
  intros env est r g gi lv truth h hi ws Wg Hh Hhi Hws Hv points n.
  pose proof (fold_cases env est g gi h hi ws lv Wg Hh Hhi Hws Hv n _ (fun _ _ => eq_refl) points 0 None (g, gi) [] (or_introl eq_refl)) as F.
  destruct F as [(ms & w' & E & M & D)|(i & p & j & e & Hi & Hj & N & E)]; apply (f_equal (fun z : res (walk * list movement) => let! (_, v) := z in Ok v)) in E; unfold points at 1 in E; rewrite <- grid_list_prod in E;
    change (pamfil_movements env est r (g, gi, lv, truth) = let! (_, v) := @Ok (walk * list movement) (w', [] ++ ms) in Ok v) in E || change (pamfil_movements env est r (g, gi, lv, truth) = Raise e) in E; cbn [bind app] in E; rewrite E; split.
  - intros l Hl. injection Hl as <-. auto.
  - split; [|eauto]. intros _ i p j Hp Hj. 
    assert (Hm : exists m, nth_error ms i = Some m /\ (fst (fst (fst m)), snd (fst (fst m))) = p).
    { rewrite <- M in Hp. rewrite nth_error_map in Hp. destruct (nth_error ms i) as [m|]; [|discriminate]. injection Hp as <-. eauto. }
    destruct Hm as ([[[g0 o0] gd] od] & Hm & <-). destruct (D i g0 o0 gd od Hm) as (outs & L & S1 & _). cbn [fst snd].
    destruct (nth_error outs j) as [o|] eqn:Eo; [|apply nth_error_None in Eo; lia]. exists o. apply S1. exact Eo.
  - discriminate.
  - split; [intros (l & Hl); discriminate|]. intros H. destruct (H i p j Hi Hj) as (o & Ho). destruct (N o Ho).
Qed.
Print Assumptions C103_movements.

Lemma flat_map_options (outs : list (option (npf * R))) g0 o0 :
  length (flat_map (gd_of g0) outs) = length (flat_map (od_of o0) outs) /\ (length (flat_map (gd_of g0) outs) <= length outs)%nat.
Proof. induction outs as [|[[a b]|] outs [I1 I2]]; cbn [flat_map gd_of od_of app length]; split; lia. Qed.

(** There are as many differences in gamma as in omega, and at most one of either per repetition. *)
Theorem C103_differences : forall env est h hi lv k n g0 o0 gdiffs odiffs, differences env est h hi lv k n g0 o0 gdiffs odiffs ->
  length gdiffs = length odiffs /\ (length gdiffs <= n)%nat /\
  forall i dg dom, nth_error gdiffs i = Some dg -> nth_error odiffs i = Some dom ->
    exists j ps g1 o1, (j < n)%nat /\ oe_multi (sg_opt env (k + j)) 0 h hi lv (Fin g0) o0 = Ok ps /\ updates_multi est h hi lv "temporal" 1000 ps (Ok (g1, o1)) /\
      dg = difference g1 g0 /\ dom = o1 - o0.
Proof.
  intros env est h hi lv k n g0 o0 gd od (outs & L & S0 & -> & ->). fold (gd_of g0) (od_of o0). destruct (flat_map_options outs g0 o0) as [H1 H2].
  split; [exact H1|]. split; [rewrite <- L; exact H2|]. clear H1 H2.
  assert (X : forall m (outs : list (option (npf * R))) i dg dom, (forall j o, nth_error outs j = Some o -> step_from env est h hi lv (k + m + j) g0 o0 o) ->
    nth_error (flat_map (gd_of g0) outs) i = Some dg -> nth_error (flat_map (od_of o0) outs) i = Some dom ->
    exists j g1 o1, (j < length outs)%nat /\ step_from env est h hi lv (k + m + j) g0 o0 (Some (g1, o1)) /\ dg = difference g1 g0 /\ dom = o1 - o0).
  { clear. intros m outs. revert m. induction outs as [|o outs IH]; intros m i dg dom S0 Hg Ho; [destruct i; discriminate|].
    assert (S' : forall j o, nth_error outs j = Some o -> step_from env est h hi lv (k + S m + j) g0 o0 o).
    { intros j o' Hj. replace (k + Datatypes.S m + j)%nat with (k + m + Datatypes.S j)%nat by lia. apply S0. exact Hj. }
    assert (R : forall i, nth_error (flat_map (gd_of g0) outs) i = Some dg -> nth_error (flat_map (od_of o0) outs) i = Some dom ->
      exists j g1 o1, (j < length (o :: outs))%nat /\ step_from env est h hi lv (k + m + j) g0 o0 (Some (g1, o1)) /\ dg = difference g1 g0 /\ dom = o1 - o0).
    { intros i' A B. destruct (IH (Datatypes.S m) i' dg dom S' A B) as (j & g1 & o1 & Hj & Hs & E1 & E2). exists (Datatypes.S j), g1, o1. split; [cbn [length]; lia|].
      replace (k + m + Datatypes.S j)%nat with (k + Datatypes.S m + j)%nat by lia. auto. }
    destruct o as [[g1 o1]|]; cbn [flat_map gd_of od_of app] in Hg, Ho; [|eauto]. destruct i as [|i]; [|eauto].
    cbn in Hg, Ho. injection Hg as <-. injection Ho as <-. exists 0%nat, g1, o1. split; [cbn [length]; lia|]. split; [apply S0; reflexivity|auto]. }
  intros i dg dom Hg Ho. destruct (X 0%nat outs i dg dom) as (j & g1 & o1 & Hj & Hs & E1 & E2); auto; [intros j o Hj; rewrite Nat.add_0_r; auto|].
  rewrite Nat.add_0_r in Hs. inversion Hs as [ps ? ? A U| |]; subst. exists j, ps, g1, o1. auto.
Qed.
Print Assumptions C103_differences.

(** The arrow of a point starts there, omega first, and is a tenth of the mean differences; a component is nan when there is none, and that of gamma
    also when one of the differences is nan. *)
Lemma finite_gammas xs : mapM (fun x => match x with Fin y => Ok y | NonFinite => Raise ValueError end) (map Fin xs) = Ok xs.
Proof. induction xs as [|x xs IH]; [reflexivity|]. cbn [map mapM]. cbn [bind]. rewrite IH. reflexivity. Qed.
Lemma nan_gamma l : In NonFinite l -> exists e, mapM (fun x => match x with Fin y => Ok y | NonFinite => Raise ValueError end) l = Raise e.
Proof. induction l as [|x l IH]; intros H; [destruct H|]. cbn [mapM]. destruct H as [->|H]; [eexists; reflexivity|]. destruct (IH H) as (e & ->). destruct x; eexists; reflexivity. Qed.
Theorem C103_arrows : forall g0 o0,
  movement_arrow (g0, o0, [], []) = (o0, g0, (NonFinite, NonFinite)) /\
  (forall dgs dos, dgs <> [] -> length dos = length dgs ->
     movement_arrow (g0, o0, map Fin dgs, dos) = (o0, g0, (Fin (rsum dos / INR (length dos) / 10), Fin (rsum dgs / INR (length dgs) / 10)))) /\
  (forall gdiffs dos, dos <> [] -> In NonFinite gdiffs -> movement_arrow (g0, o0, gdiffs, dos) = (o0, g0, (Fin (rsum dos / INR (length dos) / 10), NonFinite))).
Proof.
  intros g0 o0. split; [reflexivity|]. split.
  - intros dgs dos H L. unfold movement_arrow, np_mean_npf. rewrite finite_gammas. destruct dgs as [|a dgs]; [congruence|]. destruct dos as [|b dos]; [discriminate|]. unfold np_mean, np_scale. do 2 f_equal; f_equal; unfold Rdiv; ring.
  - intros gd dos H N. unfold movement_arrow, np_mean_npf. destruct (nan_gamma gd N) as (e & ->). destruct dos as [|b dos]; [congruence|]. unfold np_mean, np_scale. do 2 f_equal; f_equal; unfold Rdiv; ring.
Qed.
Print Assumptions C103_arrows.

(** ** Both scripts *)
Lemma synthetic_ready est e ds n T K eta p_in p_out dg dom fuel g gi lv truth : (0 < n)%nat -> (1 < T)%nat -> (0 < K)%nat -> Nat.divide K n ->
  synthetic_loop e ds n T K eta p_in p_out dg dom 0 fuel = Some (Ok (g, gi, lv, truth)) ->
  wf_graph g /\ weights_defaulted (ee_contains est g) g g /\ weights g = Some (repeat 1 (length (edges g))) /\
  valid_multilayer g (weighted_e est gi) (repeat 1 (length (edges g))) lv "temporal".
Proof.
  intros Hn HT HK HD H. pose proof (C92_synthetic_returned e ds n T K eta p_in p_out dg dom fuel g gi lv truth Hn HT HK HD H) as X. cbv zeta in X. destruct X as (k & ga & om & _ & B & _ & W & V & _).
  assert (VC : vcount g = (n * T)%nat).
  { unfold valid_multilayer, structural_rules in V. apply Forall_inv_tail in V. apply Forall_inv_tail in V. apply Forall_inv_tail in V. apply Forall_inv in V. cbn [fst] in V. destruct B as (B1 & _). congruence. }
  split; [|split; [|split; [exact W|]]].
  - split.
    + intros u v Hin. destruct B as (_ & _ & _ & _ & _ & _ & _ & _ & B). apply B in Hin. lia.
    + intros ws Hw. rewrite W in Hw. injection Hw as <-. rewrite repeat_length. reflexivity.
  - apply weighted_e_defaulted. unfold weighted_e. destruct (ee_contains est g); [reflexivity|]. destruct g as [vc dr es w]. cbn [vcount directed edges weights] in *. unfold ecount. cbn [edges]. rewrite W. reflexivity.
  - unfold weighted_e. destruct (ee_contains est gi); exact V.
Qed.
Lemma nth_list_prod {A B} (l : list A) (l' : list B) i a b : nth_error (list_prod l l') i = Some (a, b) ->
  nth_error l (i / length l') = Some a /\ nth_error l' (i mod length l') = Some b.
Proof.
  revert i. induction l as [|x l IH]; intros i H; [destruct i; discriminate|]. cbn [list_prod] in H.
  destruct (Nat.lt_ge_cases i (length l')) as [Hi|Hi].
  - rewrite nth_error_app1 in H by (rewrite map_length; exact Hi). rewrite nth_error_map in H. rewrite Nat.div_small, Nat.mod_small by exact Hi. destruct (nth_error l' i); [|discriminate]. injection H as <- <-. auto.
  - rewrite nth_error_app2, map_length in H by (rewrite map_length; exact Hi). destruct l' as [|y l'].
    { cbn [map] in H. exfalso. assert (E : list_prod l (@nil B) = []) by (clear; induction l; auto). rewrite E in H. destruct (i - length (@nil B))%nat; discriminate. }
    set (m := length (y :: l')) in *. assert (Hm : (0 < m)%nat) by (unfold m; cbn; lia). clearbody m. apply IH in H as [H1 H2].
    replace i with ((i - m) + 1 * m)%nat by lia. rewrite Nat.div_add, Nat.mod_add by lia. rewrite Nat.add_1_r. auto.
Qed.
Lemma linspace_nth a b n i x : nth_error (linspace a b n) i = Some x -> x = a + INR i * ((b - a) / INR (n - 1)).
Proof.
  unfold linspace. rewrite nth_error_map. destruct (nth_error (seq 0 n) i) as [k|] eqn:E; [|discriminate]. cbn [option_map]. intros H. injection H as <-.
  assert (Hi : (i < n)%nat) by (rewrite <- (seq_length n 0); apply nth_error_Some; congruence). apply nth_error_nth with (d := 0%nat) in E. rewrite seq_nth in E by exact Hi. cbn [Nat.add] in E. subst k. reflexivity.
Qed.

(** The two scripts, after any history of runs: the stored network, and 225 points with at most five differences each. *)
Theorem C103_both_scripts : forall (ok : stage_env -> Prop) d r v, history (regime_run ok [easy_regime; hard_regime]) empty_directory d ->
  r = easy_regime \/ r = hard_regime -> d (rg_iteration r) = Stored v ->
  exists env g gi hi lv truth l, ok env /\ d (rg_graph r) = Stored (Network (g, gi, lv, truth)) /\ weights_defaulted (ee_contains (sg_est env (rg_iteration r)) gi) gi hi /\
    v = Movements l /\ length l = 225%nat /\
    forall i g0 o0 gdiffs odiffs, nth_error l i = Some (g0, o0, gdiffs, odiffs) ->
      g0 = 6 / 10 + INR (i / 15) * ((145 / 100 - 6 / 10) / 14) /\ o0 = 4 / 10 + INR (i mod 15) * ((16 / 10 - 4 / 10) / 14) /\
      differences env (sg_est env (rg_iteration r)) g hi lv (i * 5) 5 g0 o0 gdiffs odiffs.
Proof.
  intros ok d r v H Hr Hv. pose proof (C102_both_scripts ok d r H Hr) as C. destruct (co_iteration _ _ _ C _ Hv) as (env & [[[g gi] lv] truth] & l & Hok & -> & Hg & Hl).
  destruct (co_graph _ _ _ C _ Hg) as (e & x & _ & Ex & HG). injection Ex as <-. set (est := sg_est env (rg_iteration r)) in *.
  assert (RD : wf_graph g /\ weights_defaulted (ee_contains est g) g g /\ weights g = Some (repeat 1 (length (edges g))) /\ valid_multilayer g (weighted_e est gi) (repeat 1 (length (edges g))) lv "temporal").
  { assert (X : exists eta eps dg dom, eps <> -1 /\ generate_synthetic_network (sg_est e (rg_graph r)) (sg_draws e) eta eps dg dom (sg_attempts e) = Some (Ok (g, gi, lv, truth))).
    { destruct Hr as [-> | ->]; [exists (7 / 10), (4 / 10), (94 / 100), (98 / 100)|exists (5 / 10), (5 / 10), (96 / 100), (80 / 100)]; (split; [lra|exact HG]). }
    destruct X as (eta & eps & dg & dom & He & X). unfold generate_synthetic_network, py_div in X. destruct (Req_EM_T (1 + eps) 0); [lra|].
    eapply synthetic_ready; [| | | |exact X]; [lia|lia|lia|exists 75%nat; reflexivity]. }
  destruct RD as (W & Hd & Hw & V).
  destruct (C103_movements env est r g gi lv truth g (weighted_e est gi) _ W Hd (proj2 (weighted_e_defaulted est gi _) eq_refl) Hw V) as [M _]. destruct (M l Hl) as [M1 M2]. clear M Hl.
  assert (G0 : rg_gammas0 r = linspace (6 / 10) (145 / 100) 15) by (destruct Hr as [-> | ->]; reflexivity). assert (O0 : rg_omegas0 r = linspace (4 / 10) (16 / 10) 15) by (destruct Hr as [-> | ->]; reflexivity).
  assert (N0 : rg_repeats r = 5%nat) by (destruct Hr as [-> | ->]; reflexivity). rewrite G0, O0 in M1. rewrite N0 in M2.
  exists env, g, gi, (weighted_e est gi), lv, truth, l. split; [exact Hok|]. split; [exact Hg|]. split; [apply weighted_e_defaulted; reflexivity|]. split; [reflexivity|]. split.
  - rewrite <- (map_length (fun m : movement => (fst (fst (fst m)), snd (fst (fst m)))) l), M1, prod_length. unfold linspace. rewrite !map_length, !seq_length. reflexivity.
  - intros i g0 o0 gd od Hi. assert (P : nth_error (list_prod (linspace (6 / 10) (145 / 100) 15) (linspace (4 / 10) (16 / 10) 15)) i = Some (g0, o0)) by (rewrite <- M1, nth_error_map, Hi; reflexivity).
    apply nth_list_prod in P. unfold linspace at 2 4 in P. rewrite map_length, seq_length in P. destruct P as [P1 P2]. apply linspace_nth in P1. apply linspace_nth in P2. change (15 - 1)%nat with 14%nat in P1, P2.
    replace (INR 14) with 14 in P1, P2 by (rewrite INR_IZR_INZ; reflexivity). split; [exact P1|]. split; [exact P2|]. apply M2. exact Hi.
Qed.
Print Assumptions C103_both_scripts.

(** The hypotheses hold for the network of C92, and its movement is the one of C102. *)
Example C103_example : forall champ, differences (paths_env champ) (paths_est champ) paths_g (mkGraph 8 true (edges paths_gi) (Some (repeat 1 4))) paths_lv 0 1 1 1 [Fin (paths_value - 1)] [1000 - 1] /\
  movement_arrow (1, 1, [Fin (paths_value - 1)], [1000 - 1]) = (1, 1, (Fin (999 / 10), Fin ((paths_value - 1) / 10))).
Proof.
  intros champ. split.
  - set (hi := mkGraph 8 true (edges paths_gi) (Some (repeat 1 4))).
    exists [Some (Fin paths_value, 1000)]. split; [reflexivity|]. split; [|split; reflexivity]. intros [|j] o Ho; [|destruct j; discriminate]. cbn in Ho. injection Ho as <-.
    apply moved with (ps := [mkPart 2 paths_c; mkPart 2 paths_c]); [reflexivity|].
    apply (C46_estimates (paths_est champ) paths_g hi paths_lv "temporal" 1000 paths_c [mkPart 2 paths_c]); try discriminate; auto.
    + reflexivity.
    + pose proof (paths_weighted_estimate champ 1000 eq_refl) as E. unfold gamma_omega_estimate in *. exact E.
  - destruct (C103_arrows 1 1) as (_ & A & _). change [Fin (paths_value - 1)] with (map Fin [paths_value - 1]). rewrite A by (discriminate || reflexivity). rewrite !rsum_cons, !rsum_nil. cbn [length INR]. do 2 f_equal; f_equal; lra.
Qed.
