(** Lemmas for Properties_karate.v. *)
From Coq Require Import String.
From Verif Require Import PyBase PyGraph M_partition M_champ M_leiden M_parts M_estimation_utils M_estimation M_checks M_studies Spec Spec_graph Spec_leiden Spec_sbm Spec_iteration Spec_karate
  L_base L_modularity L_leiden L_sbm L_sbm2 L_split L_omega L_prune L_iteration L_newman Properties_sbm Properties_iteration.
From Coq Require Import Classical.
Open Scope R_scope.

(** ** Graph objects between calls *)
Section Calls.
Variables (env : est_env) (G h : graph) (ws : list R).
Hypothesis Hwf : wf_graph G.
Hypothesis Hh : weights_defaulted (ee_contains env G) G h.
Hypothesis Hws : weights h = Some ws.

Lemma h_again : weights_defaulted (ee_contains env h) h h.
Proof. assert (E : h = weighted_e env G) by (apply weighted_e_defaulted; exact Hh). apply weighted_e_defaulted. rewrite E. symmetry. apply weighted_e_idem. Qed.
Lemma h_wf : wf_graph h.
Proof. assert (E : h = weighted_e env G) by (apply weighted_e_defaulted; exact Hh). rewrite E. apply weighted_e_wf. auto. Qed.

Lemma call_same opt gamma tol max_iter verbose method : known_method method ->
  iterative_monolayer_resolution_parameter_estimation env opt h gamma tol max_iter verbose method
  = iterative_monolayer_resolution_parameter_estimation env opt G gamma tol max_iter verbose method.
Proof.
  intros Hm. destruct (C45_outcome env opt G h ws gamma tol max_iter verbose method Hwf Hh Hws Hm) as (c1 & a1 & r1 & O1 & ->).
  destruct (C45_outcome env opt h h ws gamma tol max_iter verbose method h_wf h_again Hws Hm) as (c2 & a2 & r2 & O2 & ->).
  destruct (C45_determined _ _ _ _ _ _ _ _ _ _ _ _ _ O1 O2) as (-> & -> & ->). reflexivity.
Qed.

Lemma call_graph g opt gamma tol max_iter verbose method : g = G \/ g = h -> known_method method ->
  estimated_gamma env opt g gamma tol max_iter verbose method
  = (h, let! x := snd (iterative_monolayer_resolution_parameter_estimation env opt G gamma tol max_iter verbose method) in Ok (fst x)).
Proof.
  intros Hg Hm. unfold estimated_gamma.
  assert (E : iterative_monolayer_resolution_parameter_estimation env opt g gamma tol max_iter verbose method
              = iterative_monolayer_resolution_parameter_estimation env opt G gamma tol max_iter verbose method) by (destruct Hg as [-> | ->]; [auto|apply call_same; auto]).
  rewrite E. destruct (C45_outcome env opt G h ws gamma tol max_iter verbose method Hwf Hh Hws Hm) as (c1 & a1 & r1 & O1 & ->). reflexivity.
Qed.
End Calls.

(** ** Folds over trials *)
Lemma foldM_flat_map {A C S} (f : S -> C -> res S) (g : A -> list C) l : forall s, foldM f (flat_map g l) s = foldM (fun s x => foldM f (g x) s) l s.
Proof. induction l as [|x l IH]; intros s; [reflexivity|]. cbn [flat_map foldM]. rewrite foldM_app. destruct (foldM f (g x) s); cbn [bind]; auto. Qed.

Lemma foldM_map' {A C S} (f : S -> C -> res S) (k : A -> C) l s : foldM (fun s a => f s (k a)) l s = foldM f (map k l) s.
Proof. symmetry. apply foldM_map. Qed.

Lemma foldM_ext' {A S} (f g : S -> A -> res S) l s : (forall s a, f s a = g s a) -> foldM f l s = foldM g l s.
Proof. intros H. apply foldM_ext. intros; apply H. Qed.

Lemma tolerated_attempt {A} (r : res A) : tolerated r -> exists o, attempt r = Ok o /\ o = match r with Ok x => Some x | Raise _ => None end.
Proof. intros [[x ->]| ->]; cbn; eauto. Qed.
Lemma untolerated_attempt {A} (r : res A) : ~ tolerated r -> exists e, r = Raise e /\ e <> ValueError /\ attempt r = Raise e.
Proof.
  intros H. destruct r as [x|e]; [exfalso; apply H; left; eauto|]. exists e. split; auto. destruct e; try (split; [discriminate|reflexivity]). exfalso. apply H. right. reflexivity.
Qed.

(** A fold whose steps fail exactly for untolerated trials and otherwise keep an invariant. *)
Lemma foldM_trials {T S A} (f : S -> T -> res S) (out : T -> res A) (I : S -> list T -> Prop) trials :
  (forall s done t, In t trials -> I s done -> tolerated (out t) -> exists s', f s t = Ok s' /\ I s' (done ++ [t])) ->
  (forall s done t, In t trials -> I s done -> ~ tolerated (out t) -> exists e, out t = Raise e /\ e <> ValueError /\ f s t = Raise e) ->
  forall s done, I s done ->
  ((forall t, In t trials -> tolerated (out t)) -> exists s', foldM f trials s = Ok s' /\ I s' (done ++ trials)) /\
  ((exists t, In t trials /\ ~ tolerated (out t)) ->
   exists before t after e, trials = before ++ t :: after /\ (forall u, In u before -> tolerated (out u)) /\ out t = Raise e /\ e <> ValueError /\ foldM f trials s = Raise e).
Proof.
  intros H1 H2. induction trials as [|t l IH]; intros s done Hi.
  - split; [intros _; exists s; rewrite app_nil_r; split; [reflexivity|auto]|]. intros (t & [] & _).
  - destruct (classic (tolerated (out t))) as [Ht|Ht].
    + destruct (H1 s done t (or_introl eq_refl) Hi Ht) as (s' & E & I').
      destruct (IH (fun s d u Hu => H1 s d u (or_intror Hu)) (fun s d u Hu => H2 s d u (or_intror Hu)) s' (done ++ [t]) I') as [A1 A2]. cbn [foldM]. rewrite E. cbn [bind]. rewrite <- app_assoc in A1. cbn [app] in A1. split.
      * intros Hall. apply A1. intros u Hu. apply Hall. right. auto.
      * intros (u & [<-|Hu] & Nu); [contradiction|]. destruct A2 as (b & t' & a & e & -> & Hb & Ho & Ne & Ef); [eauto|].
        exists (t :: b), t', a, e. split; [reflexivity|]. split; [intros v [<-|Hv]; auto|]. auto.
    + destruct (H2 s done t (or_introl eq_refl) Hi Ht) as (e & Eo & Ne & Ef). split.
      * intros Hall. exfalso. apply Ht, Hall. left. auto.
      * intros _. exists [], t, l, e. split; [reflexivity|]. split; [intros u []|]. split; auto. split; auto. cbn [foldM]. rewrite Ef. reflexivity.
Qed.

(** ** Bins *)
Lemma bins_partition (e : nat -> R) x : (forall j, e j < e (S j)) -> forall N,
  rsum (map (fun j => if Rleb (e j) x && Rltb x (e (S j)) then 1 else 0) (seq 0 N)) = if Rleb (e 0%nat) x && Rltb x (e N) then 1 else 0.
Proof.
  intros Hm. assert (M : forall N, e 0%nat <= e N) by (induction N; [lra|]; specialize (Hm N); lra).
  induction N as [|N IH].
  - cbn. unfold rsum, Rleb, Rltb. cbn. destruct (Rle_dec _ _), (Rlt_dec _ _); cbn; lra.
  - rewrite seq_S, map_app, rsum_app, IH. cbn [map]. rewrite rsum_cons, rsum_nil. specialize (Hm N). specialize (M N). rewrite Nat.add_0_l. unfold Rleb, Rltb.
    destruct (Rle_dec (e 0%nat) x), (Rlt_dec x (e N)), (Rle_dec (e N) x), (Rlt_dec x (e (S N))); cbn [andb]; lra.
Qed.

(** ** One iteration *)
Lemma linked_one {X P} (x y : X) (s : step X P) : linked X P x [s] y -> x = called s /\ y = estimated s.
Proof. intros L. inversion L. subst. match goal with H : linked _ _ _ [] _ |- _ => inversion H end. auto. Qed.

Lemma one_iteration env opt G h ws gamma tol method : wf_graph G -> weights_defaulted (ee_contains env G) G h -> weights h = Some ws -> known_method method ->
  snd (iterative_monolayer_resolution_parameter_estimation env opt G gamma tol 1 false method)
  = (let! p := answer_mono opt method h 0 (Fin gamma) in
     let! o := snd (gamma_estimate env h (Partition p)) in
     match o with None => Raise ValueError | Some y => Ok (y, Some p) end).
Proof.
  intros Hg Hh Hws Hm. destruct (C45_outcome env opt G h ws gamma tol 1 false method Hg Hh Hws Hm) as (calls & answers & r & O & ->).
  cbn [snd andb]. inversion O as [steps y' L Ge Le NC C E1 E2 E3|steps x e L Ge Le NC F E1 E2 E3|steps x p' e L Ge Le NC F U E1 E2 E3].
  - destruct steps as [|s [|s' steps]].
    + exfalso. destruct C as [C|(b & s & C & _)]; [cbn in C; lia|destruct b; discriminate].
    + destruct (Ge 0%nat s eq_refl) as [A U]. destruct (@linked_one _ _ _ _ _ L) as [Ecalled Ey]. rewrite <- Ecalled in A. rewrite A. cbn [bind map]. unfold updates_mono in U.
      destruct (snd (gamma_estimate env h (Partition (found s)))) as [[z|]|e]; cbn [bind]; inversion U as [Uz]; cbn; rewrite Ey, ?Uz; reflexivity.
    + exfalso. cbn in Le. lia.
  - destruct steps; [|cbn in Le; lia]. inversion L. subst. cbn [length] in F. rewrite F. reflexivity.
  - destruct steps; [|cbn in Le; lia]. inversion L. subst. cbn [length] in F. rewrite F. cbn [bind]. unfold updates_mono in U.
    destruct (snd (gamma_estimate env h (Partition p'))) as [[z|]|e']; inversion U; reflexivity.
Qed.

(** ** Sums of movements *)
Definition npf_total (g0 : R) (ys : list npf) : npf := fold_left (fun t y => np_add t (npf_sub y (Fin g0))) ys (Fin 0).

Lemma npf_total_fin g0 rs : forall t, fold_left (fun t y => np_add t (npf_sub y (Fin g0))) (map Fin rs) (Fin t) = Fin (t + (rsum rs - INR (length rs) * g0)).
Proof.
  induction rs as [|r rs IH]; intros t.
  - cbn [map fold_left length INR]. rewrite rsum_nil. f_equal. ring.
  - cbn [map fold_left np_add npf_sub]. rewrite IH, rsum_cons. cbn [length]. rewrite S_INR. f_equal. ring.
Qed.
Lemma npf_total_abs g0 ys : fold_left (fun t y => np_add t (npf_sub y (Fin g0))) ys NonFinite = NonFinite.
Proof. induction ys as [|y ys IH]; cbn [fold_left np_add]; auto. Qed.
Lemma npf_total_non g0 ys : In NonFinite ys -> forall t, fold_left (fun t y => np_add t (npf_sub y (Fin g0))) ys t = NonFinite.
Proof.
  induction ys as [|y ys IH]; intros Hin t; [destruct Hin|]. cbn [fold_left]. destruct Hin as [-> |Hin]; [|apply IH; auto].
  cbn [npf_sub]. destruct t; cbn [np_add]; apply npf_total_abs.
Qed.

(** ** Smallest and largest with nan *)
Lemma npf_min_fold l : forall m, exists m', fold_left (fun m y => if npf_ltb y m then y else m) l (Fin m) = Fin m' /\ m' <= m /\ (forall r, In (Fin r) l -> m' <= r) /\ (m' = m \/ In (Fin m') l).
Proof.
  induction l as [|y l IH]; intros m; [exists m; cbn; split; auto; split; [lra|]; split; [intros r []|auto]|].
  cbn [fold_left]. destruct y as [r|]; cbn [npf_ltb].
  - unfold Rltb. destruct (Rlt_dec r m).
    + destruct (IH r) as (m' & E & H1 & H2 & H3). exists m'. split; auto. split; [lra|]. split; [intros r' [Hr|Hr]; [inversion Hr; subst; auto|auto]|]. right. destruct H3 as [->|]; [left|right]; auto.
    + destruct (IH m) as (m' & E & H1 & H2 & H3). exists m'. split; auto. split; [lra|]. split; [intros r' [Hr|Hr]; [inversion Hr; subst; lra|auto]|]. destruct H3; [left|right; right]; auto.
  - destruct (IH m) as (m' & E & H1 & H2 & H3). exists m'. split; auto. split; [lra|]. split; [intros r' [Hr|Hr]; [discriminate|auto]|]. destruct H3; [left|right; right]; auto.
Qed.
Lemma npf_max_fold l : forall m, exists m', fold_left (fun m y => if npf_ltb m y then y else m) l (Fin m) = Fin m' /\ m <= m' /\ (forall r, In (Fin r) l -> r <= m') /\ (m' = m \/ In (Fin m') l).
Proof.
  induction l as [|y l IH]; intros m; [exists m; cbn; split; auto; split; [lra|]; split; [intros r []|auto]|].
  cbn [fold_left]. destruct y as [r|]; cbn [npf_ltb].
  - unfold Rltb. destruct (Rlt_dec m r).
    + destruct (IH r) as (m' & E & H1 & H2 & H3). exists m'. split; auto. split; [lra|]. split; [intros r' [Hr|Hr]; [inversion Hr; subst; auto|auto]|]. right. destruct H3 as [->|]; [left|right]; auto.
    + destruct (IH m) as (m' & E & H1 & H2 & H3). exists m'. split; auto. split; [lra|]. split; [intros r' [Hr|Hr]; [inversion Hr; subst; lra|auto]|]. destruct H3; [left|right; right]; auto.
  - destruct (IH m) as (m' & E & H1 & H2 & H3). exists m'. split; auto. split; [lra|]. split; [intros r' [Hr|Hr]; [discriminate|auto]|]. destruct H3; [left|right; right]; auto.
Qed.
Lemma npf_min_nan l : fold_left (fun m y => if npf_ltb y m then y else m) l NonFinite = NonFinite.
Proof. induction l as [|y l IH]; auto. cbn [fold_left]. destruct y; exact IH. Qed.

(** ** Histogram bars *)
Lemma linspace_edge a b n j : (j <= n)%nat -> nth j (linspace a b (S n)) 0 = bin_edge a b n j.
Proof.
  intros Hj. unfold linspace. rewrite Nat.sub_succ, Nat.sub_0_r. rewrite nth_map_seq by lia. reflexivity.
Qed.

Lemma in_bin_spec a b n j x : (j < n)%nat -> in_bin (linspace a b (S n)) j x = true <-> falls_in_bin a b n j x.
Proof.
  intros Hj. unfold in_bin, falls_in_bin. destruct x as [r|]; [|split; [discriminate|intros (r & X & _); discriminate]].
  rewrite !linspace_edge by lia. assert (El : length (linspace a b (S n)) = S n) by (unfold linspace; rewrite map_length, seq_length; auto). rewrite El.
  unfold Rleb, Rltb. destruct (Rle_dec (bin_edge a b n j) r) as [H1|H1]; cbn [andb]; [|split; [discriminate|]; intros (r' & X & Y & _); inversion X; subst; contradiction].
  destruct (Nat.eqb_spec (S (S j)) (S n)) as [E|N].
  - destruct (Rle_dec r (bin_edge a b n (S j))) as [H2|H2]; (split; [intros H; try discriminate|intros (r' & X & Y & Z); inversion X; subst r'; auto]).
    + exists r. split; auto. split; auto. destruct (Rle_lt_or_eq_dec _ _ H2); [left|right; split; [lia|]]; auto.
    + exfalso. destruct Z as [Z|[_ Z]]; lra.
  - destruct (Rlt_dec r (bin_edge a b n (S j))) as [H2|H2]; (split; [intros H; try discriminate|intros (r' & X & Y & Z); inversion X; subst r'; auto]).
    + exists r. auto.
    + exfalso. destruct Z as [Z|[Z _]]; [lra|lia].
Qed.

Lemma count_filter {A} (P : A -> Prop) (p : A -> bool) l : (forall x, p x = true <-> P x) -> count_of P l (length (filter p l)).
Proof.
  intros H. induction l as [|x l IH]; [constructor|]. cbn [filter]. destruct (p x) eqn:E; [constructor; auto; apply H; auto|]. apply count_no; auto. rewrite <- H, E. discriminate.
Qed.
Lemma count_of_unique {A} (P : A -> Prop) l : forall a b, count_of P l a -> count_of P l b -> a = b.
Proof. induction l as [|x l IH]; intros a b Ha Hb; inversion Ha; inversion Hb; subst; auto; try contradiction. Qed.

Lemma weighted_filter (p : npf -> bool) (l : list npf) w :
  rsum (map snd (filter (fun v : npf * R => p (fst v)) (map (fun g => (g, w)) l))) = INR (length (filter p l)) * w.
Proof.
  induction l as [|x l IH]; [cbn; rewrite rsum_nil; ring|]. cbn [map filter fst]. destruct (p x); [|exact IH]. cbn [map snd length]. rewrite rsum_cons, IH, S_INR. ring.
Qed.

Lemma one_bin a b n x : a < b -> (0 < n)%nat -> a <= x < b ->
  list_sum (map (fun j => if in_bin (linspace a b (S n)) j (Fin x) then 1%nat else 0%nat) (seq 0 n)) = 1%nat.
Proof.
  intros Hab Hn Hx. apply INR_eq. assert (Hp : 0 < INR n) by (apply (lt_INR 0); auto).
  assert (Hm : forall j, bin_edge a b n j < bin_edge a b n (S j)). { intros j. unfold bin_edge. rewrite S_INR. assert (0 < (b - a) / INR n) by (apply Rdiv_lt_0_compat; lra). lra. }
  assert (E0 : bin_edge a b n 0 = a) by (unfold bin_edge; cbn [INR]; ring).
  assert (En : bin_edge a b n n = b) by (unfold bin_edge; field; lra).
  pose proof (bins_partition (bin_edge a b n) x Hm n) as HB. rewrite E0, En in HB. assert (Eab : Rleb a x && Rltb x b = true) by (unfold Rleb, Rltb; destruct (Rle_dec a x); [|lra]; destruct (Rlt_dec x b); [reflexivity|lra]). rewrite Eab in HB.
  transitivity (rsum (map (fun j => if Rleb (bin_edge a b n j) x && Rltb x (bin_edge a b n (S j)) then 1 else 0) (seq 0 n))); [|rewrite HB; reflexivity].
  assert (Hj : forall j, In j (seq 0 n) -> (j < n)%nat) by (intros j Hj; apply in_seq in Hj; lia). revert Hj. generalize (seq 0 n) as l. induction l as [|j l IH]; intros Hj; [reflexivity|].
  cbn [map]. rewrite rsum_cons. unfold list_sum in *. cbn [fold_right]. rewrite plus_INR, IH by (intros; apply Hj; right; auto). f_equal.
  assert (Lj : (j < n)%nat) by (apply Hj; left; auto).
  destruct (in_bin (linspace a b (S n)) j (Fin x)) eqn:E.
  - apply in_bin_spec in E; auto. destruct E as (r' & X & Y & Z). inversion X. subst r'. unfold Rleb, Rltb. destruct (Rle_dec (bin_edge a b n j) x); [|lra].
    destruct (Rlt_dec x (bin_edge a b n (S j))); [reflexivity|]. exfalso. destruct Z as [Z|[Z1 Z2]]; [lra|]. rewrite Z1, En in Z2. lra.
  - unfold Rleb, Rltb. destruct (Rle_dec (bin_edge a b n j) x); [|reflexivity]. destruct (Rlt_dec x (bin_edge a b n (S j))); [|reflexivity]. exfalso.
    enough (in_bin (linspace a b (S n)) j (Fin x) = true) by congruence. apply in_bin_spec; auto. exists x. auto.
Qed.
