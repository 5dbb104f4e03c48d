(** Proofs about the plotting functions. *)
From Coq Require Import Classical Sorted.
From Verif Require Import PyBase M_partition M_plotting Spec Spec_plotting L_base L_canon.
Set Implicit Arguments.
Open Scope R_scope.

Lemma point_eqb_eq p q : point_eqb p q = true <-> p = q.
Proof.
  unfold point_eqb. rewrite andb_true_iff, !Reqb_true. destruct p, q; cbn. split; [intros [-> ->]; auto|]. intros H; inversion H; auto.
Qed.

Lemma vertex_map_group ps : vertex_map ps = group point_eqb (flat_map (fun iv => map (fun v => (v, fst iv)) (snd iv)) (enumerate ps)).
Proof.
  unfold vertex_map, group. generalize (@nil (point * list nat)). generalize (enumerate ps). induction l as [|[i p] l IH]; intros d; auto.
  cbn [fold_left flat_map fst snd]. rewrite fold_left_app, <- IH. f_equal. clear. revert d. induction p as [|v p IH]; intros d; auto. cbn. apply IH.
Qed.

Lemma dict_get_in {K V} (eqb : K -> K -> bool) (eqb_eq : forall a b, eqb a b = true <-> a = b) (d : list (K * V)) k :
  In k (map fst d) -> exists v, dict_get eqb d k = Ok v /\ In (k, v) d.
Proof.
  induction d as [|[k' v'] d IH]; cbn; [intros []|]. intros H. destruct (eqb k k') eqn:E.
  - apply eqb_eq in E. subst. eauto.
  - destruct IH as (v & H1 & H2); [|eauto]. destruct H as [->|H]; auto. rewrite (proj2 (eqb_eq k k) eq_refl) in E. discriminate.
Qed.

Section Colors.
Variables (env : plot_env) (ps : list (list point)) (available : list nat).

Lemma vertex_entries v i : In (v, i) (flat_map (fun iv => map (fun v => (v, fst iv)) (snd iv)) (enumerate ps)) <->
  exists p, nth_error ps i = Some p /\ In v p.
Proof.
  rewrite in_flat_map. split.
  - intros ([i' p] & H1 & H2). apply in_enumerate in H1. apply in_map_iff in H2 as (v' & H2 & H3). cbn in *. inversion H2; subst. eauto.
  - intros (p & H1 & H2). exists (i, p). split; [apply in_enumerate; auto|]. apply in_map_iff. exists v. auto.
Qed.

Lemma vertex_lookup v i p : nth_error ps i = Some p -> In v p ->
  exists l, dict_get point_eqb (vertex_map ps) v = Ok l /\ forall j, In j l <-> exists q, nth_error ps j = Some q /\ In v q.
Proof.
  intros H1 H2. rewrite vertex_map_group. destruct (group_ok point_eqb point_eqb_eq (flat_map (fun iv => map (fun v => (v, fst iv)) (snd iv)) (enumerate ps))) as (_ & Hk & Hv).
  destruct (@dict_get_in _ _ point_eqb point_eqb_eq (group point_eqb (flat_map (fun iv => map (fun v => (v, fst iv)) (snd iv)) (enumerate ps))) v) as (l & Hl & Hin).
  { apply Hk. apply in_map_iff. exists (v, i). split; auto. apply vertex_entries. eauto. }
  exists l. split; auto. intros j. rewrite (Hv _ _ Hin). rewrite in_map_iff. split.
  - intros ([v' j'] & <- & H). apply filter_In in H as [H E]. apply point_eqb_eq in E. cbn in E. subst v'. apply vertex_entries; auto.
  - intros H. exists (v, j). split; auto. apply filter_In. split; [apply vertex_entries; auto|]. apply point_eqb_eq. auto.
Qed.

Lemma neighbors_ok i p : nth_error ps i = Some p ->
  exists ns, neighboring_domains (vertex_map ps) p = Ok ns /\ forall j, In j ns <-> touching ps j i.
Proof.
  intros Hi. unfold neighboring_domains.
  assert (H : forall p', incl p' p -> exists ls, mapM (fun v => dict_get point_eqb (vertex_map ps) v) p' = Ok ls /\
            forall j, In j (concat ls) <-> exists v, In v p' /\ exists q, nth_error ps j = Some q /\ In v q).
  { induction p' as [|v p' IH]; intros Hincl.
    - exists []. split; auto. intros j. cbn. split; [intros []|]. intros (v & [] & _).
    - destruct (@vertex_lookup v i p Hi) as (l & Hl & Hj); [apply Hincl; left; auto|]. destruct IH as (ls & Hls & Hc); [intros x Hx; apply Hincl; right; auto|].
      exists (l :: ls). cbn [mapM]. rewrite Hl. cbn [bind]. rewrite Hls. split; auto. intros j. cbn [concat]. rewrite in_app_iff, Hj, Hc. split.
      + intros [H|(v' & H1 & H2)]; [exists v; split; [left|]; auto|exists v'; split; [right|]; auto].
      + intros (v' & [<-|H1] & H2); [left; auto|right; eauto]. }
  destruct (H p) as (ls & Hls & Hc); [intros x; auto|]. rewrite Hls. exists (concat ls). split; auto. intros j. rewrite Hc. split.
  - intros (v & H1 & q & H2 & H3). exists q, p, v. auto.
  - intros (q & p' & v & H1 & H2 & H3 & H4). rewrite Hi in H2. inversion H2; subst. exists v. split; eauto.
Qed.

Definition state (cs : list nat) : list (option nat) := map Some cs ++ repeat None (length ps - length cs).

Lemma state_length cs : (length cs <= length ps)%nat -> length (state cs) = length ps.
Proof. intros H. unfold state. rewrite app_length, map_length, repeat_length. lia. Qed.

Lemma state_nth cs j : (length cs <= length ps)%nat -> (j < length ps)%nat -> nth_error (state cs) j = Some (nth_error cs j).
Proof.
  intros H Hj. unfold state. destruct (lt_dec j (length cs)) as [L|L].
  - rewrite nth_error_app1 by (rewrite map_length; auto). rewrite nth_error_map. destruct (nth_error cs j) eqn:E; auto. apply nth_error_None in E. lia.
  - rewrite nth_error_app2 by (rewrite map_length; lia). rewrite map_length. replace (nth_error cs j) with (@None nat) by (symmetry; apply nth_error_None; lia).
    rewrite (nth_error_nth' _ None) by (rewrite repeat_length; lia). f_equal. apply nth_repeat.
Qed.

Lemma update_state cs c : (length cs < length ps)%nat -> py_update (state cs) (length cs) (fun _ => Some c) = Ok (state (cs ++ [c])).
Proof.
  intros H. unfold state. rewrite app_length, map_app. cbn [length map]. replace (length ps - length cs)%nat with (S (length ps - (length cs + 1))) by lia.
  cbn [repeat]. generalize (repeat (@None nat) (length ps - (length cs + 1))). clear. induction cs as [|x cs IH]; intros l; cbn; auto. rewrite IH. auto.
Qed.

(** The colours that are left for the next domain. *)
Definition left_for (cs : list nat) (c : nat) : Prop := In c available /\ forall j, nth_error cs j = Some c -> ~ touching ps j (length cs).

Definition cands_of (cs : list nat) (p : list point) : list nat :=
  match (let! ns := neighboring_domains (vertex_map ps) p in mapM (py_get (state cs)) ns) with
  | Ok cols => sort_by Nat.leb (filter (fun c => negb (color_in c cols)) available)
  | Raise _ => []
  end.

Lemma step cs p : (length cs < length ps)%nat -> nth_error ps (length cs) = Some p ->
  (forall c, In c (cands_of cs p) <-> left_for cs c) /\
    color_domain env available (vertex_map ps) (state cs) (length cs, p) =
    match cands_of cs p with [] => Raise ValueError
    | _ => let! c := py_get (cands_of cs p) (pl_sample env (length cs) (length (cands_of cs p))) in Ok (state (cs ++ [c])) end.
Proof.
  intros Hlen Hp. unfold color_domain, cands_of. cbn [fst snd]. destruct (@neighbors_ok (length cs) p Hp) as (ns & -> & Hns). cbn [bind].
  assert (Hcol : exists cols, mapM (py_get (state cs)) ns = Ok cols /\ forall c, In (Some c) cols <-> exists j, In j ns /\ nth_error cs j = Some c).
  { assert (Hb : forall j, In j ns -> (j < length ps)%nat).
    { intros j Hj. apply Hns in Hj as (q & _ & _ & Hq & _). apply nth_error_Some. congruence. }
    clear Hns. induction ns as [|j ns IH].
    - exists []. split; auto. intros c. cbn. split; [intros []|]. intros (j & [] & _).
    - destruct IH as (cols & Hc & Hin); [intros; apply Hb; right; auto|]. exists (nth_error cs j :: cols). cbn [mapM]. unfold py_get at 1. rewrite state_nth; [|lia|apply Hb; left; auto].
      cbn [bind]. rewrite Hc. split; auto. intros c. cbn [In]. rewrite Hin. split.
      + intros [H|(j' & H1 & H2)]; [exists j; auto|exists j'; auto].
      + intros (j' & [<-|H1] & H2); [left; auto|right; eauto]. }
  destruct Hcol as (cols & -> & Hcols). cbn [bind]. set (cands := sort_by _ _). split.
  - intros c. unfold cands. assert (E : forall l, In c (sort_by Nat.leb l) <-> In c l).
    { intros l. split; apply Permutation_in; [|apply Permutation_sym]; apply sort_by_perm. }
    rewrite E, filter_In. unfold left_for. split; intros [Ha Hb]; split; auto.
    + intros j Hj Ht. apply Hns in Ht. apply negb_true_iff in Hb. unfold color_in in Hb.
      assert (existsb (fun o => match o with Some c' => Nat.eqb c c' | None => false end) cols = true); [|congruence].
      apply existsb_exists. exists (Some c). split; [apply Hcols; eauto|]. apply Nat.eqb_refl.
    + apply negb_true_iff. apply not_true_is_false. intros H. apply existsb_exists in H as ([c'|] & H1 & H2); [|discriminate]. apply Nat.eqb_eq in H2. subst c'.
      apply Hcols in H1 as (j & H1 & H2). apply (Hb j H2). apply Hns. auto.
  - destruct cands as [|c0 l] eqn:E; auto. destruct (py_get (c0 :: l) _); cbn [bind]; auto. apply update_state. auto.
Qed.

Lemma proper_snoc cs c : proper ps cs -> left_for cs c -> proper ps (cs ++ [c]).
Proof.
  intros Hp [_ Hl] i j a b Hij Ha Hb Ht.
  assert (X : forall k x, nth_error (cs ++ [c]) k = Some x -> (nth_error cs k = Some x) \/ (k = length cs /\ x = c)).
  { intros k x H. destruct (lt_dec k (length cs)); [rewrite nth_error_app1 in H by auto; auto|]. rewrite nth_error_app2 in H by lia.
    destruct (k - length cs)%nat as [|[|?]] eqn:E; cbn in H; inversion H. right. split; auto. lia. }
  assert (S : touching ps j i). { destruct Ht as (p & q & v & ? & ? & ? & ?). exists q, p, v. auto. }
  apply X in Ha. apply X in Hb. destruct Ha as [Ha|[-> ->]], Hb as [Hb|[-> ->]]; try (intros ->).
  - eapply Hp; eauto.
  - eapply Hl; eauto.
  - eapply Hl; eauto.
  - congruence.
Qed.


Lemma run_from l : forall cs, (length cs + length l = length ps)%nat -> (forall i, nth_error l i = nth_error ps (length cs + i)) ->
  Forall (fun c => In c available) cs -> proper ps cs -> (forall k n, (0 < n -> pl_sample env k n < n)%nat) ->
  (exists cs', foldM (color_domain env available (vertex_map ps)) (enumerate_from (length cs) l) (state cs) = Ok (map Some cs') /\ length cs' = length ps /\ Forall (fun c => In c available) cs' /\ proper ps cs') \/
  (exists cs', foldM (color_domain env available (vertex_map ps)) (enumerate_from (length cs) l) (state cs) = Raise ValueError /\ dead_end ps (fun c => In c available) cs').
Proof.
  induction l as [|p l IH]; intros cs Hlen Hl Ha Hp Hs.
  - left. exists cs. cbn [enumerate_from foldM]. unfold state. cbn [length] in Hlen. replace (length ps - length cs)%nat with O by lia. cbn [repeat]. rewrite app_nil_r. repeat split; auto. lia.
  - cbn [length] in Hlen. cbn [enumerate_from foldM]. destruct (@step cs p) as (Hc & ->); [lia|rewrite <- (Nat.add_0_r (length cs)), <- Hl; auto|]. set (cands := cands_of cs p) in *. clearbody cands.
    destruct cands as [|c0 cands'].
    + right. cbn [bind]. exists cs. split; auto. split; [lia|]. split; auto. split; auto. intros c Hin. apply NNPP. intros Hno.
      apply (Hc c). split; auto. intros j Hj Ht. apply Hno. exists j. auto.
    + set (cands := c0 :: cands') in *. assert (Hlt : (pl_sample env (length cs) (length cands) < length cands)%nat) by (apply Hs; cbn; lia).
      rewrite (L_base.py_get_ok cands c0 Hlt). cbn [bind]. set (c := nth _ cands c0). assert (Hcl : left_for cs c) by (apply Hc, nth_In; auto).
      replace (S (length cs)) with (length (cs ++ [c])) by (rewrite app_length; cbn; lia).
      apply IH; auto.
      * rewrite app_length. cbn. lia.
      * intros i. rewrite app_length. cbn. specialize (Hl (S i)). cbn in Hl. rewrite Hl. f_equal. lia.
      * apply Forall_app. split; auto. constructor; auto. apply Hcl.
      * apply proper_snoc; auto.
Qed.


Lemma foldM_app {A S} (f : S -> A -> res S) l1 l2 s : foldM f (l1 ++ l2) s = (let! s' := foldM f l1 s in foldM f l2 s').
Proof. revert s. induction l1 as [|x l1 IH]; intros s; cbn; auto. destruct (f s x); cbn; auto. Qed.
End Colors.

(** Every proper colouring, and every dead end, comes about for some choices. *)
Fixpoint position (x : nat) (l : list nat) : nat := match l with [] => O | y :: l' => if Nat.eqb x y then O else S (position x l') end.
Lemma position_ok x l : In x l -> (position x l < length l)%nat /\ nth_error l (position x l) = Some x.
Proof.
  induction l as [|y l IH]; cbn; [intros []|]. intros H. destruct (Nat.eqb_spec x y) as [->|N]; [split; auto; lia|].
  destruct IH as [H1 H2]; [destruct H; congruence|]. cbn. split; auto. lia.
Qed.

Definition with_sample (env : plot_env) (s : nat -> nat -> nat) : plot_env :=
  mkPlot (pl_cmap env) (pl_set_order env) (pl_shuffle env) s (pl_ami env).

Section Reach.
Variables (env : plot_env) (ps : list (list point)) (available tgt : list nat).
Hypotheses (Hlen : (length tgt <= length ps)%nat) (Ha : Forall (fun c => In c available) tgt) (Hp : proper ps tgt).

Definition steer (k n : nat) : nat :=
  let i := position (nth k tgt O) (cands_of ps available (firstn k tgt) (nth k ps [])) in if Nat.ltb i n then i else O.

Lemma steer_fair k n : (0 < n)%nat -> (steer k n < n)%nat.
Proof. intros H. unfold steer. destruct (Nat.ltb_spec (position (nth k tgt O) (cands_of ps available (firstn k tgt) (nth k ps []))) n); auto. Qed.

Lemma firstn_S {A} (l : list A) d m : (m < length l)%nat -> firstn (S m) l = firstn m l ++ [nth m l d].
Proof. revert l. induction m as [|m IH]; intros [|x l] H; cbn in *; try lia; auto. f_equal. apply IH. lia. Qed.

Lemma steer_left m : (m < length tgt)%nat -> left_for ps available (firstn m tgt) (nth m tgt O).
Proof.
  intros Hm. split; [rewrite Forall_forall in Ha; apply Ha, nth_In; auto|]. intros j Hj Ht. rewrite firstn_length_le in Ht by lia.
  assert (Hjm : (j < m)%nat). { assert (X : nth_error (firstn m tgt) j <> None) by congruence. apply nth_error_Some in X. rewrite firstn_length_le in X by lia. auto. }
  apply (Hp (i := j) (j := m) (c := nth m tgt O) (d := nth m tgt O)); auto; [lia| |apply nth_error_nth'; auto].
  rewrite <- Hj. rewrite <- (firstn_skipn m tgt) at 1. rewrite nth_error_app1; auto. rewrite firstn_length_le; lia.
Qed.

Lemma steered m : (m <= length tgt)%nat ->
  foldM (color_domain (with_sample env steer) available (vertex_map ps)) (firstn m (enumerate ps)) (repeat None (length ps)) = Ok (state ps (firstn m tgt)).
Proof.
  induction m as [|m IH]; intros Hm.
  - cbn. unfold state. cbn. rewrite Nat.sub_0_r. auto.
  - rewrite (firstn_S (enumerate ps) (O, [])) by (unfold enumerate; rewrite enumerate_from_length; lia). rewrite foldM_app, IH by lia. cbn [bind foldM].
    assert (Em : length (firstn m tgt) = m) by (apply firstn_length_le; lia).
    assert (Hn : nth_error ps m = Some (nth m ps [])) by (apply nth_error_nth'; lia).
    assert (E : nth m (enumerate ps) (O, []) = (length (firstn m tgt), nth m ps [])).
    { rewrite Em. apply nth_error_nth. unfold enumerate. rewrite enumerate_from_nth, Hn. auto. }
    rewrite E. destruct (@step (with_sample env steer) ps available (firstn m tgt) (nth m ps [])) as [Hc ->]; [lia|rewrite Em; auto|].
    pose proof (steer_left Hm) as Hl. apply Hc in Hl. destruct (position_ok _ _ Hl) as [P1 P2].
    assert (Es : steer m (length (cands_of ps available (firstn m tgt) (nth m ps []))) = position (nth m tgt O) (cands_of ps available (firstn m tgt) (nth m ps []))).
    { unfold steer. apply Nat.ltb_lt in P1. rewrite P1. auto. }
    rewrite Em. cbn [pl_sample with_sample]. rewrite Es. unfold py_get. rewrite P2. destruct (cands_of ps available (firstn m tgt) (nth m ps [])) eqn:Ec; [destruct Hl|].
    cbn [bind]. rewrite (firstn_S tgt O) by lia. auto.
Qed.

Lemma steered_all : length tgt = length ps ->
  foldM (color_domain (with_sample env steer) available (vertex_map ps)) (enumerate ps) (repeat None (length ps)) = Ok (map Some tgt).
Proof.
  intros H. pose proof (@steered (length tgt) ltac:(lia)) as E. rewrite (firstn_all tgt) in E. rewrite H in E. rewrite firstn_all2 in E by (unfold enumerate; rewrite enumerate_from_length; lia).
  rewrite E. unfold state. rewrite H, Nat.sub_diag. cbn [repeat]. rewrite app_nil_r. auto.
Qed.

Lemma steered_dead : dead_end ps (fun c => In c available) tgt ->
  foldM (color_domain (with_sample env steer) available (vertex_map ps)) (enumerate ps) (repeat None (length ps)) = Raise ValueError.
Proof.
  intros (Hl & _ & _ & Hd). rewrite <- (firstn_skipn (length tgt) (enumerate ps)), foldM_app, steered by lia. rewrite firstn_all. cbn [bind].
  assert (Hn : nth_error ps (length tgt) = Some (nth (length tgt) ps [])) by (apply nth_error_nth'; lia).
  assert (E : skipn (length tgt) (enumerate ps) = (length tgt, nth (length tgt) ps []) :: skipn (S (length tgt)) (enumerate ps)).
  { assert (G : forall A (l : list A) m x, nth_error l m = Some x -> skipn m l = x :: skipn (S m) l).
    { clear. intros A l. induction l as [|y l IH]; intros [|m] x H; cbn in *; try discriminate; [inversion H; auto|]. apply IH; auto. }
    apply G. unfold enumerate. rewrite enumerate_from_nth, Hn. auto. }
  rewrite E. cbn [foldM]. destruct (@step (with_sample env steer) ps available tgt (nth (length tgt) ps [])) as [Hc ->]; auto.
  destruct (cands_of ps available tgt (nth (length tgt) ps [])) as [|c l] eqn:Ec; auto. exfalso. destruct (proj1 (Hc c) (or_introl eq_refl)) as [H1 H2].
  destruct (Hd c H1) as (j & H3 & H4). apply (H2 j H3 H4).
Qed.
End Reach.

(** ** The colours *)
Definition fair (env : plot_env) : Prop :=
  (forall l, Permutation (pl_set_order env l) l) /\ (forall l, Permutation (pl_shuffle env l) l) /\
  (forall k n, (0 < n)%nat -> (pl_sample env k n < n)%nat).

Definition palette (env : plot_env) (n : nat) (c : nat) : Prop := exists i, (i < n)%nat /\ c = pl_cmap env n i.

Lemma available_palette env n c : In c (available_colors env n) <-> palette env n c.
Proof.
  unfold available_colors, palette. rewrite nodup_In, in_map_iff. split; intros (i & H1 & H2); exists i.
  - apply in_seq in H2. split; auto. lia.
  - split; auto. apply in_seq. lia.
Qed.

Lemma dead_end_ext ps (P Q : nat -> Prop) cs : (forall c, P c <-> Q c) -> dead_end ps P cs -> dead_end ps Q cs.
Proof. intros E (H1 & H2 & H3 & H4). split; auto. split; [|split; auto]; [eapply Forall_impl; [|exact H2]; apply E|]. intros c Hc. apply H4, E, Hc. Qed.

Lemma colors_cases env ps : fair env ->
  (exists cs, domain_colors env ps = Ok (map Some cs) /\ length cs = length ps /\ Forall (palette env (length ps)) cs /\ proper ps cs) \/
  (exists cs, domain_colors env ps = Raise ValueError /\ dead_end ps (palette env (length ps)) cs).
Proof.
  intros (Ho & Hs & Hp). unfold domain_colors. set (av := available_colors env (length ps)). destruct (Nat.eqb_spec (length av) (length ps)) as [E|E].
  - left. exists (pl_shuffle env (pl_set_order env av)). split; auto. assert (P : Permutation (pl_shuffle env (pl_set_order env av)) av) by (rewrite Hs; apply Ho).
    assert (ND : NoDup (pl_shuffle env (pl_set_order env av))).
    { eapply Permutation_NoDup; [apply Permutation_sym, P|]. apply NoDup_nodup. }
    split; [rewrite (Permutation_length P); auto|]. split.
    + apply Forall_forall. intros c Hc. apply available_palette. eapply Permutation_in; eauto.
    + intros i j c d Hij Hc Hd _ <-. apply Hij. eapply NoDup_nth_error; eauto; [|congruence]. apply nth_error_Some. congruence.
  - pose proof (@run_from env ps av ps []) as R. unfold state in R. cbn [length map app] in R. rewrite Nat.sub_0_r in R. fold (enumerate ps) in R.
    assert (Hproper : proper ps []). { intros [|i] j c d _ H; cbn in H; discriminate. }
    destruct R as [(cs & H1 & H2 & H3 & H4)|(cs & H1 & H2)]; auto.
    + left. exists cs. split; auto. split; auto. split; auto. eapply Forall_impl; [|exact H3]. intros c. apply available_palette.
    + right. exists cs. split; auto. eapply dead_end_ext; [|exact H2]. intros c. apply available_palette.
Qed.

(** ** only *)
Lemma only_filter {A} (P : A -> Prop) (f : A -> bool) l : (forall x, In x l -> (f x = true <-> P x)) -> only P l (filter f l).
Proof.
  induction l as [|x l IH]; intros H; cbn; [constructor|]. destruct (f x) eqn:E; constructor; try (apply IH; intros; apply H; right; auto).
  - apply (H x); auto. left; auto.
  - intros Hp. apply (H x) in Hp; [congruence|left; auto].
Qed.

Lemma only_unique {A} (P : A -> Prop) l l1 l2 : only P l l1 -> only P l l2 -> l1 = l2.
Proof. intros H. revert l2. induction H; intros l2 H2; inversion H2; subst; auto; try contradiction. f_equal; auto. Qed.

Lemma only_keeps {A} (P : A -> Prop) l l' : only P l l' -> forall x, In x l' <-> In x l /\ P x.
Proof.
  induction 1; intros y; cbn; [tauto| |]; rewrite IHonly; [intuition; subst; auto|]. intuition; subst; tauto.
Qed.

(** ** Arrows of domains *)
Lemma np_mean_mean l : l <> [] -> np_mean l = Fin (mean l).
Proof. destruct l; [congruence|]. auto. Qed.

Lemma clamp_nearest r x : fst r <= snd r -> nearest r x (clamp (fst r) (snd r) (Fin x)).
Proof.
  intros H. unfold nearest, in_range, clamp. destruct (Rlt_dec (fst r) x); [destruct (Rlt_dec x (snd r))|destruct (Rlt_dec (fst r) (snd r))]; repeat split; intros; lra.
Qed.

Lemma np_lt_fin x y : np_lt (Fin x) y = true <-> x < y.
Proof. unfold np_lt. apply Rltb_true. Qed.
Lemma np_gt_fin x y : np_gt (Fin x) y = true <-> y < x.
Proof. unfold np_gt. apply Rltb_true. Qed.
Lemma np_between_fin a x b : np_between a (Fin x) b = true <-> a <= x <= b.
Proof. unfold np_between. rewrite andb_true_iff, !Rleb_true. tauto. Qed.

Lemma estimate_arrow_cases xlim ylim (d : domain_estimate) : fst xlim <= snd xlim -> fst ylim <= snd ylim -> fst (fst (fst d)) <> [] ->
  (pointed_at xlim ylim d /\ exists a, estimate_arrow xlim ylim d = [a] /\ is_arrow xlim ylim d a) \/
  (~ pointed_at xlim ylim d /\ estimate_arrow xlim ylim d = []).
Proof.
  intros Hx Hy. destruct d as [[[p c] g] o]. cbn [fst snd]. intros Hp. destruct g as [g|]; [|right; split; auto; intros (? & ? & ? & ? & H & _); discriminate].
  destruct o as [o|]; [|right; split; [intros (? & ? & ? & ? & H & _); discriminate|destruct g; reflexivity]].
  unfold estimate_arrow. set (p' := flip_polygon true p). assert (Hp' : p' <> []) by (unfold p', flip_polygon; destruct p; [congruence|discriminate]).
  assert (E1 : map fst p' = map snd p) by (unfold p', flip_polygon; rewrite map_map; apply map_ext; auto).
  assert (E2 : map snd p' = map fst p) by (unfold p', flip_polygon; rewrite map_map; apply map_ext; auto).
  rewrite E1, E2, !np_mean_mean by (destruct p; [congruence|discriminate]). set (mx := mean (map snd p)). set (my := mean (map fst p)). set (w := snd xlim - fst xlim). cbv zeta.
  destruct (np_lt (Fin mx) (fst xlim - 5 / 100 * w) || np_gt (Fin mx) (snd xlim + 5 / 100 * w)) eqn:Em.
  { right. split; auto. intros (p1 & c1 & gamma & omega & H & _ & _ & H2 & H3). inversion H; subst. apply orb_true_iff in Em. rewrite np_lt_fin, np_gt_fin in Em. unfold mx, w in *. lra. }
  apply orb_false_iff in Em as [M1 M2]. apply not_true_iff_false in M1. apply not_true_iff_false in M2. rewrite np_lt_fin in M1. rewrite np_gt_fin in M2.
  destruct (np_between (fst ylim) g (snd ylim) && (Rleb (fst xlim) o && Rleb o (snd xlim))) eqn:Ee.
  - left. apply andb_true_iff in Ee as [Eg Eo]. apply andb_true_iff in Eo as [Eo1 Eo2]. apply Rleb_true in Eo1. apply Rleb_true in Eo2. destruct g as [g|]; [|discriminate]. apply np_between_fin in Eg.
    split.
    + exists p, c, g, o. split; auto. split; [split; auto|]. split; [split; apply Eg|]. cbv zeta. fold mx. fold w. lra.
    + eexists. split; [reflexivity|]. exists p, c, g, o. split; auto. split; auto. cbn [fst snd]. split; apply clamp_nearest; auto.
  - right. split; auto. intros (p1 & c1 & gamma & omega & H & [H1 H2] & [H3 H4] & _). inversion H; subst. apply not_true_iff_false in Ee. apply Ee.
    apply andb_true_iff. split; [apply np_between_fin; auto|]. apply andb_true_iff. split; apply Rleb_true; auto.
Qed.

Lemma estimate_arrows xlim ylim (l : list domain_estimate) : fst xlim <= snd xlim -> fst ylim <= snd ylim -> (forall d, In d l -> fst (fst (fst d)) <> []) ->
  exists kept, only (pointed_at xlim ylim) l kept /\ Forall2 (is_arrow xlim ylim) kept (flat_map (estimate_arrow xlim ylim) l).
Proof.
  intros Hx Hy. induction l as [|d l IH]; intros Hl; [exists []; split; constructor|]. destruct IH as (kept & H1 & H2); [intros; apply Hl; right; auto|].
  cbn [flat_map]. destruct (@estimate_arrow_cases xlim ylim d Hx Hy) as [(Hp & a & -> & Ha)|(Hp & ->)]; [apply Hl; left; auto| |].
  - exists (d :: kept). split; constructor; auto.
  - exists kept. split; auto. constructor; auto.
Qed.

(** ** Valued polygons *)
Lemma corner_in_window_spec xlim ylim (d : domain_estimate) :
  corner_in_window xlim ylim (flip_polygon true (fst (fst (fst d)))) = true <-> has_corner_in xlim ylim d.
Proof.
  unfold corner_in_window, has_corner_in, in_range. rewrite existsb_exists. split.
  - intros (v & H1 & H2). apply in_map_iff in H1 as (v' & <- & H1). cbn [fst snd] in H2. rewrite !andb_true_iff, !Rleb_true in H2. exists v'. tauto.
  - intros (v & H1 & H2). exists (snd v, fst v). split; [apply in_map_iff; eauto|]. cbn [fst snd]. rewrite !andb_true_iff, !Rleb_true. tauto.
Qed.

Lemma valued_polygons_kept {A} (value : list nat -> res A) xlim ylim (l kept : list domain_estimate) : only (has_corner_in xlim ylim) l kept ->
  valued_polygons value xlim ylim l =
  mapM (fun d : domain_estimate => let! k := value (snd (fst (fst d))) in Ok (swapped (fst (fst (fst d))), k)) kept.
Proof.
  intros H. unfold valued_polygons. induction H as [|d l l' Hd H IH|d l l' Hd H IH]; auto; cbn [map filter fst].
  - rewrite (proj2 (corner_in_window_spec xlim ylim d) Hd). cbn [mapM snd]. rewrite IH. auto.
  - destruct (corner_in_window xlim ylim (flip_polygon true (fst (fst (fst d))))) eqn:E; auto. apply corner_in_window_spec in E. contradiction.
Qed.

Lemma only_exists {A} (P : A -> Prop) (l : list A) : exists l', only P l l'.
Proof. induction l as [|x l [l' IH]]; [exists []; constructor|]. destruct (classic (P x)); [exists (x :: l')|exists l']; constructor; auto. Qed.

Lemma num_communities_labelled c k : num_communities c = Ok k <-> labelled c k.
Proof. rewrite num_communities_spec. unfold labelled. split; intros [H1 H2]; split; auto. Qed.

Lemma filter_seq_sorted (f : nat -> bool) n : forall s, StronglySorted lt (filter f (seq s n)).
Proof.
  induction n as [|n IH]; intros s; cbn [seq filter]; [constructor|]. destruct (f s); auto. constructor; auto. apply Forall_forall. intros x Hx.
  apply filter_In in Hx as [Hx _]. apply in_seq in Hx. lia.
Qed.

Lemma py_range2_ok K_max step l : py_range2 K_max (S step) = Ok l ->
  StronglySorted lt l /\ forall k, In k l <-> (2 <= k <= K_max)%nat /\ Nat.divide (S step) (k - 2).
Proof.
  unfold py_range2. intros H. assert (E : l = filter (fun k => Nat.eqb ((k - 2) mod (S step)) 0) (seq 2 (K_max - 1))) by congruence. rewrite E. clear H E. split.
  - apply filter_seq_sorted.
  - intros k. rewrite filter_In, in_seq, Nat.eqb_eq, Nat.mod_divide by lia. split; intros [A B]; split; auto; lia.
Qed.

(** ** plot_estimates *)
Definition unrange (x : (R * R) * list nat * option npf) : R * R * list nat * option npf := x.

Lemma dominant_at_spec e l : (forall x, In x l -> exists k, labelled (snd (fst x)) k) -> forall k0,
  (exists x k, last_holding l e x /\ labelled (snd (fst x)) k /\ dominant_at (Fin e) l k0 = Ok k) \/
  ((forall x, In x l -> ~ holds_at x e) /\ dominant_at (Fin e) l k0 = Ok k0).
Proof.
  induction l as [|[[[g0 gf] c] o] l IH]; intros Hl k0; [right; split; auto|]. cbn [dominant_at].
  destruct (Hl _ (or_introl eq_refl)) as (k & Hk). cbn [fst snd] in Hk.
  assert (Hl' : forall x, In x l -> exists k, labelled (snd (fst x)) k) by (intros; apply Hl; right; auto).
  destruct (np_between g0 (Fin e) gf) eqn:E.
  - rewrite (proj2 (num_communities_labelled c k) Hk). cbn [bind]. destruct (IH Hl' k) as [(x & k' & (l1 & l2 & -> & H1 & H2) & H3 & H4)|[H1 H2]].
    + left. exists x, k'. split; auto. exists ((g0, gf, c, o) :: l1), l2. auto.
    + left. exists (g0, gf, c, o), k. split; auto. exists [], l. split; auto. split; auto. apply np_between_fin in E. exact E.
  - destruct (IH Hl' k0) as [(x & k' & (l1 & l2 & -> & H1 & H2) & H3 & H4)|[H1 H2]].
    + left. exists x, k'. split; auto. exists ((g0, gf, c, o) :: l1), l2. auto.
    + right. split; auto. intros x [<-|Hx]; auto. intros Hh. apply not_true_iff_false in E. apply E, np_between_fin. exact Hh.
Qed.

Lemma dominant_nan l k0 : dominant_at NonFinite l k0 = Ok k0.
Proof. induction l as [|[[[g0 gf] c] o] l IH]; auto. Qed.

Lemma segments_ok l : (forall x : (R * R) * list nat * option npf, In x l -> exists k, labelled (snd (fst x)) k) ->
  exists segs, mapM (fun x : R * R * list nat * option npf => let! k := num_communities (snd (fst x)) in Ok (fst (fst x), k)) l = Ok segs /\ Forall2 is_segment l segs.
Proof.
  induction l as [|x l IH]; intros H; [exists []; split; auto; constructor|]. destruct IH as (segs & H1 & H2); [intros; apply H; right; auto|].
  destruct (H x (or_introl eq_refl)) as (k & Hk). exists ((fst (fst x), k) :: segs). cbn [mapM]. rewrite (proj2 (num_communities_labelled _ k) Hk). cbn [bind]. rewrite H1. split; auto.
  constructor; auto. split; auto.
Qed.

Lemma marks_ok xs ys all x segs : (forall y : (R * R) * list nat * option npf, In y all -> exists k, labelled (snd (fst y)) k) ->
  Forall2 is_segment all segs -> Forall (in_box (xs, ys)) segs -> In x all ->
  exists ds ars, marked xs ys all x ds ars /\
    (let! k := num_communities (snd (fst x)) in
     match snd x with
     | None => Ok ([], [])
     | Some est => let! (dot, arrow) := dot_and_arrow xs ys all (fst (fst (fst x))) (snd (fst (fst x))) k est in Ok (dot, [arrow])
     end) = Ok (ds, ars).
Proof.
  intros Hall Hseg Hbox Hx.
  assert (Hin : forall y, In y all -> in_range xs (fst (fst (fst y))) /\ in_range xs (snd (fst (fst y))) /\ forall k, labelled (snd (fst y)) k -> in_range ys (INR k)).
  { intros y Hy. clear - Hseg Hbox Hy. induction Hseg as [|z s all segs [H1 H2] H IH]; [destruct Hy|]. inversion Hbox as [|a b Hb Hbs]; subst. destruct Hy as [->|Hy]; auto.
    destruct Hb as (B1 & B2 & B3). cbn [fst snd] in *. rewrite H1 in *. split; auto. split; auto. intros k Hk. apply num_communities_labelled in Hk. apply num_communities_labelled in H2. rewrite Hk in H2. inversion H2; subst. auto. }
  destruct (Hall x Hx) as (k & Hk). rewrite (proj2 (num_communities_labelled _ k) Hk). cbn [bind]. destruct x as [[g c] o]. cbn [fst snd] in *. destruct o as [[e|]|].
  - unfold dot_and_arrow. destruct (@dominant_at_spec e all Hall 0%nat) as [(y & k' & H1 & H2 & ->)|[H1 ->]]; cbn [bind].
    + destruct H1 as (l1 & l2 & E & Hh & Hlast). assert (Hy : In y all) by (rewrite E; apply in_or_app; right; left; auto).
      destruct (Hin y Hy) as ([A1 A2] & [A3 A4] & A5). specialize (A5 k' H2). destruct Hh as [Hh1 Hh2].
      assert (K0 : Nat.eqb k' 0 = false) by (apply Nat.eqb_neq; destruct H2; lia). rewrite K0. cbn [negb andb].
      rewrite (proj2 (np_between_fin (fst xs) e (snd xs))) by (split; lra). rewrite (proj2 (Rleb_true (fst ys) (INR k'))) by apply A5. rewrite (proj2 (Rleb_true (INR k') (snd ys))) by apply A5.
      cbn [andb bind]. eexists _, _. split; [|reflexivity]. eapply marked_inside; eauto. exists l1, l2. split; auto. split; auto. split; auto.
    + cbn [Nat.eqb negb andb orb bind]. eexists _, _. split; [|reflexivity].
      destruct (Hin _ Hx) as ([A1 A2] & _). cbn [fst snd] in *.
      destruct (np_gt (Fin e) (snd xs)) eqn:Eg; [apply np_gt_fin in Eg|]; [|destruct (np_lt (Fin e) (fst xs)) eqn:El; [apply np_lt_fin in El|]].
      * apply marked_outside; auto. unfold nearest, in_range. repeat split; intros; lra.
      * apply marked_outside; auto. unfold nearest, in_range. repeat split; intros; lra.
      * apply not_true_iff_false in Eg. apply not_true_iff_false in El. rewrite np_gt_fin in Eg. rewrite np_lt_fin in El.
        apply marked_outside; auto. unfold nearest, in_range. repeat split; intros; lra.
  - unfold dot_and_arrow. rewrite dominant_nan. cbn [bind Nat.eqb negb andb orb]. cbn [np_gt np_lt]. eexists _, _. split; [|reflexivity]. apply marked_nan; auto.
  - eexists _, _. split; [|reflexivity]. constructor.
Qed.

Lemma plot_estimates_ok limits (l : list ((R * R) * list nat * option npf)) : (forall x, In x l -> exists k, labelled (snd (fst x)) k) ->
  (forall segs, Forall2 is_segment l segs -> Forall (in_box (limits segs)) segs) ->
  exists segs marks, plot_estimates limits l = Ok (segs, flat_map fst marks, flat_map snd marks) /\ Forall2 is_segment l segs /\
    Forall2 (fun x da => marked (fst (limits segs)) (snd (limits segs)) l x (fst da) (snd da)) l marks.
Proof.
  intros Hl Hbox. destruct (segments_ok _ Hl) as (segs & Hs & H2). specialize (Hbox segs H2). unfold plot_estimates. rewrite Hs. cbn [bind]. destruct (limits segs) as [xs ys] eqn:El. cbn [fst snd].
  assert (G : forall l', incl l' l -> exists marks, Forall2 (fun x da => marked xs ys l x (fst da) (snd da)) l' marks /\
     mapM (fun x : R * R * list nat * option npf => let! k := num_communities (snd (fst x)) in
       match snd x with None => Ok ([], []) | Some est => let! (dot, arrow) := dot_and_arrow xs ys l (fst (fst (fst x))) (snd (fst (fst x))) k est in Ok (dot, [arrow]) end) l' = Ok marks).
  { induction l' as [|x l' IH]; intros Hi; [exists []; split; auto; constructor|]. destruct IH as (marks & M1 & M2); [intros y Hy; apply Hi; right; auto|].
    destruct (@marks_ok xs ys l x segs Hl H2 Hbox) as (ds & ars & M3 & M4); [apply Hi; left; auto|]. exists ((ds, ars) :: marks). split; [constructor; auto|].
    cbn [mapM]. rewrite M4. cbn [bind]. rewrite M2. auto. }
  destruct (G l) as (marks & M1 & M2); [intros x; auto|]. exists segs, marks. rewrite El. cbn [fst snd]. rewrite M2. auto.
Qed.

(** ** plot_multiplex_community *)
Lemma selected_spec m lv t : length m = length lv ->
  map fst (filter (fun x => Nat.eqb (snd x) t) (combine m lv)) = map (fun v => nth v m 0%nat) (vertices_in lv t).
Proof.
  intros H. unfold vertices_in.
  assert (G : forall m lv s mm ll, length m = length lv -> length mm = s -> length ll = s ->
     map fst (filter (fun x => Nat.eqb (snd x) t) (combine m lv)) =
     map (fun v => nth v (mm ++ m) 0%nat) (filter (fun v => Nat.eqb (nth v (ll ++ lv) 0%nat) t) (seq s (length lv)))).
  { clear. induction m as [|x m IH]; intros [|y lv] s mm ll H Hm Hl; cbn in H; try lia; auto. cbn [combine length seq filter fst snd].
    assert (Ey : nth s (ll ++ y :: lv) 0%nat = y) by (rewrite app_nth2, <- Hl, Nat.sub_diag by lia; auto). rewrite Ey.
    specialize (IH lv (S s) (mm ++ [x]) (ll ++ [y])). rewrite <- !app_assoc in IH. cbn [app] in IH. destruct (Nat.eqb y t); cbn [map fst]; rewrite IH by (rewrite ?app_length; cbn; lia); auto.
    f_equal. rewrite app_nth2, <- Hm, Nat.sub_diag by lia. auto. }
  apply (G m lv 0%nat [] []); auto.
Qed.

Lemma layers_cover lv T : (forall x, In x lv -> (x < T)%nat) -> list_sum (map (fun t => length (vertices_in lv t)) (seq 0 T)) = length lv.
Proof.
  intros H. unfold vertices_in. transitivity (length (seq 0 (length lv))); [|apply seq_length].
  assert (G : forall vs, (forall v, In v vs -> (nth v lv 0 < T)%nat) -> list_sum (map (fun t => length (filter (fun v => Nat.eqb (nth v lv 0%nat) t) vs)) (seq 0 T)) = length vs).
  { clear H. induction vs as [|v vs IH]; intros Hv.
    - clear. induction (seq 0 T); cbn; auto.
    - cbn [length]. rewrite <- IH by (intros; apply Hv; right; auto). specialize (Hv v (or_introl eq_refl)). cbn [filter]. revert Hv. generalize (nth v lv 0%nat). intros a Ha.
      assert (S1 : forall s n, ((s <= a < s + n)%nat -> list_sum (map (fun t => length (if Nat.eqb a t then v :: filter (fun v => Nat.eqb (nth v lv 0%nat) t) vs else filter (fun v => Nat.eqb (nth v lv 0%nat) t) vs)) (seq s n)) = S (list_sum (map (fun t => length (filter (fun v => Nat.eqb (nth v lv 0%nat) t) vs)) (seq s n)))) /\
        (~ (s <= a < s + n)%nat -> list_sum (map (fun t => length (if Nat.eqb a t then v :: filter (fun v => Nat.eqb (nth v lv 0%nat) t) vs else filter (fun v => Nat.eqb (nth v lv 0%nat) t) vs)) (seq s n)) = list_sum (map (fun t => length (filter (fun v => Nat.eqb (nth v lv 0%nat) t) vs)) (seq s n)))).
      { intros s n. revert s. induction n as [|n IHn]; intros s; [split; [lia|auto]|]. destruct (IHn (S s)) as [I1 I2]. cbn [seq map list_sum fold_right]. unfold list_sum in *. destruct (Nat.eqb_spec a s) as [->|N]; cbn [length]; split; intros B; lia. }
      apply S1. lia. }
  apply G. intros v Hv. apply in_seq in Hv. apply H, nth_In. lia.
Qed.

Lemma sum_le_all (f : nat -> nat) N l : (forall t, In t l -> (f t <= N)%nat) -> (N * length l <= list_sum (map f l))%nat -> forall t, In t l -> f t = N.
Proof.
  induction l as [|x l IH]; cbn [map length]; intros H1 H2 t Ht; [destruct Ht|]. change (list_sum (f x :: map f l)) with (f x + list_sum (map f l))%nat in H2.
  assert (B : (list_sum (map f l) <= N * length l)%nat).
  { assert (H1' : forall t, In t l -> (f t <= N)%nat) by (intros; apply H1; right; auto). clear - H1'. induction l as [|y l IH]; [cbn; lia|]. cbn [map length]. change (list_sum (f y :: map f l)) with (f y + list_sum (map f l))%nat.
    specialize (H1' y (or_introl eq_refl)) as Hy. assert (list_sum (map f l) <= N * length l)%nat by (apply IH; intros; apply H1'; right; auto). lia. }
  pose proof (H1 x (or_introl eq_refl)). destruct Ht as [<-|Ht]; [lia|]. apply IH; auto; [intros; apply H1; right; auto|lia].
Qed.

Lemma below_max lv x : In x lv -> (x < S (list_max lv))%nat.
Proof. intros Hx. pose proof (proj1 (list_max_le lv (list_max lv)) (le_n _)) as F. rewrite Forall_forall in F. specialize (F x Hx). lia. Qed.

Section Matrix.
Variables (m lv : list nat).
Hypotheses (Hlen : length m = length lv) (Hne : lv <> []).
Let T := S (list_max lv).
Let N := (length lv / T)%nat.

Lemma max_lv : py_max lv = Ok (list_max lv).
Proof.
  apply py_max_spec. split.
  - clear - Hne. induction lv as [|x l IH]; [congruence|]. cbn [list_max fold_right]. fold (list_max l). destruct (Nat.max_spec x (list_max l)) as [[? E]|[? E]]; unfold list_max in *; rewrite E; [|left; auto].
    right. apply IH. intros ->. cbn in *. lia.
  - intros y Hy. pose proof (proj1 (list_max_le lv (list_max lv)) (le_n _)) as F. rewrite Forall_forall in F. auto.
Qed.

Lemma below_T x : In x lv -> (x < T)%nat.
Proof. apply below_max. Qed.

Definition column (t : nat) : list nat := map (fun v => nth v m 0%nat) (vertices_in lv t).

Lemma matrix_unfold : plot_multiplex_community (Array m) (Array lv) = mapM (fun t => assign_column N (column t)) (seq 0 T).
Proof.
  unfold plot_multiplex_community. cbn [entries]. rewrite max_lv. cbn [bind]. rewrite Hlen. replace (list_max lv + 1)%nat with T by (unfold T; lia). apply mapM_ext.
  intros t _. cbn [layer_column]. rewrite Hlen, Nat.eqb_refl, selected_spec by auto. auto.
Qed.

Lemma column_length t : length (column t) = length (vertices_in lv t).
Proof. unfold column. apply map_length. Qed.

Lemma matrix_ok : (forall t, (t < T)%nat -> length (vertices_in lv t) = N) ->
  plot_multiplex_community (Array m) (Array lv) = Ok (map column (seq 0 T)).
Proof.
  intros H. rewrite matrix_unfold. apply mapM_ok. intros t Ht. apply in_seq in Ht. unfold assign_column. rewrite column_length, H by lia. rewrite Nat.eqb_refl. auto.
Qed.

Lemma assign_cases n l : (length l = n /\ assign_column n l = Ok l) \/ (length l = 1%nat /\ length l <> n /\ assign_column n l = Ok (repeat (nth 0 l 0%nat) n)) \/
  (length l <> n /\ length l <> 1%nat /\ assign_column n l = Raise ValueError).
Proof.
  unfold assign_column. destruct (Nat.eqb_spec (length l) n); [left; auto|]. right. destruct l as [|x [|y l]]; cbn in *; auto.
Qed.

Lemma matrix_raises e : plot_multiplex_community (Array m) (Array lv) = Raise e -> e = ValueError.
Proof.
  rewrite matrix_unfold. generalize (seq 0 T). induction l as [|t l IH]; cbn [mapM]; [discriminate|]. destruct (assign_cases N (column t)) as [(_ & ->)|[(_ & _ & ->)|(_ & _ & ->)]]; cbn [bind]; try congruence.
  - destruct (mapM _ l); cbn [bind]; [discriminate|]. auto.
  - destruct (mapM _ l); cbn [bind]; [discriminate|]. auto.
Qed.

Lemma matrix_sizes r : plot_multiplex_community (Array m) (Array lv) = Ok r ->
  (forall t, (t < T)%nat -> length (vertices_in lv t) = N) \/ (N = 0%nat /\ forall t, (t < T)%nat -> (length (vertices_in lv t) <= 1)%nat).
Proof.
  rewrite matrix_unfold. intros H.
  assert (Hs : forall t, In t (seq 0 T) -> length (vertices_in lv t) = N \/ length (vertices_in lv t) = 1%nat).
  { revert r H. generalize (seq 0 T). induction l as [|t l IH]; intros r H t' Ht; [destruct Ht|]. cbn [mapM] in H.
    destruct (assign_cases N (column t)) as [(E & ->)|[(E & _ & ->)|(_ & _ & ->)]] in H; cbn [bind] in H; try discriminate;
    (destruct (mapM _ l) as [r'|] eqn:El; cbn [bind] in H; [|discriminate]; destruct Ht as [<-|Ht]; [rewrite <- column_length; auto|eapply IH; eauto]). }
  destruct (Nat.eq_dec N 0) as [Z|NZ].
  - right. split; auto. intros t Ht. destruct (Hs t); [apply in_seq; lia| |]; lia.
  - left. intros t Ht. apply (@sum_le_all (fun t => length (vertices_in lv t)) N (seq 0 T)); [| |apply in_seq; lia].
    + intros t' Ht'. destruct (Hs t' Ht'); lia.
    + rewrite seq_length. rewrite layers_cover by apply below_T. rewrite Nat.mul_comm. apply Nat.mul_div_le. unfold T. lia.
Qed.

Lemma matrix_sparse : N = 0%nat -> (forall t, (t < T)%nat -> (length (vertices_in lv t) <= 1)%nat) ->
  plot_multiplex_community (Array m) (Array lv) = Ok (repeat [] T).
Proof.
  intros Hz H. rewrite matrix_unfold, Hz by auto.
  replace (repeat [] T) with (map (fun _ => @nil nat) (seq 0 T)).
  - apply mapM_ok. intros t Ht. apply in_seq in Ht. specialize (H t ltac:(lia)). rewrite <- column_length in H. destruct (column t) as [|x [|y l]]; cbn in *; auto. lia.
  - clear. clearbody T. generalize 0%nat. induction T as [|n IH]; intros s; cbn; auto. f_equal. auto.
Qed.
End Matrix.

Lemma matrix_sequences x m lv : lv <> [] ->
  plot_multiplex_community (Sequence (x :: m)) (Sequence lv) = Ok (repeat (repeat x (length (x :: m) / S (list_max lv))) (S (list_max lv))).
Proof.
  intros H. unfold plot_multiplex_community. cbn [entries]. rewrite (max_lv H). cbn [bind]. replace (list_max lv + 1)%nat with (S (list_max lv)) by lia.
  generalize (length (x :: m) / S (list_max lv))%nat. intros n. generalize (S (list_max lv)). intros T.
  generalize 0%nat. induction T as [|k IH]; intros s; cbn [seq mapM]; auto. rewrite IH. cbn. auto.
Qed.

(** ** Enough and too few colours *)
Lemma touching_sym ps i j : touching ps i j -> touching ps j i.
Proof. intros (p & q & v & ? & ? & ? & ?). exists q, p, v. auto. Qed.

Lemma few_colors env n i j : (i < j < n)%nat -> pl_cmap env n i = pl_cmap env n j -> length (available_colors env n) <> n.
Proof.
  intros Hij E H. unfold available_colors in H. set (l := map (pl_cmap env n) (seq 0 n)) in *.
  assert (ND : NoDup l).
  { apply (NoDup_incl_NoDup (l := nodup Nat.eq_dec l)); [apply NoDup_nodup| |intros x; apply nodup_In]. unfold l at 1. rewrite map_length, seq_length. lia. }
  assert (X : i = j); [|lia]. apply (proj1 (NoDup_nth_error l) ND); [unfold l; rewrite map_length, seq_length; lia|].
  unfold l. rewrite !nth_error_map, !(nth_error_nth' (seq 0 n) 0%nat) by (rewrite seq_length; lia). rewrite !seq_nth by lia. cbn. f_equal. auto.
Qed.

Lemma colors_reached env ps cs i j : (i < j < length ps)%nat -> pl_cmap env (length ps) i = pl_cmap env (length ps) j ->
  length cs = length ps -> Forall (palette env (length ps)) cs -> proper ps cs ->
  exists s, (forall k n, (0 < n)%nat -> (s k n < n)%nat) /\ domain_colors (with_sample env s) ps = Ok (map Some cs).
Proof.
  intros Hij E Hl Ha Hp. exists (steer ps (available_colors env (length ps)) cs). split; [intros k n; apply steer_fair|].
  unfold domain_colors. destruct (Nat.eqb_spec (length (available_colors (with_sample env (steer ps (available_colors env (length ps)) cs)) (length ps))) (length ps)) as [X|X].
  - exfalso. revert X. eapply few_colors; eauto.
  - apply steered_all; auto; [lia|]. eapply Forall_impl; [|exact Ha]. intros c. apply available_palette.
Qed.

Lemma dead_end_reached env ps cs i j : (i < j < length ps)%nat -> pl_cmap env (length ps) i = pl_cmap env (length ps) j ->
  dead_end ps (palette env (length ps)) cs ->
  exists s, (forall k n, (0 < n)%nat -> (s k n < n)%nat) /\ domain_colors (with_sample env s) ps = Raise ValueError.
Proof.
  intros Hij E Hd. exists (steer ps (available_colors env (length ps)) cs). split; [intros k n; apply steer_fair|].
  unfold domain_colors. destruct (Nat.eqb_spec (length (available_colors (with_sample env (steer ps (available_colors env (length ps)) cs)) (length ps))) (length ps)) as [X|X].
  - exfalso. revert X. eapply few_colors; eauto.
  - assert (Hd' : dead_end ps (fun c => In c (available_colors env (length ps))) cs) by (eapply dead_end_ext; [|exact Hd]; intros c; symmetry; apply available_palette).
    destruct Hd' as (D1 & D2 & D3 & D4). apply steered_dead; auto; [lia|]. split; auto.
Qed.

Lemma dead_end_neighbors ps P cs : dead_end ps P cs -> forall cols, NoDup cols -> Forall P cols ->
  exists js, NoDup js /\ length js = length cols /\ forall j, In j js -> (j < length cs)%nat /\ touching ps j (length cs).
Proof.
  intros (_ & _ & _ & Hd) cols ND F.
  assert (G : exists js, Forall2 (fun c j => nth_error cs j = Some c /\ touching ps j (length cs)) cols js).
  { clear ND. induction F as [|c cols Hc F [js IH]]; [exists []; constructor|]. destruct (Hd c Hc) as (j & Hj). exists (j :: js). constructor; auto. }
  destruct G as (js & G). exists js. split.
  { clear - ND G. induction G as [|c j cols js [H1 H2] G IH]; [constructor|]. inversion ND; subst. constructor; auto. intros Hin. apply H3. clear - G Hin H1.
    induction G as [|c' j' cols js [H3 H4] G IH]; [destruct Hin|]. destruct Hin as [->|Hin]; [left; congruence|right; auto]. }
  split; [symmetry; clear - G; induction G; cbn; auto|]. intros j Hj. clear - G Hj. induction G as [|c' j' cols js [H3 H4] G IH]; [destruct Hj|]. destruct Hj as [->|Hj]; auto.
  split; auto. apply nth_error_Some. congruence.
Qed.

Lemma proper_at_vertex ps cs v js : proper ps cs -> length cs = length ps -> NoDup js ->
  (forall j, In j js -> exists p, nth_error ps j = Some p /\ In v p) -> NoDup (map (fun j => nth j cs 0%nat) js).
Proof.
  intros Hp Hl ND Hv. induction js as [|j js IH]; cbn; [constructor|]. inversion ND; subst. constructor; [|apply IH; auto; intros; apply Hv; right; auto].
  intros Hin. apply in_map_iff in Hin as (j' & E & Hj'). destruct (Hv j (or_introl eq_refl)) as (p & P1 & P2). destruct (Hv j' (or_intror Hj')) as (q & Q1 & Q2).
  assert (j < length cs)%nat by (rewrite Hl; apply nth_error_Some; congruence). assert (j' < length cs)%nat by (rewrite Hl; apply nth_error_Some; congruence).
  assert (J : j <> j') by (intros ->; contradiction).
  apply (Hp j j' (nth j cs 0%nat) (nth j' cs 0%nat) J); [apply nth_error_nth'; auto|apply nth_error_nth'; auto| |auto]. exists p, q, v. auto.
Qed.

Lemma map_fst_combine {A B} (l : list A) : forall l' : list B, length l = length l' -> map fst (combine l l') = l.
Proof. induction l; intros [|y l'] H; cbn in *; try lia; auto. f_equal. auto. Qed.
Lemma map_snd_combine {A B} (l : list A) : forall l' : list B, length l = length l' -> map snd (combine l l') = l'.
Proof. induction l; intros [|y l'] H; cbn in *; try lia; auto. f_equal. auto. Qed.
