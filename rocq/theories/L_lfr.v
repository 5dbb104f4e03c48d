(** Lemmas about the LFR experiment's directory. *)
From Coq Require Import String.
From Verif Require Import PyBase PyGraph M_partition M_champ M_leiden M_estimation_utils M_checks M_generators M_lfr Spec_lfr L_base.
Open Scope list_scope.
Open Scope R_scope.
Set Implicit Arguments.

(** ** Reasoning about actions *)
Definition wp {A} (x : act A) (Inv : disk -> Prop) (Post : A -> disk -> Prop) (d : disk) : Prop :=
  (forall d', In d' (fst (x d)) -> Inv d') /\ forall a, snd (x d) = Done a -> Post a (last_disk d (fst (x d))).
Definition twp {A} (x : act A) (Post : A -> disk -> Prop) (d : disk) : Prop :=
  exists a, snd (x d) = Done a /\ Post a (last_disk d (fst (x d))).

Lemma last_app_disk d l l' : last_disk d (l ++ l') = last_disk (last_disk d l) l'.
Proof.
  unfold last_disk. revert d. induction l as [|a l IH]; intros d; [reflexivity|]. cbn [app].
  assert (X : forall (m : list disk) d0 d1, m <> [] -> last m d0 = last m d1).
  { intros m d0 d1. induction m as [|b m IHm]; intros N; [contradiction|]. destruct m as [|c m]; [reflexivity|]. change (last (c :: m) d0 = last (c :: m) d1). apply IHm. discriminate. }
  destruct l as [|b l].
  - cbn [app last]. destruct l' as [|c l']; [reflexivity|]. change (last (a :: c :: l') d) with (last (c :: l') d). apply X. discriminate.
  - change (last (a :: (b :: l) ++ l') d) with (last ((b :: l) ++ l') d). change (last (a :: b :: l) d) with (last (b :: l) d). apply IH.
Qed.

Lemma wp_andThen {A B} (x : act A) (f : A -> act B) Inv Post d :
  wp x Inv (fun a => wp (f a) Inv Post) d -> wp (andThen x f) Inv Post d.
Proof.
  intros [H1 H2]. unfold wp, andThen. destruct (x d) as [l e] eqn:E. cbn [fst snd] in *. destruct e as [a|e| |].
  - specialize (H2 a eq_refl) as [H3 H4]. destruct (f a (last_disk d l)) as [l' e'] eqn:E'. cbn [fst snd] in *. split.
    + intros d' Hd. apply in_app_iff in Hd as [Hd|Hd]; auto.
    + intros b Hb. rewrite last_app_disk. auto.
  - cbn [fst snd]. split; [auto|discriminate].
  - cbn [fst snd]. split; [auto|discriminate].
  - cbn [fst snd]. split; [auto|discriminate].
Qed.
Lemma wp_ret {A} (a : A) Inv (Post : A -> disk -> Prop) d : Post a d -> wp (ret a) Inv Post d.
Proof. intros H. split; [intros d' []|]. intros b E. injection E as <-. exact H. Qed.
Lemma wp_stop {A} (e : ending A) Inv (Post : A -> disk -> Prop) d : (forall a, e = Done a -> Post a d) -> wp (stop e) Inv Post d.
Proof. intros H. split; [intros d' []|]. intros b E. apply H. exact E. Qed.
Lemma wp_pure {A} (r : res A) Inv (Post : A -> disk -> Prop) d : (forall a, r = Ok a -> Post a d) -> wp (pure r) Inv Post d.
Proof. intros H. apply wp_stop. intros a E. destruct r as [b|[]]; try discriminate. injection E as ->. apply H. reflexivity. Qed.
Lemma wp_dump {A} put (v : A) (Inv : disk -> Prop) (Post : unit -> disk -> Prop) d : Inv (put Torn d) -> Inv (put (Stored v) d) -> Post tt (put (Stored v) d) -> wp (dump put v) Inv Post d.
Proof. intros H1 H2 H3. split; [intros d' [<-|[<-|[]]]; auto|]. intros [] _. exact H3. Qed.
Lemma wp_load {A} (get : disk -> file A) Inv (Post : A -> disk -> Prop) d : (forall a, get d = Stored a -> Post a d) -> wp (load get) Inv Post d.
Proof. intros H. split; [intros d' []|]. intros a E. cbn in E. unfold last_disk. cbn. destruct (get d); try discriminate. injection E as <-. auto. Qed.
Lemma wp_exists {A} (get : disk -> file A) Inv (Post : bool -> disk -> Prop) d : (get d = Absent -> Post false d) -> (get d <> Absent -> Post true d) -> wp (exists_ get) Inv Post d.
Proof. intros H1 H2. split; [intros d' []|]. intros b E. cbn in E. unfold last_disk. cbn. destruct (get d); injection E as <-; [auto| |]; apply H2; discriminate. Qed.
Lemma wp_weaken {A} (x : act A) (Inv Inv' : disk -> Prop) (Post Post' : A -> disk -> Prop) d :
  wp x Inv Post d -> (forall d', Inv d' -> Inv' d') -> (forall a d', Post a d' -> Post' a d') -> wp x Inv' Post' d.
Proof. intros [H1 H2] H3 H4. split; auto. Qed.

Lemma twp_andThen {A B} (x : act A) (f : A -> act B) Post d : twp x (fun a => twp (f a) Post) d -> twp (andThen x f) Post d.
Proof.
  intros (a & E & b & E' & H). unfold twp, andThen. destruct (x d) as [l e]. cbn [fst snd] in *. subst e.
  destruct (f a (last_disk d l)) as [l' e'] eqn:F. cbn [fst snd] in *. exists b. split; [exact E'|]. rewrite last_app_disk. exact H.
Qed.
Lemma twp_ret {A} (a : A) (Post : A -> disk -> Prop) d : Post a d -> twp (ret a) Post d.
Proof. intros H. exists a. auto. Qed.
Lemma twp_stop {A} (a : A) (Post : A -> disk -> Prop) d : Post a d -> twp (stop (Done a)) Post d.
Proof. intros H. exists a. auto. Qed.
Lemma twp_pure {A} (a : A) (r : res A) (Post : A -> disk -> Prop) d : r = Ok a -> Post a d -> twp (pure r) Post d.
Proof. intros -> H. exists a. auto. Qed.
Lemma twp_dump {A} put (v : A) (Post : unit -> disk -> Prop) d : Post tt (put (Stored v) d) -> twp (dump put v) Post d.
Proof. intros H. exists tt. auto. Qed.
Lemma twp_load {A} (get : disk -> file A) (Post : A -> disk -> Prop) d a : get d = Stored a -> Post a d -> twp (load get) Post d.
Proof. intros E H. exists a. cbn. rewrite E. auto. Qed.
Lemma twp_exists {A} (get : disk -> file A) (Post : bool -> disk -> Prop) d : Post (match get d with Absent => false | _ => true end) d -> twp (exists_ get) Post d.
Proof. intros H. eexists. split; [reflexivity|]. exact H. Qed.
Lemma twp_weaken {A} (x : act A) (Post Post' : A -> disk -> Prop) d : twp x Post d -> (forall a d', Post a d' -> Post' a d') -> twp x Post' d.
Proof. intros (a & E & H) H'. exists a. auto. Qed.

Lemma key_eqb_eq a b : key_eqb a b = true <-> a = b.
Proof.
  unfold key_eqb. destruct a as [n z], b as [n' z']. cbn [fst snd]. rewrite andb_true_iff, Nat.eqb_eq, Z.eqb_eq. split; [intros [-> ->]; reflexivity|intros E; injection E; auto].
Qed.
Lemma put_graphs_same k f d : d_graphs (put_graphs k f d) k = f.
Proof. cbn. assert (E : key_eqb k k = true) by (apply key_eqb_eq; reflexivity). rewrite E. reflexivity. Qed.
Lemma put_graphs_other k k' f d : k' <> k -> d_graphs (put_graphs k f d) k' = d_graphs d k'.
Proof. intros N. cbn. destruct (key_eqb k' k) eqn:E; [apply key_eqb_eq in E; contradiction|reflexivity]. Qed.

(** ** Graph collection *)
Definition accepted (l : list (option benchmark)) : list benchmark := flat_map (fun o => match o with Some x => [x] | None => [] end) l.
Lemma collect_graphs_done batches n : forall acc l, collect_graphs batches n acc = Done l ->
  (n <= length l)%nat /\ forall b, In b l -> In b acc \/ exists t, In (Trials t) batches /\ In (Some b) t.
Proof.
  induction batches as [|x batches IH]; intros acc l H; cbn [collect_graphs] in H.
  - destruct (Nat.ltb (length acc) n) eqn:E; [discriminate|]. injection H as <-. apply Nat.ltb_ge in E. auto.
  - destruct (Nat.ltb (length acc) n) eqn:E; [|injection H as <-; apply Nat.ltb_ge in E; auto]. destruct x as [t| |e]; [| |discriminate].
    + apply IH in H as [H1 H2]. split; [exact H1|]. intros b Hb. apply H2 in Hb as [Hb|(t' & T1 & T2)].
      * apply in_app_iff in Hb as [Hb|Hb]; [auto|]. right. exists t. split; [left; reflexivity|]. apply in_flat_map in Hb as ([y|] & Hy & Hb); [|contradiction]. destruct Hb as [<-|[]]. exact Hy.
      * right. exists t'. split; [right; exact T1|exact T2].
    + apply IH in H as [H1 H2]. split; [exact H1|]. intros b Hb. apply H2 in Hb as [Hb|(t' & T1 & T2)]; [auto|]. right. exists t'. split; [right; exact T1|exact T2].
Qed.
Lemma collect_graphs_total n after : forall before acc,
  (forall b, In b before -> exists l, b = Trials l \/ b = TimedOut) ->
  (n <= length acc + length (flat_map (fun b => match b with Trials l => accepted l | _ => [] end) before))%nat ->
  exists l, collect_graphs (before ++ after) n acc = Done l.
Proof.
  induction before as [|x before IH]; intros acc H1 H2.
  - cbn [flat_map length] in H2. assert (E : Nat.ltb (length acc) n = false) by (apply Nat.ltb_ge; lia). cbn [app].
    destruct after; cbn [collect_graphs]; rewrite E; eauto.
  - cbn [app collect_graphs]. destruct (Nat.ltb (length acc) n) eqn:E; [|eauto]. destruct (H1 x (or_introl eq_refl)) as (l & [-> | ->]).
    + apply IH; [intros b Hb; apply H1; right; exact Hb|]. cbn [flat_map] in H2. rewrite app_length in H2. fold (accepted l). rewrite app_length. lia.
    + apply IH; [intros b Hb; apply H1; right; exact Hb|]. exact H2.
Qed.

(** ** Invariants *)
Definition grows (d d' : disk) : Prop := forall k l, d_graphs d k = Stored l -> d_graphs d' k = Stored l.
Lemma grows_refl d : grows d d.
Proof. intros k l H. exact H. Qed.
Lemma grows_trans d d' d'' : grows d d' -> grows d' d'' -> grows d d''.
Proof. intros H1 H2 k l H. auto. Qed.
Lemma continues_refl x : continues x x.
Proof. destruct x as [[[a b] c] d]. exists [], [], [], []. rewrite !app_nil_r. auto. Qed.
Lemma continues_trans x y z : continues x y -> continues y z -> continues x z.
Proof.
  destruct x as [[[a b] c] d], y as [[[a' b'] c'] d'], z as [[[a'' b''] c''] d'']. intros (p & q & r & s & -> & -> & -> & ->) (p' & q' & r' & s' & -> & -> & -> & ->).
  exists (p ++ p'), (q ++ q'), (r ++ r'), (s ++ s'). rewrite !app_assoc. auto.
Qed.

Section History.
Variables (P : benchmark -> Prop) (ok : session -> Prop) (runs n : nat) (mus : list R).
Hypothesis ok_P : forall s, ok s -> produces P s.
Hypothesis mus_nd : NoDup mus.

Lemma data_grows d d' m keys x : grows d d' -> complete_data ok runs n d m keys x -> complete_data ok runs n d' m keys x.
Proof. clear. intros G [H1 H2]. split; [exact H1|]. intros mu ls H. destruct (H2 mu ls H) as (gs & A & B). exists gs. split; auto. Qed.
Lemma plots_grow d d' keys x : grows d d' -> complete_plots ok runs n d keys x -> complete_plots ok runs n d' keys x.
Proof. clear. intros G. destruct x as [[[a b] c] e]. intros (H1 & H2 & H3 & H4). repeat split; try apply H1; try apply H2; try apply H3; try apply H4; eapply data_grows; eauto. Qed.

(** What holds of the directory at any time. *)
Definition consistent (d : disk) : Prop :=
  (forall k l, d_graphs d k = Stored l -> length l = fst k /\ forall b, In b l -> P b) /\
  (forall x, d_partial d = Stored x -> exists k, (k <= length mus)%nat /\ complete_plots ok runs n d (firstn k mus) x) /\
  (forall x, d_results d = Stored x -> complete_plots ok runs n d mus x).
(** ... and in comparison with an earlier moment. *)
Definition later (d0 d : disk) : Prop :=
  grows d0 d /\ (d_results d0 <> Absent -> d_results d = d_results d0 /\ d_partial d = d_partial d0) /\
  (forall x, d_partial d0 = Stored x -> d_partial d = Torn \/ exists y, d_partial d = Stored y /\ continues x y) /\
  (d_results d0 = Absent -> d_partial d = Torn -> d_results d = Absent).

Lemma consistent_graphs d k f : consistent d -> d_graphs d k = Absent -> (forall l, f = Stored l -> length l = fst k /\ forall b, In b l -> P b) -> consistent (put_graphs k f d) /\ grows d (put_graphs k f d).
Proof.
  clear. intros (H1 & H2 & H3) HA HF.
  assert (G : grows d (put_graphs k f d)). { intros k' l E. rewrite put_graphs_other; [exact E|]. intros ->. congruence. }
  split; [|exact G]. split; [|split].
  - intros k' l E. destruct (key_eqb k' k) eqn:Q; [apply key_eqb_eq in Q; subst k'|]; [rewrite put_graphs_same in E; auto|]. apply (H1 k'). rewrite put_graphs_other in E; [exact E|]. intros ->. rewrite (proj2 (key_eqb_eq k k) eq_refl) in Q. discriminate.
  - intros x E. destruct (H2 x E) as (i & Hi & C). exists i. split; [exact Hi|]. eapply plots_grow; eauto.
  - intros x E. eapply plots_grow; eauto.
Qed.

Lemma generate_wp d0 batches mu d : (forall l b, In (Trials l) batches -> In (Some b) l -> P b) -> consistent d -> later d0 d ->
  wp (generate_LFR_graphs batches n mu) (fun d' => consistent d' /\ later d0 d')
     (fun gs d' => consistent d' /\ later d0 d' /\ grows d d' /\ d_partial d' = d_partial d /\ d_results d' = d_results d /\ d_graphs d' (file_key n mu) = Stored gs) d.
Proof.
  clear ok_P mus_nd. intros HP HC HL. unfold generate_LFR_graphs. apply wp_andThen, wp_exists.
  - intros HA. apply wp_andThen. apply wp_andThen, wp_stop. intros gs HG. destruct (collect_graphs_done _ _ _ HG) as [L1 L2].
    assert (LK : length (firstn n gs) = n) by (rewrite firstn_length; lia). destruct (Nat.eqb_spec (length (firstn n gs)) n); [|contradiction].
    assert (Good : forall l, Stored (firstn n gs) = Stored l -> length l = fst (file_key n mu) /\ forall b, In b l -> P b).
    { intros l E. injection E as <-. split; [exact LK|]. intros b Hb. assert (In b gs) by (rewrite <- (firstn_skipn n gs); apply in_or_app; auto). apply L2 in H as [[]|(t & T1 & T2)]. eapply HP; eauto. }
    destruct (consistent_graphs (f := Torn) (file_key n mu) HC HA) as [C1 G1]; [discriminate|].
    destruct (consistent_graphs (file_key n mu) HC HA Good) as [C2 G2].
    assert (LT : forall f, grows d (put_graphs (file_key n mu) f d) -> later d0 (put_graphs (file_key n mu) f d)).
    { intros f G. destruct HL as (A & B & C). split; [eapply grows_trans; eauto|]. split; [exact B|exact C]. }
    apply wp_dump; auto. apply wp_load. intros gs' E. rewrite E. cbn [d_partial d_results put_graphs]. auto 10.
  - intros HA. apply wp_andThen, wp_ret, wp_load. intros gs E. split; [exact HC|]. split; [exact HL|]. split; [apply grows_refl|]. auto.
Qed.

Lemma starmap_method_ok s mu m gs ls : starmap_method s runs mu m gs = Ok ls -> length ls = length gs /\
  forall i b nmis, nth_error gs i = Some b -> nth_error ls i = Some nmis -> run_method (se_worker s mu m i) (fst b) (snd b) runs m (1 / 2) 2 = Ok nmis.
Proof.
  clear. unfold starmap_method, enumerate.
  assert (X : forall gs k ls, mapM (fun ig => run_method (se_worker s mu m (fst ig)) (fst (snd ig)) (snd (snd ig)) runs m (1 / 2) 2) (enumerate_from k gs) = Ok ls ->
    length ls = length gs /\ forall i b nmis, nth_error gs i = Some b -> nth_error ls i = Some nmis -> run_method (se_worker s mu m (k + i)) (fst b) (snd b) runs m (1 / 2) 2 = Ok nmis).
  { clear gs ls. induction gs as [|g gs IH]; intros k ls H; cbn [enumerate_from mapM fst snd] in H.
    - injection H as <-. split; [reflexivity|]. intros [|i]; discriminate.
    - destruct (run_method _ _ _ _ _ _ _) as [r|] eqn:E; [|discriminate]. cbn [bind] in H. destruct (mapM _ (enumerate_from (S k) gs)) as [rs|] eqn:E'; [|discriminate].
      cbn [bind] in H. injection H as <-. apply IH in E' as [L1 L2]. split; [cbn; congruence|]. intros [|i] b nmis H1 H2; cbn in H1, H2.
      + injection H1 as <-. injection H2 as <-. rewrite Nat.add_0_r. exact E.
      + replace (k + S i)%nat with (S k + i)%nat by lia. eauto. }
  intros H. apply X in H. exact H.
Qed.

Lemma add_data s d mu m gs ls keys x : ok s -> d_graphs d (file_key n mu) = Stored gs -> starmap_method s runs mu m gs = Ok ls ->
  complete_data ok runs n d m keys x -> complete_data ok runs n d m (keys ++ [mu]) (x ++ [(mu, ls)]).
Proof.
  clear. intros Hs HG HM [H1 H2]. split; [rewrite map_app, H1; reflexivity|]. intros mu' ls' H. apply in_app_iff in H as [H|[H|[]]]; [auto|]. injection H as <- <-.
  apply starmap_method_ok in HM as [L1 L2]. exists gs. split; [exact HG|]. split; [exact L1|]. intros i b r A B. exists s. split; [exact Hs|]. eauto.
Qed.

Lemma has_key_in x mu : has_key x mu = true <-> In mu (map fst x).
Proof.
  clear. unfold has_key. rewrite existsb_exists, in_map_iff. split.
  - intros ([k v] & H & E). cbn in E. unfold Reqb in E. destruct (Req_EM_T k mu) as [->|]; [|discriminate]. exists (mu, v). auto.
  - intros ([k v] & <- & H). exists (k, v). split; [exact H|]. cbn. unfold Reqb. destruct (Req_EM_T k k); [reflexivity|contradiction].
Qed.

(** The dicts in memory continue what was stored at the start. *)
Definition resumes (d0 : disk) (st : four_plots) : Prop := forall x, d_partial d0 = Stored x -> continues x st.

Lemma run_mu_wp d0 s st mu keys d : ok s -> d_results d0 = Absent -> d_results d = Absent -> consistent d -> later d0 d -> complete_plots ok runs n d keys st -> resumes d0 st ->
  (exists k, (k < length mus)%nat /\ firstn (S k) mus = keys ++ [mu]) ->
  ~ In mu keys ->
  wp (run_mu s runs n st mu) (fun d' => consistent d' /\ later d0 d')
     (fun st' d' => consistent d' /\ later d0 d' /\ complete_plots ok runs n d' (keys ++ [mu]) st' /\ resumes d0 st' /\ d_results d' = d_results d /\ d_partial d' = Stored st' /\ continues st st') d.
Proof.
  intros Hs HR HRd HC HL HD HS (k & Hk & EK) HN. unfold run_mu. destruct st as [[[d1 d2] d3] d4]. destruct HD as (D1 & D2 & D3 & D4).
  destruct (has_key d1 mu) eqn:E. { exfalso. apply HN. apply has_key_in in E. rewrite (proj1 D1) in E. exact E. }
  apply wp_andThen. eapply wp_weaken.
  { apply generate_wp with (d0 := d0); auto. intros l b H1 H2. eapply ok_P; eauto. } { auto. }
  intros gs d' (C1 & L1 & G1 & EP & ER & EG). cbv beta.
  apply wp_andThen, wp_pure. intros l1 M1. apply wp_andThen, wp_pure. intros l2 M2. apply wp_andThen, wp_pure. intros l3 M3. apply wp_andThen, wp_pure. intros l4 M4.
  set (st' := (d1 ++ [(mu, l1)], d2 ++ [(mu, l2)], d3 ++ [(mu, l3)], d4 ++ [(mu, l4)])).
  assert (CP : complete_plots ok runs n d' (keys ++ [mu]) st').
  { split; [|split; [|split]]; eapply add_data; eauto; eapply data_grows; eauto. }
  assert (RS : resumes d0 st'). { intros x Hx. eapply continues_trans; [apply HS; exact Hx|]. exists [(mu, l1)], [(mu, l2)], [(mu, l3)], [(mu, l4)]. auto. }
  destruct L1 as (LA & LB & LC). destruct C1 as (CA & CB & CC).
  assert (X : forall f, (forall x, f = Stored x -> x = st') -> f <> Absent -> consistent (put_partial f d') /\ later d0 (put_partial f d')).
  { intros f Hf Hf'. split.
    - split; [exact CA|]. split; [|exact CC]. intros x Hx. cbn in Hx. apply Hf in Hx as ->. exists (S k). split; [lia|]. rewrite EK. exact CP.
    - split; [exact LA|]. split; [intros B; contradiction|]. split; [|intros _ _; cbn; congruence]. intros x Hx. cbn. destruct f as [| |y]; [contradiction|auto|]. right. exists y. split; [reflexivity|]. rewrite (Hf y eq_refl). apply RS. exact Hx. }
  destruct (X Torn) as [X1 X2]; [discriminate|discriminate|]. destruct (X (Stored st')) as [X3 X4]; [intros x Ex; injection Ex; auto|discriminate|].
  apply wp_andThen, wp_dump; auto. apply wp_ret. split; [exact X3|]. split; [exact X4|]. split; [exact CP|]. split; [exact RS|]. split; [exact ER|]. split; [reflexivity|].
  exists [(mu, l1)], [(mu, l2)], [(mu, l3)], [(mu, l4)]. auto.
Qed.

Lemma firstn_key (pre rest : list R) mu k : mus = pre ++ mu :: rest -> (length pre <= k)%nat -> (k <= length mus)%nat ->
  (In mu (firstn k mus) -> (length pre < k)%nat) /\ (~ In mu (firstn k mus) -> k = length pre).
Proof.
  intros E H1 H2. split.
  - intros HI. destruct (Nat.eq_dec k (length pre)) as [->|]; [|lia]. exfalso. rewrite E, firstn_app, firstn_all, Nat.sub_diag, firstn_O, app_nil_r in HI.
    rewrite E in mus_nd. apply NoDup_remove_2 in mus_nd. apply mus_nd. apply in_or_app. auto.
  - intros HI. destruct (Nat.eq_dec k (length pre)) as [|Nk]; [auto|]. exfalso. apply HI. rewrite E, firstn_app. apply in_or_app. right.
    destruct (k - length pre)%nat as [|j] eqn:EJ; [lia|]. cbn. auto.
Qed.

Lemma loop_wp d0 s : forall rest pre st d k, mus = pre ++ rest -> ok s -> d_results d0 = Absent -> d_results d = Absent -> consistent d -> later d0 d ->
  (length pre <= k)%nat -> (k <= length mus)%nat -> complete_plots ok runs n d (firstn k mus) st -> resumes d0 st ->
  wp (for_each (run_mu s runs n) rest st) (fun d' => consistent d' /\ later d0 d')
     (fun st' d' => consistent d' /\ later d0 d' /\ complete_plots ok runs n d' mus st' /\ resumes d0 st' /\ d_results d' = d_results d /\ continues st st' /\ (d_partial d' = Stored st' \/ st' = st /\ d_partial d' = d_partial d)) d.
Proof.
  induction rest as [|mu rest IH]; intros pre st d k E Hs HR HRd HC HL H1 H2 HD HS; cbn [for_each].
  - apply wp_ret. split; [exact HC|]. split; [exact HL|]. split; [|split; [exact HS|split; [reflexivity|split; [apply continues_refl|right; auto]]]].
    rewrite app_nil_r in E. subst pre. rewrite firstn_all2 in HD by lia. exact HD.
  - apply wp_andThen. destruct (@firstn_key pre rest mu k E H1 H2) as [F1 F2].
    destruct (in_dec Req_EM_T mu (firstn k mus)) as [HI|HI].
    + unfold run_mu at 1. destruct st as [[[d1 d2] d3] d4]. assert (HK : has_key d1 mu = true) by (apply has_key_in; rewrite (proj1 (proj1 HD)); exact HI). rewrite HK. apply wp_ret.
      apply IH with (pre := pre ++ [mu]) (k := k); auto.
      * rewrite <- app_assoc. exact E.
      * rewrite app_length. cbn [length]. specialize (F1 HI). lia.
    + assert (EL : length mus = (length pre + S (length rest))%nat) by (rewrite E, app_length; reflexivity).
      assert (EK : firstn (S k) mus = firstn k mus ++ [mu]).
      { rewrite (F2 HI), E. rewrite !firstn_app. rewrite firstn_all2 by lia. rewrite firstn_all. replace (S (length pre) - length pre)%nat with 1%nat by lia. rewrite Nat.sub_diag. cbn. rewrite app_nil_r. reflexivity. }
      eapply wp_weaken.
      { apply (@run_mu_wp d0 s st mu (firstn k mus) d Hs HR HRd HC HL HD HS); [|exact HI]. exists k. split; [rewrite (F2 HI); lia|exact EK]. } { auto. }
      intros st' d' (C1 & L1 & P1 & S1 & R1 & PP1 & K1). cbv beta. eapply wp_weaken.
      { apply IH with (pre := pre ++ [mu]) (k := S k); auto.
        - rewrite <- app_assoc. exact E.
        - congruence.
        - rewrite app_length. cbn [length]. rewrite (F2 HI). lia.
        - rewrite (F2 HI). lia.
        - rewrite EK. exact P1. } { auto. }
      intros st'' d'' (A1 & A2 & A3 & A4 & A5 & A6 & A7). split; [exact A1|]. split; [exact A2|]. split; [exact A3|]. split; [exact A4|]. split; [congruence|]. split; [eapply continues_trans; eauto|].
      left. destruct A7 as [A7|[-> A7]]; [exact A7|congruence].
Qed.

Lemma prepare_wp d0 s : ok s -> forall rest d, consistent d -> later d0 d ->
  wp (for_each (fun _ mu => do _ <- generate_LFR_graphs (se_prepare s mu) n mu; ret tt) rest tt) (fun d' => consistent d' /\ later d0 d')
     (fun _ d' => consistent d' /\ later d0 d' /\ grows d d' /\ d_partial d' = d_partial d /\ d_results d' = d_results d /\ forall mu, In mu rest -> exists l, d_graphs d' (file_key n mu) = Stored l) d.
Proof.
  intros Hs. induction rest as [|mu rest IH]; intros d HC HL; cbn [for_each].
  - apply wp_ret. split; [exact HC|]. split; [exact HL|]. split; [apply grows_refl|]. split; [reflexivity|]. split; [reflexivity|]. intros mu [].
  - apply wp_andThen, wp_andThen. eapply wp_weaken. { apply generate_wp with (d0 := d0); auto. intros l b H1 H2. eapply ok_P; eauto. } { auto. }
    intros gs d' (C1 & L1 & G1 & P1 & R1 & E1). cbv beta. apply wp_ret. eapply wp_weaken; [apply (IH d' C1 L1)|auto|].
    intros [] d'' (A1 & A2 & A3 & A4 & A5 & A6). split; [exact A1|]. split; [exact A2|]. split; [eapply grows_trans; eauto|]. split; [congruence|]. split; [congruence|].
    intros mu' [<-|H]; [exists gs; apply A3; exact E1|auto].
Qed.

Lemma main_wp s d0 : ok s -> consistent d0 ->
  wp (main s runs n mus) (fun d' => consistent d' /\ later d0 d')
     (fun x d' => consistent d' /\ later d0 d' /\ d_results d' = Stored x /\ (d_results d0 = Absent -> resumes d0 x /\ (d_partial d' = Stored x \/ mus = []))) d0.
Proof.
  intros Hs HC. unfold main.
  assert (HL : later d0 d0). { split; [apply grows_refl|]. split; [auto|]. split; [|auto]. intros x Hx. right. exists x. split; [exact Hx|apply continues_refl]. }
  apply wp_andThen. eapply wp_weaken; [apply (@prepare_wp d0 s Hs mus d0 HC HL)|auto|]. intros [] d (C1 & L1 & G1 & P1 & R1 & _). cbv beta.
  apply wp_andThen, wp_exists.
  - intros RA. apply wp_andThen. unfold run_experiment.
    assert (RA0 : d_results d0 = Absent) by congruence.
    assert (Go : forall st k, (k <= length mus)%nat -> complete_plots ok runs n d (firstn k mus) st -> resumes d0 st -> (d_partial d = Stored st \/ st = ([], [], [], []) /\ d_partial d = Absent) ->
      wp (do st' <- for_each (run_mu s runs n) mus st; dump put_results st') (fun d' => consistent d' /\ later d0 d')
        (fun _ d' => wp (load d_results) (fun d' => consistent d' /\ later d0 d') (fun x d' => consistent d' /\ later d0 d' /\ d_results d' = Stored x /\ (d_results d0 = Absent -> resumes d0 x /\ (d_partial d' = Stored x \/ mus = []))) d') d).
    { intros st k Hk HD HS HE. apply wp_andThen. eapply wp_weaken; [apply (@loop_wp d0 s mus [] st d k); auto; cbn [length]; lia|auto|].
      intros st' d' (C2 & L2 & D2 & S2 & R2 & _ & PX). cbv beta. destruct C2 as (CA & CB & CC). destruct L2 as (LA & LB & LC).
      assert (X : forall f, (forall x, f = Stored x -> x = st') -> consistent (put_results f d') /\ later d0 (put_results f d')).
      { intros f Hf. split; [split; [exact CA|split; [exact CB|]]|split; [exact LA|split; [intros B; contradiction|split; [exact (proj1 LC)|]]]].
        - intros x Hx. cbn in Hx. apply Hf in Hx as ->. exact D2.
        - intros _ HT. cbn in HT. exfalso. destruct PX as [PX|[-> PX]]; [congruence|]. destruct HE as [HE|[_ HE]]; congruence. }
      destruct (X Torn) as [X1 X2]; [discriminate|]. destruct (X (Stored st')) as [X3 X4]; [intros x Ex; injection Ex; auto|].
      apply wp_dump; auto. apply wp_load. intros x Hx. assert (x = st') by (cbn in Hx; injection Hx; auto). subst x. rewrite Hx. split; [exact X3|]. split; [exact X4|]. split; [reflexivity|]. intros _. split; [exact S2|].
      cbn. destruct PX as [PX|[-> PX]]; [auto|]. destruct HE as [HE|[-> _]]; [left; congruence|]. right. symmetry. apply (proj1 (proj1 D2)). }
    apply wp_andThen, wp_exists.
    + intros PA. apply wp_andThen, wp_ret. apply Go with (k := 0%nat); [lia| | |].
      * split; [|split; [|split]]; (split; [reflexivity|intros mu ls []]).
      * intros x Hx. congruence.
      * right. auto.
    + intros PN. apply wp_andThen, wp_load. intros st Est. destruct (proj1 (proj2 C1) st Est) as (k & Hk & HD). apply Go with (k := k); auto.
      intros x Hx. assert (x = st) by congruence. subst x. apply continues_refl.
  - intros RN. apply wp_andThen, wp_ret. apply wp_load. intros x Hx. split; [exact C1|]. split; [exact L1|]. split; [exact Hx|]. intros A. exfalso. apply RN. congruence.
Qed.

Lemma history_consistent d0 d : consistent d0 -> history ok runs n mus d0 d -> consistent d.
Proof.
  intros H0. induction 1 as [|s d d' Hs Hd IH Hin]; [exact H0|]. destruct Hin as [<-|Hin]; [exact IH|]. apply (proj1 (@main_wp s d Hs IH) d' Hin).
Qed.
Lemma reachable_consistent d : reachable ok runs n mus d -> consistent d.
Proof. apply history_consistent. split; [discriminate|]. split; discriminate. Qed.

(** ** Resuming *)
Lemma twp_wp {A} (x : act A) Inv Post (Post' : A -> disk -> Prop) d : twp x Post' d -> wp x Inv Post d -> twp x (fun a d' => Post a d' /\ Post' a d') d.
Proof. clear. intros (a & E & H) [_ H2]. exists a. split; [exact E|]. auto. Qed.

Lemma generate_twp batches mu d : d_graphs d (file_key n mu) <> Torn -> trials_succeed n batches ->
  twp (generate_LFR_graphs batches n mu) (fun _ d' => forall k, d_graphs d k <> Torn -> d_graphs d' k <> Torn) d.
Proof.
  clear. intros HT (before & after & -> & HB & HN). unfold generate_LFR_graphs. apply twp_andThen, twp_exists.
  destruct (d_graphs d (file_key n mu)) as [| |gs] eqn:E; [|contradiction|].
  - destruct (@collect_graphs_total n after before [] HB HN) as (gs & EC). pose proof (collect_graphs_done _ _ _ EC) as [L1 _].
    assert (LK : length (firstn n gs) = n) by (rewrite firstn_length; lia).
    apply twp_andThen. rewrite EC. apply twp_andThen, twp_stop. destruct (Nat.eqb_spec (length (firstn n gs)) n); [|contradiction].
    apply twp_dump. eapply twp_load; [apply put_graphs_same|]. intros k Hk. destruct (key_eqb k (file_key n mu)) eqn:Q; [apply key_eqb_eq in Q; subst k; rewrite put_graphs_same; discriminate|].
    rewrite put_graphs_other; [exact Hk|]. intros ->. rewrite (proj2 (key_eqb_eq _ _) eq_refl) in Q. discriminate.
  - apply twp_andThen, twp_ret. eapply twp_load; [exact E|]. auto.
Qed.

Lemma prepare_twp s : forall rest d, (forall mu, In mu rest -> trials_succeed n (se_prepare s mu)) -> (forall mu, In mu rest -> d_graphs d (file_key n mu) <> Torn) ->
  twp (for_each (fun _ mu => do _ <- generate_LFR_graphs (se_prepare s mu) n mu; ret tt) rest tt) (fun _ _ => True) d.
Proof.
  clear. induction rest as [|mu rest IH]; intros d H1 H2; cbn [for_each]; [apply twp_ret; exact I|].
  apply twp_andThen, twp_andThen. eapply twp_weaken; [apply generate_twp; [apply H2; left; reflexivity|apply H1; left; reflexivity]|].
  intros gs d' HT. cbv beta. apply twp_ret. apply IH; intros mu' Hm; [apply H1|apply HT; apply H2]; right; exact Hm.
Qed.

Lemma starmap_total s mu m gs : methods_answer P runs s -> In m ["modularity pruning"; "gamma sweep"; "modularity pruning ground truth K"; "ground truth gamma"]%string ->
  (forall b, In b gs -> P b) -> exists ls, starmap_method s runs mu m gs = Ok ls.
Proof.
  clear. intros HA Hm. unfold starmap_method, enumerate. generalize 0%nat. induction gs as [|g gs IH]; intros k HP; [exists []; reflexivity|].
  cbn [enumerate_from mapM fst snd]. destruct (HA mu m k g Hm (HP g (or_introl eq_refl))) as (r & Er). rewrite Er. cbn [bind].
  destruct (IH (S k)) as (ls & El); [intros b Hb; apply HP; right; exact Hb|]. rewrite El. cbn [bind]. eauto.
Qed.

Definition graphs_consistent (d : disk) : Prop := forall k l, d_graphs d k = Stored l -> length l = fst k /\ forall b, In b l -> P b.
Lemma run_mu_twp s st mu d : methods_answer P runs s -> graphs_consistent d -> (exists l, d_graphs d (file_key n mu) = Stored l) ->
  twp (run_mu s runs n st mu) (fun _ d' => d_graphs d' = d_graphs d) d.
Proof.
  clear ok_P mus_nd. intros HA HC (gs & EG). destruct (HC _ _ EG) as [_ HP]. unfold run_mu. destruct st as [[[d1 d2] d3] d4]. destruct (has_key d1 mu); [apply twp_ret; auto|].
  apply twp_andThen. unfold generate_LFR_graphs. apply twp_andThen, twp_exists. rewrite EG. apply twp_andThen, twp_ret. eapply twp_load; [exact EG|].
  destruct (@starmap_total s mu pruning gs HA) as (l1 & M1); [cbn; auto|exact HP|]. destruct (@starmap_total s mu sweep gs HA) as (l2 & M2); [cbn; auto|exact HP|].
  destruct (@starmap_total s mu pruning_K gs HA) as (l3 & M3); [cbn; auto|exact HP|]. destruct (@starmap_total s mu truth_gamma gs HA) as (l4 & M4); [cbn; auto|exact HP|].
  apply twp_andThen. apply (twp_pure _ _ M1). apply twp_andThen. apply (twp_pure _ _ M2). apply twp_andThen. apply (twp_pure _ _ M3). apply twp_andThen. apply (twp_pure _ _ M4).
  apply twp_andThen, twp_dump, twp_ret. reflexivity.
Qed.

Lemma loop_twp s : methods_answer P runs s -> forall rest st d, graphs_consistent d -> (forall mu, In mu rest -> exists l, d_graphs d (file_key n mu) = Stored l) ->
  twp (for_each (run_mu s runs n) rest st) (fun _ _ => True) d.
Proof.
  clear ok_P mus_nd. intros HA. induction rest as [|mu rest IH]; intros st d HC HG; cbn [for_each]; [apply twp_ret; exact I|].
  apply twp_andThen. eapply twp_weaken; [apply run_mu_twp; auto; apply HG; left; reflexivity|]. intros st' d' E. cbv beta. apply IH.
  - unfold graphs_consistent. rewrite E. exact HC.
  - intros mu' Hm. rewrite E. apply HG. right. exact Hm.
Qed.

Lemma main_twp s d : ok s -> consistent d -> intact n mus d -> (forall mu, In mu mus -> trials_succeed n (se_prepare s mu)) -> methods_answer P runs s ->
  exists x, snd (main s runs n mus d) = Done x.
Proof.
  intros Hs HC (I1 & I2 & I3) HT HA.
  assert (T : twp (main s runs n mus) (fun _ _ => True) d); [|destruct T as (x & E & _); exists x; exact E].
  unfold main. apply twp_andThen. assert (HL : later d d). { split; [apply grows_refl|]. split; [auto|]. split; [|auto]. intros x Hx. right. exists x. split; [exact Hx|apply continues_refl]. }
  eapply twp_weaken; [eapply twp_wp; [apply (@prepare_twp s mus d HT I1)|apply (@prepare_wp d s Hs mus d HC HL)]|].
  intros [] d1 [(C1 & L1 & G1 & P1 & R1 & EG) _]. cbv beta. apply twp_andThen, twp_exists. rewrite R1. destruct (d_results d) as [| |x] eqn:ER; [|contradiction|].
  - apply twp_andThen. unfold run_experiment. apply twp_andThen, twp_exists. rewrite P1.
    assert (Go : forall st, twp (do st' <- for_each (run_mu s runs n) mus st; dump put_results st') (fun _ d' => twp (load d_results) (fun _ _ => True) d') d1).
    { intros st. apply twp_andThen. eapply twp_weaken; [apply loop_twp; [exact HA|exact (proj1 C1)|exact EG]|]. intros st' d' _. cbv beta. apply twp_dump. eapply twp_load; [reflexivity|exact I]. }
    destruct (d_partial d) as [| |x] eqn:EP; [|contradiction|].
    + apply twp_andThen, twp_ret. apply Go.
    + apply twp_andThen. eapply twp_load; [exact P1|]. apply Go.
  - apply twp_andThen, twp_ret. eapply twp_load; [exact R1|exact I].
Qed.

End History.

(** ** Truncated files *)
Lemma generate_frame (Inv : disk -> Prop) (Post : list benchmark -> disk -> Prop) batches n mu d :
  (forall d f, d_graphs d (file_key n mu) = Absent -> Inv d -> Inv (put_graphs (file_key n mu) f d)) -> Inv d ->
  (forall gs d', Inv d' -> Post gs d') ->
  wp (generate_LFR_graphs batches n mu) Inv Post d.
Proof.
  intros HI Hd HP. unfold generate_LFR_graphs. apply wp_andThen, wp_exists.
  - intros HA. apply wp_andThen, wp_andThen, wp_stop. intros gs _. destruct (Nat.eqb _ _); [|apply wp_stop; discriminate]. apply wp_dump; [auto|auto|]. apply wp_load. intros gs' _. auto.
  - intros _. apply wp_andThen, wp_ret, wp_load. auto.
Qed.

Definition prepare (s : session) (n : nat) := for_each (fun (_ : unit) mu => do _ <- generate_LFR_graphs (se_prepare s mu) n mu; ret tt).
Lemma prepare_frame (Inv : disk -> Prop) s n : (forall d mu f, d_graphs d (file_key n mu) = Absent -> Inv d -> Inv (put_graphs (file_key n mu) f d)) ->
  forall rest d, Inv d -> wp (prepare s n rest tt) Inv (fun _ => Inv) d.
Proof.
  intros HI. induction rest as [|mu rest IH]; intros d Hd; unfold prepare; cbn [for_each]; [apply wp_ret; exact Hd|].
  apply wp_andThen, wp_andThen. apply generate_frame; auto. intros gs d' Hd'. apply wp_ret. apply IH. exact Hd'.
Qed.

Lemma partial_torn s runs n mus d : d_partial d = Torn -> d_results d = Absent ->
  wp (main s runs n mus) (fun d' => d_partial d' = Torn /\ d_results d' = Absent) (fun _ _ => False) d.
Proof.
  intros H1 H2. unfold main. apply wp_andThen. eapply wp_weaken; [apply (prepare_frame (fun d' => d_partial d' = Torn /\ d_results d' = Absent)); auto|auto|].
  intros [] d' [E1 E2]. cbv beta. apply wp_andThen, wp_exists; [|intros; contradiction]. intros _. apply wp_andThen. unfold run_experiment. apply wp_andThen, wp_exists; [congruence|].
  intros _. apply wp_andThen, wp_load. congruence.
Qed.
Lemma results_torn s runs n mus d : d_results d = Torn -> wp (main s runs n mus) (fun d' => d_results d' = Torn /\ d_partial d' = d_partial d) (fun _ _ => False) d.
Proof.
  intros H1. unfold main. apply wp_andThen. eapply wp_weaken; [apply (prepare_frame (fun d' => d_results d' = Torn /\ d_partial d' = d_partial d)); auto|auto|].
  intros [] d' [E1 E2]. cbv beta. apply wp_andThen, wp_exists; [congruence|]. intros _. apply wp_andThen, wp_ret, wp_load. congruence.
Qed.
Lemma graphs_torn s runs n mus d mu : In mu mus -> d_graphs d (file_key n mu) = Torn ->
  wp (main s runs n mus) (fun d' => d_graphs d' (file_key n mu) = Torn /\ d_results d' = d_results d /\ d_partial d' = d_partial d) (fun _ _ => False) d.
Proof.
  intros Hm H1. unfold main. apply wp_andThen. set (Inv := fun d' => d_graphs d' (file_key n mu) = Torn /\ d_results d' = d_results d /\ d_partial d' = d_partial d).
  assert (HI : forall d mu f, d_graphs d (file_key n mu) = Absent -> Inv d -> Inv (put_graphs (file_key n mu) f d)).
  { intros d1 m f HA (A & B & C). split; [|auto]. rewrite put_graphs_other; [exact A|]. intros E. congruence. }
  apply in_split in Hm as (pre & rest & ->). fold (prepare s n).
  assert (X : forall pre d, Inv d -> wp (prepare s n (pre ++ mu :: rest) tt) Inv (fun _ _ => False) d).
  { clear pre H1. intros pre. induction pre as [|m pre IH]; intros d1 Hd; unfold prepare; cbn [app for_each].
    - apply wp_andThen, wp_andThen. unfold generate_LFR_graphs. destruct Hd as (A & B & C). apply wp_andThen, wp_exists; [congruence|]. intros _. apply wp_andThen, wp_ret, wp_load. congruence.
    - apply wp_andThen, wp_andThen. apply generate_frame; auto. intros gs d2 Hd2. apply wp_ret. apply IH. exact Hd2. }
  eapply wp_weaken; [apply X; split; auto|auto|]. intros [] d' [].
Qed.

(** ** The crash window *)
Definition tears {A B} (get : disk -> file A) (x : act B) : Prop :=
  forall d, get (last_disk d (fst (x d))) = get d \/ exists d', In d' (fst (x d)) /\ get d' = Torn.
Lemma tears_andThen {A B C} (get : disk -> file A) (x : act B) (f : B -> act C) : tears get x -> (forall a, tears get (f a)) -> tears get (andThen x f).
Proof.
  intros H1 H2 d. specialize (H1 d). unfold andThen. destruct (x d) as [l e]. cbn [fst] in H1.
  destruct e as [a|e| |]; [|exact H1|exact H1|exact H1]. specialize (H2 a (last_disk d l)). destruct (f a (last_disk d l)) as [l' e']. cbn [fst] in *. rewrite last_app_disk.
  destruct H1 as [H1|(d' & A1 & A2)]; [|right; exists d'; split; [apply in_or_app; auto|exact A2]].
  destruct H2 as [H2|(d' & A1 & A2)]; [left; congruence|right; exists d'; split; [apply in_or_app; auto|exact A2]].
Qed.
Lemma tears_stop {A B} (get : disk -> file A) (e : ending B) : tears get (stop e).
Proof. intros d. left. reflexivity. Qed.
Lemma tears_ret {A B} (get : disk -> file A) (b : B) : tears get (ret b).
Proof. intros d. left. reflexivity. Qed.
Lemma tears_load {A B} (get : disk -> file A) (get' : disk -> file B) : tears get (load get').
Proof. intros d. left. reflexivity. Qed.
Lemma tears_exists {A B} (get : disk -> file A) (get' : disk -> file B) : tears get (exists_ get').
Proof. intros d. left. reflexivity. Qed.
Lemma tears_dump {A B} (get : disk -> file A) (put : file B -> disk -> disk) v : (forall d, get (put (Stored v) d) = get d) \/ (forall d, get (put Torn d) = Torn) -> tears get (dump put v).
Proof. intros [H|H] d; [left; apply H|right]. exists (put Torn d). split; [left; reflexivity|apply H]. Qed.
Lemma tears_for_each {A S} (get : disk -> file A) (body : S -> R -> act S) : (forall st mu, tears get (body st mu)) -> forall mus st, tears get (for_each body mus st).
Proof. intros H. induction mus as [|mu mus IH]; intros st; cbn [for_each]; [apply tears_ret|]. apply tears_andThen; auto. Qed.
Lemma tears_generate {A} (get : disk -> file A) batches n mu :
  (forall k v, tears get (dump (put_graphs k) v)) -> tears get (generate_LFR_graphs batches n mu).
Proof.
  intros H. apply tears_andThen; [apply tears_exists|]. intros [|].
  - apply tears_andThen; [apply tears_ret|]. intros _. apply tears_load.
  - apply tears_andThen; [|intros _; apply tears_load]. apply tears_andThen; [apply tears_stop|]. intros gs. cbv zeta. match goal with |- context [Nat.eqb ?a ?b] => destruct (Nat.eqb a b) end; [apply H|apply tears_stop].
Qed.
Lemma tears_main {A} (get : disk -> file A) s runs n mus :
  (forall k v, tears get (dump (put_graphs k) v)) -> (forall v, tears get (dump put_partial v)) -> (forall v, tears get (dump put_results v)) -> tears get (main s runs n mus).
Proof.
  intros H1 H2 H3. apply tears_andThen.
  { apply tears_for_each. intros st mu. apply tears_andThen; [apply tears_generate; exact H1|]. intros _. apply tears_ret. }
  intros _. apply tears_andThen; [apply tears_exists|]. intros there. apply tears_andThen; [|intros _; apply tears_load]. destruct there; [apply tears_ret|].
  apply tears_andThen; [apply tears_exists|]. intros there. apply tears_andThen; [destruct there; [apply tears_load|apply tears_ret]|]. intros st.
  apply tears_andThen; [|intros st'; apply H3]. apply tears_for_each. clear st. intros [[[d1 d2] d3] d4] mu. unfold run_mu. destruct (has_key d1 mu); [apply tears_ret|].
  apply tears_andThen; [apply tears_generate; exact H1|]. intros gs. do 4 (apply tears_andThen; [apply tears_stop|]; intros ?).
  apply tears_andThen; [apply H2|]. intros _. apply tears_ret.
Qed.
Lemma main_tears_results s runs n mus : tears d_results (main s runs n mus).
Proof. apply tears_main; intros; apply tears_dump; auto. Qed.
Lemma main_tears_partial s runs n mus : tears d_partial (main s runs n mus).
Proof. apply tears_main; intros; apply tears_dump; auto. Qed.
Lemma main_tears_graphs s runs n mus k : tears (fun d => d_graphs d k) (main s runs n mus).
Proof.
  apply tears_main; [intros k' v|intros; apply tears_dump; auto|intros; apply tears_dump; auto]. destruct (key_eqb k k') eqn:E; apply tears_dump.
  - apply key_eqb_eq in E. subst k'. right. intros d. apply put_graphs_same.
  - left. intros d. apply put_graphs_other. intros ->. rewrite (proj2 (key_eqb_eq _ _) eq_refl) in E. discriminate.
Qed.
