(** Leiden drivers: pool bookkeeping, result sets, layer splitting and its cache. *)
From Verif Require Import PyBase PyGraph M_partition M_pool M_leiden Spec Spec_leiden L_base L_canon L_parallel.
Set Implicit Arguments.
Open Scope nat_scope.

(** ** Chunks *)
Lemma chunked_fuel_concat {A} k : 1 <= k -> forall fuel (l : list A), length l <= fuel -> concat (chunked_fuel fuel k l) = l.
Proof.
  intros Hk. induction fuel as [|fuel IH]; intros l Hl; destruct l as [|a l]; simpl in *; auto; try lia.
  destruct k as [|k]; [lia|]. simpl. f_equal. rewrite IH; [apply firstn_skipn|]. rewrite skipn_length. lia.
Qed.
Lemma chunked_concat {A} k (l : list A) : 1 <= k -> concat (chunked k l) = l.
Proof. intros. apply chunked_fuel_concat; auto. Qed.
Lemma chunked_fuel_length {A} fuel k (l : list A) : length (chunked_fuel fuel k l) <= fuel.
Proof. revert l; induction fuel as [|fuel IH]; intros [|a l]; simpl; auto; try lia. specialize (IH (skipn k (a :: l))). lia. Qed.
Lemma chunked_length {A} k (l : list A) : length (chunked k l) <= length l.
Proof. apply chunked_fuel_length. Qed.

Lemma flat_map_nth {A B} (ls : list A) (f : nat -> A -> list B) : forall n, length ls <= n ->
  forall k, flat_map (fun j => match nth_error ls (j - k) with Some x => f j x | None => [] end) (seq k n)
  = flat_map (fun jx => f (k + fst jx) (snd jx)) (enumerate ls).
Proof.
  intros n Hn k. unfold enumerate.
  assert (G : forall m ls i, length ls <= m ->
     flat_map (fun j => match nth_error ls (j - i) with Some x => f j x | None => [] end) (seq i m)
     = flat_map (fun jx => f (fst jx) (snd jx)) (enumerate_from i ls)).
  { clear. induction m as [|m IH]; intros ls i Hm.
    - destruct ls; simpl in *; [auto|lia].
    - cbn [seq flat_map]. rewrite Nat.sub_diag. destruct ls as [|x ls].
      + assert (Z0 : forall l : list nat, flat_map (fun j => match nth_error (@nil A) (j - i) with Some x => f j x | None => [] end) l = []).
        { induction l as [|a l IHl]; cbn [flat_map]; auto. rewrite IHl. destruct (a - i); reflexivity. }
        rewrite Z0. reflexivity.
      + cbn [nth_error enumerate_from flat_map]. f_equal. simpl in Hm. rewrite <- (IH ls (S i)) by lia. rewrite !flat_map_concat_map. f_equal. apply map_ext_in.
        intros j Hj. apply in_seq in Hj. replace (j - i) with (S (j - S i)) by lia. reflexivity. }
  rewrite (G n ls k Hn). rewrite !flat_map_concat_map. f_equal. clear.
  assert (forall i, map (fun jx => f (fst jx) (snd jx)) (enumerate_from (k + i) ls) = map (fun jx => f (k + fst jx) (snd jx)) (enumerate_from i ls)).
  { induction ls as [|x ls IH]; intros i; simpl; auto. f_equal. rewrite <- IH. replace (k + S i) with (S (k + i)) by lia. reflexivity. }
  rewrite <- H. rewrite Nat.add_0_r. reflexivity.
Qed.

Lemma flat_map_perm {A B} (f : A -> list B) l l' : Permutation l l' -> Permutation (flat_map f l) (flat_map f l').
Proof.
  induction 1; simpl; auto.
  - apply Permutation_app_head; auto.
  - rewrite !app_assoc. apply Permutation_app_tail, Permutation_app_comm.
  - etransitivity; eauto.
Qed.

Lemma imap_events {A B} (k : nat) order (run : nat -> list (nat * A) -> list (nat * A * res B)) (tasks : list A) (out : nat * A -> res B) :
  1 <= k -> Permutation order (seq 0 (length tasks)) ->
  (forall j ch, nth_error (chunked k (enumerate tasks)) j = Some ch -> run j ch = map (fun it => (it, out it)) ch) ->
  exists its, Permutation its (enumerate tasks) /\ imap_unordered k order run tasks = Ok (map (fun it => (it, out it)) its).
Proof.
  intros Hk Ho Hrun. unfold imap_unordered. destruct (Nat.ltb_spec k 1); [lia|].
  set (chs := chunked k (enumerate tasks)) in *.
  exists (flat_map (fun j => match nth_error chs j with Some ch => ch | None => [] end) order). split.
  - rewrite (flat_map_perm _ Ho).
    assert (Hl : length chs <= length tasks).
    { unfold chs. rewrite chunked_length. unfold enumerate. rewrite enumerate_from_length. auto. }
    pose proof (flat_map_nth chs (fun _ ch => ch) Hl 0) as E.
    replace (flat_map (fun j => match nth_error chs j with Some ch => ch | None => [] end) (seq 0 (length tasks)))
      with (flat_map (fun j => match nth_error chs (j - 0) with Some ch => ch | None => [] end) (seq 0 (length tasks))).
    2: { rewrite !flat_map_concat_map. f_equal. apply map_ext. intros j. rewrite Nat.sub_0_r. auto. }
    rewrite E. rewrite flat_map_concat_map. unfold enumerate at 1. rewrite enumerate_from_map_snd. unfold chs. rewrite chunked_concat by auto. auto.
  - f_equal. clear Ho. induction order as [|j order IH]; simpl; auto. rewrite map_app, IH. f_equal.
    destruct (nth_error chs j) eqn:E; auto.
Qed.

(** ** Result sets *)
Lemma same_partition_Z m (t : list nat) : same_partition (map Z.of_nat m) t <-> same_partition m t.
Proof.
  unfold same_partition. rewrite map_length. split; intros [H1 H2]; split; auto; intros i j a a' b b' Ha Ha' Hb Hb'.
  - rewrite <- (H2 i j (Z.of_nat a) (Z.of_nat a') b b'); auto; try (apply map_nth_error; auto). lia.
  - rewrite nth_error_map in Ha, Ha'. destruct (nth_error m i) as [x|] eqn:Ex; [|discriminate]. destruct (nth_error m j) as [y|] eqn:Ey; [|discriminate].
    inversion Ha; inversion Ha'; subst. rewrite <- (H2 i j x y b b'); auto. lia.
Qed.

Lemma sorted_tuple_form m t : sorted_tuple (map Z.of_nat m) = Ok t <-> canonical_form_of m t.
Proof.
  split.
  - intros H. split; [|eapply sorted_tuple_canonical; eauto]. apply same_partition_Z, sorted_tuple_same_partition; auto.
  - intros [H1 H2]. destruct (sorted_tuple_total (map Z.of_nat m)) as [c Hc]. rewrite Hc. f_equal.
    apply canonical_unique; auto; [eapply sorted_tuple_canonical; eauto|].
    apply sorted_tuple_same_partition in Hc. apply same_partition_Z in Hc.
    destruct Hc as [L1 S1], H1 as [L2 S2]. split; [lia|]. intros i j a a' b b' Ha Ha' Hb Hb'.
    destruct (nth_error m i) as [x|] eqn:Ex.
    2: { apply nth_error_None in Ex. assert (nth_error c i <> None) by congruence. apply nth_error_Some in H. lia. }
    destruct (nth_error m j) as [y|] eqn:Ey.
    2: { apply nth_error_None in Ey. assert (nth_error c j <> None) by congruence. apply nth_error_Some in H. lia. }
    rewrite <- (S1 i j x y a a'), <- (S2 i j x y b b'); tauto.
Qed.

Lemma set_add_in t x s : In t (set_add x s) <-> t = x \/ In t s.
Proof. unfold set_add. destruct (in_dec tuple_eq_dec x s); simpl; intuition; subst; auto. Qed.
Lemma set_add_nodup x s : NoDup s -> NoDup (set_add x s).
Proof. intros H. unfold set_add. destruct (in_dec tuple_eq_dec x s); auto. constructor; auto. Qed.

Section Collect.
Context {A : Type}.
Variable out : nat * A -> res (list nat).
Let body := fun total (ev : nat * A * res (list nat)) => let! m := snd ev in let! t := sorted_tuple (map Z.of_nat m) in Ok (set_add t total).

Lemma collect_loop its : forall acc, NoDup acc -> (forall it, In it its -> exists m, out it = Ok m) ->
  exists s, foldM body (map (fun it => (it, out it)) its) acc = Ok s /\ NoDup s /\
    forall t, In t s <-> In t acc \/ exists it m, In it its /\ out it = Ok m /\ canonical_form_of m t.
Proof.
  induction its as [|it its IH]; intros acc Hn H; cbn [map foldM].
  - exists acc. split; auto. split; auto. intros t. split; auto. intros [|(it & m & [] & _)]; auto.
  - unfold body at 1. cbn [snd]. destruct (H it (or_introl eq_refl)) as [m Hm]. rewrite Hm. cbn [bind].
    destruct (sorted_tuple_total (map Z.of_nat m)) as [c Hc]. rewrite Hc. cbn [bind].
    destruct (IH (set_add c acc)) as (s & Hs & Hns & Hin); [apply set_add_nodup; auto|intros; apply H; simpl; auto|].
    exists s. split; auto. split; auto. intros t. rewrite Hin, set_add_in. split.
    + intros [[->|Hi]|(it' & m' & Hi & Hm' & Hf)]; auto.
      * right. exists it, m. simpl. split; auto. split; auto. apply sorted_tuple_form; auto.
      * right. exists it', m'. simpl. auto.
    + intros [Hi|(it' & m' & [<-|Hi] & Hm' & Hf)]; auto.
      * left; left. rewrite Hm in Hm'. inversion Hm'; subst. apply sorted_tuple_form in Hf. congruence.
      * right. eauto.
Qed.

Lemma collect_ok its : (forall it, In it its -> exists m, out it = Ok m) ->
  exists s, collect (map (fun it => (it, out it)) its) = Ok s /\ NoDup s /\
    forall t, In t s <-> exists it m, In it its /\ out it = Ok m /\ canonical_form_of m t.
Proof.
  intros H. destruct (@collect_loop its [] (NoDup_nil _) H) as (s & Hs & Hn & Hin). exists s. split; auto. split; auto.
  intros t. rewrite Hin. simpl. tauto.
Qed.

Lemma collect_raise its it e : In it its -> out it = Raise e ->
  exists it' e', In it' its /\ out it' = Raise e' /\ collect (map (fun it => (it, out it)) its) = Raise e'.
Proof.
  unfold collect. fold body. generalize (@nil (list nat)). induction its as [|i its IH]; intros acc Hin He; [destruct Hin|].
  destruct Hin as [<-|Hin]; cbn [map foldM]; unfold body at 1; cbn [snd].
  - rewrite He. cbn [bind]. exists i, e. simpl. auto.
  - destruct (out i) as [m|e'] eqn:Ei; cbn [bind].
    + destruct (sorted_tuple_total (map Z.of_nat m)) as [c Hc]. rewrite Hc. cbn [bind].
      destruct (IH (set_add c acc) Hin He) as (it' & e' & Hi & Ho & Hr). exists it', e'. simpl. auto.
    + exists i, e'. simpl. auto.
Qed.
End Collect.

(** ** Weights *)
Lemma cycle_take_repeat {A} (x : A) n : forall k m, n > 0 -> cycle_take (repeat x n) (repeat x m) k = repeat x k.
Proof.
  induction k as [|k IH]; intros m Hn; simpl; auto. destruct m as [|m]; simpl.
  - destruct n as [|n]; [lia|]. simpl. f_equal. apply (IH n). lia.
  - f_equal. apply IH; auto.
Qed.

Lemma set_weights_ones g n : (edges g <> [] -> n > 0) ->
  set_weights g (repeat 1%R n) = Ok (mkGraph (vcount g) (directed g) (edges g) (Some (repeat 1%R (ecount g)))).
Proof.
  intros H. unfold set_weights. destruct (edges g) as [|e E] eqn:Ee.
  - unfold ecount. rewrite Ee. simpl. destruct (repeat 1%R n); reflexivity.
  - destruct n as [|n]; [specialize (H ltac:(discriminate)); lia|]. cbn [repeat]. repeat f_equal.
    change (1%R :: repeat 1%R n) with (repeat 1%R (S n)). apply cycle_take_repeat. lia.
Qed.

Lemma default_weights_total env g : default_weights env g =
  Ok (if le_contains env g then g else mkGraph (vcount g) (directed g) (edges g) (Some (repeat 1%R (ecount g)))).
Proof.
  unfold default_weights. destruct (le_contains env g); auto. apply set_weights_ones. unfold ecount. destruct (edges g); simpl; [congruence|lia].
Qed.

Definition weighted env g : graph := if le_contains env g then g else mkGraph (vcount g) (directed g) (edges g) (Some (repeat 1%R (ecount g))).

Lemma weighted_idem env g : weighted env (weighted env g) = weighted env g.
Proof. unfold weighted. destruct (le_contains env g) eqn:E; [rewrite E; auto|].
  destruct (le_contains env (mkGraph (vcount g) (directed g) (edges g) (Some (repeat 1%R (ecount g))))); reflexivity. Qed.

Lemma singlelayer_out env k g gamma : singlelayer_leiden env k g gamma = (weighted env g, le_find env k (mkVP RBConfiguration (weighted env g) gamma)).
Proof. unfold singlelayer_leiden. rewrite default_weights_total. reflexivity. Qed.

(** ** Single layer drivers *)
Lemma chunk_size_pos cpus len : 1 <= pool_chunk_size cpus len.
Proof. unfold pool_chunk_size. lia. Qed.

Lemma run_chunk_single_eq env ch : forall g,
  run_chunk_single env g ch = map (fun it => (it, snd (singlelayer_leiden env (fst it) g (snd it)))) ch.
Proof.
  induction ch as [|[k gamma] ch IH]; intros g; cbn [run_chunk_single map]; auto. rewrite singlelayer_out. cbv beta iota. cbn [fst snd].
  rewrite IH. rewrite singlelayer_out. f_equal. apply map_ext. intros it. rewrite !singlelayer_out, weighted_idem. reflexivity.
Qed.

Lemma parallel_single env cpus order g gammas show : Permutation order (seq 0 (length gammas)) ->
  exists its, Permutation its (enumerate gammas) /\
    repeated_parallel_leiden_from_gammas env cpus order g gammas show =
    (its, collect (map (fun it => (it, snd (singlelayer_leiden env (fst it) g (snd it)))) its)).
Proof.
  intros Ho. unfold repeated_parallel_leiden_from_gammas.
  destruct (@imap_events R (list nat) (pool_chunk_size cpus (length gammas)) order
    (fun _ ch => run_chunk_single env g ch) gammas
    (fun it => snd (singlelayer_leiden env (fst it) g (snd it)))) as (its & Hp & E); auto using chunk_size_pos, run_chunk_single_eq.
  rewrite E. exists its. split; auto. rewrite map_map. cbn [fst]. rewrite map_id. reflexivity.
Qed.

Lemma serial_single_ok env : forall gammas k g acc, NoDup acc ->
  (forall it, In it (enumerate_from k gammas) -> exists m, snd (singlelayer_leiden env (fst it) g (snd it)) = Ok m) ->
  exists g' s, leiden_serial_loop env k g gammas acc = (g', Ok s) /\ NoDup s /\
    forall t, In t s <-> In t acc \/ exists it m, In it (enumerate_from k gammas) /\ snd (singlelayer_leiden env (fst it) g (snd it)) = Ok m /\ canonical_form_of m t.
Proof.
  induction gammas as [|gamma gammas IH]; intros k g acc Hn H; cbn [leiden_serial_loop enumerate_from].
  - exists g, acc. split; auto. split; auto. intros t. split; auto. intros [|(it & m & [] & _)]; auto.
  - destruct (H (k, gamma) (or_introl eq_refl)) as [m Hm]. rewrite singlelayer_out in Hm |- *. cbn [fst snd] in Hm. rewrite Hm. cbn [bind].
    destruct (sorted_tuple_total (map Z.of_nat m)) as [c Hc]. rewrite Hc.
    destruct (IH (S k) (weighted env g) (set_add c acc)) as (g' & s & Hs & Hns & Hin); [apply set_add_nodup; auto| |].
    { intros it Hit. destruct (H it (or_intror Hit)) as [m' Hm']. exists m'. rewrite singlelayer_out in *. cbn [snd] in *. rewrite weighted_idem. auto. }
    exists g', s. split; auto. split; auto. intros t. rewrite Hin, set_add_in. split.
    + intros [[->|Hi]|(it' & m' & Hi & Hm' & Hf)]; auto.
      * right. exists (k, gamma), m. split; [left; auto|]. rewrite singlelayer_out. cbn [fst snd]. split; auto. apply sorted_tuple_form; auto.
      * right. exists it', m'. split; [right; auto|]. rewrite singlelayer_out in *. cbn [snd] in *. rewrite weighted_idem in Hm'. auto.
    + intros [Hi|(it' & m' & [<-|Hi] & Hm' & Hf)]; auto.
      * left; left. rewrite singlelayer_out in Hm'. cbn [fst snd] in Hm'. rewrite Hm in Hm'. inversion Hm'; subst. apply sorted_tuple_form in Hf. congruence.
      * right. exists it', m'. split; auto. rewrite singlelayer_out in *. cbn [snd] in *. rewrite weighted_idem. auto.
Qed.
