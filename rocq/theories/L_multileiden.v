(** Multilayer Leiden drivers. *)
From Verif Require Import PyBase PyGraph M_partition M_pool M_leiden Spec Spec_leiden L_base L_canon L_parallel L_leiden L_split.
Set Implicit Arguments.
Open Scope nat_scope.

Lemma weighted_defaulted env g : weights_defaulted (le_contains env g) g (weighted env g).
Proof.
  unfold weights_defaulted, weighted. destruct (le_contains env g); auto. cbn. repeat split; auto.
  exists (repeat 1%R (ecount g)). split; auto. split; [apply repeat_length|]. intros w H. apply repeat_spec in H. auto.
Qed.
Lemma defaulted_unique b g g1 g2 : weights_defaulted b g g1 -> weights_defaulted b g g2 -> g1 = g2.
Proof.
  unfold weights_defaulted. destruct b; [congruence|]. intros (A & B & C & ws & D & E & F) (A' & B' & C' & ws' & D' & E' & F').
  destruct g1, g2. cbn in *. subst. f_equal. f_equal.
  assert (G : forall ws ws' : list R, length ws = length ws' -> (forall w, In w ws -> w = 1%R) -> (forall w, In w ws' -> w = 1%R) -> ws = ws').
  { clear. induction ws as [|a ws IH]; intros [|b ws'] Hl H1 H2; simpl in *; try discriminate; auto. f_equal; [|apply IH; auto].
    rewrite (H1 a), (H2 b); auto. }
  apply G; auto. lia.
Qed.
Lemma defaulted_weighted env g g' : weights_defaulted (le_contains env g) g g' -> g' = weighted env g.
Proof. intros H. eapply defaulted_unique; eauto using weighted_defaulted. Qed.

(** *** heaps *)
Lemma heap_set_nth h : forall i j g, nth_error (heap_set h i g) j = if Nat.eq_dec i j then (if lt_dec i (length h) then Some g else None) else nth_error h j.
Proof.
  induction h as [|x h IH]; intros [|i] [|j] g; cbn [heap_set nth_error length]; auto.
  - destruct (Nat.eq_dec (S i) (S j)); auto.
  - rewrite IH. destruct (Nat.eq_dec i j), (Nat.eq_dec (S i) (S j)); try lia; auto. destruct (lt_dec i (length h)), (lt_dec (S i) (S (length h))); auto; lia.
Qed.
Lemma heap_set_same h : forall i g, nth_error h i = Some g -> heap_set h i g = h.
Proof. induction h as [|x h IH]; intros [|i] g H; simpl in *; try discriminate; [inversion H; auto|]. rewrite IH; auto. Qed.

Lemma default_weights_at_ok env w gid g : nth_error (heap w) gid = Some g ->
  default_weights_at env w gid = Ok (mkWorld (heap_set (heap w) gid (weighted env g)) (cache w)).
Proof. intros H. unfold default_weights_at, py_get. rewrite H. cbn [bind]. rewrite default_weights_total. reflexivity. Qed.

(** An entry of the cache that would be used for graph [g] (object [gid]) holds its layers. *)
Definition up_to_date (c : split_cache) (gid : nat) (g : graph) (lv : list nat) : Prop :=
  forall v, In (key_of gid g lv, v) c -> split_of g lv = Ok v.

Definition multi_outcome env k (r : res (list graph)) (ge : graph) (gamma omega : R) : res (list nat) :=
  let! layers := r in le_multiplex env k (multiplex_objective layers ge gamma omega).

Lemma split_through_cache w gid g lv : nth_error (heap w) gid = Some g -> up_to_date (cache w) gid g lv ->
  exists c, split_intralayer_leiden_graph w gid lv = (mkWorld (heap w) c, split_of g lv) /\ up_to_date c gid g lv.
Proof.
  intros Hg Hc. unfold split_intralayer_leiden_graph, py_get, lru_call. rewrite Hg.
  destruct (lru_find split_key_eqb (cache w) (key_of gid g lv)) as [v|] eqn:Ef.
  - pose proof (Hc v (lru_find_in _ _ Ef)) as Hv. eexists. split; [rewrite Hv; reflexivity|].
    intros v' [E|Hi]; [inversion E; subst; auto|]. apply (@lru_remove_incl split_key (list graph)) in Hi. apply Hc; auto.
  - rewrite (split_at _ _ _ Hg). destruct (split_of g lv) as [v|e] eqn:Es.
    + eexists. split; [reflexivity|]. cbn [firstn]. intros v' [E|[]]. inversion E; subst. auto.
    + eexists. split; [reflexivity|]. intros v Hv. apply Hc in Hv. congruence.
Qed.

Lemma multilayer_step env k w a b g ge lv gamma omega : a <> b ->
  nth_error (heap w) a = Some g -> nth_error (heap w) b = Some ge ->
  up_to_date (cache w) a (weighted env g) lv ->
  exists c, multilayer_leiden env k w a b lv gamma omega =
      (mkWorld (heap_set (heap_set (heap w) a (weighted env g)) b (weighted env ge)) c,
       multi_outcome env k (split_of (weighted env g) lv) (weighted env ge) gamma omega) /\
    up_to_date c a (weighted env g) lv.
Proof.
  intros Hab Ha Hb Hc. unfold multilayer_leiden.
  rewrite (default_weights_at_ok env w a Ha).
  assert (Hb1 : nth_error (heap_set (heap w) a (weighted env g)) b = Some ge).
  { rewrite heap_set_nth. destruct (Nat.eq_dec a b); [congruence|auto]. }
  rewrite (default_weights_at_ok env (mkWorld _ (cache w)) b Hb1). cbn [heap cache].
  set (h2 := heap_set (heap_set (heap w) a (weighted env g)) b (weighted env ge)).
  assert (Ha2 : nth_error h2 a = Some (weighted env g)).
  { unfold h2. rewrite heap_set_nth. destruct (Nat.eq_dec b a); [congruence|]. rewrite heap_set_nth. destruct (Nat.eq_dec a a); [|congruence].
    destruct (lt_dec a (length (heap w))); auto. exfalso. apply n0. apply nth_error_Some. congruence. }
  assert (Hb2 : nth_error h2 b = Some (weighted env ge)).
  { unfold h2. rewrite heap_set_nth. destruct (Nat.eq_dec b b); [|congruence]. destruct (lt_dec b _) as [|Hn]; auto. exfalso. apply Hn.
    apply nth_error_Some. congruence. }
  destruct (@split_through_cache (mkWorld h2 (cache w)) a (weighted env g) lv Ha2 Hc) as (c & Es & Hc'). rewrite Es. cbn [heap].
  exists c. split; auto. unfold py_get. rewrite Hb2. destruct (split_of (weighted env g) lv) as [layers|e]; reflexivity.
Qed.

Lemma run_chunk_eq env lv g ge : forall ch w, nth_error (heap w) 0 = Some g -> nth_error (heap w) 1 = Some ge ->
  up_to_date (cache w) 0 (weighted env g) lv ->
  run_chunk env w lv ch = map (fun it => (it, multi_outcome env (fst it) (split_of (weighted env g) lv) (weighted env ge) (fst (snd it)) (snd (snd it)))) ch.
Proof.
  intros ch. revert g ge. induction ch as [|[k [gamma omega]] ch IH]; intros g ge w Ha Hb Hc; cbn [run_chunk map]; auto.
  destruct (@multilayer_step env k w 0 1 g ge lv gamma omega ltac:(lia) Ha Hb Hc) as (c & E & Hc'). rewrite E. cbv beta iota. cbn [fst snd]. f_equal.
  rewrite (IH (weighted env g) (weighted env ge)).
  - rewrite !weighted_idem. reflexivity.
  - cbn [heap]. rewrite !heap_set_nth. cbn. destruct (lt_dec 0 (length (heap w))) as [|Hn]; auto. exfalso; apply Hn, nth_error_Some; congruence.
  - cbn [heap]. rewrite heap_set_nth. cbn. destruct (lt_dec 1 _) as [|Hn]; auto. exfalso; apply Hn. apply nth_error_Some.
    rewrite heap_set_nth. destruct (Nat.eq_dec 0 1); [lia|congruence].
  - cbn [cache]. rewrite weighted_idem. auto.
Qed.

Lemma driver_collects {A} (out : nat -> A -> res (list nat)) (tasks : list A) its :
  Permutation its (enumerate tasks) -> collects out tasks (collect (map (fun it => (it, out (fst it) (snd it))) its)).
Proof.
  intros Hp. split.
  - intros H. destruct (@collect_ok A (fun it => out (fst it) (snd it)) its) as (s & Hs & Hn & Hin).
    { intros [i x] Hi. apply (Permutation_in _ Hp) in Hi. apply in_enumerate in Hi. apply (H i x Hi). }
    exists s. split; auto. split; auto. intros t. rewrite Hin. split.
    + intros ([i x] & m & Hi & Hm & Hf). apply (Permutation_in _ Hp) in Hi. apply in_enumerate in Hi. exists i, x, m. auto.
    + intros (i & x & m & Hi & Hm & Hf). exists (i, x), m. split; auto. apply (Permutation_in _ (Permutation_sym Hp)). apply in_enumerate. auto.
  - intros (i & x & e & Hi & He).
    destruct (@collect_raise A (fun it => out (fst it) (snd it)) its (i, x) e) as ([i' x'] & e' & Hi' & He' & Hr); auto.
    { apply (Permutation_in _ (Permutation_sym Hp)). apply in_enumerate. auto. }
    exists i', x', e'. apply (Permutation_in _ Hp) in Hi'. apply in_enumerate in Hi'. auto.
Qed.

(** *** C05 *)
Lemma parallel_gammas env cpus order g g' gammas show : Permutation order (seq 0 (length gammas)) ->
  weights_defaulted (le_contains env g) g g' ->
  Permutation (fst (repeated_parallel_leiden_from_gammas env cpus order g gammas show)) (enumerate gammas) /\
  collects (fun i gamma => le_find env i (mkVP RBConfiguration g' gamma)) gammas
    (snd (repeated_parallel_leiden_from_gammas env cpus order g gammas show)).
Proof.
  intros Ho Hd. destruct (@parallel_single env cpus order g gammas show Ho) as (its & Hp & ->). cbn [fst snd]. split; auto.
  apply defaulted_weighted in Hd. subst g'.
  replace (map (fun it => (it, snd (singlelayer_leiden env (fst it) g (snd it)))) its)
    with (map (fun it : nat * R => (it, (fun i gamma => le_find env i (mkVP RBConfiguration (weighted env g) gamma)) (fst it) (snd it))) its).
  2: { apply map_ext. intros it. rewrite singlelayer_out. reflexivity. }
  exact (driver_collects (fun i gamma => le_find env i (mkVP RBConfiguration (weighted env g) gamma)) gammas Hp).
Qed.

Lemma serial_gammas_raise env : forall gammas k g acc,
  (exists it e, In it (enumerate_from k gammas) /\ le_find env (fst it) (mkVP RBConfiguration (weighted env g) (snd it)) = Raise e) ->
  exists it e, In it (enumerate_from k gammas) /\ le_find env (fst it) (mkVP RBConfiguration (weighted env g) (snd it)) = Raise e /\
    snd (leiden_serial_loop env k g gammas acc) = Raise e.
Proof.
  induction gammas as [|gamma gammas IH]; intros k g acc (it & e & Hi & He); [destruct Hi|]. cbn [leiden_serial_loop enumerate_from] in *.
  rewrite singlelayer_out. cbv beta iota.
  destruct (le_find env k (mkVP RBConfiguration (weighted env g) gamma)) as [m|e0] eqn:Em; cbn [bind].
  - destruct (sorted_tuple_total (map Z.of_nat m)) as [c Hc]. rewrite Hc.
    destruct Hi as [<-|Hi]; [cbn [fst snd] in He; congruence|].
    destruct (IH (S k) (weighted env g) (set_add c acc)) as (it' & e' & Hi' & He' & Hr).
    { exists it, e. rewrite weighted_idem. auto. }
    rewrite weighted_idem in He'. exists it', e'. split; [right; auto|]. auto.
  - exists (k, gamma), e0. split; [left; auto|]. auto.
Qed.

Lemma serial_gammas env g g' gammas : weights_defaulted (le_contains env g) g g' ->
  collects (fun i gamma => le_find env i (mkVP RBConfiguration g' gamma)) gammas (snd (repeated_leiden_from_gammas env g gammas)).
Proof.
  intros Hd. apply defaulted_weighted in Hd. subst g'. unfold repeated_leiden_from_gammas. split.
  - intros H. destruct (@serial_single_ok env gammas 0 g [] (NoDup_nil _)) as (g1 & s & -> & Hn & Hin).
    { intros [i x] Hi. apply in_enumerate in Hi. rewrite singlelayer_out. cbn [fst snd]. eauto. }
    exists s. cbn [snd]. split; auto. split; auto. intros t. rewrite Hin. split.
    + intros [[]|([i x] & m & Hi & Hm & Hf)]. apply in_enumerate in Hi. rewrite singlelayer_out in Hm. exists i, x, m. auto.
    + intros (i & x & m & Hi & Hm & Hf). right. exists (i, x), m. rewrite singlelayer_out. split; [apply in_enumerate; auto|auto].
  - intros (i & x & e & Hi & He). destruct (@serial_gammas_raise env gammas 0 g []) as ([i' x'] & e' & Hi' & He' & Hr).
    { exists (i, x), e. split; auto. apply in_enumerate. auto. }
    apply in_enumerate in Hi'. exists i', x', e'. auto.
Qed.

(** *** C06 *)
Lemma parallel_grid env wc cpus order g ge lv gammas omegas show :
  Permutation order (seq 0 (length (grid gammas omegas))) ->
  (forall j, up_to_date (wc j) 0 (weighted env g) lv) ->
  Permutation (fst (repeated_parallel_leiden_from_gammas_omegas env wc cpus order g ge lv gammas omegas show)) (enumerate (grid gammas omegas)) /\
  collects (fun i x => multi_outcome env i (split_of (weighted env g) lv) (weighted env ge) (fst x) (snd x)) (grid gammas omegas)
    (snd (repeated_parallel_leiden_from_gammas_omegas env wc cpus order g ge lv gammas omegas show)).
Proof.
  intros Ho Hwc. unfold repeated_parallel_leiden_from_gammas_omegas. set (out := fun i (x : R * R) => multi_outcome env i (split_of (weighted env g) lv) (weighted env ge) (fst x) (snd x)).
  destruct (@imap_events (R * R) (list nat) (pool_chunk_size cpus (length (grid gammas omegas))) order
    (fun j ch => run_chunk env (mkWorld [g; ge] (wc j)) lv ch) (grid gammas omegas) (fun it => out (fst it) (snd it))) as (its & Hp & E);
    auto using chunk_size_pos.
  { intros j ch _. apply run_chunk_eq; auto. apply Hwc. }
  rewrite E. cbn [fst snd]. rewrite map_map. cbn [fst]. rewrite map_id. split; auto. apply driver_collects. auto.
Qed.

Lemma serial_grid_loop env lv a b : a <> b -> forall points k w g ge acc, nth_error (heap w) a = Some g -> nth_error (heap w) b = Some ge ->
  up_to_date (cache w) a (weighted env g) lv ->
  snd (multilayer_serial_loop env k w a b lv points acc) =
  foldM (fun total (ev : nat * (R * R) * res (list nat)) => let! m := snd ev in let! t := sorted_tuple (map Z.of_nat m) in Ok (set_add t total))
    (map (fun it => (it, multi_outcome env (fst it) (split_of (weighted env g) lv) (weighted env ge) (fst (snd it)) (snd (snd it)))) (enumerate_from k points)) acc.
Proof.
  intros Hab. induction points as [|[gamma omega] points IH]; intros k w g ge acc Ha Hb Hc; cbn [multilayer_serial_loop enumerate_from map foldM]; auto.
  destruct (@multilayer_step env k w a b g ge lv gamma omega Hab Ha Hb Hc) as (c & E & Hc'). rewrite E. cbv beta iota. cbn [fst snd].
  destruct (multi_outcome env k _ _ gamma omega) as [m|e]; cbn [bind]; auto.
  destruct (sorted_tuple (map Z.of_nat m)) as [t|e]; cbn [bind]; auto.
  rewrite (IH (S k) _ (weighted env g) (weighted env ge)).
  - rewrite !weighted_idem. reflexivity.
  - cbn [heap]. rewrite heap_set_nth. destruct (Nat.eq_dec b a); [congruence|]. rewrite heap_set_nth. destruct (Nat.eq_dec a a); [|congruence].
    destruct (lt_dec a (length (heap w))) as [|Hn]; auto. exfalso; apply Hn, nth_error_Some; congruence.
  - cbn [heap]. rewrite heap_set_nth. destruct (Nat.eq_dec b b); [|congruence]. destruct (lt_dec b _) as [|Hn]; auto. exfalso; apply Hn. apply nth_error_Some.
    rewrite heap_set_nth. destruct (Nat.eq_dec a b); [congruence|]. congruence.
  - cbn [cache]. rewrite weighted_idem. auto.
Qed.

Lemma serial_grid env w a b g ge lv gammas omegas : a <> b -> nth_error (heap w) a = Some g -> nth_error (heap w) b = Some ge ->
  up_to_date (cache w) a (weighted env g) lv ->
  collects (fun i x => multi_outcome env i (split_of (weighted env g) lv) (weighted env ge) (fst x) (snd x)) (grid gammas omegas)
    (snd (repeated_leiden_from_gammas_omegas env w a b lv gammas omegas)).
Proof.
  intros Hab Ha Hb Hc. unfold repeated_leiden_from_gammas_omegas. rewrite (@serial_grid_loop env lv a b Hab (grid gammas omegas) 0 w g ge [] Ha Hb Hc).
  apply (@driver_collects _ (fun i x => multi_outcome env i (split_of (weighted env g) lv) (weighted env ge) (fst x) (snd x)) (grid gammas omegas)). apply Permutation_refl.
Qed.

(** the grid is the whole product, each index pair once *)
Lemma grid_nth gammas omegas i j : j < length omegas ->
  nth_error (grid gammas omegas) (i * length omegas + j) =
  match nth_error gammas i, nth_error omegas j with Some a, Some b => Some (a, b) | _, _ => None end.
Proof.
  revert i. induction gammas as [|ga gammas IH]; intros i Hj; cbn [grid flat_map].
  - destruct (i * length omegas + j), i; auto.
  - destruct i as [|i].
    + rewrite nth_error_app1 by (rewrite map_length; lia). rewrite nth_error_map. cbn. destruct (nth_error omegas j); reflexivity.
    + rewrite nth_error_app2 by (rewrite map_length; lia). rewrite map_length. replace (S i * length omegas + j - length omegas) with (i * length omegas + j) by lia.
      apply IH; auto.
Qed.
Lemma grid_length gammas omegas : length (grid gammas omegas) = length gammas * length omegas.
Proof. induction gammas; simpl; auto. rewrite app_length, map_length. f_equal. auto. Qed.

(** fresh graph objects have no cache entries of their own *)
Lemma fresh_up_to_date c gid g lv : ecount g > 0 -> (forall k v e, In (k, v) c -> In e (snd (fst (fst k))) -> fst e <> gid) ->
  up_to_date c gid g lv.
Proof.
  intros He H v Hin. exfalso. unfold ecount in He. destruct (edges g) as [|e E] eqn:Ee; [simpl in He; lia|].
  apply (H _ v (gid, 0) Hin); [|reflexivity]. unfold key_of, ecount. cbn [fst snd]. rewrite Ee. simpl. auto.
Qed.

Lemma grid_list_prod gammas omegas : grid gammas omegas = list_prod gammas omegas.
Proof. induction gammas; simpl; auto. f_equal; auto. Qed.

Lemma weighted_fields env g : vcount (weighted env g) = vcount g /\ directed (weighted env g) = directed g /\ edges (weighted env g) = edges g.
Proof. unfold weighted. destruct (le_contains env g); auto. Qed.

Lemma weighted_wf env g : wf_graph g -> wf_graph (weighted env g).
Proof.
  intros [H1 H2]. unfold weighted. destruct (le_contains env g); [split; auto|]. split; cbn; auto.
  intros ws H. inversion H. apply repeat_length.
Qed.

Lemma weighted_split env g ws lv layers : wf_graph g -> length lv = vcount g -> lv <> [] ->
  weights (weighted env g) = Some ws -> layer_graphs (weighted env g) ws lv layers -> split_of (weighted env g) lv = Ok layers.
Proof.
  intros Hwf Hlen Hne Hw Hl. destruct (@split_layer_graphs (weighted env g) ws lv) as (gs & Hs & Hgs); auto using weighted_wf.
  { rewrite (proj1 (weighted_fields env g)). lia. }
  rewrite Hs. f_equal. eapply layer_graphs_unique; eauto.
Qed.

(** The graph objects after a multilayer run *)
Lemma multilayer_graphs env k w a b g ge lv gamma omega : a <> b ->
  nth_error (heap w) a = Some g -> nth_error (heap w) b = Some ge ->
  heap (fst (multilayer_leiden env k w a b lv gamma omega)) = heap_set (heap_set (heap w) a (weighted env g)) b (weighted env ge).
Proof.
  intros Hab Ha Hb. unfold multilayer_leiden.
  rewrite (default_weights_at_ok env w a Ha).
  assert (Hb1 : nth_error (heap_set (heap w) a (weighted env g)) b = Some ge).
  { rewrite heap_set_nth. destruct (Nat.eq_dec a b); [congruence|auto]. }
  rewrite (default_weights_at_ok env (mkWorld _ (cache w)) b Hb1). cbn [heap cache].
  unfold split_intralayer_leiden_graph. cbn [heap cache].
  match goal with |- context [py_get ?h a] => destruct (py_get h a) as [x|e] end.
  - destruct (lru_call _ _ _ _ _) as [c [r|e]]; cbn [heap fst]; [|reflexivity].
    match goal with |- context [py_get ?h b] => destruct (py_get h b) as [y|e] end; reflexivity.
  - reflexivity.
Qed.

Lemma fresh_call g lv : snd (split_intralayer_leiden_graph (mkWorld [g] []) 0 lv) = split_of g lv.
Proof. unfold split_intralayer_leiden_graph, py_get. cbn [heap nth_error cache]. unfold lru_call. cbn [lru_find]. fold (split_of g lv). destruct (split_of g lv); reflexivity. Qed.
