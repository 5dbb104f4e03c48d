(** Splitting an intralayer graph by layer, and the cache in front of it. *)
From Verif Require Import PyBase PyGraph M_partition M_pool M_leiden Spec Spec_leiden L_base L_canon L_parallel L_leiden.
Set Implicit Arguments.
Open Scope nat_scope.

Lemma foldM_map {A B S} (f : S -> B -> res S) (h : A -> B) l : forall s, foldM f (map h l) s = foldM (fun s a => f s (h a)) l s.
Proof. induction l as [|a l IH]; intros s; simpl; auto. destruct (f s (h a)); simpl; auto. Qed.
Lemma foldM_ext {A S} (f g : S -> A -> res S) l : (forall s a, In a l -> f s a = g s a) -> forall s, foldM f l s = foldM g l s.
Proof. induction l as [|a l IH]; intros H s; simpl; auto. rewrite H by (simpl; auto). destruct (g s a); simpl; auto. apply IH. intros; apply H; simpl; auto. Qed.
Lemma foldM_app {A S} (f : S -> A -> res S) l1 l2 : forall s, foldM f (l1 ++ l2) s = let! s' := foldM f l1 s in foldM f l2 s'.
Proof. induction l1 as [|a l IH]; intros s; simpl; auto. destruct (f s a); simpl; auto. Qed.

(** *** The split only looks at the graph object it is given *)
Definition split_of (g : graph) (lv : list nat) : res (list graph) := split_layers [g] (key_of 0 g lv).

Lemma split_at h gid g lv : nth_error h gid = Some g -> split_layers h (key_of gid g lv) = split_of g lv.
Proof.
  intros H. unfold split_of, split_layers, key_of. destruct (py_max lv) as [mx|]; cbn [bind]; auto.
  rewrite !foldM_map.
  rewrite (@foldM_ext _ _ (fun s a => split_step h lv s (gid, a)) (fun s a => split_step [g] lv s (0, a))); auto.
  intros s a _. unfold split_step, handle_ends, handle_weight, py_get. cbn [fst snd]. rewrite H. cbn [nth_error bind]. reflexivity.
Qed.

Lemma split_edgeless h h' n d lv : split_layers h (n, [], d, lv) = split_layers h' (n, [], d, lv).
Proof. reflexivity. Qed.

Lemma py_update_seq {A} (f : nat -> A) (h : A -> A) : forall n m k, k < n ->
  py_update (map f (seq m n)) k h = Ok (map (fun t => if Nat.eqb (m + k) t then h (f t) else f t) (seq m n)).
Proof.
  induction n as [|n IH]; intros m k Hk; [lia|]. cbn [seq map]. destruct k as [|k]; cbn [py_update].
  - rewrite Nat.add_0_r, Nat.eqb_refl. f_equal. f_equal. apply map_ext_in. intros t Ht. apply in_seq in Ht.
    destruct (Nat.eqb_spec m t); [lia|auto].
  - rewrite IH by lia. cbn [bind]. f_equal. destruct (Nat.eqb_spec (m + S k) m); [lia|]. f_equal.
    apply map_ext. intros t. replace (m + S k) with (S m + k) by lia. reflexivity.
Qed.

(** *** Closed form *)
Section Closed.
Variables (g : graph) (ws : list R) (lv : list nat) (T : nat).
Hypothesis Hws : weights g = Some ws.
Hypothesis Hlen : length ws = ecount g.
Hypothesis HT : forall l, In l lv -> l < T.
Let mine (t : nat) (p : list ((nat * nat) * R)) := filter (fun ew => Nat.eqb (nth (fst (fst ew)) lv 0) t) p.


Let state (p : list ((nat * nat) * R)) : list (list (nat * nat)) * list (list R) :=
  (map (fun t => map fst (mine t p)) (seq 0 T), map (fun t => map snd (mine t p)) (seq 0 T)).

Lemma mine_snoc t p ew : mine t (p ++ [ew]) = mine t p ++ (if Nat.eqb (nth (fst (fst ew)) lv 0) t then [ew] else []).
Proof. unfold mine. rewrite filter_app. simpl. destruct (Nat.eqb _ t); reflexivity. Qed.

Lemma split_step_state i e w : nth_error (edges g) i = Some e -> nth_error ws i = Some w -> fst e < length lv ->
  split_step [g] lv (state (firstn i (combine (edges g) ws))) (0, i) = Ok (state (firstn (S i) (combine (edges g) ws))).
Proof.
  intros He Hw Hl. unfold split_step, handle_ends, handle_weight, py_get. cbn [fst snd nth_error bind].
  rewrite He. cbn [bind]. destruct (nth_error lv (fst e)) as [l|] eqn:El.
  2: { apply nth_error_None in El. lia. }
  cbn [bind]. pose proof (HT _ (nth_error_In _ _ El)) as HlT. unfold state at 1. cbn [fst].
  rewrite py_update_seq by auto. cbn [bind]. rewrite Hws, Hw. cbn [bind]. unfold state at 1. cbn [snd].
  rewrite py_update_seq by auto. cbn [bind plus]. f_equal.
  assert (Hc : nth_error (combine (edges g) ws) i = Some (e, w)).
  { clear -He Hw. revert ws i He Hw. induction (edges g) as [|a E IH]; intros ws [|i] He Hw; destruct ws; simpl in *; try discriminate.
    - inversion He; inversion Hw; auto. - apply IH; auto. }
  assert (Hf : firstn (S i) (combine (edges g) ws) = firstn i (combine (edges g) ws) ++ [(e, w)]).
  { clear -Hc. revert Hc. generalize (combine (edges g) ws) as L. intros L. revert i. induction L as [|a L IH]; intros [|i] H; simpl in *; try discriminate.
    - inversion H; auto. - rewrite IH by auto. reflexivity. }
  rewrite Hf. unfold state. assert (Hn : nth (fst e) lv 0 = l) by (apply nth_error_nth; auto).
  f_equal; apply map_ext; intros t; rewrite mine_snoc; cbn [fst]; rewrite Hn, map_app; destruct (Nat.eqb l t); cbn [map app fst snd]; auto using app_nil_r.
  all: rewrite app_nil_r; auto.
Qed.

Hypothesis Hsrc : forall u v, In (u, v) (edges g) -> u < length lv.

Lemma split_loop k : k <= ecount g ->
  foldM (split_step [g] lv) (map (fun i => (0, i)) (seq 0 k)) (state []) = Ok (state (firstn k (combine (edges g) ws))).
Proof.
  induction k as [|k IH]; intros Hk; [reflexivity|].
  replace (S k) with (k + 1) at 1 by lia. rewrite seq_app, map_app, foldM_app, IH by lia. cbn [bind plus seq map foldM].
  unfold ecount in *.
  destruct (nth_error (edges g) k) as [e|] eqn:He. 2: { apply nth_error_None in He. lia. }
  destruct (nth_error ws k) as [w|] eqn:Hw. 2: { apply nth_error_None in Hw. lia. }
  rewrite (split_step_state k He Hw). 2: { destruct e as [u v]. apply (Hsrc u v). eapply nth_error_In; eauto. }
  reflexivity.
Qed.
End Closed.

Lemma set_weights_exact n d (E : list ((nat * nat) * R)) :
  set_weights (mkGraph n d (map fst E) None) (map snd E) = Ok (mkGraph n d (map fst E) (Some (map snd E))).
Proof.
  assert (G : forall (E : list ((nat * nat) * R)) all, cycle_take all (map snd E) (length (map fst E)) = map snd E).
  { clear. induction E as [|[e w] E IH]; intros all; simpl; auto. f_equal. apply IH. }
  unfold set_weights. destruct E as [|[e w] E]; [reflexivity|]. cbn [map fst snd edges vcount directed]. repeat f_equal.
  unfold ecount. cbn [edges]. exact (G ((e, w) :: E) (w :: map snd E)).
Qed.

Lemma split_closed g ws lv mx : weights g = Some ws -> length ws = ecount g -> py_max lv = Ok mx ->
  (forall u v, In (u, v) (edges g) -> u < length lv) ->
  split_of g lv = Ok (map (fun t => let mine := filter (fun ew => Nat.eqb (nth (fst (fst ew)) lv 0) t) (combine (edges g) ws) in
                                    mkGraph (vcount g) (directed g) (map fst mine) (Some (map snd mine))) (seq 0 (S mx))).
Proof.
  intros Hws Hlen Hmx Hsrc. unfold split_of, split_layers, key_of. rewrite Hmx. cbn [bind].
  replace (mx + 1) with (S mx) by lia.
  assert (HT : forall l, In l lv -> l < S mx). { apply py_max_spec in Hmx as [_ Hm]. intros l Hl. specialize (Hm l Hl). lia. }
  pose proof (@split_loop g ws lv (S mx) Hws Hlen HT Hsrc (ecount g) (le_n _)) as L.
  assert (Hfull : firstn (ecount g) (combine (edges g) ws) = combine (edges g) ws).
  { apply firstn_all2. rewrite combine_length. unfold ecount. lia. }
  rewrite Hfull in L.
  assert (Hr : forall X (x : X) n m, repeat x n = map (fun _ => x) (seq m n)).
  { intros X x. induction n as [|n IH]; intros m; simpl; auto. rewrite <- IH. auto. }
  cbn [filter map] in L. rewrite <- !Hr in L. rewrite L. cbn [bind].
  rewrite (@mapM_ok _ _ _ (fun t => let mine := filter (fun ew => Nat.eqb (nth (fst (fst ew)) lv 0) t) (combine (edges g) ws) in
                                    mkGraph (vcount g) (directed g) (map fst mine) (Some (map snd mine)))); auto.
  intros t Ht. apply in_seq in Ht. unfold py_get.
  assert (Hs2 : forall A (q : nat -> A) n k m, k < n -> nth_error (map q (seq m n)) k = Some (q (m + k))).
  { intros A q. induction n as [|n IH]; intros k m Hk; [lia|]. destruct k; simpl; [rewrite Nat.add_0_r; auto|]. rewrite IH by lia. f_equal. f_equal. lia. }
  rewrite !Hs2 by lia. cbn [bind plus]. apply set_weights_exact.
Qed.

(** C09 *)
Lemma split_layer_graphs g ws lv : wf_graph g -> weights g = Some ws -> lv <> [] -> vcount g <= length lv ->
  exists gs, split_of g lv = Ok gs /\ layer_graphs g ws lv gs.
Proof.
  intros [Hwf Hw] Hws Hne Hl. destruct (py_max_nonempty Hne) as [mx Hmx].
  eexists. split. { apply (@split_closed g ws lv mx); auto. intros u v Hin. destruct (Hwf u v Hin). lia. }
  apply py_max_spec in Hmx as [Hin Hmax]. split; [|split].
  - intros l Hi. rewrite map_length, seq_length. specialize (Hmax l Hi). lia.
  - exists mx. rewrite map_length, seq_length. auto.
  - intros t gt Ht. rewrite nth_error_map in Ht. destruct (nth_error (seq 0 (S mx)) t) as [t'|] eqn:E; [|discriminate].
    assert (t' = t). { assert (t < S mx). { rewrite <- (seq_length (S mx) 0). apply nth_error_Some. congruence. }
      apply nth_error_nth with (d := 0) in E. rewrite seq_nth in E by auto. auto. }
    subst t'. cbn [option_map] in Ht. inversion Ht; subst. cbn. auto.
Qed.

Lemma layer_graphs_unique g ws lv gs gs' : layer_graphs g ws lv gs -> layer_graphs g ws lv gs' -> gs = gs'.
Proof.
  intros (A1 & (l & Hl & E1) & H1) (A2 & (l' & Hl' & E2) & H2).
  assert (El : length gs = length gs'). { pose proof (A1 l' Hl'). pose proof (A2 l Hl). lia. }
  apply nth_error_ext. intros t. destruct (nth_error gs t) as [a|] eqn:Ea, (nth_error gs' t) as [b|] eqn:Eb; auto.
  - destruct (H1 t a Ea) as (V & D & E & W). destruct (H2 t b Eb) as (V' & D' & E' & W'). destruct a, b. cbn in *. congruence.
  - apply nth_error_None in Eb. assert (t < length gs) by (apply nth_error_Some; congruence). lia.
  - apply nth_error_None in Ea. assert (t < length gs') by (apply nth_error_Some; congruence). lia.
Qed.

(** Over all layers, every weighted edge appears exactly once. *)
Lemma layer_graphs_lossless g ws lv gs : layer_graphs g ws lv gs -> (forall u v, In (u, v) (edges g) -> u < length lv) ->
  length ws = length (edges g) ->
  Permutation (flat_map (fun gt => combine (edges gt) (match weights gt with Some w => w | None => [] end)) gs) (combine (edges g) ws).
Proof.
  intros (A1 & _ & H) Hsrc Hlen. set (E := combine (edges g) ws) in *.
  set (mine t := filter (fun ew : nat * nat * R => Nat.eqb (nth (fst (fst ew)) lv 0) t) E).
  assert (G : flat_map (fun gt => combine (edges gt) (match weights gt with Some w => w | None => [] end)) gs = flat_map mine (seq 0 (length gs))).
  { assert (G : forall k gs0, (forall t gt, nth_error gs0 t = Some gt -> edges gt = map fst (mine (k + t)) /\ weights gt = Some (map snd (mine (k + t)))) ->
      flat_map (fun gt => combine (edges gt) (match weights gt with Some w => w | None => [] end)) gs0 = flat_map mine (seq k (length gs0))).
    { intros k gs0. revert k. induction gs0 as [|a gs0 IH]; intros k Hk; simpl; auto. f_equal.
      - destruct (Hk 0 a eq_refl) as [-> ->]. rewrite Nat.add_0_r. clear. induction (mine k) as [|[e w] l IH]; simpl; auto. f_equal; auto.
      - apply IH. intros t gt Ht. replace (S k + t) with (k + S t) by lia. apply Hk. auto. }
    apply G. intros t gt Ht. destruct (H t gt Ht) as (_ & _ & P & Q). auto. }
  rewrite G. clear G.
  assert (Hin : forall ew, In ew E -> nth (fst (fst ew)) lv 0 < length gs).
  { intros [[u v] w] Hi. cbn [fst]. apply in_combine_l in Hi. apply A1, nth_In. eapply Hsrc; eauto. }
  clear H A1 Hsrc. clearbody E. revert Hin. generalize (length gs) as T. intros T. unfold mine. clear mine. induction E as [|ew E IH]; intros Hin.
  - cbn [filter]. induction (seq 0 T); simpl; auto.
  - set (l := nth (fst (fst ew)) lv 0) in *.
    assert (P : Permutation (flat_map (fun t => filter (fun ew0 : nat * nat * R => Nat.eqb (nth (fst (fst ew0)) lv 0) t) (ew :: E)) (seq 0 T))
      (flat_map (fun t => (if Nat.eqb l t then [ew] else []) ++ filter (fun ew0 : nat * nat * R => Nat.eqb (nth (fst (fst ew0)) lv 0) t) E) (seq 0 T))).
    { match goal with |- Permutation ?a ?b => replace b with a; [reflexivity|] end. rewrite !flat_map_concat_map. f_equal. apply map_ext. intros t. cbn [filter]. fold l. destruct (Nat.eqb l t); reflexivity. }
    rewrite P. clear P.
    assert (S1 : forall (f h : nat -> list (nat * nat * R)) L, Permutation (flat_map (fun t => f t ++ h t) L) (flat_map f L ++ flat_map h L)).
    { clear. intros f h. induction L as [|a L IH]; simpl; auto. rewrite IH. rewrite <- !app_assoc. apply Permutation_app_head.
      rewrite !app_assoc. apply Permutation_app_tail, Permutation_app_comm. }
    rewrite S1, IH by (intros; apply Hin; simpl; auto).
    assert (Hl : l < T) by (apply (Hin ew); simpl; auto).
    assert (S2 : forall n m, m <= l < m + n -> flat_map (fun t => if Nat.eqb l t then [ew] else []) (seq m n) = [ew]).
    { clear. induction n as [|n IH]; intros m Hm; [lia|]. cbn [seq flat_map]. destruct (Nat.eqb_spec l m) as [<-|Hne].
      - cbn [app]. f_equal. assert (Z0 : forall n m, l < m -> flat_map (fun t => if Nat.eqb l t then [ew] else []) (seq m n) = []).
        { induction n0 as [|n0 IH0]; intros k Hk; simpl; auto. destruct (Nat.eqb_spec l k); [lia|]. apply IH0. lia. }
        apply Z0. lia.
      - cbn [app]. apply IH. lia. }
    rewrite S2 by lia. reflexivity.
Qed.

(** errors *)
Lemma split_empty_layers g : split_of g [] = Raise ValueError.
Proof. reflexivity. Qed.

Lemma split_no_weights g lv : weights g = None -> edges g <> [] -> lv <> [] ->
  (forall u v, In (u, v) (edges g) -> u < length lv) -> split_of g lv = Raise KeyError.
Proof.
  intros Hw He Hne Hsrc. destruct (py_max_nonempty Hne) as [mx Hmx]. unfold split_of, split_layers, key_of. rewrite Hmx. cbn [bind].
  unfold ecount. destruct (edges g) as [|[u v] E] eqn:Ee; [congruence|]. cbn [length seq map foldM].
  unfold split_step at 1, handle_ends, handle_weight. unfold py_get at 1 2. cbn [fst snd nth_error bind]. rewrite Ee. cbn [nth_error bind].
  assert (Hu : u < length lv) by (apply (Hsrc u v); simpl; auto). cbn [fst].
  rewrite (py_get_ok lv 0 Hu). cbn [bind].
  assert (HT : nth u lv 0 < mx + 1). { apply py_max_spec in Hmx as [_ Hm]. specialize (Hm _ (nth_In lv 0 Hu)). lia. }
  destruct (@py_update_ok (list (nat * nat)) (fun x => x ++ [(u, v)]) [] (repeat [] (mx + 1)) (nth u lv 0)) as (l' & -> & _).
  { rewrite repeat_length. auto. }
  cbn [bind]. unfold py_get. cbn [fst nth_error bind]. rewrite Hw. reflexivity.
Qed.

Lemma split_short_layers g lv ws i u v : weights g = Some ws -> length ws = ecount g -> lv <> [] ->
  nth_error (edges g) i = Some (u, v) -> length lv <= u ->
  split_of g lv = Raise IndexError.
Proof.
  intros Hws Hlen Hne Hi Hu. destruct (py_max_nonempty Hne) as [mx Hmx].
  assert (HT : forall l, In l lv -> l < mx + 1). { apply py_max_spec in Hmx as [_ Hm]. intros l Hl. specialize (Hm l Hl). lia. }
  unfold split_of, split_layers, key_of. rewrite Hmx. cbn [bind]. rewrite foldM_map.
  assert (G : forall n k (acc : list (list (nat * nat)) * list (list R)), k + n = ecount g -> k <= i < k + n -> length (fst acc) = mx + 1 -> length (snd acc) = mx + 1 ->
     foldM (fun s a => split_step [g] lv s (0, a)) (seq k n) acc = Raise IndexError).
  { induction n as [|n IH]; intros k acc Hk Hik H1 H2; [lia|]. cbn [seq foldM].
    unfold split_step at 1, handle_ends, handle_weight. unfold py_get at 1 2. cbn [fst snd nth_error bind].
    unfold ecount in *.
    destruct (nth_error (edges g) k) as [[a b]|] eqn:Ek. 2: { apply nth_error_None in Ek. lia. }
    cbn [bind fst]. destruct (Nat.lt_ge_cases a (length lv)) as [Ha|Ha].
    2: { rewrite py_get_err by auto. reflexivity. }
    rewrite (py_get_ok lv 0 Ha). cbn [bind]. assert (Hl : nth a lv 0 < mx + 1) by (apply HT, nth_In; auto).
    destruct (@py_update_ok (list (nat * nat)) (fun x => x ++ [(a, b)]) [] (fst acc) (nth a lv 0)) as (l1 & -> & L1 & _); [lia|]. cbn [bind].
    unfold py_get. cbn [fst nth_error bind]. rewrite Hws. destruct (nth_error ws k) as [w|] eqn:Ew. 2: { apply nth_error_None in Ew. lia. }
    cbn [bind]. destruct (@py_update_ok (list R) (fun x => x ++ [w]) [] (snd acc) (nth a lv 0)) as (l2 & -> & L2 & _); [lia|]. cbn [bind].
    apply IH; cbn [fst snd]; try lia. destruct (Nat.eq_dec i k) as [->|]; [|lia]. rewrite Hi in Ek. inversion Ek; subst. lia. }
  rewrite G; auto; cbn [fst snd]; rewrite ?repeat_length; auto.
  split; [lia|]. assert (i < length (edges g)) by (apply nth_error_Some; congruence). unfold ecount. lia.
Qed.

(** ** The cache *)
Lemma list_eqb_spec {A} (eqb : A -> A -> bool) : (forall a b, eqb a b = true <-> a = b) -> forall s t, list_eqb eqb s t = true <-> s = t.
Proof.
  intros H. induction s as [|x s IH]; intros [|y t]; simpl; try (split; congruence). rewrite andb_true_iff, H, IH. split; [intros [-> ->]; auto|].
  intros E; inversion E; auto.
Qed.
Lemma handle_eqb_spec a b : handle_eqb a b = true <-> a = b.
Proof. unfold handle_eqb. destruct a, b. cbn [fst snd]. rewrite andb_true_iff, !Nat.eqb_eq. split; [intros [-> ->]; auto|]. intros E; inversion E; auto. Qed.
Lemma split_key_eqb_spec a b : split_key_eqb a b = true <-> a = b.
Proof.
  destruct a as [[[n es] d] lv], b as [[[n' es'] d'] lv']. unfold split_key_eqb.
  rewrite !andb_true_iff, Nat.eqb_eq, eqb_true_iff, (list_eqb_spec handle_eqb handle_eqb_spec), (list_eqb_spec Nat.eqb Nat.eqb_eq).
  split; [intros [[[-> ->] ->] ->]; auto|]. intros E; inversion E; auto.
Qed.

Lemma lru_find_in (c : split_cache) k v : lru_find split_key_eqb c k = Some v -> In (k, v) c.
Proof.
  induction c as [|[k' v'] c IH]; simpl; [discriminate|]. destruct (split_key_eqb k k') eqn:E.
  - intros H; inversion H; subst. apply split_key_eqb_spec in E. subst. auto.
  - auto.
Qed.

(** *** Histories *)
Lemma history_fresh evs : forall w,
  (forall k v, In (k, v) (cache w) -> exists gid g lv, k = key_of gid g lv /\ split_of g lv = Ok v /\
     (forall g' lv' r, In (gid, g', lv', r) (history w evs) -> lv' = lv -> vcount g' = vcount g -> ecount g' = ecount g -> directed g' = directed g -> g' = g)) ->
  (forall gid g g' lv r r', In (gid, g, lv, r) (history w evs) -> In (gid, g', lv, r') (history w evs) ->
     vcount g = vcount g' -> ecount g = ecount g' -> directed g = directed g' -> g = g') ->
  forall gid g lv r, In (gid, g, lv, r) (history w evs) -> r = split_of g lv.
Proof.
  induction evs as [|[g0|gid0 g0|gid0 lv0] evs IH]; intros w Hc Hm gid g lv r; cbn [history] in *; [intros []| | |].
  - apply (IH (mkWorld (heap w ++ [g0]) (cache w)) Hc Hm).
  - apply (IH (mkWorld (heap_set (heap w) gid0 g0) (cache w)) Hc Hm).
  - unfold py_get in *. destruct (nth_error (heap w) gid0) as [g0|] eqn:Eh; [|apply (IH w Hc Hm)].
    unfold split_intralayer_leiden_graph, py_get in *. rewrite Eh in *. unfold lru_call in *.
    destruct (lru_find split_key_eqb (cache w) (key_of gid0 g0 lv0)) as [v|] eqn:Ef.
    + (* hit *)
      assert (Hv : split_of g0 lv0 = Ok v).
      { apply lru_find_in in Ef. destruct (Hc _ _ Ef) as (gid1 & g1 & lv1 & Ek & Es & Hcur).
        unfold key_of in Ek. injection Ek as Ev Ee Ed El. subst lv1. rewrite <- Es.
        assert (Hlen : ecount g0 = ecount g1). { apply (f_equal (@length _)) in Ee. rewrite !map_length, !seq_length in Ee. auto. }
        destruct (Nat.eq_dec (ecount g0) 0) as [Z|NZ].
        - unfold split_of, key_of. rewrite <- Hlen, Z, Ev, Ed. apply split_edgeless.
        - assert (gid1 = gid0). { destruct (ecount g0) as [|n0]; [lia|]. rewrite <- Hlen in Ee. cbn [seq map] in Ee. inversion Ee. auto. }
          subst gid1. f_equal. apply (Hcur g0 lv0 (Ok v)); auto. left; auto. }
      intros [E|Hin]; [inversion E; subst; auto|].
      refine (IH _ _ _ gid g lv r Hin).
      * cbn [cache]. intros k v' [E|Hi].
        -- inversion E; subst. exists gid0, g0, lv0. split; auto. split; auto. intros g' lv' r' Hi -> Hvc Hec Hd. symmetry.
           apply (Hm gid0 g0 g' lv0 (Ok v') r'); [left; reflexivity|right; exact Hi|auto..].
        -- apply (@lru_remove_incl split_key (list graph)) in Hi. destruct (Hc _ _ Hi) as (gid1 & g1 & lv1 & A & B & C). exists gid1, g1, lv1. split; auto. split; auto.
           intros g' lv' r' Hi'. apply (C g' lv' r'). right. auto.
      * intros gid1 g1 g' lv1 r1 r1' H1 H2. apply (Hm gid1 g1 g' lv1 r1 r1'); right; auto.
    + (* miss *)
      rewrite split_at in * by auto. destruct (split_of g0 lv0) as [v|e] eqn:Es.
      * intros [E|Hin]; [inversion E; subst; auto|].
        refine (IH _ _ _ gid g lv r Hin).
        -- cbn [cache firstn]. intros k v' [E|[]]. inversion E; subst. exists gid0, g0, lv0. split; auto. split; auto. intros g' lv' r' Hi -> Hvc Hec Hd. symmetry.
           apply (Hm gid0 g0 g' lv0 (Ok v') r'); [left; reflexivity|right; exact Hi|auto..].
        -- intros gid1 g1 g' lv1 r1 r1' H1 H2. apply (Hm gid1 g1 g' lv1 r1 r1'); right; auto.
      * intros [E|Hin]; [inversion E; subst; auto|].
        refine (IH _ _ _ gid g lv r Hin).
        -- cbn [cache]. intros k v' Hi. destruct (Hc _ _ Hi) as (gid1 & g1 & lv1 & A & B & C). exists gid1, g1, lv1. split; auto. split; auto.
           intros g' lv' r' Hi'. apply (C g' lv' r'). right. auto.
        -- intros gid1 g1 g' lv1 r1 r1' H1 H2. apply (Hm gid1 g1 g' lv1 r1 r1'); right; auto.
Qed.
