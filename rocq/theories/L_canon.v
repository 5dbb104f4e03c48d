(** Proofs about sorted_tuple, its cache, num_communities and grouping. *)
From Verif Require Import PyBase M_partition Spec L_base.
From Coq Require Import Sorted.
Set Implicit Arguments.

(** ** first_index *)
Lemma first_index_occurs x t : In x t -> occurs_first t x (first_index x t).
Proof.
  induction t as [|y t IH]; simpl; [tauto|]. intros Hin.
  destruct (Z.eqb_spec x y) as [<-|Hne].
  - split; simpl; auto. intros j Hj; lia.
  - destruct Hin as [Hy|Hin]; [congruence|]. destruct (IH Hin) as [H1 H2]. split; auto.
    intros [|j] Hj; simpl; [congruence | apply H2; lia].
Qed.

Lemma occurs_first_unique {A} (c : list A) a i j : occurs_first c a i -> occurs_first c a j -> i = j.
Proof.
  intros [H1 H2] [H3 H4]. destruct (Nat.lt_trichotomy i j) as [H|[H|H]]; auto.
  - exfalso; eapply H4; eauto.
  - exfalso; eapply H2; eauto.
Qed.

Lemma occurs_first_inj {A} (c : list A) a b i : occurs_first c a i -> occurs_first c b i -> a = b.
Proof. intros [H1 _] [H3 _]. congruence. Qed.

Lemma in_occurs_first {A} (eqd : forall x y : A, {x = y} + {x <> y}) (c : list A) a :
  In a c -> exists i, occurs_first c a i.
Proof.
  induction c as [|y t IH]; simpl; [tauto|]. intros Hin.
  destruct (eqd y a) as [<-|Hne].
  - exists 0. split; simpl; auto. intros j Hj; lia.
  - destruct Hin as [Hy|Hin]; [congruence|]. destruct (IH Hin) as [i [H1 H2]]. exists (S i). split; auto.
    intros [|j] Hj; simpl; [congruence | apply H2; lia].
Qed.

(** ** The sorted list of (label, first index) *)
Definition ranked (t : list Z) := sort_by (fun a b : Z * nat => snd a <=? snd b) (np_unique_index t).

Lemma in_ranked t x k : In (x, k) (ranked t) <-> In x t /\ k = first_index x t.
Proof.
  unfold ranked, np_unique_index. split; intros H.
  - apply (Permutation_in _ (sort_by_perm _ _)) in H. apply in_map_iff in H as (y & Hy & Hin).
    inversion Hy; subst. apply (Permutation_in _ (sort_by_perm _ _)) in Hin.
    apply nodup_In in Hin. auto.
  - destruct H as [Hx ->]. apply (Permutation_in _ (Permutation_sym (sort_by_perm _ _))).
    apply in_map_iff. exists x. split; auto.
    apply (Permutation_in _ (Permutation_sym (sort_by_perm _ _))). apply nodup_In; auto.
Qed.

Lemma ranked_nodup t : NoDup (ranked t).
Proof.
  unfold ranked. eapply Permutation_NoDup; [apply Permutation_sym, sort_by_perm|].
  unfold np_unique_index. apply FinFun.Injective_map_NoDup.
  - intros a b H; inversion H; auto.
  - eapply Permutation_NoDup; [apply Permutation_sym, sort_by_perm|]. apply NoDup_nodup.
Qed.

Lemma ranked_sorted t i j x y kx ky :
  nth_error (ranked t) i = Some (x, kx) -> nth_error (ranked t) j = Some (y, ky) -> i < j -> kx < ky.
Proof.
  intros Hi Hj Hij.
  assert (Hs : StronglySorted (fun a b : Z * nat => (snd a <=? snd b) = true) (ranked t)).
  { apply sort_by_sorted.
    - intros a b H. apply Nat.leb_gt in H. apply Nat.leb_le. lia.
    - intros a b c H1 H2. apply Nat.leb_le in H1, H2. apply Nat.leb_le. lia. }
  pose proof (StronglySorted_nth Hs Hij Hi Hj) as H. simpl in H. apply Nat.leb_le in H.
  destruct (Nat.eq_dec kx ky) as [->|]; [|lia]. exfalso.
  pose proof (nth_error_In _ _ Hi) as Ix. pose proof (nth_error_In _ _ Hj) as Iy.
  apply in_ranked in Ix as [Ix Ex]. apply in_ranked in Iy as [Iy Ey].
  assert (x = y).
  { eapply occurs_first_inj.
    - apply first_index_occurs; eauto.
    - rewrite <- Ex, Ey. apply first_index_occurs; auto. }
  subst y. pose proof (ranked_nodup t) as Hn.
  assert (i = j); [|lia]. eapply NoDup_nth_error; eauto.
  - apply nth_error_Some; rewrite Hi; discriminate.
  - rewrite Hi, Hj. reflexivity.
Qed.

(** Position of a label in the dict. *)
Lemma dict_get_enum (l : list (Z * nat)) k x :
  NoDup (map fst l) ->
  (exists p, nth_error (map fst l) p = Some x /\
     dict_get Z.eqb (map (fun ix : nat * (Z * nat) => (fst (snd ix), fst ix)) (enumerate_from k l)) x = Ok (k + p))
  \/ (~ In x (map fst l)).
Proof.
  revert k; induction l as [|[y ky] l IH]; simpl; intros k Hn; [right; tauto|].
  inversion Hn as [|a b Hy Hn']; subst.
  destruct (Z.eqb_spec x y) as [<-|Hne].
  - left. exists 0. split; auto; try (rewrite Nat.add_0_r; auto).
  - destruct (IH (S k) Hn') as [(p & H1 & H2)|H].
    + left. exists (S p). split; auto. rewrite H2. f_equal; lia.
    + right. intros [E|E]; [congruence | auto].
Qed.

Lemma ranked_fst_nodup t : NoDup (map fst (ranked t)).
Proof.
  unfold ranked. eapply Permutation_NoDup.
  - apply Permutation_map, Permutation_sym, sort_by_perm.
  - unfold np_unique_index. rewrite map_map. simpl. rewrite map_id.
    eapply Permutation_NoDup; [apply Permutation_sym, sort_by_perm|]. apply NoDup_nodup.
Qed.

Lemma sort_map_get t x : In x t ->
  exists p, nth_error (ranked t) p = Some (x, first_index x t) /\ dict_get Z.eqb (sort_map t) x = Ok p.
Proof.
  intros Hx. unfold sort_map. fold (ranked t).
  destruct (dict_get_enum (ranked t) 0 x (ranked_fst_nodup t)) as [(p & H1 & H2)|H].
  - exists p. split; [|exact H2].
    rewrite nth_error_map in H1. destruct (nth_error (ranked t) p) as [[y ky]|] eqn:E; simpl in H1; inversion H1; subst.
    apply nth_error_In in E as Hin. apply in_ranked in Hin as [_ ->]. reflexivity.
  - exfalso. apply H. apply in_map_iff. exists (x, first_index x t). split; auto. apply in_ranked; auto.
Qed.

(** [rank t x p]: [p] is the position of label [x] among the labels of [t] by first occurrence. *)
Definition rank t x p := nth_error (ranked t) p = Some (x, first_index x t).

Lemma sorted_tuple_inv t c : sorted_tuple t = Ok c -> Forall2 (rank t) t c.
Proof.
  intros H. unfold sorted_tuple in H. apply mapM_inv in H.
  assert (Hgen : forall s, (forall x, In x s -> In x t) ->
            Forall2 (fun x y => dict_get Z.eqb (sort_map t) x = Ok y) s c -> Forall2 (rank t) s c).
  { clear H. intros s Hsub HF. induction HF as [|x p s c Hx HF IH]; constructor; auto.
    - destruct (sort_map_get t x (Hsub x (or_introl eq_refl))) as (q & Hq & Hg).
      rewrite Hg in Hx. inversion Hx; subst; auto.
    - apply IH. intros y Hy; apply Hsub; simpl; auto. }
  apply Hgen; auto.
Qed.

Lemma sorted_tuple_total t : exists c, sorted_tuple t = Ok c.
Proof.
  unfold sorted_tuple.
  assert (forall x, In x t -> exists p, dict_get Z.eqb (sort_map t) x = Ok p).
  { intros x Hx. destruct (sort_map_get t x Hx) as (p & _ & H); eauto. }
  revert H. generalize (sort_map t) as d. intros d. induction t as [|x t IH]; simpl; intros H; eauto.
  destruct (H x (or_introl eq_refl)) as (p & ->). destruct IH as (c & ->); eauto. simpl. eauto.
Qed.

Lemma Forall2_nth {A B} (P : A -> B -> Prop) l l' :
  Forall2 P l l' <-> length l = length l' /\
    forall i a b, nth_error l i = Some a -> nth_error l' i = Some b -> P a b.
Proof.
  split.
  - induction 1 as [|x y l l' Hxy H [IH1 IH2]]; simpl; [split; auto; intros [|i]; discriminate|].
    split; auto. intros [|i] a b Ha Hb; simpl in *; [inversion Ha; inversion Hb; subst; auto | eauto].
  - revert l'; induction l as [|x l IH]; intros [|y l'] [Hlen H]; try discriminate; constructor.
    + apply (H 0); reflexivity.
    + apply IH. split; [simpl in Hlen; lia|]. intros i a b Ha Hb. apply (H (S i)); auto.
Qed.

Lemma rank_inj t x y p : rank t x p -> rank t y p -> x = y.
Proof. unfold rank; congruence. Qed.
Lemma rank_fun t x p q : rank t x p -> rank t x q -> p = q.
Proof.
  unfold rank; intros Hp Hq. eapply NoDup_nth_error with (l := ranked t); [apply ranked_nodup| |congruence].
  apply nth_error_Some; rewrite Hp; discriminate.
Qed.

Lemma sorted_tuple_same_partition t c : sorted_tuple t = Ok c -> same_partition t c.
Proof.
  intros H. apply sorted_tuple_inv in H. apply Forall2_nth in H as [Hlen H]. split; auto.
  intros i j a a' b b' Ha Ha' Hb Hb'.
  pose proof (H i a b Ha Hb) as Hr. pose proof (H j a' b' Ha' Hb') as Hr'.
  split; intros E; subst.
  - eapply rank_fun; eauto.
  - eapply rank_inj; eauto.
Qed.

Lemma nth_error_same_length {A B} (l : list A) (l' : list B) i a :
  length l = length l' -> nth_error l i = Some a -> exists b, nth_error l' i = Some b.
Proof.
  intros Hlen H. destruct (nth_error l' i) eqn:E; eauto.
  apply nth_error_None in E. assert (i < length l) by (apply nth_error_Some; congruence). lia.
Qed.

Lemma same_partition_occurs_first {A B} (s : list A) (t : list B) a b i :
  same_partition s t -> nth_error s i = Some a -> nth_error t i = Some b ->
  occurs_first s a i -> occurs_first t b i.
Proof.
  intros [Hlen H] Ha Hb [H1 H2]. split; auto. intros j Hj E.
  destruct (nth_error_same_length t s j (eq_sym Hlen) E) as [a' Ha'].
  apply (H2 j Hj). rewrite Ha'. f_equal. apply (H j i a' a b b); auto.
Qed.

Lemma same_partition_sym {A B} (s : list A) (t : list B) : same_partition s t -> same_partition t s.
Proof. intros [H1 H2]. split; auto. intros. symmetry. eapply H2; eauto. Qed.

Lemma same_partition_trans {A B C} (s : list A) (t : list B) (u : list C) :
  same_partition s t -> same_partition t u -> same_partition s u.
Proof.
  intros [H1 H2] [H3 H4]. split; [lia|]. intros i j a a' c c' Ha Ha' Hc Hc'.
  destruct (nth_error_same_length s t i H1 Ha) as [b Hb].
  destruct (nth_error_same_length s t j H1 Ha') as [b' Hb'].
  rewrite (H2 i j a a' b b'); eauto.
Qed.

Lemma sorted_tuple_canonical t c : sorted_tuple t = Ok c -> canonical c.
Proof.
  intros Hc b i Hb a Hab.
  pose proof (sorted_tuple_same_partition t Hc) as Hsp.
  pose proof (sorted_tuple_inv t Hc) as HF. apply Forall2_nth in HF as [Hlen HF].
  destruct (nth_error_same_length c t i (eq_sym Hlen) (proj1 Hb)) as [x Hx].
  pose proof (HF i x b Hx (proj1 Hb)) as Hrx.
  assert (Hox : occurs_first t x i).
  { eapply same_partition_occurs_first with (s := c); eauto using same_partition_sym. apply Hb. }
  assert (exists y ky, nth_error (ranked t) a = Some (y, ky)) as (y & ky & Hy).
  { destruct (nth_error (ranked t) a) as [[y ky]|] eqn:E; eauto. exfalso. apply nth_error_None in E.
    assert (b < length (ranked t)) by (apply nth_error_Some; unfold rank in Hrx; rewrite Hrx; discriminate). lia. }
  assert (Hlt : ky < first_index x t) by (eapply ranked_sorted; eauto).
  apply nth_error_In in Hy as Hin. apply in_ranked in Hin as [Hin ->].
  exists (first_index y t). split.
  - assert (first_index x t = i); [|lia].
    eapply occurs_first_unique; [|exact Hox]. apply first_index_occurs. eapply nth_error_In; eauto.
  - pose proof (first_index_occurs y t Hin) as Hoy.
    destruct (nth_error_same_length t c _ Hlen (proj1 Hoy)) as [a' Ha'].
    assert (a' = a). { eapply rank_fun; [|exact Hy]. eapply HF; eauto. apply Hoy. }
    subst a'. eapply same_partition_occurs_first; eauto. apply Hoy.
Qed.

(** ** Canonical forms are unique *)
Lemma canonical_unique c d : canonical c -> canonical d -> same_partition c d -> c = d.
Proof.
  intros Hc Hd Hsp.
  assert (Hall : forall i a b, nth_error c i = Some a -> nth_error d i = Some b -> a = b).
  { intros i. induction i as [i IH] using (well_founded_induction lt_wf). intros a b Ha Hb.
    (* if a occurred before, b did too at the same place *)
    destruct (in_occurs_first Nat.eq_dec c a (nth_error_In _ _ Ha)) as [k Hk].
    assert (k <= i).
    { destruct (le_lt_dec k i); auto. exfalso. destruct Hk as [_ Hk]. eapply Hk; eauto. }
    destruct (Nat.eq_dec k i) as [->|Hne].
    - pose proof (same_partition_occurs_first Hsp Ha Hb Hk) as Hk'.
      destruct (Nat.lt_trichotomy a b) as [Hlt|[|Hlt]]; auto; exfalso.
      + destruct (Hd b i Hk' a Hlt) as (j & Hj & Hja).
        destruct (nth_error_same_length d c j (eq_sym (proj1 Hsp)) (proj1 Hja)) as [a' Ha'].
        pose proof (IH j Hj a' a Ha' (proj1 Hja)) as ->. destruct Hk as [_ Hk]. eapply Hk; eauto.
      + destruct (Hc a i Hk b Hlt) as (j & Hj & Hjb).
        destruct (nth_error_same_length c d j (proj1 Hsp) (proj1 Hjb)) as [b' Hb'].
        pose proof (IH j Hj b b' (proj1 Hjb) Hb') as <-. destruct Hk' as [_ Hk']. eapply Hk'; eauto.
    - destruct (nth_error_same_length c d k (proj1 Hsp) (proj1 Hk)) as [b' Hb'].
      rewrite (IH k ltac:(lia) a b' (proj1 Hk) Hb').
      apply (proj2 Hsp k i a a b' b); auto. apply Hk. }
  destruct Hsp as [Hlen _]. clear Hc Hd. revert d Hlen Hall.
  induction c as [|x c IH]; intros [|y d] Hlen Hall; try discriminate; auto.
  f_equal.
  - apply (Hall 0); reflexivity.
  - apply IH; [simpl in Hlen; lia|]. intros i a b Ha Hb. apply (Hall (S i)); auto.
Qed.

Lemma sorted_tuple_complete s t c d :
  sorted_tuple s = Ok c -> sorted_tuple t = Ok d -> (c = d <-> same_partition s t).
Proof.
  intros Hs Ht. split.
  - intros <-. eapply same_partition_trans; [apply sorted_tuple_same_partition; eauto|].
    apply same_partition_sym, sorted_tuple_same_partition; auto.
  - intros Hst. apply canonical_unique; eauto using sorted_tuple_canonical.
    eapply same_partition_trans; [apply same_partition_sym, sorted_tuple_same_partition; eauto|].
    eapply same_partition_trans; [exact Hst|]. apply sorted_tuple_same_partition; auto.
Qed.

Lemma same_partition_map {A B} (f : A -> B) (s : list A) :
  (forall x y, In x s -> In y s -> f x = f y -> x = y) -> same_partition s (map f s).
Proof.
  intros Hinj. split; [rewrite map_length; auto|]. intros i j a a' b b' Ha Ha' Hb Hb'.
  rewrite nth_error_map in Hb, Hb'. rewrite Ha in Hb. rewrite Ha' in Hb'. simpl in *.
  inversion Hb; inversion Hb'; subst. split; [congruence|]. apply Hinj; eapply nth_error_In; eauto.
Qed.

Lemma sorted_tuple_idempotent t c : sorted_tuple t = Ok c -> sorted_tuple (map Z.of_nat c) = Ok c.
Proof.
  intros H. destruct (sorted_tuple_total (map Z.of_nat c)) as [d Hd]. rewrite Hd. f_equal.
  apply canonical_unique; eauto using sorted_tuple_canonical.
  eapply same_partition_trans; [apply same_partition_sym, sorted_tuple_same_partition; eauto|].
  apply same_partition_sym, same_partition_map. intros; lia.
Qed.

(** ** Memoisation *)
Section LRUProofs.
  Context {K V : Type} (eqb : K -> K -> bool) (f : K -> res V) (maxsize : nat).
  Hypothesis eqb_spec : forall a b, eqb a b = true -> f a = f b.

  Definition cache_ok (c : list (K * V)) := forall k v, In (k, v) c -> f k = Ok v.

  Lemma lru_find_ok c k v : cache_ok c -> lru_find eqb c k = Some v -> f k = Ok v.
  Proof.
    induction c as [|[k' v'] c IH]; simpl; intros Hc H; [discriminate|].
    destruct (eqb k k') eqn:E.
    - inversion H; subst. rewrite (eqb_spec E). apply Hc; simpl; auto.
    - apply IH; auto. intros a b Hab; apply Hc; simpl; auto.
  Qed.

  Lemma lru_remove_incl (c : list (K * V)) k x : In x (lru_remove eqb c k) -> In x c.
  Proof.
    induction c as [|[k' v'] c IH]; simpl; auto. destruct (eqb k k'); simpl; intuition.
  Qed.

  Lemma lru_remove_length (c : list (K * V)) k v : lru_find eqb c k = Some v -> S (length (lru_remove eqb c k)) = length c.
  Proof.
    induction c as [|[k' v'] c IH]; simpl; [discriminate|]. destruct (eqb k k'); simpl; auto.
  Qed.

  Lemma lru_call_ok c k : cache_ok c -> length c <= maxsize ->
    cache_ok (fst (lru_call eqb f maxsize c k)) /\ length (fst (lru_call eqb f maxsize c k)) <= maxsize /\
    snd (lru_call eqb f maxsize c k) = f k.
  Proof.
    intros Hc Hlen. unfold lru_call. destruct (lru_find eqb c k) as [v|] eqn:E.
    - simpl. pose proof (lru_find_ok k Hc E) as Hf. repeat split; auto.
      + intros a b [H|H]; [inversion H; subst; auto | apply Hc; eapply lru_remove_incl; eauto].
      + rewrite (lru_remove_length c k E). auto.
    - destruct (f k) as [v|e] eqn:Ef; cbn [fst snd]; repeat split; auto.
      + intros a b H. assert (Hin : In (a, b) ((k, v) :: c)).
        { rewrite <- (firstn_skipn maxsize ((k, v) :: c)). apply in_or_app; auto. }
        destruct Hin as [H'|H']; [inversion H'; subst; auto | auto].
      + rewrite firstn_length. lia.
  Qed.

  Lemma lru_calls_ok ks : forall c, cache_ok c -> length c <= maxsize ->
    snd (lru_calls eqb f maxsize c ks) = map f ks /\ length (fst (lru_calls eqb f maxsize c ks)) <= maxsize.
  Proof.
    induction ks as [|k ks IH]; simpl; intros c Hc Hlen; auto.
    destruct (lru_call eqb f maxsize c k) as [c1 r] eqn:E.
    pose proof (lru_call_ok k Hc Hlen) as (H1 & H2 & H3). rewrite E in *. simpl in *.
    specialize (IH c1 H1 H2). destruct (lru_calls eqb f maxsize c1 ks) as [c2 rs]. simpl in *.
    destruct IH as [-> IH]. subst. auto.
  Qed.
End LRUProofs.

Lemma list_eqb_true {A} (eqb : A -> A -> bool) (H : forall a b, eqb a b = true <-> a = b) s t :
  list_eqb eqb s t = true <-> s = t.
Proof.
  revert t; induction s as [|x s IH]; intros [|y t]; simpl; split; intros E; try discriminate; auto.
  - apply andb_true_iff in E as [E1 E2]. apply H in E1. apply IH in E2. congruence.
  - inversion E; subst. apply andb_true_iff. split; [apply H | apply IH]; auto.
Qed.

Lemma sorted_tuple_calls_ok ks :
  snd (sorted_tuple_calls [] ks) = map sorted_tuple ks /\ length (fst (sorted_tuple_calls [] ks)) <= 1000.
Proof.
  apply lru_calls_ok.
  - intros a b H. apply list_eqb_true in H; [congruence|]. apply Z.eqb_eq.
  - intros k v [].
  - simpl; lia.
Qed.

(** ** num_communities *)
Lemma nodup_range c k : canonical c -> (forall x, In x c <-> x < k) -> length (nodup Nat.eq_dec c) = k.
Proof.
  intros _ H. assert (HP : Permutation (nodup Nat.eq_dec c) (seq 0 k)).
  { apply NoDup_Permutation; [apply NoDup_nodup | apply seq_NoDup |].
    intros x. rewrite nodup_In, in_seq, H. lia. }
  apply Permutation_length in HP. rewrite seq_length in HP. auto.
Qed.

Lemma nodup_below l m : (forall y, In y l -> y <= m) -> length (nodup Nat.eq_dec l) <= m + 1.
Proof.
  intros H. rewrite <- (seq_length (m + 1) 0). apply NoDup_incl_length; [apply NoDup_nodup|].
  intros x Hx. apply nodup_In in Hx. apply in_seq. specialize (H x Hx). lia.
Qed.

Lemma num_communities_spec l k :
  num_communities l = Ok k <-> k > 0 /\ forall x, In x l <-> x < k.
Proof.
  unfold num_communities. split.
  - intros H. apply bind_ok in H as (m & Hm & H). apply py_max_spec in Hm as [Hm1 Hm2].
    destruct (Nat.eqb_spec (length (nodup Nat.eq_dec l)) (m + 1)) as [E|E]; [|discriminate].
    inversion H as [Hk]. split; [lia|]. rewrite E.
    intros x. split; [intros Hx; specialize (Hm2 x Hx); lia|]. intros Hx.
    assert (Hincl : incl (nodup Nat.eq_dec l) (seq 0 (m + 1))).
    { intros y Hy. apply nodup_In in Hy. apply in_seq. specialize (Hm2 y Hy). lia. }
    apply nodup_In with (decA := Nat.eq_dec).
    assert (Hi : incl (seq 0 (m + 1)) (nodup Nat.eq_dec l)).
    { apply NoDup_length_incl; [apply NoDup_nodup | rewrite seq_length; lia | auto]. }
    apply Hi. apply in_seq. lia.
  - intros [Hk H].
    assert (py_max l = Ok (k - 1)) as ->.
    { apply py_max_spec. split; [apply H; lia|]. intros y Hy. apply H in Hy. lia. }
    simpl. assert (HP : Permutation (nodup Nat.eq_dec l) (seq 0 k)).
    { apply NoDup_Permutation; [apply NoDup_nodup | apply seq_NoDup |].
      intros x. rewrite nodup_In, in_seq, H. lia. }
    apply Permutation_length in HP. rewrite seq_length in HP. rewrite HP.
    replace (k - 1 + 1) with k by lia. rewrite Nat.eqb_refl. reflexivity.
Qed.

Lemma canonical_range c : canonical c -> c <> [] ->
  exists k, k > 0 /\ forall x, In x c <-> x < k.
Proof.
  intros Hc Hne. destruct (py_max_nonempty Hne) as [m Hm]. apply py_max_spec in Hm as [H1 H2].
  exists (S m). split; [lia|]. intros x. split; [intros Hx; specialize (H2 x Hx); lia|].
  intros Hx. destruct (Nat.eq_dec x m) as [->|]; auto.
  destruct (in_occurs_first Nat.eq_dec c m H1) as [i Hi].
  destruct (Hc m i Hi x ltac:(lia)) as (k & _ & Hk). eapply nth_error_In; apply Hk.
Qed.

Lemma num_communities_canonical c : canonical c -> c <> [] ->
  exists k, num_communities c = Ok k /\ has_communities c k.
Proof.
  intros Hc Hne. destruct (canonical_range Hc Hne) as (k & Hk & H).
  exists k. split; [apply num_communities_spec; auto|].
  exists (seq 0 k). split; [apply seq_NoDup|]. split; [apply seq_length|].
  intros x. rewrite in_seq, H. lia.
Qed.

Lemma num_communities_has l k : num_communities l = Ok k -> has_communities l k.
Proof.
  intros H. apply num_communities_spec in H as [Hk H].
  exists (seq 0 k). split; [apply seq_NoDup|]. split; [apply seq_length|].
  intros x. rewrite in_seq, H. lia.
Qed.

Lemma has_communities_unique {A} (c : list A) k k' : has_communities c k -> has_communities c k' -> k = k'.
Proof.
  intros (l & H1 & H2 & H3) (l' & H1' & H2' & H3'). subst.
  apply Nat.le_antisymm; apply NoDup_incl_length; auto; intros x Hx.
  - apply H3', H3; auto.
  - apply H3, H3'; auto.
Qed.

Lemma has_communities_same_partition {A B} (eqd : forall x y : A, {x = y} + {x <> y})
  (s : list A) (t : list B) k : same_partition s t -> has_communities s k -> has_communities t k.
Proof.
  intros Hsp (l & Hnd & Hlen & Hl).
  (* send each label of s to the label of t at its first occurrence *)
  assert (Hex : exists l', NoDup l' /\ length l' = length l /\
            Forall2 (fun a b => exists i, nth_error s i = Some a /\ nth_error t i = Some b) l l').
  { assert (Hin : forall x, In x l -> In x s) by (intros; apply Hl; auto). clear Hl Hlen.
    induction Hnd as [|x l Hx Hnd IH].
    - exists []. repeat constructor.
    - destruct IH as (l' & H1 & H2 & H3); [intros; apply Hin; simpl; auto|].
      destruct (In_nth_error s x (Hin x (or_introl eq_refl))) as [i Hi].
      destruct (nth_error_same_length s t i (proj1 Hsp) Hi) as [b Hb].
      exists (b :: l'). split; [|split].
      + constructor; auto. intros Hbin.
        apply Forall2_nth in H3 as [Hl3 H3]. apply In_nth_error in Hbin as [p Hp].
        destruct (nth_error_same_length l' l p (eq_sym Hl3) Hp) as [a Ha].
        destruct (H3 p a b Ha Hp) as (j & Hja & Hjb).
        apply Hx. replace x with a; [eapply nth_error_In; eauto|].
        apply (proj2 Hsp j i a x b b); auto.
      + simpl; auto.
      + constructor; eauto. }
  destruct Hex as (l' & H1 & H2 & H3). exists l'. split; auto. split; [lia|].
  apply Forall2_nth in H3 as [Hl3 H3]. intros b. split.
  - intros Hb. apply In_nth_error in Hb as [p Hp].
    destruct (nth_error_same_length l' l p (eq_sym Hl3) Hp) as [a Ha].
    destruct (H3 p a b Ha Hp) as (j & _ & Hjb). eapply nth_error_In; eauto.
  - intros Hb. apply In_nth_error in Hb as [i Hi].
    destruct (nth_error_same_length t s i (eq_sym (proj1 Hsp)) Hi) as [a Ha].
    assert (Hal : In a l) by (apply Hl; eapply nth_error_In; eauto).
    apply In_nth_error in Hal as [p Hp].
    destruct (nth_error_same_length l l' p Hl3 Hp) as [b' Hb'].
    destruct (H3 p a b' Hp Hb') as (j & Hja & Hjb).
    replace b with b'; [eapply nth_error_In; eauto|].
    apply (proj2 Hsp j i a a b' b); auto.
Qed.

(** ** Grouping *)
Section Group.
  Context {K V : Type} (eqb : K -> K -> bool).
  Hypothesis eqb_eq : forall a b, eqb a b = true <-> a = b.

  Lemma eqb_refl' a : eqb a a = true.
  Proof. apply eqb_eq; auto. Qed.

  Definition group (kvs : list (K * V)) : list (K * list V) :=
    fold_left (fun d kv => ddict_append eqb d (fst kv) (snd kv)) kvs [].

  Lemma ddict_append_keys (d : list (K * list V)) k v :
    map fst (ddict_append eqb d k v) = if existsb (fun k' => eqb k k') (map fst d) then map fst d else map fst d ++ [k].
  Proof.
    induction d as [|[k' vs] d IH]; simpl; auto.
    destruct (eqb k k'); simpl; auto. rewrite IH. destruct (existsb _ _); auto.
  Qed.

  (** The dict built from [kvs]: keys in order of first appearance, values filtered by key. *)
  Definition group_spec (kvs : list (K * V)) (d : list (K * list V)) : Prop :=
    NoDup (map fst d) /\ (forall k, In k (map fst d) <-> In k (map fst kvs)) /\
    (forall k vs, In (k, vs) d -> vs = map snd (filter (fun kv => eqb (fst kv) k) kvs)).

  Lemma ddict_append_in (d : list (K * list V)) k v k' vs :
    NoDup (map fst d) ->
    In (k', vs) (ddict_append eqb d k v) ->
    (k' = k /\ ((exists vs0, In (k, vs0) d /\ vs = vs0 ++ [v]) \/ (~ In k (map fst d) /\ vs = [v])))
    \/ (k' <> k /\ In (k', vs) d).
  Proof.
    induction d as [|[k1 vs1] d IH]; simpl; intros Hn H.
    - destruct H as [H|[]]. inversion H; subst. left. auto.
    - inversion Hn as [|a b Hk1 Hn']; subst. destruct (eqb k k1) eqn:E.
      + apply eqb_eq in E; subst k1. destruct H as [H|H].
        * inversion H; subst. left. split; auto. left. exists vs1. auto.
        * right. split; auto. intros ->. apply Hk1. apply in_map_iff. exists (k, vs); auto.
      + assert (k <> k1) by (intros ->; rewrite eqb_refl' in E; discriminate).
        destruct H as [H|H].
        * inversion H; subst. right; auto.
        * destruct (IH Hn' H) as [[-> [(vs0 & Hin & ->)|[Hni ->]]]|[Hne Hin]].
          -- left. split; auto. left. exists vs0; auto.
          -- left. split; auto. right. split; auto. intros [?|?]; auto.
          -- right; auto.
  Qed.

  Lemma NoDup_snoc {A} (l : list A) x : NoDup l -> ~ In x l -> NoDup (l ++ [x]).
  Proof.
    intros Hl Hx. apply Permutation_NoDup with (l := x :: l); [apply Permutation_cons_append|].
    constructor; auto.
  Qed.

  Lemma ddict_append_spec kvs d k v :
    group_spec kvs d -> group_spec (kvs ++ [(k, v)]) (ddict_append eqb d k v).
  Proof.
    intros (Hn & Hk & Hv). split; [|split].
    - rewrite ddict_append_keys. destruct (existsb _ _) eqn:E; auto.
      apply NoDup_snoc; auto. intros Hin. assert (existsb (fun k' => eqb k k') (map fst d) = true); [|congruence].
      apply existsb_exists. exists k. split; auto using eqb_refl'.
    - intros k0. rewrite ddict_append_keys, map_app, in_app_iff. simpl.
      destruct (existsb _ _) eqn:E.
      + rewrite Hk. split; auto. intros [?|[<-|[]]]; auto.
        apply existsb_exists in E as (k1 & H1 & H2). apply eqb_eq in H2; subst. apply Hk; auto.
      + rewrite in_app_iff, Hk. simpl. tauto.
    - intros k0 vs Hin. rewrite filter_app, map_app. simpl.
      apply ddict_append_in in Hin; auto. destruct Hin as [[-> Hc]|[Hne Hin]].
      + rewrite eqb_refl'. simpl. destruct Hc as [(vs0 & Hin & ->)|[Hni ->]].
        * rewrite (Hv k vs0 Hin). reflexivity.
        * replace (filter (fun kv => eqb (fst kv) k) kvs) with (@nil (K * V)); auto.
          symmetry. destruct (filter _ kvs) as [|[k1 v1] l] eqn:F; auto. exfalso. apply Hni.
          assert (Hf : In (k1, v1) (filter (fun kv => eqb (fst kv) k) kvs)) by (rewrite F; simpl; auto).
          apply filter_In in Hf as [Hf1 Hf2]. simpl in Hf2. apply eqb_eq in Hf2; subst.
          apply Hk. apply in_map_iff. exists (k, v1); auto.
      + destruct (eqb k k0) eqn:E; [apply eqb_eq in E; congruence|]. simpl. rewrite app_nil_r. auto.
  Qed.

  Lemma group_ok kvs : group_spec kvs (group kvs).
  Proof.
    unfold group. rewrite <- (app_nil_l kvs) at 1.
    assert (H0 : group_spec [] (@nil (K * list V))).
    { split; [constructor|]. split; [simpl; tauto | intros k vs []]. }
    revert H0. generalize (@nil (K * V)) as pre. generalize (@nil (K * list V)) as d.
    induction kvs as [|[k v] kvs IH]; intros d pre H.
    - rewrite app_nil_r. exact H.
    - simpl. replace (pre ++ (k, v) :: kvs) with ((pre ++ [(k, v)]) ++ kvs) by (rewrite <- app_assoc; reflexivity).
      apply IH. apply ddict_append_spec; auto.
  Qed.

  (** keys in order of first appearance *)
  Definition first_appearance (ks : list K) : list K :=
    fold_left (fun acc k => if existsb (fun k' => eqb k k') acc then acc else acc ++ [k]) ks [].

  Lemma group_keys_gen (kvs : list (K * V)) : forall d : list (K * list V),
    map fst (fold_left (fun d kv => ddict_append eqb d (fst kv) (snd kv)) kvs d) =
    fold_left (fun acc k => if existsb (fun k' => eqb k k') acc then acc else acc ++ [k]) (map fst kvs) (map fst d).
  Proof.
    induction kvs as [|[k v] kvs IH]; simpl; intros d; auto.
    rewrite IH, ddict_append_keys. destruct (existsb _ _); reflexivity.
  Qed.

  Lemma group_keys kvs : map fst (group kvs) = first_appearance (map fst kvs).
  Proof. unfold group, first_appearance. rewrite group_keys_gen. reflexivity. Qed.
End Group.

Lemma membership_to_communities_group m :
  membership_to_communities m = group Nat.eqb (map (fun vc => (snd vc, fst vc)) (enumerate m)).
Proof.
  unfold membership_to_communities, group. generalize (enumerate m) as l. generalize (@nil (nat * list nat)) as d.
  intros d l; revert d; induction l as [|[v c] l IH]; simpl; intros d; auto.
Qed.

Lemma pair_eqb_eq a b : pair_eqb a b = true <-> a = b.
Proof.
  destruct a as [a1 a2], b as [b1 b2]; unfold pair_eqb; simpl.
  rewrite andb_true_iff, !Nat.eqb_eq. split; [intros [-> ->]; auto | intros H; inversion H; auto].
Qed.

Lemma layered_group m lv : length m <= length lv ->
  membership_to_layered_communities m lv =
  Ok (group pair_eqb (map (fun vc => ((snd vc, nth (fst vc) lv 0), fst vc)) (enumerate m))).
Proof.
  intros Hlen. unfold membership_to_layered_communities.
  rewrite (foldM_ok _ (fun d vc => ddict_append pair_eqb d (snd vc, nth (fst vc) lv 0) (fst vc))).
  - f_equal. unfold group. generalize (enumerate m) as l. generalize (@nil (nat * nat * list nat)) as d.
    intros d l; revert d; induction l as [|[v c] l IH]; simpl; intros d; auto.
  - intros d [v c] Hin. apply in_enumerate in Hin. simpl.
    assert (v < length m) by (apply nth_error_Some; congruence).
    rewrite (py_get_ok lv 0) by lia. reflexivity.
Qed.

(** The vertices of a group, as a filter of all vertices. *)
Lemma enumerate_from_filter {K} (eqb : K -> K -> bool) (g : nat -> K) (m : list nat) (k : K) (f : nat -> nat -> K) i :
  (forall p c, nth_error m p = Some c -> f (i + p) c = g (i + p)) ->
  map snd (filter (fun kv : K * nat => eqb (fst kv) k) (map (fun vc => (f (fst vc) (snd vc), fst vc)) (enumerate_from i m)))
  = filter (fun v => eqb (g v) k) (seq i (length m)).
Proof.
  revert i; induction m as [|c m IH]; simpl; intros i H; auto.
  assert (Hi : f i c = g i) by (rewrite <- (Nat.add_0_r i); apply (H 0 c eq_refl)). rewrite <- Hi.
  assert (H' : forall p c0, nth_error m p = Some c0 -> f (S i + p) c0 = g (S i + p)).
  { intros p c0 Hp. replace (S i + p) with (i + S p) by lia. apply H. auto. }
  destruct (eqb (f i c) k); simpl; rewrite IH; auto.
Qed.

Lemma map_key_enumerate {K} (m : list nat) (f : nat -> nat -> K) (g : nat -> K) i :
  (forall p c, nth_error m p = Some c -> f (i + p) c = g (i + p)) ->
  map fst (map (fun vc => (f (fst vc) (snd vc), fst vc)) (enumerate_from i m)) = map g (seq i (length m)).
Proof.
  revert i; induction m as [|c m IH]; simpl; intros i H; auto. f_equal.
  - rewrite <- (Nat.add_0_r i). apply (H 0 c eq_refl).
  - apply IH. intros p c0 Hp. replace (S i + p) with (i + S p) by lia. apply H. auto.
Qed.

Lemma seq_map_nth (m : list nat) d : map (fun i => nth i m d) (seq 0 (length m)) = m.
Proof.
  induction m as [|x m IH]; simpl; auto. f_equal. rewrite <- seq_shift, map_map. exact IH.
Qed.

Lemma communities_spec m :
  let d := membership_to_communities m in
  map fst d = first_appearance Nat.eqb m /\ NoDup (map fst d) /\ (forall c, In c (map fst d) <-> In c m) /\
  (forall c vs, In (c, vs) d -> vs = filter (fun v => nth v m 0 =? c) (seq 0 (length m))).
Proof.
  simpl. rewrite membership_to_communities_group.
  set (kvs := map (fun vc : nat * nat => (snd vc, fst vc)) (enumerate m)).
  assert (Hg : forall p c, nth_error m p = Some c -> c = nth (0 + p) m 0).
  { intros p c Hp. symmetry. apply nth_error_nth. auto. }
  assert (Hk : map fst kvs = m).
  { unfold kvs, enumerate. rewrite (map_key_enumerate m (fun _ c => c) (fun v => nth v m 0)) by auto. apply seq_map_nth. }
  destruct (group_ok Nat.eqb Nat.eqb_eq kvs) as (H1 & H2 & H3).
  split; [|split; [|split]]; auto.
  - rewrite group_keys, Hk. reflexivity.
  - intros c. rewrite H2, Hk. tauto.
  - intros c vs Hin. rewrite (H3 c vs Hin). unfold kvs, enumerate.
    apply (enumerate_from_filter Nat.eqb (fun v => nth v m 0) m c (fun _ c => c) 0). auto.
Qed.

Lemma layered_communities_spec m lv : length m <= length lv ->
  exists d, membership_to_layered_communities m lv = Ok d /\
  map fst d = first_appearance pair_eqb (map (fun v => (nth v m 0, nth v lv 0)) (seq 0 (length m))) /\
  NoDup (map fst d) /\
  (forall k, In k (map fst d) <-> exists v, v < length m /\ k = (nth v m 0, nth v lv 0)) /\
  (forall k vs, In (k, vs) d -> vs = filter (fun v => pair_eqb (nth v m 0, nth v lv 0) k) (seq 0 (length m))).
Proof.
  intros Hlen. rewrite layered_group by auto. eexists; split; [reflexivity|].
  set (kvs := map (fun vc : nat * nat => ((snd vc, nth (fst vc) lv 0), fst vc)) (enumerate m)).
  assert (Hg : forall p c, nth_error m p = Some c -> (c, nth (0 + p) lv 0) = (nth (0 + p) m 0, nth (0 + p) lv 0)).
  { intros p c Hp. f_equal. symmetry. apply nth_error_nth. auto. }
  assert (Hk : map fst kvs = map (fun v => (nth v m 0, nth v lv 0)) (seq 0 (length m))).
  { unfold kvs, enumerate.
    apply (map_key_enumerate m (fun v c => (c, nth v lv 0)) (fun v => (nth v m 0, nth v lv 0)) 0). auto. }
  destruct (group_ok pair_eqb pair_eqb_eq kvs) as (H1 & H2 & H3).
  split; [|split; [|split]]; auto.
  - rewrite group_keys, Hk. reflexivity.
  - intros k. rewrite H2, Hk, in_map_iff. split.
    + intros (v & <- & Hv). apply in_seq in Hv. exists v. split; auto; lia.
    + intros (v & Hv & ->). exists v. split; auto. apply in_seq; lia.
  - intros k vs Hin. rewrite (H3 k vs Hin). unfold kvs, enumerate.
    apply (enumerate_from_filter pair_eqb (fun v => (nth v m 0, nth v lv 0)) m k (fun v c => (c, nth v lv 0)) 0). auto.
Qed.

(** ** Python sets *)
Lemma set_add_in x s y : In y (set_add x s) <-> y = x \/ In y s.
Proof. unfold set_add. destruct (in_dec tuple_eq_dec x s); simpl; intuition; subst; auto. Qed.
Lemma set_add_nodup x s : NoDup s -> NoDup (set_add x s).
Proof. unfold set_add. destruct (in_dec tuple_eq_dec x s); auto. constructor; auto. Qed.

Lemma py_set_gen l : forall s, NoDup s ->
  NoDup (fold_left (fun s x => set_add x s) l s) /\
  forall y, In y (fold_left (fun s x => set_add x s) l s) <-> In y s \/ In y l.
Proof.
  induction l as [|x l IH]; simpl; intros s Hs; [intuition|].
  destruct (IH (set_add x s) (set_add_nodup x Hs)) as [H1 H2]. split; auto.
  intros y. rewrite H2, set_add_in. intuition.
Qed.
Lemma py_set_in l y : In y (py_set l) <-> In y l.
Proof. unfold py_set. destruct (py_set_gen l (NoDup_nil _)) as [_ H]. rewrite H. simpl; tauto. Qed.
Lemma py_set_nodup l : NoDup (py_set l).
Proof. apply (py_set_gen l (NoDup_nil _)). Qed.

(** ** Order of first appearance *)
Lemma occurs_first_app_l {A} (l l' : list A) a i : occurs_first l a i -> occurs_first (l ++ l') a i.
Proof.
  intros [H1 H2]. assert (i < length l) by (apply nth_error_Some; congruence). split.
  - rewrite nth_error_app1; auto.
  - intros j Hj. rewrite nth_error_app1 by lia. auto.
Qed.

Lemma occurs_first_app_inv {A} (l l' : list A) a i :
  occurs_first (l ++ l') a i -> i < length l -> occurs_first l a i.
Proof.
  intros [H1 H2] Hi. split.
  - rewrite nth_error_app1 in H1; auto.
  - intros j Hj. specialize (H2 j Hj). rewrite nth_error_app1 in H2 by lia. auto.
Qed.

Section FirstAppearance.
  Context {K : Type} (eqb : K -> K -> bool).
  Hypothesis eqb_eq : forall a b, eqb a b = true <-> a = b.

  Lemma first_appearance_snoc ks k :
    first_appearance eqb (ks ++ [k]) =
    if existsb (fun k' => eqb k k') (first_appearance eqb ks) then first_appearance eqb ks
    else first_appearance eqb ks ++ [k].
  Proof. unfold first_appearance. rewrite fold_left_app. reflexivity. Qed.

  Lemma first_appearance_in ks k : In k (first_appearance eqb ks) <-> In k ks.
  Proof.
    induction ks as [|x ks IH] using rev_ind; [simpl; tauto|].
    rewrite first_appearance_snoc, in_app_iff. destruct (existsb _ _) eqn:E.
    - rewrite IH. simpl. split; auto. intros [H|[<-|[]]]; auto.
      apply existsb_exists in E as (y & Hy & Hxy). apply eqb_eq in Hxy. subst. apply IH; auto.
    - rewrite in_app_iff, IH. tauto.
  Qed.

  Lemma first_appearance_order ks : forall i j a b p q,
    i < j -> nth_error (first_appearance eqb ks) i = Some a -> nth_error (first_appearance eqb ks) j = Some b ->
    occurs_first ks a p -> occurs_first ks b q -> p < q.
  Proof.
    assert (eqd : forall x y : K, {x = y} + {x <> y}).
    { intros x y. destruct (eqb x y) eqn:E; [left; apply eqb_eq; auto | right; intros ->].
      assert (eqb y y = true) by (apply eqb_eq; auto). congruence. }
    induction ks as [|k ks IH] using rev_ind; intros i j a b p q Hij Ha Hb Hp Hq.
    - destruct i; discriminate.
    - rewrite first_appearance_snoc in Ha, Hb.
      assert (Hold : forall x r, In x ks -> occurs_first (ks ++ [k]) x r -> r < length ks /\ occurs_first ks x r).
      { intros x r Hx Hr. destruct (in_occurs_first eqd ks x Hx) as [r' Hr'].
        pose proof (occurs_first_app_l [k] Hr') as Hr''. rewrite (occurs_first_unique Hr Hr'').
        split; auto. apply nth_error_Some. destruct Hr' as [-> _]. discriminate. }
      destruct (existsb _ _) eqn:E.
      + apply nth_error_In in Ha as Ia. apply nth_error_In in Hb as Ib. rewrite first_appearance_in in Ia, Ib.
        apply (IH i j a b p q); auto; apply Hold; auto.
      + destruct (Nat.lt_ge_cases j (length (first_appearance eqb ks))) as [Hj|Hj].
        * rewrite nth_error_app1 in Ha, Hb by lia.
          apply nth_error_In in Ha as Ia. apply nth_error_In in Hb as Ib. rewrite first_appearance_in in Ia, Ib.
          apply (IH i j a b p q); auto; apply Hold; auto.
        * rewrite nth_error_app2 in Hb by lia.
          destruct (j - length (first_appearance eqb ks)) as [|n] eqn:En; [|destruct n; discriminate].
          simpl in Hb. inversion Hb; subst b.
          rewrite nth_error_app1 in Ha by lia. apply nth_error_In in Ha as Ia. rewrite first_appearance_in in Ia.
          destruct (Hold a p Ia Hp) as [Hpl _].
          assert (Hnk : ~ In k ks).
          { intros Hk. apply first_appearance_in in Hk.
            assert (existsb (fun k' => eqb k k') (first_appearance eqb ks) = true); [|congruence].
            apply existsb_exists. exists k. split; auto. apply eqb_eq; auto. }
          destruct (Nat.lt_ge_cases q (length ks)) as [Hql|Hql]; [|lia].
          exfalso. apply Hnk. apply occurs_first_app_inv in Hq; auto. eapply nth_error_In; apply Hq.
  Qed.
End FirstAppearance.

(** [increasing l]: strictly increasing list. *)
Lemma filter_seq_sorted (p : nat -> bool) n : forall i, StronglySorted lt (filter p (seq i n)).
Proof.
  induction n as [|n IH]; simpl; intros i; [constructor|].
  destruct (p i); auto. constructor; auto.
  apply Forall_forall. intros x Hx. apply filter_In in Hx as [Hx _]. apply in_seq in Hx. lia.
Qed.

Lemma communities_grouping m : grouping m (membership_to_communities m).
Proof.
  pose proof (communities_spec m) as (H1 & H2 & H3 & H4). split; [|split; [|split]].
  - exact H2.
  - exact H3.
  - intros i j a b p q Hij Ha Hb Hp Hq. rewrite H1 in Ha, Hb.
    exact (first_appearance_order Nat.eqb Nat.eqb_eq Hij Ha Hb Hp Hq).
  - intros c vs Hin. rewrite (H4 c vs Hin). split; [apply filter_seq_sorted|].
    intros v. rewrite filter_In, in_seq, Nat.eqb_eq. split.
    + intros [Hv <-]. apply nth_error_nth'. lia.
    + intros Hv. split; [|apply nth_error_nth; auto].
      assert (v < length m) by (apply nth_error_Some; congruence). lia.
Qed.

Lemma nth_error_layered m lv : length m <= length lv -> forall v k,
  nth_error (combine m lv) v = Some k <-> v < length m /\ k = (nth v m 0, nth v lv 0).
Proof.
  intros Hlen. revert lv Hlen. induction m as [|x m IH]; intros [|y lv] Hlen v k; simpl in *; try lia.
  - destruct v; simpl; split; try discriminate; intros [? _]; lia.
  - destruct v; simpl; split; try discriminate; intros [? _]; lia.
  - destruct v as [|v]; simpl.
    + split; [intros H; inversion H; split; auto; lia | intros [_ ->]; auto].
    + rewrite IH by lia. intuition lia.
Qed.

Lemma combine_as_map (m lv : list nat) : length m <= length lv ->
  map (fun v => (nth v m 0, nth v lv 0)) (seq 0 (length m)) = combine m lv.
Proof.
  revert lv; induction m as [|x m IH]; intros [|y lv] Hlen; simpl in *; auto; try lia.
  f_equal. rewrite <- seq_shift, map_map. apply IH. lia.
Qed.

Lemma layered_grouping m lv : length m <= length lv ->
  exists d, membership_to_layered_communities m lv = Ok d /\ grouping (combine m lv) d.
Proof.
  intros Hlen. destruct (layered_communities_spec m lv Hlen) as (d & Hd & H1 & H2 & H3 & H4).
  exists d. split; auto. rewrite (combine_as_map m lv Hlen) in H1. split; [|split; [|split]].
  - exact H2.
  - intros k. rewrite H3. split.
    + intros (v & Hv & ->). eapply nth_error_In with (n := v). apply nth_error_layered; auto.
    + intros Hk. apply In_nth_error in Hk as [v Hv]. apply nth_error_layered in Hv as [Hv ->]; eauto.
  - intros i j a b p q Hij Ha Hb Hp Hq. rewrite H1 in Ha, Hb.
    exact (first_appearance_order pair_eqb pair_eqb_eq Hij Ha Hb Hp Hq).
  - intros c vs Hin. rewrite (H4 c vs Hin). split; [apply filter_seq_sorted|].
    intros v. rewrite filter_In, in_seq, pair_eqb_eq. rewrite nth_error_layered by auto. intuition (subst; auto; lia).
Qed.

Lemma layered_index_error m lv : length lv < length m ->
  membership_to_layered_communities m lv = Raise IndexError.
Proof.
  intros Hlen. unfold membership_to_layered_communities, enumerate.
  assert (Hgen : forall m i d, i <= length lv -> length lv < i + length m ->
    foldM (fun d vc => let! l := py_get lv (fst vc) in Ok (ddict_append pair_eqb d (snd vc, l) (fst vc)))
      (enumerate_from i m) d = Raise IndexError).
  { clear m Hlen. induction m as [|c m IH]; simpl; intros i d Hi Hlen; [lia|].
    destruct (Nat.eq_dec i (length lv)) as [->|Hne].
    - rewrite py_get_err by lia. reflexivity.
    - rewrite (py_get_ok lv 0) by lia. simpl. apply IH; lia. }
  apply Hgen; simpl; lia.
Qed.

(** same partition = renaming by an injective map *)
Lemma same_partition_renaming {A B} (eqd : forall x y : A, {x = y} + {x <> y}) (s : list A) (t : list B) (b0 : B) :
  same_partition s t <->
  exists f, (forall x y, In x s -> In y s -> f x = f y -> x = y) /\ t = map f s.
Proof.
  split.
  - intros Hsp.
    set (f := fun a => match find (fun p => if eqd (fst p) a then true else false) (combine s t) with
                       | Some p => snd p | None => b0 end).
    assert (Hf : forall i a b, nth_error s i = Some a -> nth_error t i = Some b -> f a = b).
    { intros i a b Ha Hb. unfold f.
      destruct (find _ (combine s t)) as [[a' b']|] eqn:E.
      - apply find_some in E as [Hin E]. simpl in E. destruct (eqd a' a); [subst|discriminate].
        apply In_nth_error in Hin as [j Hj].
        assert (Hjs : nth_error s j = Some a /\ nth_error t j = Some b').
        { clear - Hj. revert s t Hj. induction j as [|j IH]; intros [|x s] [|y t] Hj; simpl in *; try discriminate; auto.
          inversion Hj; subst; auto. }
        simpl. apply (proj2 Hsp j i a a b' b); intuition.
      - exfalso. assert (Hin : In (a, b) (combine s t)).
        { clear - Ha Hb. revert s t Ha Hb. induction i as [|i IH]; intros [|x s] [|y t] Ha Hb; simpl in *; try discriminate.
          - inversion Ha; inversion Hb; auto.
          - right; auto. }
        pose proof (find_none _ _ E _ Hin) as Hn. simpl in Hn. destruct (eqd a a); congruence. }
    exists f. split.
    + intros x y Hx Hy Hxy. apply In_nth_error in Hx as [i Hi]. apply In_nth_error in Hy as [j Hj].
      destruct (nth_error_same_length s t i (proj1 Hsp) Hi) as [b Hb].
      destruct (nth_error_same_length s t j (proj1 Hsp) Hj) as [b' Hb'].
      pose proof (Hf i x b Hi Hb). pose proof (Hf j y b' Hj Hb').
      apply (proj2 Hsp i j x y b b'); congruence.
    + destruct Hsp as [Hlen _]. clearbody f. revert t Hlen Hf. induction s as [|x s IH]; intros [|y t] Hlen Hf; simpl in *; try discriminate; auto.
      f_equal; [symmetry; apply (Hf 0); auto|]. apply IH; [lia|]. intros i a b Ha Hb. apply (Hf (S i)); auto.
  - intros (f & Hinj & ->). apply same_partition_map; auto.
Qed.

(** ** Final forms of the property theorems *)
Lemma sorted_tuple_keeps t : exists c, sorted_tuple t = Ok c /\ same_partition t c.
Proof. destruct (sorted_tuple_total t) as [c Hc]. exists c. split; auto. apply sorted_tuple_same_partition; auto. Qed.

Lemma sorted_tuple_canonical_range t c : sorted_tuple t = Ok c -> canonical c /\ exists k, forall x, In x c <-> x < k.
Proof.
  intros H. pose proof (sorted_tuple_canonical t H) as Hc. split; auto.
  destruct c as [|x c]; [exists 0; simpl; intuition lia|].
  destruct (canonical_range Hc) as (k & _ & Hk); [discriminate|]. eauto.
Qed.

Lemma canonical_rejects : ~ canonical [1; 0].
Proof.
  intros H. destruct (H 1 0) with (a := 0) as (k & Hk & _); [|lia|lia].
  split; [reflexivity | intros; lia].
Qed.

Lemma sorted_tuple_invariant s t c d : sorted_tuple s = Ok c -> sorted_tuple t = Ok d ->
    (c = d <-> same_partition s t) /\
    (c = d <-> exists f : Z -> Z, (forall x y, In x s -> In y s -> f x = f y -> x = y) /\ t = map f s).
Proof.
  intros Hs Ht. split; [apply sorted_tuple_complete; auto|].
  rewrite (sorted_tuple_complete s t Hs Ht). apply same_partition_renaming; [exact Z.eq_dec | exact 0%Z].
Qed.

Lemma layered_all m lv :
    (length m <= length lv -> exists d, membership_to_layered_communities m lv = Ok d /\ grouping (combine m lv) d) /\
    (length lv < length m -> membership_to_layered_communities m lv = Raise IndexError).
Proof. split; [apply layered_grouping | apply layered_index_error]. Qed.

Lemma num_communities_errors l e : num_communities l = Raise e ->
    (l = [] /\ e = ValueError) \/
    (l <> [] /\ e = AssertionError /\ exists x y, x < y /\ In y l /\ ~ In x l).
Proof.
  intros H. destruct l as [|a l].
  - left. unfold num_communities in H. simpl in H. inversion H; auto.
  - right. split; [discriminate|].
    destruct (py_max_nonempty (l := a :: l)) as [m Hm]; [discriminate|].
    unfold num_communities in H. rewrite Hm in H. cbn [bind] in H.
    destruct (Nat.eqb_spec (length (nodup Nat.eq_dec (a :: l))) (m + 1)) as [E|E]; [discriminate|].
    inversion H as [He]. split; auto. apply py_max_spec in Hm as [H1 H2].
    destruct (forallb (fun x => if in_dec Nat.eq_dec x (a :: l) then true else false) (seq 0 m)) eqn:F.
    + exfalso. apply E.
      assert (HP : Permutation (nodup Nat.eq_dec (a :: l)) (seq 0 (m + 1))).
      { apply NoDup_Permutation; [apply NoDup_nodup | apply seq_NoDup |].
        intros x. rewrite nodup_In, in_seq. split.
        - intros Hx. specialize (H2 x Hx). lia.
        - intros Hx. destruct (Nat.eq_dec x m) as [->|]; auto. rewrite forallb_forall in F.
          specialize (F x). rewrite in_seq in F. specialize (F ltac:(lia)).
          destruct (in_dec Nat.eq_dec x (a :: l)); [auto|discriminate]. }
      apply Permutation_length in HP. rewrite seq_length in HP. auto.
    + assert (Hx : exists x, In x (seq 0 m) /\ ~ In x (a :: l)).
      { clear - F. revert F. generalize (a :: l) as l0. intros l0 F. induction (seq 0 m) as [|y s IH]; simpl in F; [discriminate|].
        destruct (in_dec Nat.eq_dec y l0) as [Hy|Hy]; simpl in F.
        - destruct (IH F) as (x & Hx & Hn). exists x. split; simpl; auto.
        - exists y. split; simpl; auto. }
      destruct Hx as (x & Hx & Hn). apply in_seq in Hx. exists x, m. repeat split; auto; lia.
Qed.

Lemma num_communities_of_sorted t c : t <> [] -> sorted_tuple t = Ok c ->
    exists k, num_communities c = Ok k /\ has_communities c k /\ has_communities t k.
Proof.
  intros Ht Hc. pose proof (sorted_tuple_same_partition t Hc) as Hsp.
  assert (Hne : c <> []).
  { intros ->. destruct Hsp as [Hl _]. destruct t; [auto|discriminate]. }
  destruct (num_communities_canonical (sorted_tuple_canonical t Hc) Hne) as (k & H1 & H2).
  exists k. repeat split; auto. eapply has_communities_same_partition; [exact Nat.eq_dec | apply same_partition_sym; exact Hsp | exact H2].
Qed.
