(** CHAMP: dominance, coverage and shape of the output. *)
From Verif Require Import PyBase PyGraph M_partition M_pool M_champ Spec Spec_graph Spec_champ L_base L_sort
  L_modularity L_modularity3 L_parallel L_bounds L_halfspace.
From Coq Require Import Sorted Classical.
Set Implicit Arguments.
Open Scope nat_scope.

(** ** The facet dictionary *)
Section Dict.
Context {V : Type}.
Implicit Types d : list (nat * list V).

Fixpoint dlook d (i : nat) : list V :=
  match d with [] => [] | (k, vs) :: d' => if Nat.eqb i k then vs else dlook d' i end.

Lemma dlook_append d k v i :
  dlook (ddict_append Nat.eqb d k v) i = if Nat.eqb i k then dlook d i ++ [v] else dlook d i.
Proof.
  induction d as [|[k' vs] d IH]; simpl.
  - destruct (Nat.eqb_spec i k); auto.
  - destruct (Nat.eqb_spec k k') as [->|Hk]; simpl.
    + destruct (Nat.eqb_spec i k'); auto.
    + destruct (Nat.eqb_spec i k') as [->|Hi].
      * destruct (Nat.eqb_spec k' k); [congruence|auto].
      * exact IH.
Qed.

Definition good_dict d : Prop := NoDup (map fst d) /\ forall i vs, In (i, vs) d -> vs <> [].

Lemma append_keys d k v x : In x (map fst (ddict_append Nat.eqb d k v)) <-> x = k \/ In x (map fst d).
Proof.
  induction d as [|[k' vs] d IH]; simpl; [intuition|].
  destruct (Nat.eqb_spec k k') as [->|Hk]; simpl; [intuition|]. rewrite IH. intuition.
Qed.

Lemma append_good d k v : good_dict d -> good_dict (ddict_append Nat.eqb d k v).
Proof.
  intros [Hn Hv]. induction d as [|[k' vs] d IH]; simpl.
  - split; [repeat constructor; simpl; tauto|]. intros i vs [E|[]]. inversion E; discriminate.
  - inversion Hn; subst. destruct (Nat.eqb_spec k k') as [->|Hk].
    + split; [simpl; auto|]. intros i vs0 [E|Hin]; [inversion E; destruct vs; discriminate|].
      apply (Hv i); simpl; auto.
    + destruct IH as [IH1 IH2]; auto; [intros; eapply Hv; simpl; eauto|]. split.
      * simpl. constructor; auto. rewrite append_keys. intros [E|Hin]; auto.
      * intros i vs0 [E|Hin]; [inversion E; subst; apply (Hv i); simpl; auto|eauto].
Qed.

Lemma good_in d i vs : good_dict d -> (In (i, vs) d <-> vs <> [] /\ dlook d i = vs).
Proof.
  intros [Hn Hv]. induction d as [|[k' vs'] d IH]; simpl.
  - split; [tauto|]. intros [H E]. auto.
  - inversion Hn; subst. assert (Hv' : forall i vs, In (i, vs) d -> vs <> []) by (intros; eapply Hv; simpl; eauto).
    specialize (IH H2 Hv'). destruct (Nat.eqb_spec i k') as [->|Hi].
    + split.
      * intros [E|Hin]; [inversion E; subst; split; auto; apply (Hv k'); simpl; auto|].
        exfalso. apply H1. apply in_map_iff. exists (k', vs). auto.
      * intros [Hne E]. subst. auto.
    + rewrite <- IH. split; [intros [E|Hin]; [congruence|auto]|auto].
Qed.
End Dict.

Definition somes {A} (l : list (option A)) : list A :=
  flat_map (fun o => match o with Some a => [a] | None => [] end) l.
Lemma somes_app {A} (l l' : list (option A)) : somes (l ++ l') = somes l ++ somes l'.
Proof. apply flat_map_app. Qed.

Lemma facet_step n v is_ : forall d, good_dict d ->
  let d' := fold_left (fun d i => if Nat.ltb i n then ddict_append Nat.eqb d i v else d) is_ d in
  good_dict d' /\ forall i, dlook d' i = dlook d i ++ (if Nat.ltb i n then map (fun _ => v) (filter (Nat.eqb i) is_) else []) :> list (list R).
Proof.
  induction is_ as [|j is_ IH]; intros d Hd; simpl.
  - split; auto. intros i. destruct (i <? n); rewrite app_nil_r; auto.
  - destruct (Nat.ltb_spec j n) as [Hj|Hj].
    + destruct (IH (ddict_append Nat.eqb d j v) (append_good j v Hd)) as [H1 H2]. split; auto.
      intros i. rewrite H2, dlook_append. destruct (Nat.eqb_spec i j) as [->|Hij].
      * destruct (Nat.ltb_spec j n); [|lia]. simpl. rewrite <- app_assoc. reflexivity.
      * auto.
    + destruct (IH d Hd) as [H1 H2]. split; auto. intros i. rewrite H2.
      destruct (Nat.ltb_spec i n); auto. destruct (Nat.eqb_spec i j); [lia|auto].
Qed.

Lemma facets_loop n out : (forall v is_, In (v, is_) out -> v <> None) -> forall d, good_dict d ->
  exists d', foldM (fun d vidx => match fst vidx with
                          | None => Raise AssertionError
                          | Some v => Ok (fold_left (fun d i => if Nat.ltb i n then ddict_append Nat.eqb d i v else d) (snd vidx) d)
                          end) out d = Ok d' /\ good_dict d' /\
    forall i, dlook d' i = dlook d i ++ (if Nat.ltb i n then somes (listed out i) else []).
Proof.
  induction out as [|[v is_] out IH]; intros Hs d Hd; cbn [foldM fst snd].
  - exists d. split; auto. split; auto. intros i. simpl. destruct (i <? n); rewrite app_nil_r; auto.
  - destruct v as [v|]; [|exfalso; apply (Hs None is_); simpl; auto].
    cbn [bind]. destruct (facet_step n v is_ Hd) as [H1 H2].
    destruct (IH (fun v' is' H => Hs v' is' (or_intror H)) _ H1) as (d' & E & H3 & H4).
    exists d'. split; [exact E|]. split; auto. intros i. rewrite H4, H2, <- app_assoc. f_equal.
    destruct (i <? n); auto. unfold listed. cbn [flat_map fst snd]. rewrite somes_app. f_equal.
    induction (filter (Nat.eqb i) is_) as [|x l IHl]; simpl; auto. f_equal; auto.
Qed.

Lemma map_Some_somes {A} (l : list (option A)) : (forall o, In o l -> o <> None) -> map Some (somes l) = l.
Proof.
  induction l as [|[a|] l IH]; simpl; intros H; auto.
  - f_equal. apply IH. intros; apply H; auto.
  - exfalso. apply (H None); auto.
Qed.

Lemma in_listed out i v : In v (listed out i) <-> exists is_, In (v, is_) out /\ In i is_.
Proof.
  unfold listed. rewrite in_flat_map. split.
  - intros ([v' is_] & Hin & H). apply in_map_iff in H as (k & E & Hk). apply filter_In in Hk as [Hk Ek].
    apply Nat.eqb_eq in Ek. simpl in E. subst. eauto.
  - intros (is_ & Hin & Hi). exists (v, is_). split; auto. apply in_map_iff. exists i. split; auto.
    apply filter_In. split; auto. apply Nat.eqb_refl.
Qed.

Lemma facets_ok n out : (forall v is_, In (v, is_) out -> v <> None) ->
  exists d, facets_by_halfspace n out = Ok d /\ NoDup (map fst d) /\
    (forall i vs, In (i, vs) d -> i < n /\ vs <> [] /\ map Some vs = listed out i) /\
    (forall i, i < n -> listed out i <> [] -> exists vs, In (i, vs) d /\ map Some vs = listed out i).
Proof.
  intros Hs. unfold facets_by_halfspace.
  destruct (facets_loop n out Hs (d := [])) as (d & E & Hg & Hl); [split; [constructor|simpl; tauto]|].
  assert (HS : forall i, map Some (somes (listed out i)) = listed out i).
  { intros i. apply map_Some_somes. intros o Ho. apply in_listed in Ho as (is_ & H & _). eapply Hs; eauto. }
  exists d. split; auto. split; [apply Hg|]. split.
  - intros i vs Hin. apply good_in in Hin as [Hne Hin]; auto. rewrite Hl in Hin. simpl in Hin.
    destruct (Nat.ltb_spec i n); [|congruence]. subst. auto.
  - intros i Hi Hne. exists (somes (listed out i)). split; auto. apply good_in; auto. split.
    + intros E0. apply Hne. rewrite <- HS, E0. reflexivity.
    + rewrite Hl. destruct (Nat.ltb_spec i n); [auto|lia].
Qed.

Open Scope R_scope.

(** ** Limits along a segment *)
Lemma pigeon {T} (L : list T) (Q : T -> R -> Prop) :
  (forall t, 0 < t < 1 -> exists i, In i L /\ Q i t) ->
  exists i, In i L /\ forall eps, 0 < eps -> exists t, 0 < t < eps /\ t < 1 /\ Q i t.
Proof.
  intros H. apply NNPP. intros N.
  assert (HE : exists eps, 0 < eps <= 1 /\ forall i, In i L -> forall t, 0 < t < eps -> ~ Q i t).
  { assert (N' : forall i, In i L -> exists eps, 0 < eps /\ forall t, 0 < t < eps -> t < 1 -> ~ Q i t).
    { intros i Hi. apply NNPP. intros M. apply N. exists i. split; auto. intros eps He. apply NNPP. intros K.
      apply M. exists eps. split; auto. intros t Ht Ht1 HQ. apply K. eauto. }
    clear N H. induction L as [|i L IH].
    - exists 1. split; [lra|]. simpl; tauto.
    - destruct IH as (e1 & He1 & H1); [intros; apply N'; simpl; auto|].
      destruct (N' i (or_introl eq_refl)) as (e2 & He2 & H2).
      exists (Rmin e1 e2). pose proof (Rmin_l e1 e2). pose proof (Rmin_r e1 e2).
      split; [split; [apply Rmin_glb_lt; lra|lra]|].
      intros j [<-|Hj] t Ht; [apply H2; lra | apply H1; auto; lra]. }
  destruct HE as (eps & He & Hno). destruct (H (eps / 2)) as (i & Hi & HQ); [lra|].
  apply (Hno i Hi (eps / 2)); auto. lra.
Qed.

Lemma affine_limit a b : (forall eps, 0 < eps -> exists t, 0 < t < eps /\ 0 <= a + b * t) -> 0 <= a.
Proof.
  intros H. destruct (Rle_dec 0 a) as [|N]; auto. exfalso.
  assert (Ha : a < 0) by lra. pose proof (Rabs_pos b) as Hb.
  destruct (H (- a / (Rabs b + 1))) as (t & (Ht0 & Ht) & Hab).
  { apply Rdiv_lt_0_compat; lra. }
  assert (b * t <= Rabs b * t).
  { apply Rmult_le_compat_r; [lra|]. apply Rle_abs. }
  assert ((Rabs b + 1) * t < - a).
  { apply (Rmult_lt_compat_l (Rabs b + 1)) in Ht; [|lra]. replace ((Rabs b + 1) * (- a / (Rabs b + 1))) with (- a) in Ht by (field; lra). auto. }
  nra.
Qed.

Lemma argmax {T} (l : list T) (f : T -> R) : l <> [] -> exists x, In x l /\ forall y, In y l -> f y <= f x.
Proof.
  induction l as [|a l IH]; [congruence|]. intros _. destruct l as [|b l].
  - exists a. split; [simpl; auto|]. intros y [<-|[]]. lra.
  - destruct IH as (x & Hx & Hm); [discriminate|]. destruct (Rle_dec (f x) (f a)).
    + exists a. split; [simpl; auto|]. intros y [<-|Hy]; [lra|]. specialize (Hm y Hy). lra.
    + exists x. split; [simpl; auto|]. intros y [<-|Hy]; [lra|auto].
Qed.

(** ** The plane *)
Section Champ2.
Variables (A P : list R) (g0 gf : R) (hs : list halfspace) (pt : list R) (out : list (option (list R) * list nat)).
Hypothesis (HP : forall p, In p P -> 0 <= p) (Hhs : champ_halfspaces_2D A P g0 gf = Ok hs)
  (Hpl : length pt = 2%nat) (Hpt : strictly_inside hs pt) (Hex : exact_intersection 2 hs out).
Let rows := combine A P.

Lemma rows2_nth i h : nth_error hs i = Some h ->
  (exists ap, nth_error rows i = Some ap /\ h = normalise (mkH [- snd ap; -1] (fst ap))) \/
  (length rows <= i)%nat.
Proof.
  destruct (champ2_inv _ _ _ _ Hhs) as (top & bottom & _ & _ & E). rewrite E. intros H.
  destruct (Nat.lt_ge_cases i (length rows)) as [Hi|Hi]; [left|right; auto].
  destruct (nth_error rows i) as [ap|] eqn:Er; [|apply nth_error_None in Er; lia].
  exists ap. split; auto. rewrite nth_error_map in H.
  rewrite nth_error_app1 in H by (rewrite map_length; auto).
  rewrite (map_nth_error _ _ _ Er) in H. inversion H; auto.
Qed.

Lemma tight2 (ap : R * R) x y : hval (normalise (mkH [- snd ap; -1] (fst ap))) [x; y] = 0 <-> y = q2 ap x.
Proof.
  assert (Hn : nonzero (mkH [- snd ap; -1] (fst ap))) by (exists (-1); simpl; split; [auto|lra]).
  destruct (normalise_sign [x; y] Hn) as (_ & -> & _). rewrite hval2. unfold q2. split; intros; lra.
Qed.

Lemma g0_lt_gf : g0 < gf.
Proof.
  destruct (list2 _ Hpl) as (u & v & E). pose proof Hpt as S. rewrite E in S.
  destruct (champ2_inv _ _ _ _ Hhs) as (top & bottom & _ & _ & E'). rewrite E' in S.
  apply champ2_feasible in S. lra.
Qed.

Lemma vertex2 i vs : (i < length rows)%nat -> map Some vs = listed out i ->
  exists ap, nth_error rows i = Some ap /\
  forall x, In x vs -> exists u y, x = [u; y] /\ y = q2 ap u /\ g0 <= u <= gf /\ forall ap', In ap' rows -> q2 ap' u <= y.
Proof.
  intros Hi Hvs. destruct (nth_error rows i) as [ap|] eqn:Er; [|apply nth_error_None in Er; lia].
  exists ap. split; auto. intros x Hx.
  assert (Hin : In (Some x) (listed out i)) by (rewrite <- Hvs; apply in_map; auto).
  apply in_listed in Hin as (is_ & Hin & Hi').
  destruct (ei_vertex _ _ _ Hex _ _ Hin) as (x' & E & Hl & Hf & Ht). inversion E; subst x'. clear E.
  destruct (list2 _ Hl) as (u & y & ->). exists u, y. split; auto.
  destruct (Ht i Hi') as (h & Hh & Hv). destruct (rows2_nth _ Hh) as [(ap' & E1 & ->)|]; [|lia].
  assert (ap' = ap) by congruence. subst. apply tight2 in Hv. split; auto.
  destruct (champ2_inv _ _ _ _ Hhs) as (top & bottom & _ & _ & E'). rewrite E' in Hf.
  apply champ2_feasible in Hf as (H1 & _ & H3). auto.
Qed.

(** the optimum over an inner gamma is attained by a reported row *)
Lemma cover2_open gamma : g0 < gamma < gf ->
  exists i ap, nth_error rows i = Some ap /\ listed out i <> [] /\ forall ap', In ap' rows -> q2 ap' gamma <= q2 ap gamma.
Proof.
  intros Hg.
  destruct (champ2_inv _ _ _ _ Hhs) as (top & bottom & (Hti & Ht) & (Hbi & Hb) & E). fold rows in Hti, Ht, Hbi, Hb, E.
  assert (Hne : rows <> []) by (intros E0; rewrite E0 in Hti; destruct Hti).
  destruct (@argmax _ rows (fun ap => q2 ap gamma) Hne) as (am & Hin & Hmax).
  set (q := q2 am gamma) in *.
  assert (Hf : feasible hs [gamma; q]).
  { eapply box_envelope_2D; eauto; [lra|]. apply in_map_iff. exists am. auto. }
  destruct (ei_boundary _ _ _ Hex (normalise (mkH [- snd am; -1] (fst am))) [gamma; q]) as (i & h & Hl & Hh & Hv); auto.
  { rewrite E. apply in_map, in_or_app. left. apply in_map_iff. exists am. auto. }
  { apply tight2. reflexivity. }
  destruct (rows2_nth _ Hh) as [(ap & Er & ->)|Hi].
  - exists i, ap. split; auto. split; auto. apply tight2 in Hv. intros ap' H'. rewrite <- Hv. apply Hmax; auto.
  - exfalso. destruct (list2 _ Hpl) as (u & v & Ept). pose proof Hpt as S. rewrite Ept, E in S.
    apply champ2_feasible in S as (S1 & S2 & S3). fold rows in S1.
    rewrite E, nth_error_map, nth_error_app2 in Hh by (rewrite map_length; auto).
    destruct (nth_error (box_2D top bottom g0 gf) _) as [hb|] eqn:Eb; [|discriminate]. inversion Hh; subst h.
    apply nth_error_In in Eb. pose proof (box_2D_nonzero top bottom g0 gf) as Hnz. rewrite Forall_forall in Hnz.
    apply (normalise_sign [gamma; q] (Hnz hb Eb)) in Hv.
    simpl in Eb. destruct Eb as [<-|[<-|[<-|[<-|[]]]]]; rewrite hval2 in Hv.
    + assert (Hq : q = top) by lra. specialize (Ht _ Hin). pose proof (S1 _ Hin).
      pose proof (HP _ (in_combine_P _ _ _ Hin)). unfold q, q2 in *.
      assert (snd am * (gamma - g0) <= 0) by nra. assert (snd am = 0) by nra. rewrite H2 in *. lra.
    + assert (Hq : q = bottom) by lra. apply in_map_iff in Hti as (tp & Et & Htp).
      pose proof (Hb _ Htp). pose proof (Hmax _ Htp). pose proof (HP _ (in_combine_P _ _ _ Htp)). pose proof (S1 _ Htp).
      unfold q2 in *. assert (snd tp * (gf - gamma) <= 0) by nra. assert (snd tp = 0) by nra. rewrite H4 in *. lra.
    + lra.
    + lra.
Qed.

Lemma cover2_row gamma : g0 <= gamma <= gf ->
  exists i ap, nth_error rows i = Some ap /\ listed out i <> [] /\ forall ap', In ap' rows -> q2 ap' gamma <= q2 ap gamma.
Proof.
  intros Hg. pose proof g0_lt_gf as Hlt. set (mid := (g0 + gf) / 2).
  destruct (pigeon (seq 0 (length rows)) (fun i t => listed out i <> [] /\
      exists ap, nth_error rows i = Some ap /\
      forall ap', In ap' rows -> q2 ap' (gamma + t * (mid - gamma)) <= q2 ap (gamma + t * (mid - gamma)))) as (i & Hi & HL).
  { intros t Ht. destruct (cover2_open (gamma := gamma + t * (mid - gamma))) as (i & ap & E1 & E2 & E3); [unfold mid; nra|].
    exists i. split; [|eauto]. apply in_seq. split; [lia|]. simpl. apply nth_error_Some. rewrite E1; discriminate. }
  destruct (nth_error rows i) as [ap|] eqn:Er; [|apply nth_error_None in Er; apply in_seq in Hi; lia].
  exists i, ap. split; auto. split; [destruct (HL 1) as (t & _ & _ & H & _); [lra|auto]|].
  intros ap' Hin.
  cut (0 <= q2 ap gamma - q2 ap' gamma); [lra|].
  apply affine_limit with (b := (snd ap' - snd ap) * (mid - gamma)). intros eps He.
  destruct (HL eps He) as (t & Ht & Ht1 & _ & ap0 & E0 & H0). inversion E0; subst ap0.
  exists t. split; auto. specialize (H0 ap' Hin). unfold q2 in *. nra.
Qed.

Lemma cover2 gamma : g0 <= gamma <= gf ->
  exists i vs, (i < length rows)%nat /\ listed out i <> [] /\ map Some vs = listed out i /\
    exists v1 v2, vs = [v1; v2] /\ Rmin (nth 0 v1 0) (nth 0 v2 0) <= gamma <= Rmax (nth 0 v1 0) (nth 0 v2 0).
Proof.
  intros Hg. destruct (cover2_row Hg) as (i & ap & Er & Hl & Hmax).
  assert (Hi : (i < length rows)%nat) by (apply nth_error_Some; rewrite Er; discriminate).
  assert (Hf : feasible hs [gamma; q2 ap gamma]).
  { eapply box_envelope_2D; eauto. apply in_map_iff. exists ap. split; auto. eapply nth_error_In; eauto. }
  destruct (champ2_inv _ _ _ _ Hhs) as (top & bottom & _ & _ & E). fold rows in E.
  assert (Hh : nth_error hs i = Some (normalise (mkH [- snd ap; -1] (fst ap)))).
  { rewrite E. apply map_nth_error. rewrite nth_error_app1 by (rewrite map_length; auto).
    rewrite (map_nth_error _ _ _ Er). reflexivity. }
  destruct (ei_facet _ _ _ Hex _ _ [gamma; q2 ap gamma] Hl Hh) as (vs & Evs & ws & Hwl & Hw0 & Hw1 & Hc); auto.
  { apply tight2. reflexivity. }
  exists i, vs. repeat split; auto. pose proof (ei_segment _ _ _ Hex eq_refl _ Hl) as H2.
  rewrite <- Evs, map_length in H2. destruct (list2 _ H2) as (v1 & v2 & ->). exists v1, v2. split; auto.
  destruct ws as [|w1 [|w2 [|]]]; try discriminate Hwl.
  specialize (Hc 0%nat). cbn [nth combine map fst snd] in Hc. rewrite !rsum_cons, rsum_nil in Hw1, Hc.
  assert (0 <= w1) by (apply Hw0; simpl; auto). assert (0 <= w2) by (apply Hw0; simpl; auto).
  set (u1 := nth 0 v1 0) in *. set (u2 := nth 0 v2 0) in *.
  pose proof (Rmin_l u1 u2). pose proof (Rmin_r u1 u2). pose proof (Rmax_l u1 u2). pose proof (Rmax_r u1 u2).
  split; nra.
Qed.
End Champ2.
