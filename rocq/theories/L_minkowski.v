(** Every bounded system of halfspaces has an exact intersection: the contract [exact_intersection] is satisfiable.
    (A point of a polytope is a convex combination of vertices.) *)
From Verif Require Import PyBase M_champ Spec_champ L_base L_halfspace L_champ.
From Coq Require Import Classical.
Set Implicit Arguments.
Open Scope R_scope.

Definition vadd (x : list R) (t : R) (u : list R) : list R := map (fun ab => fst ab + t * snd ab) (combine x u).

Lemma vadd_length x t u : length x = length u -> length (vadd x t u) = length x.
Proof. intros H. unfold vadd. rewrite map_length, combine_length. lia. Qed.

Lemma dot_vadd n : forall x u t, length x = length u -> dot n (vadd x t u) = dot n x + t * dot n u.
Proof.
  unfold dot, vadd. induction n as [|a n IH]; intros x u t H; cbn [combine map].
  - rewrite rsum_nil. lra.
  - destruct x as [|x0 x], u as [|u0 u]; try discriminate; cbn [combine map]; [rewrite rsum_nil; lra|].
    rewrite !rsum_cons. cbn [fst snd]. rewrite IH by (simpl in H; lia). lra.
Qed.

Lemma hval_vadd h x u t : length x = length u -> hval h (vadd x t u) = hval h x + t * dot (normal h) u.
Proof. intros H. unfold hval. rewrite dot_vadd by auto. lra. Qed.

Lemma nth_vadd x : forall u t k, length x = length u -> nth k (vadd x t u) 0 = nth k x 0 + t * nth k u 0.
Proof.
  unfold vadd. induction x as [|a x IH]; intros [|b u] t [|k] H; try discriminate; cbn [combine map nth fst snd]; try lra.
  apply IH. simpl in H; lia.
Qed.

(** ** Hulls *)
Definition hcomb (vs : list (list R)) (s : R) (f : nat -> R) : Prop :=
  exists ws, length ws = length vs /\ (forall w, In w ws -> 0 <= w) /\ rsum ws = s /\
    forall k, f k = rsum (map (fun wv => fst wv * nth k (snd wv) 0) (combine ws vs)).

Lemma hcomb_cons v vs s f : hcomb (v :: vs) s f <-> exists w, 0 <= w /\ hcomb vs (s - w) (fun k => f k - w * nth k v 0).
Proof.
  split.
  - intros (ws & Hl & H0 & Hs & Hf). destruct ws as [|w ws]; [discriminate|]. exists w. split; [apply H0; simpl; auto|].
    exists ws. split; [simpl in Hl; lia|]. split; [intros; apply H0; simpl; auto|]. rewrite rsum_cons in Hs. split; [lra|].
    intros k. rewrite (Hf k). cbn [combine map]. rewrite rsum_cons. cbn [fst snd]. lra.
  - intros (w & Hw & ws & Hl & H0 & Hs & Hf). exists (w :: ws). split; [simpl; lia|]. split; [intros y [<-|Hy]; auto|].
    rewrite rsum_cons. split; [lra|]. intros k. cbn [combine map]. rewrite rsum_cons, <- Hf. cbn [fst snd]. lra.
Qed.

Lemma hcomb_nil s f : hcomb [] s f <-> s = 0 /\ forall k, f k = 0.
Proof.
  split.
  - intros (ws & Hl & _ & Hs & Hf). destruct ws; [|discriminate]. rewrite rsum_nil in Hs. split; auto.
  - intros [-> H]. exists []. simpl. rewrite rsum_nil. split; auto. split; [tauto|]. auto.
Qed.

Lemma hcomb_ext vs s f f' : (forall k, f k = f' k) -> hcomb vs s f -> hcomb vs s f'.
Proof. intros E (ws & ? & ? & ? & H). exists ws. repeat split; auto. intros k. rewrite <- E. auto. Qed.

Lemma hcomb_zero vs : hcomb vs 0 (fun _ => 0).
Proof.
  induction vs as [|v vs IH]; [apply hcomb_nil; auto|]. apply hcomb_cons. exists 0. split; [lra|].
  replace (0 - 0) with 0 by lra. eapply hcomb_ext; [|apply IH]. intros; simpl; lra.
Qed.

Lemma hcomb_one vs v : In v vs -> hcomb vs 1 (fun k => nth k v 0).
Proof.
  induction vs as [|u vs IH]; [intros []|]. intros [->|H]; apply hcomb_cons.
  - exists 1. split; [lra|]. replace (1 - 1) with 0 by lra. eapply hcomb_ext; [|apply hcomb_zero]. intros; simpl; lra.
  - exists 0. split; [lra|]. replace (1 - 0) with 1 by lra. eapply hcomb_ext; [|apply IH; auto]. intros; simpl; lra.
Qed.

Lemma hcomb_lin vs : forall a b s s' f f', 0 <= a -> 0 <= b -> hcomb vs s f -> hcomb vs s' f' ->
  hcomb vs (a * s + b * s') (fun k => a * f k + b * f' k).
Proof.
  induction vs as [|v vs IH]; intros a b s s' f f' Ha Hb H H'.
  - apply hcomb_nil in H as [-> H], H' as [-> H']. apply hcomb_nil. split; [lra|]. intros k. rewrite H, H'. lra.
  - apply hcomb_cons in H as (w & Hw & H), H' as (w' & Hw' & H'). apply hcomb_cons. exists (a * w + b * w').
    split; [nra|]. pose proof (IH a b _ _ _ _ Ha Hb H H') as C.
    replace (a * s + b * s' - (a * w + b * w')) with (a * (s - w) + b * (s' - w')) by ring.
    eapply hcomb_ext; [|exact C]. intros k. cbv beta. ring.
Qed.

Lemma hull_in vs v : In v vs -> in_hull vs v.
Proof. intros H. apply (hcomb_one _ _ H). Qed.

Lemma hull_mix vs a b x s : 0 <= s <= 1 -> in_hull vs a -> in_hull vs b ->
  (forall k, nth k x 0 = (1 - s) * nth k a 0 + s * nth k b 0) -> in_hull vs x.
Proof.
  intros Hs Ha Hb E. pose proof (@hcomb_lin vs (1 - s) s 1 1 (fun k => nth k a 0) (fun k => nth k b 0) ltac:(lra) ltac:(lra) Ha Hb) as C.
  replace ((1 - s) * 1 + s * 1) with 1 in C by lra. eapply hcomb_ext; [|exact C]. intros k. cbv beta. rewrite E. reflexivity.
Qed.

(** ** Vertices *)
Section Poly.
Variables (d : nat) (hs : list halfspace).
Hypothesis Hb : bounded d hs.

Definition tight (x : list R) (h : halfspace) : bool := Reqb (hval h x) 0.
Lemma tight_true x h : tight x h = true <-> hval h x = 0.
Proof. unfold tight, Reqb. destruct (Req_EM_T (hval h x) 0); split; auto; discriminate. Qed.

Definition isvert (x : list R) : Prop := length x = d /\ feasible hs x /\
  forall u, length u = d -> (forall h, In h hs -> hval h x = 0 -> dot (normal h) u = 0) -> forall y, In y u -> y = 0.

Lemma finite_pred : forall hs' (Q : list R -> Prop),
  (forall x y, Q x -> Q y -> (forall h, In h hs' -> (hval h x = 0 <-> hval h y = 0)) -> x = y) ->
  exists V, forall x, Q x <-> In x V.
Proof.
  induction hs' as [|h hs' IH]; intros Q HQ.
  - destruct (classic (exists x, Q x)) as [(x & Hx)|N].
    + exists [x]. intros y. simpl. split; [intros Hy; left; apply HQ; simpl; tauto|intros [<-|[]]; auto].
    + exists []. intros y. simpl. split; [intros Hy; apply N; eauto|tauto].
  - destruct (IH (fun x => Q x /\ hval h x = 0)) as (V1 & H1).
    { intros x y [Hx Ex] [Hy Ey] E. apply HQ; auto. intros h' [<-|Hin]; [tauto|auto]. }
    destruct (IH (fun x => Q x /\ hval h x <> 0)) as (V2 & H2).
    { intros x y [Hx Ex] [Hy Ey] E. apply HQ; auto. intros h' [<-|Hin]; [tauto|auto]. }
    exists (V1 ++ V2). intros x. rewrite in_app_iff, <- H1, <- H2. destruct (Req_dec (hval h x) 0); tauto.
Qed.

Lemma vertices_finite : exists V, forall x, isvert x <-> In x V.
Proof.
  apply (finite_pred hs). intros x y (Lx & Fx & Ux) (Ly & Fy & Uy) E.
  assert (L : length x = length y) by lia.
  assert (Z : forall z, In z (vadd x (-1) y) -> z = 0).
  { apply Ux; [rewrite vadd_length; auto|]. intros h Hh Hx. rewrite dot_vadd by auto.
    assert (Hy : hval h y = 0) by (apply E; auto). unfold hval in Hx, Hy. lra. }
  clear - L Z. revert y L Z. induction x as [|a x IH]; intros [|b y] L Z; try discriminate; auto.
  unfold vadd in Z. cbn [combine map fst snd] in Z. f_equal.
  - specialize (Z (a + -1 * b) (or_introl eq_refl)). lra.
  - apply IH; [simpl in L; lia|]. intros z Hz. apply Z. right. exact Hz.
Qed.

(** moving along a free direction until a new halfspace is hit *)
Lemma hit x u : length x = d -> length u = d -> feasible hs x ->
  (forall h, In h hs -> hval h x = 0 -> dot (normal h) u = 0) -> (exists y, In y u /\ y <> 0) ->
  exists t h, 0 < t /\ feasible hs (vadd x t u) /\ In h hs /\ hval h x <> 0 /\ hval h (vadd x t u) = 0 /\
    forall h', In h' hs -> hval h' x = 0 -> hval h' (vadd x t u) = 0.
Proof.
  intros Lx Lu Fx Hu (y & Hy & Ny). assert (L : length x = length u) by lia.
  set (P := filter (fun h => Rltb 0 (dot (normal h) u)) hs).
  assert (HP : forall h, In h P <-> In h hs /\ 0 < dot (normal h) u).
  { intros h. unfold P. rewrite filter_In. unfold Rltb. destruct (Rlt_dec 0 (dot (normal h) u)); intuition discriminate. }
  assert (Hneg : forall h, In h P -> hval h x < 0).
  { intros h Hh. apply HP in Hh as [Hh Hd]. specialize (Fx h Hh). destruct (Req_dec (hval h x) 0) as [E|]; [|lra].
    rewrite (Hu h Hh E) in Hd. lra. }
  destruct (classic (P = [])) as [EP|NP].
  - exfalso. destruct Hb as (M & HM).
    assert (FA : forall t, 0 <= t -> feasible hs (vadd x t u)).
    { intros t Ht h Hh. rewrite hval_vadd by auto. specialize (Fx h Hh).
      destruct (Rlt_dec 0 (dot (normal h) u)) as [C|C]; [|nra].
      exfalso. assert (In h P) by (apply HP; auto). rewrite EP in H. destruct H. }
    apply In_nth with (d := 0) in Hy as (k & Hk & Ek).
    assert (B : forall t, 0 <= t -> Rabs (nth k x 0 + t * y) <= M).
    { intros t Ht. rewrite <- Ek, <- nth_vadd by auto. apply (HM (vadd x t u)); auto; [rewrite vadd_length; auto|].
      apply nth_In. rewrite vadd_length; lia. }
    assert (Hay : 0 < Rabs y) by (apply Rabs_pos_lt; auto).
    pose proof (B 0 ltac:(lra)) as B0. rewrite Rmult_0_l, Rplus_0_r in B0. pose proof (Rabs_pos (nth k x 0)).
    set (t := (2 * M + 1) / Rabs y).
    assert (Ht : t * Rabs y = 2 * M + 1) by (unfold t; field; lra).
    assert (Ht0 : 0 < t) by (unfold t; apply Rdiv_lt_0_compat; lra).
    pose proof (B t ltac:(lra)) as Bt. pose proof (Rabs_triang_inv (t * y) (- nth k x 0)) as T.
    rewrite Rabs_Ropp in T. replace (t * y - - nth k x 0) with (nth k x 0 + t * y) in T by lra.
    rewrite Rabs_mult, (Rabs_right t) in T by lra. lra.
  - destruct (@argmax _ P (fun h => hval h x / dot (normal h) u) NP) as (h & Hh & Hmax).
    pose proof Hh as Hh'. apply HP in Hh' as [Hin Hd]. pose proof (Hneg h Hh) as Hn.
    set (t := - (hval h x / dot (normal h) u)).
    assert (Ht : 0 < t).
    { unfold t. assert (0 < (- hval h x) / dot (normal h) u) by (apply Rdiv_lt_0_compat; lra). unfold Rdiv in *. lra. }
    exists t, h. split; auto. split; [|split; [auto|split; [lra|split]]].
    + intros h' Hh'. rewrite hval_vadd by auto. specialize (Fx h' Hh').
      destruct (Rlt_dec 0 (dot (normal h') u)) as [C|C]; [|nra].
      specialize (Hmax h' (proj2 (HP h') (conj Hh' C))). cbv beta in Hmax.
      assert (E : hval h' x / dot (normal h') u * dot (normal h') u = hval h' x) by (field; lra).
      unfold t. nra.
    + rewrite hval_vadd by auto. unfold t. field. lra.
    + intros h' Hh' E. rewrite hval_vadd by auto. rewrite (Hu h' Hh' E). lra.
Qed.

Lemma filter_lt {A} (p q : A -> bool) l a : (forall x, In x l -> q x = true -> p x = true) -> In a l -> p a = true -> q a = false ->
  (length (filter q l) < length (filter p l))%nat.
Proof.
  intros H. assert (L : forall l', (forall x, In x l' -> q x = true -> p x = true) -> (length (filter q l') <= length (filter p l'))%nat).
  { induction l' as [|b l' IH]; simpl; auto. intros H'. assert (IH' := IH (fun x Hx => H' x (or_intror Hx))).
    destruct (q b) eqn:Q; [rewrite (H' b (or_introl eq_refl) Q); simpl; lia|]. destruct (p b); simpl; lia. }
  induction l as [|b l IH]; [intros []|]. intros [->|Ha] Pa Qa; simpl.
  - rewrite Pa, Qa. simpl. assert (L' := L l (fun x Hx => H x (or_intror Hx))). lia.
  - assert (IH' := IH (fun x Hx => H x (or_intror Hx)) Ha Pa Qa).
    destruct (q b) eqn:Q; [rewrite (H b (or_introl eq_refl) Q); simpl; lia|]. destruct (p b); simpl; lia.
Qed.

(** Minkowski: a point is in the hull of the vertices that are tight wherever it is tight *)
Lemma minkowski V h0 : (forall x, isvert x -> hval h0 x = 0 -> In x V) -> In h0 hs ->
  forall n x, length x = d -> feasible hs x -> hval h0 x = 0 ->
    (length (filter (fun h => negb (tight x h)) hs) <= n)%nat -> in_hull V x.
Proof.
  intros HV Hh0. induction n as [n IH] using lt_wf_ind. intros x Lx Fx E0 Hn.
  destruct (classic (exists u, length u = d /\ (forall h, In h hs -> hval h x = 0 -> dot (normal h) u = 0) /\ exists y, In y u /\ y <> 0))
    as [(u & Lu & Hu & Hy)|N].
  2: { apply hull_in, HV; auto. split; auto. split; auto. intros u Lu Hu y Hy. apply NNPP. intros Ny. apply N. exists u. eauto. }
  assert (L : length x = length u) by lia.
  destruct (@hit x u Lx Lu Fx Hu Hy) as (t1 & h1 & Ht1 & F1 & I1 & N1 & Z1 & K1).
  set (v := map Ropp u). assert (Lv : length v = d) by (unfold v; rewrite map_length; auto).
  assert (Dv : forall n0, dot n0 v = - dot n0 u).
  { unfold v, dot. clear. intros n0. revert u. induction n0 as [|a n0 IH]; intros [|b u]; cbn [combine map]; rewrite ?rsum_nil; try lra.
    rewrite !rsum_cons, IH. cbn [fst snd]. lra. }
  destruct (@hit x v Lx Lv Fx) as (t2 & h2 & Ht2 & F2 & I2 & N2 & Z2 & K2).
  { intros h Hh Eh. rewrite Dv, (Hu h Hh Eh). lra. }
  { destruct Hy as (y & Hy & Ny). exists (- y). split; [apply in_map; auto|lra]. }
  assert (S : forall w t h', length w = d -> In h' hs -> hval h' x <> 0 -> hval h' (vadd x t w) = 0 ->
     (forall h'', In h'' hs -> hval h'' x = 0 -> hval h'' (vadd x t w) = 0) -> feasible hs (vadd x t w) -> in_hull V (vadd x t w)).
  { intros w t h' Lw Hin Nh Zh Kh Fh.
    assert (C : (length (filter (fun h => negb (tight (vadd x t w) h)) hs) < length (filter (fun h => negb (tight x h)) hs))%nat).
    { apply filter_lt with (a := h'); auto.
      - intros h'' Hh'' T. apply negb_true_iff in T. apply negb_true_iff. destruct (tight x h'') eqn:Tx; auto.
        apply tight_true in Tx. apply Kh in Tx; auto. apply tight_true in Tx. congruence.
      - apply negb_true_iff. destruct (tight x h') eqn:Tx; auto. apply tight_true in Tx. congruence.
      - apply negb_false_iff. apply tight_true; auto. }
    refine (IH _ _ _ _ Fh _ (le_n _)); [lia|rewrite vadd_length; lia|auto]. }
  apply (@hull_mix V (vadd x t1 u) (vadd x t2 v) x (t1 / (t1 + t2))).
  - split; [apply Rlt_le, Rdiv_lt_0_compat; lra|]. apply (Rmult_le_reg_r (t1 + t2)); [lra|]. unfold Rdiv. rewrite Rmult_assoc, Rinv_l by lra. lra.
  - apply (S u t1 h1); auto.
  - apply (S v t2 h2); auto.
  - intros k. rewrite !nth_vadd by lia. assert (Ek : nth k v 0 = - nth k u 0).
    { unfold v. replace 0 with (- 0) at 1 by lra. rewrite map_nth. auto. }
    rewrite Ek. field. lra.
Qed.
End Poly.

(** ** Realising the contract *)
Lemma listed_one i (V : list (list R)) j : listed (map (fun v => (Some v, [i])) V) j = if Nat.eqb j i then map Some V else [].
Proof.
  unfold listed. induction V as [|v V IH]; cbn [map flat_map fst snd filter]; [destruct (j =? i)%nat; auto|].
  rewrite IH. destruct (Nat.eqb j i); reflexivity.
Qed.

Lemma listed_flat (F : nat -> list (list R)) j : forall n k,
  listed (flat_map (fun i => map (fun v => (Some v, [i])) (F i)) (seq k n)) j =
  if (Nat.leb k j && Nat.ltb j (k + n))%bool then map Some (F j) else [].
Proof.
  assert (lapp : forall a b, listed (a ++ b) j = listed a j ++ listed b j) by (intros; apply flat_map_app).
  induction n as [|n IH]; intros k; cbn [seq flat_map].
  - simpl. destruct (Nat.leb_spec k j), (Nat.ltb_spec j (k + 0)); simpl; auto; lia.
  - rewrite lapp, listed_one, IH. destruct (Nat.eqb_spec j k) as [->|N].
    + destruct (Nat.leb_spec (S k) k); [lia|]. simpl. rewrite app_nil_r.
      destruct (Nat.leb_spec k k), (Nat.ltb_spec k (k + S n)); simpl; auto; lia.
    + cbn [app]. destruct (Nat.leb_spec (S k) j), (Nat.ltb_spec j (S k + n)), (Nat.leb_spec k j), (Nat.ltb_spec j (k + S n));
        simpl; auto; lia.
Qed.

(** ** Irredundant lists of points *)
Lemma hcomb_middle v l2 : forall l1 s f, hcomb (l1 ++ v :: l2) s f -> exists w, 0 <= w /\ hcomb (l1 ++ l2) (s - w) (fun k => f k - w * nth k v 0).
Proof.
  induction l1 as [|u l1 IH]; intros s f H; cbn [app] in *; [apply hcomb_cons in H; auto|].
  apply hcomb_cons in H as (a & Ha & H). apply IH in H as (w & Hw & H). exists w. split; auto. apply hcomb_cons. exists a. split; auto.
  replace (s - w - a) with (s - a - w) by ring. eapply hcomb_ext; [|exact H]. intros k. cbv beta. ring.
Qed.

Lemma hull_absorb l1 v l2 x : in_hull (l1 ++ l2) v -> in_hull (l1 ++ v :: l2) x -> in_hull (l1 ++ l2) x.
Proof.
  intros Hv Hx. apply hcomb_middle in Hx as (w & Hw & Hx).
  pose proof (@hcomb_lin (l1 ++ l2) 1 w _ _ _ _ ltac:(lra) Hw Hx Hv) as C. replace (1 * (1 - w) + w * 1) with 1 in C by ring.
  eapply hcomb_ext; [|exact C]. intros k. cbv beta. ring.
Qed.

Lemma irredundant_exists : forall n V, length V = n -> exists W, incl W V /\ (forall x, in_hull V x -> in_hull W x) /\ irredundant W.
Proof.
  induction n as [|n IH]; intros V L.
  - destruct V; [|discriminate]. exists []. split; [apply incl_refl|]. split; auto. intros [|? ?] v l2 E; discriminate.
  - destruct (classic (irredundant V)) as [H|H]; [exists V; split; [apply incl_refl|auto]|].
    unfold irredundant in H. apply not_all_ex_not in H as (l1 & H). apply not_all_ex_not in H as (v & H). apply not_all_ex_not in H as (l2 & H).
    apply imply_to_and in H as [E H]. apply NNPP in H. destruct (IH (l1 ++ l2)) as (W & H1 & H2 & H3).
    { rewrite E, app_length in L. rewrite app_length. cbn in L. lia. }
    exists W. split; [|split; auto].
    + intros y Hy. apply H1 in Hy. rewrite E. apply in_or_app. apply in_app_or in Hy as [Hy|Hy]; cbn; auto.
    + intros x Hx. apply H2. rewrite E in Hx. eapply hull_absorb; eauto.
Qed.

(** per facet: a finite list of feasible points on it whose hull is the facet; in the plane, empty or of length two *)
Lemma facet_vertices d hs h : bounded d hs -> In h hs -> (d = 2%nat -> exists x, length x = d /\ hval h x <> 0) ->
  exists V, (forall v, In v V -> length v = d /\ feasible hs v /\ hval h v = 0) /\
    (forall x, length x = d -> feasible hs x -> hval h x = 0 -> in_hull V x) /\ (d = 2%nat -> V <> [] -> length V = 2%nat) /\ (d <> 2%nat -> irredundant V).
Proof.
  intros Hb Hh H2.
  destruct (vertices_finite d hs) as (W & HW).
  set (V := filter (fun x => tight x h) W).
  assert (HV : forall x, In x V <-> isvert d hs x /\ hval h x = 0).
  { intros x. unfold V. rewrite filter_In, <- HW, tight_true. tauto. }
  assert (H1 : forall x, length x = d -> feasible hs x -> hval h x = 0 -> in_hull V x).
  { intros x Lx Fx Ex. apply (@minkowski d hs Hb V h) with (n := length (filter (fun h => negb (tight x h)) hs)); auto.
    intros y Hy Ey. apply HV. auto. }
  assert (H0 : forall v, In v V -> length v = d /\ feasible hs v /\ hval h v = 0).
  { intros v Hv. apply HV in Hv as [(L & F & _) E]. auto. }
  destruct (Nat.eq_dec d 2) as [E2|N2]; [|].
  2: { destruct (@irredundant_exists (length V) V eq_refl) as (V' & I & HH & J). exists V'. split; [intros v Hv; apply H0, I, Hv|]. split; [intros; apply HH; auto|]. split; [congruence|auto]. }
  destruct (classic (V = [])) as [EV|NV]; [exists V; split; [auto|split; [auto|split; [congruence|congruence]]]|].
  (* plane: keep the two extreme vertices along the line *)
  subst d. destruct (H2 eq_refl) as (x0 & Lx0 & Nx0).
  (* dot (normal h) is linear on pairs *)
  assert (Lin : exists a b, forall x y, dot (normal h) [x; y] = a * x + b * y).
  { destruct (normal h) as [|a [|b n]]; unfold dot; cbn [combine map].
    - exists 0, 0. intros. rewrite rsum_nil. lra.
    - exists a, 0. intros. rewrite rsum_cons, rsum_nil. cbn [fst snd]. lra.
    - exists a, b. intros. destruct n; cbn [combine map]; rewrite !rsum_cons, rsum_nil; cbn [fst snd]; lra. }
  destruct Lin as (a & b & Lin).
  set (f := fun v : list R => - b * nth 0 v 0 + a * nth 1 v 0).
  destruct (@argmax _ V f NV) as (p & Hp & Mp). destruct (@argmax _ V (fun v => - f v) NV) as (q & Hq & Mq).
  exists [p; q]. split; [intros v [<-|[<-|[]]]; auto|]. split; [|split; [auto|congruence]].
  intros x Lx Fx Ex.
  assert (Hf : f q <= f x <= f p).
  { destruct (H1 x Lx Fx Ex) as (ws & Hl & Hw & Hs & Hk). unfold f. rewrite (Hk 0%nat), (Hk 1%nat).
    assert (E : forall ws V', length ws = length V' -> (forall w, In w ws -> 0 <= w) -> (forall v, In v V' -> f q <= f v <= f p) ->
       f q * rsum ws <= - b * rsum (map (fun wv => fst wv * nth 0 (snd wv) 0) (combine ws V'))
         + a * rsum (map (fun wv => fst wv * nth 1 (snd wv) 0) (combine ws V')) <= f p * rsum ws).
    { clear. induction ws as [|w ws IH]; intros [|v V'] Hl Hw HV'; try discriminate; cbn [combine map]; rewrite ?rsum_nil; [lra|].
      rewrite !rsum_cons. cbn [fst snd]. specialize (IH V' ltac:(simpl in Hl; lia) (fun w' H => Hw w' (or_intror H)) (fun v' H => HV' v' (or_intror H))).
      pose proof (Hw w (or_introl eq_refl)). pose proof (HV' v (or_introl eq_refl)) as Hv. unfold f in *. nra. }
    specialize (E ws V Hl Hw). rewrite Hs in E. rewrite !Rmult_1_r in E. apply E. intros v Hv. specialize (Mp v Hv). specialize (Mq v Hv).
    cbv beta in Mq. lra. }
  destruct (H0 p Hp) as (Lp & Fp & Ep), (H0 q Hq) as (Lq & Fq & Eq).
  destruct (list2 _ Lp) as (p0 & p1 & ->), (list2 _ Lq) as (q0 & q1 & ->), (list2 _ Lx) as (u & v & ->), (list2 _ Lx0) as (z0 & z1 & ->).
  unfold f in Hf. cbn [nth] in Hf. unfold hval in *. rewrite !Lin in *.
  assert (Hab : a * a + b * b <> 0).
  { intros Z. assert (a = 0) by nra. assert (b = 0) by nra. subst. apply Nx0. lra. }
  assert (Hab' : 0 < a * a + b * b) by nra.
  set (fq := - b * q0 + a * q1) in *. set (fp := - b * p0 + a * p1) in *. set (fx := - b * u + a * v) in *.
  (* coordinates from (dot, f) *)
  assert (C0 : forall x y, x = (a * (a * x + b * y) - b * (- b * x + a * y)) / (a * a + b * b)) by (intros; field; auto).
  assert (C1 : forall x y, y = (b * (a * x + b * y) + a * (- b * x + a * y)) / (a * a + b * b)) by (intros; field; auto).
  destruct (Req_dec fp fq) as [EQ|NQ].
  - assert (E : [u; v] = [p0; p1]).
    { assert (Hfx : fx = fp) by lra. f_equal; [|f_equal].
      - rewrite (C0 u v), (C0 p0 p1). fold fx fp. rewrite Hfx. replace (a * u + b * v) with (a * p0 + b * p1) by lra. reflexivity.
      - rewrite (C1 u v), (C1 p0 p1). fold fx fp. rewrite Hfx. replace (a * u + b * v) with (a * p0 + b * p1) by lra. reflexivity. }
    rewrite E. apply hull_in. simpl; auto.
  - set (s := (fp - fx) / (fp - fq)).
    assert (Hs : 0 <= s <= 1).
    { unfold s. split; [apply Rmult_le_pos; [lra|apply Rlt_le, Rinv_0_lt_compat; lra]|].
      apply (Rmult_le_reg_r (fp - fq)); [lra|]. unfold Rdiv. rewrite Rmult_assoc, Rinv_l by lra. lra. }
    assert (Efx : fx = (1 - s) * fp + s * fq) by (unfold s; field; lra).
    assert (Edx : a * u + b * v = (1 - s) * (a * p0 + b * p1) + s * (a * q0 + b * q1)) by nra.
    apply (@hull_mix [[p0; p1]; [q0; q1]] [p0; p1] [q0; q1] [u; v] s); auto; [apply hull_in; simpl; auto|apply hull_in; simpl; auto|].
    intros [|[|k]]; cbn [nth].
    + rewrite (C0 u v). fold fx. rewrite Edx, Efx. unfold fp, fq. field. auto.
    + rewrite (C1 u v). fold fx. rewrite Edx, Efx. unfold fp, fq. field. auto.
    + destruct k; lra.
Qed.

Lemma choose_list {A} (Q : nat -> A -> Prop) (dflt : A) : forall n k, (forall i, (k <= i < k + n)%nat -> exists a, Q i a) ->
  exists F, forall i, (k <= i < k + n)%nat -> Q i (F i).
Proof.
  induction n as [|n IH]; intros k H.
  - exists (fun _ => dflt). intros; lia.
  - destruct (IH (S k)) as (F & HF); [intros; apply H; lia|]. destruct (H k ltac:(lia)) as (a & Ha).
    exists (fun i => if Nat.eqb i k then a else F i). intros i Hi. destruct (Nat.eqb_spec i k) as [->|]; auto. apply HF. lia.
Qed.

(** every bounded system with a strictly interior point has an exact intersection *)
Theorem exact_intersection_exists d hs pt : bounded d hs -> length pt = d -> strictly_inside hs pt ->
  exists out, exact_intersection d hs out /\ (d <> 2%nat -> forall i vs, map Some vs = listed out i -> irredundant vs).
Proof.
  intros Hb Lpt Hpt.
  destruct (@choose_list (list (list R)) (fun i V => forall h, nth_error hs i = Some h ->
     (forall v, In v V -> length v = d /\ feasible hs v /\ hval h v = 0) /\
     (forall x, length x = d -> feasible hs x -> hval h x = 0 -> in_hull V x) /\ (d = 2%nat -> V <> [] -> length V = 2%nat) /\ (d <> 2%nat -> irredundant V)) [] (length hs) 0)
    as (F & HF).
  { intros i Hi. destruct (nth_error hs i) as [h|] eqn:E; [|apply nth_error_None in E; lia].
    assert (Hin : In h hs) by (eapply nth_error_In; eauto).
    destruct (@facet_vertices d hs h Hb Hin) as (V & HV).
    { intros _. exists pt. split; auto. specialize (Hpt h Hin). lra. }
    exists V. intros h' E'. inversion E'; subst. auto. }
  set (out := flat_map (fun i => map (fun v => (Some v, [i])) (F i)) (seq 0 (length hs))).
  assert (HL : forall i, listed out i = if (Nat.ltb i (length hs))%bool then map Some (F i) else []).
  { intros i. unfold out. rewrite listed_flat. simpl. reflexivity. }
  exists out. split; cycle 1.
  { intros Nd i vs E. rewrite HL in E. destruct (Nat.ltb_spec i (length hs)) as [Hi|].
    - destruct (nth_error hs i) as [h|] eqn:Eh; [|apply nth_error_None in Eh; lia]. destruct (HF i ltac:(lia) h Eh) as (_ & _ & _ & H4).
      replace vs with (F i); auto. clear - E. revert E. generalize (F i). induction vs as [|a l IH]; intros [|b l'] E; try discriminate; auto. cbn in E. inversion E. f_equal; auto.
    - destruct vs; [|discriminate]. intros [|? ?] v l2 E'; discriminate. }
  constructor.
  - intros v is_ Hin. unfold out in Hin. apply in_flat_map in Hin as (i & Hi & Hin). apply in_map_iff in Hin as (x & E & Hx).
    inversion E; subst. apply in_seq in Hi. destruct (nth_error hs i) as [h|] eqn:Eh; [|apply nth_error_None in Eh; lia].
    destruct (HF i ltac:(lia) h Eh) as (H1 & _). destruct (H1 x Hx) as (L & Fx & Ex). exists x. repeat split; auto.
    intros j [<-|[]]. exists h. auto.
  - intros i h x Hl Hh Lx Fx Ex. rewrite HL in *. destruct (Nat.ltb_spec i (length hs)) as [Hi|]; [|congruence].
    destruct (HF i ltac:(lia) h Hh) as (_ & H2 & _ & _). exists (F i). split; auto.
  - intros h x Lx Fx Hin Ex. apply In_nth_error in Hin as (i & Ei). exists i, h. split; auto.
    assert (Hi : (i < length hs)%nat) by (apply nth_error_Some; rewrite Ei; discriminate).
    rewrite HL. destruct (Nat.ltb_spec i (length hs)); [|lia].
    destruct (HF i ltac:(lia) h Ei) as (_ & H2 & _). specialize (H2 x Lx Fx Ex). intros E. destruct (F i); [|discriminate].
    destruct H2 as (ws & Hl & _ & Hs & _). destruct ws; [|discriminate]. rewrite rsum_nil in Hs. lra.
  - intros E i Hl. rewrite HL in *. destruct (Nat.ltb_spec i (length hs)) as [Hi|]; [|congruence].
    destruct (nth_error hs i) as [h|] eqn:Eh; [|apply nth_error_None in Eh; lia].
    destruct (HF i ltac:(lia) h Eh) as (_ & _ & H3 & _). rewrite map_length. apply H3; auto. intros EF. rewrite EF in Hl. auto.
Qed.
