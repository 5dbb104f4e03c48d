(** Halfspace rows, the bounding box, and get_interior_point. *)
From Verif Require Import PyBase PyGraph M_partition M_pool M_champ Spec Spec_champ L_base.
Set Implicit Arguments.
Open Scope R_scope.

(** ** Values of rows *)
Lemma dot_nil_r u : dot u [] = 0.
Proof. unfold dot. destruct u; reflexivity. Qed.
Lemma dot_nil_l u : dot [] u = 0.
Proof. reflexivity. Qed.
Lemma dot_cons a u b v : dot (a :: u) (b :: v) = a * b + dot u v.
Proof. unfold dot. cbn [combine map]. rewrite rsum_cons. reflexivity. Qed.
Lemma hval2 a b o x y : hval (mkH [a; b] o) [x; y] = a * x + b * y + o.
Proof. unfold hval. cbn [normal offset]. rewrite !dot_cons, dot_nil_l. lra. Qed.
Lemma hval3 a b c o x y z : hval (mkH [a; b; c] o) [x; y; z] = a * x + b * y + c * z + o.
Proof. unfold hval. cbn [normal offset]. rewrite !dot_cons, dot_nil_l. lra. Qed.

Lemma dot_scale u v k : dot (map (fun x => x / k) u) v = dot u v / k.
Proof.
  revert v. induction u as [|a u IH]; intros [|b v]; rewrite ?dot_nil_r, ?dot_nil_l; try (unfold Rdiv; lra).
  cbn [map]. rewrite !dot_cons, IH. unfold Rdiv. ring.
Qed.
Lemma hval_normalise h x : hval (normalise h) x = hval h x / row_norm h.
Proof. unfold hval, normalise. cbn [normal offset]. rewrite dot_scale. unfold Rdiv. ring. Qed.

Lemma row_norm_pos h : (exists a, In a (normal h) /\ a <> 0) -> 0 < row_norm h.
Proof.
  intros (a & Hin & Ha). unfold row_norm. apply sqrt_lt_R0.
  assert (0 < rsum (map (fun x => x * x) (normal h))).
  { apply (rsum_map_pos (fun x => x * x) (normal h) a); auto; [intros; nra|]. nra. }
  nra.
Qed.

Definition nonzero (h : halfspace) : Prop := exists a, In a (normal h) /\ a <> 0.

Lemma normalise_sign h x : nonzero h ->
  (hval (normalise h) x <= 0 <-> hval h x <= 0) /\ (hval (normalise h) x = 0 <-> hval h x = 0) /\
  (hval (normalise h) x < 0 <-> hval h x < 0).
Proof.
  intros Hn. pose proof (row_norm_pos h Hn) as Hp. rewrite hval_normalise.
  assert (E : hval h x = hval h x / row_norm h * row_norm h) by (field; lra).
  set (y := hval h x / row_norm h) in *. rewrite E. clearbody y. clear E Hn.
  repeat split; intros; nra.
Qed.

Lemma rows_2D_nonzero A P : Forall nonzero (halfspaces_from_coefficients_2D A P).
Proof.
  apply Forall_forall. intros h Hh. apply in_map_iff in Hh as (ap & <- & _). exists (-1). simpl. split; [auto|lra].
Qed.
Lemma rows_3D_nonzero A P C : Forall nonzero (halfspaces_from_coefficients_3D A P C).
Proof.
  apply Forall_forall. intros h Hh. apply in_map_iff in Hh as (ap & <- & _). exists (-1). simpl. split; [auto|lra].
Qed.
Lemma box_2D_nonzero t b g0 gf : Forall nonzero (box_2D t b g0 gf).
Proof.
  repeat constructor; [exists 1|exists (-1)|exists 1|exists (-1)]; simpl; split; auto; lra.
Qed.
Lemma box_3D_nonzero t b g0 gf o0 of : Forall nonzero (box_3D t b g0 gf o0 of).
Proof.
  repeat constructor; [exists 1|exists (-1)|exists 1|exists (-1)|exists 1|exists (-1)]; simpl; split; auto; lra.
Qed.

Lemma list2 {A} (x : list A) : length x = 2%nat -> exists a b, x = [a; b].
Proof. destruct x as [|a [|b [|]]]; try discriminate. eauto. Qed.
Lemma list3 {A} (x : list A) : length x = 3%nat -> exists a b c, x = [a; b; c].
Proof. destruct x as [|a [|b [|c [|]]]]; try discriminate. eauto. Qed.

(** ** The systems passed to the intersection, as inequalities *)
Definition q2 (ap : R * R) (gamma : R) : R := fst ap - snd ap * gamma.
Definition q3 (apc : R * R * R) (gamma omega : R) : R := fst (fst apc) - snd (fst apc) * gamma + snd apc * omega.

Lemma champ2_inv A P g0 gf hs : champ_halfspaces_2D A P g0 gf = Ok hs ->
  exists top bottom,
    (In top (map (fun ap => q2 ap g0) (combine A P)) /\ forall ap, In ap (combine A P) -> q2 ap g0 <= top) /\
    (In bottom (map (fun ap => q2 ap gf) (combine A P)) /\ forall ap, In ap (combine A P) -> bottom <= q2 ap gf) /\
    hs = map normalise (map (fun ap => mkH [- snd ap; -1] (fst ap)) (combine A P) ++ box_2D top bottom g0 gf).
Proof.
  unfold champ_halfspaces_2D. intros H. apply bind_ok in H as (top & Ht & H). apply bind_ok in H as (bottom & Hb & H).
  inversion H; subst. apply py_maxR_spec in Ht as [Ht1 Ht2]. apply py_minR_spec in Hb as [Hb1 Hb2].
  exists top, bottom. split; [|split]; auto; (split; [auto|]).
  - intros ap Hap. apply Ht2. apply in_map_iff. exists ap; auto.
  - intros ap Hap. apply Hb2. apply in_map_iff. exists ap; auto.
Qed.

Lemma champ2_feasible A P g0 gf top bottom x y :
  let hs := map normalise (map (fun ap => mkH [- snd ap; -1] (fst ap)) (combine A P) ++ box_2D top bottom g0 gf) in
  (feasible hs [x; y] <-> (forall ap, In ap (combine A P) -> q2 ap x <= y) /\ bottom <= y <= top /\ g0 <= x <= gf) /\
  (strictly_inside hs [x; y] <-> (forall ap, In ap (combine A P) -> q2 ap x < y) /\ bottom < y < top /\ g0 < x < gf).
Proof.
  intros hs. unfold hs. clear hs.
  assert (Hrow : forall ap, In ap (combine A P) -> nonzero (mkH [- snd ap; -1] (fst ap))).
  { intros ap _. exists (-1). simpl; split; [auto|lra]. }
  pose proof (box_2D_nonzero top bottom g0 gf) as Hbox. rewrite Forall_forall in Hbox.
  split; (split; [intros H | intros (H1 & H2 & H3) h Hh]).
  - unfold feasible in H. split; [|].
    + intros ap Hap.
      assert (H' : hval (mkH [- snd ap; -1] (fst ap)) [x; y] <= 0).
      { apply (normalise_sign [x; y] (Hrow ap Hap)), H. apply in_map, in_or_app. left. apply in_map_iff. eauto. }
      rewrite hval2 in H'; unfold q2; lra.
    + assert (HB : forall h, In h (box_2D top bottom g0 gf) -> hval h [x; y] <= 0).
      { intros h Hh. apply (normalise_sign [x; y] (Hbox h Hh)). apply H. apply in_map, in_or_app; auto. }
      pose proof (HB _ (or_introl eq_refl)) as B1. pose proof (HB _ (or_intror (or_introl eq_refl))) as B2.
      pose proof (HB _ (or_intror (or_intror (or_introl eq_refl)))) as B3.
      pose proof (HB _ (or_intror (or_intror (or_intror (or_introl eq_refl))))) as B4.
      rewrite hval2 in *. lra.
  - apply in_map_iff in Hh as (h0 & <- & Hh). apply in_app_or in Hh as [Hh|Hh].
    + apply in_map_iff in Hh as (ap & <- & Hap). apply normalise_sign; auto. rewrite hval2. specialize (H1 ap Hap). unfold q2 in H1. lra.
    + apply normalise_sign; auto. simpl in Hh. repeat (destruct Hh as [<-|Hh]; [rewrite hval2; lra|]). tauto.
  - unfold strictly_inside in H. split; [|].
    + intros ap Hap.
      assert (H' : hval (mkH [- snd ap; -1] (fst ap)) [x; y] < 0).
      { apply (normalise_sign [x; y] (Hrow ap Hap)), H. apply in_map, in_or_app. left. apply in_map_iff. eauto. }
      rewrite hval2 in H'; unfold q2; lra.
    + assert (HB : forall h, In h (box_2D top bottom g0 gf) -> hval h [x; y] < 0).
      { intros h Hh. apply (normalise_sign [x; y] (Hbox h Hh)). apply H. apply in_map, in_or_app; auto. }
      pose proof (HB _ (or_introl eq_refl)) as B1. pose proof (HB _ (or_intror (or_introl eq_refl))) as B2.
      pose proof (HB _ (or_intror (or_intror (or_introl eq_refl)))) as B3.
      pose proof (HB _ (or_intror (or_intror (or_intror (or_introl eq_refl))))) as B4.
      rewrite hval2 in *. lra.
  - apply in_map_iff in Hh as (h0 & <- & Hh). apply in_app_or in Hh as [Hh|Hh].
    + apply in_map_iff in Hh as (ap & <- & Hap). apply normalise_sign; auto. rewrite hval2. specialize (H1 ap Hap). unfold q2 in H1. lra.
    + apply normalise_sign; auto. simpl in Hh. repeat (destruct Hh as [<-|Hh]; [rewrite hval2; lra|]). tauto.
Qed.

Lemma champ3_inv A P C g0 gf o0 of hs : champ_halfspaces_3D A P C g0 gf o0 of = Ok hs ->
  exists top bottom,
    (In top (map (fun r => q3 r g0 of) (combine (combine A P) C)) /\ forall r, In r (combine (combine A P) C) -> q3 r g0 of <= top) /\
    (In bottom (map (fun r => q3 r gf o0) (combine (combine A P) C)) /\ forall r, In r (combine (combine A P) C) -> bottom <= q3 r gf o0) /\
    hs = map normalise (map (fun r => mkH [- snd (fst r); snd r; -1] (fst (fst r))) (combine (combine A P) C)
                        ++ box_3D top bottom g0 gf o0 of).
Proof.
  unfold champ_halfspaces_3D. intros H. apply bind_ok in H as (top & Ht & H). apply bind_ok in H as (bottom & Hb & H).
  inversion H; subst. apply py_maxR_spec in Ht as [Ht1 Ht2]. apply py_minR_spec in Hb as [Hb1 Hb2].
  exists top, bottom. split; [|split]; auto; (split; [auto|]).
  - intros ap Hap. apply Ht2. apply in_map_iff. exists ap; auto.
  - intros ap Hap. apply Hb2. apply in_map_iff. exists ap; auto.
Qed.

Lemma champ3_feasible A P C g0 gf o0 of top bottom x z y :
  let rows := combine (combine A P) C in
  let hs := map normalise (map (fun r => mkH [- snd (fst r); snd r; -1] (fst (fst r))) rows ++ box_3D top bottom g0 gf o0 of) in
  (feasible hs [x; z; y] <-> (forall r, In r rows -> q3 r x z <= y) /\ bottom <= y <= top /\ g0 <= x <= gf /\ o0 <= z <= of) /\
  (strictly_inside hs [x; z; y] <-> (forall r, In r rows -> q3 r x z < y) /\ bottom < y < top /\ g0 < x < gf /\ o0 < z < of).
Proof.
  intros rows hs. unfold hs. clear hs.
  assert (Hrow : forall r, In r rows -> nonzero (mkH [- snd (fst r); snd r; -1] (fst (fst r)))).
  { intros ap _. exists (-1). simpl; split; [auto|lra]. }
  pose proof (box_3D_nonzero top bottom g0 gf o0 of) as Hbox. rewrite Forall_forall in Hbox.
  split; (split; [intros H | intros (H1 & H2 & H3 & H4) h Hh]).
  - unfold feasible in H. split; [|].
    + intros ap Hap.
      assert (H' : hval (mkH [- snd (fst ap); snd ap; -1] (fst (fst ap))) [x; z; y] <= 0).
      { apply (normalise_sign [x; z; y] (Hrow ap Hap)), H. apply in_map, in_or_app. left. apply in_map_iff. eauto. }
      rewrite hval3 in H'; unfold q3; lra.
    + assert (HB : forall h, In h (box_3D top bottom g0 gf o0 of) -> hval h [x; z; y] <= 0).
      { intros h Hh. apply (normalise_sign [x; z; y] (Hbox h Hh)). apply H. apply in_map, in_or_app; auto. }
      pose proof (HB _ (or_introl eq_refl)) as B1. pose proof (HB _ (or_intror (or_introl eq_refl))) as B2.
      pose proof (HB _ (or_intror (or_intror (or_introl eq_refl)))) as B3.
      pose proof (HB _ (or_intror (or_intror (or_intror (or_introl eq_refl))))) as B4.
      pose proof (HB _ (or_intror (or_intror (or_intror (or_intror (or_introl eq_refl)))))) as B5.
      pose proof (HB _ (or_intror (or_intror (or_intror (or_intror (or_intror (or_introl eq_refl))))))) as B6.
      rewrite hval3 in *. lra.
  - apply in_map_iff in Hh as (h0 & <- & Hh). apply in_app_or in Hh as [Hh|Hh].
    + apply in_map_iff in Hh as (ap & <- & Hap). apply normalise_sign; [apply Hrow; auto|]. rewrite hval3. specialize (H1 ap Hap). unfold q3 in H1. lra.
    + apply normalise_sign; auto. simpl in Hh. repeat (destruct Hh as [<-|Hh]; [rewrite hval3; lra|]). tauto.
  - unfold strictly_inside in H. split; [|].
    + intros ap Hap.
      assert (H' : hval (mkH [- snd (fst ap); snd ap; -1] (fst (fst ap))) [x; z; y] < 0).
      { apply (normalise_sign [x; z; y] (Hrow ap Hap)), H. apply in_map, in_or_app. left. apply in_map_iff. eauto. }
      rewrite hval3 in H'; unfold q3; lra.
    + assert (HB : forall h, In h (box_3D top bottom g0 gf o0 of) -> hval h [x; z; y] < 0).
      { intros h Hh. apply (normalise_sign [x; z; y] (Hbox h Hh)). apply H. apply in_map, in_or_app; auto. }
      pose proof (HB _ (or_introl eq_refl)) as B1. pose proof (HB _ (or_intror (or_introl eq_refl))) as B2.
      pose proof (HB _ (or_intror (or_intror (or_introl eq_refl)))) as B3.
      pose proof (HB _ (or_intror (or_intror (or_intror (or_introl eq_refl))))) as B4.
      pose proof (HB _ (or_intror (or_intror (or_intror (or_intror (or_introl eq_refl)))))) as B5.
      pose proof (HB _ (or_intror (or_intror (or_intror (or_intror (or_intror (or_introl eq_refl))))))) as B6.
      rewrite hval3 in *. lra.
  - apply in_map_iff in Hh as (h0 & <- & Hh). apply in_app_or in Hh as [Hh|Hh].
    + apply in_map_iff in Hh as (ap & <- & Hap). apply normalise_sign; [apply Hrow; auto|]. rewrite hval3. specialize (H1 ap Hap). unfold q3 in H1. lra.
    + apply normalise_sign; auto. simpl in Hh. repeat (destruct Hh as [<-|Hh]; [rewrite hval3; lra|]). tauto.
Qed.

(** ** C18: the box never cuts the envelope *)
Lemma in_combine_P A P (ap : R * R) : In ap (combine A P) -> In (snd ap) P.
Proof. destruct ap as [a p]. intros H. apply in_combine_r in H. auto. Qed.

Lemma box_envelope_2D A P g0 gf hs gamma q :
  champ_halfspaces_2D A P g0 gf = Ok hs -> (forall p, In p P -> 0 <= p) -> g0 <= gamma <= gf ->
  In q (map (fun ap => q2 ap gamma) (combine A P)) -> (forall ap, In ap (combine A P) -> q2 ap gamma <= q) ->
  feasible hs [gamma; q].
Proof.
  intros Hhs HP Hg Hin Hmax. destruct (champ2_inv _ _ _ _ Hhs) as (top & bottom & (_ & Ht) & (_ & Hb) & ->).
  apply champ2_feasible. split; auto. split; auto.
  apply in_map_iff in Hin as (ap & Eq & Hap). specialize (Ht ap Hap). specialize (Hb ap Hap).
  pose proof (HP _ (in_combine_P _ _ _ Hap)) as Hp. unfold q2 in *. nra.
Qed.

Lemma in_combine_PC A P C (r : R * R * R) : In r (combine (combine A P) C) -> In (snd (fst r)) P /\ In (snd r) C.
Proof.
  destruct r as [[a p] c]. intros H. split; [|apply in_combine_r in H; auto].
  apply in_combine_l in H. apply in_combine_r in H. auto.
Qed.

Lemma box_envelope_3D A P C g0 gf o0 of hs gamma omega q :
  champ_halfspaces_3D A P C g0 gf o0 of = Ok hs -> (forall p, In p P -> 0 <= p) -> (forall c, In c C -> 0 <= c) ->
  g0 <= gamma <= gf -> o0 <= omega <= of ->
  In q (map (fun r => q3 r gamma omega) (combine (combine A P) C)) ->
  (forall r, In r (combine (combine A P) C) -> q3 r gamma omega <= q) ->
  feasible hs [gamma; omega; q].
Proof.
  intros Hhs HP HC Hg Ho Hin Hmax. destruct (champ3_inv _ _ _ _ _ _ _ Hhs) as (top & bottom & (_ & Ht) & (_ & Hb) & ->).
  apply champ3_feasible. split; auto. split; auto.
  apply in_map_iff in Hin as (ap & Eq & Hap). specialize (Ht ap Hap). specialize (Hb ap Hap).
  destruct (in_combine_PC _ _ _ _ Hap) as [Hp Hc]. apply HP in Hp. apply HC in Hc. unfold q3 in *. nra.
Qed.

(** ** C19: interior points *)
Lemma max_below (l : list (R * R)) (f : R * R -> R) top b : b < top -> (forall x, In x l -> f x < top) ->
  exists y, b < y < top /\ forall x, In x l -> f x < y.
Proof.
  intros Hb. induction l as [|x l IH]; intros H.
  - exists ((b + top) / 2). split; [lra|]. simpl; tauto.
  - destruct IH as (y & Hy & Hl); [intros; apply H; simpl; auto|].
    pose proof (H x (or_introl eq_refl)) as Hx. exists (Rmax y ((f x + top) / 2)).
    pose proof (Rmax_l y ((f x + top) / 2)). pose proof (Rmax_r y ((f x + top) / 2)).
    assert (Rmax y ((f x + top) / 2) < top) by (apply Rmax_lub_lt; lra).
    split; [lra|]. intros z [->|Hz]; [lra|]. specialize (Hl z Hz). lra.
Qed.
Lemma max_below_gen {T} (l : list T) (f : T -> R) top b : b < top -> (forall x, In x l -> f x < top) ->
  exists y, b < y < top /\ forall x, In x l -> f x < y.
Proof.
  intros Hb H. destruct (max_below (map (fun x => (f x, 0)) l) fst (top := top) (b := b)) as (y & Hy & Hl); auto.
  - intros z Hz. apply in_map_iff in Hz as (x & <- & Hx). simpl; auto.
  - exists y. split; auto. intros x Hx. apply (Hl (f x, 0)). apply in_map_iff. eauto.
Qed.

Lemma interior_2D A P g0 gf hs : champ_halfspaces_2D A P g0 gf = Ok hs -> (forall p, In p P -> 0 <= p) ->
  ((exists x, length x = 2%nat /\ strictly_inside hs x) <->
   g0 < gf /\ forall a p, In (a, p) (combine A P) -> p = 0 -> exists a' p', In (a', p') (combine A P) /\ a < a' - p' * g0).
Proof.
  intros Hhs HP. destruct (champ2_inv _ _ _ _ Hhs) as (top & bottom & (Hti & Ht) & (_ & Hb) & ->).
  split.
  - intros (x & Hl & Hx). destruct (list2 _ Hl) as (u & v & ->). apply champ2_feasible in Hx as (H1 & H2 & H3).
    split; [lra|]. intros a p Hin ->. apply in_map_iff in Hti as ([a' p'] & E & Hin'). exists a', p'. split; auto.
    specialize (H1 _ Hin). unfold q2 in *. simpl in *. lra.
  - intros [Hg H0]. set (u := (g0 + gf) / 2).
    assert (Hlt : forall ap, In ap (combine A P) -> q2 ap u < top).
    { intros [a p] Hap. pose proof (HP _ (in_combine_P _ _ _ Hap)) as Hp. pose proof (Ht _ Hap) as Hta. unfold u. simpl in Hp.
      destruct (Req_dec p 0) as [E|E].
      - destruct (H0 a p Hap E) as (a' & p' & Hin & Hlt). pose proof (Ht _ Hin) as Hta'. unfold q2 in *. simpl in *. nra.
      - unfold q2 in *. simpl in *. nra. }
    assert (Hbt : bottom < top).
    { apply in_map_iff in Hti as (ap & E & Hap). pose proof (Hb _ Hap). pose proof (Hlt _ Hap).
      pose proof (HP _ (in_combine_P _ _ _ Hap)) as Hp. unfold q2, u in *. nra. }
    destruct (max_below_gen (combine A P) (fun ap => q2 ap u) Hbt Hlt) as (y & Hy & Hall).
    exists [u; y]. split; auto. apply champ2_feasible. split; auto. split; auto. unfold u; lra.
Qed.

Lemma interior_3D A P C g0 gf o0 of hs : champ_halfspaces_3D A P C g0 gf o0 of = Ok hs ->
  (forall p, In p P -> 0 <= p) -> (forall c, In c C -> 0 <= c) ->
  ((exists x, length x = 3%nat /\ strictly_inside hs x) <->
   g0 < gf /\ o0 < of /\ forall a p c, In (a, p, c) (combine (combine A P) C) -> p = 0 -> c = 0 ->
      exists a' p' c', In (a', p', c') (combine (combine A P) C) /\ a < a' - p' * g0 + c' * of).
Proof.
  intros Hhs HP HC. destruct (champ3_inv _ _ _ _ _ _ _ Hhs) as (top & bottom & (Hti & Ht) & (_ & Hb) & ->).
  split.
  - intros (x & Hl & Hx). destruct (list3 _ Hl) as (u & w & v & ->). apply champ3_feasible in Hx as (H1 & H2 & H3 & H4).
    split; [lra|]. split; [lra|]. intros a p c Hin -> ->. apply in_map_iff in Hti as ([[a' p'] c'] & E & Hin').
    exists a', p', c'. split; auto. specialize (H1 _ Hin). unfold q3 in *. simpl in *. lra.
  - intros (Hg & Ho & H0). set (u := (g0 + gf) / 2). set (w := (o0 + of) / 2).
    assert (Hlt : forall r, In r (combine (combine A P) C) -> q3 r u w < top).
    { intros [[a p] c] Hap. destruct (in_combine_PC _ _ _ _ Hap) as [Hp Hc]. apply HP in Hp. apply HC in Hc.
      pose proof (Ht _ Hap) as Hta. unfold u, w. simpl in Hp, Hc.
      destruct (Req_dec p 0) as [E|E]; [destruct (Req_dec c 0) as [E'|E']|].
      - destruct (H0 a p c Hap E E') as (a' & p' & c' & Hin & Hlt). pose proof (Ht _ Hin) as Hta'.
        unfold q3 in *. simpl in *. subst. nra.
      - unfold q3 in *. simpl in *. subst. nra.
      - unfold q3 in *. simpl in *. nra. }
    assert (Hbt : bottom < top).
    { apply in_map_iff in Hti as (ap & E & Hap). pose proof (Hb _ Hap). pose proof (Hlt _ Hap).
      destruct (in_combine_PC _ _ _ _ Hap) as [Hp Hc]. apply HP in Hp. apply HC in Hc. unfold q3, u, w in *. nra. }
    destruct (max_below_gen (combine (combine A P) C) (fun r => q3 r u w) Hbt Hlt) as (y & Hy & Hall).
    exists [u; w; y]. split; auto. apply champ3_feasible. split; auto. split; auto. unfold u, w; lra.
Qed.

(** ** C20: get_interior_point *)
Lemma interior_loop_sound choice lp dim halfspaces interior_hs boundaries limit : forall fuel k s r x,
  interior_loop fuel choice lp dim halfspaces interior_hs boundaries limit k s r = Some (Ok x) ->
  strictly_inside halfspaces x /\ exists k' A b y, lp_x (lp k' (chebyshev_c dim) A b) = Some y /\ x = removelast y.
Proof.
  induction fuel as [|fuel IH]; cbn [interior_loop]; intros k s r x H; [discriminate|].
  destruct (mapM _ _) as [sampled|e]; [|discriminate].
  set (res := lp k _ _ _) in *.
  assert (Hretry : (if (limit <? r)%nat then Some (Raise ValueError)
        else if (length interior_hs <=? s)%nat
             then interior_loop fuel choice lp dim halfspaces interior_hs boundaries limit (S k) s (S r)
             else interior_loop fuel choice lp dim halfspaces interior_hs boundaries limit (S k) (s * 2) r) = Some (Ok x) ->
        strictly_inside halfspaces x /\ exists k' A b y, lp_x (lp k' (chebyshev_c dim) A b) = Some y /\ x = removelast y).
  { destruct (limit <? r)%nat; [discriminate|]. destruct (length interior_hs <=? s)%nat; apply IH. }
  destruct (lp_success res || existsb _ [0; 1; 4]%nat).
  - destruct (lp_x res) as [y|] eqn:Ey; [|discriminate].
    destruct (forallb _ _) eqn:Ef; auto. inversion H; subst. split.
    + intros h Hh. rewrite forallb_forall in Ef. apply Rltb_true. auto.
    + unfold res in Ey. eauto 8.
  - destruct (existsb _ [2; 3]%nat); [discriminate|auto].
Qed.

Lemma get_interior_point_sound fuel choice lp hs s limit x :
  get_interior_point fuel choice lp hs s limit = Some (Ok x) ->
  strictly_inside hs x /\ exists k' A b y, lp_x (lp k' (chebyshev_c (match hs with [] => 0%nat | h :: _ => length (normal h) end)) A b) = Some y /\ x = removelast y.
Proof.
  unfold get_interior_point. destruct (Nat.eqb _ 2); [apply interior_loop_sound|].
  destruct (Nat.eqb _ 3); [apply interior_loop_sound|discriminate].
Qed.

Lemma interior_loop_stops choice lp dim halfspaces interior_hs boundaries limit : forall fuel d k s r,
  (1 <= s)%nat -> (length interior_hs <= s * 2 ^ d)%nat -> (r <= limit + 1)%nat ->
  (d + (limit + 2 - r) <= fuel)%nat ->
  interior_loop fuel choice lp dim halfspaces interior_hs boundaries limit k s r <> None.
Proof.
  induction fuel as [|fuel IH]; intros d k s r Hs Hd Hr Hf; [lia|]. cbn [interior_loop].
  destruct (mapM _ _) as [sampled|e]; [|discriminate].
  set (res := lp k _ _ _).
  assert (Hretry : (if (limit <? r)%nat then Some (Raise ValueError)
        else if (length interior_hs <=? s)%nat
             then interior_loop fuel choice lp dim halfspaces interior_hs boundaries limit (S k) s (S r)
             else interior_loop fuel choice lp dim halfspaces interior_hs boundaries limit (S k) (s * 2) r) <> None).
  { destruct (Nat.ltb_spec limit r); [discriminate|]. destruct (Nat.leb_spec (length interior_hs) s).
    - apply (IH 0%nat); simpl; lia.
    - destruct d as [|d]; [simpl in Hd; lia|]. apply (IH d); try lia.
      rewrite Nat.pow_succ_r' in Hd. lia. }
  destruct (lp_success res || existsb _ [0; 1; 4]%nat).
  - destruct (lp_x res) as [y|]; [|discriminate]. destruct (forallb _ _); [discriminate|auto].
  - destruct (existsb _ [2; 3]%nat); [discriminate|auto].
Qed.

Lemma get_interior_point_stops fuel choice lp hs s limit d :
  (1 <= s)%nat -> (length hs <= s * 2 ^ d)%nat -> (d + limit + 2 <= fuel)%nat ->
  get_interior_point fuel choice lp hs s limit <> None.
Proof.
  intros Hs Hd Hf. unfold get_interior_point.
  assert (Hlen : forall nb, (length (firstn (length hs - nb) hs) <= s * 2 ^ d)%nat).
  { intros nb. rewrite firstn_length. lia. }
  destruct (Nat.eqb _ 2); [apply interior_loop_stops with d; auto; lia|].
  destruct (Nat.eqb _ 3); [apply interior_loop_stops with d; auto; lia|discriminate].
Qed.

(** with an initial sample of 0 rows the loop never stops, whatever the amount of fuel, once the solver keeps answering
    with a point that is not interior *)
Lemma interior_loop_zero choice lp dim halfspaces interior_hs boundaries limit : forall fuel k r,
  interior_hs <> [] -> (r <= limit)%nat -> (forall k n, choice k n 0%nat = []) ->
  (forall k, exists y, lp k (chebyshev_c dim) (chebyshev_A boundaries) (chebyshev_b boundaries) = mkLP true 0 (Some y) /\ ~ strictly_inside halfspaces (removelast y)) ->
  interior_loop fuel choice lp dim halfspaces interior_hs boundaries limit k 0 r = None.
Proof.
  induction fuel as [|fuel IH]; intros k r Hne Hr Hch Hlp; [auto|]. cbn [interior_loop]. rewrite Hch. cbn [mapM app].
  destruct (Hlp k) as (y & Ey & Hy). rewrite Ey. cbn [lp_success lp_x orb].
  destruct (forallb _ _) eqn:Ef.
  - exfalso. apply Hy. intros h Hh. rewrite forallb_forall in Ef. apply Rltb_true. auto.
  - destruct (Nat.ltb_spec limit r); [lia|]. destruct interior_hs; [congruence|]. cbn [length Nat.leb Nat.mul]. apply IH; auto.
Qed.
