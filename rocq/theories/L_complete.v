(** Completeness of multilayer pruning: a partition that is strictly the best at its estimate is interior to its domain. *)
From Verif Require Import PyBase PyGraph M_partition M_champ M_estimation_utils Spec Spec_leiden Spec_graph Spec_champ Spec_polygon Spec_stability Spec_prune
  L_base L_canon L_leiden L_modularity L_modularity3 L_champ L_champ2 L_champ3 L_angular L_convex L_sbm2 L_stability L_prune.
From Coq Require Import Classical.
Set Implicit Arguments.
Open Scope R_scope.

Lemma hull_linear poly a b k x : in_polygon poly x -> (forall v, In v poly -> a * fst v + b * snd v = k) -> a * fst x + b * snd x = k.
Proof.
  intros (ws & L & W & S1 & E1 & E2) H. rewrite E1, E2. clear E1 E2 W.
  assert (G : forall ws poly, length ws = length poly -> (forall v, In v poly -> a * fst v + b * snd v = k) ->
    a * rsum (map (fun wv => fst wv * fst (snd wv)) (combine ws poly)) + b * rsum (map (fun wv => fst wv * snd (snd wv)) (combine ws poly)) = rsum ws * k).
  { clear. induction ws as [|w ws IH]; intros [|v poly] L H; try discriminate; cbn [combine map]; rewrite ?rsum_nil, ?rsum_cons; [lra|]. cbn [fst snd].
    pose proof (IH poly ltac:(cbn in L; lia) (fun u Hu => H u (or_intror Hu))) as Q. pose proof (H v (or_introl eq_refl)) as Q2. cbn [fst snd] in *. nra. }
  rewrite G by auto. rewrite S1. lra.
Qed.

Lemma interior_three poly x : interior poly x -> (3 <= length poly)%nat.
Proof.
  intros (eps & He & H).
  assert (G : forall a b k, (a <> 0 \/ b <> 0) -> ~ (forall v, In v poly -> a * fst v + b * snd v = k)).
  { intros a b k N Hv.
    assert (P0 : a * fst x + b * snd x = k) by (apply (@hull_linear poly a b k x); auto; apply H; rewrite Rminus_eq_0, Rabs_R0; auto).
    assert (P1 : a * (fst x + eps / 2) + b * snd x = k).
    { apply (@hull_linear poly a b k (fst x + eps / 2, snd x)); auto. apply H; cbn [fst snd]; [replace (fst x + eps / 2 - fst x) with (eps / 2) by ring; rewrite Rabs_right; lra|rewrite Rminus_eq_0, Rabs_R0; auto]. }
    assert (P2 : a * fst x + b * (snd x + eps / 2) = k).
    { apply (@hull_linear poly a b k (fst x, snd x + eps / 2)); auto. apply H; cbn [fst snd]; [rewrite Rminus_eq_0, Rabs_R0; auto|replace (snd x + eps / 2 - snd x) with (eps / 2) by ring; rewrite Rabs_right; lra]. }
    destruct N as [N|N]; apply N; apply (Rmult_eq_reg_r (eps / 2)); lra. }
  destruct poly as [|p [|q [|r l]]]; [| | |cbn; lia]; exfalso.
  - apply (G 1 0 0); [left; lra|]. intros v [].
  - apply (G 1 0 (fst p)); [left; lra|]. intros v [<-|[]]. lra.
  - destruct (classic (p = q)) as [->|N].
    + apply (G 1 0 (fst q)); [left; lra|]. intros v [<-|[<-|[]]]; lra.
    + apply (G (snd q - snd p) (fst p - fst q) ((snd q - snd p) * fst p + (fst p - fst q) * snd p)).
      * destruct (Req_EM_T (snd q) (snd p)) as [E|E]; [right|left; lra]. intros Z. apply N. destruct p, q. cbn in *. f_equal; lra.
      * intros v [<-|[<-|[]]]; [lra|]. ring.
Qed.

(** a finite family of affine functions positive at a point is positive around it *)
Lemma affine_near a b k x : 0 < a + b * fst x + k * snd x ->
  exists eps, 0 < eps /\ forall y, Rabs (fst y - fst x) < eps -> Rabs (snd y - snd x) < eps -> 0 < a + b * fst y + k * snd y.
Proof.
  intros H. set (d := a + b * fst x + k * snd x) in *. set (s := Rabs b + Rabs k + 1).
  assert (Hs : 0 < s) by (unfold s; pose proof (Rabs_pos b); pose proof (Rabs_pos k); lra).
  exists (d / s). assert (Hd : 0 < d / s) by (apply Rdiv_lt_0_compat; auto). split; auto. intros y H1 H2.
  set (dx := fst y - fst x) in *. set (dy := snd y - snd x) in *.
  replace (a + b * fst y + k * snd y) with (d + (b * dx + k * dy)) by (unfold d, dx, dy; ring).
  assert (B : Rabs (b * dx + k * dy) <= Rabs b * Rabs dx + Rabs k * Rabs dy) by (eapply Rle_trans; [apply Rabs_triang|]; rewrite !Rabs_mult; lra).
  assert (Rabs b * Rabs dx <= Rabs b * (d / s)) by (apply Rmult_le_compat_l; [apply Rabs_pos|lra]).
  assert (Rabs k * Rabs dy <= Rabs k * (d / s)) by (apply Rmult_le_compat_l; [apply Rabs_pos|lra]).
  assert (E : d = (Rabs b + Rabs k + 1) * (d / s)) by (fold s; field; lra).
  assert (Q : Rabs (b * dx + k * dy) < d) by nra. apply Rabs_def2 in Q. lra.
Qed.

Section Best.
Variables (g gi : graph) (lv : list nat) (ps : list (list nat)) (c : list nat) (x : R * R).
Hypothesis Hbest : forall d, In d ps -> d <> c -> multilayer_modularity g gi lv (fst x) (snd x) d < multilayer_modularity g gi lv (fst x) (snd x) c.
Lemma best_near : exists eps, 0 < eps /\ forall y, Rabs (fst y - fst x) < eps -> Rabs (snd y - snd x) < eps ->
  forall d, In d ps -> d <> c -> multilayer_modularity g gi lv (fst y) (snd y) d < multilayer_modularity g gi lv (fst y) (snd y) c.
Proof.
  clear - Hbest. induction ps as [|d l IH].
  - exists 1. split; [lra|]. intros y _ _ d [].
  - destruct IH as (e & He & P); [intros d' Hd; apply Hbest; right; auto|].
    destruct (classic (d = c)) as [->|N].
    + exists e. split; auto. intros y H1 H2 d [<-|Hd] Nd; [congruence|]. apply P; auto.
    + destruct (@affine_near (A_of g c - A_of g d) (P3_of g lv d - P3_of g lv c) (A_of gi c - A_of gi d) x) as (e' & He' & P').
      { specialize (Hbest (or_introl eq_refl) N). rewrite !multilayer_APC in Hbest. lra. }
      exists (Rmin e e'). split; [apply Rmin_glb_lt; auto|]. pose proof (Rmin_l e e'). pose proof (Rmin_r e e').
      intros y H1 H2 d' [<-|Hd] Nd; [|apply P; auto; lra]. specialize (P' y ltac:(lra) ltac:(lra)). rewrite !multilayer_APC. lra.
Qed.
End Best.

(** strictly best at an interior point of the rectangle: interior to the domain *)
Lemma best_interior env g gi lv ps g0 gf o0 of domains c x : champ_ok_3D env g gi lv ps ->
  CHAMP_3D env g gi lv ps g0 gf o0 of = Ok domains -> NoDup (map snd domains) -> In c ps ->
  g0 < fst x < gf -> o0 < snd x < of ->
  (forall d, In d ps -> d <> c -> multilayer_modularity g gi lv (fst x) (snd x) d < multilayer_modularity g gi lv (fst x) (snd x) c) ->
  exists poly, In (poly, c) domains /\ interior poly x.
Proof.
  intros Hok H Nd Hc Hg Ho Hb. assert (Hne : ps <> []) by (intros ->; destruct Hc).
  destruct (@best_near _ _ _ _ _ _ Hb) as (e & He & P).
  assert (G : forall y, Rabs (fst y - fst x) < e -> Rabs (snd y - snd x) < e -> g0 <= fst y <= gf -> o0 <= snd y <= of -> exists poly, In (poly, c) domains /\ in_polygon poly y).
  { intros y H1 H2 H3 H4. destruct (@domain_cover _ _ _ _ _ _ _ _ _ Hok _ (fst y) (snd y) Hne H H3 H4) as (poly & part & Hin & Hpol).
    destruct (@domain_facts _ _ _ _ _ _ _ _ _ Hok _ poly part H Hin) as (Hp & _ & _ & Hdom). rewrite <- surjective_pairing in Hpol.
    destruct (classic (part = c)) as [->|N]; [eauto|]. exfalso. specialize (P y H1 H2 part Hp N). specialize (Hdom (fst y) (snd y) c). rewrite <- surjective_pairing in Hdom. specialize (Hdom Hpol Hc). lra. }
  destruct (G x) as (poly & Hin & Hpol); try (rewrite Rminus_eq_0, Rabs_R0; auto); try lra.
  exists poly. split; auto.
  set (r := Rmin (Rmin (fst x - g0) (gf - fst x)) (Rmin (snd x - o0) (of - snd x))).
  assert (Hr : 0 < r) by (unfold r; repeat apply Rmin_glb_lt; lra).
  assert (R1 : r <= fst x - g0 /\ r <= gf - fst x /\ r <= snd x - o0 /\ r <= of - snd x).
  { unfold r. set (m1 := Rmin (fst x - g0) (gf - fst x)). set (m2 := Rmin (snd x - o0) (of - snd x)). pose proof (Rmin_l m1 m2). pose proof (Rmin_r m1 m2).
    pose proof (Rmin_l (fst x - g0) (gf - fst x)). pose proof (Rmin_r (fst x - g0) (gf - fst x)). pose proof (Rmin_l (snd x - o0) (of - snd x)). pose proof (Rmin_r (snd x - o0) (of - snd x)).
    fold m1 in H2, H3. fold m2 in H4, H5. repeat split; lra. }
  exists (Rmin e r). split; [apply Rmin_glb_lt; auto|]. pose proof (Rmin_l e r). pose proof (Rmin_r e r). intros y H2 H3.
  assert (A1 : Rabs (fst y - fst x) < r) by lra. assert (A2 : Rabs (snd y - snd x) < r) by lra. apply Rabs_def2 in A1. apply Rabs_def2 in A2.
  destruct (G y) as (poly' & Hin' & Hpol'); try lra.
  replace poly with poly'; auto.
  clear - Nd Hin Hin'. induction domains as [|[p d] l IH]; [destruct Hin|]. cbn [map snd] in Nd. inversion Nd; subst.
  assert (Q : forall p', In (p', c) l -> d <> c) by (intros p' Hp ->; apply H1; apply in_map_iff; exists (p', c); auto).
  destruct Hin as [E|Hin], Hin' as [E'|Hin'].
  - congruence.
  - inversion E; subst. exfalso. apply (Q _ Hin'); auto.
  - inversion E'; subst. exfalso. apply (Q _ Hin); auto.
  - auto.
Qed.
