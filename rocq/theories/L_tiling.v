(** The ranges of CHAMP_2D are exactly the places where their partitions are optimal; they tile the interval; and they do
    not depend on the external routines. *)
From Verif Require Import PyBase PyGraph M_partition M_pool M_champ Spec Spec_graph Spec_champ Spec_tiling L_base L_sort
  L_modularity L_modularity3 L_parallel L_bounds L_halfspace L_champ L_champ2 L_minkowski.
From Coq Require Import Sorted Classical.
Set Implicit Arguments.
Open Scope R_scope.

Lemma map_Some_inj {A} (l l' : list A) : map Some l = map Some l' -> l = l'.
Proof. revert l'. induction l as [|a l IH]; intros [|b l'] E; try discriminate; auto. simpl in E. inversion E. f_equal; auto. Qed.

Section Facet2.
Variables (A P : list R) (g0 gf : R) (hs : list halfspace) (out : list (option (list R) * list nat)).
Hypothesis (Hhs : champ_halfspaces_2D A P g0 gf = Ok hs) (Hex : exact_intersection 2 hs out).
Let rows := combine A P.

Lemma facet_exact2 i ap vs gamma : nth_error rows i = Some ap -> listed out i <> [] -> map Some vs = listed out i ->
  g0 <= gamma <= gf -> (forall p, In p P -> 0 <= p) -> (forall ap', In ap' rows -> q2 ap' gamma <= q2 ap gamma) ->
  exists v1 v2, vs = [v1; v2] /\ Rmin (nth 0 v1 0) (nth 0 v2 0) <= gamma <= Rmax (nth 0 v1 0) (nth 0 v2 0).
Proof.
  intros Er Hl Hvs Hg HP Hmax.
  assert (Hi : (i < length rows)%nat) by (apply nth_error_Some; rewrite Er; discriminate).
  assert (Hf : feasible hs [gamma; q2 ap gamma]).
  { eapply box_envelope_2D; eauto. apply in_map_iff. exists ap. split; auto. eapply nth_error_In; eauto. }
  destruct (champ2_inv _ _ _ _ Hhs) as (top & bottom & _ & _ & E). fold rows in E.
  assert (Hh : nth_error hs i = Some (normalise (mkH [- snd ap; -1] (fst ap)))).
  { rewrite E. apply map_nth_error. rewrite nth_error_app1 by (rewrite map_length; auto).
    rewrite (map_nth_error _ _ _ Er). reflexivity. }
  destruct (ei_facet _ _ _ Hex _ _ [gamma; q2 ap gamma] Hl Hh) as (vs' & Evs & ws & Hwl & Hw0 & Hw1 & Hc); auto.
  { apply tight2. reflexivity. }
  assert (vs' = vs) by (apply map_Some_inj; congruence). subst vs'.
  pose proof (ei_segment _ _ _ Hex eq_refl _ Hl) as H2.
  rewrite <- Evs, map_length in H2. destruct (list2 _ H2) as (v1 & v2 & ->). exists v1, v2. split; auto.
  destruct ws as [|w1 [|w2 [|]]]; try discriminate Hwl.
  specialize (Hc 0%nat). cbn [nth combine map fst snd] in Hc. rewrite !rsum_cons, rsum_nil in Hw1, Hc.
  assert (0 <= w1) by (apply Hw0; simpl; auto). assert (0 <= w2) by (apply Hw0; simpl; auto).
  set (u1 := nth 0 v1 0) in *. set (u2 := nth 0 v2 0) in *.
  pose proof (Rmin_l u1 u2). pose proof (Rmin_r u1 u2). pose proof (Rmax_l u1 u2). pose proof (Rmax_r u1 u2).
  split; nra.
Qed.
End Facet2.

Lemma in_hull_self (v : list R) : in_hull [v] v.
Proof. apply hull_in. simpl. auto. Qed.

Section One.
Variables (env : champ_env) (g : graph) (parts : list (list nat)) (g0 gf : R) (st : bool).
Hypothesis Hok : champ_ok_2D env g parts.
Let A := map (A_of g) parts.
Let P := map (P_of g) parts.

Lemma range_exact ranges s e part gamma : CHAMP_2D env g parts g0 gf st = Ok ranges -> In (s, e, part) ranges -> g0 <= gamma <= gf ->
  (forall c, In c parts -> modularity g gamma c <= modularity g gamma part) -> s <= gamma <= e.
Proof.
  intros H Hin Hg Hopt. destruct (classic (parts = [])) as [Ep|Hne].
  { rewrite Ep in H. inversion H; subst; destruct Hin. }
  destruct (@CHAMP_2D_inv _ _ _ _ _ _ Hok _ Hne H) as (hs & pt & out & d & rs & Hhs & Hl & Hs & Hex & F1 & F2 & F3 & Hrs & ->).
  destruct (@range_origin parts d rs (s, e, part) Hrs Hin) as ([i vs] & Hd & Hr).
  destruct (F2 i vs Hd) as (Hi & Hvne & Hvs).
  destruct (range_of_facet_inv _ _ _ Hr) as (v1 & v2 & rest & x1 & x2 & Evs & Hx1 & Hx2 & Hpart & -> & ->).
  assert (Hrow : nth_error (combine (map (A_of g) parts) (map (P_of g) parts)) i = Some (A_of g part, P_of g part)).
  { rewrite combine_map_nth, Hpart. reflexivity. }
  destruct (@facet_exact2 _ _ g0 gf hs out Hhs Hex i _ vs gamma Hrow) as (w1 & w2 & Ew & Hb); auto.
  - rewrite <- Hvs. destruct vs; simpl; congruence.
  - apply (P_nonneg Hok).
  - intros ap' Hap. apply In_nth_error in Hap as (j & Hj). rewrite combine_map_nth in Hj.
    destruct (nth_error parts j) as [c|] eqn:Ec; [|discriminate]. simpl in Hj. inversion Hj; subst ap'.
    specialize (Hopt c (nth_error_In _ _ Ec)). rewrite !modularity_AP in Hopt. unfold q2. cbn [fst snd]. lra.
  - rewrite Ew in Evs. inversion Evs; subst w1 w2.
    rewrite (nth_error_nth _ _ 0 Hx1), (nth_error_nth _ _ 0 Hx2) in Hb. auto.
Qed.

Hypothesis Hir : irredundant_hsi 2 (env_hsi env).

Lemma CHAMP_2D_irredundant ranges : parts <> [] -> CHAMP_2D env g parts g0 gf st = Ok ranges ->
  exists (hs : list halfspace) (pt : list R) out d rs,
    champ_halfspaces_2D A P g0 gf = Ok hs /\ length pt = 2%nat /\ exact_intersection 2 hs out /\
    (forall i vs, In (i, vs) d -> (i < length parts)%nat /\ vs <> [] /\ map Some vs = listed out i /\ irredundant vs) /\
    mapM (range_of_facet parts) d = Ok rs /\
    ranges = sort_by (fun a b => Rleb (fst (fst a)) (fst (fst b))) rs.
Proof.
  intros Hne H. rewrite (CHAMP_2D_unfold g0 gf st Hok Hne) in H.
  apply bind_ok in H as (hs & Hhs & H). apply bind_ok in H as (pt & Hpt & H). apply bind_ok in H as (out & Hout & H).
  apply bind_ok in H as (d & Hd & H). apply bind_ok in H as (rs & Hrs & H). inversion H; subst.
  destruct (@interior_point_2D env _ _ _ _ hs pt (c2_lp Hok) Hhs Hpt) as [Hl Hs].
  pose proof (c2_hsi Hok (bounded_2D _ _ _ _ Hhs) Hl Hs Hout) as Hex.
  pose proof (Hir (bounded_2D _ _ _ _ Hhs) Hl Hs Hout) as Hr.
  destruct (facets_ok (length parts) out) as (d' & Hd' & F1 & F2 & F3).
  { intros v is_ Hin. destruct (ei_vertex _ _ _ Hex _ _ Hin) as (x & -> & _). discriminate. }
  assert (d' = d) by congruence. subst d'.
  exists hs, pt, out, d, rs. fold A P in Hhs. split; [exact Hhs|]. split; [exact Hl|]. split; [exact Hex|]. split; [|split; [exact Hrs|reflexivity]].
  intros i vs Hin. destruct (F2 i vs Hin) as (K1 & K2 & K3). split; [exact K1|]. split; [exact K2|]. split; [exact K3|]. exact (Hr i vs K3).
Qed.

Lemma range_proper ranges s e part : CHAMP_2D env g parts g0 gf st = Ok ranges -> In (s, e, part) ranges -> s < e.
Proof.
  intros H Hin. destruct (classic (parts = [])) as [Ep|Hne].
  { rewrite Ep in H. inversion H; subst; destruct Hin. }
  destruct (CHAMP_2D_irredundant Hne H) as (hs & pt & out & d & rs & Hhs & Hl & Hex & F2 & Hrs & ->).
  destruct (@range_origin parts d rs (s, e, part) Hrs Hin) as ([i vs] & Hd & Hr).
  destruct (F2 i vs Hd) as (Hi & Hvne & Hvs & Hirr).
  destruct (range_of_facet_inv _ _ _ Hr) as (v1 & v2 & rest & x1 & x2 & Evs & Hx1 & Hx2 & Hpart & -> & ->).
  destruct (@vertex2 A P g0 gf hs pt out Hhs Hl Hex i vs) as (ap & Hap & Hv); auto.
  { unfold A, P. rewrite combine_map_length. auto. }
  destruct (Hv v1) as (u1 & y1 & -> & Ey1 & _); [subst vs; simpl; auto|].
  destruct (Hv v2) as (u2 & y2 & -> & Ey2 & _); [subst vs; simpl; auto|].
  simpl in Hx1, Hx2. inversion Hx1; inversion Hx2; subst x1 x2.
  destruct (Req_dec u1 u2) as [E|N].
  - exfalso. subst u2. subst y1 y2. apply (Hirr [] _ _ Evs). apply hull_in. simpl. auto.
  - unfold Rmin, Rmax. destruct (Rle_dec u1 u2); lra.
Qed.
End One.

(** ** Lines *)
Lemma same_line g c c' a b : a <> b -> modularity g a c = modularity g a c' -> modularity g b c = modularity g b c' ->
  forall gamma, modularity g gamma c = modularity g gamma c'.
Proof.
  intros N Ea Eb gamma. rewrite !modularity_AP in *.
  set (x := A_of g c) in *. set (p := P_of g c) in *. set (x' := A_of g c') in *. set (p' := P_of g c') in *. clearbody x p x' p'.
  assert (p = p') by (apply (Rmult_eq_reg_l (a - b)); lra). subst p'. assert (x = x') by lra. subst. lra.
Qed.

(** Two intervals on which different lines are above each other. *)
Lemma crossing g c c' s e s' e' : s < e -> e <= s' -> s' < e' -> (exists gamma, modularity g gamma c <> modularity g gamma c') ->
  (forall gamma, s <= gamma <= e -> modularity g gamma c' <= modularity g gamma c) ->
  (forall gamma, s' <= gamma <= e' -> modularity g gamma c <= modularity g gamma c') ->
  (forall gamma, gamma < e -> modularity g gamma c' < modularity g gamma c) /\
  (forall gamma, s' < gamma -> modularity g gamma c < modularity g gamma c').
Proof.
  intros L1 L2 L3 (z & N) H1 H2. rewrite !modularity_AP in N.
  pose proof (H1 s ltac:(lra)) as F1. pose proof (H1 e ltac:(lra)) as F2. pose proof (H2 s' ltac:(lra)) as F3. pose proof (H2 e' ltac:(lra)) as F4.
  assert (K : forall gamma, (gamma < e -> modularity g gamma c' < modularity g gamma c) /\ (s' < gamma -> modularity g gamma c < modularity g gamma c')).
  { intros gamma. rewrite !modularity_AP in *.
    set (x := A_of g c) in *. set (p := P_of g c) in *. set (x' := A_of g c') in *. set (p' := P_of g c') in *. clearbody x p x' p'.
    destruct (Rtotal_order p p') as [L|[E|L]].
    - exfalso. assert (0 < (e' - s) * (p' - p)) by (apply Rmult_lt_0_compat; lra). lra.
    - exfalso. subst p'. apply N. lra.
    - split; intros.
      + assert (0 < (e - gamma) * (p - p')) by (apply Rmult_lt_0_compat; lra). lra.
      + assert (0 < (gamma - s') * (p - p')) by (apply Rmult_lt_0_compat; lra). lra. }
  split; intros gamma Hg; apply K; auto.
Qed.

(** ** Tilings *)
Lemma tiles_le {T} (l : list (R * R * T)) : forall a b, tiles a b l -> a <= b.
Proof. induction l as [|[[s e] x] l IH]; simpl; intros a b H; [lra|]. destruct H as (-> & L & H). apply IH in H. lra. Qed.

Lemma tiles_in {T} (l : list (R * R * T)) : forall a b s e x, tiles a b l -> In (s, e, x) l -> a <= s /\ s < e /\ e <= b.
Proof.
  induction l as [|[[s0 e0] x0] l IH]; simpl; intros a b s e x H Hin; [tauto|]. destruct H as (-> & L & H).
  destruct Hin as [E|Hin]; [inversion E; subst; apply tiles_le in H; lra|]. destruct (IH _ _ _ _ _ H Hin) as (? & ? & ?). lra.
Qed.

Lemma tiles_unique {T} (l : list (R * R * T)) : forall a b l', tiles a b l -> tiles a b l' -> (forall r, In r l -> In r l') -> l = l'.
Proof.
  induction l as [|[[s e] x] l IH]; intros a b l' H H' Hin.
  - destruct l' as [|[[s e] x] l']; auto. exfalso. simpl in H, H'. destruct H' as (-> & L & H'). apply tiles_le in H'. lra.
  - destruct H as (-> & L & H). destruct l' as [|[[s' e'] x'] l'].
    { exfalso. apply (Hin (a, e, x)). simpl; auto. }
    destruct H' as (-> & L' & H').
    assert (E : (a, e, x) = (a, e', x')).
    { destruct (Hin (a, e, x)) as [E|Hi]; [simpl; auto|auto|]. destruct (@tiles_in T l' e' b _ _ _ H' Hi). lra. }
    inversion E; subst e' x'. f_equal. apply (IH e b); auto. intros [[s1 e1] x1] Hr.
    destruct (Hin (s1, e1, x1)) as [E1|Hi]; [simpl; auto| |auto]. inversion E1; subst. destruct (@tiles_in T l _ b _ _ _ H Hr). lra.
Qed.

Lemma tiles_of {T} (l : list (R * R * T)) : forall a b, a <= b ->
  (forall s e x, In (s, e, x) l -> a <= s /\ s < e /\ e <= b) ->
  StronglySorted (fun r r' => fst (fst r) <= fst (fst r')) l ->
  ForallOrdPairs (fun r r' => snd (fst r) <= fst (fst r') \/ snd (fst r') <= fst (fst r)) l ->
  (forall gamma, a < gamma <= b -> exists s e x, In (s, e, x) l /\ s <= gamma <= e) -> tiles a b l.
Proof.
  induction l as [|[[s e] x] l IH]; intros a b Hab Hin Hs Hp Hc.
  - simpl. destruct (Req_dec a b); auto. destruct (Hc b) as (s & e & x & [] & _). lra.
  - destruct (Hin s e x) as (H1 & H2 & H3); [simpl; auto|]. inversion Hs as [|? ? Hs' HF]; subst. inversion Hp as [|? ? HF' Hp']; subst.
    rewrite Forall_forall in HF, HF'.
    assert (E : s = a).
    { destruct (Req_dec s a); auto. exfalso. destruct (Hc ((a + s) / 2)) as (s1 & e1 & x1 & Hi & Hb); [lra|].
      destruct Hi as [E|Hi]; [inversion E; subst; lra|]. specialize (HF _ Hi). cbn [fst snd] in HF. lra. }
    subst s. cbn [tiles]. split; auto. split; auto. apply IH; auto.
    + intros s1 e1 x1 Hi. destruct (Hin s1 e1 x1) as (K1 & K2 & K3); [simpl; auto|].
      specialize (HF _ Hi). specialize (HF' _ Hi). cbn [fst snd] in HF, HF'. lra.
    + intros gamma Hg. destruct (Hc gamma) as (s1 & e1 & x1 & Hi & Hb); [lra|]. destruct Hi as [E|Hi]; [inversion E; subst; lra|]. eauto.
Qed.

Lemma pairs_of_indices {X Y} (R' : X -> Y -> Prop) (Q : Y -> Y -> Prop) (idx : list X) (l : list Y) : NoDup idx -> Forall2 R' idx l ->
  (forall i j r r', i <> j -> In r l -> In r' l -> R' i r -> R' j r' -> Q r r') -> ForallOrdPairs Q l.
Proof.
  intros ND HF HQ. induction HF as [|i r idx l Hr HF IH]; [constructor|]. inversion ND as [|? ? Ni ND']; subst. constructor.
  - apply Forall_forall. intros r' Hr'. assert (exists j, In j idx /\ R' j r') as (j & Hj & HR).
    { clear - HF Hr'. induction HF; [destruct Hr'|]. destruct Hr' as [->|H']; [exists x; simpl; auto|]. destruct (IHHF H') as (j & ? & ?). exists j. simpl; auto. }
    apply (HQ i j); simpl; auto. intros ->. auto.
  - apply IH; auto. intros. apply (HQ i0 j); simpl; auto.
Qed.

Section Tile.
Variables (env : champ_env) (g : graph) (parts : list (list nat)) (g0 gf : R) (st : bool).
Hypothesis (Hok : champ_ok_2D env g parts) (Hir : irredundant_hsi 2 (env_hsi env)) (Hne : parts <> []).

(** Two ranges with different lines meet in at most one point. *)
Lemma ranges_apart ranges s e p s' e' p' : CHAMP_2D env g parts g0 gf st = Ok ranges -> In (s, e, p) ranges -> In (s', e', p') ranges ->
  (exists gamma, modularity g gamma p <> modularity g gamma p') -> e <= s' \/ e' <= s.
Proof.
  intros H Hin Hin' (z & N). destruct (Rle_lt_dec e s') as [?|L1]; auto. destruct (Rle_lt_dec e' s) as [?|L2]; auto. exfalso.
  pose proof (@range_proper _ _ _ _ _ _ Hok Hir _ _ _ _ H Hin) as L. pose proof (@range_proper _ _ _ _ _ _ Hok Hir _ _ _ _ H Hin') as L'.
  destruct (@range_facts _ _ _ _ _ _ Hok _ s e p H Hin) as (Hp & _ & _ & _ & D).
  destruct (@range_facts _ _ _ _ _ _ Hok _ s' e' p' H Hin') as (Hp' & _ & _ & _ & D').
  apply N. pose proof (Rmax_l s s') as M1. pose proof (Rmax_r s s') as M2. pose proof (Rmin_l e e') as M3. pose proof (Rmin_r e e') as M4.
  assert (Rmax s s' < Rmin e e') by (apply Rmax_case; apply Rmin_case; lra).
  apply (@same_line g p p' (Rmax s s') (Rmin e e')); [lra| |]; apply Rle_antisym; (apply D + apply D'); auto; lra.
Qed.

Lemma ranges_tile ranges : distinguishable g parts -> CHAMP_2D env g parts g0 gf st = Ok ranges -> tiles g0 gf ranges.
Proof.
  intros (ND & Hd) H. destruct (@CHAMP_2D_inv _ _ _ _ _ _ Hok _ Hne H) as (hs & pt & out & d & rs & Hhs & Hl & Hs & _).
  pose proof (@g0_lt_gf _ _ _ _ _ _ Hhs Hl Hs) as Hg. clear - Hg Hok Hir Hne ND Hd H.
  destruct (@shape_facts _ _ _ _ _ _ Hok _ H) as (Hsrt & idx & NDi & HF).
  apply tiles_of; [lra| |exact Hsrt| |].
  - intros s e x Hin. destruct (@range_facts _ _ _ _ _ _ Hok _ s e x H Hin) as (_ & ? & _ & ? & _).
    pose proof (@range_proper _ _ _ _ _ _ Hok Hir _ _ _ _ H Hin). lra.
  - apply (@pairs_of_indices _ _ _ _ _ _ NDi HF). intros i j [[s e] p] [[s' e'] p'] Nij Hr Hr' Hi Hj. cbn [fst snd] in *.
    eapply (ranges_apart); [exact H|exact Hr|exact Hr'|]. apply Hd; try (eapply nth_error_In; eauto). intros ->. apply Nij.
    eapply NoDup_nth_error; [exact ND| |congruence]. apply nth_error_Some. congruence.
  - intros gamma Hgm. apply (@cover_facts _ _ _ _ _ _ Hok _ gamma Hne H). lra.
Qed.
End Tile.

Section Two_runs.
Variables (env1 env2 : champ_env) (g : graph) (parts1 parts2 : list (list nat)) (g0 gf : R) (st1 st2 : bool).
Hypothesis (Hok1 : champ_ok_2D env1 g parts1) (Hok2 : champ_ok_2D env2 g parts2)
  (Hir1 : irredundant_hsi 2 (env_hsi env1)) (Hir2 : irredundant_hsi 2 (env_hsi env2))
  (Hsame : forall c, In c parts1 <-> In c parts2).

Lemma runs_agree r1 r2 s e p : CHAMP_2D env1 g parts1 g0 gf st1 = Ok r1 -> CHAMP_2D env2 g parts2 g0 gf st2 = Ok r2 ->
  In (s, e, p) r1 -> exists p', In (s, e, p') r2 /\ forall gamma, modularity g gamma p = modularity g gamma p'.
Proof.
  intros H1 H2 Hin.
  pose proof (@range_proper _ _ _ _ _ _ Hok1 Hir1 _ _ _ _ H1 Hin) as L.
  destruct (@range_facts _ _ _ _ _ _ Hok1 _ s e p H1 Hin) as (Hp & B1 & _ & B2 & D).
  assert (Hne2 : parts2 <> []) by (intros ->; apply Hsame in Hp; destruct Hp).
  destruct (@pigeon _ r2 (fun r t => fst (fst r) <= s + t * (e - s) <= snd (fst r))) as ([[s' e'] p'] & Hin' & HL).
  { intros t Ht. destruct (@cover_facts _ _ _ _ _ _ Hok2 _ (s + t * (e - s)) Hne2 H2) as (s' & e' & p' & Hi & Hb); [nra|].
    exists (s', e', p'). auto. }
  cbn [fst snd] in HL.
  destruct (@range_facts _ _ _ _ _ _ Hok2 _ s' e' p' H2 Hin') as (Hp' & B1' & _ & B2' & D').
  destruct (HL 1) as (t1 & T1 & _ & Q1); [lra|]. destruct (HL t1) as (t2 & T2 & _ & Q2); [lra|].
  assert (Hl : forall gamma, modularity g gamma p = modularity g gamma p').
  { apply (@same_line g p p' (s + t1 * (e - s)) (s + t2 * (e - s))); [nra| |]; apply Rle_antisym;
      (apply D' + apply D); auto; try (apply Hsame; auto); nra. }
  assert (O1 : forall gamma, s <= gamma <= e -> s' <= gamma <= e').
  { intros gamma Hg. apply (@range_exact _ _ _ g0 gf _ Hok2 _ _ _ p' gamma H2 Hin'); [lra|]. intros c Hc. rewrite <- Hl. apply D; auto. apply Hsame; auto. }
  assert (O2 : forall gamma, s' <= gamma <= e' -> s <= gamma <= e).
  { intros gamma Hg. apply (@range_exact _ _ _ g0 gf _ Hok1 _ _ _ p gamma H1 Hin); [lra|]. intros c Hc. rewrite Hl. apply D'; auto. apply Hsame; auto. }
  pose proof (@range_proper _ _ _ _ _ _ Hok2 Hir2 _ _ _ _ H2 Hin') as L'.
  exists p'. split; auto. pose proof (O1 s). pose proof (O1 e). pose proof (O2 s'). pose proof (O2 e').
  assert (Es : s = s') by lra. assert (Ee : e = e') by lra. rewrite Es, Ee. exact Hin'.
Qed.

Lemma runs_equal r1 r2 : distinguishable g parts1 -> NoDup parts2 ->
  CHAMP_2D env1 g parts1 g0 gf st1 = Ok r1 -> CHAMP_2D env2 g parts2 g0 gf st2 = Ok r2 -> r1 = r2.
Proof.
  intros Hd ND H1 H2. destruct (classic (parts1 = [])) as [E1|Hne1].
  { assert (E2 : parts2 = []) by (destruct parts2 as [|c l]; auto; exfalso; rewrite E1 in Hsame; destruct (Hsame c) as [_ K]; apply K; simpl; auto).
    rewrite E1 in H1. rewrite E2 in H2. inversion H1; inversion H2; reflexivity. }
  assert (Hne2 : parts2 <> []).
  { intros E2. destruct parts1 as [|c l]; auto. rewrite E2 in Hsame. destruct (Hsame c) as [K _]. apply K. simpl; auto. }
  assert (Hd2 : distinguishable g parts2).
  { destruct Hd as [_ Hd]. split; auto. intros c c' Hc Hc'. apply Hd; apply Hsame; auto. }
  apply (@tiles_unique _ r1 g0 gf r2); [apply (@ranges_tile env1 g parts1 g0 gf st1 Hok1 Hir1 Hne1 r1 Hd H1)|apply (@ranges_tile env2 g parts2 g0 gf st2 Hok2 Hir2 Hne2 r2 Hd2 H2)|].
  intros [[s e] p] Hr. destruct (runs_agree _ _ _ H1 H2 Hr) as (p' & Hr' & Hl).
  destruct (classic (p = p')) as [->|N]; auto. exfalso. destruct Hd as [_ Hd].
  destruct (@range_facts _ _ _ _ _ _ Hok1 _ s e p H1 Hr) as (Hp & _).
  destruct (@range_facts _ _ _ _ _ _ Hok2 _ s e p' H2 Hr') as (Hp' & _).
  destruct (Hd p p') as (z & Nz); auto. apply Hsame; auto.
Qed.
End Two_runs.
