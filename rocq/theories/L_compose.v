(** CHAMP in several steps: restricting the parameters, dropping inputs, merging batches. *)
From Verif Require Import PyBase PyGraph M_partition M_pool M_champ Spec Spec_graph Spec_champ Spec_polygon Spec_stability Spec_tiling Spec_compose L_base L_sort
  L_modularity L_modularity3 L_parallel L_bounds L_halfspace L_champ L_champ2 L_champ3 L_minkowski L_angular L_convex L_tiling L_tiling3.
From Coq Require Import Sorted Classical.
Set Implicit Arguments.
Open Scope R_scope.

Section Two_runs.
Variables (env1 env2 : champ_env) (g : graph) (parts1 parts2 : list (list nat)) (a b a' b' : R) (st1 st2 : bool).
Hypothesis (Hok1 : champ_ok_2D env1 g parts1) (Hok2 : champ_ok_2D env2 g parts2)
  (Hir1 : irredundant_hsi 2 (env_hsi env1)) (Hir2 : irredundant_hsi 2 (env_hsi env2))
  (Ha : a <= a') (Hb : b' <= b)
  (H12 : forall gamma c, a' <= gamma <= b' -> In c parts1 -> exists c', In c' parts2 /\ modularity g gamma c <= modularity g gamma c')
  (H21 : forall gamma c, a' <= gamma <= b' -> In c parts2 -> exists c', In c' parts1 /\ modularity g gamma c <= modularity g gamma c').
Variables (r1 r2 : list (R * R * list nat)).
Hypothesis (E1 : CHAMP_2D env1 g parts1 a b st1 = Ok r1) (E2 : CHAMP_2D env2 g parts2 a' b' st2 = Ok r2).

Lemma common_range s e p s' e' p' t1 t2 : In (s, e, p) r1 -> In (s', e', p') r2 -> t1 <> t2 ->
  s <= t1 <= e -> s <= t2 <= e -> s' <= t1 <= e' -> s' <= t2 <= e' ->
  (forall gamma, modularity g gamma p = modularity g gamma p') /\ s' = Rmax s a' /\ e' = Rmin e b'.
Proof.
  intros Hin Hin' N T1 T2 T1' T2'.
  destruct (@range_facts _ _ _ _ _ _ Hok1 _ s e p E1 Hin) as (Hp & B1 & _ & B2 & D).
  destruct (@range_facts _ _ _ _ _ _ Hok2 _ s' e' p' E2 Hin') as (Hp' & B1' & _ & B2' & D').
  assert (Ht : forall t, s <= t <= e -> s' <= t <= e' -> modularity g t p = modularity g t p').
  { intros t Q Q'. apply Rle_antisym.
    - destruct (@H12 t p ltac:(lra) Hp) as (c & Hc & L). eapply Rle_trans; [exact L|]. apply D'; auto.
    - destruct (@H21 t p' ltac:(lra) Hp') as (c & Hc & L). eapply Rle_trans; [exact L|]. apply D; auto. }
  assert (Hl : forall gamma, modularity g gamma p = modularity g gamma p').
  { apply (@same_line g p p' t1 t2); auto. }
  split; auto.
  assert (O1 : forall gamma, a' <= gamma <= b' -> s <= gamma <= e -> s' <= gamma <= e').
  { intros gamma G Hg. apply (@range_exact _ _ _ a' b' _ Hok2 _ _ _ p' gamma E2 Hin' G). intros c Hc. rewrite <- Hl.
    destruct (@H21 gamma c G Hc) as (c' & Hc' & L). eapply Rle_trans; [exact L|]. apply D; auto. }
  assert (O2 : forall gamma, s' <= gamma <= e' -> s <= gamma <= e).
  { intros gamma Hg. apply (@range_exact _ _ _ a b _ Hok1 _ _ _ p gamma E1 Hin); [lra|]. intros c Hc. rewrite Hl.
    destruct (@H12 gamma c ltac:(lra) Hc) as (c' & Hc' & L). eapply Rle_trans; [exact L|]. apply D'; auto. }
  pose proof (O2 s' ltac:(lra)). pose proof (O2 e' ltac:(lra)).
  pose proof (O1 (Rmax s a')) as X1. pose proof (O1 (Rmin e b')) as X2.
  unfold Rmax, Rmin in *. destruct (Rle_dec s a'), (Rle_dec e b'); split; lra.
Qed.

Lemma restricted_range s e p : In (s, e, p) r1 -> Rmax s a' < Rmin e b' ->
  exists p', In (Rmax s a', Rmin e b', p') r2 /\ forall gamma, modularity g gamma p = modularity g gamma p'.
Proof.
  intros Hin L. set (x := Rmax s a') in *. set (y := Rmin e b') in *.
  assert (X : s <= x /\ a' <= x) by (split; [apply Rmax_l|apply Rmax_r]). assert (Y : y <= e /\ y <= b') by (split; [apply Rmin_l|apply Rmin_r]).
  destruct (@range_facts _ _ _ _ _ _ Hok1 _ s e p E1 Hin) as (Hp & _).
  assert (Hne2 : parts2 <> []).
  { destruct (@H12 x p ltac:(lra) Hp) as (c & Hc & _). intros ->. destruct Hc. }
  destruct (@pigeon _ r2 (fun r t => fst (fst r) <= x + t * (y - x) <= snd (fst r))) as ([[s' e'] p'] & Hin' & HL).
  { intros t Ht. destruct (@cover_facts _ _ _ _ _ _ Hok2 _ (x + t * (y - x)) Hne2 E2) as (s' & e' & p' & Hi & Hbb); [nra|].
    exists (s', e', p'). auto. }
  cbn [fst snd] in HL. destruct (HL 1) as (t1 & T1 & _ & Q1); [lra|]. destruct (HL t1) as (t2 & T2 & _ & Q2); [lra|].
  destruct (@common_range s e p s' e' p' (x + t1 * (y - x)) (x + t2 * (y - x)) Hin Hin') as (Hl & Es & Ee); auto; try nra.
  exists p'. split; auto. fold x in Es. fold y in Ee. rewrite <- Es, <- Ee. exact Hin'.
Qed.

Lemma range_from_wider s' e' p' : In (s', e', p') r2 ->
  exists s e p, In (s, e, p) r1 /\ s' = Rmax s a' /\ e' = Rmin e b' /\ forall gamma, modularity g gamma p = modularity g gamma p'.
Proof.
  intros Hin. pose proof (@range_proper _ _ _ _ _ _ Hok2 Hir2 _ _ _ _ E2 Hin) as L.
  destruct (@range_facts _ _ _ _ _ _ Hok2 _ s' e' p' E2 Hin) as (Hp & B1 & _ & B2 & D).
  assert (Hne1 : parts1 <> []).
  { destruct (@H21 s' p' ltac:(lra) Hp) as (c & Hc & _). intros ->. destruct Hc. }
  destruct (@pigeon _ r1 (fun r t => fst (fst r) <= s' + t * (e' - s') <= snd (fst r))) as ([[s e] p] & Hin' & HL).
  { intros t Ht. destruct (@cover_facts _ _ _ _ _ _ Hok1 _ (s' + t * (e' - s')) Hne1 E1) as (s & e & p & Hi & Hbb); [nra|].
    exists (s, e, p). auto. }
  cbn [fst snd] in HL. destruct (HL 1) as (t1 & T1 & _ & Q1); [lra|]. destruct (HL t1) as (t2 & T2 & _ & Q2); [lra|].
  destruct (@common_range s e p s' e' p' (s' + t1 * (e' - s')) (s' + t2 * (e' - s')) Hin' Hin) as (Hl & Es & Ee); auto; try nra.
  exists s, e, p. auto.
Qed.
End Two_runs.

Lemma same_envelope_equal env1 env2 g parts1 parts2 a b st1 st2 r1 r2 :
  champ_ok_2D env1 g parts1 -> champ_ok_2D env2 g parts2 -> irredundant_hsi 2 (env_hsi env1) -> irredundant_hsi 2 (env_hsi env2) ->
  (forall c, In c parts2 -> In c parts1) ->
  (forall gamma c, a <= gamma <= b -> In c parts1 -> exists c', In c' parts2 /\ modularity g gamma c <= modularity g gamma c') ->
  distinguishable g parts1 -> NoDup parts2 -> parts1 <> [] -> parts2 <> [] ->
  CHAMP_2D env1 g parts1 a b st1 = Ok r1 -> CHAMP_2D env2 g parts2 a b st2 = Ok r2 -> r1 = r2.
Proof.
  intros Hok1 Hok2 Hir1 Hir2 Hsub H12 Hd ND Hne1 Hne2 E1 E2.
  assert (H21 : forall gamma c, a <= gamma <= b -> In c parts2 -> exists c', In c' parts1 /\ modularity g gamma c <= modularity g gamma c').
  { intros gamma c _ Hc. exists c. split; auto. lra. }
  assert (Hd2 : distinguishable g parts2) by (destruct Hd as [_ Hd]; split; auto).
  apply (@tiles_unique _ r1 a b r2); [apply (@ranges_tile env1 g parts1 a b st1 Hok1 Hir1 Hne1 r1 Hd E1)|apply (@ranges_tile env2 g parts2 a b st2 Hok2 Hir2 Hne2 r2 Hd2 E2)|].
  intros [[s e] p] Hr.
  destruct (@range_facts _ _ _ _ _ _ Hok1 _ s e p E1 Hr) as (Hp & B1 & _ & B2 & _).
  pose proof (@range_proper _ _ _ _ _ _ Hok1 Hir1 _ _ _ _ E1 Hr) as L.
  assert (Xs : Rmax s a = s) by (unfold Rmax; destruct (Rle_dec s a); lra). assert (Xe : Rmin e b = e) by (unfold Rmin; destruct (Rle_dec e b); lra).
  destruct (@restricted_range env1 env2 g parts1 parts2 a b a b st1 st2 Hok1 Hok2 ltac:(lra) ltac:(lra) H12 H21 r1 r2 E1 E2 s e p Hr) as (p' & Hr' & Hl); [lra|].
  rewrite Xs, Xe in Hr'. destruct (@range_facts _ _ _ _ _ _ Hok2 _ s e p' E2 Hr') as (Hp' & _).
  destruct (classic (p = p')) as [->|N]; auto. exfalso. destruct Hd as [_ Hd]. destruct (Hd p p') as (z & Nz); auto.
Qed.

Section Two_runs_3D.
Variables (env1 env2 : champ_env) (g gi : graph) (lv : list nat) (parts1 parts2 : list (list nat)) (a b c d a' b' c' d' : R).
Hypothesis (Hok1 : champ_ok_3D env1 g gi lv parts1) (Hok2 : champ_ok_3D env2 g gi lv parts2)
  (Hir1 : irredundant_hsi 3 (env_hsi env1)) (Hir2 : irredundant_hsi 3 (env_hsi env2))
  (Hf1 : full_facets_hsi 3 (env_hsi env1)) (Hf2 : full_facets_hsi 3 (env_hsi env2))
  (Hbx : a <= a' /\ b' <= b /\ c <= c' /\ d' <= d).
Let Q := multilayer_modularity g gi lv.
Let box x := a' <= fst x <= b' /\ c' <= snd x <= d' : Prop.
Hypothesis
  (H12 : forall gamma omega p, box (gamma, omega) -> In p parts1 -> exists p', In p' parts2 /\ Q gamma omega p <= Q gamma omega p')
  (H21 : forall gamma omega p, box (gamma, omega) -> In p parts2 -> exists p', In p' parts1 /\ Q gamma omega p <= Q gamma omega p').
Variables (d1 d2 : list (list (R * R) * list nat)).
Hypothesis (E1 : CHAMP_3D env1 g gi lv parts1 a b c d = Ok d1) (E2 : CHAMP_3D env2 g gi lv parts2 a' b' c' d' = Ok d2).

Lemma common_domain poly p poly' p' x y z : In (poly, p) d1 -> In (poly', p') d2 -> orient x y z <> 0 ->
  (forall v, In v [x; y; z] -> in_polygon poly v /\ in_polygon poly' v) ->
  (forall gamma omega, Q gamma omega p = Q gamma omega p') /\ forall v, in_polygon poly' v <-> in_polygon poly v /\ box v.
Proof.
  intros Hin Hin' No Hv.
  destruct (@domain_facts _ _ _ _ _ _ _ _ _ Hok1 _ poly p E1 Hin) as (Hp & _ & Hb1 & D).
  destruct (@domain_facts _ _ _ _ _ _ _ _ _ Hok2 _ poly' p' E2 Hin') as (Hp' & _ & Hb2 & D').
  assert (Ht : forall v, in_polygon poly v -> in_polygon poly' v -> Q (fst v) (snd v) p = Q (fst v) (snd v) p').
  { intros [v0 v1] K K'. assert (Bv : box (v0, v1)) by (destruct (polygon_box Hb2 K') as [X1 X2]; split; auto). cbn [fst snd]. apply Rle_antisym.
    - destruct (@H12 v0 v1 p Bv Hp) as (q & Hq & L). eapply Rle_trans; [exact L|]. apply D'; auto.
    - destruct (@H21 v0 v1 p' Bv Hp') as (q & Hq & L). eapply Rle_trans; [exact L|]. apply D; auto. }
  assert (Hl : forall gamma omega, Q gamma omega p = Q gamma omega p').
  { apply (@same_plane g gi lv p p' x y z No). intros v K. destruct (Hv v K). apply Ht; auto. }
  split; auto. intros [v0 v1].
  rewrite (@domain_iff _ _ _ _ _ _ _ _ _ Hok1 _ poly p v0 v1 E1 Hin), (@domain_iff _ _ _ _ _ _ _ _ _ Hok2 _ poly' p' v0 v1 E2 Hin').
  unfold box. cbn [fst snd]. split.
  - intros (G1 & G2 & G3). split; [|auto]. split; [lra|]. split; [lra|]. intros q Hq. change (Q v0 v1 q <= Q v0 v1 p). rewrite Hl.
    destruct (@H12 v0 v1 q (conj G1 G2) Hq) as (q' & Hq' & L). eapply Rle_trans; [exact L|]. apply G3; auto.
  - intros ((_ & _ & G3) & G1 & G2). split; [auto|]. split; [auto|]. intros q Hq. change (Q v0 v1 q <= Q v0 v1 p'). rewrite <- Hl.
    destruct (@H21 v0 v1 q (conj G1 G2) Hq) as (q' & Hq' & L). eapply Rle_trans; [exact L|]. apply G3; auto.
Qed.

(** three points of one domain of [L] on a parabola inside a small square *)
Lemma three_points (L : list (list (R * R) * list nat)) x eps : 0 < eps ->
  (forall v, Rabs (fst v - fst x) < eps -> Rabs (snd v - snd x) < eps -> exists poly p, In (poly, p) L /\ in_polygon poly v) ->
  exists poly p u v w, In (poly, p) L /\ orient u v w <> 0 /\
    forall z, In z [u; v; w] -> in_polygon poly z /\ Rabs (fst z - fst x) < eps /\ Rabs (snd z - snd x) < eps.
Proof.
  intros He Hc. set (cv := fun t => (fst x + t * (eps / 2), snd x + t * t * (eps / 2))).
  assert (Hcv : forall t, 0 < t < 1 -> Rabs (fst (cv t) - fst x) < eps /\ Rabs (snd (cv t) - snd x) < eps).
  { intros t Ht. unfold cv; cbn [fst snd]. split.
    - replace (fst x + t * (eps / 2) - fst x) with (t * (eps / 2)) by ring. rewrite Rabs_pos_eq; nra.
    - replace (snd x + t * t * (eps / 2) - snd x) with (t * t * (eps / 2)) by ring. assert (0 <= t * t <= 1) by nra. rewrite Rabs_pos_eq; nra. }
  destruct (@pigeon _ L (fun r t => 0 < t < 1 /\ in_polygon (fst r) (cv t))) as ([poly p] & Hin & HL).
  { intros t Ht. destruct (Hcv t Ht) as [K1 K2]. destruct (Hc (cv t) K1 K2) as (poly & p & Hi & Hq). exists (poly, p). split; auto. }
  cbn [fst snd] in HL.
  destruct (HL 1) as (t1 & T1 & _ & T1' & Q1); [lra|]. destruct (HL t1) as (t2 & T2 & _ & T2' & Q2); [lra|]. destruct (HL t2) as (t3 & T3 & _ & T3' & Q3); [lra|].
  exists poly, p, (cv t1), (cv t2), (cv t3). split; auto. split.
  - unfold orient, cv. cbn [fst snd].
    replace ((fst x + t2 * (eps / 2) - (fst x + t1 * (eps / 2))) * (snd x + t3 * t3 * (eps / 2) - (snd x + t1 * t1 * (eps / 2))) -
        (snd x + t2 * t2 * (eps / 2) - (snd x + t1 * t1 * (eps / 2))) * (fst x + t3 * (eps / 2) - (fst x + t1 * (eps / 2))))
        with ((eps / 2) * (eps / 2) * ((t2 - t1) * ((t3 - t1) * (t3 - t2)))) by ring.
    repeat apply Rmult_integral_contrapositive_currified; lra.
  - intros z [<-|[<-|[<-|[]]]]; (split; [assumption|apply Hcv; assumption]).
Qed.

Lemma restricted_domain poly p x : In (poly, p) d1 -> interior poly x -> a' < fst x < b' -> c' < snd x < d' ->
  exists poly' p', In (poly', p') d2 /\ (forall gamma omega, Q gamma omega p = Q gamma omega p') /\
    forall v, in_polygon poly' v <-> in_polygon poly v /\ box v.
Proof.
  intros Hin (eps & He & Hball) Hx Hy.
  destruct (@domain_facts _ _ _ _ _ _ _ _ _ Hok1 _ poly p E1 Hin) as (Hp & _ & Hb1 & D).
  assert (Hne2 : parts2 <> []).
  { assert (Bx : box (fst x, snd x)) by (split; cbn [fst snd]; lra). destruct (@H12 (fst x) (snd x) p Bx Hp) as (q & Hq & _). intros ->. destruct Hq. }
  set (e' := Rmin eps (Rmin (Rmin (fst x - a') (b' - fst x)) (Rmin (snd x - c') (d' - snd x)))).
  assert (He' : 0 < e' /\ e' <= eps /\ e' <= fst x - a' /\ e' <= b' - fst x /\ e' <= snd x - c' /\ e' <= d' - snd x).
  { unfold e'. repeat split; unfold Rmin; repeat (destruct (Rle_dec _ _)); lra. }
  clearbody e'. destruct He' as (He' & L1 & L2 & L3 & L4 & L5).
  destruct (@three_points d2 x e' He') as (poly' & p' & u & v & w & Hin' & No & Hz).
  { intros z Z1 Z2. apply Rabs_def2 in Z1. apply Rabs_def2 in Z2. destruct z as [z0 z1]. cbn [fst snd] in *.
    apply (@domain_cover _ _ _ _ _ _ _ _ _ Hok2 _ z0 z1 Hne2 E2); lra. }
  destruct (@common_domain poly p poly' p' u v w Hin Hin' No) as [Hl Hi].
  { intros z Hz'. destruct (Hz z Hz') as (K & Z1 & Z2). split; auto. apply Hball; lra. }
  exists poly', p'. auto.
Qed.

Lemma domain_from_wider poly' p' : In (poly', p') d2 ->
  exists poly p, In (poly, p) d1 /\ (forall gamma omega, Q gamma omega p = Q gamma omega p') /\
    forall v, in_polygon poly' v <-> in_polygon poly v /\ box v.
Proof.
  intros Hin.
  destruct (@domain_has_inside _ _ _ _ _ _ _ _ _ Hok2 Hir2 Hf2 _ poly' p' E2 Hin) as (x & eps & He & Hball).
  destruct (@domain_facts _ _ _ _ _ _ _ _ _ Hok2 _ poly' p' E2 Hin) as (Hp & _ & Hb2 & D).
  assert (Hbxx : forall z, Rabs (fst z - fst x) < eps -> Rabs (snd z - snd x) < eps -> box z).
  { intros z Z1 Z2. pose proof (Hball z Z1 Z2) as K. apply (polygon_box Hb2 K). }
  assert (Hne1 : parts1 <> []).
  { assert (Bx : box (fst x, snd x)). { apply Hbxx; cbn [fst snd]; unfold Rminus; rewrite Rplus_opp_r, Rabs_R0; auto. }
    destruct (@H21 (fst x) (snd x) p' Bx Hp) as (q & Hq & _). intros ->. destruct Hq. }
  destruct (@three_points d1 x eps He) as (poly & p & u & v & w & Hin' & No & Hz).
  { intros z Z1 Z2. destruct (Hbxx z Z1 Z2) as [B1 B2]. destruct z as [z0 z1]. cbn [fst snd] in *.
    apply (@domain_cover _ _ _ _ _ _ _ _ _ Hok1 _ z0 z1 Hne1 E1); lra. }
  destruct (@common_domain poly p poly' p' u v w Hin' Hin No) as [Hl Hi].
  { intros z Hz'. destruct (Hz z Hz') as (K & Z1 & Z2). split; auto. }
  exists poly, p. auto.
Qed.
End Two_runs_3D.

Lemma same_polygon env1 env2 g gi lv parts1 parts2 a b c d d1 d2 poly p poly' p' :
  champ_ok_3D env1 g gi lv parts1 -> champ_ok_3D env2 g gi lv parts2 -> irredundant_hsi 3 (env_hsi env1) -> irredundant_hsi 3 (env_hsi env2) ->
  CHAMP_3D env1 g gi lv parts1 a b c d = Ok d1 -> CHAMP_3D env2 g gi lv parts2 a b c d = Ok d2 -> In (poly, p) d1 -> In (poly', p') d2 ->
  (forall x, in_polygon poly x <-> in_polygon poly' x) -> poly = poly'.
Proof.
  intros Hok1 Hok2 Hir1 Hir2 E1 E2 Hin Hin' HE.
  pose proof (@domains_convex _ _ _ _ _ _ _ _ _ _ poly p Hok1 Hir1 E1 Hin) as C1.
  pose proof (@domains_convex _ _ _ _ _ _ _ _ _ _ poly' p' Hok2 Hir2 E2 Hin') as C2.
  apply sorted_corners; auto; [apply same_corners; auto| |].
  - apply (@domain_sorted _ _ _ _ _ _ _ _ _ Hok1 _ poly p E1 Hin).
  - apply (@domain_sorted _ _ _ _ _ _ _ _ _ Hok2 _ poly' p' E2 Hin').
Qed.

Lemma domains_nodup env g gi lv parts a b c d ds : champ_ok_3D env g gi lv parts -> CHAMP_3D env g gi lv parts a b c d = Ok ds -> NoDup parts -> NoDup ds.
Proof.
  intros Hok H ND. destruct (@domain_shape _ _ _ _ _ _ _ _ _ Hok _ H) as (idx & NDi & HF).
  clear - ND NDi HF. induction HF as [|i r idx l Hr HF IH]; [constructor|]. inversion NDi as [|? ? Ni NDi']; subst. constructor; auto.
  intros Hin. apply Ni. clear - ND HF Hin Hr. induction HF as [|j r' idx l Hr' HF IH]; [destruct Hin|].
  destruct Hin as [->|Hin]; [left|right; auto]. eapply NoDup_nth_error; [exact ND| |congruence]. apply nth_error_Some. congruence.
Qed.

Lemma same_envelope_equal_3D env1 env2 g gi lv parts1 parts2 a b c d d1 d2 :
  champ_ok_3D env1 g gi lv parts1 -> champ_ok_3D env2 g gi lv parts2 -> irredundant_hsi 3 (env_hsi env1) -> irredundant_hsi 3 (env_hsi env2) ->
  full_facets_hsi 3 (env_hsi env1) -> full_facets_hsi 3 (env_hsi env2) ->
  (forall p, In p parts2 -> In p parts1) ->
  (forall gamma omega p, a <= gamma <= b -> c <= omega <= d -> In p parts1 ->
     exists p', In p' parts2 /\ multilayer_modularity g gi lv gamma omega p <= multilayer_modularity g gi lv gamma omega p') ->
  distinguishable_3D g gi lv parts1 -> NoDup parts2 ->
  CHAMP_3D env1 g gi lv parts1 a b c d = Ok d1 -> CHAMP_3D env2 g gi lv parts2 a b c d = Ok d2 -> Permutation d1 d2.
Proof.
  intros Hok1 Hok2 Hir1 Hir2 Hf1 Hf2 Hsub H12 (ND & Hd) ND2 E1 E2.
  assert (H12' : forall gamma omega p, a <= fst (gamma, omega) <= b /\ c <= snd (gamma, omega) <= d -> In p parts1 ->
     exists p', In p' parts2 /\ multilayer_modularity g gi lv gamma omega p <= multilayer_modularity g gi lv gamma omega p').
  { intros gamma omega p [B1 B2]. apply H12; auto. }
  assert (H21 : forall gamma omega p, a <= fst (gamma, omega) <= b /\ c <= snd (gamma, omega) <= d -> In p parts2 ->
     exists p', In p' parts1 /\ multilayer_modularity g gi lv gamma omega p <= multilayer_modularity g gi lv gamma omega p').
  { intros gamma omega p _ Hp. exists p. split; auto. lra. }
  assert (Hb : a <= a /\ b <= b /\ c <= c /\ d <= d) by lra.
  assert (Eq : forall p p', In p parts1 -> In p' parts2 -> (forall gamma omega, multilayer_modularity g gi lv gamma omega p = multilayer_modularity g gi lv gamma omega p') -> p = p').
  { intros p p' Hp Hp' Hl. apply NNPP. intros N. destruct (Hd p p' Hp (Hsub _ Hp') N) as (x & y & Nxy). apply Nxy. apply Hl. }
  apply NoDup_Permutation; [eapply (@domains_nodup env1); eauto|eapply (@domains_nodup env2); eauto|].
  intros [poly p]. split; intros Hin.
  - assert (exists poly' p', In (poly', p') d2 /\ (forall gamma omega, multilayer_modularity g gi lv gamma omega p = multilayer_modularity g gi lv gamma omega p') /\
      forall v, in_polygon poly' v <-> in_polygon poly v /\ a <= fst v <= b /\ c <= snd v <= d) as (poly' & p' & Hin' & Hl & Hi).
    { destruct (@domain_has_inside _ _ _ _ _ _ _ _ _ Hok1 Hir1 Hf1 _ poly p E1 Hin) as (x & Hx).
      destruct (@domain_facts _ _ _ _ _ _ _ _ _ Hok1 _ poly p E1 Hin) as (_ & _ & Hbx & _).
      apply (@restricted_domain env1 env2 g gi lv parts1 parts2 a b c d a b c d Hok1 Hok2 Hb H12' H21 d1 d2 E1 E2 poly p x Hin Hx).
      - destruct Hx as (eps & He & Hball).
        pose proof (Hball (fst x + eps / 2, snd x)) as K1. pose proof (Hball (fst x - eps / 2, snd x)) as K2. cbn [fst snd] in K1, K2.
        assert (X1 : Rabs (fst x + eps / 2 - fst x) < eps) by (replace (fst x + eps / 2 - fst x) with (eps / 2) by ring; rewrite Rabs_pos_eq; lra).
        assert (X2 : Rabs (fst x - eps / 2 - fst x) < eps) by (replace (fst x - eps / 2 - fst x) with (- (eps / 2)) by ring; rewrite Rabs_Ropp, Rabs_pos_eq; lra).
        assert (X3 : Rabs (snd x - snd x) < eps) by (unfold Rminus; rewrite Rplus_opp_r, Rabs_R0; auto).
        destruct (polygon_box Hbx (K1 X1 X3)) as [B1 _]. destruct (polygon_box Hbx (K2 X2 X3)) as [B2 _]. cbn [fst] in *. lra.
      - destruct Hx as (eps & He & Hball).
        pose proof (Hball (fst x, snd x + eps / 2)) as K1. pose proof (Hball (fst x, snd x - eps / 2)) as K2. cbn [fst snd] in K1, K2.
        assert (X1 : Rabs (snd x + eps / 2 - snd x) < eps) by (replace (snd x + eps / 2 - snd x) with (eps / 2) by ring; rewrite Rabs_pos_eq; lra).
        assert (X2 : Rabs (snd x - eps / 2 - snd x) < eps) by (replace (snd x - eps / 2 - snd x) with (- (eps / 2)) by ring; rewrite Rabs_Ropp, Rabs_pos_eq; lra).
        assert (X3 : Rabs (fst x - fst x) < eps) by (unfold Rminus; rewrite Rplus_opp_r, Rabs_R0; auto).
        destruct (polygon_box Hbx (K1 X3 X1)) as [_ B1]. destruct (polygon_box Hbx (K2 X3 X2)) as [_ B2]. cbn [snd] in *. lra. }
    destruct (@domain_facts _ _ _ _ _ _ _ _ _ Hok1 _ poly p E1 Hin) as (Hp & _ & Hbx & _).
    destruct (@domain_facts _ _ _ _ _ _ _ _ _ Hok2 _ poly' p' E2 Hin') as (Hp' & _).
    assert (poly = poly').
    { apply (@same_polygon env1 env2 g gi lv parts1 parts2 a b c d d1 d2 poly p poly' p'); auto. intros v. rewrite Hi. split; [|tauto]. intros K. split; auto. apply (polygon_box Hbx K). }
    rewrite (Eq p p' Hp Hp' Hl). subst. exact Hin'.
  - destruct (@domain_from_wider env1 env2 g gi lv parts1 parts2 a b c d a b c d Hok1 Hok2 Hir2 Hf2 Hb H12' H21 d1 d2 E1 E2 poly p Hin) as (poly' & p' & Hin' & Hl & Hi).
    destruct (@domain_facts _ _ _ _ _ _ _ _ _ Hok2 _ poly p E2 Hin) as (Hp & _).
    destruct (@domain_facts _ _ _ _ _ _ _ _ _ Hok1 _ poly' p' E1 Hin') as (Hp' & _ & Hbx & _).
    assert (poly' = poly).
    { apply (@same_polygon env1 env2 g gi lv parts1 parts2 a b c d d1 d2 poly' p' poly p); auto. intros v. rewrite Hi. split; [|tauto]. intros K. split; auto. apply (polygon_box Hbx K). }
    rewrite <- (Eq p' p Hp' Hp Hl). subst. exact Hin'.
Qed.
