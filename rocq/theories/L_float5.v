(** The multilayer coefficients and CHAMP_3D. *)
From Verif Require Import PyBase PyGraph M_partition M_pool M_champ M_leiden M_estimation_utils M_float Spec Spec_graph Spec_champ Spec_float
  L_base L_sort L_canon L_modularity L_modularity3 L_parallel L_bounds L_halfspace L_champ L_champ2 L_champ3 L_float L_float2 L_float3 L_float4 Properties_coefficients.
From Flocq Require Import Core.Raux Core.Defs Core.Generic_fmt Core.FLT Core.Round_NE Core.Zaux Core.Float_prop.
From Coq Require Import Classical.
Set Implicit Arguments.
Open Scope R_scope.

(** ** Rounded sums *)
Lemma b64_u64 : binary64 u64 = u64.
Proof.
  unfold binary64. apply round_generic; [apply valid_rnd_N|]. apply generic_format_FLT. exists (Float radix2 1 (-53)); [|cbn; lia|cbn; lia].
  unfold F2R. cbn [Fnum Fexp]. change (bpow radix2 (-53)) with (/ IZR (2 ^ 53)). rewrite u64_val. ring.
Qed.

(** Relative error accumulated over [k] roundings. *)
Definition within (k : nat) (x y : R) : Prop := (1 - u64) ^ k * x <= y <= (1 + u64) ^ k * x.

Lemma u64_small : 0 < u64 <= / 1024.
Proof. pose proof u64_pos. pose proof u64_eq. lra. Qed.
Lemma pow_lo k : 0 < (1 - u64) ^ k <= 1.
Proof. pose proof u64_small. split; [apply pow_lt; lra|]. induction k as [|k IH]; cbn; [lra|]. assert (0 < (1 - u64) ^ k) by (apply pow_lt; lra). nra. Qed.
Lemma pow_hi k : 1 <= (1 + u64) ^ k.
Proof. pose proof u64_small. induction k as [|k IH]; cbn; [lra|]. nra. Qed.
Lemma within_S k x y : 0 <= x -> within k x y -> within (S k) x y.
Proof.
  intros Hx [H1 H2]. pose proof u64_small. pose proof (pow_lo k). pose proof (pow_hi k). split; cbn.
  - apply Rle_trans with ((1 - u64) ^ k * x); auto. apply Rmult_le_compat_r; auto. nra.
  - apply Rle_trans with (1 := H2). apply Rmult_le_compat_r; auto. nra.
Qed.
Lemma within_1 k x y : 0 <= x -> within 1 x y -> within (S k) x y.
Proof. intros Hx H. induction k as [|k IH]; auto. apply within_S; auto. Qed.
Lemma within_add k a b a' b' : within k a a' -> within k b b' -> within k (a + b) (a' + b').
Proof. intros [A1 A2] [B1 B2]. split; lra. Qed.
Lemma within_round k x y : 0 <= x -> within k x y -> y = 0 \/ u64 <= y -> within (S k) x (binary64 y).
Proof.
  intros Hx H [->|Hy]; [rewrite b64_0; apply within_S; auto|]. destruct H as [H1 H2]. pose proof u64_small. pose proof (pow_lo k). pose proof (pow_hi k).
  destruct (@b64_rel_pos y) as [B1 B2]; [apply small200; auto|]. split; cbn.
  - apply Rle_trans with (2 := B1). rewrite Rmult_assoc. apply Rmult_le_compat_l; lra.
  - apply Rle_trans with (1 := B2). rewrite Rmult_assoc. apply Rmult_le_compat_l; lra.
Qed.
Lemma round_floor y : u64 <= y -> u64 <= binary64 y.
Proof. intros H. rewrite <- b64_u64. apply binary64_mono. auto. Qed.

Lemma fl_fold : forall rs k a a', (forall r, In r rs -> r = 0 \/ u64 <= r) -> 0 <= a -> within (S k) a a' -> a' = 0 \/ u64 <= a' ->
  exists p, fold_left fl_np_add (map Fin (map binary64 rs)) (Fin a') = Fin p /\ within (S k + length rs) (a + rsum rs) p.
Proof.
  pose proof u64_small as U. induction rs as [|r rs IH]; intros k a a' Hr Ha Hw Hf.
  - exists a'. split; auto. cbn [length]. rewrite rsum_nil, Rplus_0_r, Nat.add_0_r. auto.
  - cbn [map fold_left fl_np_add]. rewrite rsum_cons. assert (R0 : 0 <= r) by (destruct (Hr r (or_introl eq_refl)); lra).
    assert (Wr : within 1 r (binary64 r)). { apply (@within_round 0); auto; [split; cbn; lra|]. apply Hr. left; auto. }
    assert (Fr : binary64 r = 0 \/ u64 <= binary64 r). { destruct (Hr r (or_introl eq_refl)) as [->|H]; [left; apply b64_0|right; apply round_floor; auto]. }
    destruct (IH (S k) (a + r) (fl_add a' (binary64 r))) as (p & E & W).
    + intros; apply Hr; right; auto.
    + lra.
    + unfold fl_add. apply within_round; [lra| |destruct Hf, Fr; [left|right|right|right]; lra]. apply within_add; auto. apply within_1; auto.
    + unfold fl_add. destruct Hf as [->|Hf], Fr as [Z|Fr].
      * left. rewrite Z, Rplus_0_l. apply b64_0.
      * right. apply round_floor. lra.
      * right. apply round_floor. lra.
      * right. apply round_floor. lra.
    + exists p. split; [exact E|]. replace (a + (r + rsum rs)) with (a + r + rsum rs) by ring. replace (S k + length (r :: rs))%nat with (S (S k) + length rs)%nat by (cbn [length]; lia). auto.
Qed.

Lemma within_abs k x y : 0 <= x -> (Z.of_nat k <= 2 ^ 52)%Z -> within k x y -> Rabs (y - x) <= 2 * INR k * u64 * x.
Proof.
  intros Hx Hk [H1 H2]. pose proof u64_small as U. pose proof u64_eq as U1.
  assert (KU : INR k * u64 <= / 2). { assert (INR k <= 4503599627370496) by (rewrite INR_IZR_INZ; apply IZR_le; lia). nra. } clear Hk.
  assert (L : 1 - INR k * u64 <= (1 - u64) ^ k).
  { clear KU H1 H2. induction k as [|k IH]; [cbn; lra|]. rewrite S_INR. cbn [pow]. pose proof (pos_INR k). pose proof (pow_lo k). nra. }
  assert (H : (1 + u64) ^ k <= 1 + 2 * INR k * u64).
  { clear L H1 H2. induction k as [|k IH]; [cbn; lra|]. rewrite S_INR in *. cbn [pow]. pose proof (pos_INR k). pose proof (pow_hi k). specialize (IH ltac:(nra)). nra. }
  pose proof (pos_INR k). apply Rabs_le. split.
  - assert ((1 - INR k * u64) * x <= (1 - u64) ^ k * x) by (apply Rmult_le_compat_r; auto). assert (0 <= INR k * u64 * x) by (apply Rmult_le_pos; nra). lra.
  - assert ((1 + u64) ^ k * x <= (1 + 2 * INR k * u64) * x) by (apply Rmult_le_compat_r; auto). lra.
Qed.

(** ** P_hat *)
Lemma layer_count_le g lv l : (layer_count g lv l <= ecount g)%nat.
Proof.
  unfold layer_count, ecount. induction (edges g) as [|e E IH]; [cbn; lia|]. cbn [map length]. rewrite list_sum_cons. destruct (Nat.eqb _ _); cbn [b2n]; lia.
Qed.

Lemma layered_length c lv d : (length c <= length lv)%nat -> membership_to_layered_communities c lv = Ok d -> (length d <= length c)%nat.
Proof.
  intros Hlen Hd. destruct (layered_communities_spec c lv Hlen) as (d' & Hd' & _ & H2 & H3 & _). rewrite Hd in Hd'. inversion Hd'; subst d'.
  rewrite <- (map_length fst d), <- (seq_length (length c) 0), <- (map_length (fun v => (nth v c 0, nth v lv 0)%nat) (seq 0 (length c))).
  apply NoDup_incl_length; auto. intros k Hk. apply H3 in Hk as (v & Hv & ->). apply in_map_iff. exists v. split; auto. apply in_seq. lia.
Qed.

(** The rounded and the exact summand of one block. *)
Lemma summand_round x d r : np_div (INR x) (INR d) = Fin r -> (Z.of_nat d <= 2 ^ 25)%Z ->
  fl_np_div (INR x) (INR d) = Fin (binary64 r) /\ (r = 0 \/ u64 <= r).
Proof.
  unfold np_div, fl_np_div. intros H Hd. destruct (Req_EM_T (INR d) 0) as [|N]; [discriminate|]. inversion H. split; auto.
  destruct x as [|x]; [left; cbn; unfold Rdiv; ring|right]. assert (D0 : (0 < d)%nat) by (destruct d; [cbn in N; congruence|lia]).
  pose proof (@d_pos d D0 Hd). assert (1 <= INR (S x)) by (apply (le_INR 1); lia). pose proof u64_small. pose proof u64_eq. apply le_div; nra.
Qed.

Lemma mapM_rounded {A} (f h : A -> res npf) : forall l xs, mapM f l = Ok xs -> (forall a r, In a l -> f a = Ok (Fin r) -> h a = Ok (Fin (binary64 r)) /\ (r = 0 \/ u64 <= r)) ->
  forall rs, xs = map Fin rs -> mapM h l = Ok (map Fin (map binary64 rs)) /\ (forall r, In r rs -> r = 0 \/ u64 <= r) /\ length rs = length l.
Proof.
  induction l as [|a l IH]; intros xs H Hf rs Hxs; cbn [mapM] in H.
  - inversion H; subst xs. destruct rs; [|discriminate]. cbn. repeat split; auto. intros r [].
  - apply bind_ok in H as (x & Hx & H). apply bind_ok in H as (xs' & Hxs' & H). inversion H; subst xs. destruct rs as [|r rs]; [discriminate|]. inversion H1; subst x xs'.
    destruct (Hf a r (or_introl eq_refl) Hx) as [E F]. destruct (IH _ Hxs' (fun a r Hin => Hf a r (or_intror Hin)) rs eq_refl) as (E1 & E2 & E3).
    cbn [mapM map]. rewrite E. cbn [bind]. rewrite E1. cbn [bind length]. split; auto. split; [|lia]. intros r' [<-|Hr]; auto.
Qed.

Lemma fold_fin : forall xs a p, fold_left np_add xs a = Fin p -> exists rs, xs = map Fin rs /\ exists q, a = Fin q.
Proof.
  induction xs as [|x xs IH]; intros a p H; cbn [fold_left] in H.
  - exists []. split; auto. exists p. auto.
  - destruct (IH _ _ H) as (rs & -> & q & E). destruct a as [a|], x as [x|]; cbn in E; try discriminate. exists (x :: rs). split; auto. exists a. auto.
Qed.

Lemma fl_p_hat_3D_ok g lv cnt c : wf_graph g -> length lv = vcount g -> length c = vcount g -> edges_within_layers g lv -> layers_have_edges g lv ->
  (forall l, In l lv -> (l < length cnt)%nat) -> (forall l, nth l cnt 0%nat = layer_count g lv l) -> (Z.of_nat (ecount g) <= 2 ^ 24)%Z -> (Z.of_nat (vcount g) < 2 ^ 52)%Z ->
  exists p, fl_p_hat_3D g lv cnt c = Ok (Fin p) /\ Rabs (p - P3_of g lv c) <= 2 * INR (S (vcount g)) * u64 * P3_of g lv c.
Proof.
  intros Hw Hlv Hc Hwithin Hhas Hcl Hcn Hm Hn. pose proof (@p_hat_3D_ok g lv cnt c Hw Hlv Hc Hwithin Hhas Hcl Hcn) as Hex.
  unfold p_hat_3D in Hex. unfold fl_p_hat_3D. apply bind_ok in Hex as (d & Hd & Hex). apply bind_ok in Hex as (xs & Hxs & Hex). inversion Hex as [Hfold]. clear Hex.
  rewrite Hd. cbn [bind]. destruct (fold_fin _ _ Hfold) as (rs & Exs & _).
  assert (Hcnt : forall l m, py_get cnt l = Ok m -> (m <= ecount g)%nat).
  { intros l m Hl. apply py_get_inv in Hl. rewrite <- (nth_error_nth cnt l 0%nat Hl), Hcn. apply layer_count_le. }
  match type of Hxs with mapM ?f _ = _ => set (F := f) in * end. match goal with |- context [bind (mapM ?h _) _] => set (G := h) end.
  assert (HG : forall kv r, In kv d -> F kv = Ok (Fin r) -> G kv = Ok (Fin (binary64 r)) /\ (r = 0 \/ u64 <= r)).
  { intros kv r _ HF. unfold F in HF. unfold G. destruct (directed g).
    - apply bind_ok in HF as (a & Ha & HF). apply bind_ok in HF as (b & Hb & HF). apply bind_ok in HF as (m & Hml & HF). assert (HF' : np_div (INR (a * b)) (INR m) = Fin r) by congruence.
      rewrite Ha, Hb, Hml. cbn [bind]. pose proof (Hcnt _ _ Hml). destruct (@summand_round _ _ _ HF') as [-> Hr]; [lia|]. auto.
    - apply bind_ok in HF as (a & Ha & HF). apply bind_ok in HF as (m & Hml & HF). assert (HF' : np_div (INR (a ^ 2)) (INR (2 * m)) = Fin r) by congruence.
      rewrite Ha, Hml. cbn [bind]. pose proof (Hcnt _ _ Hml). destruct (@summand_round _ _ _ HF') as [-> Hr]; [lia|]. auto. }
  destruct (@mapM_rounded _ F G d xs Hxs HG rs Exs) as (E1 & E2 & E3). rewrite E1. cbn [bind].
  destruct (@fl_fold rs 0 0 0 E2) as (p & Ep & W); [lra|split; cbn; lra|auto|]. rewrite Ep. exists p. split; auto.
  subst xs. rewrite np_add_fold in Hfold. assert (HP : 0 + rsum rs = P3_of g lv c) by congruence. rewrite Rplus_0_l in HP, W. rewrite HP in W.
  assert (P0 : 0 <= P3_of g lv c) by (apply P3_of_bounds; auto).
  assert (Ld : (length d <= length c)%nat) by (apply (layered_length c lv); auto; rewrite Hc, Hlv; auto). assert (K : (1 + length rs <= S (vcount g))%nat) by lia.
  assert (A : Rabs (p - P3_of g lv c) <= 2 * INR (1 + length rs) * u64 * P3_of g lv c) by (apply within_abs; auto; lia).
  apply Rle_trans with (1 := A). apply Rmult_le_compat_r; auto. apply Rmult_le_compat_r; [apply Rlt_le, u64_pos|]. apply Rmult_le_compat_l; [lra|]. apply le_INR. auto.
Qed.

(** The rounded coefficients of a list of partitions. *)
Definition near_P3 (g : graph) (lv : list nat) (fP : list nat -> R) (parts : list (list nat)) : Prop :=
  forall c, In c parts -> Rabs (fP c - P3_of g lv c) <= 2 * INR (S (vcount g)) * u64 * P3_of g lv c.

Lemma fl_serial_3D g gi lv : wf_graph g -> wf_graph gi -> length lv = vcount g -> lv <> [] ->
  edges_within_layers g lv -> layers_have_edges g lv -> (vcount gi <= vcount g)%nat -> (Z.of_nat (ecount g) <= 2 ^ 24)%Z -> (Z.of_nat (vcount g) < 2 ^ 52)%Z ->
  exists fP, (forall parts, (forall c, In c parts -> length c = vcount g) ->
     fl_partition_coefficients_3D_serial g gi lv parts = Ok (map (A_of g) parts, map (fun c => Fin (fP c)) parts, map (A_of gi) parts) /\ near_P3 g lv fP parts).
Proof.
  intros Hw Hwi Hlv Hne Hwithin Hhas Hgi Hm Hn. destruct (ecount_per_layer_ok Hw Hlv Hne) as (cnt & Hcnt & H1 & H2).
  set (fP := fun c => match fl_p_hat_3D g lv cnt c with Ok (Fin p) => p | _ => 0 end). exists fP. intros parts Hlen.
  assert (HP : forall c, In c parts -> fl_p_hat_3D g lv cnt c = Ok (Fin (fP c)) /\ Rabs (fP c - P3_of g lv c) <= 2 * INR (S (vcount g)) * u64 * P3_of g lv c).
  { intros c Hc. destruct (@fl_p_hat_3D_ok g lv cnt c) as (p & E & B); auto. unfold fP. rewrite E. auto. }
  split; [|intros c Hc; apply HP; auto]. unfold fl_partition_coefficients_3D_serial.
  rewrite (mapM_ok (internal_hat g) (A_of g)) by (intros c Hc; apply internal_hat_ok; auto; rewrite (Hlen c Hc); auto).
  cbn [bind]. rewrite Hcnt. cbn [bind].
  rewrite (mapM_ok (fl_p_hat_3D g lv cnt) (fun c => Fin (fP c))) by (intros c Hc; apply HP; auto). cbn [bind].
  rewrite (mapM_ok (internal_hat gi) (A_of gi)) by (intros c Hc; apply internal_hat_ok; auto; rewrite (Hlen c Hc); auto).
  reflexivity.
Qed.

Lemma concat_3 {A B C D} (f : A -> B) (h : A -> C) (k : A -> D) ls :
  concat (map (fun r => fst (fst r)) (map (fun l => (map f l, map h l, map k l)) ls)) = map f (concat ls) /\
  concat (map (fun r => snd (fst r)) (map (fun l => (map f l, map h l, map k l)) ls)) = map h (concat ls) /\
  concat (map snd (map (fun l => (map f l, map h l, map k l)) ls)) = map k (concat ls).
Proof. induction ls as [|l ls (I1 & I2 & I3)]; [auto|]. cbn [map concat fst snd]. rewrite I1, I2, I3, !map_app. auto. Qed.

Lemma fl_pool_3D cpus order g gi lv parts : valid_pool cpus order parts -> wf_graph g -> wf_graph gi -> length lv = vcount g -> lv <> [] ->
  edges_within_layers g lv -> layers_have_edges g lv -> (vcount gi <= vcount g)%nat -> (Z.of_nat (ecount g) <= 2 ^ 24)%Z -> (Z.of_nat (vcount g) < 2 ^ 52)%Z ->
  (forall c, In c parts -> length c = vcount g) ->
  exists fP, fl_partition_coefficients_3D cpus order g gi lv parts = Ok (map (A_of g) parts, map Fin (map fP parts), map (A_of gi) parts) /\
    fl_partition_coefficients_3D_serial g gi lv parts = Ok (map (A_of g) parts, map Fin (map fP parts), map (A_of gi) parts) /\ near_P3 g lv fP parts.
Proof.
  intros (Hc & Ho & Hn) Hw Hwi Hlv Hne H1 H2 H3 Hm Hv Hl. destruct (@fl_serial_3D g gi lv) as (fP & HfP); auto. exists fP. rewrite map_map.
  destruct (HfP parts Hl) as [E Hnear]. split; [|auto]. unfold fl_partition_coefficients_3D.
  set (F := fun ps => (map (A_of g) ps, map (fun c => Fin (fP c)) ps, map (A_of gi) ps)).
  assert (Es : starmap order (fl_partition_coefficients_3D_serial g gi lv) (partition_chunks cpus parts) = Ok (map F (partition_chunks cpus parts))).
  { apply starmap_iff; [rewrite partition_chunks_length; auto|]. apply mapM_ok. intros ps Hps. apply HfP. intros c Hin. apply Hl.
    rewrite <- (partition_chunks_concat parts Hc Hn). apply in_concat. eauto. }
  rewrite Es. cbn [bind]. unfold F. destruct (concat_3 (A_of g) (fun c => Fin (fP c)) (A_of gi) (partition_chunks cpus parts)) as (-> & -> & ->).
  rewrite (partition_chunks_concat parts Hc Hn), !map_length, !Nat.eqb_refl. reflexivity.
Qed.

(** ** CHAMP_3D after the coefficients *)
Definition champ_body_3D (env : champ_env) (a_hats p_hats c_hats : list R) (parts : list (list nat)) (g0 gf o0 of : R) : res (list (list (R * R) * list nat)) :=
  let! hs := champ_halfspaces_3D a_hats p_hats c_hats g0 gf o0 of in
  let! pt := interior_point env hs in
  let! out := env_hsi env hs pt in
  let! d := facets_by_halfspace (length parts) out in
  mapM (domain_of_facet parts) d.

Section Near3.
Variables (env : champ_env) (eps : R) (parts : list (list nat)) (fA fP fC : list nat -> R) (g0 gf o0 of : R).
Hypotheses (He : 0 <= eps) (Hlp : lp_answers_all_variables (env_lp env)) (Hhsi : near_hsi 3 eps (env_hsi env)).
Let size c := Rabs (fA c) + Rabs (fP c) + Rabs (fC c) + 1.

Lemma near_domains domains poly part : champ_body_3D env (map fA parts) (map fP parts) (map fC parts) parts g0 gf o0 of = Ok domains -> In (poly, part) domains ->
  In part parts /\ poly <> [] /\
  (forall v, In v poly -> g0 - eps * (1 + Rabs g0) <= fst v <= gf + eps * (1 + Rabs gf) /\ o0 - eps * (1 + Rabs o0) <= snd v <= of + eps * (1 + Rabs of)) /\
  forall gamma omega c, in_polygon poly (gamma, omega) -> In c parts ->
    fA c - gamma * fP c + omega * fC c <= fA part - gamma * fP part + omega * fC part + eps * (size c + size part).
Proof.
  unfold champ_body_3D. intros H Hin. apply bind_ok in H as (hs & Hhs & H). apply bind_ok in H as (pt & Hpt & H). apply bind_ok in H as (out & Hout & H).
  apply bind_ok in H as (d & Hd & Hrs).
  destruct (@interior_point_3D env _ _ _ _ _ _ _ hs pt Hlp Hhs Hpt) as [Hl Hs].
  pose proof (Hhsi (bounded_3D _ _ _ _ _ _ _ Hhs) Hl Hs Hout) as Hnear.
  destruct (facets_ok (length parts) out (facets_some _ _ Hd)) as (d' & Hd' & F1 & F2 & F3). assert (d' = d) by congruence. subst d'.
  destruct (@domain_origin parts d domains (poly, part) Hrs Hin) as ([i vs] & Hdi & Hr).
  destruct (F2 i vs Hdi) as (Hi & Hvne & Hvs). clear F1 F2 F3.
  destruct (@domain_of_facet_inv parts i vs poly part Hr) as (ps & Hps & Hpart & Hpoly & Hperm).
  destruct (champ3_inv _ _ _ _ _ _ _ Hhs) as (top & bottom & _ & _ & E). set (rows := combine (combine (map fA parts) (map fP parts)) (map fC parts)) in *.
  assert (Hrow : nth_error rows i = Some (fA part, fP part, fC part)) by (unfold rows; rewrite combine3_nth, Hpart; reflexivity).
  assert (NZ : forall a p c, nonzero (mkH [- p; c; -1] a)) by (intros; exists (-1); simpl; split; [auto|lra]).
  assert (N1 : Rabs (-1) = 1) by (rewrite Rabs_left; lra).
  assert (NB : forall c, row_norm (mkH [- fP c; fC c; -1] (fA c)) <= size c).
  { intros c. eapply Rle_trans; [apply norm_bound|]. cbn [normal offset map]. rewrite !rsum_cons, rsum_nil, Rabs_Ropp, N1. unfold size. lra. }
  assert (Hpts : forall v, In v vs -> exists u w y, v = [u; w; y] /\ (g0 - eps * (1 + Rabs g0) <= u <= gf + eps * (1 + Rabs gf) /\ o0 - eps * (1 + Rabs o0) <= w <= of + eps * (1 + Rabs of)) /\
      y - (fA part - u * fP part + w * fC part) <= eps * size part /\ forall c, In c parts -> fA c - u * fP c + w * fC c - y <= eps * size c).
  { intros v Hv. assert (Hli : In (Some v) (listed out i)) by (rewrite <- Hvs; apply in_map; auto). apply in_listed in Hli as (is_ & Hin' & Hi').
    destruct (Hnear v is_ Hin') as (Hlen & Hle & Hge). destruct (list3 _ Hlen) as (u & w & y & ->). exists u, w, y. split; auto. split; [|split].
    - assert (Hbox : forall h b, In h (box_3D top bottom g0 gf o0 of) -> nonzero h -> row_norm h <= b -> hval h [u; w; y] <= eps * b).
      { intros h b Hh Hn Hb. destruct (@near_row eps h [u; w; y] b) as [B _]; auto. apply B, Hle. rewrite E. apply in_map, in_or_app. auto. }
      assert (Hnb : forall h, row_norm h <= rsum (map Rabs (normal h)) + Rabs (offset h)) by apply norm_bound.
      assert (B1 : hval (mkH [-1; 0; 0] g0) [u; w; y] <= eps * (1 + Rabs g0)).
      { apply Hbox; [simpl; auto|exists (-1); simpl; split; [auto|lra]|]. eapply Rle_trans; [apply Hnb|]. cbn [normal offset map]. rewrite !rsum_cons, rsum_nil, Rabs_R0, N1. lra. }
      assert (B2 : hval (mkH [1; 0; 0] (- gf)) [u; w; y] <= eps * (1 + Rabs gf)).
      { apply Hbox; [simpl; auto|exists 1; simpl; split; [auto|lra]|]. eapply Rle_trans; [apply Hnb|]. cbn [normal offset map]. rewrite !rsum_cons, rsum_nil, Rabs_R0, Rabs_R1, Rabs_Ropp. lra. }
      assert (B3 : hval (mkH [0; -1; 0] o0) [u; w; y] <= eps * (1 + Rabs o0)).
      { apply Hbox; [simpl; tauto|exists (-1); simpl; split; [auto|lra]|]. eapply Rle_trans; [apply Hnb|]. cbn [normal offset map]. rewrite !rsum_cons, rsum_nil, Rabs_R0, N1. lra. }
      assert (B4 : hval (mkH [0; 1; 0] (- of)) [u; w; y] <= eps * (1 + Rabs of)).
      { apply Hbox; [simpl; tauto|exists 1; simpl; split; [auto|lra]|]. eapply Rle_trans; [apply Hnb|]. cbn [normal offset map]. rewrite !rsum_cons, rsum_nil, Rabs_R0, Rabs_R1, Rabs_Ropp. lra. }
      rewrite !hval3 in *. lra.
    - assert (Hn : nth_error hs i = Some (normalise (mkH [- fP part; fC part; -1] (fA part)))).
      { rewrite E. apply map_nth_error. rewrite nth_error_app1 by (rewrite map_length; apply nth_error_Some; rewrite Hrow; discriminate). rewrite (map_nth_error _ _ _ Hrow). reflexivity. }
      destruct (@near_row eps (mkH [- fP part; fC part; -1] (fA part)) [u; w; y] (size part)) as [_ B]; auto.
      specialize (B (Hge _ _ Hi' Hn)). rewrite hval3 in B. lra.
    - intros c Hc. assert (Hb : In (normalise (mkH [- fP c; fC c; -1] (fA c))) hs).
      { rewrite E. apply in_map, in_or_app. left. apply in_map_iff. exists (fA c, fP c, fC c). split; auto. apply combine3_in; auto. }
      destruct (@near_row eps (mkH [- fP c; fC c; -1] (fA c)) [u; w; y] (size c)) as [B _]; auto.
      specialize (B (Hle _ Hb)). rewrite hval3 in B. lra. }
  split; [eapply nth_error_In; eauto|].
  assert (HF : Forall2 (fun v p => exists w, v = [fst p; snd p; w]) vs ps).
  { apply project_forall; auto. intros x Hx. destruct (Hpts x Hx) as (u & w & y & -> & _). eauto. }
  assert (Hpv : forall v, In v poly -> (g0 - eps * (1 + Rabs g0) <= fst v <= gf + eps * (1 + Rabs gf) /\ o0 - eps * (1 + Rabs o0) <= snd v <= of + eps * (1 + Rabs of)) /\
            forall c, In c parts -> fA c - fst v * fP c + snd v * fC c <= fA part - fst v * fP part + snd v * fC part + eps * (size c + size part)).
  { intros v Hvin. apply (Permutation_in _ Hperm) in Hvin.
    assert (exists x w, In x vs /\ x = [fst v; snd v; w]) as (x & w & Hx & Ex).
    { clear - HF Hvin. induction HF as [|v0 p vs ps (w & E) HF IH]; [destruct Hvin|].
      destruct Hvin as [->|Hv]; [exists v0, w; simpl; auto|]. destruct (IH Hv) as (x & w' & ? & ?). exists x, w'. simpl; auto. }
    destruct (Hpts x Hx) as (u & w' & y & E' & Hu & Ht & Hm). rewrite Ex in E'. inversion E'; subst.
    split; auto. intros c Hc. specialize (Hm c Hc). rewrite Rmult_plus_distr_l. lra. }
  split; [|split].
  - intros ->. apply Permutation_nil in Hperm. subst. inversion HF; subst; congruence.
  - intros v Hvin. apply Hpv; auto.
  - intros gamma omega c Hpol Hc.
    assert (0 <= (fA part - fA c + eps * (size c + size part)) + (fP c - fP part) * gamma + (fC part - fC c) * omega).
    { apply (@in_polygon_affine (fA part - fA c + eps * (size c + size part)) (fP c - fP part) (fC part - fC c) poly (gamma, omega)); auto.
      intros v Hvin. destruct (Hpv v Hvin) as (_ & Hm). specialize (Hm c Hc). lra. }
    lra.
Qed.
End Near3.

Lemma CHAMP_3D_body env g gi lv parts g0 gf o0 of : valid_pool (env_cpus env) (env_order env) parts -> wf_graph g -> wf_graph gi -> length lv = vcount g -> lv <> [] ->
  edges_within_layers g lv -> layers_have_edges g lv -> (vcount gi <= vcount g)%nat -> (forall c, In c parts -> length c = vcount g) -> parts <> [] ->
  CHAMP_3D env g gi lv parts g0 gf o0 of = champ_body_3D env (map (A_of g) parts) (map (P3_of g lv) parts) (map (A_of gi) parts) parts g0 gf o0 of /\
  ((Z.of_nat (ecount g) <= 2 ^ 24)%Z -> (Z.of_nat (vcount g) < 2 ^ 52)%Z -> exists fP, near_P3 g lv fP parts /\
   fl_CHAMP_3D env g gi lv parts g0 gf o0 of = champ_body_3D env (map (A_of g) parts) (map fP parts) (map (A_of gi) parts) parts g0 gf o0 of).
Proof.
  intros H1 H2 H3 H4 H5 H6 H7 H8 H9 Hne. split.
  - assert (E : CHAMP_3D env g gi lv parts g0 gf o0 of =
      let! (a_hats, p_raw, c_hats) := partition_coefficients_3D (env_cpus env) (env_order env) g gi lv parts in
      let! p_hats := mapM finite p_raw in champ_body_3D env a_hats p_hats c_hats parts g0 gf o0 of) by (destruct parts; [congruence|reflexivity]).
    rewrite E, coefficients_3D_pool by auto. cbn [bind]. rewrite mapM_finite. reflexivity.
  - intros Hm Hv. destruct (@fl_pool_3D (env_cpus env) (env_order env) g gi lv parts) as (fP & Ep & _ & Hn); auto. exists fP. split; auto.
    assert (E : fl_CHAMP_3D env g gi lv parts g0 gf o0 of =
      let! (a_hats, p_raw, c_hats) := fl_partition_coefficients_3D (env_cpus env) (env_order env) g gi lv parts in
      let! p_hats := mapM finite p_raw in champ_body_3D env a_hats p_hats c_hats parts g0 gf o0 of) by (destruct parts; [congruence|reflexivity]).
    rewrite E, Ep. cbn [bind]. rewrite mapM_finite. reflexivity.
Qed.
