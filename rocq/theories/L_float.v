(** Double precision arithmetic on integers and the SBM estimates. *)
From Verif Require Import PyBase PyGraph M_partition M_champ M_leiden M_estimation_utils M_float Spec Spec_graph Spec_leiden Spec_sbm Spec_float
  L_base L_canon L_modularity L_parallel L_progress L_leiden L_sbm L_sbm2 L_logmean.
From Flocq Require Import Core.Raux Core.Defs Core.Generic_fmt Core.FLT Core.Round_NE Core.Zaux Core.Float_prop Core.Ulp.
From Flocq Require Import Relative.
Set Implicit Arguments.
Open Scope R_scope.

(** ** Rounding *)
Lemma u64_val : u64 = / IZR (2 ^ 53).
Proof. unfold u64. f_equal. rewrite (pow_IZR 2 53). reflexivity. Qed.
Lemma u64_pos : 0 < u64.
Proof. rewrite u64_val. apply Rinv_0_lt_compat, IZR_lt. reflexivity. Qed.

Lemma b64_INR n : (Z.of_nat n <= 2 ^ 53)%Z -> binary64 (INR n) = INR n.
Proof. intros H. rewrite INR_IZR_INZ. apply binary64_Z. lia. Qed.
Lemma b64_0 : binary64 0 = 0.
Proof. unfold binary64. apply round_0, valid_rnd_N. Qed.

(** Relative error of one rounding, above the subnormal range. *)
Lemma b64_rel x : bpow radix2 (-1022) <= Rabs x -> Rabs (binary64 x - x) <= u64 * Rabs x.
Proof.
  intros Hx. pose proof (relative_error_N_FLT radix2 (-1074) 53 ltac:(lia) (fun z => negb (Z.even z)) x) as H. specialize (H Hx).
  fold ZnearestE in H. change (round radix2 (FLT_exp (-1074) 53) ZnearestE x) with (binary64 x) in H.
  assert (E : / 2 * bpow radix2 (- (53) + 1) = u64).
  { rewrite u64_val. simpl bpow. change (Z.pow_pos 2 52) with (2 ^ 52)%Z. change (2 ^ 53)%Z with (2 * 2 ^ 52)%Z. rewrite mult_IZR, Rinv_mult. reflexivity. }
  rewrite E in H. exact H.
Qed.

(** A convenient threshold, far above the subnormal range. *)
Lemma b64_rel_pos x : / 2 ^ 200 <= x -> (1 - u64) * x <= binary64 x <= (1 + u64) * x.
Proof.
  intros H. assert (P : 0 < / 2 ^ 200) by (apply Rinv_0_lt_compat, pow_lt; lra).
  assert (B : bpow radix2 (-1022) <= Rabs x).
  { rewrite Rabs_pos_eq by lra. apply Rle_trans with (2 := H). apply Rle_trans with (bpow radix2 (-200)); [apply bpow_le; lia|].
    right. change (bpow radix2 (-200)) with (/ IZR (2 ^ 200)). f_equal. rewrite (pow_IZR 2 200). reflexivity. }
  apply b64_rel in B. rewrite Rabs_pos_eq with (x := x) in B by lra. apply Rabs_le_inv in B. lra.
Qed.

Lemma b64_opp x : binary64 (- x) = - binary64 x.
Proof. unfold binary64. apply round_NE_opp. Qed.

(** ** Integer-valued data *)
Lemma list_sum_cons k ks : list_sum (k :: ks) = (k + list_sum ks)%nat.
Proof. reflexivity. Qed.

Lemma list_sum_repeat0 K : list_sum (repeat 0%nat K) = 0%nat /\ map INR (repeat 0%nat K) = repeat 0 K.
Proof. induction K as [|K [I J]]; [split; reflexivity|]. cbn [repeat map]. rewrite list_sum_cons, I, J. split; reflexivity. Qed.

Section Ints.
Local Open Scope Z_scope.

Lemma upd_ints : forall ks i, (i < length ks)%nat -> Z.of_nat (list_sum ks) + 1 <= 2 ^ 53 ->
  exists ks', py_update (map INR ks) i (fun x => fl_add x 1%R) = Ok (map INR ks') /\ py_update (map INR ks) i (fun x => (x + 1)%R) = Ok (map INR ks') /\
    length ks' = length ks /\ list_sum ks' = S (list_sum ks).
Proof.
  induction ks as [|k ks IH]; intros i Hi Hb; [cbn in Hi; lia|]. rewrite list_sum_cons in Hb. destruct i as [|i].
  - exists (S k :: ks). cbn [map py_update]. unfold fl_add. rewrite <- S_INR, b64_INR by lia. rewrite !list_sum_cons. repeat split; cbn [length]; lia.
  - destruct (IH i ltac:(cbn in Hi; lia)) as (ks' & E1 & E2 & L & Sm); [lia|].
    exists (k :: ks'). cbn [map py_update]. rewrite E1, E2. cbn [bind map]. rewrite !list_sum_cons. repeat split; cbn [length]; lia.
Qed.

Lemma kappa_ints c K : forall es ks, length ks = K -> (forall u v, In (u, v) es -> (u < length c)%nat /\ (v < length c)%nat) ->
  (forall v, (v < length c)%nat -> (nth v c O < K)%nat) -> Z.of_nat (list_sum ks) + 2 * Z.of_nat (length es) <= 2 ^ 53 ->
  exists ks', foldM (fl_add_strength c) (combine es (repeat 1%R (length es))) (map INR ks) = Ok (map INR ks') /\
    foldM (add_strength c) (combine es (repeat 1%R (length es))) (map INR ks) = Ok (map INR ks') /\
    length ks' = K /\ list_sum ks' = (list_sum ks + 2 * length es)%nat.
Proof.
  induction es as [|[u v] es IH]; intros ks Hk Hr Hl Hb.
  - exists ks. cbn. repeat split; auto; lia.
  - cbn [length repeat combine foldM]. destruct (Hr u v (or_introl eq_refl)) as [Hu Hv]. unfold fl_add_strength at 1, add_strength at 1. cbn [fst snd].
    rewrite !(py_get_ok c O) by auto. cbn [bind].
    destruct (@upd_ints ks (nth u c O)) as (k1 & A1 & B1 & L1 & S1); [rewrite Hk; auto|cbn [length] in Hb; lia|].
    destruct (@upd_ints k1 (nth v c O)) as (k2 & A2 & B2 & L2 & S2); [rewrite L1, Hk; auto|cbn [length] in Hb; lia|].
    rewrite A1, B1. cbn [bind]. rewrite A2, B2. cbn [bind].
    destruct (IH k2) as (k3 & A3 & B3 & L3 & S3); [lia|intros; apply Hr; right; auto|auto|cbn [length] in Hb; lia|].
    exists k3. repeat split; auto. cbn [length]. lia.
Qed.

Lemma fl_sum_ints_from : forall ks a, Z.of_nat a + Z.of_nat (list_sum ks) <= 2 ^ 53 -> fold_left fl_add (map INR ks) (INR a) = INR (a + list_sum ks).
Proof.
  induction ks as [|k ks IH]; intros a H; [cbn; f_equal; lia|]. rewrite list_sum_cons in *. cbn [map fold_left]. unfold fl_add at 2. rewrite <- plus_INR, b64_INR by lia.
  rewrite IH by lia. f_equal. lia.
Qed.
Lemma fl_sum_ints ks : Z.of_nat (list_sum ks) <= 2 ^ 53 -> fl_sum (map INR ks) = INR (list_sum ks).
Proof. intros H. unfold fl_sum. change 0%R with (INR 0). rewrite fl_sum_ints_from by lia. reflexivity. Qed.
Lemma rsum_ints ks : rsum (map INR ks) = INR (list_sum ks).
Proof. induction ks as [|k ks IH]; [reflexivity|]. cbn [map]. rewrite rsum_cons, IH, list_sum_cons, plus_INR. reflexivity. Qed.

Definition squares (ks : list nat) : nat := list_sum (map (fun k => k * k)%nat ks).
Lemma squares_cons k ks : squares (k :: ks) = (k * k + squares ks)%nat.
Proof. reflexivity. Qed.
Lemma sum_squares_ints ks : sum_squares (map INR ks) = INR (squares ks).
Proof. unfold sum_squares, squares. rewrite map_map, <- rsum_ints, map_map. f_equal. apply map_ext. intros k. rewrite mult_INR. ring. Qed.
Lemma fl_squares ks : Z.of_nat (squares ks) <= 2 ^ 53 -> fl_sum (map (fun x => binary64 (x ^ 2)) (map INR ks)) = INR (squares ks).
Proof.
  intros H. assert (E : map (fun x => binary64 (x ^ 2)) (map INR ks) = map INR (map (fun k => k * k)%nat ks)).
  { clear - H. induction ks as [|k ks IH]; [reflexivity|]. rewrite squares_cons in H. cbn [map]. f_equal; [|apply IH; lia].
    replace (INR k ^ 2)%R with (INR (k * k)) by (rewrite mult_INR; ring). apply b64_INR. lia. }
  rewrite E. apply fl_sum_ints. exact H.
Qed.
(** The squares of a list of sum [s]: at most s^2, and at most s (s - 1) unless that bound is attained. *)
Lemma squares_le ks : (squares ks <= list_sum ks * list_sum ks)%nat.
Proof. induction ks as [|k ks IH]; [cbn; lia|]. rewrite squares_cons, list_sum_cons. nia. Qed.
Lemma squares_gap ks : squares ks = (list_sum ks * list_sum ks)%nat \/ (squares ks + list_sum ks <= list_sum ks * list_sum ks)%nat.
Proof.
  induction ks as [|k ks IH]; [left; reflexivity|]. rewrite squares_cons, list_sum_cons. pose proof (squares_le ks) as L.
  destruct (Nat.eq_dec k 0) as [->|Hk]; [cbn; exact IH|]. destruct (Nat.eq_dec (list_sum ks) 0) as [Z|Z]; [left; nia|]. right. nia.
Qed.
Lemma squares_ge ks : (list_sum ks <= squares ks)%nat.
Proof. induction ks as [|k ks IH]; [cbn; lia|]. rewrite squares_cons, list_sum_cons. nia. Qed.

Lemma inner_ints c : forall es, (forall u v, In (u, v) es -> (u < length c)%nat /\ (v < length c)%nat) ->
  exists bs, mapM (fl_internal_weight c) (combine es (repeat 1%R (length es))) = Ok (map INR bs) /\
    mapM (internal_weight c) (combine es (repeat 1%R (length es))) = Ok (map INR bs) /\ (list_sum bs <= length es)%nat.
Proof.
  induction es as [|[u v] es IH]; intros Hr.
  - exists []. cbn. auto.
  - destruct IH as (bs & A & B & L); [intros; apply Hr; right; auto|]. destruct (Hr u v (or_introl eq_refl)) as [Hu Hv].
    exists ((if Nat.eqb (nth u c O) (nth v c O) then 1 else 0)%nat :: bs). cbn [length repeat combine mapM map]. unfold fl_internal_weight at 1, internal_weight at 1, same_label. cbn [fst snd].
    rewrite !(py_get_ok c O) by auto. cbn [bind]. rewrite A, B. cbn [bind]. rewrite list_sum_cons.
    destruct (Nat.eqb _ _); cbn [map INR]; unfold fl_mul; rewrite ?Rmult_1_r, ?Rmult_0_r, ?b64_0; [change 1%R with (INR 1); rewrite b64_INR by lia|]; repeat split; lia.
Qed.
End Ints.

(** ** The two estimates as functions of three integers: edges, internal edges and the sum of squared community strengths *)
Definition params (m mi s : nat) (many : bool) : res (R * R) :=
  let! e_in := py_div (INR s) (2 * INR m) in
  let! omega_in := py_div (2 * INR mi) e_in in
  let! omega_out := (if many then let! e := py_div (INR s) (2 * INR m) in py_div (2 * INR m - 2 * INR mi) (2 * INR m - e) else Ok 0) in
  Ok (omega_in, omega_out).
Definition fl_params (m mi s : nat) (many : bool) : res (R * R) :=
  let! e_in := fl_div (INR s) (2 * INR m) in
  let! omega_in := fl_div (2 * INR mi) e_in in
  let! omega_out := (if many then let! e := fl_div (INR s) (2 * INR m) in fl_div (2 * INR m - 2 * INR mi) (fl_sub (2 * INR m) e) else Ok 0) in
  Ok (omega_in, omega_out).

Lemma two_INR n : 2 * INR n = INR (2 * n).
Proof. rewrite mult_INR. reflexivity. Qed.

Lemma estimates_ints g c K : wf_graph g -> weights g = Some (repeat 1 (length (edges g))) -> length c = vcount g ->
  (forall v, (v < vcount g)%nat -> (nth v c 0 < K)%nat) -> let m := length (edges g) in (4 * Z.of_nat m * Z.of_nat m <= 2 ^ 53)%Z ->
  exists mi s, (mi <= m)%nat /\ (2 * m <= s)%nat /\ (s = 2 * m * (2 * m) \/ s + 2 * m <= 2 * m * (2 * m))%nat /\
    estimate_singlelayer_SBM_parameters g (mkPart K c) None = params m mi s (Nat.ltb 1 K) /\
    fl_estimate_singlelayer_SBM_parameters g (mkPart K c) = fl_params m mi s (Nat.ltb 1 K).
Proof.
  intros [Hr _] Hw Hlen Hlab m Hm. rewrite <- Hlen in Hlab. assert (Hm' : (2 * Z.of_nat m <= 2 ^ 53)%Z) by nia.
  assert (Hr' : forall u v, In (u, v) (edges g) -> (u < length c)%nat /\ (v < length c)%nat) by (intros u v H; rewrite Hlen; apply Hr; auto).
  destruct (@kappa_ints c K (edges g) (repeat 0%nat K) (repeat_length _ _) Hr' Hlab) as (ks & A1 & B1 & L1 & S1).
  { rewrite (proj1 (list_sum_repeat0 K)). fold m. lia. }
  destruct (@inner_ints c (edges g) Hr') as (bs & A2 & B2 & L2).
  rewrite (proj1 (list_sum_repeat0 K)) in S1. rewrite (proj2 (list_sum_repeat0 K)) in A1, B1. cbn [Nat.add] in S1. fold m in S1, L2, A1, B1, A2, B2.
  exists (list_sum bs), (squares ks). split; [exact L2|]. rewrite <- S1. split; [apply squares_ge|]. split; [apply squares_gap|].
  pose proof (squares_le ks) as SQ. rewrite S1 in SQ.
  unfold estimate_singlelayer_SBM_parameters, fl_estimate_singlelayer_SBM_parameters, wedges. rewrite Hw. cbn [bind part_membership part_len].
  fold m. rewrite A1, B1, A2, B2. cbn [bind]. rewrite sum_squares_ints, fl_squares by nia. rewrite rsum_ints, fl_sum_ints by lia.
  assert (Hone : repeat 1 m = map INR (repeat 1%nat m)). { clear. induction m; [reflexivity|]. cbn [repeat map]. f_equal; auto. }
  assert (Hs : list_sum (repeat 1%nat m) = m). { clear. induction m; [reflexivity|]. cbn [repeat]. rewrite list_sum_cons. lia. }
  rewrite Hone, rsum_ints, fl_sum_ints, Hs by (rewrite Hs; lia). unfold params, fl_params, fl_mul, fl_sub at 1. rewrite !two_INR. rewrite !b64_INR by lia.
  split; [reflexivity|]. rewrite <- minus_INR by lia. rewrite b64_INR by lia. rewrite !minus_INR by lia. reflexivity.
Qed.
