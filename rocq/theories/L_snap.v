(** Lemmas for C96: bounds on omega_out and on gamma estimates; the loops of SNAP_boxplot.py. *)
From Verif Require Import PyBase PyGraph M_partition M_champ M_leiden M_estimation_utils M_checks M_experiments M_snap Spec Spec_graph Spec_leiden Spec_sbm Spec_check Spec_multisbm Spec_valid Spec_limits Spec_snap
  L_base L_canon L_modularity L_modularity3 L_parallel L_leiden L_split L_objective L_sbm L_sbm2 L_logmean L_multisbm L_accepted L_omega L_limits.
Set Implicit Arguments.
Open Scope R_scope.

(** ** Between-community weight is at most twice the expectation *)
Lemma cut_volume E c r : (forall e w, In (e, w) E -> 0 <= w) -> 2 * (total_w E - inner_w E c) <= 2 * (2 * total_w E - kappa_w E c r).
Proof.
  intros Hw. assert (G : total_w E + kappa_w E c r <= 2 * total_w E + inner_w E c).
  { unfold total_w, kappa_w, inner_w. rewrite <- rsum_map_scale, <- !rsum_map_plus. apply rsum_map_le. intros [[u v] w] Hin. cbn [fst snd].
    pose proof (Hw _ _ Hin) as W. unfold delta, ind. destruct (Nat.eq_dec (nth u c 0%nat) (nth v c 0%nat)) as [e|ne].
    - rewrite e. destruct (Nat.eqb_spec (nth v c 0%nat) r); lra.
    - destruct (Nat.eqb_spec (nth u c 0%nat) r), (Nat.eqb_spec (nth v c 0%nat) r); try congruence; lra. }
  lra.
Qed.

Lemma kappa_nonneg E c r : (forall e w, In (e, w) E -> 0 <= w) -> 0 <= kappa_w E c r.
Proof.
  intros Hw. unfold kappa_w. replace 0 with (rsum (map (fun _ : wedge => 0) E)).
  - apply rsum_map_le. intros [[u v] w] Hin. cbn [fst snd]. pose proof (Hw _ _ Hin). apply Rmult_le_pos; auto. unfold ind. destruct (Nat.eqb _ _), (Nat.eqb _ _); lra.
  - induction E as [|e l IH]; [apply rsum_nil|]. cbn [map]. rewrite rsum_cons, IH; [ring|]. intros e' w H. apply (Hw e'). right. auto.
Qed.

Lemma between_twice n E c K : in_range_E n E -> (forall v, (v < n)%nat -> (nth v c 0 < K)%nat) -> (forall e w, In (e, w) E -> 0 <= w) -> 0 < total_strength n E ->
  observed_between n E c <= 2 * expected_between n E c.
Proof.
  intros Hr Hl Hw Ht. pose proof (observed_split n E c) as So. pose proof (@expected_split n E c ltac:(lra)) as Se.
  rewrite (observed_within_w c Hr) in So. rewrite (@expected_within_w n E c K Hr Hl) in Se. rewrite (total_strength_w Hr) in *.
  set (S := 2 * total_w E) in *. set (B := observed_between n E c) in *.
  assert (G : forall r, B <= 2 * (S - kappa_w E c r)) by (intros r; pose proof (@cut_volume E c r Hw); unfold S, B in *; lra).
  assert (Hs : rsum (map (fun r => kappa_w E c r * B) (seq 0 K)) <= rsum (map (fun r => 2 * S * kappa_w E c r + (-2) * kappa_w E c r ^ 2) (seq 0 K))).
  { apply rsum_map_le. intros r _. pose proof (G r) as G'. apply (Rmult_le_compat_l (kappa_w E c r)) in G'; [lra|]. apply kappa_nonneg; auto. }
  rewrite rsum_map_scale_r, rsum_map_plus, !rsum_map_scale, (@kappa_total E c K n Hr Hl) in Hs. fold S in Hs.
  set (Q := rsum (map (fun r => kappa_w E c r ^ 2) (seq 0 K))) in *.
  apply Rmult_le_reg_l with S; auto. assert (Eq : S * (Q / S) = Q) by (field; lra).
  replace (expected_between n E c) with (S - Q / S) by lra. replace (S * (2 * (S - Q / S))) with (2 * S * S - 2 * (S * (Q / S))) by ring. rewrite Eq. lra.
Qed.

(** ** Numeric bounds *)
Lemma ln2_big : 2 / 3 < ln 2.
Proof. pose proof (@ln_lower 2 ltac:(lra)). lra. Qed.
Lemma ln_pow2 k : INR k * (2 / 3) <= ln (2 ^ k).
Proof. rewrite ln_pow by lra. apply Rmult_le_compat_l; [apply pos_INR|]. pose proof ln2_big. lra. Qed.
Lemma ln_25_16 : 2 / 5 < ln (25 / 16).
Proof. pose proof (@ln_lower (25 / 16) ltac:(lra)). lra. Qed.
Lemma ln50_big : 7 / 2 < ln 50.
Proof. replace 50 with (2 ^ 5 * (25 / 16)) by field. rewrite ln_mult by lra. pose proof (ln_pow2 5). pose proof ln_25_16. cbn [INR] in *. lra. Qed.
Lemma ln200_big : 5 < ln 200.
Proof. replace 200 with (2 ^ 7 * (25 / 16)) by field. rewrite ln_mult by lra. pose proof (ln_pow2 7). pose proof ln_25_16. cbn [INR] in *. lra. Qed.

Lemma seventy y : 0 < y < 1 -> 70 * (1 - y) < 15 * (1 + 69 * y) * (- ln y).
Proof.
  intros Hy. assert (L : forall a, 0 < a -> y <= / a -> ln a <= - ln y).
  { intros a Ha H. rewrite <- ln_Rinv by lra. assert (a <= / y) by (rewrite <- (Rinv_inv a); apply Rinv_le_contravar; lra).
    destruct (Req_dec a (/ y)) as [->|]; [lra|]. apply Rlt_le, ln_increasing; lra. }
  destruct (Rlt_le_dec (/ 50) y) as [H|H].
  - assert (Hi : 1 < / y) by (rewrite <- Rinv_1; apply Rinv_lt_contravar; lra). pose proof (@ln_lower (/ y) Hi) as G. rewrite ln_Rinv in G by lra.
    replace (2 * (/ y - 1) / (/ y + 1)) with (2 * (1 - y) / (1 + y)) in G by (field; lra).
    apply (Rmult_lt_compat_l (15 * (1 + 69 * y))) in G; [|lra]. apply Rle_lt_trans with (2 := G).
    apply Rmult_le_reg_r with (1 + y); [lra|]. replace (15 * (1 + 69 * y) * (2 * (1 - y) / (1 + y)) * (1 + y)) with ((1 - y) * (30 * (1 + 69 * y))) by (field; lra).
    replace (70 * (1 - y) * (1 + y)) with ((1 - y) * (70 * (1 + y))) by ring. apply Rmult_le_compat_l; lra.
  - destruct (Rlt_le_dec (/ 200) y) as [H'|H'].
    + pose proof (L 50 ltac:(lra) H). pose proof ln50_big. assert (15 * (1 + 69 * y) * (7 / 2) <= 15 * (1 + 69 * y) * (- ln y)) by (apply Rmult_le_compat_l; lra). lra.
    + pose proof (L 200 ltac:(lra) H'). pose proof ln200_big. assert (15 * (1 + 69 * y) * 5 <= 15 * (1 + 69 * y) * (- ln y)) by (apply Rmult_le_compat_l; lra). lra.
Qed.

Lemma expected_below_15 K y z : (2 <= K <= 70)%nat -> 0 < y < 1 -> expected_gamma K y = Ok z -> z < 15.
Proof.
  intros HK Hy H. destruct (@expected_gamma_mean K y ltac:(lia) Hy) as [E B]. rewrite E in H. inversion H. clear H E.
  assert (HK1 : 2 <= INR K) by (replace 2 with (INR 2) by (cbn; lra); apply le_INR; lia).
  assert (HK2 : INR K <= 70) by (replace 70 with (INR 70) by (cbn; lra); apply le_INR; lia).
  set (D := 1 + (INR K - 1) * y) in *. assert (HD : 0 < D). { unfold D. assert (0 <= (INR K - 1) * y) by (apply Rmult_le_pos; lra). lra. }
  assert (Hl : ln y < 0) by (rewrite <- ln_1; apply ln_increasing; lra). unfold log_mean.
  assert (Ha : 0 < INR K / D) by (apply Rdiv_lt_0_compat; lra). rewrite ln_mult by lra.
  replace ((INR K / D - INR K / D * y) / (ln (INR K / D) - (ln (INR K / D) + ln y))) with (INR K * (1 - y) / (D * (- ln y))) by (field; split; lra).
  assert (HP : 0 < D * (- ln y)) by (apply Rmult_lt_0_compat; lra).
  apply Rmult_lt_reg_r with (D * (- ln y)); auto. unfold Rdiv. rewrite Rmult_assoc, Rinv_l, Rmult_1_r by lra.
  assert (M : INR K * (1 + 69 * y) <= 70 * D). { assert (INR K * (1 - y) <= 70 * (1 - y)) by (apply Rmult_le_compat_r; lra). unfold D. lra. }
  apply Rmult_lt_reg_r with (1 + 69 * y); [lra|].
  apply Rle_lt_trans with (70 * D * (1 - y)).
  - replace (INR K * (1 - y) * (1 + 69 * y)) with ((1 - y) * (INR K * (1 + 69 * y))) by ring. replace (70 * D * (1 - y)) with ((1 - y) * (70 * D)) by ring. apply Rmult_le_compat_l; lra.
  - replace (70 * D * (1 - y)) with (D * (70 * (1 - y))) by ring. replace (15 * (D * - ln y) * (1 + 69 * y)) with (D * (15 * (1 + 69 * y) * - ln y)) by ring.
    apply Rmult_lt_compat_l; auto. apply seventy; auto.
Qed.

(** ** Single-layer estimates *)
Section Single.
Variables (g : graph) (ws : list R) (c : list nat) (K : nat) (a b : R).
Hypotheses (Hwf : wf_graph g) (Hpos : forall w, In w ws -> 0 < w) (Hlen : length c = vcount g).
Hypotheses (Hlab : forall v, (v < vcount g)%nat -> (nth v c 0 < K)%nat) (HK : (1 < K)%nat).
Hypothesis (Hest : sbm_outcome (vcount g) (combine (edges g) ws) K c = Ok (a, b)).

Lemma omega_out_two : b <= 2.
Proof.
  destruct (@single_facts g ws c K a b Hwf Hpos Hlen HK Hest) as (Ht & Hp & Hb & Ea & Eb & _). rewrite Eb.
  apply Rmult_le_reg_r with (expected_between (vcount g) (combine (edges g) ws) c); auto. unfold Rdiv. rewrite Rmult_assoc, Rinv_l, Rmult_1_r by lra.
  apply (@between_twice _ _ _ K); auto; [apply range_E_of; auto|]. intros e w Hin. apply in_combine_r in Hin. apply Hpos in Hin. lra.
Qed.

Lemma mean_two_or_curve : 0 < a -> 0 < b -> a <> b ->
  log_mean a b < 2 \/ exists y z, 0 < y < 1 /\ expected_gamma K y = Ok z /\ log_mean a b <= z.
Proof.
  intros Pa Pb N. destruct (@single_balance g ws c K a b Hwf Hpos Hlen Hlab HK Hest) as (HS & HKP & HPS & Hbal & _). cbv zeta in *.
  destruct (Rlt_le_dec b a) as [L|L].
  - right. destruct (@estimate_bounded K _ _ a b HK HS HKP HPS Hbal Pb L) as (y & z & Hy & Hz & H1 & _). eauto.
  - left. pose proof omega_out_two as G. destruct (@log_mean_bounds a b Pa Pb N) as [[_ M] _]. rewrite Rmax_right in M by lra. lra.
Qed.
End Single.

(** ** The grid loops of gamma_maxmean *)
Definition estimates_of (K : nat) (l : list (R * R)) : list R := map (fun p => log_mean (fst p) (snd p)) (filter (possible K) l).
Definition add_all (xs : list R) (st : R * nat * R) : R * nat * R :=
  (fst (fst st) + rsum xs, (snd (fst st) + length xs)%nat, fold_left Rmax xs (snd st)).

Lemma add_all_nil st : add_all [] st = st.
Proof. destruct st as [[t n] m]. unfold add_all. cbn [fst snd length fold_left]. rewrite rsum_nil, Rplus_0_r, Nat.add_0_r. reflexivity. Qed.
Lemma add_all_app xs ys st : add_all (xs ++ ys) st = add_all ys (add_all xs st).
Proof. destruct st as [[t n] m]. unfold add_all. cbn [fst snd]. rewrite rsum_app, app_length, fold_left_app, Rplus_assoc, Nat.add_assoc. reflexivity. Qed.

Lemma estimates_app K l l' : estimates_of K (l ++ l') = estimates_of K l ++ estimates_of K l'.
Proof. unfold estimates_of. rewrite filter_app, map_app. reflexivity. Qed.

Definition nondecreasing (l : list R) : Prop := forall i j x y, (i < j)%nat -> nth_error l i = Some x -> nth_error l j = Some y -> x <= y.

Lemma nondecreasing_cons x l : nondecreasing (x :: l) -> nondecreasing l /\ forall y, In y l -> x <= y.
Proof.
  intros H. split.
  - intros i j a b Hij A B. apply (H (S i) (S j) a b); auto. lia.
  - intros y Hy. apply In_nth_error in Hy. destruct Hy as [j Hj]. apply (H 0%nat (S j) x y); auto. lia.
Qed.

Lemma row_spec K a : (1 < K)%nat -> 1 <= a -> forall outs st, nondecreasing outs -> (forall b, In b outs -> 0 <= b) ->
  gamma_row K a outs st = add_all (estimates_of K (map (fun b => (a, b)) outs)) st.
Proof.
  intros HK Ha. pose proof (K_big HK) as HK1. induction outs as [|b l IH]; intros st Hs Hb; cbn [gamma_row map].
  - unfold estimates_of. cbn. symmetry. apply add_all_nil.
  - apply nondecreasing_cons in Hs. destruct Hs as [Hs Hmin]. destruct (Rlt_dec (INR K) (a + (INR K - 1) * b)) as [H|H].
    + replace (estimates_of K ((a, b) :: map (fun b => (a, b)) l)) with (@nil R); [symmetry; apply add_all_nil|]. symmetry. unfold estimates_of.
      replace (filter (possible K) ((a, b) :: map (fun b0 => (a, b0)) l)) with (@nil (R * R)); [reflexivity|]. symmetry.
      assert (F : forall q, In q ((a, b) :: map (fun b0 => (a, b0)) l) -> possible K q = false).
      { intros q Hq. assert (Hq' : exists b', q = (a, b') /\ b <= b').
        { destruct Hq as [<-|Hq]; [exists b; split; [auto|lra]|]. apply in_map_iff in Hq. destruct Hq as (b' & <- & Hin). exists b'. auto. }
        destruct Hq' as (b' & -> & Hle). unfold possible. cbn [fst snd]. unfold Rleb. destruct (Rle_dec (a + (INR K - 1) * b') (INR K)) as [G|]; [|reflexivity].
        exfalso. assert ((INR K - 1) * b <= (INR K - 1) * b') by (apply Rmult_le_compat_l; lra). lra. }
      revert F. generalize ((a, b) :: map (fun b0 => (a, b0)) l). intros L F. induction L as [|q L IHL]; [reflexivity|]. cbn [filter]. rewrite F by (left; auto). apply IHL. intros; apply F; right; auto.
    + rewrite IH by (auto; intros; apply Hb; right; auto). change ((a, b) :: map (fun b0 => (a, b0)) l) with ([(a, b)] ++ map (fun b0 => (a, b0)) l). rewrite estimates_app, add_all_app. f_equal.
      rewrite gamma_from_parameters. unfold estimates_of, possible. cbn [filter fst snd]. unfold Rleb, Rltb, Reqb.
      destruct (Rle_dec (a + (INR K - 1) * b) (INR K)); [|lra]. pose proof (Hb b (or_introl eq_refl)) as B0.
      destruct (Req_EM_T a 0); [lra|]. destruct (Req_EM_T b 0) as [->|Nb].
      * destruct (Rlt_dec 0 0); [lra|]. cbn. symmetry. apply add_all_nil.
      * destruct (Rlt_dec 0 a); [|lra]. destruct (Rlt_dec 0 b); [|lra]. destruct (Req_EM_T a b); cbn [andb negb map]; [symmetry; apply add_all_nil|].
        destruct st as [[t n'] m]. unfold add_all. cbn [fst snd length fold_left]. rewrite rsum_cons, rsum_nil, Rplus_0_r. rewrite Nat.add_1_r. reflexivity.
Qed.

Lemma linspace_in K points : linspace 1 (INR K) points = map (omega_in_at K points) (seq 0 points).
Proof. reflexivity. Qed.
Lemma linspace_out K points : linspace 0 (INR K / (INR K - 1)) points = map (omega_out_at K points) (seq 0 points).
Proof. unfold linspace. apply map_ext. intros i. unfold omega_out_at. rewrite Rplus_0_l, Rminus_0_r. reflexivity. Qed.

Lemma step_nonneg x points : 0 <= x -> 0 <= x / INR (points - 1).
Proof.
  intros Hx. destruct (Nat.eq_dec (points - 1) 0) as [->|N].
  - cbn [INR]. unfold Rdiv. rewrite Rinv_0. lra.
  - apply Rmult_le_pos; auto. left. apply Rinv_0_lt_compat, lt_0_INR. lia.
Qed.

Lemma out_sorted K points : (1 < K)%nat -> nondecreasing (map (omega_out_at K points) (seq 0 points)) /\ (forall b, In b (map (omega_out_at K points) (seq 0 points)) -> 0 <= b).
Proof.
  intros HK. pose proof (K_big HK) as HK1. assert (P : 0 <= INR K / (INR K - 1) / INR (points - 1)) by (apply step_nonneg; left; apply Rdiv_lt_0_compat; lra). split.
  - intros i j x y Hij Hx Hy. rewrite nth_error_map in Hx, Hy.
    destruct (nth_error (seq 0 points) i) eqn:Ei; [|discriminate]. destruct (nth_error (seq 0 points) j) eqn:Ej; [|discriminate]. cbn in Hx, Hy. inversion Hx; inversion Hy.
    assert (Li : (i < points)%nat) by (rewrite <- (seq_length points 0); apply nth_error_Some; congruence). assert (Lj : (j < points)%nat) by (rewrite <- (seq_length points 0); apply nth_error_Some; congruence).
    rewrite (nth_error_nth' _ 0%nat) in Ei by (rewrite seq_length; auto). rewrite (nth_error_nth' _ 0%nat) in Ej by (rewrite seq_length; auto). rewrite seq_nth in Ei, Ej by auto. inversion Ei; inversion Ej. subst.
    unfold omega_out_at. apply Rmult_le_compat_r; auto. apply le_INR. lia.
  - intros b Hb. apply in_map_iff in Hb. destruct Hb as (i & <- & _). unfold omega_out_at. apply Rmult_le_pos; auto. apply pos_INR.
Qed.
Lemma in_at_ge1 K points i : (1 < K)%nat -> 1 <= omega_in_at K points i.
Proof. intros HK. pose proof (K_big HK). unfold omega_in_at. assert (0 <= INR i * ((INR K - 1) / INR (points - 1))); [|lra]. apply Rmult_le_pos; [apply pos_INR|]. apply step_nonneg. lra. Qed.

Lemma rows_spec K outs : (1 < K)%nat -> nondecreasing outs -> (forall b, In b outs -> 0 <= b) ->
  forall ins, (forall a, In a ins -> 1 <= a) -> forall st,
  foldM (fun st a => Ok (gamma_row K a outs st)) ins st = Ok (add_all (estimates_of K (list_prod ins outs)) st).
Proof.
  intros HK Hs Hb. induction ins as [|a l IH]; intros Ha st; cbn [foldM list_prod bind].
  - unfold estimates_of. cbn. rewrite add_all_nil. reflexivity.
  - rewrite row_spec by (auto; apply Ha; left; auto). rewrite IH by (intros; apply Ha; right; auto). rewrite estimates_app, add_all_app. reflexivity.
Qed.

Lemma foldM_ext_in {A S} (f h : S -> A -> res S) l : (forall s x, In x l -> f s x = h s x) -> forall s, foldM f l s = foldM h l s.
Proof. induction l as [|x l IH]; intros H s; cbn [foldM]; auto. rewrite H by (left; auto). destruct (h s x); cbn [bind]; auto. apply IH. intros; apply H; right; auto. Qed.

Lemma maxmean_loop K points : (1 < K)%nat -> let l := map (fun p => log_mean (fst p) (snd p)) (possible_points K points) in
  gamma_maxmean K points = (let! mean := py_div (rsum l) (INR (length l)) in Ok (mean, fold_left Rmax l 0)).
Proof.
  intros HK l. pose proof (K_big HK) as HK1. destruct (out_sorted points HK) as [S1 S2]. unfold gamma_maxmean.
  rewrite (@foldM_ext_in _ _ _ (fun st a => Ok (gamma_row K a (map (omega_out_at K points) (seq 0 points)) st))).
  - rewrite linspace_in, rows_spec; auto; [|intros a Ha; apply in_map_iff in Ha; destruct Ha as (i & <- & _); apply in_at_ge1; auto].
    cbn [bind]. unfold add_all. cbn [fst snd]. rewrite Rplus_0_l, Nat.add_0_l. reflexivity.
  - intros s x _. rewrite py_div_ok by lra. cbn [bind]. rewrite linspace_out. reflexivity.
Qed.

Lemma fold_max_ge : forall l m, m <= fold_left Rmax l m.
Proof. induction l as [|x l IH]; intros m; cbn [fold_left]; [lra|]. apply Rle_trans with (Rmax m x); [apply Rmax_l|apply IH]. Qed.
Lemma fold_max_in : forall l m, (forall x, In x l -> x <= fold_left Rmax l m) /\ (fold_left Rmax l m = m \/ In (fold_left Rmax l m) l).
Proof.
  induction l as [|x l IH]; intros m; cbn [fold_left]; [split; [contradiction|auto]|]. destruct (IH (Rmax m x)) as [U I]. split.
  - intros y [->|Hy]; [|auto]. apply Rle_trans with (Rmax m y); [apply Rmax_r|apply fold_max_ge].
  - destruct I as [I|I]; [|right; right; auto]. rewrite I. unfold Rmax. destruct (Rle_dec m x); [right; left; auto|left; auto].
Qed.
Lemma maximum_fold l : l <> [] -> (forall x, In x l -> 0 < x) -> is_maximum l (fold_left Rmax l 0).
Proof.
  intros N P. destruct (fold_max_in l 0) as [U I]. split; auto. destruct I as [I|]; auto. exfalso. destruct l as [|x l]; [congruence|].
  specialize (U x (or_introl eq_refl)). specialize (P x (or_introl eq_refl)). lra.
Qed.
Lemma average_le l m : l <> [] -> (forall x, In x l -> x <= m) -> average l <= m.
Proof.
  intros N H. unfold average. assert (P : 0 < INR (length l)) by (apply lt_0_INR; destruct l; [congruence|cbn; lia]). apply Rmult_le_reg_r with (INR (length l)); auto. unfold Rdiv. rewrite Rmult_assoc, Rinv_l, Rmult_1_r by lra.
  clear N P. induction l as [|x l IH]; [rewrite rsum_nil; cbn; lra|]. rewrite rsum_cons. cbn [length]. rewrite S_INR. pose proof (H x (or_introl eq_refl)). assert (rsum l <= m * INR (length l)) by (apply IH; intros; apply H; right; auto). lra.
Qed.
Lemma average_pos l : l <> [] -> (forall x, In x l -> 0 < x) -> 0 < average l.
Proof.
  intros N H. assert (P : 0 < INR (length l)) by (apply lt_0_INR; destruct l; [congruence|cbn; lia]). apply Rdiv_lt_0_compat; auto.
  destruct l as [|x l]; [congruence|]. rewrite rsum_cons. assert (0 <= rsum l); [|pose proof (H x (or_introl eq_refl)); lra].
  assert (H' : forall y, In y l -> 0 < y) by (intros; apply H; right; auto). clear - H'. induction l as [|x l IH]; [rewrite rsum_nil; lra|]. rewrite rsum_cons. pose proof (H' x (or_introl eq_refl)). specialize (IH ltac:(intros; apply H'; right; auto)). lra.
Qed.

(** A possible point has omega_out < omega_in, and its estimate is at most the plotted curve at the ratio. *)
Lemma possible_facts K a b : (1 < K)%nat -> 1 <= a -> possible K (a, b) = true -> 0 < b < a /\ a + (INR K - 1) * b <= INR K /\
  exists z, expected_gamma K (b / a) = Ok z /\ log_mean a b <= z /\ z < INR K / 2 /\ 0 < b / a < 1 /\ 0 < log_mean a b.
Proof.
  intros HK Ha H. pose proof (K_big HK) as HK1. unfold possible in H. cbn [fst snd] in H. apply andb_prop in H. destruct H as [H H3]. apply andb_prop in H. destruct H as [H1 H2].
  unfold Rleb in H1. destruct (Rle_dec _ _) as [L|]; [|discriminate]. unfold Rltb in H2. destruct (Rlt_dec 0 b) as [B|]; [|discriminate]. unfold Reqb in H3. destruct (Req_EM_T a b) as [|N]; [discriminate|].
  assert (Hba : b < a).
  { apply Rnot_le_lt. intros C. assert (a < b) by lra. assert ((INR K - 1) * a < (INR K - 1) * b) by (apply Rmult_lt_compat_l; lra). assert ((INR K - 1) * 1 <= (INR K - 1) * a) by (apply Rmult_le_compat_l; lra). lra. }
  assert (Hy : 0 < b / a < 1). { split; [apply Rdiv_lt_0_compat; lra|]. apply Rmult_lt_reg_r with a; [lra|]. unfold Rdiv. rewrite Rmult_assoc, Rinv_l, Rmult_1_r by lra. lra. }
  split; auto. split; auto. destruct (@expected_gamma_mean K (b / a) ltac:(lia) Hy) as [E _]. eexists. split; [exact E|].
  pose proof (@expected_gamma_below K (b / a) _ HK Hy E) as Hb.
  destruct (@mean_between a b B Hba) as [Lm _].
  set (s := a + (INR K - 1) * b) in *. assert (Hs : 0 < s). { unfold s. assert (0 < (INR K - 1) * b) by (apply Rmult_lt_0_compat; lra). lra. }
  assert (E1 : INR K / (1 + (INR K - 1) * (b / a)) = INR K / s * a) by (unfold s; field; split; [unfold s in Hs; lra|lra]).
  rewrite E1 in *. assert (E2 : INR K / s * a * (b / a) = INR K / s * b) by (field; lra). rewrite E2 in *.
  rewrite log_mean_scale in * by (try lra; apply Rdiv_lt_0_compat; lra).
  split; [|split; [auto|split; [auto|lra]]]. rewrite <- (Rmult_1_l (log_mean a b)) at 1. apply Rmult_le_compat_r; [lra|].
  apply Rmult_le_reg_r with s; auto. unfold Rdiv. rewrite Rmult_assoc, Rinv_l, Rmult_1_r by lra. lra.
Qed.

Lemma possible_points_in K points p : (1 < K)%nat -> In p (possible_points K points) -> possible K p = true /\ exists i j, (i < points)%nat /\ (j < points)%nat /\ p = (omega_in_at K points i, omega_out_at K points j).
Proof.
  intros HK H. apply filter_In in H. destruct H as [H1 H2]. split; auto. destruct p as [a b]. apply in_prod_iff in H1. destruct H1 as [A B]. apply in_map_iff in A. apply in_map_iff in B.
  destruct A as (i & <- & A). destruct B as (j & <- & B). apply in_seq in A. apply in_seq in B. exists i, j. repeat split; lia.
Qed.
Lemma in_possible_points K points i j : (i < points)%nat -> (j < points)%nat -> possible K (omega_in_at K points i, omega_out_at K points j) = true ->
  In (omega_in_at K points i, omega_out_at K points j) (possible_points K points).
Proof. intros Hi Hj H. apply filter_In. split; auto. apply in_prod_iff. split; apply in_map; apply in_seq; lia. Qed.

(** Four points per axis always suffice. *)
Lemma points_suffice K points : (1 < K)%nat -> (4 <= points)%nat -> In (omega_in_at K points 0, omega_out_at K points 1) (possible_points K points).
Proof.
  intros HK Hp. pose proof (K_big HK) as HK1. assert (HK2 : 2 <= INR K) by (replace 2 with (INR 2) by (cbn; lra); apply le_INR; lia).
  apply in_possible_points; try lia. unfold possible, omega_in_at, omega_out_at. cbn [fst snd]. cbn [INR]. rewrite Rmult_0_l, Rplus_0_r, Rmult_1_l.
  assert (Hn : 3 <= INR (points - 1)) by (replace 3 with (INR 3) by (cbn; lra); apply le_INR; lia). set (m := INR (points - 1)) in *.
  assert (Hq : (INR K - 1) * (INR K / (INR K - 1) / m) = INR K / m) by (field; split; lra).
  assert (Hk3 : INR K / m <= INR K / 3) by (apply Rmult_le_compat_l; [lra|]; apply Rinv_le_contravar; lra).
  assert (Hb : 0 < INR K / (INR K - 1) / m) by (apply Rdiv_lt_0_compat; [apply Rdiv_lt_0_compat; lra|lra]).
  unfold Rleb, Rltb, Reqb. rewrite Hq. destruct (Rle_dec (1 + INR K / m) (INR K)) as [|C]; [|lra]. destruct (Rlt_dec 0 _) as [|C]; [|lra].
  destruct (Req_EM_T 1 (INR K / (INR K - 1) / m)) as [C|]; [|reflexivity]. exfalso. rewrite <- C in Hq. lra.
Qed.

(** Two communities, a thousand points: the grid point next to (1, 1) on the line. *)
Lemma two_thousand : In (1000 / 999, 998 / 999) (possible_points 2 1000) /\ 9999 / 10000 < log_mean (1000 / 999) (998 / 999).
Proof.
  split.
  - assert (E1 : omega_in_at 2 1000 1 = 1000 / 999) by (unfold omega_in_at; replace (INR (1000 - 1)) with 999 by (rewrite INR_IZR_INZ; reflexivity); cbn [INR]; field).
    assert (E2 : omega_out_at 2 1000 499 = 998 / 999). { unfold omega_out_at. replace (INR (1000 - 1)) with 999 by (rewrite INR_IZR_INZ; reflexivity). replace (INR 499) with 499 by (rewrite INR_IZR_INZ; reflexivity). cbn [INR]. field. }
    rewrite <- E1, <- E2. apply in_possible_points; [apply Nat.ltb_lt; vm_compute; reflexivity|apply Nat.ltb_lt; vm_compute; reflexivity|]. rewrite E1, E2. unfold possible. cbn [fst snd INR]. unfold Rleb, Rltb, Reqb.
    destruct (Rle_dec _ _); [|lra]. destruct (Rlt_dec _ _); [|lra]. destruct (Req_EM_T _ _); [lra|reflexivity].
  - destruct (@log_mean_bounds (1000 / 999) (998 / 999)) as (_ & [G _]); try lra. apply Rle_lt_trans with (2 := G).
    rewrite <- (sqrt_square (9999 / 10000)) by lra. apply sqrt_le_1; lra.
Qed.

(** ** The estimate of one partition *)
Lemma list_max_succ c : c <> [] -> list_max (map S c) = S (list_max c).
Proof. intros Hc. induction c as [|p [|q l] IH]; [congruence|simpl; lia|]. specialize (IH ltac:(discriminate)). unfold list_max in *. cbn [map fold_right] in *. lia. Qed.

Section Estimate.
Variables (env : est_env) (g : graph) (ws : list R) (c : list nat).
Hypotheses (Hg : wf_graph g) (Hw : weights (weighted_e env g) = Some ws) (Hpos : forall w, In w ws -> 0 < w) (Hlen : length c = vcount g) (Hm : (0 < list_max c)%nat).

Lemma estimate_cases r : snd (gamma_estimate env g (Membership c)) = Ok r ->
  let K := S (list_max c) in exists a b, sbm_outcome (vcount g) (combine (edges g) ws) K c = Ok (a, b) /\ (1 < K)%nat /\ (forall v, (v < vcount g)%nat -> (nth v c 0 < K)%nat) /\
  r = gamma_estimate_from_parameters a b.
Proof.
  intros H K. rewrite (@gamma_estimate_membership env g ws c) in H by auto. cbn [snd] in H. assert (Hc : c <> []) by (intros ->; cbn in Hm; lia).
  rewrite list_max_succ in H by auto. fold K in H. apply bind_ok in H. destruct H as ([a b] & Hest & H). cbv beta iota in H. exists a, b. split; auto. split; [unfold K; lia|]. split; [|congruence].
  intros v Hv. unfold K. rewrite <- list_max_succ by auto. apply list_max_label. lia.
Qed.

Lemma estimate_below x : snd (gamma_estimate env g (Membership c)) = Ok (Some (Fin x)) ->
  0 < x /\ (x < 2 \/ exists y z, 0 < y < 1 /\ expected_gamma (S (list_max c)) y = Ok z /\ x <= z).
Proof.
  intros H. destruct (estimate_cases H) as (a & b & Hest & HK & Hlab & Hr). rewrite gamma_from_parameters in Hr.
  destruct (Req_EM_T a 0); [discriminate|]. destruct (Req_EM_T b 0); [discriminate|]. destruct (Rlt_dec 0 a); [|discriminate]. destruct (Rlt_dec 0 b); [|discriminate]. destruct (Req_EM_T a b); [discriminate|]. inversion Hr; subst x.
  split; [|apply (@mean_two_or_curve g ws c (S (list_max c)) a b); auto].
  destruct (@log_mean_bounds a b) as ([G _] & _); auto. unfold Rmin in G. destruct (Rle_dec a b); lra.
Qed.

Lemma estimate_nan : snd (gamma_estimate env g (Membership c)) = Ok (Some NonFinite) ->
  observed_within (vcount g) (combine (edges g) ws) c = expected_within (vcount g) (combine (edges g) ws) c.
Proof.
  intros H. destruct (estimate_cases H) as (a & b & Hest & HK & Hlab & Hr).
  destruct (@single_facts g ws c (S (list_max c)) a b Hg Hpos Hlen HK Hest) as (Ht & Hp & Hb & Ea & Eb & _).
  destruct (@single_balance g ws c (S (list_max c)) a b Hg Hpos Hlen Hlab HK Hest) as (HS & HKP & HPS & Hbal & A0 & B0 & _). cbv zeta in *.
  rewrite gamma_from_parameters in Hr. destruct (Req_EM_T a 0); [discriminate|]. destruct (Req_EM_T b 0); [discriminate|].
  destruct (Rlt_dec 0 a); [|lra]. destruct (Rlt_dec 0 b); [|lra]. destruct (Req_EM_T a b) as [->|]; [|discriminate].
  set (P := expected_within _ _ _) in *. set (S := total_strength _ _) in *. assert (Hb1 : b = 1) by (apply Rmult_eq_reg_r with S; lra).
  rewrite Hb1 in Ea. apply (f_equal (fun x => x * P)) in Ea. unfold Rdiv in Ea. rewrite Rmult_assoc, Rinv_l, Rmult_1_r in Ea by lra. lra.
Qed.

Lemma nan_estimate r : snd (gamma_estimate env g (Membership c)) = Ok r ->
  observed_within (vcount g) (combine (edges g) ws) c = expected_within (vcount g) (combine (edges g) ws) c -> r = Some NonFinite.
Proof.
  intros H Heq. destruct (estimate_cases H) as (a & b & Hest & HK & Hlab & Hr).
  destruct (@single_facts g ws c (S (list_max c)) a b Hg Hpos Hlen HK Hest) as (Ht & Hp & Hb & Ea & Eb & _).
  pose proof (observed_split (vcount g) (combine (edges g) ws) c) as So. pose proof (@expected_split (vcount g) (combine (edges g) ws) c ltac:(lra)) as Se.
  rewrite Heq in Ea. assert (a = 1) by (rewrite Ea; field; lra). assert (Eo : observed_between (vcount g) (combine (edges g) ws) c = expected_between (vcount g) (combine (edges g) ws) c) by lra.
  rewrite Eo in Eb. assert (b = 1) by (rewrite Eb; field; lra). subst r. rewrite gamma_from_parameters.
  destruct (Req_EM_T a 0); [lra|]. destruct (Req_EM_T b 0); [lra|]. destruct (Rlt_dec 0 a); [|lra]. destruct (Rlt_dec 0 b); [|lra]. destruct (Req_EM_T a b); [reflexivity|lra].
Qed.
End Estimate.

(** ** The loops of generate_boxplot_results *)
Definition usable (env : est_env) (g : graph) (p : list nat) : Prop :=
  exists r, snd (gamma_estimate env g (Membership p)) = Ok r /\ num_communities p = Ok (S (list_max p)) /\
    ((2 <= S (list_max p) <= 70)%nat -> r <> Some NonFinite /\ forall x, r = Some (Fin x) -> x < 15).

Definition entry env g p := boxplot_entry (snd (gamma_estimate env g (Membership p))) (S (list_max p)).

From Verif Require Import L_prune.
Lemma entry_weighted env g p : wf_graph g -> entry env (weighted_e env g) p = entry env g p.
Proof. intros H. unfold entry. rewrite gamma_estimate_twice by auto. reflexivity. Qed.

Lemma range_test K : Nat.leb 2 K && Nat.ltb K K_MAX = Nat.leb 2 K && Nat.leb K 70.
Proof. reflexivity. Qed.

Lemma parts_ok env : forall parts g results, wf_graph g -> (forall p, In p parts -> usable env g p) ->
  snd (boxplot_parts env g parts results) = Ok (results ++ flat_map (entry env g) parts).
Proof.
  induction parts as [|p l IH]; intros g results Hg H; cbn [boxplot_parts flat_map].
  - cbn [snd]. rewrite app_nil_r. reflexivity.
  - destruct (H p (or_introl eq_refl)) as (r & Hr & Hn & Hx). rewrite Hn. assert (Eg : gamma_estimate env g (Membership p) = (weighted_e env g, Ok r)).
    { rewrite gamma_estimate_graph in * by auto. cbn [snd] in Hr. congruence. }
    rewrite Eg. assert (Hl : forall results', snd (boxplot_parts env (weighted_e env g) l results') = Ok (results' ++ flat_map (entry env g) l)).
    { intros results'. rewrite IH.
      - f_equal. f_equal. clear - Hg. induction l as [|q l IHl]; [reflexivity|]. cbn [flat_map]. rewrite entry_weighted, IHl by auto. reflexivity.
      - apply weighted_e_wf; auto.
      - intros q Hq. destruct (H q (or_intror Hq)) as (r' & H1 & H2). exists r'. rewrite gamma_estimate_twice by auto. auto. }
    unfold entry at 1. rewrite Hr. unfold boxplot_entry. rewrite range_test. destruct r as [[x|]|].
    + destruct (Nat.leb 2 (S (list_max p)) && Nat.leb (S (list_max p)) 70) eqn:T; [|apply Hl].
      apply andb_prop in T. destruct T as [T1 T2]. apply Nat.leb_le in T1, T2. destruct (Hx (conj T1 T2)) as [_ X]. specialize (X x eq_refl). destruct (Rlt_dec x 15); [|lra].
      rewrite Hl, <- app_assoc. reflexivity.
    + destruct (Nat.leb 2 (S (list_max p)) && Nat.leb (S (list_max p)) 70) eqn:T; [|apply Hl].
      exfalso. apply andb_prop in T. destruct T as [T1 T2]. apply Nat.leb_le in T1, T2. destruct (Hx (conj T1 T2)) as [X _]. congruence.
    + apply Hl.
Qed.

(** The first partition that is not usable decides the exception. *)
Lemma parts_raise env : forall parts g results e, wf_graph g -> snd (boxplot_parts env g parts results) = Raise e ->
  exists p, In p parts /\ (num_communities p = Raise e \/ (exists K, num_communities p = Ok K) /\ snd (gamma_estimate env g (Membership p)) = Raise e \/
    e = AssertionError /\ exists K, num_communities p = Ok K /\ (2 <= K <= 70)%nat /\
      (snd (gamma_estimate env g (Membership p)) = Ok (Some NonFinite) \/ exists x, snd (gamma_estimate env g (Membership p)) = Ok (Some (Fin x)) /\ 15 <= x)).
Proof.
  induction parts as [|p l IH]; intros g results e Hg H; cbn [boxplot_parts] in H; [discriminate|].
  assert (Hrest : forall results', snd (boxplot_parts env (weighted_e env g) l results') = Raise e -> exists p0, In p0 (p :: l) /\ (num_communities p0 = Raise e \/ (exists K, num_communities p0 = Ok K) /\ snd (gamma_estimate env g (Membership p0)) = Raise e \/
    e = AssertionError /\ exists K, num_communities p0 = Ok K /\ (2 <= K <= 70)%nat /\
      (snd (gamma_estimate env g (Membership p0)) = Ok (Some NonFinite) \/ exists x, snd (gamma_estimate env g (Membership p0)) = Ok (Some (Fin x)) /\ 15 <= x))).
  { intros results' H'. apply IH in H'; [|apply weighted_e_wf; auto]. destruct H' as (q & Hq & H'). exists q. split; [right; auto|]. rewrite gamma_estimate_twice in H' by auto. exact H'. }
  destruct (num_communities p) as [K|e'] eqn:En; [|exists p; cbn [snd] in H; inversion H; subst; rewrite En; split; [left; auto|auto]].
  destruct (gamma_estimate env g (Membership p)) as [g1 est] eqn:Eg. assert (g1 = weighted_e env g) by (rewrite gamma_estimate_graph in Eg by auto; inversion Eg; auto). subst g1.
  destruct est as [[x|]|e']; [|apply (Hrest _ H)|].
  - destruct (Nat.leb 2 K && Nat.ltb K K_MAX) eqn:T; [|apply (Hrest _ H)]. rewrite range_test in T. apply andb_prop in T. destruct T as [T1 T2]. apply Nat.leb_le in T1, T2.
    destruct x as [x|]; [destruct (Rlt_dec x 15) as [|Nx]; [apply (Hrest _ H)|]|]; cbn [snd] in H; inversion H; subst; exists p; rewrite En, Eg; cbn [snd]; (split; [left; reflexivity|]); right; right; (split; [reflexivity|]); exists K; (split; [reflexivity|]); (split; [lia|]).
    + right. exists x. split; auto. lra.
    + left. auto.
  - cbn [snd] in H. inversion H; subst. exists p. rewrite En, Eg. cbn [snd]. split; [left; auto|]. right. left. eauto.
Qed.

Lemma loop_ok env : forall Gs results, (forall g parts, In (g, parts) Gs -> wf_graph g /\ forall p, In p parts -> usable env g p) ->
  boxplot_loop env Gs results = Ok (results ++ boxplot_entries env Gs).
Proof.
  induction Gs as [|[g parts] l IH]; intros results H; cbn [boxplot_loop]; [unfold boxplot_entries; cbn; rewrite app_nil_r; reflexivity|].
  destruct (H g parts (or_introl eq_refl)) as [Hg Hp]. rewrite parts_ok by auto. cbn [bind]. rewrite IH by (intros g' p' Hin; apply H; right; auto).
  unfold boxplot_entries. cbn [flat_map fst snd]. rewrite app_assoc. reflexivity.
Qed.

Lemma loop_raise env : forall Gs results e, (forall g parts, In (g, parts) Gs -> wf_graph g) -> boxplot_loop env Gs results = Raise e ->
  exists g parts results', In (g, parts) Gs /\ snd (boxplot_parts env g parts results') = Raise e.
Proof.
  induction Gs as [|[g parts] l IH]; intros results e H He; cbn [boxplot_loop] in He; [discriminate|].
  destruct (snd (boxplot_parts env g parts results)) as [r|e'] eqn:E; cbn [bind] in He.
  - destruct (IH r e (fun g' p' Hin => H g' p' (or_intror Hin)) He) as (g' & p' & r' & Hin & G). exists g', p', r'. split; [right; auto|auto].
  - inversion He; subst. exists g, parts, results. split; [left; auto|auto].
Qed.

(** ** find_maximum_gammas *)
Lemma update_nth {A} (l : list A) k (x d : A) : (k < length l)%nat -> exists l', py_update l k (fun _ => x) = Ok l' /\ length l' = length l /\ nth k l' d = x /\ forall i, i <> k -> nth i l' d = nth i l d.
Proof.
  revert k. induction l as [|y l IH]; intros k Hk; [cbn in Hk; lia|]. destruct k as [|k]; cbn [py_update].
  - exists (x :: l). split; auto. split; auto. split; auto. intros [|i] Hi; [congruence|reflexivity].
  - destruct (IH k) as (l' & E & L & N & O); [cbn in Hk; lia|]. rewrite E. cbn [bind]. exists (y :: l'). split; auto. split; [cbn; congruence|]. split; auto.
    intros [|i] Hi; [reflexivity|]. cbn. apply O. congruence.
Qed.

Lemma maximum_loop points (f : nat -> R * R) : forall ks s, (forall k, In k ks -> (k < length (fst s))%nat /\ (k < length (snd s))%nat /\ gamma_maxmean k points = Ok (f k)) ->
  NoDup ks -> exists s', foldM (fun (s : list R * list R) k => let! r := gamma_maxmean k points in let! means := py_update (fst s) k (fun _ => fst r) in let! maxs := py_update (snd s) k (fun _ => snd r) in Ok (means, maxs)) ks s = Ok s' /\
  length (fst s') = length (fst s) /\ length (snd s') = length (snd s) /\
  (forall k, In k ks -> nth k (fst s') 0 = fst (f k) /\ nth k (snd s') 0 = snd (f k)) /\ (forall k, ~ In k ks -> nth k (fst s') 0 = nth k (fst s) 0 /\ nth k (snd s') 0 = nth k (snd s) 0).
Proof.
  induction ks as [|k ks IH]; intros s H Hn; cbn [foldM].
  - exists s. repeat split; auto; contradiction.
  - inversion Hn as [|? ? Hk Hn']; subst. destruct (H k (or_introl eq_refl)) as (L1 & L2 & E). rewrite E. cbn [bind].
    destruct (@update_nth _ (fst s) k (fst (f k)) 0 L1) as (m1 & E1 & M1 & N1 & O1). destruct (@update_nth _ (snd s) k (snd (f k)) 0 L2) as (m2 & E2 & M2 & N2 & O2). rewrite E1. cbn [bind]. rewrite E2. cbn [bind].
    destruct (IH (m1, m2)) as (s' & Es & Q1 & Q2 & Q3 & Q4); auto.
    { intros j Hj. cbn [fst snd]. rewrite M1, M2. apply H. right. auto. }
    exists s'. split; auto. cbn [fst snd] in *. split; [congruence|]. split; [congruence|]. split.
    + intros j [<-|Hj]; [|auto]. destruct (Q4 k Hk) as [-> ->]. auto.
    + intros j Hj. destruct (Q4 j) as [-> ->]; [intros C; apply Hj; right; auto|]. split; [apply O1|apply O2]; intros ->; apply Hj; left; auto.
Qed.
