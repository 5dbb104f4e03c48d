(** Persistence bounds, the multiplex equation, omega. *)
From Coq Require Import Ranalysis Rpower FunctionalExtensionality.
From Verif Require Import PyBase PyGraph M_partition M_champ M_leiden M_estimation_utils M_estimation Spec Spec_graph Spec_sbm Spec_multisbm Spec_check
  L_base L_modularity L_modularity3 L_sbm L_sbm2 L_check L_multisbm.
Set Implicit Arguments.
Open Scope R_scope.

(** ** The multiplex equation *)
Lemma sum_to_S n f : sum_to (S n) f = sum_to n f + f n.
Proof.
  rewrite !sum_to_rsum. rewrite seq_S, map_app, rsum_app. cbn [map]. rewrite rsum_cons, rsum_nil. cbn. lra.
Qed.

Lemma arithmetic_sum a n : sum_to n (fun i => a - INR (S i)) = INR n * a - INR n * (INR n + 1) / 2.
Proof.
  induction n as [|n IH]; [unfold sum_to; cbn; lra|]. rewrite sum_to_S, IH, !S_INR. field.
Qed.

Definition mq (T : nat) (x : R) : R := sum_to (T - 1) (fun i => (INR T - INR (S i)) * x ^ S i).

Lemma mq_one T : (1 < T)%nat -> mq T 1 = INR T * (INR T - 1) / 2.
Proof.
  intros HT. unfold mq. transitivity (sum_to (T - 1) (fun i => INR T - INR (S i))).
  - apply sum_to_ext. intros i _. rewrite pow1. ring.
  - rewrite arithmetic_sum. rewrite minus_INR by lia. simpl (INR 1). field.
Qed.

Lemma mq_zero T : mq T 0 = 0.
Proof. unfold mq. apply sum_to_0. intros i _. cbn. ring. Qed.

Lemma pow_le_mono x y n : 0 <= x <= y -> x ^ n <= y ^ n.
Proof. intros H. apply pow_incr. auto. Qed.

Lemma mq_strict T x y : (1 < T)%nat -> 0 <= x < y -> mq T x < mq T y.
Proof.
  intros HT [Hx Hy]. unfold mq. apply Rminus_gt_0_lt. rewrite <- sum_to_minus.
  apply (@sum_to_pos (T - 1) _ 0%nat); [lia| |].
  - intros k Hk. assert (INR (S k) <= INR T) by (apply le_INR; lia). assert (x ^ S k <= y ^ S k) by (apply pow_le_mono; lra).
    assert (0 <= (INR T - INR (S k)) * (y ^ S k - x ^ S k)) by (apply Rmult_le_pos; lra). lra.
  - assert (1 < INR T) by (change 1 with (INR 1); apply lt_INR; auto).
    assert (0 < (INR T - 1) * (y - x)) by (apply Rmult_lt_0_compat; lra). cbn [pow]. change (INR 1) with 1. lra.
Qed.

Section Equation.
Variables K T : nat.
Hypothesis HK : (1 < K)%nat.
Hypothesis HT : (1 < T)%nat.

Lemma K_pos : 1 < INR K.
Proof. change 1 with (INR 1). apply lt_INR. auto. Qed.
Lemma T_pos : 1 < INR T.
Proof. change 1 with (INR 1). apply lt_INR. auto. Qed.
Lemma inv_K : 0 < 1 / INR K < 1.
Proof.
  pose proof K_pos. split; [apply Rdiv_lt_0_compat; lra|]. apply (Rmult_lt_reg_r (INR K)); [lra|]. unfold Rdiv. rewrite Rmult_assoc, Rinv_l by lra. lra.
Qed.
Definition mcoef : R := 2 * (1 - 1 / INR K) / (INR T * (INR T - 1)).
Lemma mcoef_pos : 0 < mcoef.
Proof.
  pose proof K_pos. pose proof T_pos. pose proof inv_K. unfold mcoef. apply Rdiv_lt_0_compat; [lra|]. apply Rmult_lt_0_compat; lra.
Qed.
Lemma mp_eq x : multiplex_persistence K T x = mcoef * mq T x + 1 / INR K.
Proof. reflexivity. Qed.
Lemma mp_zero : multiplex_persistence K T 0 = 1 / INR K.
Proof. rewrite mp_eq, mq_zero. ring. Qed.
Lemma mp_one : multiplex_persistence K T 1 = 1.
Proof.
  rewrite mp_eq, mq_one by auto. unfold mcoef. pose proof K_pos. pose proof T_pos. field. lra.
Qed.
Lemma mp_strict x y : 0 <= x < y -> multiplex_persistence K T x < multiplex_persistence K T y.
Proof.
  intros H. rewrite !mp_eq. pose proof (@mq_strict T x y HT H). pose proof mcoef_pos.
  assert (mcoef * mq T x < mcoef * mq T y) by (apply Rmult_lt_compat_l; auto). lra.
Qed.
Lemma mp_inj x y : 0 <= x -> 0 <= y -> multiplex_persistence K T x = multiplex_persistence K T y -> x = y.
Proof.
  intros Hx Hy E. destruct (Rtotal_order x y) as [L|[L|L]]; auto; exfalso.
  - assert (multiplex_persistence K T x < multiplex_persistence K T y) by (apply mp_strict; lra). lra.
  - assert (multiplex_persistence K T y < multiplex_persistence K T x) by (apply mp_strict; lra). lra.
Qed.

Lemma continuity_sum n (f : nat -> R -> R) : (forall i, continuity (f i)) -> continuity (fun x => sum_to n (fun i => f i x)).
Proof.
  intros H. induction n as [|n IH].
  - apply (continuity_const). intros x y. reflexivity.
  - replace (fun x => sum_to (S n) (fun i => f i x)) with (fun x => sum_to n (fun i => f i x) + f n x) by (apply functional_extensionality; intros y; symmetry; apply (@sum_to_S n (fun i => f i y))).
    intros x. apply (@continuity_pt_plus (fun x => sum_to n (fun i => f i x)) (f n) x (IH x) (H n x)).
Qed.

Lemma pow_continuity n : continuity (fun x => x ^ n).
Proof. intros x. apply derivable_continuous_pt. apply derivable_pt_pow. Qed.

Lemma mp_continuity pers : continuity (fun x => multiplex_persistence K T x - pers).
Proof.
  intros x. unfold multiplex_persistence.
  apply (@continuity_pt_minus (fun x => 2 * (1 - 1 / INR K) / (INR T * (INR T - 1)) * sum_to (T - 1) (fun i => (INR T - INR (S i)) * x ^ S i) + 1 / INR K) (fun _ => pers)).
  - apply (@continuity_pt_plus (fun x => 2 * (1 - 1 / INR K) / (INR T * (INR T - 1)) * sum_to (T - 1) (fun i => (INR T - INR (S i)) * x ^ S i)) (fun _ => 1 / INR K)).
    + apply (@continuity_pt_scal (fun x => sum_to (T - 1) (fun i => (INR T - INR (S i)) * x ^ S i))).
      apply (@continuity_sum (T - 1) (fun i x => (INR T - INR (S i)) * x ^ S i)). intros i. apply (@continuity_scal (fun x => x ^ S i)). apply pow_continuity.
    + apply continuity_pt_const. intros a b. reflexivity.
  - apply continuity_pt_const. intros a b. reflexivity.
Qed.

Lemma mp_root pers : 1 / INR K <= pers < 1 -> exists x, 0 <= x < 1 /\ multiplex_persistence K T x = pers.
Proof.
  intros H. destruct (@IVT_cor (fun x => multiplex_persistence K T x - pers) 0 1 (mp_continuity pers)) as (x & Hx & E); [lra| |].
  - rewrite mp_zero, mp_one. assert (0 <= (pers - 1 / INR K) * (1 - pers)) by (apply Rmult_le_pos; lra). lra.
  - exists x. split; [|lra]. split; [lra|]. destruct (Req_EM_T x 1) as [->|N]; [rewrite mp_one in E; lra|lra].
Qed.
End Equation.

(** ** The copying probability *)
Lemma copying_probability_bounds fs model K T pers p : (1 < T)%nat -> is_copying_probability fs model K T pers p ->
  (model = "multiplex"%string -> pers < 1 -> (1 < K)%nat -> multiplex_persistence K T (fs (fun x => multiplex_persistence K T x - pers) (1 / 2)) = pers) ->
  0 <= p <= 1.
Proof.
  intros HT [(A & ->)|[(A & B & C & ->)|(A & B & C & ->)]] Hroot; [lra| |].
  - specialize (Hroot C A B). split; [apply Rmax_l|]. apply Rmax_lub; [lra|]. set (r := fs _ _) in *.
    destruct (Rle_dec r 1); auto. exfalso. assert (multiplex_persistence K T 1 < multiplex_persistence K T r) by (apply mp_strict; auto; lra).
    rewrite mp_one in H by auto. lra.
  - split; [apply Rmax_l|]. apply Rmax_lub; [lra|]. assert (1 < INR K) by (change 1 with (INR 1); apply lt_INR; auto).
    apply (Rmult_le_reg_r (INR K - 1)); [lra|]. unfold Rdiv. rewrite Rmult_assoc, Rinv_l by lra.
    assert (INR K * pers < INR K * 1) by (apply Rmult_lt_compat_l; lra). lra.
Qed.

(** ** Persistence bounds *)
Lemma kept_le gi c : (kept gi c <= length (edges gi))%nat.
Proof. unfold kept. induction (edges gi) as [|e E IH]; cbn; auto. destruct (keeps_label c e); cbn; lia. Qed.

Lemma kept_all gi c : (forall u v, In (u, v) (edges gi) -> nth u c 0%nat = nth v c 0%nat) -> kept gi c = length (edges gi).
Proof.
  unfold kept. induction (edges gi) as [|[u v] E IH]; intros H; cbn [filter]; auto. unfold keeps_label at 1. cbn [fst snd].
  rewrite (H u v) by (left; auto). rewrite Nat.eqb_refl. cbn [length]. rewrite IH; auto. intros; apply H; right; auto.
Qed.

(** Edges into a layer: at most one per vertex. *)
Lemma into_le (E : list (nat * nat)) lv n t : length lv = n -> (forall u v, In (u, v) E -> (v < n)%nat) ->
  (forall v, (v < n)%nat -> (count_occ Nat.eq_dec (map snd E) v <= 1)%nat) ->
  (length (filter (fun e => Nat.eqb (nth (snd e) lv 0%nat) t) E) <= nodes_in lv t)%nat.
Proof.
  intros Hlv Hr Hone.
  set (F := filter (fun e => Nat.eqb (nth (snd e) lv 0%nat) t) E).
  set (V := filter (fun v => Nat.eqb (nth v lv 0%nat) t) (seq 0 n)).
  assert (HV : length V = nodes_in lv t).
  { unfold V, nodes_in. rewrite <- Hlv. clear. assert (G : forall l s, length (filter (fun v => Nat.eqb (nth (v - s) l 0%nat) t) (seq s (length l))) = count_occ Nat.eq_dec l t).
    { induction l as [|a l IH]; intros s; auto. cbn [length seq filter count_occ]. rewrite Nat.sub_diag. change (nth 0 (a :: l) 0%nat) with a.
      assert (E : filter (fun v => Nat.eqb (nth (v - s) (a :: l) 0%nat) t) (seq (S s) (length l)) = filter (fun v => Nat.eqb (nth (v - S s) l 0%nat) t) (seq (S s) (length l))).
      { apply filter_ext_in. intros v Hv. apply in_seq in Hv. replace (v - s)%nat with (S (v - S s))%nat by lia. reflexivity. }
      rewrite E. destruct (Nat.eqb_spec a t), (Nat.eq_dec a t); try congruence; cbn [length]; rewrite IH; auto. }
    rewrite <- (G lv 0%nat). f_equal. apply filter_ext. intros v. rewrite Nat.sub_0_r. auto. }
  rewrite <- HV, <- (map_length snd F). apply NoDup_incl_length.
  - assert (N : NoDup (map snd E)).
    { apply (NoDup_count_occ Nat.eq_dec). intros v. destruct (Nat.lt_ge_cases v n) as [Hv|Hv]; [auto|].
      assert (count_occ Nat.eq_dec (map snd E) v = 0%nat); [|lia]. apply count_occ_not_In. intros Hin. apply in_map_iff in Hin. destruct Hin as ([a b] & <- & Hab). cbn in *. specialize (Hr a b Hab). lia. }
    unfold F. clear - N. induction E as [|e E IH]; cbn; [constructor|]. inversion N; subst. destruct (Nat.eqb _ t); cbn; auto. constructor; auto.
    intros Hin. apply H1. apply in_map_iff in Hin. destruct Hin as (x & Hx & Hin). apply filter_In in Hin. apply in_map_iff. exists x. tauto.
  - intros v Hv. apply in_map_iff in Hv. destruct Hv as ([a b] & <- & Hin). apply filter_In in Hin. destruct Hin as [Hin Ht]. cbn [snd] in *.
    apply filter_In. split; [|auto]. apply in_seq. specialize (Hr a b Hin). lia.
Qed.

Lemma kept_into_le gi lv c t : wf_graph gi -> length lv = vcount gi -> directed gi = true -> (forall v, (v < vcount gi)%nat -> (arriving gi v <= 1)%nat) ->
  (kept_into gi lv c t <= nodes_in lv t)%nat.
Proof.
  intros [Hwf _] Hlv Hd Hone. unfold kept_into.
  assert (A : (length (filter (fun e => keeps_label c e && Nat.eqb (nth (snd e) lv 0%nat) t) (edges gi)) <= length (filter (fun e => Nat.eqb (nth (snd e) lv 0%nat) t) (edges gi)))%nat).
  { clear. induction (edges gi) as [|e E IH]; auto. cbn [filter]. destruct (keeps_label c e), (Nat.eqb (nth (snd e) lv 0%nat) t); cbn [andb length]; lia. }
  pose proof (@into_le (edges gi) lv (vcount gi) t Hlv) as B.
  specialize (B ltac:(intros u v H; apply (Hwf u v H))). eapply Nat.le_trans; [exact A|]. apply B.
  intros v Hv. specialize (Hone v Hv). unfold arriving in Hone. rewrite Hd in Hone. lia.
Qed.

(** ** Omega *)
Definition coupling (p : R) (K : nat) : R := ln (1 + p * INR K / (1 - p)).

Lemma coupling_arg p K : (1 <= K)%nat -> 0 < p < 1 -> 0 < p * INR K / (1 - p).
Proof.
  intros HK Hp. assert (1 <= INR K) by (change 1 with (INR 1); apply le_INR; auto). apply Rdiv_lt_0_compat; [|lra]. apply Rmult_lt_0_compat; lra.
Qed.
Lemma coupling_pos p K : (1 <= K)%nat -> 0 < p < 1 -> 0 < coupling p K.
Proof.
  intros HK Hp. pose proof (@coupling_arg p K HK Hp). unfold coupling. rewrite <- ln_1. apply ln_increasing; lra.
Qed.
Lemma coupling_mono p q K : (1 <= K)%nat -> 0 < p -> p < q -> q < 1 -> coupling p K < coupling q K.
Proof.
  intros HK Hp Hpq Hq. assert (1 <= INR K) by (change 1 with (INR 1); apply le_INR; auto).
  pose proof (@coupling_arg p K HK ltac:(lra)). pose proof (@coupling_arg q K HK ltac:(lra)). unfold coupling. apply ln_increasing; [lra|].
  assert (p * INR K / (1 - p) < q * INR K / (1 - q)); [|lra].
  apply (Rmult_lt_reg_r ((1 - p) * (1 - q))); [apply Rmult_lt_0_compat; lra|].
  replace (p * INR K / (1 - p) * ((1 - p) * (1 - q))) with (p * INR K * (1 - q)) by (field; lra).
  replace (q * INR K / (1 - q) * ((1 - p) * (1 - q))) with (q * INR K * (1 - p)) by (field; lra).
  assert (p * INR K < q * INR K) by (apply Rmult_lt_compat_r; lra). ring_simplify. lra.
Qed.
Lemma coupling_unbounded K B : (1 <= K)%nat -> exists p, 0 < p < 1 /\ B < coupling p K.
Proof.
  intros HK. assert (1 <= INR K) by (change 1 with (INR 1); apply le_INR; auto). pose proof (exp_pos B) as HM. set (M := exp B) in *.
  exists (M / (M + 1)). assert (Q : M / (M + 1) < 1). { apply (Rmult_lt_reg_r (M + 1)); [lra|]. unfold Rdiv. rewrite Rmult_assoc, Rinv_l by lra. lra. }
  split; [split; auto; apply Rdiv_lt_0_compat; lra|]. unfold coupling. rewrite <- (ln_exp B). fold M. apply ln_increasing; auto.
  replace (M / (M + 1) * INR K / (1 - M / (M + 1))) with (M * INR K) by (field; lra).
  assert (M * 1 <= M * INR K) by (apply Rmult_le_compat_l; lra). lra.
Qed.

Lemma coupling_log_ok p K : (1 <= K)%nat -> 0 < p < 1 -> coupling_log p K = Ok (coupling p K).
Proof.
  intros HK Hp. unfold coupling_log, py_div. destruct (Req_EM_T (1 - p) 0); [lra|]. cbn [bind]. unfold py_log.
  pose proof (@coupling_arg p K HK Hp). destruct (Rlt_dec 0 _); [reflexivity|lra].
Qed.
Lemma py_log_ok x : 0 < x -> py_log x = Ok (ln x).
Proof. intros H. unfold py_log. destruct (Rlt_dec 0 x); [auto|lra]. Qed.
Lemma py_log_fail x : x <= 0 -> py_log x = Raise ValueError.
Proof. intros H. unfold py_log. destruct (Rlt_dec 0 x); [lra|auto]. Qed.
