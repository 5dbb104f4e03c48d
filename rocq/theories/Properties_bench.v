(** C119, C120: the benchmark loop and the parallel performance tests. *)
From Coq Require Import String Lia.
From Verif Require Import PyBase PyGraph M_partition M_champ M_leiden M_estimation_utils M_checks M_sbmtests M_bench Spec_bench L_bench.
From Flocq Require Import Core.
Open Scope list_scope.
Open Scope R_scope.

(** ** C119: the benchmark grows the number of iterations by a half each round (rounded down), keeps our time of every round up to the first that reaches the
    timeout, and CHAMP's until CHAMP reaches it. *)
Theorem C119_benchmark : forall our_time champ_time timeout start fuel xs ys1 ys2,
  simple_benchmark our_time champ_time timeout start fuel = Some (xs, ys1, ys2) ->
  (timeout <= 0 /\ xs = [] /\ ys1 = [] /\ ys2 = []) \/
  exists last, (last < fuel)%nat /\ xs = map (grown start) (seq 0 (S last)) /\
    ys1 = map (fun i => our_time i (grown start i)) (seq 0 (S last)) /\
    (forall i, (i < last)%nat -> our_time i (grown start i) < timeout) /\ timeout <= our_time last (grown start last) /\
    measured_until timeout (fun i => champ_time i (grown start i)) (S last) ys2.
Proof.
  intros ours champs T x0 fuel xs ys1 ys2 H.
  destruct (loop_out ours champs T x0 fuel 0 0 (xs, ys1, ys2)) as (m & k & B & (C1 & C2 & C3) & L & E & Q).
  - split; [lia|]. split; intros; lia.
  - intros i Hi. lia.
  - exact H.
  - injection Q as -> -> ->. destruct m as [|last].
    + left. split; [exact E|]. assert (k = 0%nat) by lia. subst k. repeat split; reflexivity.
    + right. exists last. split; [lia|]. split; [reflexivity|]. split; [reflexivity|]. split; [intros i Hi; apply (L (S i)); lia|]. split; [exact E|].
      exists k. split; [exact C1|]. split; [reflexivity|]. split; [exact C2|]. intros Hk. specialize (C3 Hk). destruct k as [|j]; [|exists j; split; [reflexivity|exact C3]].
      exfalso. specialize (L 0%nat ltac:(lia)). cbn [last_of] in L, C3. lra.
Qed.
Print Assumptions C119_benchmark.

(** It ends if the starting number is at least 2 and enough iterations take long enough; the answer does not depend on when one stops looking. *)
Theorem C119_ends : forall our_time champ_time timeout start enough fuel, (2 <= start)%nat ->
  (forall i n, (enough <= n)%nat -> timeout <= our_time i n) -> (enough < fuel)%nat ->
  exists out, simple_benchmark our_time champ_time timeout start fuel = Some out.
Proof.
  intros ours champs T x0 N fuel Hs H Hf. apply (loop_ends ours champs T x0 fuel 0 0 (S N)).
  - split; [lia|]. split; intros; lia.
  - lia.
  - cbn [last_of]. apply H. pose proof (grown_bound x0 N Hs). lia.
Qed.
Print Assumptions C119_ends.

(** From 0 or 1 iterations the number never grows: if that many never take long enough, it runs forever. *)
Theorem C119_never_ends : forall our_time champ_time timeout start, (start <= 1)%nat -> 0 < timeout -> (forall i, our_time i start < timeout) ->
  forall fuel, simple_benchmark our_time champ_time timeout start fuel = None.
Proof.
  intros ours champs T x0 Hs HT H fuel. destruct (simple_benchmark ours champs T x0 fuel) as [[[xs ys1] ys2]|] eqn:E; [|reflexivity]. exfalso.
  apply C119_benchmark in E as [[X _]|(last & _ & _ & _ & _ & X & _)]; [lra|]. rewrite (grown_small x0 last Hs) in X. specialize (H last). lra.
Qed.
Print Assumptions C119_never_ends.

(** As called, from 100 iterations and with 60 seconds: if n iterations take n/10 seconds here and n seconds in CHAMP, there are six rounds here and one there. *)
Example C119_example : exists xs ys1 ys2, simple_benchmark (fun _ n => INR n / 10) (fun _ n => INR n) 60 100 1000 = Some (xs, ys1, ys2) /\
  xs = [100; 150; 225; 337; 505; 757]%nat /\ ys2 = [INR 100].
Proof.
  destruct (C119_ends (fun _ n => INR n / 10) (fun _ n => INR n) 60 100 600 1000) as ([[xs ys1] ys2] & E).
  - apply Nat.leb_le. vm_compute. reflexivity.
  - intros i n Hn. apply le_INR in Hn. replace (INR 600) with 600 in Hn by (rewrite INR_IZR_INZ; reflexivity). lra.
  - apply Nat.ltb_lt. vm_compute. reflexivity.
  - exists xs, ys1, ys2. split; [exact E|]. apply C119_benchmark in E as [[X _]|(last & _ & -> & _ & L & G & (k & K1 & -> & K2 & K3))]; [lra|].
    assert (Q : last = 5%nat).
    { destruct (lt_eq_lt_dec last 5) as [[Hl|Hl]|Hl]; [exfalso|exact Hl|exfalso].
      - assert (B : (grown 100 last <= 505)%nat). { assert (last = 0 \/ last = 1 \/ last = 2 \/ last = 3 \/ last = 4)%nat as [-> | [-> | [-> | [-> | ->]]]] by lia; apply Nat.leb_le; vm_compute; reflexivity. }
        apply le_INR in B. replace (INR 505) with 505 in B by (rewrite INR_IZR_INZ; reflexivity). lra.
      - specialize (L 5%nat Hl). change (grown 100 5) with 757%nat in L. replace (INR 757) with 757 in L by (rewrite INR_IZR_INZ; reflexivity). lra. }
    subst last. split; [reflexivity|].
    assert (k = 1)%nat; [|subst k; reflexivity]. destruct k as [|[|k]]; [|reflexivity|].
    + destruct K3 as (j & J & _); [lia|discriminate].
    + exfalso. specialize (K2 0%nat ltac:(lia)). cbn [grown] in K2. replace (INR 100) with 100 in K2 by (rewrite INR_IZR_INZ; reflexivity). lra.
Qed.

(** ** C120: the performance tests.  If a serial run takes [t], a mock calculation [tau], and the pool does them [s] and [s0] times as fast, the measured value is
    s / s0, whatever the number of processors and the sizes of the grids; the pool gets parameters over the same range. *)
Record scales_single (env : perf_env) (gammas : list R) (t tau s s0 : R) : Prop := mkScales {
  ss_cpus : (1 <= pe_cpus env)%nat;
  ss_positive : 0 < t /\ 0 < tau /\ 0 < s /\ 0 < s0;
  ss_mock : forall n, pe_mock env n = INR n * tau;
  ss_mock_pool : forall n, pe_mock_pool env n = INR n * tau / s0;
  ss_serial : pe_serial env gammas = INR (length gammas) * t;
  ss_pool : forall l, same_range gammas l -> pe_pool env l = INR (length l) * t / s
}.
Record scales_multi (env : perf_env) (gammas omegas : list R) (t tau s s0 : R) : Prop := mkScalesM {
  sm_cpus : (1 <= pe_cpus env)%nat;
  sm_positive : 0 < t /\ 0 < tau /\ 0 < s /\ 0 < s0;
  sm_mock : forall n, pe_mock env n = INR n * tau;
  sm_mock_pool : forall n, pe_mock_pool env n = INR n * tau / s0;
  sm_serial : pe_serial_multilayer env gammas omegas = INR (length gammas) * INR (length omegas) * t;
  sm_pool : forall l l', same_range gammas l -> same_range omegas l' -> pe_pool_multilayer env l l' = INR (length l) * INR (length l') * t / s
}.

Lemma py_div_ok a b : b <> 0 -> py_div a b = Ok (a / b).
Proof. intros H. unfold py_div. destruct (Req_EM_T b 0); [contradiction|reflexivity]. Qed.
Lemma target_is env tau s0 n : (1 <= pe_cpus env)%nat -> (1 <= n)%nat -> 0 < tau -> 0 < s0 -> (forall n, pe_mock env n = INR n * tau) -> (forall n, pe_mock_pool env n = INR n * tau / s0) ->
  target_speedup env n = Ok s0.
Proof.
  intros Hc Hn Ht Hs M P. unfold target_speedup. rewrite M, P. assert (0 < INR n) by (apply lt_0_INR; lia). assert (0 < INR (n * pe_cpus env)) by (apply lt_0_INR; nia).
  rewrite py_div_ok by lra. cbn [bind]. rewrite py_div_ok.
  - f_equal. field. repeat split; lra.
  - apply Rgt_not_eq. apply Rdiv_lt_0_compat; [apply Rmult_lt_0_compat; assumption|exact Hs].
Qed.
Lemma spread_range l n : l <> [] -> (1 <= n)%nat -> (n = 1%nat -> length l = 1%nat) -> exists a b, py_minR l = Ok a /\ py_maxR l = Ok b /\ same_range l (linspace a b n).
Proof.
  intros Hl Hn H1. destruct (py_min_least l Hl) as (a & Ea & La). destruct (py_max_greatest l Hl) as (b & Eb & Gb). exists a, b. split; [exact Ea|]. split; [exact Eb|].
  destruct (linspace_range a b n) as [X Y]; [eapply least_le; eassumption|exact Hn|intros E; eapply single_range; eauto|]. exists a, b. auto.
Qed.

Theorem C120_singlelayer : forall env gammas t tau s s0, scales_single env gammas t tau s s0 -> gammas <> [] -> singlelayer_parallelization env gammas = Ok (s / s0).
Proof.
  intros env gammas t tau s s0 [Hc (Pt & Ptau & Ps & Ps0) M MP S P] Hg. unfold singlelayer_parallelization. rewrite (target_is env tau s0) by (auto; lia). cbn [bind].
  assert (LG : (1 <= length gammas)%nat) by (destruct gammas; [contradiction|cbn [length]; lia]).
  destruct (spread_range gammas (length gammas * pe_cpus env)) as (a & b & Ea & Eb & Rg); [exact Hg|nia|intros; nia|]. rewrite Ea, Eb. cbn [bind]. rewrite linspace_length, S, (P _ Rg), linspace_length.
  assert (0 < INR (length gammas)) by (apply lt_0_INR; lia). assert (0 < INR (length gammas * pe_cpus env)) by (apply lt_0_INR; nia).
  rewrite py_div_ok by lra. cbn [bind]. rewrite py_div_ok.
  - cbn [bind]. rewrite py_div_ok by lra. f_equal. field. repeat split; lra.
  - apply Rgt_not_eq. apply Rdiv_lt_0_compat; [apply Rmult_lt_0_compat; assumption|exact Ps].
Qed.
Print Assumptions C120_singlelayer.

Lemma scaled_at_least env n : (1 <= pe_cpus env)%nat -> (n <= scaled_length env n)%nat.
Proof.
  intros H. unfold scaled_length. apply Nat2Z.inj_le. assert (1 <= sqrt (INR (pe_cpus env))).
  { rewrite <- sqrt_1. apply sqrt_le_1_alt. change 1 with (INR 1). apply le_INR. exact H. }
  assert (Q : (Z.of_nat n <= Zfloor (INR n * sqrt (INR (pe_cpus env))))%Z).
  { apply Zfloor_lub. rewrite <- INR_IZR_INZ. pose proof (pos_INR n). nra. }
  rewrite Z2Nat.id; lia.
Qed.

Theorem C120_multilayer : forall env gammas omegas t tau s s0, scales_multi env gammas omegas t tau s s0 -> gammas <> [] -> omegas <> [] ->
  multilayer_parallelization env gammas omegas = Ok (s / s0).
Proof.
  intros env gammas omegas t tau s s0 [Hc (Pt & Ptau & Ps & Ps0) M MP S P] Hg Ho. unfold multilayer_parallelization. rewrite (target_is env tau s0) by (auto; lia). cbn [bind].
  assert (LG : (1 <= length gammas)%nat) by (destruct gammas; [contradiction|cbn [length]; lia]). assert (LO : (1 <= length omegas)%nat) by (destruct omegas; [contradiction|cbn [length]; lia]).
  pose proof (scaled_at_least env (length gammas) Hc) as SG. pose proof (scaled_at_least env (length omegas) Hc) as SO.
  destruct (spread_range gammas (scaled_length env (length gammas))) as (a & b & Ea & Eb & Rg); [exact Hg|lia|lia|]. rewrite Ea, Eb. cbn [bind].
  destruct (spread_range omegas (scaled_length env (length omegas))) as (c & d & Ec & Ed & Ro); [exact Ho|lia|lia|]. rewrite Ec, Ed. cbn [bind].
  rewrite !linspace_length, S, (P _ _ Rg Ro), !linspace_length. set (u := scaled_length env (length gammas)) in *. set (v := scaled_length env (length omegas)) in *. clearbody u v.
  assert (0 < INR (length gammas)) by (apply lt_0_INR; lia). assert (0 < INR (length omegas)) by (apply lt_0_INR; lia). assert (0 < INR u) by (apply lt_0_INR; lia). assert (0 < INR v) by (apply lt_0_INR; lia).
  rewrite py_div_ok by lra. cbn [bind]. rewrite py_div_ok by lra. cbn [bind]. rewrite py_div_ok.
  - cbn [bind]. rewrite py_div_ok by lra. f_equal. rewrite mult_INR. field. repeat split; lra.
  - apply Rgt_not_eq. apply Rdiv_lt_0_compat; [repeat apply Rmult_lt_0_compat; assumption|exact Ps].
Qed.
Print Assumptions C120_multilayer.

(** Each test passes exactly when the value exceeds 3/4, or 1/2 on a machine that is busy for more than 20 percent. *)
Definition required_share (env : perf_env) (r : R) : Prop := (20 < pe_utilization env /\ r = 1 / 2) \/ (pe_utilization env <= 20 /\ r = 3 / 4).
Lemma assertion_iff env x r : required_share env r -> performance_assertion env (Ok x) = Ok tt <-> r < x.
Proof.
  intros H. unfold performance_assertion, performance_target. cbn [bind]. destruct H as [[U ->]|[U ->]].
  - rewrite (proj2 (Rltb_true _ _) U). destruct (Rltb (1 / 2) x) eqn:E; [apply Rltb_true in E|apply Rltb_false in E]; split; intros; try discriminate; auto; lra.
  - rewrite (proj2 (Rltb_false _ _) U). destruct (Rltb (3 / 4) x) eqn:E; [apply Rltb_true in E|apply Rltb_false in E]; split; intros; try discriminate; auto; lra.
Qed.
Lemma linspace_ne a b n : (1 <= n)%nat -> linspace a b n <> [].
Proof. intros H E. apply (f_equal (@length R)) in E. rewrite linspace_length in E. cbn [length] in E. lia. Qed.

Theorem C120_passes_singlelayer : forall env t tau s s0 r, required_share env r ->
  (scales_single env (linspace 0 4 25000) t tau s s0 -> test_tiny_singlelayer_graph_many_runs env = Ok tt <-> r < s / s0) /\
  (scales_single env (linspace 0 2 50) t tau s s0 -> test_larger_singlelayer_graph_few_runs env = Ok tt <-> r < s / s0).
Proof.
  intros env t tau s s0 r Hr. split; intros H; unfold test_tiny_singlelayer_graph_many_runs, test_larger_singlelayer_graph_few_runs, test_singlelayer.
  - assert (E : (25 * 1000)%nat = 25000%nat) by (apply Nat.eqb_eq; vm_compute; reflexivity). rewrite E, (C120_singlelayer env _ t tau s s0 H); [apply assertion_iff; exact Hr|].
    apply linspace_ne. apply Nat.leb_le. vm_compute. reflexivity.
  - rewrite (C120_singlelayer env _ t tau s s0 H); [apply assertion_iff; exact Hr|]. apply linspace_ne. lia.
Qed.
Print Assumptions C120_passes_singlelayer.
Theorem C120_passes_multilayer : forall env t tau s s0 r, required_share env r ->
  (scales_multi env (linspace 0 2 100) (linspace 0 2 100) t tau s s0 -> test_tiny_multilayer_graph_many_runs env = Ok tt <-> r < s / s0) /\
  (scales_multi env (linspace 0 2 7) (linspace 0 2 7) t tau s s0 -> test_larger_multilayer_graph_few_runs env = Ok tt <-> r < s / s0).
Proof.
  intros env t tau s s0 r Hr. split; intros H; unfold test_tiny_multilayer_graph_many_runs, test_larger_multilayer_graph_few_runs, test_multilayer;
    rewrite (C120_multilayer env _ _ t tau s s0 H); try (apply assertion_iff; exact Hr); apply linspace_ne; lia.
Qed.
Print Assumptions C120_passes_multilayer.

(** Eight processors on which mock calculations run 7 times and Leiden 6 times as fast: the value is 6/7, and the test passes. *)
Example C120_example : exists env, scales_single env (linspace 0 2 50) 2 1 6 7 /\ scales_multi env (linspace 0 2 7) (linspace 0 2 7) 2 1 6 7 /\ required_share env (3 / 4) /\
  test_larger_singlelayer_graph_few_runs env = Ok tt /\ test_larger_multilayer_graph_few_runs env = Ok tt.
Proof.
  set (env := mkPerf 8 5 (fun n => INR n * 1) (fun n => INR n * 1 / 7) (fun l => INR (length l) * 2) (fun l => INR (length l) * 2 / 6)
    (fun l l' => INR (length l) * INR (length l') * 2) (fun l l' => INR (length l) * INR (length l') * 2 / 6)). exists env.
  assert (S : scales_single env (linspace 0 2 50) 2 1 6 7) by (constructor; try reflexivity; [cbn; lia|lra]).
  assert (M : scales_multi env (linspace 0 2 7) (linspace 0 2 7) 2 1 6 7) by (constructor; try reflexivity; [cbn; lia|lra]).
  assert (Q : required_share env (3 / 4)) by (right; split; [cbn; lra|reflexivity]).
  split; [exact S|]. split; [exact M|]. split; [exact Q|].
  split; [apply (proj2 (C120_passes_singlelayer env 2 1 6 7 (3 / 4) Q) S)|apply (proj2 (C120_passes_multilayer env 2 1 6 7 (3 / 4) Q) M)]; lra.
Qed.
