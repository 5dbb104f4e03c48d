(** Double precision: the whole multilayer SBM estimate. *)
From Verif Require Import PyBase PyGraph M_partition M_champ M_leiden M_estimation_utils M_float M_multifloat Spec Spec_graph Spec_leiden Spec_sbm Spec_float Spec_check
  Spec_multifloat Spec_multisbm L_base L_canon L_modularity L_parallel L_progress L_leiden L_sbm L_sbm2 L_split L_logmean L_limits L_float L_float2 L_float3 L_float4 L_float5 L_multisbm L_copying L_accepted L_omega L_multifloat L_multifloat2.
From Flocq Require Import Core.Raux Core.Defs Core.Generic_fmt Core.FLT Core.Round_NE Core.Zaux Core.Float_prop Core.Ulp.
Set Implicit Arguments.
Open Scope R_scope.

Lemma weight_in_cnt lv t : forall es, weight_in (combine es (repeat 1 (length es))) lv t = INR (cnt lv es t).
Proof.
  induction es as [|[u v] es IH]; [reflexivity|]. cbn [length repeat combine]. rewrite cnt_cons, plus_INR, <- IH. unfold weight_in, layer_edges, e_layer. cbn [filter fst].
  destruct (Nat.eqb _ t); cbn [map fold_right snd b2n INR]; lra.
Qed.

Lemma fl_addS k : (Z.of_nat k + 1 <= 2 ^ 53)%Z -> fl_add (INR k) 1 = INR (S k).
Proof. intros H. unfold fl_add. rewrite <- S_INR. apply b64_INR. lia. Qed.
Lemma R_addS k : (Z.of_nat k + 1 <= 2 ^ 53)%Z -> INR k + 1 = INR (S k).
Proof. intros _. rewrite S_INR. reflexivity. Qed.

Lemma psum_squares psum ks : python_sum psum -> (Z.of_nat (squares ks) <= 2 ^ 53)%Z -> psum (map (fun x => binary64 (x ^ 2)) (map INR ks)) = INR (squares ks).
Proof.
  intros Hps Hz. rewrite map_map.
  assert (G : forall l, (Z.of_nat (squares l) <= 2 ^ 53)%Z -> map (fun x => binary64 (INR x ^ 2)) l = map INR (map (fun k => (k * k)%nat) l)).
  { induction l as [|k l IH]; intros H; auto. rewrite squares_cons in H. cbn [map]. rewrite IH by lia. f_equal.
    replace (INR k ^ 2) with (INR (k * k)) by (rewrite mult_INR; ring). apply b64_INR. lia. }
  rewrite G by auto. rewrite (ps_ints _ Hps); [|exact Hz]. reflexivity.
Qed.

Lemma sum_at_least (f : nat -> nat) : forall l, (forall t, In t l -> (1 <= f t)%nat) -> (length l <= list_sum (map f l))%nat.
Proof. induction l as [|t l IH]; intros H; [cbn; lia|]. cbn [map length]. rewrite list_sum_cons. specialize (IH (fun x Hx => H x (or_intror Hx))). specialize (H t (or_introl eq_refl)). lia. Qed.

Section Assembly.
Variables (psum : list R -> R) (env : est_env) (g gi : graph) (lv c : list nat) (K : nat) (model : string).
Hypothesis Hps : python_sum psum.
Hypothesis Hwf : wf_graph g.
Hypothesis Hwfi : wf_graph gi.
Hypothesis Hws : weights g = Some (repeat 1 (length (edges g))).
Hypothesis Hc : length c = vcount g.
Hypothesis HK : forall v, (v < vcount g)%nat -> (nth v c 0%nat < K)%nat.
Hypothesis Hm : (model = "temporal" \/ model = "multilevel" \/ model = "multiplex")%string.
Hypothesis Hsz : (Z.of_nat (length (edges g)) <= 2 ^ 24)%Z.
Let n := vcount g.
Let es := edges g.
Let E := weighted_edges g (repeat 1 (length (edges g))).
Let T := S (list_max lv).
Let N := (vcount g / T)%nat.
Hypothesis Hacc : accepted g gi (repeat 1 (length (edges g))) lv model.
Hypothesis Hn53 : (Z.of_nat (vcount g) <= 2 ^ 53)%Z.
Hypothesis He53 : (Z.of_nat (length (edges gi)) < 2 ^ 53)%Z.
Let m := cnt lv es.
Let mi := inn lv c es.
Let s := sqr lv c K es.

Lemma as_lv : length lv = n.
Proof. exact (@acc_lv g gi lv model _ Hacc). Qed.
Lemma as_T : (1 < T)%nat.
Proof. apply (@acc_facts g gi lv model _ Hwf Hacc). Qed.
Lemma as_Hn : vcount gi = vcount g.
Proof. apply (@acc_facts g gi lv model _ Hwf Hacc). Qed.
Lemma as_N : model = "temporal"%string \/ model = "multiplex"%string -> (0 < N)%nat.
Proof. exact (@acc_N g gi lv model _ Hwf Hacc). Qed.
Lemma as_lb v : (v < n)%nat -> (nth v lv 0%nat < T)%nat.
Proof. exact (@lv_bound g gi lv c model as_Hn as_lv Hc as_T as_N v). Qed.
Lemma as_range u v : In (u, v) es -> (u < n)%nat /\ (v < n)%nat.
Proof. apply Hwf. Qed.
Lemma as_in u v : In (u, v) es -> nth u lv 0%nat = nth v lv 0%nat.
Proof. destruct (@acc_facts g gi lv model _ Hwf Hacc) as (_ & _ & _ & _ & H & _). apply H. Qed.
Lemma as_total : list_sum (map m (seq 0 T)) = length es.
Proof. apply cnt_total. intros u v H. apply as_lb. apply (@as_range u v H). Qed.
Lemma as_m t : (t < T)%nat -> (1 <= m t)%nat.
Proof.
  intros Ht. destruct (@acc_facts g gi lv model _ Hwf Hacc) as (_ & _ & _ & H & _). specialize (H t Ht). unfold weighted_edges in H. rewrite weight_in_cnt in H.
  change (cnt lv (edges g) t) with (m t) in H. destruct (m t); [cbn in H; lra|lia].
Qed.
Lemma as_mi t : (mi t <= m t)%nat.
Proof. apply inn_le. Qed.
Lemma as_kap t : list_sum (map (kap lv c es t) (seq 0 K)) = (2 * m t)%nat.
Proof. apply (@kap_total lv c n K es t); auto. apply as_range. Qed.
Lemma as_s t : (2 * m t <= s t)%nat.
Proof. rewrite <- as_kap. apply squares_ge. Qed.
Lemma as_gap t : (s t = 2 * m t * (2 * m t) \/ s t + 2 * m t <= 2 * m t * (2 * m t))%nat.
Proof. rewrite <- as_kap. apply squares_gap. Qed.
Lemma as_T24 : (Z.of_nat T <= 2 ^ 24)%Z.
Proof. pose proof (@sum_at_least m (seq 0 T)) as H. rewrite seq_length, as_total in H. pose proof (H (fun t Ht => @as_m t ltac:(apply in_seq in Ht; lia))). unfold es in *. lia. Qed.
Lemma as_Tm : (T <= length es)%nat.
Proof. pose proof (@sum_at_least m (seq 0 T)) as H. rewrite seq_length, as_total in H. exact (H (fun t Ht => @as_m t ltac:(apply in_seq in Ht; lia))). Qed.
Lemma as_mle t : (m t <= length es)%nat.
Proof. apply cnt_le. Qed.

Let qx := q_of m s.
Let q' := q'_of m s.
Let d := d_of m s.
Let d' := d'_of m s.

Lemma as_Nt : model = "multilevel"%string -> forall t, (t < T)%nat -> (0 < nodes_in lv t)%nat.
Proof. intros _ t Ht. exact (@acc_nodes g gi lv model _ Hwf Hacc t Ht). Qed.

Lemma as_weights : map (weight_in E lv) (seq 0 T) = map (fun t => INR (m t)) (seq 0 T).
Proof. apply map_ext. intros t. apply weight_in_cnt. Qed.

Lemma exact_run oN oT oNt om pers f :
  oN = None \/ oN = Some N -> oT = None \/ oT = Some T -> oNt = None \/ oNt = Some (map (nodes_in lv) (seq 0 T)) ->
  om = None \/ om = Some (map (weight_in E lv) (seq 0 T)) ->
  persistence_function_from_model model gi (Some lv) (Some N) (Some T) (Some (map (nodes_in lv) (seq 0 T))) = Ok f -> f c = Ok pers ->
  rsum (map qx (seq 0 T)) <> 0 ->
  estimate_multilayer_weighted env g gi lv (mkPart K c) model oN oT oNt om
  = Ok (INR (II T mi) / Q_ T m s, (if Req_EM_T (D_ T m s) 0 then 0 else INR (NN T m mi) / D_ T m s), estimate_p env model K T pers, K).
Proof.
  intros HoN HoT HoNt Hom Hf Hfc HQ. pose proof as_T as HT. unfold estimate_multilayer_weighted.
  assert (e1 : or_default oT (layer_count_T lv) = Ok T) by (destruct HoT as [->| ->]; cbn; auto; exact (@auto_T g gi lv c model as_Hn as_lv Hc as_T as_N)). rewrite e1. cbn [bind].
  assert (e2 : or_default oN (nodes_per_layer g T) = Ok N) by (destruct HoN as [->| ->]; cbn; auto; exact (@auto_N g gi lv c model as_Hn as_lv Hc as_T as_N)). rewrite e2. cbn [bind].
  assert (e3 : or_default om (layer_weights g lv T) = Ok (map (fun t => INR (m t)) (seq 0 T))).
  { rewrite <- as_weights. destruct Hom as [->| ->]; cbn [or_default]; auto. exact (@auto_m g gi lv c model _ Hwf as_Hn Hws as_lv Hc as_T as_N). }
  rewrite e3. cbn [bind].
  assert (e4 : or_default oNt (layer_nodes lv T) = Ok (map (nodes_in lv) (seq 0 T))) by (destruct HoNt as [->| ->]; cbn [or_default]; auto; exact (@auto_Nt g gi lv c model as_Hn as_lv Hc as_T as_N)). rewrite e4. cbn [bind].
  unfold wedges. rewrite Hws. cbn [bind part_len part_membership]. fold es.
  rewrite <- (map_const_repeat 0 T). change (add_internal c lv) with (gen_internal Rplus lv c). change (fun _ : nat => 0) with (fun _ : nat => INR 0) at 1.
  rewrite (@internal_ints Rplus R_addS n T lv c as_lv Hc as_lb es (fun _ => 0%nat) as_range as_in) by (intros; unfold es in *; lia). cbn [bind].
  change (add_strength_layered c lv) with (gen_strength Rplus lv c). rewrite <- (map_const_repeat (repeat 0 K) T), <- (map_const_repeat 0 K). change (fun _ : nat => 0) with (fun _ : nat => INR 0).
  rewrite (@strength_ints Rplus R_addS n T K lv c as_lv Hc as_lb HK es (fun _ _ => 0%nat) as_range) by (intros; unfold es in *; lia). cbn [bind].
  rewrite (@mapM_seq _ _ (fun t => INR (s t))).
  2:{ intros t Ht. rewrite py_get_seq by auto. cbn [bind]. f_equal. rewrite <- (map_map (fun r => (0 + kap lv c es t r)%nat) INR). rewrite sum_squares_ints. reflexivity. }
  cbn [bind]. rewrite (@mapM_seq _ _ (fun t => INR (2 * mi t))).
  2:{ intros t Ht. rewrite py_get_seq by auto. cbn [bind]. f_equal. rewrite two_INR. reflexivity. }
  assert (MP : forall t, (t < T)%nat -> 2 * INR (m t) <> 0). { intros t Ht. pose proof (@as_m t Ht) as P. apply (le_INR 1) in P. change (INR 1) with 1 in P. lra. }
  cbn [bind]. rewrite (@mapM_seq _ _ qx).
  2:{ intros t Ht. rewrite !py_get_seq by auto. cbn [bind]. apply py_div_ok. apply MP. auto. }
  cbn [bind]. rewrite py_div_ok by exact HQ. cbn [bind].
  rewrite (@mapM_seq _ _ (fun t => INR (2 * m t - 2 * mi t))).
  2:{ intros t Ht. rewrite !py_get_seq by auto. cbn [bind]. f_equal. rewrite minus_INR by (pose proof (as_mi t); lia). rewrite !two_INR. reflexivity. }
  cbn [bind]. rewrite (@mapM_seq _ _ d).
  2:{ intros t Ht. rewrite !py_get_seq by auto. cbn [bind]. rewrite py_div_ok by (apply MP; auto). reflexivity. }
  cbn [bind]. fold (D_ T m s). change (rsum (map qx (seq 0 T))) with (Q_ T m s).
  rewrite <- !(map_map (fun t => (2 * mi t)%nat) INR), <- !(map_map (fun t => (2 * m t - 2 * mi t)%nat) INR), !rsum_ints. fold (II T mi). fold (NN T m mi).
  change (rsum (map d (seq 0 T))) with (D_ T m s). unfold py_div.
  destruct (Req_EM_T (D_ T m s) 0); cbn [bind]; rewrite Hf; cbn [bind]; rewrite Hfc; reflexivity.
Qed.

Lemma float_run oN oT oNt om pers f :
  oN = None \/ oN = Some N -> oT = None \/ oT = Some T -> oNt = None \/ oNt = Some (map (nodes_in lv) (seq 0 T)) ->
  om = None \/ om = Some (map (weight_in E lv) (seq 0 T)) ->
  fl_persistence_function_from_model psum model gi (Some lv) (Some N) (Some T) (Some (map (nodes_in lv) (seq 0 T))) = Ok f -> f c = Ok pers ->
  Q'_ psum T m s <> 0 ->
  fl_estimate_multilayer_weighted psum env g gi lv (mkPart K c) model oN oT oNt om
  = Ok (binary64 (INR (II T mi) / Q'_ psum T m s), (if Req_EM_T (D'_ psum T m s) 0 then 0 else binary64 (INR (NN T m mi) / D'_ psum T m s)), fl_estimate_p env model K T pers, K).
Proof.
  intros HoN HoT HoNt Hom Hf Hfc HQ. pose proof as_T as HT. unfold fl_estimate_multilayer_weighted.
  assert (e1 : or_default oT (layer_count_T lv) = Ok T) by (destruct HoT as [->| ->]; cbn; auto; exact (@auto_T g gi lv c model as_Hn as_lv Hc as_T as_N)). rewrite e1. cbn [bind].
  assert (e2 : or_default oN (nodes_per_layer g T) = Ok N) by (destruct HoN as [->| ->]; cbn; auto; exact (@auto_N g gi lv c model as_Hn as_lv Hc as_T as_N)). rewrite e2. cbn [bind].
  assert (e3 : or_default om (fl_layer_weights g lv T) = Ok (map (fun t => INR (m t)) (seq 0 T))).
  { rewrite as_weights in Hom. destruct Hom as [->| ->]; cbn [or_default]; auto. unfold fl_layer_weights, wedges. rewrite Hws. cbn [bind]. fold es.
    rewrite <- (map_const_repeat 0 T). change (fun _ : nat => 0) with (fun _ : nat => INR 0).
    rewrite (@weights_ints fl_add fl_addS n T lv c as_lv Hc as_lb es (fun _ => 0%nat) as_range); [reflexivity|]. intros; unfold es in *; lia. }
  rewrite e3. cbn [bind].
  assert (e4 : or_default oNt (layer_nodes lv T) = Ok (map (nodes_in lv) (seq 0 T))) by (destruct HoNt as [->| ->]; cbn [or_default]; auto; exact (@auto_Nt g gi lv c model as_Hn as_lv Hc as_T as_N)). rewrite e4. cbn [bind].
  unfold wedges. rewrite Hws. cbn [bind part_len part_membership]. fold es.
  rewrite <- (map_const_repeat 0 T). change (fl_add_internal c lv) with (gen_internal fl_add lv c). change (fun _ : nat => 0) with (fun _ : nat => INR 0) at 1.
  rewrite (@internal_ints fl_add fl_addS n T lv c as_lv Hc as_lb es (fun _ => 0%nat) as_range as_in) by (intros; unfold es in *; lia). cbn [bind].
  change (fl_add_strength_layered c lv) with (gen_strength fl_add lv c). rewrite <- (map_const_repeat (repeat 0 K) T), <- (map_const_repeat 0 K). change (fun _ : nat => 0) with (fun _ : nat => INR 0).
  rewrite (@strength_ints fl_add fl_addS n T K lv c as_lv Hc as_lb HK es (fun _ _ => 0%nat) as_range) by (intros; unfold es in *; lia). cbn [bind].
  assert (B2 : forall k : nat, (k <= length es)%nat -> fl_mul 2 (INR k) = INR (2 * k)). { intros k Hk. unfold fl_mul. rewrite two_INR. apply b64_INR. unfold es in *; lia. }
  rewrite (@mapM_seq _ _ (fun t => INR (s t))).
  2:{ intros t Ht. rewrite py_get_seq by auto. cbn [bind]. f_equal. rewrite <- (map_map (fun r => (0 + kap lv c es t r)%nat) INR). rewrite psum_squares; auto.
      change (Z.of_nat (s t) <= 2 ^ 53)%Z. pose proof (as_gap t) as G. pose proof (as_mle t) as L.
      assert (M2 : (Z.of_nat (2 * m t) <= 2 ^ 25)%Z) by (unfold es in *; lia). assert (S2 : (Z.of_nat (s t) <= Z.of_nat (2 * m t) * Z.of_nat (2 * m t))%Z) by lia. nia. }
  cbn [bind]. rewrite (@mapM_seq _ _ (fun t => INR (2 * mi t))).
  2:{ intros t Ht. rewrite py_get_seq by auto. cbn [bind]. f_equal. apply B2. pose proof (as_mi t). pose proof (as_mle t). unfold mi in *. lia. }
  assert (MP : forall t, (t < T)%nat -> INR (2 * m t) <> 0). { intros t Ht. pose proof (@as_m t Ht) as P. apply not_0_INR. lia. }
  cbn [bind]. rewrite (@mapM_seq _ _ q').
  2:{ intros t Ht. rewrite !py_get_seq by auto. cbn [bind]. rewrite B2 by apply as_mle. rewrite fl_div_ok by (apply MP; auto). unfold q', q'_of, q_of. rewrite two_INR. reflexivity. }
  cbn [bind]. rewrite fl_div_ok by exact HQ. cbn [bind].
  rewrite (@mapM_seq _ _ (fun t => INR (2 * m t - 2 * mi t))).
  2:{ intros t Ht. rewrite !py_get_seq by auto. cbn [bind]. f_equal. pose proof (as_mi t) as A1. pose proof (as_mle t) as A2. rewrite !B2 by (unfold mi in *; lia).
      unfold fl_sub. change (0 + inn lv c es t)%nat with (mi t). rewrite <- minus_INR by lia. apply b64_INR. unfold es in *; lia. }
  cbn [bind]. rewrite (@mapM_seq _ _ d').
  2:{ intros t Ht. rewrite !py_get_seq by auto. cbn [bind]. rewrite B2 by apply as_mle. rewrite fl_div_ok by (apply MP; auto). cbn [bind]. unfold d', d'_of, q'_of, q_of, fl_sub. rewrite !two_INR. reflexivity. }
  cbn [bind]. change (psum (map d' (seq 0 T))) with (D'_ psum T m s). change (psum (map q' (seq 0 T))) with (Q'_ psum T m s).
  rewrite <- !(map_map (fun t => (2 * mi t)%nat) INR), <- !(map_map (fun t => (2 * m t - 2 * mi t)%nat) INR).
  pose proof (@II_le T (length es) m mi ltac:(lia) as_total (fun t _ => as_mi t)) as [I1 I2].
  rewrite !(ps_ints _ Hps) by (change (Z.of_nat (II T mi) <= 2 ^ 53)%Z || change (Z.of_nat (NN T m mi) <= 2 ^ 53)%Z; unfold es in *; lia).
  fold (II T mi). fold (NN T m mi). unfold fl_div.
  destruct (Req_EM_T (D'_ psum T m s) 0); cbn [bind]; rewrite Hf; cbn [bind]; rewrite Hfc; reflexivity.
Qed.

Lemma near_0 r : near r 0 0.
Proof. split; [lra|]. split; [apply b64_0|]. rewrite Rminus_0_r, Rabs_R0, Rmult_0_r. split; [lra|]. split; [tauto|]. split; lra. Qed.

Lemma multi_near oN oT oNt om :
  oN = None \/ oN = Some N -> oT = None \/ oT = Some T -> oNt = None \/ oNt = Some (map (nodes_in lv) (seq 0 T)) ->
  om = None \/ om = Some (map (weight_in E lv) (seq 0 T)) ->
  exists a b p a' b' p' pers pers',
    estimate_multilayer_weighted env g gi lv (mkPart K c) model oN oT oNt om = Ok (a, b, p, K) /\
    fl_estimate_multilayer_weighted psum env g gi lv (mkPart K c) model oN oT oNt om = Ok (a', b', p', K) /\
    near ((2 * INR T + 4) * u64) a a' /\ near ((2 * INR (length (edges g)) + 6) * u64) b b' /\
    is_persistence model gi lv N T c pers /\ Rabs (pers' - pers) <= pers_err model T * pers /\ (model <> "multilevel"%string -> (pers < 1 <-> pers' < 1)) /\ 0 <= pers' /\
    p = estimate_p env model K T pers /\ p' = fl_estimate_p env model K T pers' /\
    (model <> "multiplex"%string -> Rabs (p' - p) <= 2 * (pers_err model T * pers) + 6 * u64) /\
    (exists f, fl_persistence_function_from_model psum model gi (Some lv) (Some N) (Some T) (Some (map (nodes_in lv) (seq 0 T))) = Ok f /\ f c = Ok pers') /\
    binary64 pers' = pers' /\ (model <> "multilevel"%string -> pers' = binary64 pers /\ pers = INR (kept gi c) / INR (length (edges gi)) /\ (0 < length (edges gi))%nat).
Proof.
  intros HoN HoT HoNt Hom. pose proof as_T as HT. pose proof as_T24 as HT24.
  destruct (@acc_facts g gi lv model _ Hwf Hacc) as (_ & _ & _ & _ & _ & Ft & _ & Fx).
  destruct (@persistence_ok model gi lv N T c n (map (nodes_in lv) (seq 0 T)) Hwfi as_Hn as_lv Hc as_lb HT as_N as_Nt Hm eq_refl) as (f & pers & Hf & Hfc & Hp).
  destruct (@fl_persistence_ok psum model gi lv N T c n (map (nodes_in lv) (seq 0 T)) pers Hps Hwfi as_Hn as_lv Hc as_lb HT) as (f' & pers' & Hf' & Hfc' & P0 & P0' & PE & P1 & P2 & P3); auto.
  { intros E0. split; [apply as_N; auto|apply Ft; auto]. }
  { intros E0. split; [apply as_N; auto|apply Fx; auto]. }
  { exact as_Nt. }
  destruct (@theta_in_near psum Hps T (length es) m mi s ltac:(lia) as_total Hsz as_m (fun t _ => as_mi t) (fun t _ => as_s t) (fun t _ => as_gap t)) as (Q0 & Q0' & NI).
  pose proof (@theta_out_near psum Hps T (length es) m mi s ltac:(lia) as_total Hsz as_m (fun t _ => as_mi t) (fun t _ => as_s t) (fun t _ => as_gap t)) as NO.
  assert (EQ : rsum (map qx (seq 0 T)) <> 0) by (change (rsum (map qx (seq 0 T))) with (Q_ T m s); lra).
  pose proof (@exact_run oN oT oNt om pers f HoN HoT HoNt Hom Hf Hfc EQ) as R1.
  assert (EQ' : Q'_ psum T m s <> 0) by lra.
  pose proof (@float_run oN oT oNt om pers' f' HoN HoT HoNt Hom Hf' Hfc' EQ') as R2.
  do 6 eexists. exists pers, pers'. split; [exact R1|]. split; [exact R2|]. split; [exact NI|]. split.
  { destruct NO as [[Z1 Z2]|(Z1 & Z2 & NO)].
    - rewrite Z1, Z2. destruct (Req_EM_T 0 0); [apply near_0|contradiction].
    - destruct (Req_EM_T (D_ T m s) 0); [contradiction|]. destruct (Req_EM_T (D'_ psum T m s) 0); [contradiction|]. exact NO. }
  split; [exact Hp|]. split; [exact PE|]. split; [exact P1|]. split; [exact P0'|]. split; [reflexivity|]. split; [reflexivity|]. split; [|split; [exists f'; auto|split; [exact P2|exact P3]]].
  intros Nm. unfold fl_estimate_p, estimate_p. destruct (String.eqb_spec model "multiplex"); [contradiction|]. apply (p_near K P0 P0' PE).
Qed.
End Assembly.
