(** Multilayer SBM estimates. *)
From Coq Require Import FunctionalExtensionality.
From Verif Require Import PyBase PyGraph M_partition M_champ M_leiden M_estimation_utils Spec Spec_graph Spec_leiden Spec_sbm Spec_multisbm
  L_base L_canon L_modularity L_modularity3 L_leiden L_split L_objective L_sbm L_sbm2.
Set Implicit Arguments.
Open Scope R_scope.

Lemma map_const_repeat {A} (x : A) T : map (fun _ : nat => x) (seq 0 T) = repeat x T.
Proof. assert (G : forall s, map (fun _ : nat => x) (seq s T) = repeat x T) by (induction T; intros; simpl; f_equal; auto). apply G. Qed.

Lemma py_get_seq {A} (f : nat -> A) T t : (t < T)%nat -> py_get (map f (seq 0 T)) t = Ok (f t).
Proof.
  intros Ht. unfold py_get. rewrite nth_error_map, (nth_error_nth' _ 0%nat) by (rewrite seq_length; auto). cbn. rewrite seq_nth by auto. reflexivity.
Qed.

Lemma mapM_seq {A} (f : nat -> res A) (h : nat -> A) T : (forall t, (t < T)%nat -> f t = Ok (h t)) -> mapM f (seq 0 T) = Ok (map h (seq 0 T)).
Proof. intros H. apply mapM_ok. intros t Ht. apply in_seq in Ht. apply H. lia. Qed.

Lemma layer_nodes_loop T l : (forall x, In x l -> (x < T)%nat) -> forall f,
  foldM (fun acc x => py_update acc x S) l (map f (seq 0 T)) = Ok (map (fun t => f t + count_occ Nat.eq_dec l t)%nat (seq 0 T)).
Proof.
  induction l as [|a l IH]; intros H f.
  - cbn. f_equal. apply map_ext. intros t. lia.
  - cbn [foldM]. rewrite py_update_seq by (apply H; left; auto). cbn [bind]. rewrite IH by (intros; apply H; right; auto). f_equal. apply map_ext. intros t.
    cbn [count_occ]. change (0 + a)%nat with a. destruct (Nat.eqb_spec a t), (Nat.eq_dec a t); try congruence; lia.
Qed.

Section Layered.
Variables (n K T : nat) (lv c : list nat).
Hypothesis Hlv : length lv = n.
Hypothesis Hc : length c = n.
Hypothesis HT : forall v, (v < n)%nat -> (nth v lv 0%nat < T)%nat.
Hypothesis HK : forall v, (v < n)%nat -> (nth v c 0%nat < K)%nat.

Lemma layer_edges_cons e E t : layer_edges (e :: E) lv t = (if Nat.eqb (nth (fst (fst e)) lv 0%nat) t then [e] else []) ++ layer_edges E lv t.
Proof. unfold layer_edges. cbn [filter]. destruct (Nat.eqb _ t); reflexivity. Qed.

Lemma layer_range E t : in_range_E n E -> in_range_E n (layer_edges E lv t).
Proof. intros H u v w Hin. apply filter_In in Hin. apply (H u v w). tauto. Qed.

Lemma total_w_app E E' : total_w (E ++ E') = total_w E + total_w E'.
Proof. unfold total_w. rewrite map_app, rsum_app. reflexivity. Qed.
Lemma inner_w_app E E' : inner_w (E ++ E') c = inner_w E c + inner_w E' c.
Proof. unfold inner_w. rewrite map_app, rsum_app. reflexivity. Qed.
Lemma kappa_w_app E E' r : kappa_w (E ++ E') c r = kappa_w E c r + kappa_w E' c r.
Proof. unfold kappa_w. rewrite map_app, rsum_app. reflexivity. Qed.

Lemma layer_weights_loop E : in_range_E n E -> forall f,
  foldM (fun m e => let! l := py_get lv (fst (fst e)) in py_update m l (fun x => x + snd e)) E (map f (seq 0 T))
  = Ok (map (fun t => f t + total_w (layer_edges E lv t)) (seq 0 T)).
Proof.
  intros Hr. induction E as [|[[u v] w] E IH]; intros f.
  - cbn. f_equal. apply map_ext. intros t. unfold total_w. cbn. rewrite rsum_nil. lra.
  - destruct (Hr u v w) as [Hu Hv]; [left; auto|]. cbn [foldM fst snd]. rewrite (@py_get_ok _ lv u 0%nat) by lia. cbn [bind].
    rewrite py_update_seq by auto. cbn [bind]. rewrite IH by (intros a b x H; apply (Hr a b x); right; auto).
    f_equal. apply map_ext. intros t. rewrite layer_edges_cons, total_w_app. cbn [fst snd]. change (0 + nth u lv 0%nat)%nat with (nth u lv 0%nat).
    destruct (Nat.eqb _ t); unfold total_w at 2; cbn [map]; rewrite ?rsum_cons, rsum_nil; cbn [snd]; lra.
Qed.

Lemma internal_loop E : in_range_E n E -> (forall u v w, In ((u, v), w) E -> nth u lv 0%nat = nth v lv 0%nat) -> forall f,
  foldM (add_internal c lv) E (map f (seq 0 T)) = Ok (map (fun t => f t + inner_w (layer_edges E lv t) c) (seq 0 T)).
Proof.
  intros Hr Hw. induction E as [|[[u v] w] E IH]; intros f.
  - cbn. f_equal. apply map_ext. intros t. unfold inner_w. cbn. rewrite rsum_nil. lra.
  - destruct (Hr u v w) as [Hu Hv]; [left; auto|]. cbn [foldM]. unfold add_internal at 1. cbn [fst snd].
    rewrite same_label_ok by (cbn; lia). cbn [bind fst snd].
    assert (Hr' : in_range_E n E) by (intros a b x H; apply (Hr a b x); right; auto).
    assert (Hw' : forall a b x, In ((a, b), x) E -> nth a lv 0%nat = nth b lv 0%nat) by (intros a b x H; apply (Hw a b x); right; auto).
    specialize (IH Hr' Hw').
    assert (S1 : forall t, inner_w (layer_edges (((u, v), w) :: E) lv t) c
      = (if Nat.eqb (nth u lv 0%nat) t then w * delta c u v else 0) + inner_w (layer_edges E lv t) c).
    { intros t. rewrite layer_edges_cons, inner_w_app. cbn [fst snd]. f_equal. destruct (Nat.eqb _ t); unfold inner_w; cbn [map]; rewrite ?rsum_cons, rsum_nil; cbn [fst snd]; lra. }
    rewrite delta_b2n in S1. destruct (Nat.eqb (nth u c 0%nat) (nth v c 0%nat)).
    + rewrite (@py_get_ok _ lv u 0%nat), (@py_get_ok _ lv v 0%nat) by lia. cbn [bind]. rewrite (Hw u v w) by (left; auto). rewrite Nat.eqb_refl.
      rewrite py_update_seq by auto. cbn [bind]. rewrite IH. f_equal. apply map_ext. intros t. rewrite S1, (Hw u v w) by (left; auto). cbn [b2n INR].
      change (0 + nth v lv 0%nat)%nat with (nth v lv 0%nat). destruct (Nat.eqb _ t); lra.
    + cbn [bind]. rewrite IH. f_equal. apply map_ext. intros t. rewrite S1. cbn [b2n INR]. destruct (Nat.eqb _ t); lra.
Qed.

Lemma update2_seq (F : nat -> nat -> R) l a w : (l < T)%nat -> (a < K)%nat ->
  update2 (map (fun t => map (F t) (seq 0 K)) (seq 0 T)) l a w
  = Ok (map (fun t => map (fun r => F t r + (if Nat.eqb l t && Nat.eqb a r then w else 0)) (seq 0 K)) (seq 0 T)).
Proof.
  intros Hl Ha. unfold update2. rewrite py_get_seq by auto. cbn [bind]. rewrite py_update_map_seq by auto. cbn [bind].
  rewrite py_update_seq by auto. f_equal. apply map_ext. intros t. change (0 + l)%nat with l. destruct (Nat.eqb_spec l t); [subst|]; cbn [andb].
  - apply map_ext. intros r. destruct (Nat.eqb a r); lra.
  - apply map_ext. intros r. lra.
Qed.

Lemma layered_kappa_loop E : in_range_E n E -> forall F,
  foldM (add_strength_layered c lv) E (map (fun t => map (F t) (seq 0 K)) (seq 0 T))
  = Ok (map (fun t => map (fun r => F t r + kappa_w (layer_edges E lv t) c r) (seq 0 K)) (seq 0 T)).
Proof.
  intros Hr. induction E as [|[[u v] w] E IH]; intros F.
  - cbn. f_equal. apply map_ext. intros t. apply map_ext. intros r. unfold kappa_w. cbn. rewrite rsum_nil. lra.
  - destruct (Hr u v w) as [Hu Hv]; [left; auto|]. cbn [foldM]. unfold add_strength_layered at 1. cbn [fst snd].
    rewrite (@py_get_ok _ lv u 0%nat), (@py_get_ok _ c u 0%nat), (@py_get_ok _ c v 0%nat) by lia. cbn [bind].
    rewrite update2_seq by auto. cbn [bind].
    rewrite (@update2_seq (fun t r => F t r + (if Nat.eqb (nth u lv 0%nat) t && Nat.eqb (nth u c 0%nat) r then w else 0))) by auto. cbn [bind].
    rewrite (IH ltac:(intros a b x H; apply (Hr a b x); right; auto)
              (fun t r => F t r + (if Nat.eqb (nth u lv 0%nat) t && Nat.eqb (nth u c 0%nat) r then w else 0) + (if Nat.eqb (nth u lv 0%nat) t && Nat.eqb (nth v c 0%nat) r then w else 0))).
    f_equal. apply map_ext. intros t. apply map_ext. intros r. rewrite layer_edges_cons, kappa_w_app. cbn [fst snd].
    destruct (Nat.eqb (nth u lv 0%nat) t); cbn [andb]; unfold kappa_w at 2; cbn [map]; rewrite ?rsum_cons, rsum_nil; cbn [fst snd]; unfold ind;
      [destruct (Nat.eqb (nth u c 0%nat) r), (Nat.eqb (nth v c 0%nat) r)|]; lra.
Qed.
End Layered.

(** ** Persistence *)
Lemma kept_count gi c : list_sum (map (fun e => b2n (nth (fst e) c 0%nat =? nth (snd e) c 0%nat)%nat) (edges gi)) = kept gi c.
Proof. unfold kept, keeps_label. induction (edges gi) as [|e E IH]; auto. cbn [map filter]. unfold list_sum in *. cbn [fold_right]. rewrite IH. destruct (Nat.eqb _ _); reflexivity. Qed.

Lemma kept_edges_ok gi c : wf_graph gi -> length c = vcount gi -> kept_edges gi c = Ok (kept gi c).
Proof.
  intros [Hwf _] Hl. unfold kept_edges. rewrite count_internal_ok; [rewrite kept_count; auto|]. intros u v H. rewrite Hl. auto.
Qed.

Lemma multilevel_counts n lv c T E : length lv = n -> length c = n -> (forall v, (v < n)%nat -> (nth v lv 0%nat < T)%nat) ->
  (forall u v, In (u, v) E -> (u < n)%nat /\ (v < n)%nat) -> forall f,
  foldM (fun acc e => let! s := same_label c e in let! l := py_get lv (snd e) in py_update acc l (fun x => x + b2n s)%nat) E (map f (seq 0 T))
  = Ok (map (fun t => f t + length (filter (fun e => keeps_label c e && Nat.eqb (nth (snd e) lv 0%nat) t) E))%nat (seq 0 T)).
Proof.
  intros Hlv Hc HT. induction E as [|[u v] E IH]; intros Hr f.
  - cbn. f_equal. apply map_ext. intros t. lia.
  - destruct (Hr u v) as [Hu Hv]; [left; auto|]. cbn [foldM]. rewrite same_label_ok by (cbn; lia). cbn [bind fst snd]. rewrite (@py_get_ok _ lv v 0%nat) by lia. cbn [bind].
    rewrite py_update_seq by auto. cbn [bind]. rewrite IH by (intros; apply Hr; right; auto). f_equal. apply map_ext. intros t. cbn [filter].
    unfold keeps_label at 2. cbn [fst snd]. change (0 + nth v lv 0%nat)%nat with (nth v lv 0%nat).
    destruct (Nat.eqb (nth u c 0%nat) (nth v c 0%nat)), (Nat.eqb (nth v lv 0%nat) t); cbn [andb b2n length]; lia.
Qed.

Lemma py_div_ok a b : b <> 0 -> py_div a b = Ok (a / b).
Proof. intros H. unfold py_div. destruct (Req_EM_T b 0); [congruence|auto]. Qed.

(** The persistence function is defined when its divisions are. *)
Lemma persistence_ok model gi lv N T c n Nt :
  wf_graph gi -> vcount gi = n -> length lv = n -> length c = n -> (forall v, (v < n)%nat -> (nth v lv 0%nat < T)%nat) -> (1 < T)%nat ->
  (model = "temporal"%string \/ model = "multiplex"%string -> (0 < N)%nat) ->
  (model = "multilevel"%string -> forall t, (t < T)%nat -> (0 < nodes_in lv t)%nat) ->
  (model = "temporal" \/ model = "multilevel" \/ model = "multiplex")%string -> Nt = map (nodes_in lv) (seq 0 T) ->
  exists f x, persistence_function_from_model model gi (Some lv) (Some N) (Some T) (Some Nt) = Ok f /\ f c = Ok x /\
    is_persistence model gi lv N T c x.
Proof.
  intros Hwf Hn Hlv Hc HT H1 HN HNt Hm ->.
  assert (T1 : INR T - 1 > 0) by (apply lt_INR in H1; simpl in H1; lra).
  destruct Hm as [-> |[-> | ->]]; unfold persistence_function_from_model; cbn [String.eqb Ascii.eqb Bool.eqb]; eexists; eexists; split; try reflexivity; split.
  - unfold ordinal_persistence. rewrite kept_edges_ok by (auto; lia). cbn [bind]. apply py_div_ok.
    assert (0 < INR N) by (apply lt_0_INR; auto). assert (0 < INR N * (INR T - 1)) by (apply Rmult_lt_0_compat; lra). lra.
  - left. auto.
  - unfold multilevel_persistence. rewrite <- (map_const_repeat 0%nat T). rewrite (@multilevel_counts n lv c T) by (auto; intros u v H; destruct Hwf as [Hwf _]; rewrite <- Hn; auto).
    cbn [bind]. rewrite (@mapM_seq _ _ (fun t => INR (kept_into gi lv c t) / INR (nodes_in lv t))).
    + cbn [bind]. apply py_div_ok. lra.
    + intros t Ht. rewrite !py_get_seq by auto. cbn [bind]. rewrite py_div_ok; auto. apply not_0_INR. specialize (HNt eq_refl t Ht). lia.
  - right. left. split; auto.
  - unfold categorical_persistence. rewrite kept_edges_ok by (auto; lia). cbn [bind]. apply py_div_ok.
    assert (0 < INR N) by (apply lt_0_INR; auto). assert (0 < INR N * INR T) by (apply Rmult_lt_0_compat; lra). assert (0 < INR N * INR T * (INR T - 1)) by (apply Rmult_lt_0_compat; lra). lra.
  - right. right. auto.
Qed.

(** ** The copying probability *)
Lemma multiplex_equation_eq K T pers x : multiplex_equation K T pers x = multiplex_persistence K T x - pers.
Proof.
  unfold multiplex_equation, multiplex_persistence. rewrite sum_to_rsum.
  assert (E : map (fun n => (INR T - INR n) * x ^ n) (seq 1 (T - 1)) = map (fun i => (INR T - INR (S i)) * x ^ S i) (seq 0 (T - 1))).
  { rewrite <- seq_shift, map_map. reflexivity. }
  rewrite E. ring.
Qed.

Lemma estimate_p_is env model K T pers : is_copying_probability (ee_fsolve env) model K T pers (estimate_p env model K T pers).
Proof.
  unfold is_copying_probability, estimate_p.
  destruct (Rltb pers 1) eqn:E1; [apply Rltb_true in E1|]; [destruct (Nat.ltb_spec 1 K) as [E2|E2]|]; cbn [andb].
  - right. destruct (String.eqb_spec model "multiplex") as [Em|Em]; [left|right]; repeat split; auto.
    + replace (multiplex_equation K T pers) with (fun x => multiplex_persistence K T x - pers) by (apply functional_extensionality; intros x; symmetry; apply multiplex_equation_eq).
      destruct (Rlt_dec _ 0); [rewrite Rmax_left; lra|rewrite Rmax_right; lra].
    + apply Rmax_comm.
  - left. destruct (String.eqb model "multiplex"); split; auto. destruct (Rlt_dec 1 0); lra.
  - left. assert (1 <= pers). { unfold Rltb in E1. destruct (Rlt_dec pers 1); [discriminate|lra]. }
    destruct (String.eqb model "multiplex"); split; auto. destruct (Rlt_dec 1 0); lra.
Qed.

Lemma copying_probability_unique fs model K T pers p q : is_copying_probability fs model K T pers p -> is_copying_probability fs model K T pers q -> p = q.
Proof.
  intros [(A & ->)|[(A & B & C & ->)|(A & B & C & ->)]] [(A' & ->)|[(A' & B' & C' & ->)|(A' & B' & C' & ->)]]; auto; try congruence;
    try (destruct A as [A|A]; [lra|lia]); try (destruct A' as [A'|A']; [lra|lia]).
Qed.

(** ** The whole estimate *)
Section Estimate.
Variables (env : est_env) (g gi : graph) (lv c : list nat) (K : nat) (model : string) (ws : list R).
Hypothesis Hwf : wf_graph g.
Hypothesis Hwfi : wf_graph gi.
Hypothesis Hn : vcount gi = vcount g.
Hypothesis Hws : weights g = Some ws.
Hypothesis Hlv : length lv = vcount g.
Hypothesis Hc : length c = vcount g.
Hypothesis HK : forall v, (v < vcount g)%nat -> (nth v c 0%nat < K)%nat.
Hypothesis Hin : edges_within_layers g lv.
Hypothesis Hm : (model = "temporal" \/ model = "multilevel" \/ model = "multiplex")%string.
Let n := vcount g.
Let E := weighted_edges g ws.
Let T := S (list_max lv).
Let N := (vcount g / T)%nat.
Hypothesis HT : (1 < T)%nat.
Hypothesis HN : model = "temporal"%string \/ model = "multiplex"%string -> (0 < N)%nat.
Hypothesis HNt : model = "multilevel"%string -> forall t, (t < T)%nat -> (0 < nodes_in lv t)%nat.
Hypothesis Htot : forall t, (t < T)%nat -> total_strength n (layer_edges E lv t) <> 0.
Hypothesis Hexp : expected_within_layers n E lv T c <> 0.

Lemma lv_bound v : (v < n)%nat -> (nth v lv 0%nat < T)%nat.
Proof.
  intros Hv. unfold T. assert (G : Forall (fun k => (k <= list_max lv)%nat) lv) by (apply list_max_le; auto).
  rewrite Forall_forall in G. specialize (G (nth v lv 0%nat) ltac:(apply nth_In; rewrite Hlv; auto)). lia.
Qed.
Lemma lv_in x : In x lv -> (x < T)%nat.
Proof.
  intros Hx. unfold T. assert (G : Forall (fun k => (k <= list_max lv)%nat) lv) by (apply list_max_le; auto).
  rewrite Forall_forall in G. specialize (G x Hx). lia.
Qed.
Lemma E_range : in_range_E n E.
Proof. apply range_E_of. auto. Qed.

Lemma py_max_list l m : l <> [] -> m = list_max l -> py_max l = Ok m.
Proof.
  intros Hne ->. apply py_max_spec. split.
  - clear - Hne. induction l as [|a l IH]; [congruence|]. destruct l as [|b l].
    + left. cbn. lia.
    + specialize (IH ltac:(discriminate)). change (list_max (a :: b :: l)) with (Nat.max a (list_max (b :: l))).
      destruct (Nat.max_dec a (list_max (b :: l))) as [->| ->]; [left; auto|right; auto].
  - assert (G : Forall (fun k => (k <= list_max l)%nat) l) by (apply list_max_le; auto). rewrite Forall_forall in G. auto.
Qed.

Lemma lv_nonempty : lv <> [].
Proof. intros Z. unfold T in HT. rewrite Z in HT. cbn in HT. lia. Qed.

Lemma auto_T : layer_count_T lv = Ok T.
Proof. unfold layer_count_T. rewrite (@py_max_list lv _ lv_nonempty eq_refl). cbn [bind]. unfold T. f_equal. lia. Qed.
Lemma auto_N : nodes_per_layer g T = Ok N.
Proof. unfold nodes_per_layer. destruct (Nat.eqb_spec T 0); [unfold T in *; lia|]. reflexivity. Qed.
Lemma auto_m : layer_weights g lv T = Ok (map (weight_in E lv) (seq 0 T)).
Proof.
  unfold layer_weights, wedges. rewrite Hws. cbn [bind]. rewrite <- (map_const_repeat 0 T). fold (weighted_edges g ws). fold E.
  rewrite (@layer_weights_loop n T lv c Hlv Hc lv_bound E E_range). f_equal. apply map_ext. intros t. unfold weight_in, total_w.
  rewrite Rplus_0_l. reflexivity.
Qed.
Lemma auto_Nt : layer_nodes lv T = Ok (map (nodes_in lv) (seq 0 T)).
Proof. unfold layer_nodes. rewrite <- (map_const_repeat 0%nat T). rewrite layer_nodes_loop by exact lv_in. reflexivity. Qed.

Lemma estimate_multi oN oT oNt om :
  oN = None \/ oN = Some N -> oT = None \/ oT = Some T -> oNt = None \/ oNt = Some (map (nodes_in lv) (seq 0 T)) ->
  om = None \/ om = Some (map (weight_in E lv) (seq 0 T)) ->
  exists pers p, is_persistence model gi lv N T c pers /\ is_copying_probability (ee_fsolve env) model K T pers p /\
  estimate_multilayer_weighted env g gi lv (mkPart K c) model oN oT oNt om
  = Ok (observed_within_layers n E lv T c / expected_within_layers n E lv T c,
        (if Req_EM_T (expected_between_layers n E lv T c) 0 then 0
         else observed_between_layers n E lv T c / expected_between_layers n E lv T c), p, K).
Proof.
  intros HoN HoT HoNt Hom.
  destruct (@persistence_ok model gi lv N T c n (map (nodes_in lv) (seq 0 T)) Hwfi Hn Hlv Hc lv_bound HT HN HNt Hm eq_refl) as (f & pers & Hf & Hfc & Hp).
  exists pers, (estimate_p env model K T pers). split; auto. split; [apply estimate_p_is|].
  unfold estimate_multilayer_weighted.
  assert (e1 : or_default oT (layer_count_T lv) = Ok T) by (destruct HoT as [->| ->]; cbn; auto using auto_T). rewrite e1. cbn [bind].
  assert (e2 : or_default oN (nodes_per_layer g T) = Ok N) by (destruct HoN as [->| ->]; cbn; auto using auto_N). rewrite e2. cbn [bind].
  assert (e3 : or_default om (layer_weights g lv T) = Ok (map (weight_in E lv) (seq 0 T))) by (destruct Hom as [->| ->]; cbn [or_default]; auto using auto_m). rewrite e3. cbn [bind].
  assert (e4 : or_default oNt (layer_nodes lv T) = Ok (map (nodes_in lv) (seq 0 T))) by (destruct HoNt as [->| ->]; cbn [or_default]; auto using auto_Nt). rewrite e4. cbn [bind].
  unfold wedges. rewrite Hws. cbn [bind part_len part_membership]. fold (weighted_edges g ws). fold E.
  rewrite <- (map_const_repeat 0 T).
  assert (HinE : forall u v w, In ((u, v), w) E -> nth u lv 0%nat = nth v lv 0%nat) by (intros u v w H; apply in_combine_l in H; apply Hin; auto).
  rewrite (@internal_loop n T lv c Hlv Hc lv_bound E E_range HinE). cbn [bind].
  rewrite <- (map_const_repeat (repeat 0 K) T), <- (map_const_repeat 0 K).
  rewrite (@layered_kappa_loop n K T lv c Hlv Hc lv_bound HK E E_range (fun _ _ => 0)). cbn [bind].
  set (ow := fun t => observed_within n (layer_edges E lv t) c). set (ew := fun t => expected_within n (layer_edges E lv t) c).
  set (ob := fun t => observed_between n (layer_edges E lv t) c). set (eb := fun t => expected_between n (layer_edges E lv t) c).
  pose proof (fun t => layer_range lv t E_range) as Hrt.
  assert (W : forall t, weight_in E lv t = total_w (layer_edges E lv t)) by reflexivity.
  assert (NZ : forall t, (t < T)%nat -> 2 * total_w (layer_edges E lv t) <> 0).
  { intros t Ht. pose proof (Htot Ht) as Z. rewrite (total_strength_w (Hrt t)) in Z. auto. }
  assert (EW : forall t, ew t = rsum (map (fun r => kappa_w (layer_edges E lv t) c r ^ 2) (seq 0 K)) / (2 * total_w (layer_edges E lv t))).
  { intros t. apply expected_within_w; auto. }
  rewrite (@mapM_seq _ _ (fun t => ew t * (2 * total_w (layer_edges E lv t)))).
  2:{ intros t Ht. rewrite py_get_seq by auto. cbn [bind]. f_equal. rewrite sum_squares_map, EW. transitivity (rsum (map (fun r => kappa_w (layer_edges E lv t) c r ^ 2) (seq 0 K))).
      - apply rsum_map_ext. intros r _. f_equal. lra.
      - specialize (NZ t Ht). set (X := rsum (map (fun r => kappa_w (layer_edges E lv t) c r ^ 2) (seq 0 K))). field. lra. }
  cbn [bind]. rewrite (@mapM_seq _ _ ow).
  2:{ intros t Ht. rewrite py_get_seq by auto. cbn [bind]. f_equal. unfold ow. rewrite observed_within_w by auto. lra. }
  cbn [bind]. rewrite (@mapM_seq _ _ ew).
  2:{ intros t Ht. rewrite !py_get_seq by auto. cbn [bind]. rewrite W, py_div_ok by auto. f_equal. specialize (NZ t Ht). field. lra. }
  cbn [bind]. change (rsum (map ow (seq 0 T))) with (observed_within_layers n E lv T c). change (rsum (map ew (seq 0 T))) with (expected_within_layers n E lv T c).
  rewrite (py_div_ok _ Hexp). cbn [bind].
  assert (OB : forall t, ob t = 2 * total_w (layer_edges E lv t) - ow t).
  { intros t. unfold ob, ow. pose proof (observed_split n (layer_edges E lv t) c) as S1. rewrite (total_strength_w (Hrt t)) in S1. lra. }
  assert (EB : forall t, (t < T)%nat -> eb t = 2 * total_w (layer_edges E lv t) - ew t).
  { intros t Ht. unfold eb, ew. pose proof (@expected_split n (layer_edges E lv t) c (Htot Ht)) as S1. rewrite (total_strength_w (Hrt t)) in S1. lra. }
  rewrite (@mapM_seq _ _ ob).
  2:{ intros t Ht. rewrite !py_get_seq by auto. cbn [bind]. f_equal. rewrite OB, W. unfold ow. rewrite observed_within_w by auto. lra. }
  cbn [bind]. rewrite (@mapM_seq _ _ eb).
  2:{ intros t Ht. rewrite !py_get_seq by auto. cbn [bind]. rewrite W, py_div_ok by auto. cbn [bind]. f_equal. rewrite (EB t Ht). specialize (NZ t Ht). field. lra. }
  cbn [bind]. change (rsum (map ob (seq 0 T))) with (observed_between_layers n E lv T c). change (rsum (map eb (seq 0 T))) with (expected_between_layers n E lv T c).
  unfold py_div. destruct (Req_EM_T (expected_between_layers n E lv T c) 0); cbn [bind]; rewrite Hf; cbn [bind]; rewrite Hfc; reflexivity.
Qed.
End Estimate.
