(** Double precision: the multilayer SBM estimates. *)
From Verif Require Import PyBase PyGraph M_partition M_champ M_leiden M_estimation_utils M_float M_multifloat Spec Spec_graph Spec_leiden Spec_sbm Spec_float
  Spec_multifloat Spec_multisbm L_base L_canon L_modularity L_parallel L_progress L_leiden L_sbm L_sbm2 L_split L_logmean L_limits L_float L_float2 L_float3 L_float4 L_float5 L_multisbm.
From Flocq Require Import Core.Raux Core.Defs Core.Generic_fmt Core.FLT Core.Round_NE Core.Zaux Core.Float_prop Core.Ulp.
Set Implicit Arguments.
Open Scope R_scope.

(** ** Adding from left to right meets the contract of sum *)
Lemma fl_sum_from : forall xs k a a', (forall x, In x xs -> x = 0 \/ u64 <= x) -> 0 <= a -> within k a a' -> a' = 0 \/ u64 <= a' ->
  within (k + length xs) (a + rsum xs) (fold_left fl_add xs a').
Proof.
  induction xs as [|x xs IH]; intros k a a' Hx Ha Hw Hf.
  - cbn [length fold_left]. rewrite rsum_nil, Rplus_0_r, Nat.add_0_r. auto.
  - cbn [fold_left length]. rewrite rsum_cons. pose proof u64_pos as U. assert (X0 : x = 0 \/ u64 <= x) by (apply Hx; left; auto).
    assert (X1 : 0 <= x) by (destruct X0; lra). replace (k + S (length xs))%nat with (S k + length xs)%nat by lia. rewrite <- Rplus_assoc. apply IH.
    + intros; apply Hx; right; auto.
    + lra.
    + unfold fl_add. apply within_round; [lra| |destruct Hf, X0; [left|right|right|right]; lra]. apply within_add; auto.
      destruct k; [split; cbn; lra|]. apply within_1; auto. split; cbn; nra.
    + unfold fl_add. destruct Hf as [->|Hf], X0 as [->|X0]; [left; rewrite Rplus_0_l; apply b64_0|right|right|right]; apply round_floor; lra.
Qed.

Lemma rsum_fold_right xs : fold_right Rplus 0 xs = rsum xs.
Proof. reflexivity. Qed.

Lemma fl_sum_python : python_sum fl_sum.
Proof.
  split.
  - apply fl_sum_ints.
  - intros xs Hn Hx. rewrite rsum_fold_right. assert (P : 0 <= rsum xs).
    { pose proof u64_pos. clear Hn. induction xs as [|x xs IH]; [rewrite rsum_nil; lra|]. rewrite rsum_cons. destruct (Hx x (or_introl eq_refl)) as [_ [-> | H1]];
      assert (0 <= rsum xs) by (apply IH; intros; apply Hx; right; auto); lra. }
    apply within_abs; auto; [lia|]. unfold fl_sum. pose proof (@fl_sum_from xs 0%nat 0 0) as W. rewrite Rplus_0_l in W. apply W.
    + intros x H1. apply Hx. auto.
    + lra.
    + split; cbn; lra.
    + auto.
Qed.

(** ** Integer data of the layers *)
Section Data.
Variables (lv c : list nat).
Definition e_layer (t : nat) (e : nat * nat) : bool := Nat.eqb (nth (fst e) lv 0%nat) t.
Definition e_in (e : nat * nat) : bool := Nat.eqb (nth (fst e) c 0%nat) (nth (snd e) c 0%nat).
Definition cnt (es : list (nat * nat)) (t : nat) : nat := length (filter (e_layer t) es).
Definition inn (es : list (nat * nat)) (t : nat) : nat := length (filter (fun e => e_layer t e && e_in e) es).
Definition kap (es : list (nat * nat)) (t r : nat) : nat :=
  list_sum (map (fun e => if e_layer t e then (b2n (Nat.eqb (nth (fst e) c 0%nat) r) + b2n (Nat.eqb (nth (snd e) c 0%nat) r))%nat else 0%nat) es).
Definition sqr (K : nat) (es : list (nat * nat)) (t : nat) : nat := squares (map (kap es t) (seq 0 K)).

Lemma cnt_cons e es t : cnt (e :: es) t = (b2n (e_layer t e) + cnt es t)%nat.
Proof. unfold cnt. cbn [filter]. destruct (e_layer t e); reflexivity. Qed.
Lemma inn_cons e es t : inn (e :: es) t = (b2n (e_layer t e && e_in e) + inn es t)%nat.
Proof. unfold inn. cbn [filter]. destruct (e_layer t e && e_in e); reflexivity. Qed.
Lemma cnt_le es t : (cnt es t <= length es)%nat.
Proof. induction es as [|e es IH]; [cbn; lia|]. rewrite cnt_cons. cbn [length]. destruct (e_layer t e); cbn [b2n]; lia. Qed.
Lemma inn_le es t : (inn es t <= cnt es t)%nat.
Proof. induction es as [|e es IH]; [cbn; lia|]. rewrite cnt_cons, inn_cons. destruct (e_layer t e), (e_in e); cbn [b2n andb]; lia. Qed.
Lemma kap_cons e es t r : kap (e :: es) t r = ((if e_layer t e then b2n (Nat.eqb (nth (fst e) c 0%nat) r) + b2n (Nat.eqb (nth (snd e) c 0%nat) r) else 0) + kap es t r)%nat.
Proof. unfold kap. cbn [map]. rewrite list_sum_cons. reflexivity. Qed.
Lemma kap_le es t r : (kap es t r <= 2 * length es)%nat.
Proof. induction es as [|e es IH]; [cbn; lia|]. rewrite kap_cons. cbn [length]. destruct (e_layer t e), (Nat.eqb (nth (fst e) c 0%nat) r), (Nat.eqb (nth (snd e) c 0%nat) r); cbn [b2n]; lia. Qed.

Lemma list_sum_plus {A} (f h : A -> nat) l : list_sum (map (fun x => f x + h x)%nat l) = (list_sum (map f l) + list_sum (map h l))%nat.
Proof. induction l as [|x l IH]; [reflexivity|]. cbn [map]. rewrite !list_sum_cons, IH. lia. Qed.
Lemma list_sum_ind K a : (a < K)%nat -> list_sum (map (fun r => b2n (Nat.eqb a r)) (seq 0 K)) = 1%nat.
Proof.
  intros Ha. assert (G : forall K s, (s <= a < s + K)%nat -> list_sum (map (fun r => b2n (Nat.eqb a r)) (seq s K)) = 1%nat).
  { assert (Z : forall K s, (a < s)%nat -> list_sum (map (fun r => b2n (Nat.eqb a r)) (seq s K)) = 0%nat).
    { induction K0 as [|K0 IH]; intros s H; [reflexivity|]. cbn [seq map]. rewrite list_sum_cons, IH by lia. destruct (Nat.eqb_spec a s); [lia|reflexivity]. }
    induction K0 as [|K0 IH]; intros s H; [lia|]. cbn [seq map]. rewrite list_sum_cons. destruct (Nat.eqb_spec a s); [rewrite Z by lia; reflexivity|rewrite IH by lia; reflexivity]. }
  apply G. lia.
Qed.
Lemma list_sum_0 {A} (l : list A) : list_sum (map (fun _ => 0%nat) l) = 0%nat.
Proof. induction l as [|x l IH]; [reflexivity|]. cbn [map]. rewrite list_sum_cons, IH. reflexivity. Qed.

Lemma kap_total n K es t : length c = n -> (forall u v, In (u, v) es -> (u < n)%nat /\ (v < n)%nat) -> (forall v, (v < n)%nat -> (nth v c 0 < K)%nat) ->
  list_sum (map (kap es t) (seq 0 K)) = (2 * cnt es t)%nat.
Proof.
  intros Hc Hr HK. induction es as [|[u v] es IH].
  - unfold kap, cnt. cbn. change (list_sum (map (fun _ => 0%nat) (seq 0 K)) = 0%nat). apply list_sum_0.
  - rewrite cnt_cons, (map_ext _ _ (kap_cons (u, v) es t)), list_sum_plus, IH by (intros; apply Hr; right; auto). cbn [fst snd].
    destruct (Hr u v (or_introl eq_refl)) as [Hu Hv]. destruct (e_layer t (u, v)); cbn [b2n].
    + rewrite list_sum_plus, !list_sum_ind by auto. lia.
    + rewrite list_sum_0. lia.
Qed.

Lemma cnt_total T es : (forall u v, In (u, v) es -> (nth u lv 0 < T)%nat) -> list_sum (map (cnt es) (seq 0 T)) = length es.
Proof.
  intros HT. induction es as [|[u v] es IH].
  - change (list_sum (map (fun _ => 0%nat) (seq 0 T)) = 0%nat). apply list_sum_0.
  - rewrite (map_ext _ _ (cnt_cons (u, v) es)), list_sum_plus, IH by (intros a b H; apply (HT a b); right; auto). unfold e_layer. cbn [fst length].
    rewrite list_sum_ind by (apply (HT u v); left; auto). reflexivity.
Qed.
End Data.

(** ** The loops, for an addition that is exact on the integers that occur *)
Section Loops.
Variable (add : R -> R -> R).
Hypothesis Hadd : forall k, (Z.of_nat k + 1 <= 2 ^ 53)%Z -> add (INR k) 1 = INR (S k).
Variables (n T K : nat) (lv c : list nat).
Hypothesis Hlv : length lv = n.
Hypothesis Hc : length c = n.
Hypothesis HT : forall v, (v < n)%nat -> (nth v lv 0 < T)%nat.
Hypothesis HK : forall v, (v < n)%nat -> (nth v c 0 < K)%nat.

Lemma weights_ints : forall es f, (forall u v, In (u, v) es -> (u < n)%nat /\ (v < n)%nat) ->
  (forall t, Z.of_nat (f t) + Z.of_nat (length es) <= 2 ^ 53)%Z ->
  foldM (fun m e => let! l := py_get lv (fst (fst e)) in py_update m l (fun x => add x (snd e))) (combine es (repeat 1 (length es))) (map (fun t => INR (f t)) (seq 0 T))
  = Ok (map (fun t => INR (f t + cnt lv es t)) (seq 0 T)).
Proof.
  induction es as [|[u v] es IH]; intros f Hr Hb.
  - cbn. f_equal. apply map_ext. intros t. f_equal. unfold cnt. cbn. lia.
  - destruct (Hr u v (or_introl eq_refl)) as [Hu Hv]. cbn [length repeat combine foldM fst snd]. rewrite (py_get_ok lv 0%nat) by lia. cbn [bind].
    rewrite py_update_seq by auto. cbn [bind]. cbn [length] in Hb.
    rewrite (map_ext _ (fun t => INR ((fun t => f t + b2n (e_layer lv t (u, v)))%nat t))).
    + rewrite IH.
      * f_equal. apply map_ext. intros t. rewrite cnt_cons. f_equal. lia.
      * intros; apply Hr; right; auto.
      * intros t. specialize (Hb t). cbv beta. destruct (e_layer lv t (u, v)); cbn [b2n]; lia.
    + intros t. unfold e_layer. cbn [fst]. change (0 + nth u lv 0)%nat with (nth u lv 0)%nat. destruct (Nat.eqb _ t); cbn [b2n]; [|f_equal; lia].
      rewrite Hadd by (specialize (Hb t); lia). f_equal. lia.
Qed.

Definition gen_internal (m : list R) (e : (nat * nat) * R) : res (list R) :=
  let! s := same_label c (fst e) in
  if s then
    let! a := py_get lv (fst (fst e)) in
    let! b := py_get lv (snd (fst e)) in
    if Nat.eqb a b then py_update m a (fun x => add x (snd e)) else Ok m
  else Ok m.

Lemma internal_ints : forall es f, (forall u v, In (u, v) es -> (u < n)%nat /\ (v < n)%nat) -> (forall u v, In (u, v) es -> nth u lv 0%nat = nth v lv 0%nat) ->
  (forall t, Z.of_nat (f t) + Z.of_nat (length es) <= 2 ^ 53)%Z ->
  foldM gen_internal (combine es (repeat 1 (length es))) (map (fun t => INR (f t)) (seq 0 T))
  = Ok (map (fun t => INR (f t + inn lv c es t)) (seq 0 T)).
Proof.
  induction es as [|[u v] es IH]; intros f Hr Hw Hb.
  - cbn. f_equal. apply map_ext. intros t. f_equal. unfold inn. cbn. lia.
  - destruct (Hr u v (or_introl eq_refl)) as [Hu Hv]. cbn [length repeat combine foldM]. unfold gen_internal at 1. cbn [fst snd].
    rewrite same_label_ok by (cbn; lia). cbn [bind fst snd]. cbn [length] in Hb.
    assert (IH' : forall f', (forall t, f' t = f t + b2n (e_layer lv t (u, v) && e_in c (u, v)))%nat ->
      foldM gen_internal (combine es (repeat 1 (length es))) (map (fun t => INR (f' t)) (seq 0 T)) = Ok (map (fun t => INR (f t + inn lv c ((u, v) :: es) t)) (seq 0 T))).
    { intros f' Hf. rewrite IH.
      - f_equal. apply map_ext. intros t. rewrite inn_cons, Hf. f_equal. lia.
      - intros; apply Hr; right; auto.
      - intros; apply Hw; right; auto.
      - intros t. specialize (Hb t). rewrite Hf. destruct (_ && _); cbn [b2n]; lia. }
    unfold e_layer, e_in in IH'. cbn [fst snd] in IH'. destruct (Nat.eqb (nth u c 0%nat) (nth v c 0%nat)).
    + rewrite (py_get_ok lv 0%nat), (py_get_ok lv 0%nat) by lia. cbn [bind]. rewrite <- (Hw u v) by (left; auto). rewrite Nat.eqb_refl, py_update_seq by auto. cbn [bind].
      rewrite (map_ext _ (fun t => INR ((fun t => f t + b2n (nth u lv 0 =? t))%nat t))).
      * apply IH'. intros t. cbv beta. rewrite andb_true_r. reflexivity.
      * intros t. change (0 + nth u lv 0)%nat with (nth u lv 0)%nat. destruct (Nat.eqb _ t); cbn [b2n]; [|f_equal; lia]. rewrite Hadd by (specialize (Hb t); lia). f_equal. lia.
    + cbn [bind]. apply IH'. intros t. rewrite andb_false_r. cbn [b2n]. lia.
Qed.

Definition gen_update2 (kappa : list (list R)) (l r : nat) (w : R) : res (list (list R)) :=
  let! row := py_get kappa l in
  let! row' := py_update row r (fun x => add x w) in
  py_update kappa l (fun _ => row').
Definition gen_strength (kappa : list (list R)) (e : (nat * nat) * R) : res (list (list R)) :=
  let! l := py_get lv (fst (fst e)) in
  let! a := py_get c (fst (fst e)) in
  let! kappa := gen_update2 kappa l a (snd e) in
  let! b := py_get c (snd (fst e)) in
  gen_update2 kappa l b (snd e).

Lemma update2_ints (F : nat -> nat -> nat) l a : (l < T)%nat -> (a < K)%nat -> (forall t r, Z.of_nat (F t r) + 1 <= 2 ^ 53)%Z ->
  gen_update2 (map (fun t => map (fun r => INR (F t r)) (seq 0 K)) (seq 0 T)) l a 1
  = Ok (map (fun t => map (fun r => INR (F t r + b2n (Nat.eqb l t && Nat.eqb a r))) (seq 0 K)) (seq 0 T)).
Proof.
  intros Hl Ha Hb. unfold gen_update2. rewrite py_get_seq by auto. cbn [bind]. rewrite py_update_map_seq by auto. cbn [bind].
  rewrite py_update_seq by auto. f_equal. apply map_ext. intros t. change (0 + l)%nat with l. destruct (Nat.eqb_spec l t); [subst|]; cbn [andb].
  - apply map_ext. intros r. destruct (Nat.eqb a r); cbn [b2n]; [|f_equal; lia]. rewrite Hadd by auto. f_equal. lia.
  - apply map_ext. intros r. f_equal. cbn [b2n]. lia.
Qed.

Lemma strength_ints : forall es F, (forall u v, In (u, v) es -> (u < n)%nat /\ (v < n)%nat) ->
  (forall t r, Z.of_nat (F t r) + 2 * Z.of_nat (length es) <= 2 ^ 53)%Z ->
  foldM gen_strength (combine es (repeat 1 (length es))) (map (fun t => map (fun r => INR (F t r)) (seq 0 K)) (seq 0 T))
  = Ok (map (fun t => map (fun r => INR (F t r + kap lv c es t r)) (seq 0 K)) (seq 0 T)).
Proof.
  induction es as [|[u v] es IH]; intros F Hr Hb.
  - cbn. f_equal. apply map_ext. intros t. apply map_ext. intros r. f_equal. unfold kap. cbn. lia.
  - destruct (Hr u v (or_introl eq_refl)) as [Hu Hv]. cbn [length repeat combine foldM]. unfold gen_strength at 1. cbn [fst snd].
    rewrite (py_get_ok lv 0%nat), (py_get_ok c 0%nat), (py_get_ok c 0%nat) by lia. cbn [bind]. cbn [length] in Hb.
    rewrite update2_ints by (auto; intros t r; specialize (Hb t r); lia). cbn [bind].
    rewrite (@update2_ints (fun t r => F t r + b2n (Nat.eqb (nth u lv 0%nat) t && Nat.eqb (nth u c 0%nat) r))%nat) by
      (auto; intros t r; specialize (Hb t r); destruct (_ && _); cbn [b2n]; lia). cbn [bind].
    rewrite (IH (fun t r => F t r + b2n (Nat.eqb (nth u lv 0%nat) t && Nat.eqb (nth u c 0%nat) r) + b2n (Nat.eqb (nth u lv 0%nat) t && Nat.eqb (nth v c 0%nat) r))%nat).
    + f_equal. apply map_ext. intros t. apply map_ext. intros r. rewrite kap_cons. f_equal. unfold e_layer. cbn [fst snd].
      destruct (Nat.eqb (nth u lv 0%nat) t); cbn [andb b2n]; lia.
    + intros; apply Hr; right; auto.
    + intros t r. specialize (Hb t r). destruct (_ && _), (_ && _); cbn [b2n]; lia.
Qed.
End Loops.

(** ** Error analysis *)
Lemma rsum_rel {A} (f f' : A -> R) r : forall l, (forall x, In x l -> Rabs (f' x - f x) <= r * f x) -> Rabs (rsum (map f' l) - rsum (map f l)) <= r * rsum (map f l).
Proof.
  induction l as [|x l IH]; intros H; cbn [map]; [rewrite !rsum_nil, Rminus_0_r, Rabs_R0; lra|]. rewrite !rsum_cons.
  pose proof (H x (or_introl eq_refl)) as H1. pose proof (IH (fun y Hy => H y (or_intror Hy))) as H2. apply Rabs_le_inv in H1, H2. apply Rabs_le. lra.
Qed.

Lemma chain_rel r1 r2 r x y z : 0 <= x -> 0 <= r1 -> 0 <= r2 -> Rabs (y - x) <= r1 * x -> Rabs (z - y) <= r2 * y -> r1 + r2 + r1 * r2 <= r -> Rabs (z - x) <= r * x.
Proof.
  intros Hx H1 H2 A B C. apply Rabs_le_inv in A, B. assert (r2 * y <= r2 * ((1 + r1) * x)) by (apply Rmult_le_compat_l; lra).
  assert ((r1 + r2 + r1 * r2) * x <= r * x) by (apply Rmult_le_compat_r; auto). apply Rabs_le. lra.
Qed.

(** A quotient of an integer and a number with relative error [r]. *)
Lemma quot_rel r I Q Q' : 0 <= r -> 8 * (r * r) <= 2 * u64 -> 0 < Q <= 67108864 -> Rabs (Q' - Q) <= r * Q -> I = 0 \/ 1 <= I ->
  0 < Q' /\ 0 <= I / Q /\ Rabs (binary64 (I / Q') - I / Q) <= (r + 2 * u64) * (I / Q) /\ (I = 0 -> binary64 (I / Q') = 0) /\ (0 < I -> / 200000000 <= binary64 (I / Q')).
Proof.
  intros Hr Hr2 HQ HA HI. pose proof u64_pos as U. pose proof u64_eq as U1. assert (R1 : r <= / 1024) by nra. apply Rabs_le_inv in HA.
  assert (P : 0 < Q') by nra. split; auto. assert (Inn : 0 <= I) by lra. assert (F : 0 <= I / Q) by (apply Rmult_le_pos; [auto|]; apply Rlt_le, Rinv_0_lt_compat; lra). split; auto.
  destruct HI as [->|HI].
  { unfold Rdiv. rewrite !Rmult_0_l, b64_0, Rminus_0_r, Rabs_R0. split; [lra|]. split; intros; lra. }
  assert (L : (1 - r) * (I / Q) <= I / Q').
  { apply le_div; auto. replace ((1 - r) * (I / Q) * Q') with (I / Q * ((1 - r) * Q')) by ring. apply Rle_trans with (I / Q * Q); [|right; field; lra].
    apply Rmult_le_compat_l; [lra|]. apply Rle_trans with ((1 - r) * ((1 + r) * Q)); [apply Rmult_le_compat_l; lra|]. nra. }
  assert (UU : I / Q' <= (1 + (r + 2 * (r * r))) * (I / Q)).
  { apply div_le; auto. replace ((1 + (r + 2 * (r * r))) * (I / Q) * Q') with (I / Q * ((1 + (r + 2 * (r * r))) * Q')) by ring. apply Rle_trans with (I / Q * Q); [right; field; lra|].
    apply Rmult_le_compat_l; [lra|]. apply Rle_trans with ((1 + (r + 2 * (r * r))) * ((1 - r) * Q)); [|apply Rmult_le_compat_l; nra].
    assert (1 <= (1 + (r + 2 * (r * r))) * (1 - r)). { assert (0 <= r * r * (1 - 2 * r)) by (apply Rmult_le_pos; nra). nra. }
    nra. }
  assert (T2 : / 100000000 <= I / Q') by (apply le_div; auto; nra).
  destruct (@b64_rel_pos (I / Q')) as [B1 B2]; [apply small200; lra|]. split; [|split; [intros; lra|intros _; nra]]. apply abs_rel. split.
  - apply Rle_trans with (2 := B1). apply Rle_trans with ((1 - u64) * ((1 - r) * (I / Q))); [|apply Rmult_le_compat_l; lra].
    rewrite <- Rmult_assoc. apply Rmult_le_compat_r; [lra|]. nra.
  - apply Rle_trans with (1 := B2). apply Rle_trans with ((1 + u64) * ((1 + (r + 2 * (r * r))) * (I / Q))); [apply Rmult_le_compat_l; lra|].
    rewrite <- Rmult_assoc. apply Rmult_le_compat_r; [lra|]. assert (u64 * r <= u64 * / 1024) by (apply Rmult_le_compat_l; lra). nra.
Qed.

Section Thetas.
Variable (psum : list R -> R).
Hypothesis Hps : python_sum psum.
Variables (T mm : nat) (m mi s : nat -> nat).
Hypothesis HT : (0 < T)%nat.
Hypothesis Hmm : list_sum (map m (seq 0 T)) = mm.
Hypothesis Hsz : (Z.of_nat mm <= 2 ^ 24)%Z.
Hypothesis Hm : forall t, (t < T)%nat -> (1 <= m t)%nat.
Hypothesis Hmi : forall t, (t < T)%nat -> (mi t <= m t)%nat.
Hypothesis Hs : forall t, (t < T)%nat -> (2 * m t <= s t)%nat.
Hypothesis Hgap : forall t, (t < T)%nat -> (s t = 2 * m t * (2 * m t) \/ s t + 2 * m t <= 2 * m t * (2 * m t))%nat.

Definition q_of (t : nat) : R := INR (s t) / (2 * INR (m t)).
Definition q'_of (t : nat) : R := binary64 (q_of t).
Definition d_of (t : nat) : R := 2 * INR (m t) - q_of t.
Definition d'_of (t : nat) : R := binary64 (2 * INR (m t) - q'_of t).

Lemma sum_lower : forall l, (forall t, In t l -> (1 <= m t)%nat) -> (length l <= list_sum (map m l))%nat.
Proof. induction l as [|t l IH]; intros H; [cbn; lia|]. cbn [map length]. rewrite list_sum_cons. specialize (IH (fun x Hx => H x (or_intror Hx))). specialize (H t (or_introl eq_refl)). lia. Qed.
Lemma one_le : forall l t, In t l -> (forall t, In t l -> (1 <= m t)%nat) -> (m t + length l <= list_sum (map m l) + 1)%nat.
Proof.
  induction l as [|a l IH]; intros t Ht H; [destruct Ht|]. cbn [map length]. rewrite list_sum_cons. pose proof (H a (or_introl eq_refl)) as Ha. destruct Ht as [->|Ht].
  - pose proof (sum_lower l (fun x Hx => H x (or_intror Hx))). lia.
  - specialize (IH t Ht (fun x Hx => H x (or_intror Hx))). lia.
Qed.
Lemma m_bound t : (t < T)%nat -> (m t + T <= mm + 1)%nat.
Proof. intros Ht. rewrite <- Hmm. pose proof (one_le (seq 0 T) t) as H. rewrite seq_length in H. apply H; [apply in_seq; lia|]. intros x Hx. apply in_seq in Hx. apply Hm. lia. Qed.

Lemma Mt t : (t < T)%nat -> 2 <= 2 * INR (m t) <= 33554432 /\ 2 * INR (m t) <= INR (s t) <= 2 * INR (m t) * (2 * INR (m t)) /\ 2 * INR (m t) + 2 * INR T <= 2 * INR mm + 2.
Proof.
  intros Ht. pose proof (m_bound Ht). pose proof (Hm Ht). pose proof (Hs Ht). pose proof (Hgap Ht). rewrite two_INR, <- mult_INR. split; split.
  - apply (le_INR 2). lia.
  - rewrite INR_IZR_INZ. apply IZR_le. lia.
  - split; apply le_INR; lia.
  - change 2 with (INR 2). rewrite <- !mult_INR, <- !plus_INR. apply le_INR. lia.
Qed.
Lemma T_le : INR T <= INR mm /\ 1 <= INR T /\ INR mm <= 16777216.
Proof.
  pose proof (m_bound HT). pose proof (Hm HT). split; [apply le_INR; lia|]. split; [apply (le_INR 1); lia|]. rewrite INR_IZR_INZ. apply IZR_le. lia.
Qed.

Lemma q_facts t : (t < T)%nat -> 1 <= q_of t <= 2 * INR (m t) /\ Rabs (q'_of t - q_of t) <= u64 * q_of t /\ binary64 (q'_of t) = q'_of t /\ u64 <= q'_of t.
Proof.
  intros Ht. destruct (Mt Ht) as (HM & HS & _). assert (HI : 0 <= 0 <= 2 * INR (m t)) by lra.
  destruct (@q_bounds (2 * INR (m t)) (INR (s t)) HM HS) as [Q B]. fold (q_of t) in Q, B. fold (q'_of t) in B. split; auto. split; [apply abs_rel; auto|].
  split; [apply b64_idem|]. pose proof u64_pos. pose proof u64_eq. nra.
Qed.

Lemma d_facts t : (t < T)%nat -> 0 <= d_of t <= 2 * INR (m t) /\ Rabs (d'_of t - d_of t) <= (2 * INR mm - 2 * INR T + 3) * u64 * d_of t /\ binary64 (d'_of t) = d'_of t /\ (d'_of t = 0 \/ u64 <= d'_of t) /\ (d_of t = 0 \/ 1 <= d_of t).
Proof.
  intros Ht. destruct (Mt Ht) as (HM & HS & HB). pose proof u64_pos as U. pose proof u64_eq as U1. destruct (Hgap Ht) as [E|G].
  - assert (EQ : q_of t = 2 * INR (m t)). { unfold q_of. rewrite E, !mult_INR. change (INR 2) with 2. field. lra. }
    assert (E' : q'_of t = 2 * INR (m t)). { unfold q'_of. rewrite EQ, two_INR. apply b64_INR. pose proof (m_bound Ht). lia. }
    unfold d'_of, d_of. rewrite E', EQ. replace (2 * INR (m t) - 2 * INR (m t)) with 0 by ring. rewrite b64_0, b64_0, Rminus_0_r, Rabs_R0. repeat split; try lra; auto.
  - assert (HG : INR (s t) + 2 * INR (m t) <= 2 * INR (m t) * (2 * INR (m t))) by (rewrite two_INR, <- mult_INR, <- plus_INR; apply le_INR; lia).
    assert (HI : 0 <= 0 <= 2 * INR (m t)) by lra.
    destruct (@d_bounds (2 * INR (m t)) 0 (INR (s t)) HM HI HS HG) as (D & A & A2 & DP).
    change (2 * INR (m t) - INR (s t) / (2 * INR (m t))) with (d_of t) in D, A, A2. fold (q_of t) in A, A2, DP. fold (q'_of t) in A, A2, DP. fold (d'_of t) in A, A2, DP.
    split; [lra|]. split; [|split; [apply b64_idem|split; [right|right; lra]]].
    + apply Rle_trans with (1 := A). apply Rmult_le_compat_r; [lra|]. apply Rmult_le_compat_r; [lra|]. lra.
    + apply Rabs_le_inv in A2. nra.
Qed.

Lemma rsum_bounds {A} (f : A -> R) (h : A -> nat) : forall l, (forall x, In x l -> 0 <= f x <= 2 * INR (h x)) -> 0 <= rsum (map f l) <= 2 * INR (list_sum (map h l)).
Proof.
  induction l as [|x l IH]; intros H; cbn [map]; [rewrite rsum_nil; cbn; lra|]. rewrite rsum_cons, list_sum_cons, plus_INR.
  specialize (IH (fun y Hy => H y (or_intror Hy))). specialize (H x (or_introl eq_refl)). lra.
Qed.
Lemma in_seq_T t : In t (seq 0 T) -> (t < T)%nat.
Proof. intros H. apply in_seq in H. lia. Qed.

Lemma psum_rel f r : (forall t, (t < T)%nat -> binary64 (f t) = f t /\ (f t = 0 \/ u64 <= f t)) -> forall h, (forall t, (t < T)%nat -> Rabs (f t - h t) <= r * h t) -> 0 <= r -> r + 2 * INR T * u64 + r * (2 * INR T * u64) <= / 1000 ->
  0 <= rsum (map h (seq 0 T)) -> Rabs (psum (map f (seq 0 T)) - rsum (map h (seq 0 T))) <= (r + 2 * INR T * u64 + r * (2 * INR T * u64)) * rsum (map h (seq 0 T)).
Proof.
  intros Hf h Hh Hr _ HP. pose proof u64_pos as U. pose proof T_le as HT'. apply (@chain_rel r (2 * INR T * u64) _ _ (rsum (map f (seq 0 T)))); auto.
  - assert (0 <= INR T * u64) by (apply Rmult_le_pos; lra). lra.
  - apply rsum_rel. intros t Ht. apply Hh, in_seq_T. auto.
  - pose proof (@ps_rel psum Hps (map f (seq 0 T))) as P. rewrite map_length, seq_length in P. rewrite rsum_fold_right in P. apply P.
    + pose proof (m_bound HT). lia.
    + intros x Hx. apply in_map_iff in Hx as (t & <- & Ht). apply Hf, in_seq_T. auto.
  - lra.
Qed.

Definition Q_ : R := rsum (map q_of (seq 0 T)).
Definition Q'_ : R := psum (map q'_of (seq 0 T)).
Definition D_ : R := rsum (map d_of (seq 0 T)).
Definition D'_ : R := psum (map d'_of (seq 0 T)).

Lemma Q_facts : 1 <= Q_ <= 33554432 /\ Rabs (Q'_ - Q_) <= (2 * INR T + 2) * u64 * Q_.
Proof.
  pose proof u64_pos as U. pose proof u64_eq as U1. pose proof T_le as HT'.
  assert (B : 0 <= Q_ <= 2 * INR mm). { rewrite <- Hmm. apply rsum_bounds. intros t Ht. apply in_seq_T in Ht. pose proof (q_facts Ht). lra. }
  assert (L : 1 <= Q_).
  { unfold Q_. assert (ET : exists T', T = Datatypes.S T') by (exists (T - 1)%nat; lia). destruct ET as (T' & ET). rewrite ET. cbn [seq map]. rewrite rsum_cons.
    pose proof (q_facts HT). assert (0 <= rsum (map q_of (seq 1 T'))).
    { apply rsum_bounds with (h := m). intros t Ht. apply in_seq in Ht. pose proof (@q_facts t ltac:(lia)). lra. } lra. }
  split; [lra|]. assert (TU : INR T * u64 <= / 1024) by nra.
  apply Rle_trans with ((u64 + 2 * INR T * u64 + u64 * (2 * INR T * u64)) * Q_).
  - apply (@psum_rel q'_of u64); try lra.
    + intros t Ht. pose proof (q_facts Ht). split; [|right]; tauto.
    + intros t Ht. pose proof (q_facts Ht). tauto.
    + nra.
    + fold Q_. lra.
  - apply Rmult_le_compat_r; [lra|]. nra.
Qed.

Lemma D_facts : (D_ = 0 /\ D'_ = 0) \/ (1 <= D_ <= 33554432 /\ Rabs (D'_ - D_) <= (2 * INR mm + 4) * u64 * D_).
Proof.
  pose proof u64_pos as U. pose proof u64_eq as U1. pose proof T_le as HT'.
  assert (B : 0 <= D_ <= 2 * INR mm). { rewrite <- Hmm. apply rsum_bounds. intros t Ht. apply in_seq_T in Ht. pose proof (d_facts Ht). lra. }
  set (r1 := (2 * INR mm - 2 * INR T + 3) * u64). assert (R1 : 0 <= r1) by (apply Rmult_le_pos; lra). assert (R2 : r1 <= / 1024).
  { apply Rle_trans with (33554435 * u64); [apply Rmult_le_compat_r; lra|lra]. }
  assert (TU : INR T * u64 <= / 100000000) by nra. assert (TU0 : 0 <= INR T * u64) by (apply Rmult_le_pos; lra).
  assert (A : Rabs (D'_ - D_) <= (r1 + 2 * INR T * u64 + r1 * (2 * INR T * u64)) * D_).
  { apply (@psum_rel d'_of r1); auto.
    - intros t Ht. pose proof (d_facts Ht). tauto.
    - intros t Ht. pose proof (d_facts Ht). unfold r1. tauto.
    - nra.
    - fold D_. lra. }
  assert (C : D_ = 0 \/ 1 <= D_).
  { unfold D_. clear A B. assert (G : forall l, (forall t, In t l -> (t < T)%nat) -> rsum (map d_of l) = 0 \/ 1 <= rsum (map d_of l)).
    { induction l as [|t l IH]; intros H; cbn [map]; [left; apply rsum_nil|]. rewrite rsum_cons. pose proof (d_facts (H t (or_introl eq_refl))) as F.
      specialize (IH (fun x Hx => H x (or_intror Hx))). destruct F as (F0 & _ & _ & _ & F). lra. }
    apply G. intros t Ht. apply in_seq_T. auto. }
  destruct C as [C|C].
  - left. split; auto. rewrite C, Rmult_0_r, Rminus_0_r in A. pose proof (Rabs_pos D'_). destruct (Req_dec D'_ 0) as [|N]; auto. apply Rabs_no_R0 in N. lra.
  - right. split; [lra|]. apply Rle_trans with (1 := A). apply Rmult_le_compat_r; [lra|].
    assert (r1 * (2 * INR T * u64) <= u64).
    { apply Rle_trans with (33554435 * u64 * (2 * (16777216 * u64))); [|].
      - apply Rmult_le_compat; try lra; [apply Rmult_le_compat_r; lra|nra].
      - replace (33554435 * u64 * (2 * (16777216 * u64))) with (u64 * (33554435 * (2 * 16777216) * u64)) by ring. rewrite <- (Rmult_1_r u64) at 3. apply Rmult_le_compat_l; lra. }
    unfold r1 in *. lra.
Qed.

Lemma sum_2_ints (f : nat -> nat) l : rsum (map (fun t => 2 * INR (f t)) l) = INR (list_sum (map (fun t => 2 * f t)%nat l)).
Proof. rewrite <- rsum_ints, map_map. f_equal. apply map_ext. intros t. apply two_INR. Qed.
Lemma sum_le (f h : nat -> nat) : forall l, (forall t, In t l -> (f t <= h t)%nat) -> (list_sum (map f l) <= list_sum (map h l))%nat.
Proof. induction l as [|t l IH]; intros H; [cbn; lia|]. cbn [map]. rewrite !list_sum_cons. specialize (IH (fun x Hx => H x (or_intror Hx))). specialize (H t (or_introl eq_refl)). lia. Qed.
Lemma list_sum_2 (f : nat -> nat) l : list_sum (map (fun t => 2 * f t)%nat l) = (2 * list_sum (map f l))%nat.
Proof. induction l as [|t l IH]; [reflexivity|]. cbn [map]. rewrite !list_sum_cons, IH. lia. Qed.

Definition II : nat := list_sum (map (fun t => 2 * mi t)%nat (seq 0 T)).
Definition NN : nat := list_sum (map (fun t => 2 * m t - 2 * mi t)%nat (seq 0 T)).
Lemma II_le : (II <= 2 * mm)%nat /\ (NN <= 2 * mm)%nat.
Proof.
  split; rewrite <- Hmm, <- list_sum_2; apply sum_le; intros t Ht; pose proof (Hmi (in_seq_T _ Ht)); lia.
Qed.

(** The two parameters. *)
Definition near (r a a' : R) : Prop := 0 <= a /\ binary64 a' = a' /\ Rabs (a' - a) <= r * a /\ (a = 0 <-> a' = 0) /\ (0 < a -> / 200000000 <= a') /\ a <= 2 ^ 26.

Lemma theta_in_near : 0 < Q_ /\ 0 < Q'_ /\ near ((2 * INR T + 4) * u64) (INR II / Q_) (binary64 (INR II / Q'_)).
Proof.
  pose proof u64_pos as U. pose proof u64_eq as U1. pose proof T_le as HT'. destruct Q_facts as [B A]. split; [lra|].
  assert (R0 : 0 <= (2 * INR T + 2) * u64) by (apply Rmult_le_pos; lra).
  assert (R2 : (2 * INR T + 2) * u64 <= 33554435 * u64) by (apply Rmult_le_compat_r; lra).
  assert (C : INR II = 0 \/ 1 <= INR II) by (destruct II; [left; reflexivity|right; apply (le_INR 1); lia]).
  assert (C2 : 0 < Q_ <= 67108864) by lra.
  destruct (@quot_rel ((2 * INR T + 2) * u64) (INR II) Q_ Q'_ R0) as (P & F & E & Z & L); auto.
  { apply Rle_trans with (8 * (33554435 * u64 * (33554435 * u64))); [|].
    - apply Rmult_le_compat_l; [lra|]. apply Rmult_le_compat; lra.
    - replace (8 * (33554435 * u64 * (33554435 * u64))) with (u64 * (8 * 33554435 * 33554435 * u64)) by ring. rewrite (Rmult_comm 2). apply Rmult_le_compat_l; lra. }
  split; auto. split; auto. split; [apply b64_idem|]. split; [|split; [|split]].
  - replace ((2 * INR T + 4) * u64) with ((2 * INR T + 2) * u64 + 2 * u64) by ring. auto.
  - split; intros H.
    + apply Z. destruct C; auto. exfalso. assert (0 < INR II / Q_) by (apply Rdiv_lt_0_compat; lra). lra.
    + destruct C as [C|C]; [rewrite C; unfold Rdiv; ring|]. specialize (L ltac:(lra)). lra.
  - intros H. apply L. destruct C as [C|C]; [rewrite C in H; unfold Rdiv in H; rewrite Rmult_0_l in H; lra|lra].
  - apply div_le; [lra|]. destruct II_le as [I1 I2]. apply le_INR in I1. rewrite mult_INR in I1. change (INR 2) with 2 in I1. lra.
Qed.

Lemma theta_out_near : (D_ = 0 /\ D'_ = 0) \/ (D_ <> 0 /\ D'_ <> 0 /\ near ((2 * INR mm + 6) * u64) (INR NN / D_) (binary64 (INR NN / D'_))).
Proof.
  pose proof u64_pos as U. pose proof u64_eq as U1. pose proof T_le as HT'. destruct D_facts as [Z|[B A]]; [left; auto|]. right.
  assert (R0 : 0 <= (2 * INR mm + 4) * u64) by (apply Rmult_le_pos; lra).
  assert (R2 : (2 * INR mm + 4) * u64 <= 33554436 * u64) by (apply Rmult_le_compat_r; lra).
  assert (C : INR NN = 0 \/ 1 <= INR NN) by (destruct NN; [left; reflexivity|right; apply (le_INR 1); lia]).
  assert (C2 : 0 < D_ <= 67108864) by lra.
  destruct (@quot_rel ((2 * INR mm + 4) * u64) (INR NN) D_ D'_ R0) as (P & F & E & Z & L); auto.
  { apply Rle_trans with (8 * (33554436 * u64 * (33554436 * u64))); [|].
    - apply Rmult_le_compat_l; [lra|]. apply Rmult_le_compat; lra.
    - replace (8 * (33554436 * u64 * (33554436 * u64))) with (u64 * (8 * 33554436 * 33554436 * u64)) by ring. rewrite (Rmult_comm 2). apply Rmult_le_compat_l; lra. }
  split; [lra|]. split; [lra|]. split; auto. split; [apply b64_idem|]. split; [|split; [|split]].
  - replace ((2 * INR mm + 6) * u64) with ((2 * INR mm + 4) * u64 + 2 * u64) by ring. auto.
  - split; intros H.
    + apply Z. destruct C; auto. exfalso. assert (0 < INR NN / D_) by (apply Rdiv_lt_0_compat; lra). lra.
    + destruct C as [C|C]; [rewrite C; unfold Rdiv; ring|]. specialize (L ltac:(lra)). lra.
  - intros H. apply L. destruct C as [C|C]; [rewrite C in H; unfold Rdiv in H; rewrite Rmult_0_l in H; lra|lra].
  - apply div_le; [lra|]. destruct II_le as [I1 I2]. apply le_INR in I2. rewrite mult_INR in I2. change (INR 2) with 2 in I2. lra.
Qed.
End Thetas.
