(** Lemmas for the LFR experiment: the community vector, percentiles. *)
From Coq Require Import String Sorted.
From Flocq Require Import Core.
From Verif Require Import PyBase PyGraph M_partition M_champ M_leiden M_estimation_utils M_checks M_generators M_lfr Spec_lfr L_base L_sort L_canon.
Open Scope list_scope.
Open Scope R_scope.
Set Implicit Arguments.

(** ** Community vector *)
Lemma update_error {A} (l : list A) k (x : A) : (k < length l)%nat ->
  exists l', py_update l k (fun _ => x) = Ok l' /\ length l' = length l /\ nth_error l' k = Some x /\ forall i, i <> k -> nth_error l' i = nth_error l i.
Proof.
  revert k. induction l as [|y l IH]; intros k Hk; [cbn in Hk; lia|]. destruct k as [|k]; cbn [py_update].
  - exists (x :: l). split; auto. split; auto. split; auto. intros [|i] Hi; [congruence|reflexivity].
  - destruct (IH k) as (l' & E & L & N & O); [cbn in Hk; lia|]. rewrite E. cbn [bind]. exists (y :: l'). split; auto. split; [cbn; congruence|]. split; auto.
    intros [|i] Hi; [reflexivity|]. cbn. apply O. congruence.
Qed.
Lemma write_one (i : nat) c : forall vec, (forall v, In v c -> (v < length vec)%nat) ->
  exists vec', foldM (fun vec v => py_update vec v (fun _ => Some i)) c vec = Ok vec' /\ length vec' = length vec /\
    (forall v, In v c -> nth_error vec' v = Some (Some i)) /\ forall v, ~ In v c -> nth_error vec' v = nth_error vec v.
Proof.
  induction c as [|v c IH]; intros vec H; cbn [foldM].
  - exists vec. split; [reflexivity|]. split; [reflexivity|]. split; [intros v []|auto].
  - destruct (@update_error _ vec v (Some i)) as (vec1 & E & L & N & O); [apply H; left; reflexivity|]. rewrite E. cbn [bind].
    destruct (IH vec1) as (vec' & E' & L' & N' & O'); [intros w Hw; rewrite L; apply H; right; exact Hw|]. exists vec'. split; [exact E'|]. split; [congruence|]. split.
    + intros w [<-|Hw]; [|auto]. destruct (in_dec Nat.eq_dec v c); [auto|]. rewrite O' by assumption. exact N.
    + intros w Hw. rewrite O' by (intros X; apply Hw; right; exact X). apply O. intros ->. apply Hw. left. reflexivity.
Qed.
Lemma write_all : forall cs k vec, (forall c, In c cs -> c <> []) -> (forall c v, In c cs -> In v c -> (v < length vec)%nat) ->
  exists vec', foldM (fun vec (ic : nat * list nat) => match snd ic with
                       | [] => Raise AssertionError
                       | _ => foldM (fun vec v => py_update vec v (fun _ => Some (fst ic))) (snd ic) vec
                       end) (enumerate_from k cs) vec = Ok vec' /\ length vec' = length vec /\
    (forall v, (forall c, In c cs -> ~ In v c) -> nth_error vec' v = nth_error vec v) /\
    ((forall i j c c' v, nth_error cs i = Some c -> nth_error cs j = Some c' -> In v c -> In v c' -> i = j) ->
     forall i c v, nth_error cs i = Some c -> In v c -> nth_error vec' v = Some (Some (k + i)%nat)).
Proof.
  induction cs as [|c cs IH]; intros k vec H1 H2; cbn [enumerate_from foldM].
  - exists vec. split; [reflexivity|]. split; [reflexivity|]. split; [auto|]. intros _ [|i]; discriminate.
  - cbn [fst snd]. destruct (@write_one k c vec) as (vec1 & E & L & N & O); [intros v Hv; eapply H2; [left; reflexivity|exact Hv]|].
    assert (EE : match c with [] => Raise AssertionError | _ :: _ => foldM (fun vec v => py_update vec v (fun _ => Some k)) c vec end = Ok vec1).
    { destruct c; [exfalso; apply (H1 []); [left; reflexivity|reflexivity]|exact E]. }
    rewrite EE. cbn [bind]. destruct (IH (S k) vec1) as (vec' & E' & L' & N' & O').
    + intros c' Hc. apply H1. right. exact Hc.
    + intros c' v Hc Hv. rewrite L. eapply H2; [right; exact Hc|exact Hv].
    + exists vec'. split; [exact E'|]. split; [congruence|]. split.
      * intros v Hv. rewrite N' by (intros c' Hc; apply Hv; right; exact Hc). apply O. apply Hv. left. reflexivity.
      * intros HD [|i] c' v Hi Hv; cbn in Hi.
        -- injection Hi as <-. rewrite Nat.add_0_r. rewrite N'; [auto|]. intros c' Hc Hv'. apply In_nth_error in Hc as (j & Hj).
           specialize (HD 0%nat (S j) c c' v eq_refl Hj Hv Hv'). discriminate.
        -- replace (k + S i)%nat with (S k + i)%nat by lia. apply O' with (c := c'); auto. intros a b x x' w A B C D. specialize (HD (S a) (S b) x x' w A B C D). lia.
Qed.
Lemma check_all cs vec : (forall i c v, nth_error cs i = Some c -> In v c -> nth_error vec v = Some (Some i)) -> check_communities cs vec = Ok tt.
Proof.
  intros H. unfold check_communities, enumerate.
  assert (X : forall cs k, (forall i c v, nth_error cs i = Some c -> In v c -> nth_error vec v = Some (Some (k + i)%nat)) ->
    foldM (fun _ ic => foldM (fun _ v => let! o := py_get vec v in match o with Some i => if Nat.eqb i (fst ic) then Ok tt else Raise AssertionError | None => Raise AssertionError end) (snd ic) tt) (enumerate_from k cs) tt = Ok tt).
  { clear cs H. induction cs as [|c cs IH]; intros k H; [reflexivity|]. cbn [enumerate_from foldM fst snd].
    assert (Y : forall c', (forall v, In v c' -> In v c) -> foldM (fun _ v => let! o := py_get vec v in match o with Some i => if Nat.eqb i k then Ok tt else Raise AssertionError | None => Raise AssertionError end) c' tt = Ok tt).
    { induction c' as [|v c' IHc]; intros Hc; [reflexivity|]. cbn [foldM]. unfold py_get at 1. rewrite (H 0%nat c v eq_refl (Hc v (or_introl eq_refl))). cbn [bind]. rewrite Nat.add_0_r, Nat.eqb_refl. cbn [bind]. apply IHc. intros w Hw. apply Hc. right. exact Hw. }
    rewrite Y by auto. cbn [bind]. apply IH. intros i c' v Hi Hv. replace (S k + i)%nat with (k + S i)%nat by lia. apply (H (S i) c'); auto. }
  apply X. exact H.
Qed.
Lemma extract_all (vec : list (option nat)) : (forall v, (v < length vec)%nat -> exists i, nth_error vec v = Some (Some i)) ->
  exists c, mapM (fun o => match o with Some i => Ok i | None => Raise AssertionError end) vec = Ok c /\ length c = length vec /\ forall v i, nth_error vec v = Some (Some i) -> nth_error c v = Some i.
Proof.
  induction vec as [|o vec IH]; intros H.
  - exists []. split; [reflexivity|]. split; [reflexivity|]. intros [|v]; discriminate.
  - destruct (H 0%nat) as (i & Hi); [cbn; lia|]. cbn in Hi. injection Hi as ->. destruct IH as (c & E & L & N).
    + intros v Hv. apply (H (S v)). cbn. lia.
    + exists (i :: c). cbn [mapM bind]. rewrite E. split; [reflexivity|]. split; [cbn; congruence|]. intros [|v] j Hj; cbn in *; [injection Hj as <-; reflexivity|auto].
Qed.

(** ** Percentiles *)
Lemma sorted_nth l : let s := sort_by Rleb l in Permutation s l /\ length s = length l /\ forall i j, (i <= j < length l)%nat -> nth i s 0 <= nth j s 0.
Proof.
  intros s. destruct (sort_by_key (fun x : R => x) l) as [P S]. change (sort_by (fun a b => Rleb a b) l) with s in P, S. assert (L := Permutation_length P). split; [exact P|]. split; [exact L|].
  intros i j [H1 H2]. destruct (Nat.eq_dec i j) as [->|N]; [lra|]. eapply (StronglySorted_nth S (i := i) (j := j)); [lia| |]; apply nth_error_nth'; rewrite L; lia.
Qed.
(** linear interpolation in an increasing list *)
Definition interpolate (s : list R) (pos : R) : R :=
  let i := Z.to_nat (Zfloor pos) in nth i s 0 + (pos - INR i) * (nth (S i) s (nth i s 0) - nth i s 0).
Section Interpolation.
Variable s : list R.
Hypothesis sorted : forall i j, (i <= j < length s)%nat -> nth i s 0 <= nth j s 0.
Lemma floor_facts pos : 0 <= pos -> INR (Z.to_nat (Zfloor pos)) <= pos < INR (Z.to_nat (Zfloor pos)) + 1.
Proof.
  clear. intros H. assert (0 <= Zfloor pos)%Z by (apply Zfloor_lub; exact H). rewrite INR_IZR_INZ, Z2Nat.id by exact H0. split; [apply Zfloor_lb|apply Zfloor_ub].
Qed.
Lemma floor_bound pos : 0 <= pos <= INR (length s - 1) -> (Z.to_nat (Zfloor pos) <= length s - 1)%nat.
Proof. clear. intros [H1 H2]. apply INR_le. pose proof (floor_facts H1). lra. Qed.
Lemma next_nth i : (i < length s)%nat -> nth i s 0 <= nth (S i) s (nth i s 0) /\ ((S i < length s)%nat -> nth (S i) s (nth i s 0) = nth (S i) s 0).
Proof.
  intros H. destruct (Nat.lt_ge_cases (S i) (length s)) as [L|L].
  - assert (E : nth (S i) s (nth i s 0) = nth (S i) s 0) by (apply nth_indep; exact L). split; [rewrite E; apply sorted; lia|auto].
  - rewrite (nth_overflow s (n := S i)) by exact L. split; [lra|intros; lia].
Qed.
Lemma interpolate_cell pos : s <> [] -> 0 <= pos <= INR (length s - 1) ->
  let i := Z.to_nat (Zfloor pos) in nth i s 0 <= interpolate s pos <= nth (S i) s (nth i s 0).
Proof.
  intros N H i. assert (L : (0 < length s)%nat) by (destruct s; [contradiction|cbn; lia]). pose proof (floor_bound H) as B. fold i in B. destruct (@next_nth i) as [H1 _]; [lia|].
  pose proof (@floor_facts pos (proj1 H)) as F. fold i in F. unfold interpolate. fold i. set (a := nth i s 0) in *. set (b := nth (S i) s a) in *. clearbody a b.
  assert (0 <= (pos - INR i) * (b - a)) by (apply Rmult_le_pos; lra). assert ((pos - INR i) * (b - a) <= 1 * (b - a)) by (apply Rmult_le_compat_r; lra). lra.
Qed.
Lemma interpolate_mono p q : s <> [] -> 0 <= p <= q -> q <= INR (length s - 1) -> interpolate s p <= interpolate s q.
Proof.
  intros N [H0 H1] H2. assert (L : (0 < length s)%nat) by (destruct s; [contradiction|cbn; lia]).
  assert (Hp : 0 <= p <= INR (length s - 1)) by lra. assert (Hq : 0 <= q <= INR (length s - 1)) by lra.
  pose proof (floor_bound Hp) as Bp. pose proof (floor_bound Hq) as Bq. pose proof (interpolate_cell N Hp) as Cp. pose proof (interpolate_cell N Hq) as Cq. cbv zeta in Cp, Cq.
  assert (Zfloor p <= Zfloor q)%Z by (apply Zfloor_le; exact H1). assert (HI : (Z.to_nat (Zfloor p) <= Z.to_nat (Zfloor q))%nat) by (apply Z2Nat.inj_le; [apply Zfloor_lub; lra|apply Zfloor_lub; lra|exact H]).
  destruct (Nat.eq_dec (Z.to_nat (Zfloor p)) (Z.to_nat (Zfloor q))) as [E|E].
  - unfold interpolate. rewrite <- E. destruct (@next_nth (Z.to_nat (Zfloor p))) as [M _]; [lia|]. apply Rplus_le_compat_l. apply Rmult_le_compat_r; lra.
  - destruct (@next_nth (Z.to_nat (Zfloor p))) as [_ M]; [lia|]. rewrite M in Cp by lia. assert (nth (S (Z.to_nat (Zfloor p))) s 0 <= nth (Z.to_nat (Zfloor q)) s 0) by (apply sorted; lia). lra.
Qed.
End Interpolation.

Lemma percentile_eq l q : percentile l q = interpolate (sort_by Rleb l) (q * INR (length l - 1)).
Proof. reflexivity. Qed.
Lemma percentile_mono l p q : l <> [] -> 0 <= p <= q -> q <= 1 -> percentile l p <= percentile l q.
Proof.
  intros N H1 H2. destruct (sorted_nth l) as (P & L & S). rewrite !percentile_eq. assert (0 <= INR (length l - 1)) by apply pos_INR.
  apply interpolate_mono.
  - rewrite L. exact S.
  - intros E. rewrite E in P. apply Permutation_nil in P. contradiction.
  - split; [apply Rmult_le_pos; lra|apply Rmult_le_compat_r; lra].
  - rewrite L. assert (q * INR (length l - 1) <= 1 * INR (length l - 1)) by (apply Rmult_le_compat_r; lra). lra.
Qed.
Lemma percentile_range l q lo hi : l <> [] -> 0 <= q <= 1 -> (forall x, In x l -> lo <= x <= hi) -> lo <= percentile l q <= hi.
Proof.
  intros N Hq HR. destruct (sorted_nth l) as (P & L & S). rewrite percentile_eq. assert (A := pos_INR (length l - 1)). assert (NL : (0 < length l)%nat) by (destruct l; [contradiction|cbn; lia]).
  assert (HP : 0 <= q * INR (length l - 1) <= INR (length (sort_by Rleb l) - 1)). { rewrite L. split; [apply Rmult_le_pos; lra|]. assert (q * INR (length l - 1) <= 1 * INR (length l - 1)) by (apply Rmult_le_compat_r; lra). lra. }
  assert (IN : forall i, (i < length l)%nat -> lo <= nth i (sort_by Rleb l) 0 <= hi). { intros i Hi. apply HR. apply (Permutation_in _ P). apply nth_In. rewrite L. exact Hi. }
  assert (SS : forall i j, (i <= j < length (sort_by Rleb l))%nat -> nth i (sort_by Rleb l) 0 <= nth j (sort_by Rleb l) 0) by (rewrite L; exact S).
  assert (NN : sort_by Rleb l <> []). { intros E. rewrite E in P. apply Permutation_nil in P. contradiction. }
  pose proof (interpolate_cell SS NN HP) as C. cbv zeta in C. pose proof (floor_bound _ HP) as B. rewrite L in B. set (i := Z.to_nat (Zfloor (q * INR (length l - 1)))) in *.
  pose proof (IN i ltac:(lia)) as I1. destruct (Nat.lt_ge_cases (Datatypes.S i) (length l)) as [Li|Li].
  - rewrite (nth_indep _ (nth i (sort_by Rleb l) 0) 0) in C by (rewrite L; exact Li). pose proof (IN (Datatypes.S i) Li). lra.
  - rewrite (nth_overflow (sort_by Rleb l) (n := Datatypes.S i)) in C by (rewrite L; exact Li). lra.
Qed.
Lemma percentile_median l : l <> [] -> median_of l (percentile l (1 / 2)).
Proof.
  intros N. destruct (sorted_nth l) as (P & L & S). exists (sort_by Rleb l). split; [exact P|]. rewrite L. split; [intros i j H; apply S; lia|].
  assert (NL : (0 < length l)%nat) by (destruct l; [contradiction|cbn; lia]). rewrite percentile_eq. destruct (Nat.Even_or_Odd (length l)) as [[k E]|[k E]].
  - right. exists (k - 1)%nat. split; [lia|]. assert (HK : (0 < k)%nat) by lia. unfold interpolate. rewrite E.
    assert (EP : 1 / 2 * INR (2 * k - 1) = INR (k - 1) + 1 / 2). { rewrite !minus_INR, mult_INR by lia. cbn. lra. }
    rewrite EP. assert (EF : Zfloor (INR (k - 1) + 1 / 2) = Z.of_nat (k - 1)). { apply Zfloor_imp. rewrite plus_IZR, <- INR_IZR_INZ. lra. }
    rewrite EF, Nat2Z.id. rewrite (nth_indep _ (nth (k - 1) (sort_by Rleb l) 0) 0) by lia. replace (Datatypes.S (k - 1)) with (k - 1 + 1)%nat by lia. lra.
  - left. exists k. split; [exact E|]. unfold interpolate. rewrite E. assert (EP : 1 / 2 * INR (2 * k + 1 - 1) = INR k). { replace (2 * k + 1 - 1)%nat with (2 * k)%nat by lia. rewrite mult_INR. cbn. lra. }
    rewrite EP. assert (EF : Zfloor (INR k) = Z.of_nat k) by (rewrite INR_IZR_INZ; apply Zfloor_IZR). rewrite EF, Nat2Z.id. lra.
Qed.

(** at least the fraction q of the gaps lies below, at least 1-q above *)
Lemma filter_all {A} (f : A -> bool) l : (forall x, In x l -> f x = true) -> filter f l = l.
Proof. induction l as [|x l IH]; intros H; [reflexivity|]. cbn [filter]. rewrite (H x (or_introl eq_refl)). f_equal. apply IH. intros y Hy. apply H. right. exact Hy. Qed.
Lemma filter_short {A} (f : A -> bool) l : (length (filter f l) <= length l)%nat.
Proof. induction l as [|x l IH]; [reflexivity|]. cbn [filter]. destruct (f x); cbn [length]; lia. Qed.
Lemma filter_firstn_count (f : R -> bool) (s : list R) k : (k <= length s)%nat -> (forall i, (i < k)%nat -> f (nth i s 0) = true) -> (k <= length (filter f s))%nat.
Proof.
  intros H1 H2. rewrite <- (firstn_skipn k s), filter_app, app_length. assert (E : filter f (firstn k s) = firstn k s).
  { apply filter_all. intros x Hx. apply (In_nth _ _ 0) in Hx as (i & Hi & <-). rewrite firstn_length in Hi.
    replace (nth i (firstn k s) 0) with (nth i s 0); [apply H2; lia|]. rewrite <- (firstn_skipn k s) at 1. apply app_nth1. rewrite firstn_length. exact Hi. }
  rewrite E, firstn_length. lia.
Qed.
Lemma filter_skipn_count (f : R -> bool) (s : list R) k : (forall i, (k <= i < length s)%nat -> f (nth i s 0) = true) -> (length s - k <= length (filter f s))%nat.
Proof.
  intros H2. rewrite <- (firstn_skipn k s) at 2. rewrite filter_app, app_length. assert (E : filter f (skipn k s) = skipn k s).
  { apply filter_all. intros x Hx. apply (In_nth _ _ 0) in Hx as (i & Hi & <-). rewrite skipn_length in Hi.
    replace (nth i (skipn k s) 0) with (nth (k + i) s 0); [apply H2; lia|]. rewrite <- (firstn_skipn k s) at 1. rewrite app_nth2; rewrite firstn_length; [f_equal; lia|lia]. }
  rewrite E, skipn_length. lia.
Qed.
Lemma filter_perm_length {A} (f : A -> bool) l l' : Permutation l l' -> length (filter f l) = length (filter f l').
Proof. induction 1; cbn; auto; [destruct (f x); cbn; lia|destruct (f x); destruct (f y); cbn; lia|lia]. Qed.
Lemma percentile_quantile l q : l <> [] -> 0 <= q <= 1 -> quantile l q (percentile l q).
Proof.
  intros N Hq. destruct (sorted_nth l) as (P & L & S). assert (A := pos_INR (length l - 1)). assert (NL : (0 < length l)%nat) by (destruct l; [contradiction|cbn; lia]).
  assert (HP : 0 <= q * INR (length l - 1) <= INR (length (sort_by Rleb l) - 1)). { rewrite L. split; [apply Rmult_le_pos; lra|]. assert (q * INR (length l - 1) <= 1 * INR (length l - 1)) by (apply Rmult_le_compat_r; lra). lra. }
  assert (SS : forall i j, (i <= j < length (sort_by Rleb l))%nat -> nth i (sort_by Rleb l) 0 <= nth j (sort_by Rleb l) 0) by (rewrite L; exact S).
  assert (NN : sort_by Rleb l <> []). { intros E. rewrite E in P. apply Permutation_nil in P. contradiction. }
  pose proof (interpolate_cell SS NN HP) as C. cbv zeta in C. pose proof (floor_bound _ HP) as B. rewrite L in B. pose proof (floor_facts (proj1 HP)) as F.
  assert (EV : q * INR (length l - 1) = INR (Z.to_nat (Zfloor (q * INR (length l - 1)))) -> interpolate (sort_by Rleb l) (q * INR (length l - 1)) = nth (Z.to_nat (Zfloor (q * INR (length l - 1)))) (sort_by Rleb l) 0).
  { intros E. unfold interpolate. rewrite <- E. lra. }
  rewrite percentile_eq. set (i := Z.to_nat (Zfloor (q * INR (length l - 1)))) in *. set (pos := q * INR (length l - 1)) in *. set (v := interpolate (sort_by Rleb l) pos) in *.
  unfold quantile. rewrite !(filter_perm_length _ (Permutation_sym P)). split.
  - assert (K : (Datatypes.S i <= length (filter (fun x => Rleb x v) (sort_by Rleb l)))%nat).
    { apply filter_firstn_count; [lia|]. intros j Hj. apply Rleb_true. apply Rle_trans with (nth i (sort_by Rleb l) 0); [apply S; lia|apply C]. }
    apply le_INR in K. rewrite S_INR in K. fold pos. lra.
  - replace ((1 - q) * INR (length l - 1)) with (INR (length l - 1) - pos) by (unfold pos; ring).
    destruct (Req_dec pos (INR i)) as [E|E].
    + assert (K : (length l - i <= length (filter (fun x => Rleb v x) (sort_by Rleb l)))%nat).
      { rewrite <- L. apply filter_skipn_count. intros j Hj. apply Rleb_true. rewrite (EV E). apply S. lia. }
      apply le_INR in K. rewrite minus_INR in K by lia. rewrite minus_INR by lia. cbn [INR]. lra.
    + assert (Li : (Datatypes.S i < length l)%nat). { destruct (Nat.lt_ge_cases (Datatypes.S i) (length l)) as [X|X]; [exact X|]. exfalso. assert (i = length l - 1)%nat by lia. rewrite L in HP. apply E. rewrite H in *. lra. }
      assert (K : (length l - Datatypes.S i <= length (filter (fun x => Rleb v x) (sort_by Rleb l)))%nat).
      { rewrite <- L. apply filter_skipn_count. intros j Hj. apply Rleb_true. apply Rle_trans with (nth (Datatypes.S i) (sort_by Rleb l) 0); [|apply S; lia]. rewrite (nth_indep _ (nth i (sort_by Rleb l) 0) 0) in C by (rewrite L; exact Li). apply C. }
      apply le_INR in K. rewrite minus_INR in K by lia. rewrite S_INR in K. rewrite minus_INR by lia. cbn [INR]. lra.
Qed.
