(** The consistency check. *)
From Verif Require Import PyBase PyGraph M_partition M_champ M_leiden M_estimation_utils M_estimation Spec Spec_graph Spec_check
  L_base L_modularity.
Set Implicit Arguments.
Open Scope R_scope.

(** A boolean rule list that decides a propositional one, message by message. *)
Definition decides (b : rule) (p : Prop * string) : Prop := (fst b = true <-> fst p) /\ snd b = snd p.

Lemma decides_lines bs ps : Forall2 decides bs ps -> violated_lines ps (map snd (filter (fun r => negb (fst r)) bs)).
Proof.
  induction 1 as [|[b s] [P s'] bs ps [H E] _ IH]; cbn in *; [constructor|]. subst s'. destruct b; cbn.
  - apply rule_holds; auto. apply (proj1 H). reflexivity.
  - apply rule_violated; auto. intros HP. apply (proj2 H) in HP. discriminate.
Qed.

Lemma filter_none (bs : list rule) : map snd (filter (fun r => negb (fst r)) bs) = [] <-> forallb fst bs = true.
Proof.
  induction bs as [|[b s] bs IH]; cbn; [tauto|]. destruct b; cbn; [auto|]. split; discriminate.
Qed.

Lemma all_within_ok lv es : (forall u v, In (u, v) es -> (u < length lv)%nat /\ (v < length lv)%nat) ->
  exists b, all_within lv es = Ok b /\ (b = true <-> forall u v, In (u, v) es -> nth u lv 0%nat = nth v lv 0%nat).
Proof.
  induction es as [|[u v] es IH]; intros H.
  - exists true. split; [reflexivity|]. split; auto. intros _ u v [].
  - destruct IH as (b & Hb & E); [intros; apply H; right; auto|]. destruct (H u v) as [Hu Hv]; [left; auto|].
    cbn [all_within fst snd]. rewrite (@py_get_ok _ lv u 0%nat Hu), (@py_get_ok _ lv v 0%nat Hv). cbn [bind].
    destruct (Nat.eqb_spec (nth u lv 0%nat) (nth v lv 0%nat)) as [Euv|N].
    + exists b. split; auto. rewrite E. split.
      * intros Hall x y [Hxy|Hxy]; [inversion Hxy; subst; auto|auto].
      * intros Hall x y Hxy. apply Hall. right. auto.
    + exists false. split; auto. split; [discriminate|]. intros Hall. exfalso. apply N. apply Hall. left. auto.
Qed.

Lemma only_for_ok model name c P : (exists b, c = Ok b /\ (b = true <-> P)) ->
  exists b, only_for model name c = Ok b /\ (b = true <-> (model = name -> P)).
Proof.
  intros (b & -> & H). unfold only_for. destruct (String.eqb_spec model name) as [E|N].
  - exists b. split; auto. rewrite H. tauto.
  - exists true. split; auto. split; auto. intros _ E. congruence.
Qed.

Lemma forallb_iff {A} (f : A -> bool) (P : A -> Prop) l : (forall a, In a l -> (f a = true <-> P a)) ->
  (forallb f l = true <-> forall a, In a l -> P a).
Proof.
  intros H. rewrite forallb_forall. split; intros G a Ha; [apply H; auto|apply (proj2 (H a Ha)); auto].
Qed.

Lemma count_occ_sum (f : nat * nat -> nat) E v : count_occ Nat.eq_dec (map f E) v = list_sum (map (fun e => b2n (f e =? v)%nat) E).
Proof.
  induction E as [|e E IH]; auto. cbn [map count_occ]. unfold list_sum in *. cbn [fold_right]. rewrite <- IH.
  destruct (Nat.eq_dec (f e) v), (Nat.eqb_spec (f e) v); try congruence; reflexivity.
Qed.

Lemma in_degrees_arriving g : in_degrees g = map (arriving g) (seq 0 (vcount g)).
Proof.
  unfold in_degrees, all_degrees, arriving. destruct (directed g); apply map_ext; intros v; rewrite ?count_occ_sum; [lia|].
  rewrite list_sum_map_plus. lia.
Qed.

Lemma rules_ok g gi lv model m_t T N Nt : (0 < T)%nat -> (forall u v, In (u, v) (edges g) -> (u < length lv)%nat /\ (v < length lv)%nat) ->
  exists bs, consistency_rules g gi lv model m_t T (Some N) (Some Nt) = Ok bs /\
    Forall2 decides bs (structural_rules g gi lv model m_t T N Nt).
Proof.
  intros HT Hr. unfold consistency_rules, need.
  destruct (@all_within_ok lv (edges g) Hr) as (b6 & -> & E6). cbn [bind].
  destruct (@only_for_ok model "temporal" (Ok (Z.eqb (Z.of_nat (ecount gi)) (Z.of_nat N * (Z.of_nat T - 1)))) (Z.of_nat (length (edges gi)) = Z.of_nat N * (Z.of_nat T - 1))%Z) as (b7 & -> & E7).
  { eexists; split; [reflexivity|]. apply Z.eqb_eq. } cbn [bind].
  destruct (@only_for_ok model "temporal" (if Nat.eqb T 0 then Raise ZeroDivisionError else Ok (Nat.eqb (vcount gi mod T) 0 && Nat.eqb (vcount g mod T) 0)) (Nat.divide T (vcount gi) /\ Nat.divide T (vcount g))) as (b8 & -> & E8).
  { destruct (Nat.eqb_spec T 0); [lia|]. eexists; split; [reflexivity|]. rewrite andb_true_iff, !Nat.eqb_eq, !Nat.mod_divide by lia. tauto. } cbn [bind].
  destruct (@only_for_ok model "temporal" (Ok (forallb (fun x => none_eqb x (Some N)) Nt)) (forall nt, In nt Nt -> nt = N)) as (b9 & -> & E9).
  { eexists; split; [reflexivity|]. apply forallb_iff. intros a _. apply Nat.eqb_eq. } cbn [bind].
  destruct (@only_for_ok model "multilevel" (Ok (forallb (fun x => Nat.ltb 0 x) Nt)) (forall nt, In nt Nt -> 0 < nt)%nat) as (b10 & -> & E10).
  { eexists; split; [reflexivity|]. apply forallb_iff. intros a _. apply Nat.ltb_lt. } cbn [bind].
  destruct (@only_for_ok model "multilevel" (Ok (forallb (fun d => Nat.leb d 1) (in_degrees gi))) (forall v, v < vcount gi -> arriving gi v <= 1)%nat) as (b11 & -> & E11).
  { eexists; split; [reflexivity|]. rewrite in_degrees_arriving, forallb_forall. split.
    - intros H v Hv. apply Nat.leb_le. apply H. apply in_map, in_seq. lia.
    - intros H d Hd. apply in_map_iff in Hd. destruct Hd as (v & <- & Hv). apply in_seq in Hv. apply Nat.leb_le. apply H. lia. } cbn [bind].
  destruct (@only_for_ok model "multiplex" (Ok (forallb (fun x => none_eqb x (Some N)) Nt)) (forall nt, In nt Nt -> nt = N)) as (b12 & -> & E12).
  { eexists; split; [reflexivity|]. apply forallb_iff. intros a _. apply Nat.eqb_eq. } cbn [bind].
  destruct (@only_for_ok model "multiplex" (Ok (Z.eqb (Z.of_nat (ecount gi)) (Z.of_nat N * Z.of_nat T * (Z.of_nat T - 1)))) (Z.of_nat (length (edges gi)) = Z.of_nat N * Z.of_nat T * (Z.of_nat T - 1))%Z) as (b13 & -> & E13).
  { eexists; split; [reflexivity|]. apply Z.eqb_eq. } cbn [bind].
  eexists. split; [reflexivity|]. unfold structural_rules.
  repeat (constructor; [split; [cbn [fst]|reflexivity]|]); auto.
  - apply Nat.ltb_lt.
  - tauto.
  - apply Nat.eqb_eq.
  - apply Nat.eqb_eq.
  - apply forallb_iff. intros a _. apply Rltb_true.
Qed.

Lemma check_lines g gi lv model m_t T N Nt : (0 < T)%nat -> (forall u v, In (u, v) (edges g) -> (u < length lv)%nat /\ (v < length lv)%nat) ->
  exists lines, violated_lines (structural_rules g gi lv model m_t T N Nt) lines /\
    check_multilayer_graph_consistency g gi lv model m_t T (Some N) (Some Nt) = match lines with [] => Accepted | _ :: _ => Malformed lines end.
Proof.
  intros HT Hr. destruct (@rules_ok g gi lv model m_t T N Nt HT Hr) as (bs & E & D). exists (map snd (filter (fun r => negb (fst r)) bs)).
  split; [apply decides_lines; auto|]. unfold check_multilayer_graph_consistency. rewrite E.
  pose proof (filter_none bs) as F. destruct (forallb fst bs); [rewrite (proj2 F); auto|].
  destruct (map snd (filter (fun r => negb (fst r)) bs)) eqn:Z; auto. exfalso. destruct F as [F _]. specialize (F eq_refl). discriminate.
Qed.

Lemma violated_none rs : violated_lines rs [] -> Forall (fun r => fst r) rs.
Proof.
  intros H. remember [] as l eqn:El. induction H; try discriminate; constructor; auto.
Qed.
Lemma violated_all rs : Forall (fun r => fst r) rs -> forall l, violated_lines rs l -> l = [].
Proof.
  induction 1 as [|[P s] rs HP _ IH]; intros l H; inversion H; subst; auto. cbn in HP. contradiction.
Qed.

Lemma accepted_iff g gi lv model m_t T N Nt : (0 < T)%nat -> (forall u v, In (u, v) (edges g) -> (u < length lv)%nat /\ (v < length lv)%nat) ->
  (check_multilayer_graph_consistency g gi lv model m_t T (Some N) (Some Nt) = Accepted <->
   Forall (fun r => fst r) (structural_rules g gi lv model m_t T N Nt)).
Proof.
  intros HT Hr. destruct (@check_lines g gi lv model m_t T N Nt HT Hr) as (lines & V & ->). split.
  - destruct lines; [intros _; apply violated_none; auto|discriminate].
  - intros F. rewrite (violated_all F V). reflexivity.
Qed.
