(** Property theorems about the printed agreement of the law firm's stable partitions with its metadata: C111. *)
From Verif Require Import PyBase PyGraph M_partition M_studies Spec L_base L_canon.
Open Scope R_scope.

(** What the j-th printed value compares a partition with, for the person of a row: office, practice, age and seniority in steps of five
    years, status, gender, law school. *)
Definition attribute (j : nat) (row : list nat) : option nat :=
  match j with
  | 0%nat => nth_error row 3 | 1%nat => nth_error row 6
  | 2%nat => option_map (fun years => (years / 5)%nat) (nth_error row 5) | 3%nat => option_map (fun years => (years / 5)%nat) (nth_error row 4)
  | 4%nat => nth_error row 1 | 5%nat => nth_error row 2 | 6%nat => nth_error row 7
  | _ => None
  end.

Lemma row_ok (row : list nat) : (8 <= length row)%nat -> exists x0 x1 x2 x3 x4 x5 x6 x7 rest, row = x0 :: x1 :: x2 :: x3 :: x4 :: x5 :: x6 :: x7 :: rest.
Proof.
  intros H. do 8 (destruct row as [|?x row]; [cbn in H; lia|]). repeat eexists.
Qed.
Definition row_attributes (x : list nat) : res (list nat) :=
  let! status := py_get x 1 in let! gender := py_get x 2 in let! office := py_get x 3 in
  let! seniority := py_get x 4 in let! age := py_get x 5 in let! practice := py_get x 6 in let! law_school := py_get x 7 in
  Ok [office; practice; (age / 5)%nat; (seniority / 5)%nat; status; gender; law_school].
Lemma row_attributes_ok row : (8 <= length row)%nat -> exists l, row_attributes row = Ok l /\ length l = 7%nat /\ forall j, nth_error l j = attribute j row.
Proof.
  intros H. destruct (row_ok row H) as (x0 & x1 & x2 & x3 & x4 & x5 & x6 & x7 & rest & ->). eexists. split; [reflexivity|]. split; [reflexivity|].
  intros [|[|[|[|[|[|[|j]]]]]]]; try reflexivity. destruct j; reflexivity.
Qed.
Lemma row_attributes_raise row : (length row < 8)%nat -> row_attributes row = Raise IndexError.
Proof. intros H. do 8 (destruct row as [|?x row]; [reflexivity|]). cbn in H. lia. Qed.
Lemma metadata_columns_form rows : metadata_columns rows = (let! xs := mapM row_attributes rows in Ok (map (fun j => map (fun x => nth j x 0%nat) xs) (seq 0 7))).
Proof. reflexivity. Qed.
Lemma mapM_rows rows xs : mapM row_attributes rows = Ok xs ->
  length xs = length rows /\ (forall row, In row rows -> (8 <= length row)%nat) /\
  forall i row, nth_error rows i = Some row -> exists x, nth_error xs i = Some x /\ length x = 7%nat /\ forall j, nth_error x j = attribute j row.
Proof.
  revert xs. induction rows as [|r rows IH]; intros xs E; cbn [mapM] in E.
  - inversion E. split; [reflexivity|]. split; [intros row []|]. intros [|i] row H; discriminate.
  - apply bind_ok in E. destruct E as (x & Ex & E). apply bind_ok in E. destruct E as (ys & Ey & E). inversion E. subst xs. destruct (IH ys Ey) as (L & A & F).
    assert (H8 : (8 <= length r)%nat) by (destruct (le_lt_dec 8 (length r)); auto; rewrite row_attributes_raise in Ex by auto; discriminate).
    split; [cbn; lia|]. split; [intros row [<-|Hr]; auto|]. intros [|i] row H; cbn in H |- *; [inversion H; subst|apply F; auto].
    destruct (row_attributes_ok row H8) as (l & El & Ll & Al). rewrite El in Ex. inversion Ex. subst. eauto.
Qed.
Lemma columns_ok rows columns : metadata_columns rows = Ok columns ->
  length columns = 7%nat /\ (forall row, In row rows -> (8 <= length row)%nat) /\
  forall j column, nth_error columns j = Some column -> length column = length rows /\ forall i row, nth_error rows i = Some row -> nth_error column i = attribute j row.
Proof.
  rewrite metadata_columns_form. intros E. apply bind_ok in E. destruct E as (xs & Ex & E). destruct (mapM_rows rows xs Ex) as (L & A & F). assert (E' : columns = map (fun j => map (fun x => nth j x 0%nat) xs) (seq 0 7)) by congruence. clear E. subst columns.
  split; [reflexivity|]. split; [exact A|]. intros j column Hj. rewrite nth_error_map in Hj. destruct (nth_error (seq 0 7) j) as [j'|] eqn:Ej; [|discriminate]. cbn [option_map] in Hj.
  assert (j < 7)%nat as Hj7 by (assert (X : nth_error (seq 0 7) j <> None) by congruence; apply nth_error_Some in X; rewrite seq_length in X; exact X).
  apply nth_error_nth with (d := 0%nat) in Ej. rewrite seq_nth in Ej by lia. cbn in Ej. subst j'. inversion Hj. subst column. split; [rewrite map_length; exact L|].
  intros i row Hi. destruct (F i row Hi) as (x & Hx & Lx & Ax). rewrite nth_error_map, Hx. cbn [option_map]. rewrite <- Ax. symmetry. apply nth_error_nth'. lia.
Qed.
Lemma columns_exist rows : (forall row, In row rows -> (8 <= length row)%nat) -> exists columns, metadata_columns rows = Ok columns.
Proof.
  intros H. rewrite metadata_columns_form. assert (exists xs, mapM row_attributes rows = Ok xs) as (xs & ->); [|cbn [bind]; eauto].
  induction rows as [|r rows IH]; [eexists; reflexivity|]. destruct (row_attributes_ok r (H r (or_introl eq_refl))) as (l & El & _). destruct IH as (xs & Ex); [intros row Hr; apply H; right; auto|].
  cbn [mapM]. rewrite El. cbn [bind]. rewrite Ex. eexists. reflexivity.
Qed.

(** What is printed for each partition: its number of communities, and seven values, the j-th being the nmi with the j-th attribute of the person behind each
    of the three copies of each vertex. *)
Theorem C111_printed : forall nmi rows memberships out,
  print_metadata_nmis nmi rows memberships = Ok out ->
  length out = length memberships /\
  forall i part, nth_error memberships i = Some part ->
    exists k values, nth_error out i = Some (k, values) /\ has_communities part k /\ length values = 7%nat /\
      forall j v, nth_error values j = Some v ->
        exists labels, nmi part labels = Ok v /\ length labels = (3 * length rows)%nat /\
          forall layer person row, (layer < 3)%nat -> nth_error rows person = Some row ->
            exists a, attribute j row = Some a /\ nth_error labels (layer * length rows + person) = Some a.
Proof.
  intros nmi rows memberships out E. unfold print_metadata_nmis in E. apply bind_ok in E. destruct E as (columns & Ec & E). destruct (columns_ok rows columns Ec) as (L7 & A8 & Hcol).
  revert out E. induction memberships as [|m ms IH]; intros out E; cbn [mapM] in E.
  - inversion E. split; [reflexivity|]. intros [|i] part H; discriminate.
  - apply bind_ok in E. destruct E as ([k values] & Ek & E). apply bind_ok in E. destruct E as (rest & Er & E). inversion E. subst out. destruct (IH rest Er) as [L F].
    split; [cbn; lia|]. intros [|i] part H; cbn in H |- *; [|apply F; auto]. inversion H. subst part. exists k, values. split; [reflexivity|].
    apply bind_ok in Ek. destruct Ek as (k' & Ek' & Ek). apply bind_ok in Ek. destruct Ek as (vs & Ev & Ek). inversion Ek. subst k' vs. split; [apply num_communities_has; auto|].
    assert (G : forall cols vals, mapM (fun column => nmi m (column ++ column ++ column)) cols = Ok vals ->
       length vals = length cols /\ forall j v, nth_error vals j = Some v -> exists column, nth_error cols j = Some column /\ nmi m (column ++ column ++ column) = Ok v).
    { clear. induction cols as [|c cols IH]; intros vals E; cbn [mapM] in E; [inversion E; split; [reflexivity|]; intros [|j] v H; discriminate|].
      apply bind_ok in E. destruct E as (y & Ey & E). apply bind_ok in E. destruct E as (ys & Eys & E). inversion E. subst vals. destruct (IH ys Eys) as [L F]. split; [cbn; lia|].
      intros [|j] v H; cbn in H |- *; [inversion H; subst; eauto|auto]. }
    destruct (G columns values Ev) as [Lv Fv]. split; [lia|]. intros j v Hv. destruct (Fv j v Hv) as (column & Hc & En). destruct (Hcol j column Hc) as [Lc Fc].
    exists (column ++ column ++ column). split; [exact En|]. split; [rewrite !app_length; lia|]. intros layer person row Hl Hr.
    assert (Hp : (person < length rows)%nat) by (apply nth_error_Some; congruence). specialize (Fc person row Hr).
    destruct (nth_error column person) as [a|] eqn:Ea; [|exfalso; apply nth_error_None in Ea; lia]. exists a. split; [auto|].
    destruct layer as [|[|[|layer]]]; [| | |lia].
    + cbn [Nat.mul Nat.add]. rewrite nth_error_app1 by lia. exact Ea.
    + rewrite nth_error_app2 by lia. replace (1 * length rows + person - length column)%nat with person by lia. rewrite nth_error_app1 by lia. exact Ea.
    + rewrite nth_error_app2 by lia. rewrite nth_error_app2 by lia. replace (2 * length rows + person - length column - length column)%nat with person by lia. exact Ea.
Qed.
Print Assumptions C111_printed.

(** A row with fewer than eight numbers is an IndexError; otherwise everything is printed for partitions in canonical form of three copies of the persons, and an
    AssertionError ends the printing at the first partition whose labels leave one out. *)
Theorem C111_outcomes : forall nmi rows memberships,
  ((exists row, In row rows /\ (length row < 8)%nat) -> print_metadata_nmis nmi rows memberships = Raise IndexError) /\
  ((forall row, In row rows -> (8 <= length row)%nat) ->
   (forall part labels, length part = (3 * length rows)%nat -> length labels = length part -> exists v, nmi part labels = Ok v) ->
   (forall part, In part memberships -> length part = (3 * length rows)%nat) -> rows <> [] ->
   ((forall part, In part memberships -> canonical part) -> exists out, print_metadata_nmis nmi rows memberships = Ok out) /\
   ((exists part x y, In part memberships /\ (x < y)%nat /\ In y part /\ ~ In x part) -> print_metadata_nmis nmi rows memberships = Raise AssertionError)).
Proof.
  intros nmi rows memberships. split.
  - intros (row & Hin & Hlt). unfold print_metadata_nmis. rewrite metadata_columns_form.
    assert (mapM row_attributes rows = Raise IndexError) as ->; [|reflexivity]. induction rows as [|r rows IH]; [destruct Hin|]. cbn [mapM].
    destruct (le_lt_dec 8 (length r)) as [H8|H8]; [|rewrite row_attributes_raise by auto; reflexivity]. destruct (row_attributes_ok r H8) as (l & -> & _). cbn [bind].
    destruct Hin as [->|Hin]; [lia|]. rewrite IH by auto. reflexivity.
  - intros H8 Hnmi Hlen Hne. unfold print_metadata_nmis. destruct (columns_exist rows H8) as (columns & Ec). rewrite Ec. cbn [bind]. destruct (columns_ok rows columns Ec) as (L7 & _ & Hcol).
    set (f := fun part => let! k := num_communities part in let! values := mapM (fun column => nmi part (column ++ column ++ column)) columns in Ok (k, values)).
    assert (Hv : forall part, length part = (3 * length rows)%nat -> exists values, mapM (fun column => nmi part (column ++ column ++ column)) columns = Ok values).
    { intros part Hp. assert (G : forall cols, (forall c, In c cols -> length c = length rows) -> exists values, mapM (fun column => nmi part (column ++ column ++ column)) cols = Ok values).
      { induction cols as [|c cols IH]; intros Hc; [eexists; reflexivity|]. destruct (Hnmi part (c ++ c ++ c) Hp) as (v & Ev); [rewrite !app_length, (Hc c) by (left; auto); lia|].
        destruct IH as (vs & Evs); [intros c' Hc'; apply Hc; right; auto|]. cbn [mapM]. rewrite Ev. cbn [bind]. rewrite Evs. eexists. reflexivity. }
      apply G. intros c Hc. apply In_nth_error in Hc. destruct Hc as (j & Hj). apply (Hcol j c Hj). }
    assert (Hrows : (0 < length rows)%nat) by (destruct rows; [congruence|cbn; lia]).
    assert (Hok : forall part, In part memberships -> (exists y, f part = Ok y) \/ (f part = Raise AssertionError)).
    { intros part Hp. unfold f. destruct (num_communities part) as [k|e] eqn:Ek; cbn [bind].
      - destruct (Hv part (Hlen part Hp)) as (vs & ->). left. eexists. reflexivity.
      - right. apply num_communities_errors in Ek. destruct Ek as [[-> _]|(_ & -> & _)]; [|reflexivity]. specialize (Hlen [] Hp). cbn in Hlen. lia. }
    split.
    + intros Hcan. assert (G : forall part, In part memberships -> exists y, f part = Ok y).
      { intros part Hp. unfold f. destruct (@num_communities_canonical part (Hcan part Hp)) as (k & -> & _); [intros ->; specialize (Hlen [] Hp); cbn in Hlen; lia|]. cbn [bind].
        destruct (Hv part (Hlen part Hp)) as (vs & ->). eexists. reflexivity. }
      clear - G. change (exists out, mapM f memberships = Ok out). induction memberships as [|m ms IH]; [eexists; reflexivity|]. destruct (G m (or_introl eq_refl)) as (y & Ey).
      destruct IH as (ys & Eys); [intros p Hp; apply G; right; auto|]. cbn [mapM]. rewrite Ey. cbn [bind]. rewrite Eys. eexists. reflexivity.
    + intros (part & x & y & Hp & Hxy & Hy & Hx). assert (Hbad : f part = Raise AssertionError).
      { destruct (Hok part Hp) as [(z & E)|E]; [|exact E]. exfalso. unfold f in E. apply bind_ok in E. destruct E as (k & Ek & _). apply num_communities_spec in Ek. destruct Ek as [_ Ek].
        apply Hx. apply Ek. apply Ek in Hy. lia. }
      change (mapM f memberships = Raise AssertionError). clear - Hok Hp Hbad. induction memberships as [|m ms IH]; [destruct Hp|]. cbn [mapM].
      destruct (Hok m (or_introl eq_refl)) as [(z & E)|E]; rewrite E; cbn [bind]; [|reflexivity]. destruct Hp as [->|Hp]; [congruence|]. rewrite IH; auto. intros q Hq. apply Hok. right. auto.
Qed.
Print Assumptions C111_outcomes.

(** Two persons in three layers: the age of 43 counts as 8, and each label list repeats the two persons three times. *)
Example C111_example : exists v,
  print_metadata_nmis (fun _ labels => Ok (INR (nth 5 labels 0%nat))) [[1; 1; 1; 1; 31; 64; 1; 1]; [2; 1; 2; 3; 12; 43; 2; 1]]%nat [[0; 0; 1; 1; 0; 2]%nat] = Ok [(3%nat, v)] /\
  nth_error v 2 = Some (INR 8).
Proof. eexists. split; reflexivity. Qed.
