(** Theorems about utilities/louvain_utilities.py and utilities/progress.py: C07, C08, C52, C53. *)
From Coq Require Import Ascii.
From Verif Require Import PyBase PyGraph M_partition M_pool M_champ M_leiden M_progress M_louvain Spec Spec_leiden Spec_text.
From Verif Require Import L_base L_parallel L_leiden L_multileiden L_progress L_louvain.
Open Scope R_scope.

(** The outcome of one run: with the layered louvain package, the optimiser's answer for the defaulted graphs. *)
Definition run_outcome (env : louvain_env) (g' ge' : graph) (lv : list nat) (k : nat) (x : R * R) : res (list nat) :=
  match lo_package env with
  | Missing => Raise NameError
  | Plain => Raise AttributeError
  | WithLayers => lo_multiplex env k ((g', lv, fst x), 1) ((ge', 0), snd x)
  end.

(** ** C07: with and without chunks, for every completion order within the chunks and every answer of the memory check, the
    result collects the runs of the whole product grid; tasks are submitted in grid order, each once, and all of them if
    none fails. *)
Theorem C07_chunk_dispatch : forall env orders low_memory g ge g' ge' lv gammas omegas show_progress chunk_dispatch,
  (forall j n, Permutation (orders j n) (seq 0 n)) ->
  gammas <> [] -> omegas <> [] -> (Z.of_nat (length gammas * length omegas) <= 2 ^ 53)%Z ->
  weights_defaulted (lo_contains env g) g g' -> weights_defaulted (lo_contains env ge) ge ge' ->
  let (log, r) := repeated_parallel_louvain_from_gammas_omegas env orders low_memory g ge lv gammas omegas show_progress chunk_dispatch in
  collects (run_outcome env g' ge' lv) (list_prod gammas omegas) r /\
  (exists rest, enumerate (list_prod gammas omegas) = log ++ rest) /\
  ((forall i x, nth_error (list_prod gammas omegas) i = Some x -> exists m, run_outcome env g' ge' lv i x = Ok m) ->
   log = enumerate (list_prod gammas omegas)).
Proof.
  intros env orders low g ge g' ge' lv gammas omegas show cd Ho Hg Hw H53 Hd Hde.
  apply (@defaulted_weighted (leiden_of env)) in Hd. apply (@defaulted_weighted (leiden_of env)) in Hde. subst g' ge'.
  pose proof (@louvain_driver env orders low g ge lv gammas omegas show cd Ho) as H.
  rewrite grid_length in H. rewrite grid_list_prod in H.
  destruct (repeated_parallel_louvain_from_gammas_omegas env orders low g ge lv gammas omegas show cd) as [log r]. apply H.
  intros _. split; auto. destruct gammas, omegas; simpl; congruence.
Qed.
Print Assumptions C07_chunk_dispatch.

Theorem C07_serial : forall env g ge g' ge' lv gammas omegas,
  weights_defaulted (lo_contains env g) g g' -> weights_defaulted (lo_contains env ge) ge ge' ->
  collects (run_outcome env g' ge' lv) (list_prod gammas omegas) (snd (repeated_louvain_from_gammas_omegas env g ge lv gammas omegas)).
Proof.
  intros env g ge g' ge' lv gammas omegas Hd Hde.
  apply (@defaulted_weighted (leiden_of env)) in Hd. apply (@defaulted_weighted (leiden_of env)) in Hde. subst g' ge'.
  rewrite <- grid_list_prod. apply louvain_serial.
Qed.
Print Assumptions C07_serial.

(** Without the layered louvain package every nonempty grid fails with NameError or AttributeError. *)
Theorem C07_package_required : forall env orders low_memory g ge lv gammas omegas show_progress chunk_dispatch,
  (forall j n, Permutation (orders j n) (seq 0 n)) -> gammas <> [] -> omegas <> [] ->
  (Z.of_nat (length gammas * length omegas) <= 2 ^ 53)%Z -> lo_package env <> WithLayers ->
  snd (repeated_parallel_louvain_from_gammas_omegas env orders low_memory g ge lv gammas omegas show_progress chunk_dispatch)
  = Raise (match lo_package env with Missing => NameError | _ => AttributeError end).
Proof.
  intros env orders low g ge lv gammas omegas show cd Ho Hg Hw H53 Hp.
  pose proof (C07_chunk_dispatch env orders low g ge _ _ lv gammas omegas show cd Ho Hg Hw H53 (weighted_defaulted (leiden_of env) g) (weighted_defaulted (leiden_of env) ge)) as H.
  destruct (repeated_parallel_louvain_from_gammas_omegas env orders low g ge lv gammas omegas show cd) as [log r]. cbn [snd].
  destruct H as ((_ & H) & _). destruct gammas as [|a gs]; [congruence|]. destruct omegas as [|b os]; [congruence|].
  destruct H as (i & x & e & _ & He & ->).
  - exists 0%nat, (a, b). unfold run_outcome. destruct (lo_package env); [eexists; split; reflexivity..|congruence].
  - unfold run_outcome in He. destruct (lo_package env); congruence.
Qed.
Print Assumptions C07_package_required.

(** The capability check: True exactly when layered partition objects can be built; without the layered class it is False, or raises
    AttributeError when asked to be fatal; without the package it raises NameError either way. *)
Theorem C07_capability_check : forall env fatal g ge lv,
  (check_multilayer_louvain_capabilities (lo_package env) fatal = Ok true <-> exists p, snd (multilayer_louvain_part env g ge lv) = Ok p) /\
  (check_multilayer_louvain_capabilities (lo_package env) fatal = Ok false <-> lo_package env = Plain /\ fatal = false) /\
  (forall e, check_multilayer_louvain_capabilities (lo_package env) fatal = Raise e <->
     (lo_package env = Plain /\ fatal = true /\ e = AttributeError) \/ (lo_package env = Missing /\ e = NameError)).
Proof.
  intros env fatal g ge lv. unfold multilayer_louvain_part.
  rewrite !default_weights_total. cbn [snd].
  unfold check_multilayer_louvain_capabilities. destruct (lo_package env), fatal; (split; [|split]); try (split; [intros H|intros [p H]]; try discriminate; eauto; fail);
    try (intros e; split; [intros H; inversion H; auto|intros [(A & B & ->)|(A & ->)]; try discriminate; reflexivity]);
    split; try (intros H; discriminate H); try (intros [A B]; discriminate); try (intros; auto).
Qed.
Print Assumptions C07_capability_check.

Definition env_lo : louvain_env := mkLouvain WithLayers (fun _ => false) (fun k _ _ => Ok (if Nat.even k then [1; 1; 0] else [0; 1; 1])%nat).
Definition path3 : graph := mkGraph 3 false [(0, 1); (1, 2)]%nat None.
Example C07_example : (* in-order completion is a permutation; 2 gammas and 2 omegas *)
  (forall j n, Permutation ((fun _ n : nat => seq 0 n) j n) (seq 0 n)) /\
  snd (repeated_parallel_louvain_from_gammas_omegas env_lo (fun _ n : nat => seq 0 n) (fun _ => true) path3 path3 [0; 0; 0]%nat [1; 2] [0; 1] false true)
  = Ok [[0; 1; 1]; [0; 0; 1]]%nat.
Proof. split; [intros; apply Permutation_refl|reflexivity]. Qed.

(** ** C08: a nonempty grid never fails because of the bar or the chunking (only if a run fails); an empty one returns
    the empty set without the bar and divides by zero with it. *)
Theorem C08_nonempty_grid : forall env orders low_memory g ge lv gammas omegas show_progress chunk_dispatch,
  (forall j n, Permutation (orders j n) (seq 0 n)) -> gammas <> [] -> omegas <> [] ->
  (Z.of_nat (length gammas * length omegas) <= 2 ^ 53)%Z -> lo_package env = WithLayers ->
  (forall k a b, exists m, lo_multiplex env k a b = Ok m) ->
  exists S, snd (repeated_parallel_louvain_from_gammas_omegas env orders low_memory g ge lv gammas omegas show_progress chunk_dispatch) = Ok S /\ S <> [].
Proof.
  intros env orders low g ge lv gammas omegas show cd Ho Hg Hw H53 Hp Hr.
  pose proof (C07_chunk_dispatch env orders low g ge _ _ lv gammas omegas show cd Ho Hg Hw H53 (weighted_defaulted (leiden_of env) g) (weighted_defaulted (leiden_of env) ge)) as H.
  destruct (repeated_parallel_louvain_from_gammas_omegas env orders low g ge lv gammas omegas show cd) as [log r]. cbn [snd].
  assert (Hall : forall i (x : R * R), exists m, run_outcome env (weighted (leiden_of env) g) (weighted (leiden_of env) ge) lv i x = Ok m).
  { intros i x. unfold run_outcome. rewrite Hp. apply Hr. }
  destruct H as ((H & _) & _). destruct H as (S & -> & _ & Hin); [intros; apply Hall|]. exists S. split; auto. intros ->.
  destruct gammas as [|a gs]; [congruence|]. destruct omegas as [|b os]; [congruence|].
  destruct (Hall 0%nat (a, b)) as [m Hm]. destruct (L_canon.sorted_tuple_total (map Z.of_nat m)) as [t Ht].
  apply (proj2 (Hin t)). exists 0%nat, (a, b), m. split; [reflexivity|]. split; auto. apply sorted_tuple_form; auto.
Qed.
Print Assumptions C08_nonempty_grid.

Theorem C08_empty_grid : forall env orders low_memory g ge lv gammas omegas show_progress chunk_dispatch,
  (forall j n, Permutation (orders j n) (seq 0 n)) -> gammas = [] \/ omegas = [] ->
  snd (repeated_parallel_louvain_from_gammas_omegas env orders low_memory g ge lv gammas omegas show_progress chunk_dispatch)
  = if show_progress then Raise ZeroDivisionError else Ok [].
Proof. exact louvain_empty. Qed.
Print Assumptions C08_empty_grid.
Example C08_example : (forall j n, Permutation ((fun _ n : nat => rev (seq 0 n)) j n) (seq 0 n)) /\ lo_package env_lo = WithLayers /\
  (forall k a b, exists m, lo_multiplex env_lo k a b = Ok m).
Proof. split; [intros; apply Permutation_sym, Permutation_rev|]. split; auto. intros. eexists. reflexivity. Qed.

(** ** C52: the printed bar. *)
Theorem C52_bar : forall total length i,
  (0 < total)%nat -> (0 < length)%nat -> (i <= total)%nat -> (Z.of_nat total <= 2 ^ 53)%Z -> (Z.of_nat length <= 2 ^ 53)%Z ->
  exists bar p, progress_update (mkProgress total length 0) i = Ok (bar, p) /\ p_i p = i /\ p_total p = total /\ p_length p = length /\
    exists filled, bar = repeat "#"%char filled ++ repeat "."%char (length - filled) /\ (filled <= length)%nat /\ List.length bar = length /\
      ((Z.of_nat (length * i) < 2 ^ 53)%Z -> filled = (length * i / total)%nat) /\
      (i = total -> filled = length).
Proof.
  intros total len i Ht Hl Hi H53 Hl53. unfold progress_update. cbn [p_total p_length]. destruct (Nat.eqb_spec total 0); [lia|].
  set (f := floor_quotient (len * i) total).
  assert (Hf : (f <= len)%nat).
  { unfold f. rewrite <- (@floor_quotient_exact_mult len total Ht Hl53) at 2. apply floor_quotient_mono; auto. nia. }
  eexists. eexists. split; [reflexivity|]. split; [reflexivity|]. split; [reflexivity|]. split; [reflexivity|].
  exists f. split; auto. split; auto. split.
  - rewrite app_length, !repeat_length. lia.
  - split.
    + intros Hlt. apply floor_quotient_div; auto.
    + intros ->. apply floor_quotient_exact_mult; auto.
Qed.
Print Assumptions C52_bar.

(** The filled part never shrinks as the count grows (whatever the sizes). *)
Theorem C52_monotone : forall total length i j bar bar' p p' q q',
  (i <= j)%nat -> progress_update (mkProgress total length p) i = Ok (bar, q) -> progress_update (mkProgress total length p') j = Ok (bar', q') ->
  (count_occ ascii_dec bar "#"%char <= count_occ ascii_dec bar' "#"%char)%nat.
Proof.
  intros total len i j bar bar' p p' q q' Hij. unfold progress_update. cbn [p_total p_length]. destruct (Nat.eqb_spec total 0); [discriminate|].
  intros E1 E2. inversion E1; inversion E2; subst.
  assert (C : forall a b, count_occ ascii_dec (repeat "#"%char a ++ repeat "."%char b) "#"%char = a).
  { intros a b. rewrite count_occ_app. induction a as [|a IH]; simpl.
    - induction b as [|b IHb]; simpl; auto.
    - f_equal. exact IH. }
  rewrite !C. apply floor_quotient_mono; nia.
Qed.
Print Assumptions C52_monotone.

(** A bar made with [progress_new] shows k increments after k calls, and [done] fills it; only empty totals fail. *)
Theorem C52_lifecycle : forall total length, (0 < total)%nat -> (0 < length)%nat -> (Z.of_nat length <= 2 ^ 53)%Z ->
  exists p0, progress_new total length = Ok p0 /\ p_i p0 = 0%nat /\
    (forall p, p_total p = total -> p_length p = length ->
      (exists bar p', progress_increment p = Ok (bar, p') /\ p_i p' = S (p_i p) /\ p_total p' = total /\ p_length p' = length) /\
      (exists p', progress_done p = Ok (repeat "#"%char length, p') /\ p_i p' = total)).
Proof.
  intros total len Ht Hl H53. unfold progress_new. destruct (Nat.eqb_spec len 0); [lia|]. eexists. split; [reflexivity|]. split; [reflexivity|].
  intros [t l i] E1 E2. cbn in E1, E2. subst t l. unfold progress_increment, progress_done, progress_update. cbn [p_total p_length p_i].
  destruct (Nat.eqb_spec total 0); [lia|]. split.
  - eexists. eexists. split; [reflexivity|]. cbn. split; [lia|auto].
  - rewrite (@floor_quotient_exact_mult len total Ht H53), Nat.sub_diag, app_nil_r. eexists. split; [reflexivity|reflexivity].
Qed.
Print Assumptions C52_lifecycle.
(** Objects and updates that fail: an object needs a positive length, an update a positive total. *)
Theorem C52_rejects : (forall total length, (exists p, progress_new total length = Ok p) <-> (0 < length)%nat) /\
  (forall total, progress_new total 0 = Raise ZeroDivisionError) /\
  (forall p i, p_total p = 0%nat -> progress_update p i = Raise ZeroDivisionError).
Proof.
  split; [|split; [reflexivity|]].
  - intros total [|l]; unfold progress_new; cbn [Nat.eqb]; split; [intros (p & E); discriminate|lia|lia|eauto].
  - intros p i E. unfold progress_update. rewrite E. reflexivity.
Qed.
Print Assumptions C52_rejects.
Example C52_example : exists bar p, progress_update (mkProgress 7 10 0) 5 = Ok (bar, p) /\ bar = repeat "#"%char 7 ++ repeat "."%char 3.
Proof.
  destruct (C52_bar 7 10 5) as (bar & p & E & _ & _ & _ & f & Hb & _ & _ & Hf & _); try lia; [simpl; lia..|].
  exists bar, p. split; auto. rewrite Hf in Hb by (simpl; lia). exact Hb.
Qed.

(** ** C53: attribute lookups.  Every name can be cut at the occurrences of "louvain"; a name that contains it and is not
    defined in the module resolves to the Leiden attribute with all of them replaced, or fails like that lookup. *)
Theorem C53_cut : forall name, exists pieces, cut_at louvain name pieces.
Proof.
  intros name. destruct (pieces_exist name) as (ps & A & B & C). exists ps. split; auto. split; auto. intros p Hp. apply not_contains. auto.
Qed.
Print Assumptions C53_cut.

Theorem C53_deprecated_names : forall V (own leiden_ns : list (text * V)) name pieces,
  cut_at louvain name pieces -> (forall v, ~ In (name, v) own) ->
  (contains louvain name ->
    (forall v, In (join leiden pieces, v) leiden_ns -> exists v', In (join leiden pieces, v') leiden_ns /\ louvain_attribute own leiden_ns name = Ok (Some v')) /\
    ((forall v, ~ In (join leiden pieces, v) leiden_ns) -> louvain_attribute own leiden_ns name = Raise AttributeError)) /\
  (~ contains louvain name -> louvain_attribute own leiden_ns name = Ok None).
Proof.
  intros V own ns name pieces (Hne & -> & Hno) Hown.
  assert (Hspec : forall s t, text_eqb s t = true <-> s = t) by (apply L_split.list_eqb_spec; intros; apply Ascii.eqb_eq).
  assert (Hget : forall (d : list (text * V)) k, (exists v, In (k, v) d /\ dict_get text_eqb d k = Ok v) \/ ((forall v, ~ In (k, v) d) /\ dict_get text_eqb d k = Raise KeyError)).
  { induction d as [|[k' v'] d IH]; intros k; cbn [dict_get]; [right; auto|]. destruct (text_eqb k k') eqn:E.
    - apply Hspec in E. subst. left. exists v'. simpl. auto.
    - assert (k <> k') by (intros ->; assert (text_eqb k' k' = true) by (apply Hspec; auto); congruence).
      destruct (IH k) as [(v & A & B)|[A B]]; [left; exists v; simpl; auto|]. right. split; auto. intros v [Ev|Hv]; [congruence|]. apply (A v Hv). }
  assert (Ho : dict_get text_eqb own (join louvain pieces) = Raise KeyError).
  { destruct (Hget own (join louvain pieces)) as [(v & A & _)|[_ B]]; auto. exfalso. apply (Hown v A). }
  unfold louvain_attribute. rewrite Ho. unfold louvain_getattr. split.
  - intros Hc. apply is_infix_contains in Hc. rewrite Hc.
    rewrite replace_join; auto; [|intros p Hp; apply not_contains; auto]. unfold module_getattr.
    destruct (Hget ns (join leiden pieces)) as [(v & A & B)|[A B]]; rewrite B; cbn [bind]; split; auto.
    + intros _ _. exists v. auto.
    + intros H. exfalso. apply (H v A).
    + intros v Hv. exfalso. apply (A v Hv).
  - intros Hc. apply not_contains in Hc. rewrite Hc. auto.
Qed.
Print Assumptions C53_deprecated_names.

(** The claim that any other missing attribute raises AttributeError is false: it is None. *)
Theorem C53_missing_name_is_None : exists name, ~ contains louvain name /\
  forall V (leiden_ns : list (text * V)), louvain_attribute [] leiden_ns name = Ok None.
Proof. exists ["x"%char]. split; [apply not_contains; reflexivity|reflexivity]. Qed.
Print Assumptions C53_missing_name_is_None.

Example C53_example : louvain_attribute [] [(["r"; "_"] ++ leiden, 1%nat); (["s"; "_"] ++ leiden ++ ["_"], 2%nat)]%char (["s"; "_"] ++ louvain ++ ["_"])%char = Ok (Some 2%nat)
  /\ cut_at louvain (["s"; "_"] ++ louvain ++ ["_"])%char [["s"; "_"]; ["_"]]%char.
Proof. split; [reflexivity|]. split; [discriminate|]. split; [reflexivity|]. intros p [<-|[<-|[]]]; apply not_contains; reflexivity. Qed.
