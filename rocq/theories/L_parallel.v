(** The pool, and parallel = serial for the coefficients. *)
From Verif Require Import PyBase PyGraph M_partition M_pool M_champ L_base.
From Flocq Require Import Core.Raux Core.Defs Core.Generic_fmt Core.FLT Core.Round_NE Core.Zaux Core.Float_prop.
Set Implicit Arguments.

(** ** mapM *)
Lemma mapM_Ok_inv {A B} (f : A -> res B) xs l :
  mapM f xs = Ok l <-> Forall2 (fun x y => f x = Ok y) xs l.
Proof.
  split; [apply mapM_inv|]. induction 1 as [|x y xs l Hxy H IH]; simpl; auto. rewrite Hxy. simpl. rewrite IH. auto.
Qed.

Lemma mapM_Raise {A B} (f : A -> res B) xs e : mapM f xs = Raise e -> exists x, In x xs /\ f x = Raise e.
Proof.
  induction xs as [|x xs IH]; simpl; [discriminate|]. destruct (f x) as [y|e'] eqn:E; simpl.
  - destruct (mapM f xs) eqn:E1; simpl; [discriminate|]. intros H; inversion H; subst.
    destruct (IH eq_refl) as (x' & ? & ?). eauto.
  - intros H; inversion H; subst. eauto.
Qed.

Lemma mapM_ok_all {A B} (f : A -> res B) xs l x : mapM f xs = Ok l -> In x xs -> exists y, f x = Ok y.
Proof.
  intros H Hin. apply mapM_Ok_inv in H. induction H; simpl in Hin; [tauto|]. destruct Hin as [<-|]; eauto.
Qed.

Lemma mapM_concat {A B} (f : A -> res B) ls : forall r,
  mapM f (concat ls) = Ok r <-> exists rs, mapM (mapM f) ls = Ok rs /\ r = concat rs.
Proof.
  induction ls as [|l ls IH]; simpl; intros r.
  - split; [intros H; inversion H; exists []; auto | intros (rs & H & ->); inversion H; auto].
  - rewrite mapM_app. rewrite bind_ok. split.
    + intros (a & Ha & H). apply bind_ok in H as (b & Hb & H). inversion H; subst.
      apply IH in Hb as (rs & Hrs & ->). exists (a :: rs). rewrite Ha. simpl. rewrite Hrs. auto.
    + intros (rs & H & ->). apply bind_ok in H as (a & Ha & H). apply bind_ok in H as (rs' & Hrs & H). inversion H; subst.
      exists a. split; auto. apply bind_ok. exists (concat rs'). split; [apply IH; eauto|auto].
Qed.

(** ** starmap *)
Lemma first_error_none {A B} (f : A -> res B) xs order :
  (forall x, In x xs -> exists y, f x = Ok y) -> first_error order f xs = None.
Proof.
  intros H. unfold first_error. induction order as [|i order IH]; simpl; auto.
  destruct (nth_error xs i) as [x|] eqn:E; auto.
  destruct (H x (nth_error_In _ _ E)) as [y ->]. auto.
Qed.

Lemma first_error_some_stays {A B} (f : A -> res B) xs order e :
  fold_left (fun err i => match err with
                          | Some e => Some e
                          | None => match nth_error xs i with
                                    | Some x => match f x with Raise e => Some e | Ok _ => None end
                                    | None => None
                                    end
                          end) order (Some e) = Some e.
Proof. induction order; simpl; auto. Qed.

Lemma first_error_some {A B} (f : A -> res B) xs order i x e :
  In i order -> nth_error xs i = Some x -> f x = Raise e ->
  exists e' x', In x' xs /\ f x' = Raise e' /\ first_error order f xs = Some e'.
Proof.
  intros Hin Hx Hf. unfold first_error. induction order as [|j order IH]; simpl in *; [tauto|].
  destruct (nth_error xs j) as [xj|] eqn:Ej.
  - destruct (f xj) as [y|e'] eqn:Ef.
    + destruct Hin as [->|Hin]; [congruence|auto].
    + exists e', xj. split; [eapply nth_error_In; eauto|]. split; auto. apply first_error_some_stays.
  - destruct Hin as [->|Hin]; [congruence|auto].
Qed.

Lemma write_slot_length {B} (s : list (option B)) i v : length (write_slot s i v) = length s.
Proof. revert i; induction s; intros [|i]; simpl; auto. Qed.

Lemma write_slot_nth {B} (s : list (option B)) : forall i v j, i < length s ->
  nth_error (write_slot s i v) j = if Nat.eq_dec i j then Some (Some v) else nth_error s j.
Proof.
  induction s as [|x s IH]; intros i v j Hi; [simpl in Hi; lia|].
  destruct i as [|i], j as [|j]; simpl; auto.
  rewrite IH by (simpl in Hi; lia). destruct (Nat.eq_dec i j), (Nat.eq_dec (S i) (S j)); auto; congruence.
Qed.

Lemma fill_slots_gen {A B} (f : A -> res B) xs l order : Forall2 (fun x y => f x = Ok y) xs l -> forall slots,
  length slots = length xs ->
  (forall j, nth_error slots j = Some None \/ nth_error slots j = option_map Some (nth_error l j)) ->
  let out := fold_left (fun slots i => match nth_error xs i with
                            | Some x => match f x with Ok v => write_slot slots i v | Raise _ => slots end
                            | None => slots
                            end) order slots in
  length out = length xs /\
  forall j, (nth_error out j = Some None /\ ~ In j order /\ nth_error slots j = Some None)
            \/ nth_error out j = option_map Some (nth_error l j).
Proof.
  intros HF. induction order as [|i order IH]; intros slots Hlen Hs; simpl.
  - split; auto. intros j. destruct (Hs j); auto.
  - set (slots1 := match nth_error xs i with
                   | Some x => match f x with Ok v => write_slot slots i v | Raise _ => slots end
                   | None => slots end).
    assert (H1 : length slots1 = length xs /\
                 forall j, (i = j -> nth_error slots1 j = option_map Some (nth_error l j)) /\
                           (i <> j -> nth_error slots1 j = nth_error slots j)).
    { unfold slots1. assert (Hll : length xs = length l) by (clear - HF; induction HF; simpl; auto).
      destruct (nth_error xs i) as [x|] eqn:Ex.
      - assert (i < length xs) by (apply nth_error_Some; congruence).
        destruct (nth_error l i) as [y|] eqn:Ey; [|apply nth_error_None in Ey; lia].
        assert (Hxy : f x = Ok y).
        { clear - HF Ex Ey. revert i Ex Ey. induction HF; intros [|i] Ex Ey; simpl in *; try discriminate.
          - inversion Ex; inversion Ey; subst; auto.
          - eapply IHHF; eauto. }
        rewrite Hxy. split; [rewrite write_slot_length; auto|]. intros j. rewrite write_slot_nth by lia. split.
        + intros <-. destruct (Nat.eq_dec i i); [rewrite Ey; auto|congruence].
        + intros Hne. destruct (Nat.eq_dec i j); [congruence|auto].
      - split; auto. intros j. split; auto. intros <-. apply nth_error_None in Ex.
        rewrite (proj2 (nth_error_None slots i)), (proj2 (nth_error_None l i)); auto; lia. }
    destruct H1 as [Hlen1 Hn1].
    destruct (IH slots1 Hlen1) as [Hlen2 Hn2].
    { intros j. destruct (Hn1 j) as [Ha Hb]. destruct (Nat.eq_dec i j) as [E|E]; [right; auto|rewrite Hb by auto; auto]. }
    split; auto. intros j. destruct (Hn2 j) as [(Hj1 & Hj2 & Hj3)|Hj]; auto.
    destruct (Hn1 j) as [Ha Hb]. destruct (Nat.eq_dec i j) as [->|E].
    + right. fold slots1. rewrite Hj1. rewrite <- Hj3. apply Ha; auto.
    + left. repeat split; auto; [intros [?|?]; auto | rewrite <- Hb; auto].
Qed.

Lemma read_slots_some {B} (l : list B) : read_slots (map Some l) = Some l.
Proof. induction l; simpl; auto. rewrite IHl. auto. Qed.

Lemma nth_error_ext {A} (l l' : list A) : (forall j, nth_error l j = nth_error l' j) -> l = l'.
Proof.
  revert l'; induction l as [|x l IH]; intros [|y l'] H; auto.
  - specialize (H 0); discriminate.
  - specialize (H 0); discriminate.
  - f_equal; [specialize (H 0); inversion H; auto|]. apply IH. intros j. apply (H (S j)).
Qed.

Lemma starmap_ok {A B} (f : A -> res B) xs l order :
  Permutation order (seq 0 (length xs)) -> mapM f xs = Ok l -> starmap order f xs = Ok l.
Proof.
  intros HP H. unfold starmap. rewrite first_error_none by (intros; eapply mapM_ok_all; eauto).
  apply mapM_Ok_inv in H.
  assert (Hll : length xs = length l) by (clear - H; induction H; simpl; auto).
  destruct (@fill_slots_gen A B f xs l order H (repeat None (length xs))) as [Hlen Hn].
  - apply repeat_length.
  - intros j. destruct (Nat.lt_ge_cases j (length xs)).
    + left. rewrite (nth_error_nth' _ None) by (rewrite repeat_length; auto). f_equal. apply nth_repeat.
    + right. rewrite (proj2 (nth_error_None _ j)), (proj2 (nth_error_None l j)); auto; [lia|rewrite repeat_length; auto].
  - fold (fill_slots order f xs) in *.
    replace (fill_slots order f xs) with (map Some l); [rewrite read_slots_some; auto|].
    apply nth_error_ext. intros j. rewrite nth_error_map. destruct (Hn j) as [(H1 & H2 & H3)|H1].
    + exfalso. apply H2. apply (Permutation_in _ (Permutation_sym HP)). apply in_seq.
      assert (j < length (repeat (@None B) (length xs))) by (apply nth_error_Some; congruence). rewrite repeat_length in *. lia.
    + auto.
Qed.

Lemma starmap_raise {A B} (f : A -> res B) xs e order :
  Permutation order (seq 0 (length xs)) -> mapM f xs = Raise e ->
  exists e' x, In x xs /\ f x = Raise e' /\ starmap order f xs = Raise e'.
Proof.
  intros HP H. destruct (mapM_Raise _ _ H) as (x & Hin & Hf).
  apply In_nth_error in Hin as [i Hi].
  assert (Hio : In i order).
  { apply (Permutation_in _ (Permutation_sym HP)). apply in_seq. split; [lia|]. simpl. apply nth_error_Some. congruence. }
  destruct (first_error_some f xs order i Hio Hi Hf) as (e' & x' & H1 & H2 & H3).
  exists e', x'. repeat split; auto. unfold starmap. rewrite H3. auto.
Qed.

Lemma starmap_iff {A B} (f : A -> res B) xs l order :
  Permutation order (seq 0 (length xs)) -> (starmap order f xs = Ok l <-> mapM f xs = Ok l).
Proof.
  intros HP. split; [|apply starmap_ok; auto].
  intros H. destruct (mapM f xs) as [l'|e] eqn:E.
  - rewrite (starmap_ok f xs HP E) in H. inversion H; auto.
  - destruct (starmap_raise f xs HP E) as (e' & x & _ & _ & H'). congruence.
Qed.

(** ** Chunk boundaries *)
Open Scope R_scope.

Lemma binary64_mono x y : x <= y -> binary64 x <= binary64 y.
Proof. intros H. unfold binary64. apply round_le; [apply FLT_exp_valid; reflexivity | apply valid_rnd_N | auto]. Qed.

Lemma binary64_Z n : (Z.abs n <= 2 ^ 53)%Z -> binary64 (IZR n) = IZR n.
Proof.
  intros Hn. unfold binary64. apply round_generic; [apply valid_rnd_N|].
  destruct (Z.eq_dec (Z.abs n) (2 ^ 53)) as [E|E].
  - destruct (Z.abs_eq_or_opp n) as [E1|E1].
    + apply generic_format_FLT. exists (Float radix2 1 53); simpl.
      * unfold F2R; simpl. rewrite E1 in E. rewrite E. simpl. lra.
      * lia.
      * lia.
    + apply generic_format_FLT. exists (Float radix2 (-1) 53); simpl.
      * unfold F2R; simpl. rewrite E1 in E. replace n with (-(2 ^ 53))%Z by lia. simpl. lra.
      * lia.
      * lia.
  - apply generic_format_FLT. exists (Float radix2 n 0); simpl.
    + unfold F2R; simpl. lra.
    + change (Z.pow_pos 2 53) with (2 ^ 53)%Z. lia.
    + lia.
Qed.

Lemma chunk_bound_mono len cpus i j : (0 < cpus)%nat -> (i <= j)%nat -> (chunk_bound len cpus i <= chunk_bound len cpus j)%nat.
Proof.
  intros Hc Hij. unfold chunk_bound. apply Z2Nat.inj_le.
  - apply (Zfloor_lub 0). unfold binary64. apply round_ge_generic; [apply FLT_exp_valid; reflexivity | apply valid_rnd_N | apply generic_format_0 |].
    apply Rmult_le_pos; [apply pos_INR|]. apply Rlt_le, Rinv_0_lt_compat, lt_0_INR; auto.
  - apply (Zfloor_lub 0). unfold binary64. apply round_ge_generic; [apply FLT_exp_valid; reflexivity | apply valid_rnd_N | apply generic_format_0 |].
    apply Rmult_le_pos; [apply pos_INR|]. apply Rlt_le, Rinv_0_lt_compat, lt_0_INR; auto.
  - apply Zfloor_le. apply binary64_mono. apply Rmult_le_compat_r.
    + apply Rlt_le, Rinv_0_lt_compat, lt_0_INR; auto.
    + apply le_INR. apply Nat.mul_le_mono_r; auto.
Qed.

Lemma chunk_bound_0 len cpus : chunk_bound len cpus 0 = 0%nat.
Proof.
  unfold chunk_bound. simpl. unfold Rdiv. rewrite Rmult_0_l. unfold binary64. rewrite round_0 by apply valid_rnd_N.
  rewrite (Zfloor_IZR 0). reflexivity.
Qed.

Lemma chunk_bound_last len cpus : (0 < cpus)%nat -> (Z.of_nat len <= 2 ^ 53)%Z -> chunk_bound len cpus cpus = len.
Proof.
  intros Hc Hlen. unfold chunk_bound. rewrite mult_INR.
  replace (INR cpus * INR len / INR cpus) with (IZR (Z.of_nat len)).
  - rewrite binary64_Z by lia. rewrite Zfloor_IZR. apply Nat2Z.id.
  - rewrite <- INR_IZR_INZ. field. apply not_0_INR. lia.
Qed.
Close Scope R_scope.

(** ** Slices *)
Lemma firstn_slice {A} (l : list A) a b : a <= b -> firstn a l ++ py_slice l a b = firstn b l.
Proof.
  intros H. unfold py_slice. revert l b H. induction a as [|a IH]; intros l b H; simpl.
  - rewrite Nat.sub_0_r. auto.
  - destruct b as [|b]; [lia|]. destruct l as [|x l]; simpl; [destruct (b - a); auto|].
    f_equal. apply IH. lia.
Qed.

Lemma concat_slices {A} (l : list A) (b : nat -> nat) k :
  b 0 = 0 -> (forall i j, i <= j -> b i <= b j) ->
  concat (map (fun i => py_slice l (b i) (b (i + 1))) (seq 0 k)) = firstn (b k) l.
Proof.
  intros H0 Hm. induction k as [|k IH].
  - simpl. rewrite H0. auto.
  - rewrite seq_S, map_app, concat_app, IH. simpl. rewrite app_nil_r.
    replace (k + 1) with (S k) by lia. apply firstn_slice. apply Hm. lia.
Qed.

Lemma partition_chunks_concat cpus parts : 0 < cpus -> (Z.of_nat (length parts) <= 2 ^ 53)%Z ->
  concat (partition_chunks cpus parts) = parts.
Proof.
  intros Hc Hlen. unfold partition_chunks.
  rewrite (concat_slices parts (chunk_bound (length parts) cpus) cpus).
  - rewrite chunk_bound_last by auto. apply firstn_all.
  - apply chunk_bound_0.
  - intros; apply chunk_bound_mono; auto.
Qed.

Lemma partition_chunks_length cpus parts : length (partition_chunks cpus parts) = cpus.
Proof. unfold partition_chunks. rewrite map_length, seq_length. auto. Qed.

(** ** Serial over chunks *)
Lemma serial_2D_inv g parts r : partition_coefficients_2D_serial g parts = Ok r <->
  exists nums, mapM (internal_hat g) parts = Ok (fst r) /\ mapM (p_numerator g) parts = Ok nums /\
    snd r = map (fun x => np_div (INR x) (INR (if directed g then ecount g else 2 * ecount g))) nums.
Proof.
  unfold partition_coefficients_2D_serial. split.
  - intros H. apply bind_ok in H as (a & Ha & H). apply bind_ok in H as (n & Hn & H). inversion H; subst. simpl. eauto.
  - intros (nums & -> & -> & E). cbn [bind]. rewrite <- E. destruct r; auto.
Qed.

Lemma serial_2D_chunks g ls : forall r,
  partition_coefficients_2D_serial g (concat ls) = Ok r <->
  exists rs, mapM (partition_coefficients_2D_serial g) ls = Ok rs /\ r = (concat (map fst rs), concat (map snd rs)).
Proof.
  intros r. rewrite serial_2D_inv. split.
  - intros (nums & Ha & Hn & Hr). apply mapM_concat in Ha as (as_ & Ha & Ea). apply mapM_concat in Hn as (ns & Hn & En).
    destruct r as [a p]. simpl in *. subst a nums.
    set (dv := fun x => np_div (INR x) (INR (if directed g then ecount g else 2 * ecount g))) in *.
    exists (combine as_ (map (map dv) ns)).
    assert (Hl1 : length as_ = length ls) by (apply mapM_length in Ha; auto).
    assert (Hl2 : length ns = length ls) by (apply mapM_length in Hn; auto).
    split.
    + apply mapM_Ok_inv in Ha. apply mapM_Ok_inv in Hn. apply mapM_Ok_inv. clear Hr Hl1 Hl2.
      revert ns Hn. induction Ha as [|c a0 ls as_ Hc Ha IH]; intros ns Hn; inversion Hn; subst; simpl; constructor; auto.
      apply serial_2D_inv. simpl. eauto.
    + subst p. f_equal.
      * clear - Hl1 Hl2. revert ns ls Hl1 Hl2. induction as_ as [|a as_ IH]; intros [|n ns] [|c ls] H1 H2; simpl in *; try discriminate; auto.
        f_equal. eapply IH; eauto.
      * rewrite concat_map. clear - Hl1 Hl2. revert as_ ls Hl1 Hl2. induction ns as [|n ns IH]; intros [|a as_] [|c ls] H1 H2; simpl in *; try discriminate; auto.
        f_equal. eapply IH; eauto.
  - intros (rs & H & ->). simpl.
    assert (HH : exists ns, mapM (mapM (internal_hat g)) ls = Ok (map fst rs) /\ mapM (mapM (p_numerator g)) ls = Ok ns /\
              map snd rs = map (map (fun x => np_div (INR x) (INR (if directed g then ecount g else 2 * ecount g)))) ns).
    { apply mapM_Ok_inv in H. induction H as [|c r ls rs Hc H IH]; simpl; [exists []; auto|].
      apply serial_2D_inv in Hc as (nums & H1 & H2 & H3). destruct IH as (ns & E1 & E2 & E3).
      exists (nums :: ns). rewrite H1, H2. simpl. rewrite E1, E2. simpl. rewrite H3, E3. auto. }
    destruct HH as (ns & H1 & H2 & H3). exists (concat ns). repeat split.
    + apply mapM_concat. eauto.
    + apply mapM_concat. eauto.
    + rewrite H3, concat_map. auto.
Qed.

Lemma serial_2D_lengths g parts r : partition_coefficients_2D_serial g parts = Ok r ->
  length (fst r) = length parts /\ length (snd r) = length parts.
Proof.
  intros H. apply serial_2D_inv in H as (nums & H1 & H2 & H3). apply mapM_length in H1, H2.
  rewrite H3, map_length. auto.
Qed.

Lemma parallel_2D_ok cpus order g parts st r :
  0 < cpus -> (Z.of_nat (length parts) <= 2 ^ 53)%Z -> Permutation order (seq 0 cpus) ->
  (partition_coefficients_2D cpus order g parts st = Ok r <-> partition_coefficients_2D_serial g parts = Ok r).
Proof.
  intros Hc Hlen HP. unfold partition_coefficients_2D.
  set (inner := if st then _ else _).
  assert (Hinner : forall r, inner = Ok r <-> partition_coefficients_2D_serial g parts = Ok r).
  { intros r0. unfold inner. destruct st; [tauto|].
    rewrite <- (partition_chunks_concat parts Hc Hlen) at 2. rewrite serial_2D_chunks. rewrite bind_ok.
    split.
    - intros (rs & H & E). inversion E; subst. exists rs. split; auto. apply starmap_iff in H; auto.
      rewrite partition_chunks_length; auto.
    - intros (rs & H & ->). exists rs. split; auto. apply starmap_iff; auto. rewrite partition_chunks_length; auto. }
  rewrite bind_ok. split.
  - intros (ap & Hap & H). apply Hinner in Hap. destruct (_ && _); [inversion H; subst; auto|discriminate].
  - intros H. exists r. split; [apply Hinner; auto|]. destruct (serial_2D_lengths g parts H) as [-> ->].
    rewrite Nat.eqb_refl. auto.
Qed.

(** 3D *)
Lemma serial_3D_inv g gi lv parts r : partition_coefficients_3D_serial g gi lv parts = Ok r <->
  exists cnt, ecount_per_layer g lv = Ok cnt /\ mapM (internal_hat g) parts = Ok (fst (fst r)) /\
    mapM (p_hat_3D g lv cnt) parts = Ok (snd (fst r)) /\ mapM (internal_hat gi) parts = Ok (snd r).
Proof.
  unfold partition_coefficients_3D_serial. split.
  - intros H. apply bind_ok in H as (a & Ha & H). apply bind_ok in H as (n & Hn & H).
    apply bind_ok in H as (p & Hp & H). apply bind_ok in H as (c & Hc & H). inversion H; subst. simpl. eauto.
  - intros (cnt & -> & -> & E1 & E2). simpl. rewrite E1. simpl. rewrite E2. simpl. destruct r as [[? ?] ?]; auto.
Qed.

Lemma mapM_map3 {A X Y Z} (fa : A -> res X) (fp : A -> res Y) (fc : A -> res Z) ls :
  forall as_ ps cs, mapM (mapM fa) ls = Ok as_ -> mapM (mapM fp) ls = Ok ps -> mapM (mapM fc) ls = Ok cs ->
  exists rs, Forall2 (fun l r => mapM fa l = Ok (fst (fst r)) /\ mapM fp l = Ok (snd (fst r)) /\ mapM fc l = Ok (snd r)) ls rs /\
    as_ = map (fun r => fst (fst r)) rs /\ ps = map (fun r => snd (fst r)) rs /\ cs = map snd rs.
Proof.
  induction ls as [|l ls IH]; simpl; intros as_ ps cs Ha Hp Hc.
  - inversion Ha; inversion Hp; inversion Hc; subst. exists []. repeat split; auto.
  - apply bind_ok in Ha as (a & Ha & Ha'). apply bind_ok in Ha' as (as' & Has & Ea).
    apply bind_ok in Hp as (p & Hp & Hp'). apply bind_ok in Hp' as (ps' & Hps & Ep).
    apply bind_ok in Hc as (c & Hc & Hc'). apply bind_ok in Hc' as (cs' & Hcs & Ec).
    inversion Ea; inversion Ep; inversion Ec; subst.
    destruct (IH as' ps' cs' Has Hps Hcs) as (rs & HF & -> & -> & ->).
    exists ((a, p, c) :: rs). repeat split; auto.
Qed.

Lemma serial_3D_chunks g gi lv ls : ls <> [] -> forall r,
  partition_coefficients_3D_serial g gi lv (concat ls) = Ok r <->
  exists rs, mapM (partition_coefficients_3D_serial g gi lv) ls = Ok rs /\
    r = (concat (map (fun r => fst (fst r)) rs), concat (map (fun r => snd (fst r)) rs), concat (map snd rs)).
Proof.
  intros Hne r. rewrite serial_3D_inv. split.
  - intros (cnt & Hcnt & Ha & Hp & Hc). apply mapM_concat in Ha as (as_ & Ha & Ea).
    apply mapM_concat in Hp as (ps & Hp & Ep). apply mapM_concat in Hc as (cs & Hc & Ec).
    destruct (mapM_map3 _ _ _ _ Ha Hp Hc) as (rs & HF & -> & -> & ->).
    exists rs. split; [|destruct r as [[? ?] ?]; simpl in *; congruence].
    apply mapM_Ok_inv. clear - HF Hcnt. induction HF as [|l r ls rs (H1 & H2 & H3) HF IH]; constructor; auto.
    apply serial_3D_inv. eauto.
  - intros (rs & H & ->). simpl. apply mapM_Ok_inv in H. destruct H as [|c0 r0 ls rs H0 H]; [congruence|].
    apply serial_3D_inv in H0 as (cnt & Hcnt & Ha & Hp & Hc). exists cnt. split; auto. clear Hne.
    assert (HF : Forall2 (fun l r => mapM (internal_hat g) l = Ok (fst (fst r)) /\
                    mapM (p_hat_3D g lv cnt) l = Ok (snd (fst r)) /\ mapM (internal_hat gi) l = Ok (snd r))
                 (c0 :: ls) (r0 :: rs)).
    { constructor; auto. clear - H Hcnt. induction H as [|l r ls rs Hl H IH]; constructor; auto.
      apply serial_3D_inv in Hl as (cnt' & Hcnt' & E). assert (cnt' = cnt) by congruence. subst. auto. }
    clear H Ha Hp Hc. revert HF. generalize (c0 :: ls) as L. generalize (r0 :: rs) as RS. clear.
    intros RS L HF. repeat split; apply mapM_concat; eexists; (split; [|reflexivity]); apply mapM_Ok_inv;
      induction HF as [|l r ls rs (H1 & H2 & H3) HF IH]; simpl; constructor; auto.
Qed.

Lemma parallel_3D_ok cpus order g gi lv parts r :
  0 < cpus -> (Z.of_nat (length parts) <= 2 ^ 53)%Z -> Permutation order (seq 0 cpus) ->
  (partition_coefficients_3D cpus order g gi lv parts = Ok r <-> partition_coefficients_3D_serial g gi lv parts = Ok r).
Proof.
  intros Hc Hlen HP. unfold partition_coefficients_3D.
  replace (partition_coefficients_3D_serial g gi lv parts)
    with (partition_coefficients_3D_serial g gi lv (concat (partition_chunks cpus parts)))
    by (rewrite partition_chunks_concat; auto). rewrite serial_3D_chunks.
  2:{ intros E. pose proof (partition_chunks_length cpus parts) as Hl. rewrite E in Hl. simpl in Hl. lia. }
  rewrite bind_ok.
  assert (Hlens : forall rs, mapM (partition_coefficients_3D_serial g gi lv) (partition_chunks cpus parts) = Ok rs ->
     length (concat (map (fun r : list R * list npf * list R => fst (fst r)) rs)) = length parts /\
     length (concat (map (fun r : list R * list npf * list R => snd (fst r)) rs)) = length parts /\
     length (concat (map snd rs)) = length parts).
  { intros rs Hrs.
    assert (Hs : partition_coefficients_3D_serial g gi lv (concat (partition_chunks cpus parts)) =
       Ok (concat (map (fun r => fst (fst r)) rs), concat (map (fun r => snd (fst r)) rs), concat (map snd rs))).
    { apply serial_3D_chunks; eauto. intros E. pose proof (partition_chunks_length cpus parts) as Hl. rewrite E in Hl. simpl in Hl. lia. }
    rewrite partition_chunks_concat in Hs by auto.
    apply serial_3D_inv in Hs as (cnt & _ & Ha & Hp & Hcc). simpl in *. apply mapM_length in Ha, Hp, Hcc. auto. }
  split.
  - intros (rs & H & E). apply starmap_iff in H; [|rewrite partition_chunks_length; auto].
    exists rs. split; auto. destruct (_ && _); inversion E; auto.
  - intros (rs & H & ->). exists rs. split; [apply starmap_iff; auto; rewrite partition_chunks_length; auto|].
    destruct (Hlens rs H) as (-> & -> & ->). rewrite !Nat.eqb_refl. auto.
Qed.
