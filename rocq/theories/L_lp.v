(** Linear programs are solvable: Fourier-Motzkin elimination. *)
From Verif Require Import PyBase PyGraph M_champ Spec Spec_graph Spec_champ Spec_lp L_base.
From Coq Require Import Lra Lia.
Set Implicit Arguments.
Open Scope R_scope.

Lemma dot_nil_l v : dot [] v = 0. Proof. reflexivity. Qed.
Lemma dot_nil_r u : dot u [] = 0. Proof. unfold dot. destruct u; reflexivity. Qed.
Lemma dot_cons a u b v : dot (a :: u) (b :: v) = a * b + dot u v.
Proof. unfold dot. cbn [combine map]. rewrite rsum_cons. reflexivity. Qed.

Definition constraint : Type := (list R * R)%type.
Definition sat (cs : list constraint) (x : list R) : Prop := forall k, In k cs -> dot (fst k) x <= snd k.
Definition rows (n : nat) (cs : list constraint) : Prop := forall k, In k cs -> length (fst k) = n.

Definition scale (a : R) (k : constraint) : constraint := (map (fun y => y / a) (tl (fst k)), snd k / a).
Definition zeros (cs : list constraint) : list constraint :=
  map (fun k => (tl (fst k), snd k)) (filter (fun k => if Req_EM_T (hd 0 (fst k)) 0 then true else false) cs).
Definition uppers (cs : list constraint) : list constraint :=
  map (fun k => scale (hd 0 (fst k)) k) (filter (fun k => if Rlt_dec 0 (hd 0 (fst k)) then true else false) cs).
Definition lowers (cs : list constraint) : list constraint :=
  map (fun k => scale (hd 0 (fst k)) k) (filter (fun k => if Rlt_dec (hd 0 (fst k)) 0 then true else false) cs).
Definition vsub (u v : list R) : list R := map (fun ab => fst ab - snd ab) (combine u v).
Definition pairs (us ls : list constraint) : list constraint :=
  flat_map (fun u => map (fun l => (vsub (fst u) (fst l), snd u - snd l)) ls) us.
Definition elim (cs : list constraint) : list constraint := zeros cs ++ pairs (uppers cs) (lowers cs).
Definition bound (x : list R) (k : constraint) : R := snd k - dot (fst k) x.
Definition pick (cs : list constraint) (x : list R) : R :=
  match map (bound x) (lowers cs) with
  | l :: ls => fold_right Rmax l ls
  | [] => match map (bound x) (uppers cs) with u :: us => fold_right Rmin u us | [] => 0 end
  end.

Lemma fold_max a l : (forall y, In y (a :: l) -> y <= fold_right Rmax a l) /\ In (fold_right Rmax a l) (a :: l).
Proof.
  induction l as [|b l [IH1 IH2]]; cbn [fold_right].
  - split; [intros y [<-|[]]; lra|left; auto].
  - split.
    + intros y [<-|[<-|Hy]].
      * eapply Rle_trans; [apply IH1; left; auto|apply Rmax_r].
      * apply Rmax_l.
      * eapply Rle_trans; [apply IH1; right; auto|apply Rmax_r].
    + apply Rmax_case; [right; left; auto|]. destruct IH2 as [E|E]; [left; auto|right; right; auto].
Qed.
Lemma fold_min a l : forall y, In y (a :: l) -> fold_right Rmin a l <= y.
Proof.
  induction l as [|b l IH]; cbn [fold_right].
  - intros y [<-|[]]; lra.
  - intros y [<-|[<-|Hy]].
    + eapply Rle_trans; [apply Rmin_r|apply IH; left; auto].
    + apply Rmin_l.
    + eapply Rle_trans; [apply Rmin_r|apply IH; right; auto].
Qed.

Lemma dot_div a u x : dot (map (fun y => y / a) u) x = dot u x / a.
Proof.
  revert x. induction u as [|b u IH]; intros [|y x]; cbn [map]; rewrite ?dot_nil_l, ?dot_nil_r, ?dot_cons; try (unfold Rdiv; ring).
  rewrite IH. unfold Rdiv. ring.
Qed.
Lemma dot_vsub u v x : length u = length v -> dot (vsub u v) x = dot u x - dot v x.
Proof.
  revert v x. induction u as [|a u IH]; intros [|b v] [|y x] H; try discriminate; unfold vsub in *; cbn [combine map fst snd]; rewrite ?dot_nil_l, ?dot_nil_r, ?dot_cons; try lra.
  rewrite IH by (simpl in H; lia). ring.
Qed.

Lemma row_cons n (k : constraint) : length (fst k) = S n -> exists a r, fst k = a :: r /\ length r = n.
Proof. destruct k as [[|a r] b]; cbn; [discriminate|]. intros E. exists a, r. split; auto. Qed.

Lemma in_zeros cs (k : constraint) : In k (zeros cs) <-> exists k', In k' cs /\ hd 0 (fst k') = 0 /\ k = (tl (fst k'), snd k').
Proof.
  unfold zeros. rewrite in_map_iff. split.
  - intros (k' & <- & H). apply filter_In in H as [H E]. destruct (Req_EM_T _ 0); [|discriminate]. eauto.
  - intros (k' & H & E & ->). exists k'. split; auto. apply filter_In. split; auto. destruct (Req_EM_T _ 0); auto; contradiction.
Qed.
Lemma in_uppers cs (k : constraint) : In k (uppers cs) <-> exists k', In k' cs /\ 0 < hd 0 (fst k') /\ k = scale (hd 0 (fst k')) k'.
Proof.
  unfold uppers. rewrite in_map_iff. split.
  - intros (k' & <- & H). apply filter_In in H as [H E]. destruct (Rlt_dec 0 _); [|discriminate]. eauto.
  - intros (k' & H & E & ->). exists k'. split; auto. apply filter_In. split; auto. destruct (Rlt_dec 0 _); auto; contradiction.
Qed.
Lemma in_lowers cs (k : constraint) : In k (lowers cs) <-> exists k', In k' cs /\ hd 0 (fst k') < 0 /\ k = scale (hd 0 (fst k')) k'.
Proof.
  unfold lowers. rewrite in_map_iff. split.
  - intros (k' & <- & H). apply filter_In in H as [H E]. destruct (Rlt_dec _ 0); [|discriminate]. eauto.
  - intros (k' & H & E & ->). exists k'. split; auto. apply filter_In. split; auto. destruct (Rlt_dec _ 0); auto; contradiction.
Qed.
Lemma in_pairs us ls (k : constraint) : In k (pairs us ls) <-> exists u l, In u us /\ In l ls /\ k = (vsub (fst u) (fst l), snd u - snd l).
Proof.
  unfold pairs. rewrite in_flat_map. split.
  - intros (u & Hu & H). apply in_map_iff in H as (l & <- & Hl). eauto.
  - intros (u & l & Hu & Hl & ->). exists u. split; auto. apply in_map_iff. eauto.
Qed.

(** [y] in front of [x] satisfies the system iff it respects the bounds. *)
Lemma sat_bounds cs n x y : rows (S n) cs ->
  (sat cs (y :: x) <-> (forall k, In k (zeros cs) -> dot (fst k) x <= snd k) /\
                       (forall k, In k (uppers cs) -> y <= bound x k) /\ (forall k, In k (lowers cs) -> bound x k <= y)).
Proof.
  intros Hr. unfold bound. split.
  - intros H. split; [|split].
    + intros k Hk. apply in_zeros in Hk as (k' & Hk' & E & ->). specialize (H k' Hk'). destruct (@row_cons _ k' (Hr k' Hk')) as (a & r & Ek & _). rewrite Ek in *. cbn [hd tl fst snd] in *. rewrite dot_cons in H. subst a. lra.
    + intros k Hk. apply in_uppers in Hk as (k' & Hk' & E & ->). specialize (H k' Hk'). destruct (@row_cons _ k' (Hr k' Hk')) as (a & r & Ek & _). unfold scale. rewrite Ek in *. cbn [hd tl fst snd] in *. rewrite dot_cons in H. rewrite dot_div.
      assert (0 < / a) by (apply Rinv_0_lt_compat; auto). apply (Rmult_le_reg_l a); auto. unfold Rdiv. replace (a * (snd k' * / a - dot r x * / a)) with (snd k' - dot r x) by (field; lra). lra.
    + intros k Hk. apply in_lowers in Hk as (k' & Hk' & E & ->). specialize (H k' Hk'). destruct (@row_cons _ k' (Hr k' Hk')) as (a & r & Ek & _). unfold scale. rewrite Ek in *. cbn [hd tl fst snd] in *. rewrite dot_cons in H. rewrite dot_div.
      apply (Rmult_le_reg_l (- a)); [lra|]. replace (- a * (snd k' / a - dot r x / a)) with (dot r x - snd k') by (field; lra). lra.
  - intros (HZ & HU & HL) k Hk. destruct (@row_cons _ k (Hr k Hk)) as (a & r & Ek & _). rewrite Ek, dot_cons. destruct (Rtotal_order a 0) as [L|[E|G]].
    + assert (Hb : bound x (scale a k) <= y) by (apply HL; apply in_lowers; exists k; rewrite Ek; cbn [hd]; auto).
      unfold bound, scale in Hb. rewrite Ek in Hb. cbn [tl fst snd] in Hb. rewrite dot_div in Hb.
      apply (Rmult_le_compat_l (- a)) in Hb; [|lra]. replace (- a * (snd k / a - dot r x / a)) with (dot r x - snd k) in Hb by (field; lra). lra.
    + subst a. assert (Hb : dot (fst (r, snd k)) x <= snd (r, snd k)) by (apply HZ; apply in_zeros; exists k; rewrite Ek; cbn [hd tl]; auto). cbn [fst snd] in Hb. lra.
    + assert (Hb : y <= bound x (scale a k)) by (apply HU; apply in_uppers; exists k; rewrite Ek; cbn [hd]; auto).
      unfold bound, scale in Hb. rewrite Ek in Hb. cbn [tl fst snd] in Hb. rewrite dot_div in Hb.
      apply (Rmult_le_compat_l a) in Hb; [|lra]. replace (a * (snd k / a - dot r x / a)) with (snd k - dot r x) in Hb by (field; lra). lra.
Qed.

Lemma rows_uppers cs n k : rows (S n) cs -> In k (uppers cs) -> length (fst k) = n.
Proof. intros Hr Hk. apply in_uppers in Hk as (k' & Hk' & _ & ->). unfold scale. cbn [fst]. rewrite map_length. destruct (@row_cons _ k' (Hr k' Hk')) as (a & r & -> & E). auto. Qed.
Lemma rows_lowers cs n k : rows (S n) cs -> In k (lowers cs) -> length (fst k) = n.
Proof. intros Hr Hk. apply in_lowers in Hk as (k' & Hk' & _ & ->). unfold scale. cbn [fst]. rewrite map_length. destruct (@row_cons _ k' (Hr k' Hk')) as (a & r & -> & E). auto. Qed.
Lemma rows_elim cs n : rows (S n) cs -> rows n (elim cs).
Proof.
  intros Hr k Hk. apply in_app_iff in Hk as [Hk|Hk].
  - apply in_zeros in Hk as (k' & Hk' & _ & ->). destruct (@row_cons _ k' (Hr k' Hk')) as (a & r & E1 & E). cbn [fst]. rewrite E1. auto.
  - apply in_pairs in Hk as (u & l & Hu & Hl & ->). cbn [fst]. unfold vsub. rewrite map_length, combine_length, (rows_uppers _ Hr Hu), (rows_lowers _ Hr Hl). lia.
Qed.

Lemma elim_sound cs n x y : rows (S n) cs -> sat cs (y :: x) -> sat (elim cs) x.
Proof.
  intros Hr H. apply (@sat_bounds cs n x y Hr) in H as (HZ & HU & HL). intros k Hk. apply in_app_iff in Hk as [Hk|Hk]; [auto|].
  apply in_pairs in Hk as (u & l & Hu & Hl & ->). cbn [fst snd]. rewrite dot_vsub by (rewrite (rows_uppers _ Hr Hu), (rows_lowers _ Hr Hl); auto).
  specialize (HU u Hu). specialize (HL l Hl). unfold bound in *. lra.
Qed.
Lemma elim_complete cs n x : rows (S n) cs -> sat (elim cs) x -> sat cs (pick cs x :: x).
Proof.
  intros Hr H. apply (@sat_bounds cs n); auto. split; [intros k Hk; apply H; apply in_app_iff; auto|]. unfold pick.
  destruct (map (bound x) (lowers cs)) as [|l0 ls] eqn:EL.
  - assert (NL : lowers cs = []) by (destruct (lowers cs); [auto|discriminate]). split; [|rewrite NL; intros k []].
    intros k Hk. destruct (map (bound x) (uppers cs)) as [|u0 us] eqn:EU; [destruct (uppers cs); [destruct Hk|discriminate]|].
    apply fold_min. rewrite <- EU. apply in_map. auto.
  - destruct (fold_max l0 ls) as [F1 F2]. split.
    + intros u Hu. rewrite <- EL in F2. apply in_map_iff in F2 as (l & E & Hl). rewrite <- E.
      assert (P : sat (pairs (uppers cs) (lowers cs)) x) by (intros k Hk; apply H; apply in_app_iff; auto).
      specialize (P (vsub (fst u) (fst l), snd u - snd l)). cbn [fst snd] in P. rewrite dot_vsub in P by (rewrite (rows_uppers _ Hr Hu), (rows_lowers _ Hr Hl); auto).
      assert (Q : dot (fst u) x - dot (fst l) x <= snd u - snd l) by (apply P; apply in_pairs; eauto). unfold bound. lra.
    + intros k Hk. apply F1. rewrite <- EL. apply in_map. auto.
Qed.

(** Eliminating the first [n] variables, and filling them in again. *)
Fixpoint fm_project (n : nat) (cs : list constraint) : list constraint := match n with O => cs | S n' => fm_project n' (elim cs) end.
Fixpoint back (n : nat) (cs : list constraint) (x : list R) : list R :=
  match n with O => x | S n' => let x' := back n' (elim cs) x in pick cs x' :: x' end.
Lemma back_length n cs x : length (back n cs x) = (n + length x)%nat.
Proof. revert cs. induction n as [|n IH]; intros cs; cbn [back length]; auto. rewrite IH. auto. Qed.
Lemma back_skipn n cs x : skipn n (back n cs x) = x.
Proof. revert cs. induction n as [|n IH]; intros cs; cbn [back skipn]; auto. Qed.
Lemma rows_project n m cs : rows (n + m) cs -> rows m (fm_project n cs).
Proof. revert cs. induction n as [|n IH]; intros cs H; cbn [fm_project]; auto. apply IH. apply rows_elim. auto. Qed.
Lemma back_sat n m cs x : rows (n + m) cs -> sat (fm_project n cs) x -> sat cs (back n cs x).
Proof.
  revert cs. induction n as [|n IH]; intros cs Hr H; cbn [fm_project back] in *; auto.
  apply elim_complete with (n + m)%nat; auto. apply IH; auto. apply rows_elim. auto.
Qed.
Lemma project_sat n m cs z : rows (n + m) cs -> length z = (n + m)%nat -> sat cs z -> sat (fm_project n cs) (skipn n z).
Proof.
  revert cs z. induction n as [|n IH]; intros cs z Hr Hl H; cbn [fm_project skipn]; auto.
  destruct z as [|y z]; [discriminate|]. apply IH; [apply rows_elim; auto|cbn in Hl; lia|]. apply elim_sound with (n + m)%nat y; auto.
Qed.

(** ** The solver: the objective value as an extra last variable. *)
Definition with_objective (c : list R) (A : list (list R)) (b : list R) : list constraint :=
  (map Ropp c ++ [1], 0) :: (c ++ [-1], 0) :: map (fun k => (fst k ++ [0], snd k)) (lp_rows A b).

Lemma dot_app u v x y : length u = length x -> dot (u ++ v) (x ++ y) = dot u x + dot v y.
Proof.
  revert x. induction u as [|a u IH]; intros [|b x] H; try discriminate; cbn [app]; rewrite ?dot_nil_l, ?dot_cons; [lra|].
  rewrite IH by (simpl in H; lia). lra.
Qed.
Lemma dot_opp u x : dot (map Ropp u) x = - dot u x.
Proof. revert x. induction u as [|a u IH]; intros [|b x]; cbn [map]; rewrite ?dot_nil_l, ?dot_nil_r, ?dot_cons; try lra. rewrite IH. lra. Qed.

Lemma objective_rows c A b : lp_shaped c A b -> rows (length c + 1) (with_objective c A b).
Proof.
  intros (HA & HR) k [<-|[<-|Hk]]; cbn [fst]; rewrite ?app_length, ?map_length; auto.
  apply in_map_iff in Hk as ([row bd] & <- & Hk). cbn [fst]. rewrite app_length. cbn [length]. f_equal. apply HR. apply in_combine_l in Hk. auto.
Qed.
Lemma objective_sat c A b x t : lp_shaped c A b -> length x = length c -> (sat (with_objective c A b) (x ++ [t]) <-> lp_feasible c A b x /\ t = dot c x).
Proof.
  intros (HA & HR) Hl. assert (D1 : forall a, dot [a] [t] = a * t) by (intros a; rewrite dot_cons, dot_nil_l; lra). split.
  - intros H. split; [split; auto|].
    + intros row bd Hin. specialize (H (row ++ [0], bd)). cbn [fst snd] in H. rewrite dot_app, D1 in H by (rewrite Hl; apply HR; apply in_combine_l in Hin; auto).
      assert (dot row x + 0 * t <= bd); [|lra]. apply H. right. right. apply in_map_iff. exists (row, bd). auto.
    + pose proof (H _ (or_introl eq_refl)) as H1. pose proof (H _ (or_intror (or_introl eq_refl))) as H2. cbn [fst snd] in *.
      rewrite dot_app, D1 in H2 by auto. rewrite dot_app, D1, dot_opp in H1 by (rewrite map_length; auto). lra.
  - intros ((_ & Hf) & ->) k [<-|[<-|Hk]]; cbn [fst snd].
    + rewrite dot_app, D1, dot_opp by (rewrite map_length; auto). lra.
    + rewrite dot_app, D1 by auto. lra.
    + apply in_map_iff in Hk as ([row bd] & <- & Hin). cbn [fst snd]. rewrite dot_app, D1 by (rewrite Hl; apply HR; apply in_combine_l in Hin; auto). specialize (Hf row bd Hin). lra.
Qed.

(** The feasible values: a system in one variable. *)
Definition values (c : list R) A b : list constraint := fm_project (length c) (with_objective c A b).
Lemma values_iff c A b t : lp_shaped c A b -> (sat (values c A b) [t] <-> exists x, lp_feasible c A b x /\ dot c x = t).
Proof.
  intros Hs. pose proof (objective_rows Hs) as Hr. split.
  - intros H. pose proof (@back_sat (length c) 1 _ _ Hr H) as H'. set (z := back (length c) (with_objective c A b) [t]) in *.
    assert (Lz : length z = (length c + 1)%nat) by (unfold z; apply back_length). assert (Sz : skipn (length c) z = [t]) by apply back_skipn.
    rewrite <- (firstn_skipn (length c) z), Sz in H'. exists (firstn (length c) z). apply objective_sat in H' as [H1 H2]; auto. rewrite firstn_length. lia.
  - intros (x & Hf & <-). assert (Lx : length x = length c) by apply Hf.
    assert (H : sat (with_objective c A b) (x ++ [dot c x])) by (apply objective_sat; auto).
    apply (@project_sat (length c) 1) in H; auto; [|rewrite app_length; simpl; lia]. rewrite skipn_app, Lx, Nat.sub_diag, skipn_all2 in H by lia. auto.
Qed.

Definition solver (k : nat) (c : list R) (A : list (list R)) (b : list R) : lp_result :=
  let vs := values c A b in
  if forallb (fun k => if Rle_dec 0 (snd k) then true else false) (elim vs) then
    match lowers vs with
    | [] => mkLP false 3 None
    | _ => mkLP true 0 (Some (firstn (length c) (back (length c) (with_objective c A b) [pick vs []])))
    end
  else mkLP false 2 None.

Lemma solver_answers : lp_answers_all_variables solver.
Proof.
  intros k c A b x. unfold solver. destruct (forallb _ _); [|discriminate]. destruct (lowers _); [discriminate|]. cbn [lp_x]. intros E. inversion E; subst.
  rewrite firstn_length, back_length. cbn [length]. lia.
Qed.

Lemma solver_solves : solves_lps solver.
Proof.
  intros k c A b Hs. pose proof (objective_rows Hs) as Hr. assert (Hv : rows 1 (values c A b)) by (apply rows_project; auto).
  assert (HF : forallb (fun k => if Rle_dec 0 (snd k) then true else false) (elim (values c A b)) = true <-> exists x, lp_feasible c A b x).
  { rewrite forallb_forall. split.
    - intros H. assert (S : sat (elim (values c A b)) []).
      { intros q Hq. specialize (H q Hq). destruct (Rle_dec 0 (snd q)) as [L|]; [|discriminate]. rewrite dot_nil_r. auto. }
      apply (@elim_complete _ 0%nat) in S; auto. apply values_iff in S as (x & Hx & _); eauto.
    - intros (x & Hx) q Hq. assert (S : sat (values c A b) [dot c x]) by (apply values_iff; eauto). apply (@elim_sound _ 0%nat) in S; auto.
      specialize (S q Hq). rewrite dot_nil_r in S. destruct (Rle_dec 0 (snd q)); auto; lra. }
  assert (HB : (exists x, lp_feasible c A b x) -> (lowers (values c A b) <> [] <-> lp_bounded c A b)).
  { intros (x & Hx). assert (S : sat (values c A b) [dot c x]) by (apply values_iff; eauto). apply (@sat_bounds _ 0%nat) in S as (HZ & HU & HL); auto. split.
    - intros N. destruct (lowers (values c A b)) as [|l ls] eqn:E; [congruence|]. exists (bound [] l). intros y Hy.
      assert (Sy : sat (values c A b) [dot c y]) by (apply values_iff; eauto). apply (@sat_bounds _ 0%nat) in Sy as (_ & _ & HL'); auto. apply HL'. rewrite E. left; auto.
    - intros (m & Hm) N. assert (T : sat (values c A b) [Rmin (dot c x) (m - 1)]).
      { apply (@sat_bounds _ 0%nat); auto. split; auto. split; [|rewrite N; intros q []]. intros q Hq. eapply Rle_trans; [apply Rmin_l|auto]. }
      apply values_iff in T as (y & Hy & Ey); auto. specialize (Hm y Hy). pose proof (Rmin_r (dot c x) (m - 1)). lra. }
  unfold solver. split; [|split].
  - intros Hf Hb. rewrite (proj2 HF Hf). pose proof (proj2 (HB Hf) Hb) as N. destruct (lowers (values c A b)) as [|l ls] eqn:E; [congruence|].
    eexists. split; [reflexivity|]. set (t := pick (values c A b) []). destruct Hf as (x & Hx).
    assert (S : sat (values c A b) [t]).
    { apply (@elim_complete _ 0%nat); auto. apply (@elim_sound _ 0%nat _ (dot c x)); auto. apply values_iff; eauto. }
    pose proof (@back_sat (length c) 1 _ _ Hr S) as H'. set (z := back (length c) (with_objective c A b) [t]) in *.
    assert (Lz : length z = (length c + 1)%nat) by (unfold z; apply back_length). assert (Sz : skipn (length c) z = [t]) by apply back_skipn.
    rewrite <- (firstn_skipn (length c) z), Sz in H'. apply objective_sat in H' as [H1 H2]; auto; [|rewrite firstn_length; lia]. split; auto.
    intros y Hy. rewrite <- H2. unfold t, pick. rewrite E. cbn [map]. destruct (fold_max (bound [] l) (map (bound []) ls)) as [_ F].
    assert (Sy : sat (values c A b) [dot c y]) by (apply values_iff; eauto). apply (@sat_bounds _ 0%nat) in Sy as (_ & _ & HL); auto.
    change (bound [] l :: map (bound []) ls) with (map (bound []) (l :: ls)) in F. rewrite <- E in F. apply in_map_iff in F as (q & <- & Hq). apply HL. auto.
  - intros Hn. match goal with |- (if ?X then _ else _) = _ => destruct (Bool.bool_dec X true) as [EF|EF] end.
    + apply HF in EF as (x & Hx). destruct (Hn x Hx).
    + apply Bool.not_true_is_false in EF. rewrite EF. auto.
  - intros Hf Hb. rewrite (proj2 HF Hf). destruct (lowers (values c A b)) eqn:E; auto. exfalso. apply Hb. apply (HB Hf). discriminate.
Qed.

Lemma sampler_fair : fair_sampler (fun _ _ s => seq 0 s).
Proof. intros k n s Hs. rewrite seq_length. split; auto. split; [apply seq_NoDup|]. intros i Hi. apply in_seq in Hi. lia. Qed.
