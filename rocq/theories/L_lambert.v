(** Contours of the logarithmic mean by the Lambert W function. *)
From Verif Require Import PyBase PyGraph M_champ M_estimation_utils M_experiments Spec_sbm Spec_lambert L_base L_logmean L_limits.
Set Implicit Arguments.
Open Scope R_scope.

Lemma scaled_range t : 0 < t -> - exp (-1) <= - (t * exp (- t)) < 0.
Proof.
  intros Ht. split.
  - assert (H : t <= exp (t - 1)). { destruct (Req_dec t 1) as [->|N]; [replace (1 - 1) with 0 by ring; rewrite exp_0; lra|]. pose proof (exp_ineq1 (t - 1) ltac:(lra)). lra. }
    apply Ropp_le_contravar. apply (Rmult_le_compat_r (exp (- t))) in H; [|left; apply exp_pos]. rewrite <- exp_plus in H. replace (t - 1 + - t) with (-1) in H by ring. auto.
  - assert (0 < t * exp (- t)) by (apply Rmult_lt_0_compat; auto; apply exp_pos). lra.
Qed.

Lemma argument_form gamma x : gamma <> 0 -> - x * exp (- x / gamma) / gamma = - (x / gamma * exp (- (x / gamma))).
Proof. intros H. replace (- x / gamma) with (- (x / gamma)) by (field; auto). field. auto. Qed.

Lemma same_potential gamma x w : 0 < gamma -> 0 < x -> w < 0 -> w * exp w = - (x / gamma * exp (- (x / gamma))) ->
  potential gamma (- gamma * w) = potential gamma x.
Proof.
  intros Hg Hx Hw E. unfold potential. assert (Ht : 0 < x / gamma) by (apply Rdiv_lt_0_compat; auto).
  assert (E' : - w * exp w = x / gamma * exp (- (x / gamma))) by lra. apply (f_equal ln) in E'.
  rewrite !ln_mult in E' by (try apply exp_pos; lra). rewrite !ln_exp in E'.
  replace (- gamma * w) with (gamma * - w) by ring. rewrite ln_mult by lra.
  assert (El : ln x = ln gamma + ln (x / gamma)). { rewrite <- ln_mult by auto. f_equal. field. lra. }
  rewrite El. replace (gamma * - w / gamma) with (- w) by (field; lra). lra.
Qed.

Section Contour.
Variables (W : Z -> R -> npf) (gamma x : R).
Hypotheses (HW : lambert W) (Hg : 0 < gamma) (Hx : 0 < x).

Lemma contour_point : exists y, parametric_omega W gamma x = Fin y /\ 0 < y /\ potential gamma y = potential gamma x /\
  (x < gamma -> gamma <= y) /\ (gamma <= x -> y <= gamma).
Proof.
  unfold parametric_omega. destruct (Req_EM_T gamma 0); [lra|]. rewrite argument_form by auto.
  pose proof (@scaled_range (x / gamma) ltac:(apply Rdiv_lt_0_compat; auto)) as Hr. destruct (Rlt_dec x gamma) as [L|L].
  - destruct (lambert_lower W HW _ Hr) as (w & -> & Hw & E). exists (- gamma * w). split; auto. split; [nra|]. split; [apply same_potential; auto; lra|]. split; intros; [nra|lra].
  - destruct (lambert_principal W HW _ Hr) as (w & -> & Hw & E). exists (- gamma * w). split; auto. split; [nra|]. split; [apply same_potential; auto; lra|]. split; intros; [lra|nra].
Qed.

Lemma potential_same_side y z : 0 < y -> 0 < z -> potential gamma y = potential gamma z -> (y <= gamma /\ z <= gamma) \/ (gamma <= y /\ gamma <= z) -> y = z.
Proof.
  intros Hy Hz E [[A B]|[A B]].
  - destruct (Rtotal_order y z) as [L|[L|L]]; auto; exfalso.
    + pose proof (@potential_down gamma y z Hy L B). lra.
    + pose proof (@potential_down gamma z y Hz L A). lra.
  - destruct (Rtotal_order y z) as [L|[L|L]]; auto; exfalso.
    + pose proof (@potential_up gamma y z Hg A L). lra.
    + pose proof (@potential_up gamma z y Hg B L). lra.
Qed.

Lemma contour_diagonal : x = gamma -> parametric_omega W gamma x = Fin gamma.
Proof.
  intros E. destruct contour_point as (y & -> & Hy & P & _ & C). f_equal. apply potential_same_side; auto; [rewrite P, E; auto|]. left. split; [apply C|]; lra.
Qed.

(** Off the diagonal the point is on the other side of gamma, and the logarithmic mean is gamma. *)
Lemma contour_mean : x <> gamma -> exists y, parametric_omega W gamma x = Fin y /\ 0 < y /\ y <> x /\ log_mean x y = gamma /\
  (x < gamma -> gamma < y) /\ (gamma < x -> y < gamma).
Proof.
  intros N. destruct contour_point as (y & E & Hy & P & B & C). exists y. split; auto. split; auto.
  assert (Hyg : y <> gamma). { intros ->. apply N. destruct (Rle_dec x gamma); [apply potential_same_side; auto; left; lra|apply potential_same_side; auto; right; lra]. }
  assert (Hyx : y <> x). { intros ->. destruct (Rlt_dec x gamma); [specialize (B r)|specialize (C ltac:(lra))]; lra. }
  split; auto. split; [|split; intros; [specialize (B H)|specialize (C ltac:(lra))]; lra].
  destruct (Rlt_dec y x).
  - apply mean_eq; auto.
  - rewrite log_mean_sym by auto. apply mean_eq; auto; lra.
Qed.

Lemma contour_unique y : 0 < y -> y <> x -> log_mean x y = gamma -> parametric_omega W gamma x = Fin y.
Proof.
  intros Hy N E. assert (B : (y < gamma < x) \/ (x < gamma < y)).
  { destruct (Rlt_dec y x); [left; pose proof (@mean_between x y Hy r); lra|right]. rewrite log_mean_sym in E by auto. pose proof (@mean_between y x Hx ltac:(lra)). lra. }
  destruct contour_mean as (z & -> & Hz & Nz & Ez & S1 & S2); [lra|]. f_equal.
  assert (P : potential gamma y = potential gamma x).
  { destruct (Rlt_dec y x); [apply mean_eq; auto|]. symmetry. apply mean_eq; auto; [lra|]. rewrite log_mean_sym; auto. }
  assert (Q : potential gamma z = potential gamma x).
  { destruct (Rlt_dec z x); [apply mean_eq; auto|]. symmetry. apply mean_eq; auto; [lra|]. rewrite log_mean_sym; auto. }
  apply potential_same_side; auto; [congruence|]. destruct B; [left; specialize (S2 ltac:(lra)); lra|right; specialize (S1 ltac:(lra)); lra].
Qed.
End Contour.

(** Order of contours. *)
Lemma above_contour W gamma x y0 y : lambert W -> 0 < gamma -> 0 < x -> parametric_omega W gamma x = Fin y0 -> 0 < y -> y <> x ->
  (gamma < log_mean x y <-> y0 < y) /\ (log_mean x y < gamma <-> y < y0).
Proof.
  intros HW Hg Hx E0 Hy N. destruct (Req_dec x gamma) as [Z|Z].
  - rewrite (@contour_diagonal W gamma x HW Hg Hx Z) in E0. inversion E0; subst y0 gamma. clear E0.
    destruct (Rlt_dec y x).
    + pose proof (@mean_between x y Hy r). lra.
    + rewrite log_mean_sym by auto. pose proof (@mean_between y x Hx ltac:(lra)). lra.
  - destruct (@contour_mean W gamma x HW Hg Hx Z) as (z & E & Hz & Nz & Em & _). rewrite E0 in E. inversion E; subst z. clear E.
    destruct (Rtotal_order y y0) as [L|[L|L]].
    + pose proof (@mean_increasing x y y0 Hx Hy L ltac:(auto) ltac:(auto)). lra.
    + subst y. lra.
    + pose proof (@mean_increasing x y0 y Hx Hz L ltac:(auto) ltac:(auto)). lra.
Qed.

(** ** The branches exist *)
Lemma wexp_continuous z : continuity (fun w => w * exp w - z).
Proof. apply derivable_continuous. intros w. apply derivable_pt_minus; [|apply derivable_pt_const]. apply derivable_pt_mult; [apply derivable_pt_id|apply derivable_pt_exp]. Qed.

Lemma principal_root z : - exp (-1) <= z < 0 -> {w | -1 <= w < 0 /\ w * exp w = z}.
Proof.
  intros H. destruct (IVT_cor (fun w => w * exp w - z) (-1) 0 (wexp_continuous z)) as (w & Hw & E); [lra| |].
  - rewrite Rmult_0_l. assert (-1 * exp (-1) - z <= 0) by lra. nra.
  - exists w. split; [|lra]. split; [lra|]. destruct (Req_dec w 0) as [->|N]; [rewrite Rmult_0_l in E; lra|lra].
Qed.

Lemma far_point z : z < 0 -> let t := Rmax 1 (4 / - z) in z <= - t * exp (- t).
Proof.
  intros Hz t. assert (Ht : 1 <= t) by apply Rmax_l. assert (Ht' : 4 / - z <= t) by apply Rmax_r.
  assert (H1 : t / 2 < exp (t / 2)) by (pose proof (exp_ineq1 (t / 2) ltac:(lra)); lra).
  assert (H2 : exp t = exp (t / 2) * exp (t / 2)) by (rewrite <- exp_plus; f_equal; field).
  assert (H3 : t * t / 4 <= exp t) by (rewrite H2; nra). rewrite exp_Ropp.
  assert (Hp : 0 < exp t) by apply exp_pos. apply (Rmult_le_reg_r (exp t)); auto. rewrite Rmult_assoc, Rinv_l, Rmult_1_r by lra.
  assert (4 <= t * - z). { apply (Rmult_le_compat_r (- z)) in Ht'; [|lra]. unfold Rdiv in Ht'. rewrite Rmult_assoc, Rinv_l, Rmult_1_r in Ht' by lra. auto. }
  nra.
Qed.

Lemma lower_root z : - exp (-1) <= z < 0 -> {w | w <= -1 /\ w * exp w = z}.
Proof.
  intros H. set (t := Rmax 1 (4 / - z)). assert (Ht : 1 <= t) by apply Rmax_l.
  pose proof (@far_point z ltac:(lra)) as F. cbv zeta in F. fold t in F.
  destruct (Req_EM_T t 1) as [Z|Z].
  - exists (-1). split; [lra|]. rewrite Z in F. replace (- (1)) with (-1) in F by ring. lra.
  - destruct (IVT_cor (fun w => w * exp w - z) (- t) (-1) (wexp_continuous z)) as (w & Hw & E); [lra| |].
    + assert (0 <= - t * exp (- t) - z) by lra. assert (-1 * exp (-1) - z <= 0) by lra. nra.
    + exists w. split; lra.
Qed.

Definition lambert_w (k : Z) (z : R) : npf :=
  match Rle_dec (- exp (-1)) z, Rlt_dec z 0 with
  | left a, left b => if Z.eqb k (-1) then Fin (proj1_sig (@lower_root z (conj a b))) else Fin (proj1_sig (@principal_root z (conj a b)))
  | _, _ => if Z.eqb k (-1) then NonFinite else Fin 0
  end.

Lemma lambert_w_ok : lambert lambert_w.
Proof.
  split.
  - intros z H. unfold lambert_w. destruct (Rle_dec (- exp (-1)) z) as [A|A]; [|destruct (A (proj1 H))]. destruct (Rlt_dec z 0) as [B|B]; [|destruct (B (proj2 H))]. cbn [Z.eqb Pos.eqb]. eexists. split; [reflexivity|]. apply (proj2_sig (principal_root _)).
  - intros z H. unfold lambert_w. destruct (Rle_dec (- exp (-1)) z) as [A|A]; [|destruct (A (proj1 H))]. destruct (Rlt_dec z 0) as [B|B]; [|destruct (B (proj2 H))]. cbn [Z.eqb Pos.eqb]. eexists. split; [reflexivity|]. apply (proj2_sig (lower_root _)).
  - unfold lambert_w. destruct (Rle_dec (- exp (-1)) 0); [|reflexivity]. destruct (Rlt_dec 0 0) as [B|B]; [destruct (Rlt_irrefl 0 B)|reflexivity].
  - unfold lambert_w. destruct (Rle_dec (- exp (-1)) 0); [|reflexivity]. destruct (Rlt_dec 0 0) as [B|B]; [destruct (Rlt_irrefl 0 B)|reflexivity].
Qed.
