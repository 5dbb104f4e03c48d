(** Property theorems about the contours of constant gamma: C74. *)
From Verif Require Import PyBase PyGraph M_champ M_estimation_utils M_experiments Spec_sbm Spec_lambert L_base L_logmean L_limits L_lambert Properties_sbm.
Open Scope R_scope.

Lemma estimate_is_mean a b gamma : 0 < a -> 0 < b -> a <> b -> (gamma_estimate_from_parameters a b = Some (Fin gamma) <-> log_mean a b = gamma).
Proof.
  intros Ha Hb N. rewrite gamma_from_parameters. destruct (Req_EM_T a 0); [lra|]. destruct (Req_EM_T b 0); [lra|]. destruct (Rlt_dec 0 a); [|lra]. destruct (Rlt_dec 0 b); [|lra].
  destruct (Req_EM_T a b); [congruence|]. split; intros H; [inversion H; auto|rewrite H; auto].
Qed.

(** ** C74: the plotted contour of resolution gamma passes, at omega_in = x, through the one omega_out whose gamma estimate is gamma. *)
Theorem C74_contour : forall W gamma x, lambert W -> 0 < gamma -> 0 < x -> x <> gamma ->
  exists y, parametric_omega W gamma x = Fin y /\ 0 < y /\ gamma_estimate_from_parameters x y = Some (Fin gamma) /\
    (x < gamma -> gamma < y) /\ (gamma < x -> y < gamma) /\
    forall y', gamma_estimate_from_parameters x y' = Some (Fin gamma) -> y' = y.
Proof.
  intros W gamma x HW Hg Hx N. destruct (@contour_mean W gamma x HW Hg Hx N) as (y & E & Hy & Nyx & Em & S1 & S2). exists y. split; auto. split; auto.
  split; [apply estimate_is_mean; auto|]. split; auto. split; auto. intros y' H.
  assert (G : 0 < y' /\ x <> y').
  { rewrite gamma_from_parameters in H. destruct (Req_EM_T x 0); [discriminate|]. destruct (Req_EM_T y' 0); [discriminate|]. destruct (Rlt_dec 0 x); [|discriminate].
    destruct (Rlt_dec 0 y'); [|discriminate]. destruct (Req_EM_T x y'); [discriminate|]. auto. }
  destruct G as [G1 G2]. apply estimate_is_mean in H; auto. pose proof (@contour_unique W gamma x HW Hg Hx y' G1 ltac:(auto) H) as E'. rewrite E in E'. inversion E'. auto.
Qed.
Print Assumptions C74_contour.

(** On the diagonal the contour meets the diagonal (where no estimate exists); at x = 0 it is infinite; the contour of 0 is 0. *)
Theorem C74_boundary : forall W gamma, lambert W ->
  (0 < gamma -> parametric_omega W gamma gamma = Fin gamma /\ gamma_estimate_from_parameters gamma gamma = Some NonFinite) /\
  (0 < gamma -> parametric_omega W gamma 0 = NonFinite) /\ (forall x, parametric_omega W 0 x = Fin 0 /\ gamma_estimate_from_parameters x 0 = None).
Proof.
  intros W gamma HW. split; [|split].
  - intros Hg. split; [apply contour_diagonal; auto|]. rewrite gamma_from_parameters. destruct (Req_EM_T gamma 0); [lra|]. destruct (Rlt_dec 0 gamma); [|lra]. destruct (Req_EM_T gamma gamma); [auto|congruence].
  - intros Hg. unfold parametric_omega. destruct (Req_EM_T gamma 0); [lra|]. destruct (Rlt_dec 0 gamma); [|lra].
    replace (- 0 * exp (- 0 / gamma) / gamma) with 0 by (field; lra). rewrite (lambert_lower_0 W HW). reflexivity.
  - intros x. split; [unfold parametric_omega; destruct (Req_EM_T 0 0); [auto|congruence]|]. rewrite gamma_from_parameters. destruct (Req_EM_T x 0); auto. destruct (Req_EM_T 0 0); [auto|congruence].
Qed.
Print Assumptions C74_boundary.

(** The contour is its own inverse. *)
Theorem C74_involution : forall W gamma x y, lambert W -> 0 < gamma -> 0 < x -> parametric_omega W gamma x = Fin y -> parametric_omega W gamma y = Fin x.
Proof.
  intros W gamma x y HW Hg Hx E. destruct (Req_dec x gamma) as [->|N].
  - rewrite (@contour_diagonal W gamma gamma HW Hg Hx eq_refl) in E. inversion E. subst. apply contour_diagonal; auto.
  - destruct (@contour_mean W gamma x HW Hg Hx N) as (z & E' & Hz & Nz & Em & _). rewrite E in E'. inversion E'; subst z.
    apply contour_unique; auto. rewrite log_mean_sym; auto.
Qed.
Print Assumptions C74_involution.

(** The coloured bands: between the contours of gamma1 and gamma2 lie exactly the parameters with estimates between them. *)
Theorem C74_bands : forall W gamma1 gamma2 x y1 y2 y g, lambert W -> 0 < gamma1 -> 0 < gamma2 -> 0 < x -> 0 < y ->
  parametric_omega W gamma1 x = Fin y1 -> parametric_omega W gamma2 x = Fin y2 -> gamma_estimate_from_parameters x y = Some (Fin g) ->
  (y1 < y < y2 <-> gamma1 < g < gamma2).
Proof.
  intros W g1 g2 x y1 y2 y g HW H1 H2 Hx Hy E1 E2 E.
  assert (N : x <> y). { intros ->. rewrite gamma_from_parameters in E. destruct (Req_EM_T y 0); [discriminate|]. destruct (Rlt_dec 0 y); [|discriminate]. destruct (Req_EM_T y y); [discriminate|congruence]. }
  apply estimate_is_mean in E; auto. rewrite <- E.
  destruct (@above_contour W g1 x y1 y HW H1 Hx E1 Hy ltac:(auto)) as [A _]. destruct (@above_contour W g2 x y2 y HW H2 Hx E2 Hy ltac:(auto)) as [_ B]. tauto.
Qed.
Print Assumptions C74_bands.

(** The contract is met: the two real branches exist. *)
Theorem C74_branches_exist : exists W, lambert W.
Proof. exists lambert_w. exact lambert_w_ok. Qed.
Print Assumptions C74_branches_exist.
Example C74_example : exists y, parametric_omega lambert_w 1 (1 / 2) = Fin y /\ 1 < y /\ gamma_estimate_from_parameters (1 / 2) y = Some (Fin 1).
Proof. destruct (C74_contour lambert_w 1 (1 / 2) lambert_w_ok) as (y & A & _ & B & C & _); try lra. exists y. split; auto. split; auto. apply C. lra. Qed.
