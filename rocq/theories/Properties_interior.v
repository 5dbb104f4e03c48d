(** C72: the interior point search with a working linear programming solver. *)
From Verif Require Import PyBase PyGraph M_partition M_pool M_champ M_estimation_utils Spec Spec_graph Spec_champ Spec_lp Spec_tiling Spec_prune L_base L_lp L_halfspace L_champ
  L_chebyshev L_world L_prune L_champ_total Properties_coefficients Properties_champ Properties_prune Properties_multiprune Properties_sbm.
From Coq Require Import Lra Lia Permutation.
Open Scope R_scope.

(** If the system has a strictly interior point, get_interior_point returns one, after at most d + 1 linear programs, where the initial
    sample doubled d times covers all rows but the box. *)
Theorem C72_finds_interior_point : forall dim hs fuel choice lp initial_num_sampled full_retry_limit d,
  (dim = 2 \/ dim = 3)%nat -> box_system dim hs -> solves_lps lp -> fair_sampler choice ->
  (1 <= initial_num_sampled)%nat -> (length hs <= initial_num_sampled * 2 ^ d + 2 * dim)%nat -> (d + 1 <= fuel)%nat ->
  (exists p, length p = dim /\ strictly_inside hs p) ->
  exists x, get_interior_point fuel choice lp hs initial_num_sampled full_retry_limit = Some (Ok x) /\ length x = dim /\ strictly_inside hs x.
Proof.
  intros dim hs fuel choice lp s limit d Hd Hb Hlp Hch Hs Hl Hf (p & Lp & Hp).
  destruct (@interior_found dim hs fuel choice lp s limit d p) as (x & Ex & Lx & _); auto; [lia|].
  exists x. split; auto. split; auto. eapply get_interior_point_sound; eauto.
Qed.
Print Assumptions C72_finds_interior_point.

(** If it has none, get_interior_point raises ValueError. *)
Theorem C72_reports_degenerate : forall dim hs fuel choice lp initial_num_sampled full_retry_limit d,
  (dim = 2 \/ dim = 3)%nat -> box_system dim hs -> solves_lps lp -> fair_sampler choice ->
  (1 <= initial_num_sampled)%nat -> (length hs <= initial_num_sampled * 2 ^ d)%nat -> (d + full_retry_limit + 2 <= fuel)%nat ->
  (forall p, length p = dim -> ~ strictly_inside hs p) ->
  get_interior_point fuel choice lp hs initial_num_sampled full_retry_limit = Some (Raise ValueError).
Proof. exact interior_not_found. Qed.
Print Assumptions C72_reports_degenerate.

(** With at most initial_num_sampled rows besides the box the point is a Chebyshev centre: the centre of a largest ball inside the
    region. *)
Theorem C72_chebyshev_centre : forall dim hs fuel choice lp initial_num_sampled full_retry_limit x,
  (dim = 2 \/ dim = 3)%nat -> box_system dim hs -> solves_lps lp -> fair_sampler choice ->
  (1 <= initial_num_sampled)%nat -> (length hs <= initial_num_sampled + 2 * dim)%nat ->
  get_interior_point fuel choice lp hs initial_num_sampled full_retry_limit = Some (Ok x) ->
  exists radius, 0 < radius /\ ball_inside hs x radius /\
    forall y r, length y = dim -> 0 <= r -> ball_inside hs y r -> r <= radius.
Proof.
  intros dim hs fuel choice lp s limit x Hd Hb Hlp Hch Hs Hl H.
  assert (Hf : (0 < fuel)%nat).
  { destruct fuel; [|lia]. exfalso. unfold get_interior_point in H. destruct (Nat.eqb _ 2); [discriminate|]. destruct (Nat.eqb _ 3); discriminate. }
  assert (HI : exists p, length p = dim /\ strictly_inside hs p).
  { destruct (Classical_Prop.classic (exists p, length p = dim /\ strictly_inside hs p)) as [|N]; auto. exfalso.
    (* the point itself *)
    apply N. exists x. split; [|eapply get_interior_point_sound; eauto].
    destruct (box_system_dim Hd Hb) as (E & Lc & Hn). cbv zeta in *. rewrite (@get_loop dim) in H by auto.
    destruct fuel as [|fuel]; [lia|]. cbn [interior_loop] in H.
    destruct (@round choice lp dim hs (firstn (length hs - 2 * dim) hs) (skipn (length hs - 2 * dim) hs) Hlp Hch ltac:(lia) Hn (proj2 (proj2 Hb)) (firstn_skipn _ _) 0 s)
      as (sampled & x' & r' & E1 & E2 & Lx & _).
    assert (G : forall fuel k s r, interior_loop fuel choice lp dim hs (firstn (length hs - 2 * dim) hs) (skipn (length hs - 2 * dim) hs) limit k s r = Some (Ok x) -> length x = dim).
    { clear - Hlp Hch Hd Hn Hb. induction fuel as [|fuel IH]; intros k s r H; [discriminate|]. cbn [interior_loop] in H.
      destruct (@round choice lp dim hs (firstn (length hs - 2 * dim) hs) (skipn (length hs - 2 * dim) hs) Hlp Hch ltac:(lia) Hn (proj2 (proj2 Hb)) (firstn_skipn _ _) k s) as (sampled & x' & r' & E1 & E2 & Lx & _).
      rewrite E1, E2 in H. cbn [lp_success lp_status lp_x orb] in H. rewrite removelast_last in H. destruct (forallb _ hs); [inversion H; subst; auto|].
      destruct (Nat.ltb limit r); [discriminate|]. destruct (Nat.leb _ s); eauto. }
    apply (G (S fuel) 0%nat s 0%nat). cbn [interior_loop]. exact H. }
  destruct HI as (p & Lp & Hp).
  destruct (@interior_found dim hs fuel choice lp s limit 0 p) as (x' & Ex & Lx & Bx); auto; [cbn; lia|].
  rewrite Ex in H. inversion H; subst x'. destruct (Bx Hl) as (r & R0 & Fx & Ox). exists r. split; auto.
  assert (Hn : forall h, In h hs -> length (normal h) = dim /\ exists a, In a (normal h) /\ a <> 0) by apply Hb.
  split; [apply (@fits_ball dim); auto; intros h Hh; apply Hn; auto|].
  intros y r' Ly R1 By. apply Ox with y; auto. apply (@ball_fits dim); auto.
Qed.
Print Assumptions C72_chebyshev_centre.

(** The systems of CHAMP_2D and CHAMP_3D end with such a box. *)
Theorem C72_champ_systems_end_with_box :
  (forall a_hats p_hats gamma_0 gamma_f hs, champ_halfspaces_2D a_hats p_hats gamma_0 gamma_f = Ok hs -> box_system 2 hs) /\
  (forall a_hats p_hats c_hats gamma_0 gamma_f omega_0 omega_f hs,
     champ_halfspaces_3D a_hats p_hats c_hats gamma_0 gamma_f omega_0 omega_f = Ok hs -> box_system 3 hs).
Proof. split; intros; [eapply box_system_2D|eapply box_system_3D]; eauto. Qed.
Print Assumptions C72_champ_systems_end_with_box.

(** Non-vacuity of all of this, and of C23_returns, C25_returns, C41_prune_returns and C57_multilayer_prune_returns: there are external
    routines that answer on every input and meet every contract (Fourier-Motzkin elimination solves the linear programs). *)
Theorem C72_working_routines_exist : forall dim n, (dim = 2 \/ dim = 3)%nat ->
  exists env, env_cpus env = 1%nat /\ env_order env = [0%nat] /\ working_solver env n /\ lp_answers_all_variables (env_lp env) /\
    exact_hsi dim (env_hsi env) /\ irredundant_hsi dim (env_hsi env) /\ full_facets_hsi dim (env_hsi env) /\ hsi_answers dim env.
Proof. intros dim n Hd. exists (world dim (S n)). apply world_ok; auto. Qed.
Print Assumptions C72_working_routines_exist.

(** One world in which CHAMP_2D returns for every undirected graph, every collection of at most n partitions and every interval. *)
Theorem C72_CHAMP_2D_total : forall n, (Z.of_nat n <= 2 ^ 53)%Z -> exists env,
  forall g parts gamma_0 gamma_f single_threaded,
    wf_graph g -> directed g = false -> edges g <> [] -> (forall c, In c parts -> length c = vcount g) -> (length parts <= n)%nat -> gamma_0 < gamma_f ->
    champ_ok_2D env g parts /\ exists ranges, CHAMP_2D env g parts gamma_0 gamma_f single_threaded = Ok ranges.
Proof.
  intros n Hn. destruct (C72_working_routines_exist 2 n (or_introl eq_refl)) as (env & E1 & E2 & W & L & X & _ & _ & A). exists env.
  intros g parts g0 gf st Hw Hd He Hp Hl Hg.
  assert (Hok : champ_ok_2D env g parts).
  { constructor; auto. rewrite E1, E2. split; [lia|]. split; [apply Permutation_refl|lia]. }
  split; auto. destruct parts as [|c parts]; [eexists; reflexivity|]. apply C23_returns; auto; [discriminate|].
  eapply working_solver_le; [exact Hl|exact W].
Qed.
Print Assumptions C72_CHAMP_2D_total.

(** The same for CHAMP_3D ... *)
Theorem C72_CHAMP_3D_total : forall n, (Z.of_nat n <= 2 ^ 53)%Z -> exists env,
  forall g gi lv parts gamma_0 gamma_f omega_0 omega_f,
    wf_graph g -> wf_graph gi -> directed g = false -> length lv = vcount g -> lv <> [] -> (vcount gi <= vcount g)%nat -> edges_within_layers g lv ->
    (forall l, In l lv -> exists u v, In (u, v) (edges g) /\ nth u lv 0%nat = l) ->
    (forall c, In c parts -> length c = vcount g) -> (length parts <= n)%nat -> gamma_0 < gamma_f -> omega_0 < omega_f ->
    champ_ok_3D env g gi lv parts /\ exists domains, CHAMP_3D env g gi lv parts gamma_0 gamma_f omega_0 omega_f = Ok domains.
Proof.
  intros n Hn. destruct (C72_working_routines_exist 3 n (or_intror eq_refl)) as (env & E1 & E2 & W & L & X & _ & _ & A). exists env.
  intros g gi lv parts g0 gf o0 of Hw Hwi Hd H1 H2 H3 H4 H5 Hp Hl Hg Ho.
  assert (Hok : champ_ok_3D env g gi lv parts).
  { constructor; auto. rewrite E1, E2. split; [lia|]. split; [apply Permutation_refl|lia]. }
  split; auto. destruct parts as [|c parts]; [eexists; reflexivity|]. apply C25_returns; auto; [discriminate|].
  eapply working_solver_le; [exact Hl|exact W].
Qed.
Print Assumptions C72_CHAMP_3D_total.

(** ... and for the single-layer pipeline: one world for all graphs and inputs, up to n of them. *)
Theorem C72_prune_total : forall n contains fsolve connected, (Z.of_nat n <= 2 ^ 53)%Z -> exists env,
  ee_contains env = contains /\ ee_fsolve env = fsolve /\ ee_connected env = connected /\
  forall g inputs gamma_start gamma_end restrict single_threaded,
    wf_graph g -> directed g = false -> edges g <> [] -> (forall t, In t inputs -> length t = vcount g) -> (length inputs <= n)%nat -> gamma_start < gamma_end ->
    (forall c, considered inputs restrict c -> exists x, snd (gamma_estimate env g (Membership c)) = Ok x) ->
    exists result, snd (prune_to_stable_partitions env g (Tuples inputs) gamma_start gamma_end restrict single_threaded) = Ok result.
Proof.
  intros n contains fsolve connected Hn. destruct (C72_working_routines_exist 2 n (or_introl eq_refl)) as (ce & E1 & E2 & W & L & X & _ & _ & A).
  exists (mkEst contains fsolve ce (fun l => l) connected). split; auto. split; auto. split; auto.
  intros g inputs gs ge restrict st Hw Hd He Hi Hl Hg Hest. apply C41_prune_returns; auto; cbn [ee_champ].
  - constructor; auto; cbn [ee_champ ee_set_order]; [intros l; apply Permutation_refl|lia|]. rewrite E1, E2. split; [lia|apply Permutation_refl].
  - eapply working_solver_le; [exact Hl|exact W].
Qed.
Print Assumptions C72_prune_total.

(** A concrete system: the unit square cut by a diagonal; the three hypotheses of C72_finds_interior_point hold, and so do those of
    C72_reports_degenerate for the square cut by two opposite halfspaces. *)
Definition square : list halfspace := [mkH [0; 1] (-1); mkH [0; -1] 0; mkH [1; 0] (-1); mkH [-1; 0] 0].
Lemma square_bounded : bounded 2 square.
Proof.
  exists 1. intros x Lx Hf. destruct (list2 _ Lx) as (u & v & ->).
  assert (Q : 0 <= u <= 1 /\ 0 <= v <= 1).
  { pose proof (Hf _ (or_introl eq_refl)) as Q1. pose proof (Hf _ (or_intror (or_introl eq_refl))) as Q2.
    pose proof (Hf _ (or_intror (or_intror (or_introl eq_refl)))) as Q3. pose proof (Hf _ (or_intror (or_intror (or_intror (or_introl eq_refl))))) as Q4.
    unfold hval in *. cbn [normal offset] in *. rewrite !dot_cons, !dot_nil_l in *. lra. }
  intros y [<-|[<-|[]]]; apply Rabs_le; lra.
Qed.
Lemma square_system extra : (forall h, In h extra -> length (normal h) = 2%nat /\ exists a, In a (normal h) /\ a <> 0) -> box_system 2 (extra ++ square).
Proof.
  intros H. split; [rewrite app_length; cbn; lia|]. split.
  - intros h Hh. apply in_app_iff in Hh as [Hh|Hh]; auto.
    repeat (destruct Hh as [<-|Hh]; [cbn [normal]; split; [reflexivity|]; first [exists 1; split; [cbn; tauto|lra] | exists (-1); split; [cbn; tauto|lra]]|]). destruct Hh.
  - rewrite app_length. replace (length extra + length square - 2 * 2)%nat with (length extra) by (cbn; lia). rewrite skipn_app, Nat.sub_diag, skipn_all2 by lia. exact square_bounded.
Qed.
Example C72_example_interior : exists x r, get_interior_point 1 (fun _ _ s => seq 0 s) solver ([mkH [1; 1] (-1)] ++ square) 50 10 = Some (Ok x) /\
  strictly_inside ([mkH [1; 1] (-1)] ++ square) x /\ 0 < r /\ ball_inside ([mkH [1; 1] (-1)] ++ square) x r.
Proof.
  assert (B : box_system 2 ([mkH [1; 1] (-1)] ++ square)).
  { apply square_system. intros h [<-|[]]. split; auto. exists 1. cbn. split; [auto|lra]. }
  destruct (C72_finds_interior_point 2 ([mkH [1; 1] (-1)] ++ square) 1 (fun _ _ s => seq 0 s) solver 50 10 0) as (x & Ex & Lx & Sx); auto;
    try exact solver_solves; try exact sampler_fair; try (cbn; lia).
  - exists [1/4; 1/4]. split; [reflexivity|]. intros h Hh. repeat (destruct Hh as [<-|Hh]; [unfold hval; cbn [normal offset]; rewrite !dot_cons, !dot_nil_l; lra|]). destruct Hh.
  - destruct (C72_chebyshev_centre 2 ([mkH [1; 1] (-1)] ++ square) 1 (fun _ _ s => seq 0 s) solver 50 10 x (or_introl eq_refl) B solver_solves sampler_fair ltac:(lia) ltac:(cbn; lia) Ex) as (r & R0 & Br & _).
    exists x, r. auto.
Qed.
Example C72_example_degenerate :
  get_interior_point 12 (fun _ _ s => seq 0 s) solver ([mkH [1; 1] (-1); mkH [-1; -1] 1] ++ square) 50 10 = Some (Raise ValueError).
Proof.
  apply (C72_reports_degenerate 2) with 0%nat; auto; try exact solver_solves; try exact sampler_fair; try (cbn; lia).
  - apply square_system. intros h [<-|[<-|[]]]; (split; [reflexivity|]); [exists 1|exists (-1)]; cbn; split; auto; lra.
  - intros p Lp Hp. destruct (list2 _ Lp) as (u & v & ->).
    pose proof (Hp _ (or_introl eq_refl)) as Q1. pose proof (Hp _ (or_intror (or_introl eq_refl))) as Q2.
    unfold hval in *. cbn [normal offset] in *. rewrite !dot_cons, !dot_nil_l in *. lra.
Qed.
