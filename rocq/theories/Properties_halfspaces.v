(** Property theorems about the halfspaces handed to the intersection and the search for an interior point: C17-C20. *)
From Verif Require Import PyBase PyGraph M_partition M_pool M_champ Spec Spec_graph Spec_champ L_base L_canon
  L_modularity L_modularity3 L_parallel L_bounds L_halfspace Properties_coefficients.
Open Scope R_scope.

Lemma nth_error_combine {A B} (l : list A) (l' : list B) i a b :
  nth_error l i = Some a -> nth_error l' i = Some b -> nth_error (combine l l') i = Some (a, b).
Proof.
  revert l' i. induction l as [|x l IH]; intros [|y l'] [|i] H1 H2; simpl in *; try discriminate; [congruence|auto].
Qed.

(** C17 (plane): row [i], both as generated and as normalised in the system that is intersected, says
    "Q is at least the quality of partition i at gamma", with its boundary at equality. *)
Theorem C17_halfspaces_encode_quality_2D :
  forall a_hats p_hats gamma_0 gamma_f hs,
    champ_halfspaces_2D a_hats p_hats gamma_0 gamma_f = Ok hs ->
    forall i a p, nth_error a_hats i = Some a -> nth_error p_hats i = Some p ->
    exists raw row,
      nth_error (halfspaces_from_coefficients_2D a_hats p_hats) i = Some raw /\
      nth_error hs i = Some row /\
      forall gamma q,
        (hval raw [gamma; q] <= 0 <-> q >= a - gamma * p) /\ (hval raw [gamma; q] = 0 <-> q = a - gamma * p) /\
        (hval row [gamma; q] <= 0 <-> q >= a - gamma * p) /\ (hval row [gamma; q] = 0 <-> q = a - gamma * p).
Proof.
  intros A P g0 gf hs Hhs i a p Ha Hp. destruct (champ2_inv _ _ _ _ Hhs) as (top & bottom & _ & _ & ->).
  pose proof (nth_error_combine _ _ _ _ _ Ha Hp) as Hc.
  exists (mkH [- p; -1] a), (normalise (mkH [- p; -1] a)).
  assert (E : nth_error (map (fun ap : R * R => mkH [- snd ap; -1] (fst ap)) (combine A P)) i = Some (mkH [- p; -1] a)).
  { rewrite (map_nth_error _ _ _ Hc). reflexivity. }
  split; [exact E|]. split.
  - apply map_nth_error. rewrite nth_error_app1; auto. apply nth_error_Some. rewrite E; discriminate.
  - intros gamma q. assert (Hn : nonzero (mkH [- p; -1] a)) by (exists (-1); simpl; split; [auto|lra]).
    destruct (normalise_sign [gamma; q] Hn) as (-> & -> & _). rewrite hval2. repeat split; intros; lra.
Qed.
Print Assumptions C17_halfspaces_encode_quality_2D.

Theorem C17_halfspaces_encode_quality_3D :
  forall a_hats p_hats c_hats gamma_0 gamma_f omega_0 omega_f hs,
    champ_halfspaces_3D a_hats p_hats c_hats gamma_0 gamma_f omega_0 omega_f = Ok hs ->
    forall i a p c, nth_error a_hats i = Some a -> nth_error p_hats i = Some p -> nth_error c_hats i = Some c ->
    exists raw row,
      nth_error (halfspaces_from_coefficients_3D a_hats p_hats c_hats) i = Some raw /\
      nth_error hs i = Some row /\
      forall gamma omega q,
        (hval raw [gamma; omega; q] <= 0 <-> q >= a - gamma * p + omega * c) /\
        (hval raw [gamma; omega; q] = 0 <-> q = a - gamma * p + omega * c) /\
        (hval row [gamma; omega; q] <= 0 <-> q >= a - gamma * p + omega * c) /\
        (hval row [gamma; omega; q] = 0 <-> q = a - gamma * p + omega * c).
Proof.
  intros A P C g0 gf o0 of hs Hhs i a p c Ha Hp HC. destruct (champ3_inv _ _ _ _ _ _ _ Hhs) as (top & bottom & _ & _ & ->).
  pose proof (nth_error_combine _ _ _ _ _ (nth_error_combine _ _ _ _ _ Ha Hp) HC) as Hc.
  exists (mkH [- p; c; -1] a), (normalise (mkH [- p; c; -1] a)).
  assert (E : nth_error (map (fun r : R * R * R => mkH [- snd (fst r); snd r; -1] (fst (fst r))) (combine (combine A P) C)) i
              = Some (mkH [- p; c; -1] a)).
  { rewrite (map_nth_error _ _ _ Hc). reflexivity. }
  split; [exact E|]. split.
  - apply map_nth_error. rewrite nth_error_app1; auto. apply nth_error_Some. rewrite E; discriminate.
  - intros gamma omega q. assert (Hn : nonzero (mkH [- p; c; -1] a)) by (exists (-1); simpl; split; [auto|lra]).
    destruct (normalise_sign [gamma; omega; q] Hn) as (-> & -> & _). rewrite hval3. repeat split; intros; lra.
Qed.
Print Assumptions C17_halfspaces_encode_quality_3D.

(** champ_halfspaces succeeds on every nonempty input. *)
Lemma champ_halfspaces_2D_defined A P g0 gf : combine A P <> [] -> exists hs, champ_halfspaces_2D A P g0 gf = Ok hs.
Proof.
  intros H. unfold champ_halfspaces_2D. destruct (combine A P) as [|x l]; [congruence|]. cbn [map py_maxR py_minR bind]. eauto.
Qed.
Lemma champ_halfspaces_3D_defined A P C g0 gf o0 of : combine (combine A P) C <> [] ->
  exists hs, champ_halfspaces_3D A P C g0 gf o0 of = Ok hs.
Proof.
  intros H. unfold champ_halfspaces_3D. destruct (combine (combine A P) C) as [|x l]; [congruence|].
  cbn [map py_maxR py_minR bind]. eauto.
Qed.
Example C17_example : exists hs, champ_halfspaces_2D [8; 5] [6; 2] 0 2 = Ok hs /\ length hs = 6%nat.
Proof.
  destruct (champ_halfspaces_2D_defined [8; 5] [6; 2] 0 2) as [hs H]; [discriminate|]. exists hs. split; auto.
  destruct (champ2_inv _ _ _ _ H) as (t & b & _ & _ & ->). reflexivity.
Qed.

(** C18: the point of the upper envelope over every gamma of the range is in the intersected region, box included. *)
Theorem C18_box_keeps_envelope_2D :
  forall a_hats p_hats gamma_0 gamma_f hs gamma q,
    champ_halfspaces_2D a_hats p_hats gamma_0 gamma_f = Ok hs ->
    (forall p, In p p_hats -> 0 <= p) -> gamma_0 <= gamma <= gamma_f ->
    (exists a p, In (a, p) (combine a_hats p_hats) /\ q = a - p * gamma) ->
    (forall a p, In (a, p) (combine a_hats p_hats) -> a - p * gamma <= q) ->
    forall h, In h hs -> hval h [gamma; q] <= 0.
Proof.
  intros A P g0 gf hs gamma q Hhs HP Hg (a & p & Hin & ->) Hmax.
  eapply box_envelope_2D; eauto.
  - apply in_map_iff. exists (a, p). auto.
  - intros [a' p'] H. apply Hmax; auto.
Qed.
Print Assumptions C18_box_keeps_envelope_2D.
Theorem C18_box_keeps_envelope_3D :
  forall a_hats p_hats c_hats gamma_0 gamma_f omega_0 omega_f hs gamma omega q,
    champ_halfspaces_3D a_hats p_hats c_hats gamma_0 gamma_f omega_0 omega_f = Ok hs ->
    (forall p, In p p_hats -> 0 <= p) -> (forall c, In c c_hats -> 0 <= c) ->
    gamma_0 <= gamma <= gamma_f -> omega_0 <= omega <= omega_f ->
    (exists a p c, In (a, p, c) (combine (combine a_hats p_hats) c_hats) /\ q = a - p * gamma + c * omega) ->
    (forall a p c, In (a, p, c) (combine (combine a_hats p_hats) c_hats) -> a - p * gamma + c * omega <= q) ->
    forall h, In h hs -> hval h [gamma; omega; q] <= 0.
Proof.
  intros A P C g0 gf o0 of hs gamma omega q Hhs HP HC Hg Ho (a & p & c & Hin & ->) Hmax.
  eapply box_envelope_3D; eauto.
  - apply in_map_iff. exists (a, p, c). auto.
  - intros [[a' p'] c'] H. apply Hmax; auto.
Qed.
Print Assumptions C18_box_keeps_envelope_3D.
(** at gamma = 1/2 the envelope of 8-6g and 5-2g is 5 = max(5, 4) *)
Example C18_example : (exists a p, In (a, p) (combine [8; 5] [6; 2]) /\ 5 = a - p * (1 / 2)) /\
  (forall a p, In (a, p) (combine [8; 5] [6; 2]) -> a - p * (1 / 2) <= 5).
Proof.
  split; [exists 8, 6; simpl; split; [auto|lra]|].
  intros a p H. simpl in H. destruct H as [E|[E|[]]]; inversion E; lra.
Qed.

(** C19 (exact condition): a strictly interior point exists iff the ranges are nondegenerate and no partition whose
    quality does not depend on the parameters reaches the top of the box. *)
Theorem C19_interior_exists_iff_2D :
  forall a_hats p_hats gamma_0 gamma_f hs,
    champ_halfspaces_2D a_hats p_hats gamma_0 gamma_f = Ok hs -> (forall p, In p p_hats -> 0 <= p) ->
    ((exists x, length x = 2%nat /\ strictly_inside hs x) <->
     gamma_0 < gamma_f /\
     forall a p, In (a, p) (combine a_hats p_hats) -> p = 0 ->
       exists a' p', In (a', p') (combine a_hats p_hats) /\ a < a' - p' * gamma_0).
Proof. exact interior_2D. Qed.
Print Assumptions C19_interior_exists_iff_2D.
Theorem C19_interior_exists_iff_3D :
  forall a_hats p_hats c_hats gamma_0 gamma_f omega_0 omega_f hs,
    champ_halfspaces_3D a_hats p_hats c_hats gamma_0 gamma_f omega_0 omega_f = Ok hs ->
    (forall p, In p p_hats -> 0 <= p) -> (forall c, In c c_hats -> 0 <= c) ->
    ((exists x, length x = 3%nat /\ strictly_inside hs x) <->
     gamma_0 < gamma_f /\ omega_0 < omega_f /\
     forall a p c, In (a, p, c) (combine (combine a_hats p_hats) c_hats) -> p = 0 -> c = 0 ->
       exists a' p' c', In (a', p', c') (combine (combine a_hats p_hats) c_hats) /\ a < a' - p' * gamma_0 + c' * omega_f).
Proof. exact interior_3D. Qed.
Print Assumptions C19_interior_exists_iff_3D.

(** C19: so on undirected graphs the problem is solvable for every nonempty list of partitions. *)
Theorem C19_interior_exists_undirected :
  forall cpus order st g parts gamma_0 gamma_f,
    valid_pool cpus order parts -> wf_graph g -> directed g = false -> edges g <> [] ->
    (forall c, In c parts -> length c = vcount g) -> parts <> [] -> gamma_0 < gamma_f ->
    exists a_hats p_hats hs x,
      partition_coefficients_2D cpus order g parts st = Ok (a_hats, map Fin p_hats) /\
      champ_halfspaces_2D a_hats p_hats gamma_0 gamma_f = Ok hs /\ length x = 2%nat /\ strictly_inside hs x.
Proof.
  intros cpus order st g parts g0 gf Hp Hw Hd He Hl Hne Hg.
  exists (map (A_of g) parts), (map (P_of g) parts).
  destruct (champ_halfspaces_2D_defined (map (A_of g) parts) (map (P_of g) parts) g0 gf) as [hs Hhs].
  { destruct parts; [congruence|discriminate]. }
  exists hs. destruct (interior_2D _ _ _ _ Hhs) as [_ H].
  { intros p Hin. apply in_map_iff in Hin as (c & <- & Hc). apply P_of_bounds; auto. }
  destruct H as (x & Hx).
  { split; auto. intros a p Hin ->. apply in_combine_r in Hin. apply in_map_iff in Hin as (c & E & Hc).
    pose proof (P_of_pos c Hw He Hd). lra. }
  exists x. split; [apply coefficients_2D_pool; auto|]. tauto.
Qed.
Print Assumptions C19_interior_exists_undirected.
Theorem C19_interior_exists_undirected_3D :
  forall cpus order g gi lv parts gamma_0 gamma_f omega_0 omega_f,
    valid_pool cpus order parts -> wf_graph g -> wf_graph gi -> directed g = false -> edges g <> [] ->
    length lv = vcount g -> (vcount gi <= vcount g)%nat -> edges_within_layers g lv ->
    (forall l, In l lv -> exists u v, In (u, v) (edges g) /\ nth u lv 0%nat = l) ->
    (forall c, In c parts -> length c = vcount g) -> parts <> [] -> gamma_0 < gamma_f -> omega_0 < omega_f ->
    exists a_hats p_hats c_hats hs x,
      partition_coefficients_3D cpus order g gi lv parts = Ok (a_hats, map Fin p_hats, c_hats) /\
      champ_halfspaces_3D a_hats p_hats c_hats gamma_0 gamma_f omega_0 omega_f = Ok hs /\
      length x = 3%nat /\ strictly_inside hs x.
Proof.
  intros cpus order g gi lv parts g0 gf o0 of Hp Hw Hwi Hd He Hlv Hgi H1 H2 Hl Hne Hg Ho.
  assert (Hlne : lv <> []).
  { intros ->. destruct (edges g) as [|[u v] E] eqn:EE; [congruence|].
    destruct (proj1 Hw u v) as [Hu _]; [rewrite EE; simpl; auto|]. simpl in Hlv. lia. }
  exists (map (A_of g) parts), (map (P3_of g lv) parts), (map (A_of gi) parts).
  destruct (champ_halfspaces_3D_defined (map (A_of g) parts) (map (P3_of g lv) parts) (map (A_of gi) parts) g0 gf o0 of) as [hs Hhs].
  { destruct parts; [congruence|discriminate]. }
  exists hs. destruct (interior_3D _ _ _ _ _ _ _ Hhs) as [_ H].
  { intros p Hin. apply in_map_iff in Hin as (c & <- & Hc). apply P3_of_bounds; auto. }
  { intros p Hin. apply in_map_iff in Hin as (c & <- & Hc). apply A_of_bounds; auto. }
  destruct H as (x & Hx).
  { split; auto. split; auto. intros a p c Hin -> _. apply in_combine_l in Hin. apply in_combine_r in Hin.
    apply in_map_iff in Hin as (c0 & E & Hc).
    pose proof (@P3_of_pos g lv Hw Hlv H1 H2 c0 He Hd). lra. }
  exists x. split; [apply coefficients_3D_pool; auto|]. tauto.
Qed.
Print Assumptions C19_interior_exists_undirected_3D.
(** The directed exception is real: on the single arc 0 -> 1 with both vertices alone, P = 0 and A = 0 = top. *)
Example C19_directed_degenerate : forall hs, champ_halfspaces_2D [0] [0] 0 2 = Ok hs ->
  ~ exists x, length x = 2%nat /\ strictly_inside hs x.
Proof.
  intros hs Hhs H. apply (interior_2D _ _ _ _ Hhs) in H; [|intros p [<-|[]]; lra]. destruct H as [_ H].
  destruct (H 0 0 (or_introl eq_refl) eq_refl) as (a & p & [E|[]] & Hlt). inversion E; subst. lra.
Qed.
Example C19_directed_graph : partition_coefficients_2D_serial (mkGraph 2 true [(0, 1)]%nat None) [[0; 1]%nat] = Ok ([0], [Fin 0]).
Proof.
  cbv -[Rplus Rmult Rinv Rdiv Rminus IZR Req_EM_T].
  destruct (Req_EM_T _ 0) as [E|E]; [exfalso; lra|]. repeat f_equal; lra.
Qed.

(** C20: whatever the solver and the sampler do, a returned point is strictly inside every halfspace (not only the
    sampled ones) ... *)
Theorem C20_interior_point_sound :
  forall fuel choice lp hs initial_num_sampled full_retry_limit x,
    get_interior_point fuel choice lp hs initial_num_sampled full_retry_limit = Some (Ok x) ->
    forall h, In h hs -> hval h x < 0.
Proof. intros. eapply get_interior_point_sound; eauto. Qed.
Print Assumptions C20_interior_point_sound.

(** ... and with initial_num_sampled >= 1 at most d + full_retry_limit + 2 linear programs are solved, when doubling the
    sample d times reaches the number of halfspaces. *)
Theorem C20_interior_point_stops :
  forall choice lp hs initial_num_sampled full_retry_limit d,
    (1 <= initial_num_sampled)%nat -> (length hs <= initial_num_sampled * 2 ^ d)%nat ->
    get_interior_point (d + full_retry_limit + 2) choice lp hs initial_num_sampled full_retry_limit <> None.
Proof. intros. eapply get_interior_point_stops; eauto. Qed.
Print Assumptions C20_interior_point_stops.

(** The restriction initial_num_sampled >= 1 is needed: with 0 there are solvers on which it never stops. *)
Theorem C20_zero_sample_diverges :
  exists choice lp hs, hs <> [] /\ forall fuel, get_interior_point fuel choice lp hs 0 10 = None.
Proof.
  exists (fun _ _ _ => []), (fun _ _ _ _ => mkLP true 0 (Some [5; 0; 0])).
  set (hs := map normalise (halfspaces_from_coefficients_2D [0] [1] ++ box_2D 1 0 0 1)).
  exists hs. split; [discriminate|]. intros fuel. unfold get_interior_point.
  change (Nat.eqb (match hs with [] => 0 | h :: _ => length (normal h) end) 2)%nat with true. cbv iota.
  apply interior_loop_zero; auto.
  - discriminate.
  - lia.
  - intros k. eexists. split; [reflexivity|]. intros H. change (removelast [5; 0; 0]) with [5; 0] in H.
    apply (champ2_feasible [0] [1] 0 1 1 0 5 0) in H as (_ & _ & H). lra.
Qed.
Print Assumptions C20_zero_sample_diverges.

(** A concrete run: the first LP answer is not interior, the second one is. *)
Example C20_example :
  let hs := map normalise (halfspaces_from_coefficients_2D [8; 5] [6; 2] ++ box_2D 8 1 0 2) in
  let lp k (_ : list R) (_ : list (list R)) (_ : list R) := mkLP true 0 (Some (match k with O => [3; 0; 0] | _ => [1; 7; 0] end)) in
  get_interior_point 2 (fun _ n s => seq 0 s) lp hs 50 10 = Some (Ok [1; 7]).
Proof.
  intros hs lp. unfold get_interior_point.
  change (Nat.eqb (match hs with [] => 0 | h :: _ => length (normal h) end) 2)%nat with true. cbv iota.
  change (length hs - 4)%nat with 2%nat.
  change (firstn 2 hs) with (map normalise (halfspaces_from_coefficients_2D [8; 5] [6; 2])).
  set (inner := map normalise (halfspaces_from_coefficients_2D [8; 5] [6; 2])).
  cbn [interior_loop]. change (length inner) with 2%nat. change (seq 0 (Nat.min 50 2)) with [0; 1]%nat.
  destruct (mapM (py_get inner) [0; 1]%nat) as [sampled|e] eqn:E; [|discriminate E].
  cbn [lp lp_success lp_x orb removelast].
  assert (H1 : forallb (fun h => Rltb (hval h [3; 0]) 0) hs = false).
  { destruct (forallb _ hs) eqn:F; auto. rewrite forallb_forall in F. exfalso.
    assert (S : strictly_inside hs [3; 0]) by (intros h Hh; apply Rltb_true; auto).
    apply (champ2_feasible [8; 5] [6; 2] 0 2 8 1 3 0) in S as (_ & _ & S). lra. }
  assert (H2 : forallb (fun h => Rltb (hval h [1; 7]) 0) hs = true).
  { apply forallb_forall. intros h Hh. apply Rltb_true. revert h Hh.
    apply (champ2_feasible [8; 5] [6; 2] 0 2 8 1 1 7). split; [|lra].
    intros ap Hap. simpl in Hap. destruct Hap as [<-|[<-|[]]]; unfold q2; simpl; lra. }
  cbn [Nat.min]. rewrite H1. change (10 <? 0)%nat with false. change (2 <=? 50)%nat with true. cbv iota.
  rewrite H2. reflexivity.
Qed.
