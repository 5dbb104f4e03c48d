(** CHAMP returns whenever its external routines answer, and such routines exist. *)
From Verif Require Import PyBase PyGraph M_partition M_pool M_champ Spec Spec_graph Spec_champ Spec_polygon Spec_lp L_base L_chebyshev L_sort
  L_modularity L_modularity3 L_parallel L_bounds L_halfspace L_champ L_champ2 L_champ3 L_minkowski L_tiling L_facets Spec_tiling Properties_coefficients Properties_halfspaces.
From Coq Require Import Sorted Classical.
Set Implicit Arguments.
Open Scope R_scope.

Lemma mapM_total {A B} (f : A -> res B) l : (forall x, In x l -> exists y, f x = Ok y) -> exists ys, mapM f l = Ok ys.
Proof.
  induction l as [|a l IH]; intros H; [exists []; reflexivity|].
  destruct (H a (or_introl eq_refl)) as (y & Hy). destruct IH as (ys & Hys); [intros; apply H; simpl; auto|].
  exists (y :: ys). cbn [mapM]. rewrite Hy. cbn [bind]. rewrite Hys. reflexivity.
Qed.

Lemma py_get_ok {A} (l : list A) i : (i < length l)%nat -> exists a, py_get l i = Ok a.
Proof.
  intros H. unfold py_get. destruct (nth_error l i) eqn:E; eauto. apply nth_error_None in E. lia.
Qed.

Lemma CHAMP_2D_returns env g parts g0 gf st : champ_ok_2D env g parts -> parts <> [] -> directed g = false -> g0 < gf ->
  working_solver env (length parts) -> hsi_answers 2 env ->
  exists ranges, CHAMP_2D env g parts g0 gf st = Ok ranges.
Proof.
  intros Hok Hne Hd Hg Hlp Hhsi. rewrite (CHAMP_2D_nonempty env g g0 gf st Hne). destruct Hok.
  destruct (C19_interior_exists_undirected _ _ st g parts g0 gf c2_pool c2_graph Hd c2_edges c2_parts Hne Hg)
    as (A & P & hs & x & EC & Hhs & Lx & Sx).
  rewrite EC. cbn [bind]. rewrite mapM_finite. cbn [bind]. rewrite Hhs. cbn [bind].
  destruct (@interior_point_found_2D env (length parts) A P g0 gf hs x Hlp) as (pt & Hpt); auto.
  { rewrite coefficients_2D_pool in EC by auto. inversion EC. rewrite map_length. auto. }
  rewrite Hpt. cbn [bind].
  destruct (@interior_point_2D env _ _ _ _ hs pt c2_lp Hhs Hpt) as [Lpt Spt].
  pose proof (bounded_2D _ _ _ _ Hhs) as Hb.
  destruct (Hhsi hs pt Hb Lpt Spt) as (out & Hout). rewrite Hout. cbn [bind].
  pose proof (c2_hsi hs pt out Hb Lpt Spt Hout) as Hex.
  destruct (facets_ok (length parts) out) as (d & Hd' & F1 & F2 & F3).
  { intros v is_ Hin. destruct (ei_vertex _ _ _ Hex _ _ Hin) as (y & -> & _). discriminate. }
  rewrite Hd'. cbn [bind].
  destruct (mapM_total (range_of_facet parts) d) as (rs & Hrs).
  { intros [i vs] Hin. destruct (F2 i vs Hin) as (Hi & Hvs & Evs).
    assert (Hlen : length vs = 2%nat).
    { assert (listed out i <> []) by (rewrite <- Evs; destruct vs; simpl; congruence).
      pose proof (ei_segment _ _ _ Hex eq_refl i H) as L. rewrite <- Evs, map_length in L. auto. }
    assert (Hv : forall v, In v vs -> length v = 2%nat).
    { intros v Hv. assert (In (Some v) (listed out i)) by (rewrite <- Evs; apply in_map; auto).
      apply in_listed in H as (is_ & H & _). destruct (ei_vertex _ _ _ Hex _ _ H) as (y & E & L & _). inversion E; subst; auto. }
    destruct vs as [|v1 [|v2 [|? ?]]]; try discriminate.
    destruct (list2 _ (Hv v1 (or_introl eq_refl))) as (a & b & ->).
    destruct (list2 _ (Hv v2 (or_intror (or_introl eq_refl)))) as (a' & b' & ->).
    destruct (py_get_ok parts Hi) as (part & Ep). unfold range_of_facet. cbn [fst snd py_get nth_error bind]. rewrite Ep. cbn [bind]. eauto. }
  rewrite Hrs. cbn [bind]. eauto.
Qed.

Lemma CHAMP_3D_returns env g gi lv parts g0 gf o0 of : champ_ok_3D env g gi lv parts -> parts <> [] -> directed g = false -> g0 < gf -> o0 < of ->
  working_solver env (length parts) -> hsi_answers 3 env ->
  exists domains, CHAMP_3D env g gi lv parts g0 gf o0 of = Ok domains.
Proof.
  intros Hok Hne Hd Hg Ho Hlp Hhsi. pose proof (CHAMP_3D_unfold g0 gf o0 of Hok Hne) as EU. rewrite EU. clear EU.
  pose proof Hok as Hok'. destruct Hok'.
  assert (He : edges g <> []).
  { destruct lv as [|l lv']; [congruence|]. destruct (c3_has l (or_introl eq_refl)) as (u & v & Hin & _). destruct (edges g); [destruct Hin|discriminate]. }
  destruct (C19_interior_exists_undirected_3D _ _ g gi lv parts g0 gf o0 of c3_pool c3_graph c3_inter Hd He c3_layers c3_same c3_within c3_has c3_parts Hne Hg Ho)
    as (A & P & C & hs & x & EC & Hhs & Lx & Sx).
  rewrite coefficients_3D_pool in EC by auto. inversion EC as [[E1 E2 E3]].
  assert (E2' : map (P3_of g lv) parts = P).
  { clear - E2. revert P E2. generalize (map (P3_of g lv) parts).
    induction l as [|a l IH]; intros [|b P] E; try discriminate; auto. simpl in E. inversion E. f_equal; auto. }
  rewrite <- E1, <- E2', <- E3 in Hhs. rewrite Hhs. cbn [bind].
  destruct (@interior_point_found_3D env (length parts) (map (A_of g) parts) (map (P3_of g lv) parts) C g0 gf o0 of hs x Hlp) as (pt & Hpt); auto.
  { rewrite map_length. auto. }
  { rewrite <- E3. auto. }
  rewrite Hpt. cbn [bind].
  destruct (@interior_point_3D env _ _ _ _ _ _ _ hs pt c3_lp Hhs Hpt) as [Lpt Spt].
  pose proof (bounded_3D _ _ _ _ _ _ _ Hhs) as Hb.
  destruct (Hhsi hs pt Hb Lpt Spt) as (out & Hout). rewrite Hout. cbn [bind].
  pose proof (c3_hsi hs pt out Hb Lpt Spt Hout) as Hex.
  destruct (facets_ok (length parts) out) as (d & Hd' & F1 & F2 & F3).
  { intros v is_ Hin. destruct (ei_vertex _ _ _ Hex _ _ Hin) as (y & -> & _). discriminate. }
  rewrite Hd'. cbn [bind].
  apply mapM_total. intros [i vs] Hin. destruct (F2 i vs Hin) as (Hi & Hvs & Evs).
  assert (Hv : forall v, In v vs -> length v = 3%nat).
  { intros v Hv. assert (In (Some v) (listed out i)) by (rewrite <- Evs; apply in_map; auto).
    apply in_listed in H as (is_ & H & _). destruct (ei_vertex _ _ _ Hex _ _ H) as (y & E & L & _). inversion E; subst; auto. }
  unfold domain_of_facet. cbn [fst snd].
  destruct (mapM_total project vs) as (ps & Hps).
  { intros v Hv'. destruct (list3 _ (Hv v Hv')) as (a & b & c & ->). unfold project. cbn [py_get nth_error bind]. eauto. }
  rewrite Hps. cbn [bind]. destruct (py_get_ok parts Hi) as (part & Ep). rewrite Ep. cbn [bind]. eauto.
Qed.

(** ** Concrete external routines *)
Definition halfspace_eq_dec (h h' : halfspace) : {h = h'} + {h <> h'}.
Proof. decide equality; [apply Req_EM_T|apply list_eq_dec, Req_EM_T]. Defined.

(** A world in which the LP solver always answers [pt] and the intersection routine knows one system. *)
Definition known_env (hs0 : list halfspace) (pt : list R) (out : list (option (list R) * list nat)) : champ_env :=
  mkEnv 1 [0%nat] (fun _ _ _ => []) (fun _ c _ _ => if Nat.eqb (length c) (S (length pt)) then mkLP true 0 (Some (pt ++ [0])) else mkLP false 2 None) 1
        (fun hs _ => if list_eq_dec halfspace_eq_dec hs hs0 then Ok out else Raise ValueError).

Lemma known_interior hs0 pt out hs : strictly_inside hs pt -> length (normal (hd (mkH [] 0) hs)) = length pt -> (length pt = 2 \/ length pt = 3)%nat ->
  hs <> [] -> interior_point (known_env hs0 pt out) hs = Ok pt.
Proof.
  intros Hs Hl Hd Hne. unfold interior_point, get_interior_point.
  assert (G : forall nb, interior_loop 1 (fun _ _ _ => []) (fun _ c _ _ => if Nat.eqb (length c) (S (length pt)) then mkLP true 0 (Some (pt ++ [0])) else mkLP false 2 None)
      (length pt) hs (firstn nb hs) (skipn nb hs) 10 0 50 0 = Some (Ok pt)).
  { intros nb. cbn [interior_loop mapM].
    assert (Lc : (length (chebyshev_c (length pt)) =? S (length pt))%nat = true) by (unfold chebyshev_c; rewrite app_length, repeat_length; apply Nat.eqb_eq; simpl; lia).
    rewrite Lc. cbn [lp_success lp_status lp_x orb]. rewrite removelast_last.
    assert (E : forallb (fun h => Rltb (hval h pt) 0) hs = true).
    { apply forallb_forall. intros h Hh. unfold Rltb. specialize (Hs h Hh). destruct (Rlt_dec (hval h pt) 0); auto. }
    rewrite E. reflexivity. }
  destruct hs as [|h hs]; [congruence|]. cbn [hd] in Hl. unfold known_env. cbn [env_fuel env_choice env_lp]. rewrite Hl.
  destruct Hd as [E|E]; rewrite E at 1; cbn [Nat.eqb]; [|rewrite E at 1; cbn [Nat.eqb]]; rewrite G; reflexivity.
Qed.

Lemma known_ok_2D hs0 pt out g parts : length pt = 2%nat -> exact_intersection 2 hs0 out -> wf_graph g -> edges g <> [] ->
  (forall c, In c parts -> length c = vcount g) -> (Z.of_nat (length parts) <= 2 ^ 53)%Z -> champ_ok_2D (known_env hs0 pt out) g parts.
Proof.
  intros Lpt Hex Hw He Hp Hl. constructor; auto.
  - split; [simpl; lia|]. split; [apply Permutation_refl|auto].
  - intros k c A b x H. cbn in H. destruct (Nat.eqb_spec (length c) (S (length pt))) as [E|]; [|discriminate]. inversion H; subst. rewrite app_length. simpl. lia.
  - intros hs pt' out' Hb Lp Sp. unfold known_env. cbn [env_hsi]. destruct (list_eq_dec halfspace_eq_dec hs hs0) as [->|]; [|discriminate].
    intros E. inversion E; subst. auto.
Qed.

Lemma known_ok_3D hs0 pt out g gi lv parts : length pt = 3%nat -> exact_intersection 3 hs0 out -> wf_graph g -> wf_graph gi ->
  length lv = vcount g -> lv <> [] -> (vcount gi <= vcount g)%nat -> edges_within_layers g lv ->
  (forall l, In l lv -> exists u v, In (u, v) (edges g) /\ nth u lv 0%nat = l) ->
  (forall c, In c parts -> length c = vcount g) -> (Z.of_nat (length parts) <= 2 ^ 53)%Z -> champ_ok_3D (known_env hs0 pt out) g gi lv parts.
Proof.
  intros Lpt Hex Hw Hwi H1 H2 H3 H4 H5 Hp Hl. constructor; auto.
  - split; [simpl; lia|]. split; [apply Permutation_refl|auto].
  - intros k c A b x H. cbn in H. destruct (Nat.eqb_spec (length c) (S (length pt))) as [E|]; [|discriminate]. inversion H; subst. rewrite app_length. simpl. lia.
  - intros hs pt' out' Hb Lp Sp. unfold known_env. cbn [env_hsi]. destruct (list_eq_dec halfspace_eq_dec hs hs0) as [->|]; [|discriminate].
    intros E. inversion E; subst. auto.
Qed.

(** For every undirected input there is a world that meets [champ_ok_2D] and in which CHAMP_2D returns. *)
Lemma champ_2D_realisable_full g parts g0 gf st : wf_graph g -> directed g = false -> edges g <> [] ->
  (forall c, In c parts -> length c = vcount g) -> (Z.of_nat (length parts) <= 2 ^ 53)%Z -> parts <> [] -> g0 < gf ->
  exists env ranges, champ_ok_2D env g parts /\ irredundant_hsi 2 (env_hsi env) /\ CHAMP_2D env g parts g0 gf st = Ok ranges.
Proof.
  intros Hw Hd He Hp Hl Hne Hg.
  assert (Hpool : valid_pool 1 [0%nat] parts) by (split; [lia|split; [apply Permutation_refl|auto]]).
  destruct (C19_interior_exists_undirected _ _ st g parts g0 gf Hpool Hw Hd He Hp Hne Hg) as (A & P & hs & x & EC & Hhs & Lx & Sx).
  pose proof (bounded_2D _ _ _ _ Hhs) as Hb.
  destruct (exact_intersection_full (or_introl eq_refl) Hb Lx Sx) as (out & Hex & Hir & _).
  pose proof (@known_ok_2D hs x out g parts Lx Hex Hw He Hp Hl) as Hok.
  exists (known_env hs x out).
  assert (Hi : interior_point (known_env hs x out) hs = Ok x).
  { destruct (champ2_inv _ _ _ _ Hhs) as (top & bottom & _ & _ & E). rewrite E. rewrite E in Sx. apply known_interior; auto.
    - rewrite Lx. destruct (combine A P); reflexivity.
    - destruct (combine A P); discriminate. }
  assert (EV : exists ranges, CHAMP_2D (known_env hs x out) g parts g0 gf st = Ok ranges).
  { rewrite (CHAMP_2D_nonempty _ g g0 gf st Hne). change (env_cpus (known_env hs x out)) with 1%nat.
    change (env_order (known_env hs x out)) with [0%nat]. rewrite EC. cbn [bind]. rewrite mapM_finite. cbn [bind]. rewrite Hhs. cbn [bind].
    rewrite Hi. cbn [bind]. unfold known_env. cbn [env_hsi]. destruct (list_eq_dec halfspace_eq_dec hs hs); [|congruence]. cbn [bind].
    destruct (facets_ok (length parts) out) as (d & Hd' & F1 & F2 & F3).
    { intros v is_ Hin. destruct (ei_vertex _ _ _ Hex _ _ Hin) as (y & -> & _). discriminate. }
    rewrite Hd'. cbn [bind].
    destruct (mapM_total (range_of_facet parts) d) as (rs & Hrs); [|rewrite Hrs; cbn [bind]; eauto].
    intros [i vs] Hin. destruct (F2 i vs Hin) as (Hi' & Hvs & Evs).
    assert (Hlen : length vs = 2%nat).
    { assert (listed out i <> []) by (rewrite <- Evs; destruct vs; simpl; congruence).
      pose proof (ei_segment _ _ _ Hex eq_refl i H) as L. rewrite <- Evs, map_length in L. auto. }
    assert (Hv : forall v, In v vs -> length v = 2%nat).
    { intros v Hv. assert (In (Some v) (listed out i)) by (rewrite <- Evs; apply in_map; auto).
      apply in_listed in H as (is_ & H & _). destruct (ei_vertex _ _ _ Hex _ _ H) as (y & E & L & _). inversion E; subst; auto. }
    destruct vs as [|v1 [|v2 [|? ?]]]; try discriminate.
    destruct (list2 _ (Hv v1 (or_introl eq_refl))) as (a & b & ->).
    destruct (list2 _ (Hv v2 (or_intror (or_introl eq_refl)))) as (a' & b' & ->).
    destruct (py_get_ok parts Hi') as (part & Ep). unfold range_of_facet. cbn [fst snd py_get nth_error bind]. rewrite Ep. cbn [bind]. eauto. }
  destruct EV as (ranges & EV). exists ranges. split; auto. split; auto.
  intros hs' pt' out' _ _ _. unfold known_env. cbn [env_hsi]. destruct (list_eq_dec halfspace_eq_dec hs' hs) as [->|]; [|discriminate].
  intros E. inversion E; subst. apply Hir.
Qed.

Lemma champ_2D_realisable g parts g0 gf st : wf_graph g -> directed g = false -> edges g <> [] ->
  (forall c, In c parts -> length c = vcount g) -> (Z.of_nat (length parts) <= 2 ^ 53)%Z -> parts <> [] -> g0 < gf ->
  exists env ranges, champ_ok_2D env g parts /\ CHAMP_2D env g parts g0 gf st = Ok ranges.
Proof. intros. destruct (@champ_2D_realisable_full g parts g0 gf st) as (env & ranges & K1 & _ & K2); auto. exists env, ranges. auto. Qed.

(** The same for three dimensions; a directed network will do if no partition has neither expected weight inside communities nor couplings inside. *)
Lemma interior_exists_3D g gi lv parts g0 gf o0 of : wf_graph g -> wf_graph gi -> edges g <> [] ->
  length lv = vcount g -> lv <> [] -> (vcount gi <= vcount g)%nat -> edges_within_layers g lv ->
  (forall l, In l lv -> exists u v, In (u, v) (edges g) /\ nth u lv 0%nat = l) ->
  (forall c, In c parts -> length c = vcount g) -> (Z.of_nat (length parts) <= 2 ^ 53)%Z -> (forall c, In c parts -> 0 < P3_of g lv c \/ 0 < A_of gi c) -> parts <> [] -> g0 < gf -> o0 < of ->
  exists a_hats p_hats c_hats hs x, partition_coefficients_3D 1 [0%nat] g gi lv parts = Ok (a_hats, map Fin p_hats, c_hats) /\
      champ_halfspaces_3D a_hats p_hats c_hats g0 gf o0 of = Ok hs /\ length x = 3%nat /\ strictly_inside hs x.
Proof.
  intros Hw Hwi He Hlv Hlne Hgi H1 H2 Hl Hsz Hpos Hne Hg Ho.
  assert (Hpool : valid_pool 1 [0%nat] parts) by (split; [lia|split; [apply Permutation_refl|auto]]).
  exists (map (A_of g) parts), (map (P3_of g lv) parts), (map (A_of gi) parts).
  destruct (champ_halfspaces_3D_defined (map (A_of g) parts) (map (P3_of g lv) parts) (map (A_of gi) parts) g0 gf o0 of) as [hs Hhs].
  { destruct parts; [congruence|discriminate]. }
  exists hs. destruct (interior_3D _ _ _ _ _ _ _ Hhs) as [_ H].
  { intros p Hin. apply in_map_iff in Hin as (c & <- & Hc). apply P3_of_bounds; auto. }
  { intros p Hin. apply in_map_iff in Hin as (c & <- & Hc). apply A_of_bounds; auto. }
  destruct H as (x & Hx).
  { split; auto. split; auto. intros a p k Hin -> ->.
    assert (Q : exists c, In c parts /\ 0 = P3_of g lv c /\ 0 = A_of gi c).
    { clear - Hin. induction parts as [|c l IH]; [destruct Hin|]. cbn [map combine In] in Hin. destruct Hin as [E|Hin]; [injection E as _ E1 E2; exists c; split; [left; reflexivity|auto]|].
      destruct (IH Hin) as (c' & Hc & E). exists c'. split; [right; exact Hc|exact E]. }
    destruct Q as (c & Hc & E1 & E2). destruct (Hpos c Hc); lra. }
  exists x. split; [apply coefficients_3D_pool; auto|]. tauto.
Qed.

Lemma champ_3D_realisable_gen g gi lv parts g0 gf o0 of : wf_graph g -> wf_graph gi -> edges g <> [] ->
  length lv = vcount g -> lv <> [] -> (vcount gi <= vcount g)%nat -> edges_within_layers g lv ->
  (forall l, In l lv -> exists u v, In (u, v) (edges g) /\ nth u lv 0%nat = l) ->
  (forall c, In c parts -> length c = vcount g) -> (Z.of_nat (length parts) <= 2 ^ 53)%Z -> parts <> [] -> g0 < gf -> o0 < of ->
  (forall c, In c parts -> 0 < P3_of g lv c \/ 0 < A_of gi c) ->
  exists env domains, champ_ok_3D env g gi lv parts /\ irredundant_hsi 3 (env_hsi env) /\ full_facets_hsi 3 (env_hsi env) /\ CHAMP_3D env g gi lv parts g0 gf o0 of = Ok domains.
Proof.
  intros Hw Hwi He Hlv Hlne Hgi Hin Hhas Hp Hl Hne Hg Ho Hpos.
  assert (Hpool : valid_pool 1 [0%nat] parts) by (split; [lia|split; [apply Permutation_refl|auto]]).
  destruct (@interior_exists_3D g gi lv parts g0 gf o0 of Hw Hwi He Hlv Hlne Hgi Hin Hhas Hp Hl Hpos Hne Hg Ho)
    as (A & P & C & hs & x & EC & Hhs & Lx & Sx).
  pose proof (bounded_3D _ _ _ _ _ _ _ Hhs) as Hb.
  destruct (exact_intersection_full (or_intror eq_refl) Hb Lx Sx) as (out & Hex & Hir & Hfull).
  pose proof (@known_ok_3D hs x out g gi lv parts Lx Hex Hw Hwi Hlv Hlne Hgi Hin Hhas Hp Hl) as Hok.
  exists (known_env hs x out).
  assert (Hi : interior_point (known_env hs x out) hs = Ok x).
  { destruct (champ3_inv _ _ _ _ _ _ _ Hhs) as (top & bottom & _ & _ & E). rewrite E. rewrite E in Sx. apply known_interior; auto.
    - rewrite Lx. destruct (combine (combine A P) C); reflexivity.
    - destruct (combine (combine A P) C); discriminate. }
  assert (EV : exists domains, CHAMP_3D (known_env hs x out) g gi lv parts g0 gf o0 of = Ok domains).
  { rewrite (CHAMP_3D_unfold g0 gf o0 of Hok Hne). rewrite coefficients_3D_pool in EC by auto. inversion EC as [[E1 E2 E3]].
    assert (E2' : map (P3_of g lv) parts = P).
    { clear - E2. revert P E2. generalize (map (P3_of g lv) parts).
      induction l as [|a l IH]; intros [|b P] E; try discriminate; auto. simpl in E. inversion E. f_equal; auto. }
    rewrite E1, E2', E3, Hhs. cbn [bind].
    rewrite Hi. cbn [bind]. unfold known_env. cbn [env_hsi]. destruct (list_eq_dec halfspace_eq_dec hs hs); [|congruence]. cbn [bind].
    destruct (facets_ok (length parts) out) as (d & Hd' & F1 & F2 & F3).
    { intros v is_ Hv. destruct (ei_vertex _ _ _ Hex _ _ Hv) as (y & -> & _). discriminate. }
    rewrite Hd'. cbn [bind].
    apply mapM_total. intros [i vs] Hiv. destruct (F2 i vs Hiv) as (Hi' & Hvs & Evs).
    assert (Hv : forall v, In v vs -> length v = 3%nat).
    { intros v Hv. assert (In (Some v) (listed out i)) by (rewrite <- Evs; apply in_map; auto).
      apply in_listed in H as (is_ & H & _). destruct (ei_vertex _ _ _ Hex _ _ H) as (y & E & L & _). inversion E; subst; auto. }
    unfold domain_of_facet. cbn [fst snd].
    destruct (mapM_total project vs) as (ps & Hps).
    { intros v Hv'. destruct (list3 _ (Hv v Hv')) as (a & b & c & ->). unfold project. cbn [py_get nth_error bind]. eauto. }
    rewrite Hps. cbn [bind]. destruct (py_get_ok parts Hi') as (part & Ep). rewrite Ep. cbn [bind]. eauto. }
  destruct EV as (domains & EV). exists domains. split; auto.
  split; [|split; auto]; intros hs' pt' out' _ _ _; unfold known_env; cbn [env_hsi]; (destruct (list_eq_dec halfspace_eq_dec hs' hs) as [->|]; [|discriminate]);
  intros E; inversion E; subst; auto.
Qed.

Lemma champ_3D_realisable_full g gi lv parts g0 gf o0 of : wf_graph g -> wf_graph gi -> directed g = false -> edges g <> [] ->
  length lv = vcount g -> lv <> [] -> (vcount gi <= vcount g)%nat -> edges_within_layers g lv ->
  (forall l, In l lv -> exists u v, In (u, v) (edges g) /\ nth u lv 0%nat = l) ->
  (forall c, In c parts -> length c = vcount g) -> (Z.of_nat (length parts) <= 2 ^ 53)%Z -> parts <> [] -> g0 < gf -> o0 < of ->
  exists env domains, champ_ok_3D env g gi lv parts /\ irredundant_hsi 3 (env_hsi env) /\ full_facets_hsi 3 (env_hsi env) /\ CHAMP_3D env g gi lv parts g0 gf o0 of = Ok domains.
Proof.
  intros Hw Hwi Hd He Hlv Hlne Hgi Hin Hhas Hp Hl Hne Hg Ho. apply champ_3D_realisable_gen; auto.
  intros c Hc. left. exact (@P3_of_pos g lv Hw Hlv Hin Hhas c He Hd).
Qed.

Lemma champ_3D_realisable_irredundant g gi lv parts g0 gf o0 of : wf_graph g -> wf_graph gi -> directed g = false -> edges g <> [] ->
  length lv = vcount g -> lv <> [] -> (vcount gi <= vcount g)%nat -> edges_within_layers g lv ->
  (forall l, In l lv -> exists u v, In (u, v) (edges g) /\ nth u lv 0%nat = l) ->
  (forall c, In c parts -> length c = vcount g) -> (Z.of_nat (length parts) <= 2 ^ 53)%Z -> parts <> [] -> g0 < gf -> o0 < of ->
  exists env domains, champ_ok_3D env g gi lv parts /\ irredundant_hsi 3 (env_hsi env) /\ CHAMP_3D env g gi lv parts g0 gf o0 of = Ok domains.
Proof. intros. destruct (@champ_3D_realisable_full g gi lv parts g0 gf o0 of) as (env & domains & H13 & H15 & _ & H14); auto. exists env, domains. auto. Qed.

Lemma champ_3D_realisable g gi lv parts g0 gf o0 of : wf_graph g -> wf_graph gi -> directed g = false -> edges g <> [] ->
  length lv = vcount g -> lv <> [] -> (vcount gi <= vcount g)%nat -> edges_within_layers g lv ->
  (forall l, In l lv -> exists u v, In (u, v) (edges g) /\ nth u lv 0%nat = l) ->
  (forall c, In c parts -> length c = vcount g) -> (Z.of_nat (length parts) <= 2 ^ 53)%Z -> parts <> [] -> g0 < gf -> o0 < of ->
  exists env domains, champ_ok_3D env g gi lv parts /\ CHAMP_3D env g gi lv parts g0 gf o0 of = Ok domains.
Proof. intros. destruct (@champ_3D_realisable_irredundant g gi lv parts g0 gf o0 of) as (env & domains & H13 & _ & H14); auto. exists env, domains. auto. Qed.
