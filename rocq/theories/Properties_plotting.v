(** C54, C55, C60-C63: what the plotting functions draw. *)
From Coq Require Import List Arith Reals Lia Lra Permutation Sorted Classical.
From Verif Require Import PyBase M_partition M_plotting Spec Spec_plotting L_base L_plotting.
Import ListNotations.
Open Scope R_scope.

(** Contract of the random module and of set iteration: a sample is an element of its population, orders are permutations. *)
Definition fair_choices (env : plot_env) : Prop :=
  (forall l, Permutation (pl_set_order env l) l) /\ (forall l, Permutation (pl_shuffle env l) l) /\
  (forall k n, (0 < n)%nat -> (pl_sample env k n < n)%nat).
(** The colours that the Set1 colormap gives for [n] domains. *)
Definition set1 (env : plot_env) (n : nat) (c : nat) : Prop := exists i, (i < n)%nat /\ c = pl_cmap env n i.
(** The same environment with other random samples. *)
Definition resampled (env : plot_env) (s : nat -> nat -> nat) : plot_env :=
  mkPlot (pl_cmap env) (pl_set_order env) (pl_shuffle env) s (pl_ami env).

(** ** C54: colours of plot_2d_domains *)
Theorem C54_colours : forall env domains flip_axes polygons colors,
  fair_choices env -> plot_2d_domains env domains flip_axes = Ok (polygons, colors) ->
  polygons = map (fun d => if flip_axes then swapped (fst d) else fst d) domains /\
  exists cs, colors = map Some cs /\ length cs = length domains /\ Forall (set1 env (length domains)) cs /\ proper (map fst domains) cs.
Proof.
  intros env ds flip polys cols Hf H. unfold plot_2d_domains in H. destruct (@colors_cases env (map fst ds) Hf) as [(cs & E & H1 & H2 & H3)|(cs & E & H1)]; rewrite E in H; cbn [bind] in H; [|discriminate].
  inversion H; subst. split.
  - apply map_ext. intros d. destruct flip; reflexivity.
  - rewrite map_length in *. exists cs. auto.
Qed.
Print Assumptions C54_colours.

Theorem C54_raises : forall env domains flip_axes e, fair_choices env -> plot_2d_domains env domains flip_axes = Raise e ->
  e = ValueError /\ exists cs, dead_end (map fst domains) (set1 env (length domains)) cs.
Proof.
  intros env ds flip e Hf H. unfold plot_2d_domains in H. destruct (@colors_cases env (map fst ds) Hf) as [(cs & E & _)|(cs & E & H1)]; rewrite E in H; cbn [bind] in H; [discriminate|].
  inversion H; subst. rewrite map_length in H1. eauto.
Qed.
Print Assumptions C54_raises.

(** With fewer colours than domains: every proper colouring is drawn for some random choices, and every dead end is run into. *)
Theorem C54_every_colouring : forall env domains flip_axes cs i j, fair_choices env ->
  (i < j < length domains)%nat -> pl_cmap env (length domains) i = pl_cmap env (length domains) j ->
  length cs = length domains -> Forall (set1 env (length domains)) cs -> proper (map fst domains) cs ->
  exists s polygons, fair_choices (resampled env s) /\ plot_2d_domains (resampled env s) domains flip_axes = Ok (polygons, map Some cs).
Proof.
  intros env ds flip cs i j (F1 & F2 & F3) Hij E Hl Ha Hp. destruct (@colors_reached env (map fst ds) cs i j) as (s & S1 & S2); try rewrite map_length; auto.
  exists s. unfold plot_2d_domains. change (resampled env s) with (with_sample env s). rewrite S2. cbn [bind]. eexists. split; [|reflexivity]. split; [exact F1|]. split; [exact F2|exact S1].
Qed.
Print Assumptions C54_every_colouring.

Theorem C54_every_dead_end : forall env domains flip_axes cs i j, fair_choices env ->
  (i < j < length domains)%nat -> pl_cmap env (length domains) i = pl_cmap env (length domains) j ->
  dead_end (map fst domains) (set1 env (length domains)) cs ->
  exists s, fair_choices (resampled env s) /\ plot_2d_domains (resampled env s) domains flip_axes = Raise ValueError.
Proof.
  intros env ds flip cs i j (F1 & F2 & F3) Hij E Hd. destruct (@dead_end_reached env (map fst ds) cs i j) as (s & S1 & S2); try rewrite map_length; auto.
  exists s. unfold plot_2d_domains. change (resampled env s) with (with_sample env s). rewrite S2. split; [|reflexivity]. split; [exact F1|]. split; [exact F2|exact S1].
Qed.
Print Assumptions C54_every_dead_end.

(** It cannot fail when every domain touches fewer earlier domains than there are colours. *)
Theorem C54_enough_colours : forall env domains flip_axes colours, fair_choices env -> NoDup colours -> Forall (set1 env (length domains)) colours ->
  (forall i js, NoDup js -> (forall j, In j js -> (j < i)%nat /\ touching (map fst domains) j i) -> (length js < length colours)%nat) ->
  exists figure, plot_2d_domains env domains flip_axes = Ok figure.
Proof.
  intros env ds flip cols Hf ND F H. destruct (plot_2d_domains env ds flip) as [x|e] eqn:E; [eauto|]. exfalso. apply C54_raises in E as [_ (cs & Hd)]; auto.
  destruct (dead_end_neighbors Hd ND F) as (js & J1 & J2 & J3). specialize (H _ js J1 J3). lia.
Qed.
Print Assumptions C54_enough_colours.

(** It always fails when more domains meet in a vertex than there are colours. *)
Theorem C54_too_few_colours : forall env domains flip_axes colours v js, fair_choices env ->
  (forall c, set1 env (length domains) c -> In c colours) -> NoDup js ->
  (forall j, In j js -> exists p, nth_error (map fst domains) j = Some p /\ In v p) -> (length colours < length js)%nat ->
  plot_2d_domains env domains flip_axes = Raise ValueError.
Proof.
  intros env ds flip cols v js Hf Hc ND Hv Hlt. destruct (plot_2d_domains env ds flip) as [[polys cs]|e] eqn:E; [|apply C54_raises in E as [-> _]; auto].
  exfalso. apply C54_colours in E as (_ & cs' & -> & H1 & H2 & H3); auto.
  assert (ND' : NoDup (map (fun j => nth j cs' 0%nat) js)) by (apply (@proper_at_vertex (map fst ds) cs' v js); auto; rewrite map_length; auto).
  assert (L : (length (map (fun j => nth j cs' 0%nat) js) <= length cols)%nat); [|rewrite map_length in L; lia]. apply NoDup_incl_length; auto.
  intros c Hin. apply in_map_iff in Hin as (j & <- & Hj). apply Hc. rewrite Forall_forall in H2. apply H2, nth_In. rewrite H1. destruct (Hv j Hj) as (p & P & _).
  rewrite <- (map_length fst ds). apply nth_error_Some. congruence.
Qed.
Print Assumptions C54_too_few_colours.

(** Two colours: a row of three domains can be coloured, three domains around a vertex cannot. *)
Definition two_colours : plot_env := mkPlot (fun _ i => i mod 2)%nat (fun l => l) (fun l => l) (fun _ _ => 0%nat) (fun _ _ => 1).
Definition square (x : R) : list (R * R) := [(x, 0); (x + 1, 0); (x + 1, 1); (x, 1)].
Definition row : list (list (R * R) * list nat) := [(square 0, [0%nat]); (square 1, [1%nat]); (square 2, [2%nat])].
Definition fan : list (list (R * R) * list nat) :=
  [([(0, 0); (1, 0); (1, 1)], [0%nat]); ([(0, 0); (1, 1); (0, 1)], [1%nat]); ([(0, 0); (0, 1); (-1, 1)], [2%nat])].
Lemma two_colours_fair : fair_choices two_colours.
Proof. split; [|split]; intros; cbn; auto. Qed.

Lemma row_proper : proper (map fst row) [0%nat; 1%nat; 0%nat].
Proof.
  intros i j c d Hij Hc Hd (p & q & v & Hp & Hq & V1 & V2).
  assert (X : forall x y, In v (square x) -> In v (square y) -> x - y <= 1).
  { intros x y [A|[A|[A|[A|[]]]]] [B|[B|[B|[B|[]]]]]; rewrite <- A in B; inversion B; lra. }
  destruct i as [|[|[|i]]], j as [|[|[|j]]]; cbn in *; try congruence; try (destruct i; discriminate); try (destruct j; discriminate);
    inversion Hp; inversion Hq; subst; try (inversion Hc; inversion Hd; subst; discriminate);
    exfalso; [specialize (X _ _ V2 V1)|specialize (X _ _ V1 V2)]; lra.
Qed.

Example C54_example :
  (exists s polygons, fair_choices (resampled two_colours s) /\ plot_2d_domains (resampled two_colours s) row true = Ok (polygons, [Some 0; Some 1; Some 0]%nat)) /\
  plot_2d_domains two_colours fan true = Raise ValueError.
Proof.
  split.
  - apply (C54_every_colouring two_colours row true [0; 1; 0]%nat 0 2); auto using two_colours_fair, row_proper; cbn; try lia.
    repeat constructor; [exists 0%nat|exists 1%nat|exists 0%nat]; split; auto; lia.
  - apply (C54_too_few_colours two_colours fan true [0; 1]%nat (0, 0) [0; 1; 2]%nat two_colours_fair).
    + intros c (i & Hi & ->). cbn in *. destruct i as [|[|[|i]]]; cbn; auto. lia.
    + repeat constructor; cbn; intuition congruence.
    + intros j [<-|[<-|[<-|[]]]]; cbn; eexists; (split; [reflexivity|]); left; reflexivity.
    + cbn. lia.
Qed.

(** ** C55: plot_multiplex_community *)

(** numpy arrays with equally large layers: column t holds the communities of layer t's vertices, in order. *)
Theorem C55_arrays : forall membership layer_vec,
  length membership = length layer_vec -> layer_vec <> [] ->
  (forall t, (t < S (list_max layer_vec))%nat -> length (vertices_in layer_vec t) = length layer_vec / S (list_max layer_vec))%nat ->
  plot_multiplex_community (Array membership) (Array layer_vec) =
  Ok (map (fun t => map (fun v => nth v membership 0%nat) (vertices_in layer_vec t)) (seq 0 (S (list_max layer_vec)))).
Proof. intros m lv H1 H2 H3. apply (@matrix_ok m lv H1 H2 H3). Qed.
Print Assumptions C55_arrays.

(** Otherwise it raises ValueError, unless every layer has at most one vertex: then an empty matrix is drawn. *)
Theorem C55_unequal_layers : forall membership layer_vec t,
  length membership = length layer_vec -> layer_vec <> [] ->
  (t < S (list_max layer_vec) /\ length (vertices_in layer_vec t) <> length layer_vec / S (list_max layer_vec))%nat ->
  ((exists s, (1 < length (vertices_in layer_vec s))%nat) -> plot_multiplex_community (Array membership) (Array layer_vec) = Raise ValueError) /\
  ((forall s, (length (vertices_in layer_vec s) <= 1)%nat) -> plot_multiplex_community (Array membership) (Array layer_vec) = Ok (repeat [] (S (list_max layer_vec)))).
Proof.
  intros m lv t H1 H2 [H3 H4].
  assert (Hbig : forall s, (S (list_max lv) <= s)%nat -> vertices_in lv s = []).
  { intros s Hs. unfold vertices_in. destruct (filter _ _) as [|v l] eqn:E; auto. exfalso. assert (Hv : In v (filter (fun v => Nat.eqb (nth v lv 0%nat) s) (seq 0 (length lv)))) by (rewrite E; left; auto).
    apply filter_In in Hv as [V1 V2]. apply Nat.eqb_eq in V2. apply in_seq in V1. assert (B : In (nth v lv 0%nat) lv) by (apply nth_In; lia). apply below_max in B; lia. }
  split.
  - intros (s & Hs). destruct (plot_multiplex_community (Array m) (Array lv)) as [r|e] eqn:E; [|f_equal; eapply matrix_raises; eauto].
    exfalso. destruct (@matrix_sizes m lv H1 H2 r E) as [H|[_ H]]; [apply H4, H; auto|].
    destruct (le_lt_dec (S (list_max lv)) s) as [L|L]; [rewrite (Hbig s L) in Hs; cbn in Hs; lia|]. specialize (H s L). lia.
  - intros Hs. apply matrix_sparse; auto. destruct (Nat.eq_dec (length lv / S (list_max lv)) 0) as [|N]; auto. exfalso. apply H4.
    apply (@sum_le_all (fun t => length (vertices_in lv t)) (length lv / S (list_max lv)) (seq 0 (S (list_max lv)))); [| |apply in_seq; lia].
    + intros t' _. specialize (Hs t'). lia.
    + rewrite seq_length. rewrite layers_cover by (intros x; apply below_max). rewrite Nat.mul_comm. apply Nat.mul_div_le. lia.
Qed.
Print Assumptions C55_unequal_layers.

(** The documented types, a tuple and a list: every cell shows the community of vertex 0. *)
Theorem C55_refuted : forall x membership layer_vec, layer_vec <> [] ->
  plot_multiplex_community (Sequence (x :: membership)) (Sequence layer_vec) =
  Ok (repeat (repeat x (length (x :: membership) / S (list_max layer_vec))) (S (list_max layer_vec))).
Proof. exact matrix_sequences. Qed.
Print Assumptions C55_refuted.

Theorem C55_rejected : forall membership layer_vec, layer_vec <> [] ->
  plot_multiplex_community (Array membership) (Sequence layer_vec) = Raise ValueError /\
  plot_multiplex_community (Sequence membership) (Array layer_vec) = Raise TypeError /\
  (length membership <> length layer_vec -> plot_multiplex_community (Array membership) (Array layer_vec) = Raise IndexError).
Proof.
  intros m lv H. unfold plot_multiplex_community. cbn [entries]. rewrite (max_lv H). cbn [bind]. replace (list_max lv + 1)%nat with (S (list_max lv)) by lia. cbn [seq mapM layer_column bind].
  split; auto. split; auto. intros Hn. apply Nat.eqb_neq in Hn. rewrite Hn. auto.
Qed.
Print Assumptions C55_rejected.

Example C55_example :
  plot_multiplex_community (Array [0; 1; 2; 3; 4; 5]%nat) (Array [0; 1; 0; 1; 0; 1]%nat) = Ok [[0; 2; 4]; [1; 3; 5]]%nat /\
  plot_multiplex_community (Sequence [0; 1; 2; 3; 4; 5]%nat) (Sequence [0; 1; 0; 1; 0; 1]%nat) = Ok [[0; 0; 0]; [0; 0; 0]]%nat /\
  plot_multiplex_community (Array [0; 1; 2; 3]%nat) (Array [0; 0; 0; 1]%nat) = Raise ValueError /\
  plot_multiplex_community (Array [7; 8]%nat) (Array [0; 2]%nat) = Ok [[]; []; []].
Proof. repeat split. Qed.

(** ** C60: plot_2d_domains_with_estimates *)

(** Every domain is drawn, flipped; an arrow exactly for each domain whose estimate lies in the window (and whose centroid is at
    most 5% away from it horizontally), from the centroid moved into the window to the estimate; the dots are the arrow heads. *)
Theorem C60_estimates : forall env l xlim ylim plot_points arrows points polygons colors,
  fst xlim <= snd xlim -> fst ylim <= snd ylim -> (forall d, In d l -> fst (fst (fst d)) <> []) ->
  plot_2d_domains_with_estimates env l xlim ylim plot_points true = Ok (arrows, points, (polygons, colors)) ->
  polygons = map (fun d => swapped (fst (fst (fst d)))) l /\ points = (if plot_points then map snd arrows else []) /\
  exists kept, only (pointed_at xlim ylim) l kept /\ Forall2 (is_arrow xlim ylim) kept arrows.
Proof.
  intros env l xlim ylim pp arrows points polys cols Hx Hy Hl H. unfold plot_2d_domains_with_estimates in H. destruct (plot_2d_domains env _ true) as [fig|e] eqn:E; cbn [bind] in H; [|discriminate].
  inversion H; subst. unfold plot_2d_domains in E. destruct (domain_colors _ _) as [cs|e]; cbn [bind] in E; [|discriminate]. inversion E; subst. split; [rewrite map_map; reflexivity|]. split; auto.
  apply estimate_arrows; auto.
Qed.
Print Assumptions C60_estimates.

(** Same colours, and same exceptions, as plot_2d_domains; flip_axes=False is refused. *)
Theorem C60_same_figure : forall env l xlim ylim plot_points,
  (forall arrows points figure, plot_2d_domains_with_estimates env l xlim ylim plot_points true = Ok (arrows, points, figure) ->
     plot_2d_domains env (map (fun d => fst (fst d)) l) true = Ok figure) /\
  (forall e, plot_2d_domains_with_estimates env l xlim ylim plot_points true = Raise e <-> plot_2d_domains env (map (fun d => fst (fst d)) l) true = Raise e) /\
  plot_2d_domains_with_estimates env l xlim ylim plot_points false = Raise AssertionError.
Proof.
  intros env l xlim ylim pp. unfold plot_2d_domains_with_estimates. set (fig := plot_2d_domains env (map (fun d => fst (fst d)) l) true).
  match goal with |- context [plot_2d_domains env ?x true] => assert (E : plot_2d_domains env x true = fig) by (unfold fig; f_equal; apply map_ext; intros [[[p c] g] o]; reflexivity) end.
  rewrite E. clearbody fig. clear E. destruct fig as [fig|e]; cbn [bind].
  - split; [intros; congruence|]. split; auto. intros e. split; discriminate.
  - split; [intros; discriminate|]. split; auto. intros e'. split; congruence.
Qed.
Print Assumptions C60_same_figure.

Definition no_choice : plot_env := mkPlot (fun _ i => i) (fun l => l) (fun l => l) (fun _ _ => 0%nat) (fun a _ => INR (length a)).
Definition estimated : list domain_estimate :=
  [(square 0, [0; 1]%nat, Some (Fin (3 / 2)), Some (1 / 2)); (square 1, [0; 0]%nat, None, None)].
Example C60_example : exists tail, plot_2d_domains_with_estimates no_choice estimated (0, 2) (0, 2) true true =
  Ok ([(tail, (1 / 2, Fin (3 / 2)))], [(1 / 2, Fin (3 / 2))], ([swapped (square 0); swapped (square 1)], [Some 0; Some 1]%nat)) /\
  in_window (0, 2) (0, 2) tail /\ pointed_at (0, 2) (0, 2) (square 0, [0; 1]%nat, Some (Fin (3 / 2)), Some (1 / 2)).
Proof.
  assert (P : pointed_at (0, 2) (0, 2) (square 0, [0; 1]%nat, Some (Fin (3 / 2)), Some (1 / 2))).
  { exists (square 0), [0; 1]%nat, (3 / 2), (1 / 2). split; auto. unfold in_range, mean. cbn. unfold rsum. cbn. lra. }
  unfold plot_2d_domains_with_estimates, estimated. cbn [flat_map].
  destruct (@estimate_arrow_cases (0, 2) (0, 2) (square 0, [0; 1]%nat, Some (Fin (3 / 2)), Some (1 / 2))) as [(_ & a & -> & Ha)|[N _]]; cbn [fst snd]; try lra; [discriminate| |contradiction].
  destruct Ha as (p & c & g & o & E & A1 & A2 & A3). inversion E; subst. destruct a as [tail head]. cbn [fst snd] in *. subst head. exists tail. split; [reflexivity|]. split; auto. split; [apply A2|apply A3].
Qed.

(** ** C61: plot_2d_domains_with_num_communities *)

(** Exactly the domains with a corner in the window are drawn, each with its own number of communities (at most K_max). *)
Theorem C61_values : forall l kept xlim ylim K_max step Ks top,
  only (has_corner_in xlim ylim) l kept -> Forall2 (fun d k => labelled (snd (fst (fst d))) k) kept Ks ->
  match K_max with Some k => top = k | None => In top Ks /\ forall k, In k Ks -> (k <= top)%nat end ->
  exists ticks, plot_2d_domains_with_num_communities l xlim ylim true K_max (S step) =
    Ok (map (fun d => swapped (fst (fst (fst d)))) kept, map (fun k => Nat.min k top) Ks, ticks) /\
    StronglySorted lt ticks /\ forall k, In k ticks <-> (2 <= k <= top)%nat /\ Nat.divide (S step) (k - 2).
Proof.
  intros l kept xlim ylim KM step Ks top Ho Hk Ht. unfold plot_2d_domains_with_num_communities. rewrite (valued_polygons_kept num_communities Ho).
  match goal with |- context [mapM ?f kept] => assert (E : exists drawn, mapM f kept = Ok drawn /\ map fst drawn = map (fun d => swapped (fst (fst (fst d)))) kept /\ map snd drawn = Ks) end.
  { clear - Hk. induction Hk as [|d k kept Ks H Hk (drawn & IH & I1 & I2)]; [exists []; auto|]. exists ((swapped (fst (fst (fst d))), k) :: drawn). cbn [mapM map fst snd].
    rewrite (proj2 (num_communities_labelled _ k) H). cbn [bind]. rewrite IH, I1, I2. auto. }
  destruct E as (drawn & E & E1 & E2). rewrite E. cbn [bind].
  rewrite E1, E2. destruct (py_range2 top (S step)) as [ticks|] eqn:Er; [|discriminate]. pose proof (py_range2_ok Er) as Hr.
  exists ticks. destruct KM as [k|].
  - subst top. cbn [bind]. rewrite Er. cbn [bind]. auto.
  - rewrite (proj2 (py_max_spec Ks top) Ht). cbn [bind]. rewrite Er. cbn [bind]. split; auto. f_equal. f_equal. f_equal.
    rewrite <- (map_id Ks) at 1. apply map_ext_in. intros k Hin. symmetry. apply Nat.min_l. apply Ht. auto.
Qed.
Print Assumptions C61_values.

(** Without a domain to draw and without K_max, and with flip_axes=False, it raises. *)
Theorem C61_raises : forall l xlim ylim step,
  (only (has_corner_in xlim ylim) l [] -> plot_2d_domains_with_num_communities l xlim ylim true None step = Raise ValueError) /\
  forall K_max, plot_2d_domains_with_num_communities l xlim ylim false K_max step = Raise AssertionError.
Proof.
  intros l xlim ylim step. split; auto. intros Ho. unfold plot_2d_domains_with_num_communities. rewrite (valued_polygons_kept num_communities Ho). reflexivity.
Qed.
Print Assumptions C61_raises.

(** So a domain that contains the whole window is not drawn: here, the only one. *)
Definition large : domain_estimate := ([(-1, -1); (9, -1); (9, 9); (-1, 9)], [0; 1]%nat, None, None).
Example C61_refuted_example : plot_2d_domains_with_num_communities [large] (0, 2) (0, 2) true None 2 = Raise ValueError /\
  plot_2d_domains_with_num_communities [large] (0, 9) (0, 9) true None 2 = Ok ([swapped (fst (fst (fst large)))], [2]%nat, [2]%nat).
Proof.
  split.
  - apply C61_raises. constructor; [|constructor]. intros (v & [<-|[<-|[<-|[<-|[]]]]] & [A B] & [C D]); cbn in *; lra.
  - destruct (C61_values [large] [large] (0, 9) (0, 9) None 1 [2]%nat 2) as (ticks & -> & Hs & Ht).
    + constructor; [|constructor]. exists (9, 9). split; [cbn; auto|]. unfold in_range. cbn. lra.
    + constructor; [|constructor]. cbn. split; [lia|]. intros x. cbn. lia.
    + split; [left; auto|]. intros k [<-|[]]. lia.
    + cbn [map Nat.min]. assert (E : ticks = [2%nat]); [|rewrite E; auto].
      assert (I : In 2%nat ticks) by (apply Ht; split; [lia|exists 0%nat; lia]). destruct ticks as [|a [|b r]]; [destruct I| |].
      * f_equal. destruct I as [|[]]; auto.
      * exfalso. inversion Hs as [|? ? _ F]; subst. inversion F; subst. assert (A1 : In a (a :: b :: r)) by (left; auto). assert (A2 : In b (a :: b :: r)) by (right; left; auto). apply Ht in A1. apply Ht in A2. lia.
Qed.

(** ** C62: plot_2d_domains_with_ami *)
Theorem C62_values : forall env l kept ground_truth xlim ylim, only (has_corner_in xlim ylim) l kept ->
  plot_2d_domains_with_ami env l ground_truth xlim ylim true =
    Ok (map (fun d => swapped (fst (fst (fst d)))) kept, map (fun d => pl_ami env (snd (fst (fst d))) ground_truth) kept ++ [1]) /\
  plot_2d_domains_with_ami env l ground_truth xlim ylim false = Raise AssertionError.
Proof.
  intros env l kept gt xlim ylim Ho. split; auto. unfold plot_2d_domains_with_ami. rewrite (valued_polygons_kept (fun membership => Ok (pl_ami env membership gt)) Ho). cbn [bind].
  rewrite (mapM_ok _ (fun d : domain_estimate => (swapped (fst (fst (fst d))), pl_ami env (snd (fst (fst d))) gt))) by auto. cbn [bind]. rewrite !map_map. auto.
Qed.
Print Assumptions C62_values.

Example C62_example : plot_2d_domains_with_ami no_choice estimated [0; 1]%nat (0, 1 / 2) (3 / 2, 2) true = Ok ([swapped (square 1)], [2; 1]).
Proof.
  destruct (C62_values no_choice estimated [(square 1, [0; 0]%nat, None, None)] [0; 1]%nat (0, 1 / 2) (3 / 2, 2)) as [-> _]; auto.
  - constructor; [|constructor; [|constructor]].
    + intros (v & [<-|[<-|[<-|[<-|[]]]]] & [A B] & [C D]); cbn in *; lra.
    + exists (1 + 1, 0). split; [cbn; auto|]. unfold in_range. cbn. lra.
Qed.

(** ** C63: plot_estimates *)

(** [limits] are the axis limits after drawing the segments, which matplotlib chooses so that they contain them. *)
Theorem C63_figure : forall limits l,
  (forall x, In x l -> exists k, labelled (snd (fst x)) k) ->
  (forall segments, Forall2 is_segment l segments -> Forall (in_box (limits segments)) segments) ->
  exists segments marks, plot_estimates limits l = Ok (segments, flat_map fst marks, flat_map snd marks) /\
    Forall2 is_segment l segments /\
    Forall2 (fun x m => marked (fst (limits segments)) (snd (limits segments)) l x (fst m) (snd m)) l marks.
Proof. exact plot_estimates_ok. Qed.
Print Assumptions C63_figure.

(** Two overlapping ranges: both arrows point at the last range that contains the estimate. *)
Definition ranges : list ((R * R) * list nat * option npf) :=
  [((0, 2), [0; 0]%nat, Some (Fin (3 / 2))); ((1, 3), [0; 1]%nat, Some (Fin 5)); ((3, 4), [0; 1; 2]%nat, None)].
Example C63_example : plot_estimates (fun _ => ((0, 4), (1, 3))) ranges =
  Ok ([((0, 2), 1%nat); ((1, 3), 2%nat); ((3, 4), 3%nat)], [(Fin (3 / 2), 2%nat)],
      [(((0 + 2) / 2, 1%nat), (Fin (3 / 2), INR 2)); (((1 + 3) / 2, 2%nat), (Fin 4, 3))]).
Proof.
  assert (L1 : labelled [0; 0]%nat 1) by (split; [lia|]; intros x; cbn; lia).
  assert (L2 : labelled [0; 1]%nat 2) by (split; [lia|]; intros x; cbn; lia).
  assert (L3 : labelled [0; 1; 2]%nat 3) by (split; [lia|]; intros x; cbn; lia).
  assert (U : forall c a b, labelled c a -> labelled c b -> a = b).
  { intros c a b A B. apply num_communities_labelled in A. apply num_communities_labelled in B. congruence. }
  assert (Hk : forall x, In x ranges -> exists k, labelled (snd (fst x)) k) by (intros x [<-|[<-|[<-|[]]]]; eauto).
  assert (S : forall segs, Forall2 is_segment ranges segs -> segs = [((0, 2), 1%nat); ((1, 3), 2%nat); ((3, 4), 3%nat)]).
  { intros segs H. inversion H as [|? [s1 k1] ? ? [A1 B1] H']; subst. inversion H' as [|? [s2 k2] ? ? [A2 B2] H'']; subst. inversion H'' as [|? [s3 k3] ? ? [A3 B3] H3]; subst. inversion H3; subst. cbn in *. subst.
    rewrite (U _ _ _ B1 L1), (U _ _ _ B2 L2), (U _ _ _ B3 L3). auto. }
  destruct (C63_figure (fun _ => ((0, 4), (1, 3))) ranges Hk) as (segs & marks & -> & H1 & H2).
  - intros segs H. apply S in H. subst. repeat (apply Forall_cons || apply Forall_nil); unfold in_box, in_range; cbn; lra.
  - apply S in H1. subst segs. cbn [fst snd] in H2. inversion H2 as [|? [d1 a1] ? ? M1 H']; subst. inversion H' as [|? [d2 a2] ? ? M2 H'']; subst. inversion H'' as [|? [d3 a3] ? ? M3 H3]; subst. inversion H3; subst. cbn [fst snd] in *.
    inversion M3; subst. inversion M2 as [|g c k e x k0 Hc (l1 & l2 & E & [B1 B2] & _) Hk0|g c k e e' Hc Hno [N1 [N2 [N3 N4]]]|]; subst.
    + exfalso. assert (In x ranges) as [<-|[<-|[<-|[]]]] by (rewrite E; apply in_or_app; right; left; auto); cbn in *; lra.
    + inversion M1 as [|g' c' k' e0 x k0 Hc' (l1 & l2 & E & [B1 B2] & Hlast) Hk0|g' c' k' e0 e0' Hc' Hno' Hn'|]; subst.
      * rewrite (U _ _ _ Hc L2), (U _ _ _ Hc' L1). cbn [flat_map app fst snd] in *. rewrite N4 by lra.
        assert (Ek : k0 = 2%nat); [|rewrite Ek; reflexivity].
        destruct l1 as [|y1 l1]; [|destruct l1 as [|y2 l1]; [|destruct l1 as [|y3 l1]; [|destruct l1; discriminate]]]; unfold ranges in E; inversion E; subst.
        -- exfalso. apply (Hlast ((1, 3), [0; 1]%nat, Some (Fin 5))); [left; auto|]. unfold holds_at, in_range. cbn. lra.
        -- apply (U [0; 1]%nat); auto.
        -- exfalso. cbn in *. lra.
      * exfalso. apply (Hno' ((0, 2), [0; 0]%nat, Some (Fin (3 / 2)))); [left; auto|]. unfold holds_at, in_range. cbn. lra.
Qed.
