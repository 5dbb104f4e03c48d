(** C121: the example figures of block models. *)
From Coq Require Import String Lia.
From Verif Require Import PyBase PyGraph M_partition M_champ M_leiden M_estimation_utils M_generators M_figures.
Open Scope list_scope.
Open Scope R_scope.

(** At scale s = 0, 1, 2, 3 the vertices are divided into 2 ^ s communities of equal size. *)
Definition scale_label (B s i : nat) : nat := (i / (2 ^ (3 - s) * B))%nat.

Lemma nth_repeat_same (x n i : nat) : (i < n)%nat -> nth i (repeat x n) 0%nat = x.
Proof. intros H. revert i H. induction n as [|n IH]; intros [|i] H; cbn; auto; try lia. apply IH. lia. Qed.
Lemma div_between a b q : (0 < b)%nat -> (q * b <= a < (q + 1) * b)%nat -> (a / b = q)%nat.
Proof. intros Hb H. symmetry. apply (Nat.div_unique a b q (a - q * b)); nia. Qed.

Lemma scale_memberships_are B s : (s < 4)%nat -> (0 < B)%nat ->
  exists m, nth_error (scales_memberships B) s = Some m /\ length m = (8 * B)%nat /\ forall i, (i < 8 * B)%nat -> nth i m 0%nat = scale_label B s i.
Proof.
  intros Hs HB. unfold scale_label. assert (s = 0 \/ s = 1 \/ s = 2 \/ s = 3)%nat as [-> | [-> | [-> | ->]]] by lia; cbn [scales_memberships nth_error]; eexists; (split; [reflexivity|]).
  - split; [rewrite repeat_length; lia|]. intros i Hi. rewrite nth_repeat_same by lia. symmetry. apply div_between; cbn; lia.
  - split; [rewrite app_length, !repeat_length; lia|]. intros i Hi. change (2 ^ (3 - 1))%nat with 4%nat. destruct (Nat.lt_ge_cases i (4 * B)).
    + rewrite app_nth1 by (rewrite repeat_length; lia). rewrite nth_repeat_same by lia. symmetry. apply div_between; lia.
    + rewrite app_nth2 by (rewrite repeat_length; lia). rewrite repeat_length, nth_repeat_same by lia. symmetry. apply div_between; lia.
  - split; [rewrite !app_length, !repeat_length; lia|]. intros i Hi. change (2 ^ (3 - 2))%nat with 2%nat. destruct (Nat.lt_ge_cases i (2 * B)).
    { rewrite app_nth1 by (rewrite repeat_length; lia). rewrite nth_repeat_same by lia. symmetry. apply div_between; lia. }
    rewrite app_nth2 by (rewrite repeat_length; lia). rewrite repeat_length. destruct (Nat.lt_ge_cases i (4 * B)).
    { rewrite app_nth1 by (rewrite repeat_length; lia). rewrite nth_repeat_same by lia. symmetry. apply div_between; lia. }
    rewrite app_nth2 by (rewrite repeat_length; lia). rewrite repeat_length. destruct (Nat.lt_ge_cases i (6 * B)).
    { rewrite app_nth1 by (rewrite repeat_length; lia). rewrite nth_repeat_same by lia. symmetry. apply div_between; lia. }
    rewrite app_nth2 by (rewrite repeat_length; lia). rewrite repeat_length. rewrite nth_repeat_same by lia. symmetry. apply div_between; lia.
  - split; [rewrite map_length, seq_length; lia|]. intros i Hi. change (2 ^ (3 - 3) * B)%nat with (B + 0)%nat. rewrite Nat.add_0_r.
    rewrite (nth_indep _ 0%nat (0 / B)%nat) by (rewrite map_length, seq_length; lia). rewrite (map_nth (fun i => (i / B)%nat)), seq_nth by lia. reflexivity.
Qed.

Lemma scale_refines B s u v : (0 < B)%nat -> scale_label B (S s) u = scale_label B (S s) v -> scale_label B s u = scale_label B s v.
Proof.
  intros HB H. unfold scale_label in *. destruct (Nat.lt_ge_cases s 3) as [L|L].
  - assert (E : (2 ^ (3 - s) * B = 2 ^ (3 - S s) * B * 2)%nat). { replace (3 - s)%nat with (S (3 - S s)) by lia. cbn [Nat.pow]. lia. }
    assert (P : (0 < 2 ^ (3 - S s))%nat) by (apply Nat.neq_0_lt_0, Nat.pow_nonzero; lia). rewrite E. rewrite <- (Nat.div_div u (2 ^ (3 - S s) * B) 2) by nia. rewrite <- (Nat.div_div v (2 ^ (3 - S s) * B) 2) by nia. rewrite H. reflexivity.
  - replace (3 - s)%nat with 0%nat by lia. replace (3 - S s)%nat with 0%nat in H by lia. exact H.
Qed.

Lemma filter_none {A} (f : A -> bool) l : (forall x, In x l -> f x = false) -> filter f l = [].
Proof. induction l as [|x l IH]; intros H; [reflexivity|]. cbn [filter]. rewrite H by (left; reflexivity). apply IH. intros y Hy. apply H. right. exact Hy. Qed.
Lemma filter_all {A} (f : A -> bool) l : (forall x, In x l -> f x = true) -> filter f l = l.
Proof. induction l as [|x l IH]; intros H; [reflexivity|]. cbn [filter]. rewrite H by (left; reflexivity). f_equal. apply IH. intros y Hy. apply H. right. exact Hy. Qed.
Lemma count_block (n b k : nat) : (0 < b)%nat -> ((k + 1) * b <= n)%nat -> length (filter (fun i => Nat.eqb (i / b) k) (seq 0 n)) = b.
Proof.
  intros Hb H. replace n with (k * b + (b + (n - (k + 1) * b)))%nat by nia. rewrite !seq_app, !filter_app, !app_length.
  rewrite (filter_none _ (seq 0 (k * b))), (filter_all _ (seq (0 + k * b) b)), (filter_none _ (seq (0 + k * b + b) (n - (k + 1) * b))), seq_length; [cbn [length]; lia| | |].
  - intros y Hy. apply in_seq in Hy. apply Nat.eqb_neq. assert (k + 1 <= y / b)%nat by (apply Nat.div_le_lower_bound; nia). lia.
  - intros y Hy. apply in_seq in Hy. apply Nat.eqb_eq. apply div_between; nia.
  - intros y Hy. apply in_seq in Hy. apply Nat.eqb_neq. assert (y / b < k)%nat by (apply Nat.div_lt_upper_bound; lia). lia.
Qed.

(** ** C121: the pictures.  Picture s shows the graph with 2 ^ s communities of N / 2 ^ s consecutive vertices, each picture refining the one before; the
    graph is the stored one, or the one igraph draws, which is then stored. *)
Lemma scales_allowed sample B : igraph_SBM sample 0 (B * 8) scales_densities (repeat B 8) = Ok (sample 0%nat).
Proof.
  unfold igraph_SBM. replace (Nat.eqb (list_sum (repeat B 8)) (B * 8)) with true by (symmetry; apply Nat.eqb_eq; cbn; lia). cbn [andb].
  replace (forallb _ scales_densities) with true; [reflexivity|]. symmetry. apply forallb_forall. intros row Hr. apply forallb_forall. intros p Hp.
  assert (Q : p = 1 \/ p = 2 / 10 \/ p = 5 / 100 \/ p = 5 / 1000) by (cbn in Hr; repeat destruct Hr as [<-|Hr]; try contradiction; cbn in Hp; intuition congruence).
  destruct (Rle_dec 0 p); [|lra]. destruct (Rle_dec p 1); [reflexivity|lra].
Qed.

Theorem C121_scales : forall sample B stored, (0 < B)%nat ->
  let G := match stored with Some G => G | None => sample 0%nat end in
  vcount G = (8 * B)%nat ->
  exists pictures, community_scales sample B stored = (Some G, Ok pictures) /\ length pictures = 4%nat /\ forall s, (s < 4)%nat -> exists m, nth_error pictures s = Some (G, m) /\ length m = vcount G /\ (forall i, (i < vcount G)%nat -> nth i m 0%nat = scale_label B s i) /\ (forall k, (k < 2 ^ s)%nat -> length (filter (fun i => Nat.eqb (nth i m 0%nat) k) (seq 0 (vcount G))) = (2 ^ (3 - s) * B)%nat).
Proof.
  intros sample B stored HB G HV. exists (map (fun m => (G, m)) (scales_memberships B)).
  assert (E : community_scales sample B stored = (Some G, mapM (fun m => if Nat.eqb (length m) (vcount G) then Ok (G, m) else Raise ValueError) (scales_memberships B))).
  { unfold community_scales. destruct stored as [g|]; [reflexivity|]. rewrite scales_allowed. reflexivity. }
  rewrite E. clear E. split; [f_equal|split; [reflexivity|]].
  - assert (L : forall m, In m (scales_memberships B) -> length m = vcount G).
    { intros m Hm. apply In_nth_error in Hm as (s & Hs). assert (s < 4)%nat by (change 4%nat with (length (scales_memberships B)); apply nth_error_Some; congruence).
      destruct (scale_memberships_are B s) as (m' & E & L & _); auto. rewrite E in Hs. injection Hs as <-. congruence. }
    induction (scales_memberships B) as [|m l IH]; [reflexivity|]. cbn [mapM map]. rewrite (L m) by (left; reflexivity). rewrite Nat.eqb_refl. cbn [bind]. rewrite IH by (intros x Hx; apply L; right; exact Hx). reflexivity.
  - intros s Hs. destruct (scale_memberships_are B s Hs HB) as (m & E & L & N). exists m. split; [rewrite nth_error_map, E; reflexivity|]. split; [congruence|]. rewrite HV. split; [exact N|].
    intros k Hk. rewrite <- (count_block (8 * B) (2 ^ (3 - s) * B) k).
    + f_equal. apply filter_ext_in. intros i Hi. apply in_seq in Hi. rewrite N by lia. reflexivity.
    + assert (0 < 2 ^ (3 - s))%nat by (apply Nat.neq_0_lt_0, Nat.pow_nonzero; lia). nia.
    + replace (8 * B)%nat with (2 ^ s * (2 ^ (3 - s) * B))%nat; [apply Nat.mul_le_mono_r; lia|]. rewrite Nat.mul_assoc, <- Nat.pow_add_r. replace (s + (3 - s))%nat with 3%nat by lia. reflexivity.
Qed.
Print Assumptions C121_scales.
Theorem C121_nested : forall B s u v, (0 < B)%nat -> scale_label B (S s) u = scale_label B (S s) v -> scale_label B s u = scale_label B s v.
Proof. exact scale_refines. Qed.
Print Assumptions C121_nested.

(** The density of two vertices depends on the finest scale at which they are together: 1 (all pairs), 1/5, 1/20, and 1/200 if only at the coarsest. *)
Theorem C121_densities : forall B u v, (0 < B)%nat -> (u < 8 * B)%nat -> (v < 8 * B)%nat ->
  let density := nth (v / B) (nth (u / B) scales_densities []) 0 in
  let together s := scale_label B s u = scale_label B s v in
  (together 3%nat -> density = 1) /\ (~ together 3%nat -> together 2%nat -> density = 1 / 5) /\ (~ together 2%nat -> together 1%nat -> density = 1 / 20) /\ (~ together 1%nat -> density = 1 / 200).
Proof.
  intros B u v HB Hu Hv density together.
  assert (L : forall s x, (s <= 3)%nat -> scale_label B s x = (x / B / 2 ^ (3 - s))%nat).
  { intros s x Hs. unfold scale_label. rewrite (Nat.mul_comm _ B), Nat.div_div; [reflexivity|lia|apply Nat.pow_nonzero; lia]. }
  unfold together, density. rewrite !L by lia. change (2 ^ (3 - 3))%nat with 1%nat. change (2 ^ (3 - 2))%nat with 2%nat. change (2 ^ (3 - 1))%nat with 4%nat.
  assert (Hi : (u / B < 8)%nat) by (apply Nat.div_lt_upper_bound; lia). assert (Hj : (v / B < 8)%nat) by (apply Nat.div_lt_upper_bound; lia).
  clear density together L Hu Hv. set (i := (u / B)%nat) in *. set (j := (v / B)%nat) in *. clearbody i j.
  do 8 (destruct i as [|i]; [do 8 (destruct j as [|j]; [cbn; repeat split; intros; try lra; exfalso; lia|]); lia|]). lia.
Qed.
Print Assumptions C121_densities.

(** The three-block figure: 40 consecutive vertices per block, blocks of density 2/5, 1/5 and 3/10, and 1/20 between the last two, 1/200 otherwise; a number of vertices
    that is no multiple of three is rejected. *)
Theorem C121_three_blocks : forall sample N,
  ((N mod 3 = 0)%nat -> exists m, example_sbm sample N = Ok (sample 0%nat, m) /\ length m = N /\ (forall i, (i < N)%nat -> nth i m 0%nat = (3 * i / N)%nat) /\ forall k, (k < 3)%nat -> length (filter (fun i => Nat.eqb (nth i m 0%nat) k) (seq 0 N)) = (N / 3)%nat) /\ ((N mod 3 <> 0)%nat -> example_sbm sample N = Raise ValueError).
Proof.
  intros sample N.
  assert (P : forallb (forallb (fun p => if Rle_dec 0 p then if Rle_dec p 1 then true else false else false)) example_densities = true).
  { apply forallb_forall. intros row Hr. apply forallb_forall. intros p Hp.
    assert (Q : 0 <= p <= 1) by (cbn in Hr; repeat destruct Hr as [<-|Hr]; try contradiction; cbn in Hp; repeat destruct Hp as [<-|Hp]; try contradiction; lra).
    destruct (Rle_dec 0 p); [|lra]. destruct (Rle_dec p 1); [reflexivity|lra]. }
  unfold example_sbm, igraph_SBM. rewrite P. rewrite andb_true_r. pose proof (Nat.div_mod N 3 ltac:(lia)) as DM. set (B := (N / 3)%nat) in *.
  replace (list_sum (repeat B 3)) with (3 * B)%nat by (cbn; lia). split; intros H.
  - rewrite H, Nat.add_0_r in DM. rewrite <- DM, Nat.eqb_refl. cbn [bind]. eexists. split; [reflexivity|]. split; [rewrite map_length, seq_length; reflexivity|].
    assert (NI : forall i, (i < N)%nat -> nth i (map (fun i => (i / B)%nat) (seq 0 N)) 0%nat = (i / B)%nat).
    { intros i Hi. rewrite (nth_indep _ 0%nat (0 / B)%nat) by (rewrite map_length, seq_length; lia). rewrite (map_nth (fun i => (i / B)%nat)), seq_nth by lia. reflexivity. }
    split.
    + intros i Hi. rewrite NI by exact Hi. rewrite DM at 1. rewrite Nat.div_mul_cancel_l by lia. reflexivity.
    + intros k Hk. destruct (Nat.eq_dec N 0) as [E|E].
      * assert (Z : B = 0%nat) by lia. rewrite E, Z. reflexivity.
      * apply eq_trans with (length (filter (fun i => Nat.eqb (i / B) k) (seq 0 N))); [|apply count_block; nia]. f_equal. apply filter_ext_in. intros i Hi. apply in_seq in Hi. rewrite NI by lia. reflexivity.
  - replace (Nat.eqb (3 * B) N) with false; [reflexivity|]. symmetry. apply Nat.eqb_neq. lia.
Qed.
Print Assumptions C121_three_blocks.

Theorem C121_three_block_densities : forall B u v, (0 < B)%nat -> (u < 3 * B)%nat -> (v < 3 * B)%nat ->
  let block x := (x / B)%nat in let density := nth (block v) (nth (block u) example_densities []) 0 in
  (block u = block v -> density = if Nat.eqb (block u) 0 then 2 / 5 else if Nat.eqb (block u) 1 then 1 / 5 else 3 / 10) /\
  (block u <> block v -> (0 < block u)%nat -> (0 < block v)%nat -> density = 1 / 20) /\ (block u <> block v -> block u = 0%nat \/ block v = 0%nat -> density = 1 / 200).
Proof.
  intros B u v HB Hu Hv block density. assert (Hi : (block u < 3)%nat) by (apply Nat.div_lt_upper_bound; lia). assert (Hj : (block v < 3)%nat) by (apply Nat.div_lt_upper_bound; lia).
  unfold density. clear density Hu Hv. set (i := block u) in *. set (j := block v) in *. clearbody i j.
  do 3 (destruct i as [|i]; [do 3 (destruct j as [|j]; [cbn; repeat split; intros; try lra; exfalso; lia|]); lia|]). lia.
Qed.
Print Assumptions C121_three_block_densities.

(** As called: 56 and 120 vertices. *)
Example C121_example : scale_label 7 2 30 = 2%nat /\ scale_label 7 3 30 = 4%nat /\ fst (community_scales (fun _ => mkGraph 56 false [(0, 1)]%nat None) 7 None) = Some (mkGraph 56 false [(0, 1)]%nat None) /\ exists m, example_sbm (fun _ => mkGraph 120 false [(0, 1)]%nat None) 120 = Ok (mkGraph 120 false [(0, 1)]%nat None, m) /\ nth 79 m 0%nat = 1%nat.
Proof.
  split; [reflexivity|]. split; [reflexivity|]. split.
  - destruct (C121_scales (fun _ => mkGraph 56 false [(0, 1)]%nat None) 7 None) as (ps & E & _); [lia|reflexivity|]. rewrite E. reflexivity.
  - destruct (proj1 (C121_three_blocks (fun _ => mkGraph 120 false [(0, 1)]%nat None) 120) eq_refl) as (m & E & _ & X & _). exists m. split; [exact E|]. rewrite X by lia. reflexivity.
Qed.
