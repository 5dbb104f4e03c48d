(** A concrete network for C116: two layers of two communities of 50, complete inside, with one link per vertex between them; ten vertices of either
    community change in the second layer (copying probability 3/5). *)
From Coq Require Import String.
From Verif Require Import PyBase PyGraph M_partition M_champ M_leiden M_parts M_estimation_utils M_estimation M_generators M_esttests
  Spec Spec_graph Spec_sbm Spec_multisbm Spec_newman Spec_generators Spec_layered Spec_leiden L_base Properties_layered.
Open Scope list_scope.
Open Scope R_scope.

Definition ex_first : list nat := map (fun v => (v / 50)%nat) (seq 0 100).
Definition ex_moves (v : nat) : bool := (v mod 50 <? 10)%nat.
Definition ex_new (v : nat) : nat := (1 - v / 50)%nat.
Definition ex_linked (v u : nat) : bool := (u =? v + 50)%nat.
Definition ex_draws : draws := mkDraws (fun _ v => if ex_moves v then 1 else 0) (fun _ v => ex_new v) (fun v u => if ex_linked v u then 0 else 1 / 2).
Definition ex_c : list nat := ex_first ++ map (fun v => if ex_moves v then ex_new v else nth v ex_first 0%nat) (seq 0 100).
Definition ex_lv : list nat := repeat 0%nat 100 ++ repeat 1%nat 100.
Definition ex_edges : list (nat * nat) :=
  flat_map (fun v => flat_map (fun u => if Nat.eqb (nth v ex_lv 0%nat) (nth u ex_lv 0%nat) then if Nat.eqb (nth v ex_c 0%nat) (nth u ex_c 0%nat) || ex_linked v u then [(u, v)] else [] else [])
    (seq (v + 1) (200 - (v + 1)))) (seq 0 200).

Lemma flat_map_same {A B} (f g : A -> list B) : forall l, (forall x, f x = g x) -> flat_map f l = flat_map g l.
Proof. induction l as [|x l IH]; intros H; [reflexivity|]. cbn [flat_map]. rewrite H, IH by auto. reflexivity. Qed.

Lemma ex_generated : generate_temporal_SBM ex_draws (3 / 5) 1 (1 / 50) ex_first 2 = Ok (graph_of_edges false ex_edges, graph_of_edges true (next_copies 100 2), ex_lv).
Proof.
  assert (L : length ex_first = 100%nat) by (vm_compute; reflexivity). assert (N : num_communities ex_first = Ok 2%nat) by (vm_compute; reflexivity).
  unfold generate_temporal_SBM, generate_multilayer_intralayer_SBM. rewrite N, L. cbn [bind].
  assert (E1 : concat (label_layers ex_draws (3 / 5) 100 0 1 ex_first) = ex_c).
  { cbn [label_layers concat]. rewrite app_nil_r. unfold ex_c, next_layer. f_equal. apply map_ext. intros v. cbn [ex_draws d_copy d_label].
    destruct (ex_moves v); destruct (Rlt_dec _ _); try lra; reflexivity. }
  rewrite E1. replace (flat_map (fun i => repeat i 100) (seq 0 2)) with ex_lv by (vm_compute; reflexivity). repeat f_equal.
  unfold sbm_edges, ex_edges. replace (length ex_c) with 200%nat by (vm_compute; reflexivity).
  apply flat_map_same. intros v. apply flat_map_same. intros u. destruct (Nat.eqb (nth v ex_lv 0%nat) (nth u ex_lv 0%nat)); [|reflexivity]. cbn [ex_draws d_pair].
  destruct (Nat.eqb (nth v ex_c 0%nat) (nth u ex_c 0%nat)), (ex_linked v u); cbn [orb]; destruct (Rlt_dec _ _); try lra; reflexivity.
Qed.

Definition ex_G : graph := graph_of_edges false ex_edges.
Definition ex_gi : graph := graph_of_edges true (next_copies 100 2).
Lemma ex_1 : existsb (fun e => Nat.eqb (fst e) 199) (edges ex_G) = true. Proof. vm_compute. reflexivity. Qed.
Lemma ex_2 : forallb (fun t => existsb (fun e => Nat.eqb (nth (fst e) ex_lv 0%nat) t) (edges ex_G)) (seq 0 2) = true. Proof. vm_compute. reflexivity. Qed.
Lemma ex_3 : Nat.eqb (length ex_c) (vcount ex_G) = true. Proof. vm_compute. reflexivity. Qed.
Lemma ex_4 : forallb (fun l => Nat.ltb l 2) ex_c = true. Proof. vm_compute. reflexivity. Qed.
Lemma ex_5 : forallb (fun t => Nat.eqb (2 * nodes_in ex_lv t) (vcount ex_G)) (seq 0 2) = true. Proof. vm_compute. reflexivity. Qed.
Lemma ex_6 : forallb (fun t => forallb (fun r => Z.eqb (4 * Z.of_nat (ends_in_layer ex_G ex_lv ex_c t r)) (2 * Z.of_nat (length (edges ex_G)))) (seq 0 2)) (seq 0 2) = true. Proof. vm_compute. reflexivity. Qed.
Lemma ex_7 : Nat.eqb (vcount ex_G) (2 * 50 * 2) = true. Proof. vm_compute. reflexivity. Qed.
Lemma ex_8 : Z.eqb (Z.of_nat (edges_inside ex_G ex_c)) 4900 = true. Proof. vm_compute. reflexivity. Qed.
Lemma ex_9 : Z.eqb (Z.of_nat (length (edges ex_G))) 5000 = true. Proof. vm_compute. reflexivity. Qed.
Lemma ex_10 : Z.eqb (Z.of_nat (kept ex_gi ex_c)) 80 = true. Proof. vm_compute. reflexivity. Qed.

Opaque ex_edges ex_c ex_lv ex_first ex_G ex_gi.

Lemma ex_drawn : drawn_as_expected "temporal" (3 / 5) 1 (1 / 50) 100 2 2 50 ex_G ex_gi ex_lv ex_c.
Proof.
  pose proof ex_1 as H1. pose proof ex_2 as H2. pose proof ex_3 as H3. pose proof ex_4 as H4. pose proof ex_5 as H5. pose proof ex_6 as H6. pose proof ex_7 as H7. pose proof ex_8 as H8. pose proof ex_9 as H9. pose proof ex_10 as H10.
  generalize dependent ex_G. generalize dependent ex_gi. generalize dependent ex_lv. generalize dependent ex_c. intros c H4 lv gi H10 G H1 H2 H3 H5 H6 H7 H8 H9.
  apply Nat.eqb_eq in H3. apply Nat.eqb_eq in H7. apply Z.eqb_eq in H8. apply Z.eqb_eq in H9. apply Z.eqb_eq in H10.
  rewrite forallb_forall in H2, H4, H5, H6. split; [|split; [|split; [|split]]].
  - apply existsb_exists in H1. destruct H1 as (e & I & E). apply Nat.eqb_eq in E. exists e. split; [exact I|left; exact E].
  - intros t Ht. specialize (H2 t ltac:(apply in_seq; lia)). apply existsb_exists in H2. destruct H2 as ([u v] & I & E). apply Nat.eqb_eq in E. exists u, v. split; [exact I|exact E].
  - split; [exact H3|]. split; [intros l Hl; apply Nat.ltb_lt; auto|]. split.
    + intros t Ht. apply Nat.eqb_eq. apply H5, in_seq. lia.
    + intros t r Ht Hr. specialize (H6 t ltac:(apply in_seq; lia)). rewrite forallb_forall in H6. specialize (H6 r ltac:(apply in_seq; lia)). apply Z.eqb_eq in H6. change (2 * 2)%nat with 4%nat. lia.
  - split; [exact H7|]. rewrite !(INR_IZR_INZ (edges_inside G c)), (INR_IZR_INZ (length (edges G))), H8, H9, !(INR_IZR_INZ 50). change (Z.of_nat 50) with 50%Z. cbn [INR]. split; lra.
  - unfold kept_as_expected. destruct (string_dec "temporal" "multiplex"); [discriminate|]. rewrite (INR_IZR_INZ (kept gi c)), H10, (INR_IZR_INZ 100). change (Z.of_nat 100) with 100%Z. cbn [INR]. lra.
Qed.

Lemma ex_length : length ex_first = 100%nat.
Proof. vm_compute. reflexivity. Qed.

Example C116_temporal_passes_example : forall env opt_temporal opt_multilevel parts, (forall g, ee_contains env g = false) ->
  finds opt_temporal ex_lv 2 ex_c [] -> finds opt_multilevel ex_lv 2 ex_c [] ->
  assert_temporal_SBM_correct_convergence env opt_temporal opt_multilevel parts ex_draws ex_first (3 / 5) 2 1 (1 / 50) = Ok tt.
Proof.
  intros env o1 o2 parts He F1 F2. pose proof ex_generated as Eg. change (graph_of_edges false ex_edges) with ex_G in Eg. change (graph_of_edges true (next_copies 100 2)) with ex_gi in Eg.
  pose proof ex_drawn as D. rewrite <- ex_length in D at 1.
  assert (M : moderate (3 / 5) 1 (1 / 50) 2 2 50) by (unfold moderate; cbn [INR]; repeat split; try lia; try lra).
  assert (N : num_communities ex_first = Ok 2%nat) by (vm_compute; reflexivity).
  assert (C : counts_edges (ee_contains env ex_G) ex_G) by (intros C; rewrite He in C; discriminate).
  exact (@C116_temporal_passes env o1 o2 parts ex_draws (3 / 5) 1 (1 / 50) ex_first 2%nat 2%nat 50%nat ex_G ex_gi ex_lv ex_c [] [] N Eg C M D F1 F2).
Qed.

(** The same layers as a multiplex network (T = 2, where the expected persistence is linear and one secant step finds the root). *)
Definition ex_mi : graph := graph_of_edges true (all_copies 100 2).
Lemma ex_11 : Z.eqb (Z.of_nat (kept ex_mi ex_c)) 160 = true. Proof. vm_compute. reflexivity. Qed.
Opaque ex_mi.

Lemma secant_finds_root env : (forall f x0, ee_fsolve env f x0 = - f 0 / (f 1 - f 0)) -> finds_root env 2 2.
Proof.
  intros H x Hx y. assert (E : forall z, multiplex_persistence 2 2 z = z / 2 + 1 / 2).
  { intros z. unfold multiplex_persistence. cbn [Nat.sub]. unfold sum_to. cbn [seq map fold_right pow INR]. field. }
  cbn [INR] in Hx. assert (Ey : y = 2 * x - 1) by (unfold y; rewrite H, !E; field; lra). rewrite E, Ey. split; lra.
Qed.

Example C116_multiplex_passes_example : forall env opt parts, (forall g, ee_contains env g = false) -> (forall f x0, ee_fsolve env f x0 = - f 0 / (f 1 - f 0)) ->
  finds opt ex_lv 2 ex_c [] -> assert_multiplex_SBM_correct_convergence env opt parts ex_draws ex_first (3 / 5) 2 1 (1 / 50) = Ok tt.
Proof.
  intros env opt parts He Hs F. pose proof ex_generated as Eg. change (graph_of_edges false ex_edges) with ex_G in Eg. generalize dependent (graph_of_edges true (next_copies 100 2)). intros gi Eg. unfold generate_temporal_SBM in Eg.
  assert (Em : generate_multiplex_SBM ex_draws (3 / 5) 1 (1 / 50) ex_first 2 = Ok (ex_G, ex_mi, ex_lv)).
  { unfold generate_multiplex_SBM. destruct (generate_multilayer_intralayer_SBM ex_draws (3 / 5) 1 (1 / 50) ex_first 2) as [[g l]|]; [|discriminate]. cbn [bind] in *. rewrite ex_length.
    assert (E1 : g = ex_G) by exact (f_equal (fun r => match r with Ok (x, _, _) => x | _ => g end) Eg). assert (E2 : l = ex_lv) by exact (f_equal (fun r => match r with Ok (_, _, x) => x | _ => l end) Eg).
    rewrite E1, E2. reflexivity. }
  destruct ex_drawn as (D1 & D2 & D3 & D4 & _).
  assert (D : drawn_as_expected "multiplex" (3 / 5) 1 (1 / 50) (length ex_first) 2 2 50 ex_G ex_mi ex_lv ex_c).
  { rewrite ex_length. split; [exact D1|]. split; [exact D2|]. split; [exact D3|]. split; [exact D4|]. pose proof ex_11 as H. apply Z.eqb_eq in H.
    unfold kept_as_expected. destruct (string_dec "multiplex" "multiplex"); [|congruence]. rewrite (INR_IZR_INZ (kept ex_mi ex_c)), H, (INR_IZR_INZ 100). change (Z.of_nat 100) with 100%Z.
    unfold multiplex_persistence. cbn [Nat.sub]. unfold sum_to. cbn [seq map fold_right pow INR]. lra. }
  assert (M : moderate (3 / 5) 1 (1 / 50) 2 2 50) by (unfold moderate; cbn [INR]; repeat split; try lia; try lra).
  assert (N : num_communities ex_first = Ok 2%nat) by (vm_compute; reflexivity).
  assert (C : counts_edges (ee_contains env ex_G) ex_G) by (intros C; rewrite He in C; discriminate).
  exact (@C116_multiplex_passes env opt parts ex_draws (3 / 5) 1 (1 / 50) ex_first 2%nat 2%nat 50%nat ex_G ex_mi ex_lv ex_c [] N Em C M D (@secant_finds_root env Hs) F).
Qed.
