(** Model of experiments/example_figures/hierarchical_sbm_plot.py and example_sbm.py: the graphs they draw and the memberships that colour
    them (the layout and the rendering are igraph's). *)
From Coq Require Import String.
From Verif Require Import PyBase PyGraph M_partition M_champ M_leiden M_estimation_utils M_generators.
Open Scope list_scope.
Open Scope R_scope.

(** hierarchical_sbm_plot.py:17-24 pref_matrix. *)
Definition scales_matrix (p1 p2 p3 p4 : R) : list (list R) :=
  [[p1; p2; p3; p3; p4; p4; p4; p4];
   [p2; p1; p3; p3; p4; p4; p4; p4];
   [p3; p3; p1; p2; p4; p4; p4; p4];
   [p3; p3; p2; p1; p4; p4; p4; p4];
   [p4; p4; p4; p4; p1; p2; p3; p3];
   [p4; p4; p4; p4; p2; p1; p3; p3];
   [p4; p4; p4; p4; p3; p3; p1; p2];
   [p4; p4; p4; p4; p3; p3; p2; p1]].

(** hierarchical_sbm_plot.py:9-12. *)
Definition scales_densities : list (list R) := scales_matrix 1 (2 / 10) (5 / 100) (5 / 1000).

(** hierarchical_sbm_plot.py:32-35: the four memberships. *)
Definition scales_memberships (B : nat) : list (list nat) :=
  let N := (B * 8)%nat in
  [repeat 0%nat N;
   repeat 0%nat (4 * B) ++ repeat 1%nat (4 * B);
   repeat 0%nat (2 * B) ++ repeat 1%nat (2 * B) ++ repeat 2%nat (2 * B) ++ repeat 3%nat (2 * B);
   map (fun i => (i / B)%nat) (seq 0 N)].

(** hierarchical_sbm_plot.py:9-39 with blocks of [B] (7 in line 13): the content of community_scales_graph.p afterwards, and the pictures
    community_scales{i}.png: graph and membership.  [stored] is the graph in the file at the start; a partition object rejects a membership of
    another length (modelled as ValueError). *)
Definition community_scales (sample : nat -> graph) (B : nat) (stored : option graph) : option graph * res (list (graph * list nat)) :=
  let draw G := (Some G, mapM (fun m => if Nat.eqb (length m) (vcount G) then Ok (G, m) else Raise ValueError) (scales_memberships B)) in
  match stored with
  | Some G => draw G
  | None => match igraph_SBM sample 0 (B * 8) scales_densities (repeat B 8) with
            | Ok G => draw G
            | Raise e => (None, Raise e)
            end
  end.

(** example_sbm.py:18-20 pref_matrix. *)
Definition example_matrix (p1 p2 p3 p4 p5 : R) : list (list R) := [[p1; p4; p4]; [p4; p2; p5]; [p4; p5; p3]].
(** example_sbm.py:9-13. *)
Definition example_densities : list (list R) := example_matrix (4 / 10) (2 / 10) (3 / 10) (5 / 1000) (5 / 100).
(** example_sbm.py:15-33: the graph and the membership of example_SBM_layout.png; [N] is 120 in line 15. *)
Definition example_sbm (sample : nat -> graph) (N : nat) : res (graph * list nat) :=
  let B := (N / 3)%nat in
  let! G := igraph_SBM sample 0 N example_densities (repeat B 3) in
  Ok (G, map (fun i => (i / B)%nat) (seq 0 N)).
