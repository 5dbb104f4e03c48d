(** The documented structural rules of a multilayer network, as propositions with their messages. *)
From Coq Require Import List Arith Reals String ZArith.
From Verif Require Import PyGraph Spec_graph.
Import ListNotations.
Open Scope R_scope.

(** Number of edges arriving at [v] (of an undirected graph: number of edge ends at [v]). *)
Definition arriving (g : graph) (v : nat) : nat :=
  (count_occ Nat.eq_dec (map snd (edges g)) v + (if directed g then 0 else count_occ Nat.eq_dec (map fst (edges g)) v))%nat.

Section Rules.
Variables (g gi : graph) (lv : list nat) (model : string) (m_t : list R) (T N : nat) (Nt : list nat).
Let on (name : string) (P : Prop) : Prop := model = name -> P.
Definition structural_rules : list (Prop * string) :=
  [ ((1 < T)%nat, "Graph must have multiple layers");
    (directed gi = true, "Interlayer graph should be directed");
    (vcount gi = vcount g, "Inter-layer and Intra-layer graphs must be of the same size");
    (length lv = vcount g, "Layer membership vector must have length matching graph size");
    ((forall m, In m m_t -> 0 < m), "All layers of graph must contain edges");
    (edges_within_layers g lv, "Intralayer graph should not contain edges across layers");
    (on "temporal" (Z.of_nat (length (edges gi)) = Z.of_nat N * (Z.of_nat T - 1))%Z,
      "Interlayer temporal graph must contain (nodes per layer) * (number of layers - 1) edges");
    (on "temporal" (Nat.divide T (vcount gi) /\ Nat.divide T (vcount g)),
      "Vertex count of a temporal graph should be a multiple of the number of layers");
    (on "temporal" (forall nt, In nt Nt -> nt = N), "Temporal networks must have the same number of nodes in every layer");
    (on "multilevel" (forall nt, In nt Nt -> 0 < nt)%nat, "All layers of a multilevel graph must be consecutive and nonempty");
    (on "multilevel" (forall v, v < vcount gi -> arriving gi v <= 1)%nat,
      "Multilevel networks should have at most one interlayer in-edge per node");
    (on "multiplex" (forall nt, In nt Nt -> nt = N), "Multiplex networks must have the same number of nodes in every layer");
    (on "multiplex" (Z.of_nat (length (edges gi)) = Z.of_nat N * Z.of_nat T * (Z.of_nat T - 1))%Z,
      "Multiplex interlayer networks must contain edges between all pairs of layers") ]%string.
End Rules.

(** [lines] are the messages of the violated rules, in order. *)
Inductive violated_lines : list (Prop * string) -> list string -> Prop :=
| no_rules : violated_lines [] []
| rule_holds (P : Prop) s rs lines : P -> violated_lines rs lines -> violated_lines ((P, s) :: rs) lines
| rule_violated (P : Prop) s rs lines : ~ P -> violated_lines rs lines -> violated_lines ((P, s) :: rs) (s :: lines).
