(** Specification vocabulary for the Leiden drivers: what a set of results is, what splitting a graph by layer means, and
    the quality functions documented by leidenalg. *)
From Coq Require Import List Arith Reals Permutation.
From Verif Require Import PyGraph Spec.
Import ListNotations.
Open Scope R_scope.

(** [t] is the canonical form of the label vector [m]. *)
Definition canonical_form_of (m t : list nat) : Prop := same_partition m t /\ canonical t.

(** [gs] is the list of layer graphs of [g] (which has weights [ws]) for the layer vector [lv]: as many as the largest
    layer index plus one; each has all vertices and the directedness of [g]; layer [t] holds exactly the edges whose
    source is in layer [t], in the order of [g], each with its own weight. *)
Definition layer_graphs (g : graph) (ws : list R) (lv : list nat) (gs : list graph) : Prop :=
  (forall l, In l lv -> (l < length gs)%nat) /\ (exists l, In l lv /\ length gs = S l) /\
  forall t gt, nth_error gs t = Some gt ->
    vcount gt = vcount g /\ directed gt = directed g /\
    let mine := filter (fun ew => Nat.eqb (nth (fst (fst ew)) lv 0%nat) t) (combine (edges g) ws) in
    edges gt = map fst mine /\ weights gt = Some (map snd mine).

(** ** leidenalg's quality functions (leidenalg documentation; weights are the 'weight' attribute). *)
Definition sum_weights (E : list ((nat * nat) * R)) (p : nat * nat -> bool) : R :=
  fold_right Rplus 0 (map (fun ew => if p (fst ew) then snd ew else 0) E).

Section Quality.
Variables (dir : bool) (E : list ((nat * nat) * R)) (c : list nat).
Let lab v := nth v c 0%nat.
Definition inside (k : nat) : R := sum_weights E (fun e => Nat.eqb (lab (fst e)) k && Nat.eqb (lab (snd e)) k).
Definition leaving (k : nat) : R := sum_weights E (fun e => Nat.eqb (lab (fst e)) k).
Definition entering (k : nat) : R := sum_weights E (fun e => Nat.eqb (lab (snd e)) k).
Definition total_weight : R := sum_weights E (fun _ => true).

(** Reichardt-Bornholdt with configuration null model:
    directed sum_k (w_k - gamma * K_out * K_in / m), undirected sum_k (2 w_k - gamma K_k^2 / (2 m)); 0 without edges. *)
Definition rb_quality (gamma : R) (communities : list nat) : R :=
  if Req_EM_T total_weight 0 then 0 else
  fold_right Rplus 0 (map (fun k =>
    if dir then inside k - gamma * (leaving k * entering k / total_weight)
    else 2 * inside k - gamma * ((leaving k + entering k) * (leaving k + entering k) / (2 * total_weight))) communities).

(** Constant Potts model on [n] vertices: directed sum_k (w_k - gamma n_k (n_k - 1)), undirected twice
    sum_k (w_k - gamma n_k (n_k - 1) / 2). *)
Definition cpm_quality (n : nat) (gamma : R) (communities : list nat) : R :=
  fold_right Rplus 0 (map (fun k =>
    let n_k := INR (count_occ Nat.eq_dec (map lab (seq 0 n)) k) in
    if dir then inside k - gamma * (n_k * (n_k - 1)) else 2 * (inside k - gamma * (n_k * (n_k - 1) / 2))) communities).
End Quality.

(** [g'] is [g] after weight defaulting: untouched when the membership test says it has weights, otherwise every edge
    has weight 1 and nothing else differs. *)
Definition weights_defaulted (has_weights : bool) (g g' : graph) : Prop :=
  if has_weights then g' = g
  else vcount g' = vcount g /\ directed g' = directed g /\ edges g' = edges g /\
       exists ws, weights g' = Some ws /\ length ws = length (edges g) /\ forall w, In w ws -> w = 1.

(** The weights that count are all 1: the test for a 'weight' attribute fails (they are overwritten), or they are there and
    equal to 1. *)
Definition counts_edges (has_weights : bool) (g : graph) : Prop :=
  has_weights = true -> weights g = Some (repeat 1 (length (edges g))).

(** [r] is the outcome of collecting the runs [out i x] of all tasks [x] = tasks[i] into a set of canonical forms:
    the set of all of them if every run succeeds, and the exception of some failed run otherwise. *)
Definition collects {A} (out : nat -> A -> res (list nat)) (tasks : list A) (r : res (list (list nat))) : Prop :=
  ((forall i x, nth_error tasks i = Some x -> exists m, out i x = Ok m) ->
   exists S, r = Ok S /\ NoDup S /\
     forall t, In t S <-> exists i x m, nth_error tasks i = Some x /\ out i x = Ok m /\ canonical_form_of m t) /\
  ((exists i x e, nth_error tasks i = Some x /\ out i x = Raise e) ->
   exists i x e, nth_error tasks i = Some x /\ out i x = Raise e /\ r = Raise e).
