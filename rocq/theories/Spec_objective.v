(** What optimising a list of weighted leidenalg partition objects means. *)
From Coq Require Import List Reals.
From Verif Require Import PyGraph M_leiden Spec_leiden.
Import ListNotations.
Open Scope R_scope.

(** Quality of one partition object for the label vector [c]; [ks] lists the communities, each once. *)
Definition quality (vp : vpart) (c ks : list nat) : R :=
  let E := combine (edges (vp_graph vp)) (match weights (vp_graph vp) with Some ws => ws | None => [] end) in
  match vp_type vp with
  | RBConfiguration => rb_quality (directed (vp_graph vp)) E c (vp_gamma vp) ks
  | CPM => cpm_quality (directed (vp_graph vp)) E c (vcount (vp_graph vp)) (vp_gamma vp) ks
  end.


(** leidenalg optimises the weighted sum of the qualities. *)
Definition objective_value (objs : list (vpart * R)) (c ks : list nat) : R :=
  fold_right Rplus 0 (map (fun ow => snd ow * quality (fst ow) c ks) objs).
