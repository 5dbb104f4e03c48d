(** Vocabulary for running CHAMP in several steps: results that a run may return, and inputs split into batches. *)
From Coq Require Import List Arith Reals ZArith.
From Verif Require Import PyBase PyGraph M_champ Spec Spec_graph Spec_champ Spec_prune Spec_tiling.
Import ListNotations.
Open Scope R_scope.

(** [ranges] is what some run of CHAMP_2D returns for these partitions and this interval, with external routines (process pool,
    solver, sampler, intersection routine) that work as documented and report each corner once. *)
Definition champ_result_2D (g : graph) (parts : list (list nat)) (gamma_0 gamma_f : R) (ranges : list (R * R * list nat)) : Prop :=
  exists env single_threaded, champ_ok_2D env g parts /\ irredundant_hsi 2 (env_hsi env) /\
    CHAMP_2D env g parts gamma_0 gamma_f single_threaded = Ok ranges.

(** The same for CHAMP_3D; the intersection routine reports faces only. *)
Definition champ_result_3D (g_intra g_inter : graph) (layers : list nat) (parts : list (list nat)) (gamma_0 gamma_f omega_0 omega_f : R)
  (domains : list (list (R * R) * list nat)) : Prop :=
  exists env, champ_ok_3D env g_intra g_inter layers parts /\ irredundant_hsi 3 (env_hsi env) /\ full_facets_hsi 3 (env_hsi env) /\
    CHAMP_3D env g_intra g_inter layers parts gamma_0 gamma_f omega_0 omega_f = Ok domains.

(** [parts] holds exactly the partitions of the batches, [kept] exactly those returned for some batch, each once. *)
Definition split_into_batches {T} (batches : list (list (list nat) * list (T * list nat))) (parts kept : list (list nat)) : Prop :=
  (forall c, In c parts <-> exists batch, In batch batches /\ In c (fst batch)) /\
  NoDup kept /\ (forall c, In c kept <-> exists batch x, In batch batches /\ In (x, c) (snd batch)).
