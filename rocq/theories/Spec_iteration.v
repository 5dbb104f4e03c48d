(** Iterations that alternate an optimiser and a parameter estimate: histories and outcomes. *)
From Coq Require Import List Arith Reals ZArith String.
From Verif Require Import PyBase PyGraph M_estimation_utils M_estimation.
Import ListNotations.
Open Scope R_scope.

Section Iteration.
(** Parameters and optimiser answers; [answer k x] is what the optimiser does in call number [k] (from 0) at parameters [x],
    [update p r] says that [r] is what estimating parameters from an answer [p] gives, [converged x y] says that a move from [x] to [y] is small. *)
Variables (X P : Type) (answer : nat -> X -> res P) (update : P -> res X -> Prop) (converged : X -> X -> Prop).

(** One iteration: the parameters the optimiser was called with, its answer, and the parameters estimated from it. *)
Record step : Type := mkStep { called : X; found : P; estimated : X }.

(** Every iteration starts where the one before ended: from [x] to [y]. *)
Inductive linked : X -> list step -> X -> Prop :=
| linked_nil x : linked x [] x
| linked_cons s steps y : linked (estimated s) steps y -> linked (called s) (s :: steps) y.

(** Iteration number [i] is one that really took place. *)
Definition genuine (steps : list step) : Prop :=
  forall i s, nth_error steps i = Some s -> answer i (called s) = Ok (found s) /\ update (found s) (Ok (estimated s)).

Definition small (s : step) : Prop := converged (called s) (estimated s).

(** The outcome of at most [max_iter] iterations from [start]: the parameters the optimiser was called with, its answers, and
    the final parameters or an exception. *)
Inductive outcome (max_iter : Z) (start : X) : list X -> list P -> res X -> Prop :=
| finished steps y :
    linked start steps y -> genuine steps -> (Z.of_nat (length steps) <= Z.max 0 max_iter)%Z ->
    (forall i s, nth_error steps i = Some s -> (S i < length steps)%nat -> ~ small s) ->
    (Z.of_nat (length steps) = Z.max 0 max_iter \/ exists before s, steps = before ++ [s] /\ small s) ->
    outcome max_iter start (map called steps) (map found steps) (Ok y)
| optimiser_failed steps x e :
    linked start steps x -> genuine steps -> (Z.of_nat (length steps) < max_iter)%Z -> (forall s, In s steps -> ~ small s) ->
    answer (length steps) x = Raise e ->
    outcome max_iter start (map called steps ++ [x]) (map found steps) (Raise e)
| estimate_failed steps x p e :
    linked start steps x -> genuine steps -> (Z.of_nat (length steps) < max_iter)%Z -> (forall s, In s steps -> ~ small s) ->
    answer (length steps) x = Ok p -> update p (Raise e) ->
    outcome max_iter start (map called steps ++ [x]) (map found steps ++ [p]) (Raise e).
End Iteration.
Arguments mkStep {X P}.
Arguments called {X P}.
Arguments found {X P}.
Arguments estimated {X P}.

(** The last element. *)
Definition last_of {A} (l : list A) : option A := last (map Some l) None.

(** Two gammas differ by less than [tol] (never if one is nan). *)
Definition gamma_close (tol : R) (a b : npf) : Prop := exists x y, a = Fin x /\ b = Fin y /\ Rabs (x - y) < tol.

(** ** Single layer *)

(** What the optimiser of the given name answers on [g]. *)
Definition answer_mono (opt : opt_env) (method : string) (g : graph) (k : nat) (gamma : npf) : res lpart :=
  if string_dec method "2-spinglass"
  then match oe_spinglass opt k g gamma with
       | Ok membership => leiden_part_with_membership g membership
       | Raise e => Raise e
       end
  else oe_find opt k g gamma.

(** What gamma_estimate says about the partition object; a missing estimate counts as a ValueError. *)
Definition updates_mono (env : est_env) (g : graph) (p : lpart) (r : res npf) : Prop :=
  match snd (gamma_estimate env g (Partition p)) with
  | Ok (Some gamma) => r = Ok gamma
  | Ok None => r = Raise ValueError
  | Raise e => r = Raise e
  end.

Definition known_method (method : string) : Prop := (method = "louvain" \/ method = "leiden" \/ method = "2-spinglass")%string.

(** ** Multilayer *)

Definition answer_multi (opt : opt_env) (g gi : graph) (layer_vec : list nat) (k : nat) (x : npf * R) : res (list lpart) :=
  oe_multi opt k g gi layer_vec (fst x) (snd x).

(** The estimates from the first of the answered partitions: [estimate_multilayer_SBM_parameters] with its documented defaults,
    rejected unless 0 <= p <= 1; then the gamma estimate, rejected if missing; then the omega estimate. *)
Inductive updates_multi (env : est_env) (g gi : graph) (layer_vec : list nat) (model : string) (omega_max : R)
  : list lpart -> res (npf * R) -> Prop :=
| no_partition : updates_multi env g gi layer_vec model omega_max [] (Raise IndexError)
| sbm_fails part parts e :
    snd (estimate_multilayer_SBM_parameters env g gi layer_vec part model None None None None) = Raise e ->
    updates_multi env g gi layer_vec model omega_max (part :: parts) (Raise e)
| impossible_p part parts theta_in theta_out p K :
    snd (estimate_multilayer_SBM_parameters env g gi layer_vec part model None None None None) = Ok (theta_in, theta_out, p, K) ->
    ~ (0 <= p <= 1) -> updates_multi env g gi layer_vec model omega_max (part :: parts) (Raise ValueError)
| degenerate part parts theta_in theta_out p K :
    snd (estimate_multilayer_SBM_parameters env g gi layer_vec part model None None None None) = Ok (theta_in, theta_out, p, K) ->
    0 <= p <= 1 -> gamma_estimate_from_parameters theta_in theta_out = None ->
    updates_multi env g gi layer_vec model omega_max (part :: parts) (Raise ValueError)
| both_estimates part parts theta_in theta_out p K gamma f omega :
    snd (estimate_multilayer_SBM_parameters env g gi layer_vec part model None None None None) = Ok (theta_in, theta_out, p, K) ->
    0 <= p <= 1 -> gamma_estimate_from_parameters theta_in theta_out = Some gamma ->
    omega_function_from_model model omega_max (S (list_max layer_vec)) = Ok f -> f theta_in theta_out p K = omega ->
    updates_multi env g gi layer_vec model omega_max (part :: parts)
                  (match omega with Ok o => Ok (gamma, o) | Raise e => Raise e end).

(** Both moves are small. *)
Definition both_close (gamma_tol omega_tol : R) (x y : npf * R) : Prop :=
  gamma_close gamma_tol (fst y) (fst x) /\ Rabs (snd y - snd x) < omega_tol.
