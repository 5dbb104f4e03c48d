(** A complete set of external routines: they answer on every input, and meet every contract. *)
From Verif Require Import PyBase PyGraph M_champ Spec Spec_graph Spec_champ Spec_lp Spec_tiling L_base L_lp L_facets.
From Coq Require Import Lia Permutation ClassicalEpsilon.
Set Implicit Arguments.
Open Scope R_scope.

(** An exact intersection routine, by choice. *)
Definition good_output (dim : nat) (hs : list halfspace) (out : list (option (list R) * list nat)) : Prop :=
  exact_intersection dim hs out /\ (forall i vs, map Some vs = listed out i -> irredundant vs) /\
  (forall i, listed out i <> [] -> (dim <= length (listed out i))%nat).
Definition exact_routine (dim : nat) (hs : list halfspace) (x : list R) : res (list (option (list R) * list nat)) :=
  match excluded_middle_informative (exists out, good_output dim hs out) with
  | left H => Ok (proj1_sig (constructive_indefinite_description _ H))
  | right _ => Raise ValueError
  end.
Lemma exact_routine_ok dim hs x out : exact_routine dim hs x = Ok out -> good_output dim hs out.
Proof.
  unfold exact_routine. destruct (excluded_middle_informative _) as [H|]; [|discriminate]. intros E. inversion E; subst.
  destruct (constructive_indefinite_description _ H) as (out & Ho). auto.
Qed.

(** The complete world: one core, the first rows as sample, the Fourier-Motzkin solver. *)
Definition world (dim fuel : nat) : champ_env := mkEnv 1 [0%nat] (fun _ _ s => seq 0 s) solver fuel (exact_routine dim).

Lemma pow2_ge n : (n <= 2 ^ n)%nat.
Proof. pose proof (Nat.pow_gt_lin_r 2 n). lia. Qed.
Lemma world_ok dim n : (dim = 2 \/ dim = 3)%nat ->
  let env := world dim (S n) in
  env_cpus env = 1%nat /\ env_order env = [0%nat] /\ working_solver env n /\ lp_answers_all_variables (env_lp env) /\
  exact_hsi dim (env_hsi env) /\ irredundant_hsi dim (env_hsi env) /\ full_facets_hsi dim (env_hsi env) /\ hsi_answers dim env.
Proof.
  intros Hd env. split; auto. split; auto. split; [|split; [exact solver_answers|split; [|split; [|split]]]].
  - split; [exact solver_solves|]. split; [exact sampler_fair|]. exists n. split; [pose proof (pow2_ge n); lia|]. unfold env. cbn. lia.
  - intros hs pt out _ _ _ H. apply (@exact_routine_ok dim hs pt out) in H as (H & _). exact H.
  - intros hs pt out _ _ _ H. apply (@exact_routine_ok dim hs pt out) in H as (_ & H & _). auto.
  - intros hs pt out Hb Lp Hp H. apply (@exact_routine_ok dim hs pt out) in H as (_ & _ & H). auto.
  - intros hs x Hb Lx Hx. unfold env; cbn [env_hsi world]. unfold exact_routine. destruct (excluded_middle_informative _) as [H|N]; [eauto|].
    exfalso. apply N. apply (exact_intersection_full Hd Hb Lx Hx).
Qed.
