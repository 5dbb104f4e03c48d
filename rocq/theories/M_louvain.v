(** Model of utilities/louvain_utilities.py. *)
From Coq Require Import Ascii.
From Flocq Require Import Core.Raux.
From Verif Require Export M_leiden M_progress.
Open Scope R_scope.

(** ** Attribute shim *)

(** ASCII strings as lists of characters. *)
Definition text : Type := list ascii.
Fixpoint is_prefix (p s : text) : bool :=
  match p, s with
  | [], _ => true
  | a :: p', b :: s' => Ascii.eqb a b && is_prefix p' s'
  | _ :: _, [] => false
  end.
(** [p in s] *)
Fixpoint is_infix (p s : text) : bool :=
  is_prefix p s || match s with [] => false | _ :: s' => is_infix p s' end.
(** [s.replace(old, new)] for a non-empty [old]: scan from the left; [skip] counts the characters of a match still to be
    dropped. *)
Fixpoint replace_from (skip : nat) (old new s : text) : text :=
  match s with
  | [] => []
  | c :: s' => match skip with
               | S k => replace_from k old new s'
               | O => if is_prefix old s then new ++ replace_from (length old - 1) old new s'
                      else c :: replace_from 0 old new s'
               end
  end.
Definition str_replace (old new s : text) : text := replace_from 0 old new s.

Definition louvain : text := ["l"; "o"; "u"; "v"; "a"; "i"; "n"]%char.
Definition leiden : text := ["l"; "e"; "i"; "d"; "e"; "n"]%char.

Definition text_eqb : text -> text -> bool := list_eqb Ascii.eqb.

(** [getattr(module, name)] of a module without __getattr__. *)
Definition module_getattr {V} (ns : list (text * V)) (name : text) : res V :=
  match dict_get text_eqb ns name with Ok v => Ok v | Raise _ => Raise AttributeError end.

(** utilities/louvain_utilities.py:30-36 __getattr__ ([None] is Python's None, returned when the [if] falls through). *)
Definition louvain_getattr {V} (leiden_ns : list (text * V)) (name : text) : res (option V) :=
  if is_infix louvain name then let! v := module_getattr leiden_ns (str_replace louvain leiden name) in Ok (Some v)
  else Ok None.
(** Attribute access on the module: its own names first. *)
Definition louvain_attribute {V} (own leiden_ns : list (text * V)) (name : text) : res (option V) :=
  match dict_get text_eqb own name with Ok v => Ok (Some v) | Raise _ => louvain_getattr leiden_ns name end.

(** ** Legacy multilayer runs *)

(** The installed louvain package: not importable, without the layered partition class, or with it. *)
Inductive louvain_package : Type := Missing | Plain | WithLayers.

(** utilities/louvain_utilities.py:39-54 check_multilayer_louvain_capabilities.  Without the package the name is not bound
    (module __getattr__ is not used for global names), and only AttributeError is caught. *)
Definition check_multilayer_louvain_capabilities (pkg : louvain_package) (fatal : bool) : res bool :=
  match pkg with
  | Missing => Raise NameError
  | Plain => if fatal then Raise AttributeError else Ok false
  | WithLayers => Ok true
  end.

(** The environment: package, ['weight' in G.es], and the optimiser's answer on run [k] for (intralayer graph, layer
    vector, gamma) and (interlayer graph, CPM resolution) with layer weights. *)
Record louvain_env : Type := mkLouvain {
  lo_package : louvain_package;
  lo_contains : graph -> bool;
  lo_multiplex : nat -> (graph * list nat * R) * R -> (graph * R) * R -> res (list nat)
}.
Definition leiden_of (env : louvain_env) : leiden_env :=
  mkLeiden (lo_contains env) (fun _ _ => Raise Stuck) (fun _ _ => Raise Stuck).

(** utilities/louvain_utilities.py:57-98 multilayer_louvain (return_partition=False) on two different graph objects: the
    graphs after the call and the outcome. *)
Definition multilayer_louvain (env : louvain_env) (k : nat) (g ge : graph) (lv : list nat) (gamma omega : R)
  : (graph * graph) * res (list nat) :=
  match check_multilayer_louvain_capabilities (lo_package env) true with
  | Raise e => ((g, ge), Raise e)
  | Ok _ =>
    match default_weights (leiden_of env) g with
    | Raise e => ((g, ge), Raise e)
    | Ok g' =>
      match default_weights (leiden_of env) ge with
      | Raise e => ((g', ge), Raise e)
      | Ok ge' => ((g', ge'), lo_multiplex env k ((g', lv, gamma), 1) ((ge', 0), omega))
      end
    end
  end.

(** utilities/louvain_utilities.py:123-125 repeated_louvain_from_gammas_omegas. *)
Fixpoint louvain_serial_loop (env : louvain_env) (k : nat) (g ge : graph) (lv : list nat) (points : list (R * R))
  (acc : list (list nat)) : (graph * graph) * res (list (list nat)) :=
  match points with
  | [] => ((g, ge), Ok acc)
  | (gamma, omega) :: rest =>
    let '((g', ge'), out) := multilayer_louvain env k g ge lv gamma omega in
    match (let! m := out in sorted_tuple (map Z.of_nat m)) with
    | Raise e => ((g', ge'), Raise e)
    | Ok t => louvain_serial_loop env (S k) g' ge' lv rest (set_add t acc)
    end
  end.
Definition repeated_louvain_from_gammas_omegas (env : louvain_env) (g ge : graph) (lv : list nat) (gammas omegas : list R)
  : (graph * graph) * res (list (list nat)) := louvain_serial_loop env 0 g ge lv (grid gammas omegas) [].

(** [math.ceil(a / b)] on non-negative ints, with the correctly rounded binary64 quotient. *)
Definition ceil_quotient (a b : nat) : nat := Z.to_nat (Zceil (binary64 (INR a / INR b))).

(** utilities/louvain_utilities.py:151-164: the chunks (as (task number, point) pairs) and the final [chunk_size]. *)
Definition louvain_chunks (gammas omegas : list R) (chunk_dispatch : bool) : list (list (nat * (R * R))) * nat :=
  let points := grid gammas omegas in
  let chunk_size := (length points / 99)%nat in
  if Nat.ltb 0 chunk_size && chunk_dispatch then (chunked chunk_size (enumerate points), chunk_size)
  else ([enumerate points], length gammas).

(** The state of the loop: runs so far, result set, progress bar, number of pools created. *)
Record louvain_state : Type := mkLS { ls_log : list (nat * (R * R)); ls_total : list (list nat); ls_bar : option progress;
  ls_pools : nat }.

(** utilities/louvain_utilities.py:169-179: one iteration.  [order] is the completion order of this chunk's tasks,
    [low_memory] the answer of the memory check.  The log records the tasks submitted. *)
Definition louvain_iteration (env : louvain_env) (g ge : graph) (lv : list nat) (order : list nat) (low_memory : bool)
  (s : louvain_state) (ch : list (nat * (R * R))) : list (nat * (R * R)) * res louvain_state :=
  let log := ls_log s ++ ch in
  (log,
   let! parts := starmap order (fun it => snd (multilayer_louvain env (fst it) g ge lv (fst (snd it)) (snd (snd it)))) ch in
   let! total := foldM (fun total m => let! t := sorted_tuple (map Z.of_nat m) in Ok (set_add t total)) parts (ls_total s) in
   let! bar := match ls_bar s with
               | None => Ok None
               | Some p => let! (_, p') := progress_increment p in Ok (Some p')
               end in
   Ok (mkLS log total bar (if low_memory then S (ls_pools s) else ls_pools s))).

Fixpoint louvain_loop (env : louvain_env) (g ge : graph) (lv : list nat) (orders : nat -> nat -> list nat) (low_memory : nat -> bool)
  (j : nat) (chunks : list (list (nat * (R * R)))) (s : louvain_state) : list (nat * (R * R)) * res louvain_state :=
  match chunks with
  | [] => (ls_log s, Ok s)
  | ch :: rest =>
    match louvain_iteration env g ge lv (orders j (length ch)) (low_memory j) s ch with
    | (log, Raise e) => (log, Raise e)
    | (_, Ok s') => louvain_loop env g ge lv orders low_memory (S j) rest s'
    end
  end.

(** utilities/louvain_utilities.py:128-185 repeated_parallel_louvain_from_gammas_omegas: the tasks submitted and the
    result.  [orders j n] is the completion order of the [n] tasks of chunk [j].  Workers get pickled copies, so the caller's graphs are unchanged. *)
Definition repeated_parallel_louvain_from_gammas_omegas (env : louvain_env) (orders : nat -> nat -> list nat) (low_memory : nat -> bool)
  (g ge : graph) (lv : list nat) (gammas omegas : list R) (show_progress chunk_dispatch : bool)
  : list (nat * (R * R)) * res (list (list nat)) :=
  let (chunks, chunk_size) := louvain_chunks gammas omegas chunk_dispatch in
  match (if show_progress then
           if Nat.eqb chunk_size 0 then Raise ZeroDivisionError
           else let! p := progress_new (ceil_quotient (length (grid gammas omegas)) chunk_size) 80 in Ok (Some p)
         else Ok None) with
  | Raise e => ([], Raise e)
  | Ok bar =>
    let (log, r) := louvain_loop env g ge lv orders low_memory 0 chunks (mkLS [] [] bar 1) in
    (log, let! s := r in
          let! _ := match ls_bar s with None => Ok tt | Some p => let! _ := progress_done p in Ok tt end in
          Ok (ls_total s))
  end.

(** utilities/louvain_utilities.py:101-111 multilayer_louvain_part: graphs after the call, and the two partition objects
    (the layered one at louvain's default resolution 1).  The class lookup raises when it is not there. *)
Definition multilayer_louvain_part (env : louvain_env) (g ge : graph) (lv : list nat)
  : (graph * graph) * res ((graph * list nat * R) * (graph * R)) :=
  match default_weights (leiden_of env) g with
  | Raise e => ((g, ge), Raise e)
  | Ok g' =>
    match default_weights (leiden_of env) ge with
    | Raise e => ((g', ge), Raise e)
    | Ok ge' => ((g', ge'), match lo_package env with
                            | Missing => Raise NameError
                            | Plain => Raise AttributeError
                            | WithLayers => Ok ((g', lv, 1), (ge', 0))
                            end)
    end
  end.
