(** multiprocessing.Pool as used by /repo (environment model).  [order] is the completion order chosen by the scheduler:
    a list of task (or chunk) indices.  Theorems quantify over every permutation. *)
From Verif Require Export PyBase.
Set Implicit Arguments.

(** Pool.starmap(f, xs): results come back in task order; when tasks fail, the exception of the failing task that
    completes first is raised. *)
Definition first_error {A B} (order : list nat) (f : A -> res B) (xs : list A) : option exn :=
  fold_left (fun err i => match err with
                          | Some e => Some e
                          | None => match nth_error xs i with
                                    | Some x => match f x with Raise e => Some e | Ok _ => None end
                                    | None => None
                                    end
                          end) order None.

(** The result slots: completion [i] writes slot [i]. *)
Fixpoint write_slot {B} (slots : list (option B)) (i : nat) (v : B) : list (option B) :=
  match slots, i with
  | [], _ => []
  | _ :: s, O => Some v :: s
  | x :: s, S j => x :: write_slot s j v
  end.
Definition fill_slots {A B} (order : list nat) (f : A -> res B) (xs : list A) : list (option B) :=
  fold_left (fun slots i => match nth_error xs i with
                            | Some x => match f x with Ok v => write_slot slots i v | Raise _ => slots end
                            | None => slots
                            end) order (repeat None (length xs)).
(** an unfilled slot can not be read: the pool would still be waiting for it *)
Fixpoint read_slots {B} (slots : list (option B)) : option (list B) :=
  match slots with
  | [] => Some []
  | Some v :: s => option_map (cons v) (read_slots s)
  | None :: _ => None
  end.
Definition starmap {A B} (order : list nat) (f : A -> res B) (xs : list A) : res (list B) :=
  match first_error order f xs with
  | Some e => Raise e
  | None => match read_slots (fill_slots order f xs) with
            | Some l => Ok l
            | None => Raise Stuck (* the pool waits for ever; excluded when [order] covers all tasks, see starmap_ok *)
            end
  end.

(** Pool._get_tasks: consecutive chunks of [k] tasks. *)
Fixpoint chunked_fuel {A} (fuel k : nat) (l : list A) : list (list A) :=
  match fuel, l with
  | _, [] => []
  | O, _ => []
  | S fuel', _ => firstn k l :: chunked_fuel fuel' k (skipn k l)
  end.
Definition chunked {A} (k : nat) (l : list A) : list (list A) := chunked_fuel (length l) k l.

(** Pool.imap_unordered(f, tasks, chunksize): a worker runs a chunk of consecutive tasks in order, chunks complete in
    the order [order], and the iterator yields the outcomes of completed chunks.  A chunk size below 1 is a ValueError.
    An event is (task index, task, outcome).  [run j ch] is what running chunk number [j] produces: it is given the
    (index, task) pairs, so runs of the same arguments may differ, and tasks of one chunk may share state.  (When a task
    raises, Python reports its whole chunk as failed; the caller stops at the first failure either way.) *)
Definition imap_unordered {A B} (chunksize : nat) (order : list nat) (run : nat -> list (nat * A) -> list (nat * A * res B))
  (tasks : list A) : res (list (nat * A * res B)) :=
  if Nat.ltb chunksize 1 then Raise ValueError
  else Ok (flat_map (fun j => match nth_error (chunked chunksize (enumerate tasks)) j with
                              | Some ch => run j ch
                              | None => []
                              end) order).
