(** Strings as lists of characters. *)
From Coq Require Import List Ascii.
Import ListNotations.

Definition contains (p s : list ascii) : Prop := exists a b, s = a ++ p ++ b.

(** sep.join(pieces) *)
Fixpoint join (sep : list ascii) (pieces : list (list ascii)) : list ascii :=
  match pieces with
  | [] => []
  | [p] => p
  | p :: rest => p ++ sep ++ join sep rest
  end.

(** [name] cut at every occurrence of [sep]. *)
Definition cut_at (sep name : list ascii) (pieces : list (list ascii)) : Prop :=
  pieces <> [] /\ name = join sep pieces /\ forall p, In p pieces -> ~ contains sep p.
