(** The counts that [constraint_count] recorded for a path of namespaces. *)
From Coq Require Import String List.
From Verif Require Import Model.Dev.

Definition find_count (path : string) (m : list (string * Counts)) : option Counts :=
  option_map snd (find (fun kc => String.eqb (fst kc) path) m).
