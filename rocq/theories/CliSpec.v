(** Specification vocabulary for the tool `controller_manager`: what its lines mean. *)
From Verif Require Import ScriptSpec CliModel.

(** One line for each name, in order: either the good news or the bad. *)
Definition one_line_each (good bad : string -> said) (ns : list string) (out : list said) : Prop :=
  Forall2 (fun n x => x = good n \/ x = bad n) ns out.

(** Python's list(set(l)): the elements of l, each once, in some order. *)
Definition makes_unique (uniq : list string -> list string) : Prop :=
  forall l, NoDup (uniq l) /\ forall x, In x (uniq l) <-> In x l.

(** The words of the usage text and their short forms. *)
Definition commands : list string :=
  ["lt"; "list-types"; "lc"; "list"; "reload-libraries"; "load"; "unload"; "start"; "stop"; "sp"; "spawn"; "kl"; "kill"]%string.
