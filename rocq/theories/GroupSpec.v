(** Specification vocabulary for the tool `controller_group`: what its lines mean. *)
From Verif Require Import ScriptSpec GroupModel.
Local Open Scope list_scope.

(** The listing of some groups: each name, followed by its controllers. *)
Definition listing (gs : list (string * list string)) : list gline :=
  flat_map (fun x => GroupName (fst x) :: map Member (snd x)) gs.

Definition loaded_lines (l : list string) : list gline := map (fun n => Says (Loaded n)) l.
(** The lines after an obeyed request; nothing is said about an empty list. *)
Definition obeyed_lines (start stop : list string) : list gline :=
  (match start with [] => [] | _ => [Says (Started start)] end) ++ (match stop with [] => [] | _ => [Says (Stopped stop)] end).

(** The controllers of the group that did not run, and the running ones that are in other groups only. *)
Definition to_be_started (gs : list (string * list string)) (g : string) (b : list (string * phase)) (a : list string) : Prop :=
  forall n, In n a <-> in_group gs g n /\ ~ running b n.
Definition to_be_stopped (gs : list (string * list string)) (g : string) (b : list (string * phase)) (s : list string) : Prop :=
  forall n, In n s <-> in_any_group gs n /\ ~ in_group gs g n /\ running b n.

(** What `controller_group switch` says about the result [res]; [b], [b']: the controllers before and after. *)
Definition group_says (gs : list (string * list string)) (g : string) (b b' : list (string * phase))
    (objection : list string -> list string -> Prop) (refused : string -> Prop) (res : group_result) (out : list gline) : Prop :=
  match res with
  | NoGroup => out = [EmptyGroup g]
  | Cancelled => exists l m, out = loaded_lines l ++ [Says (LoadError m); CancelSwitch] /\ b' = b ++ fresh l /\
                   in_group gs g m /\ ~ In m (names b') /\ refused m
  | Switched true => exists l a s, out = loaded_lines l ++ obeyed_lines a s /\ b' = switched a s (b ++ fresh l) /\
                       to_be_started gs g b a /\ to_be_stopped gs g b s
  | Switched false => exists l a s, out = loaded_lines l ++ [Says (SwitchError a s)] /\ b' = b ++ fresh l /\
                        to_be_started gs g b a /\ to_be_stopped gs g b s /\ objection a s
  end.
