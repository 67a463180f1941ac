(** Specification vocabulary for rqt_controller_manager. *)
From Coq Require Import Ascii Permutation.
From Verif Require Import CMSpec UtilsSpec ScriptSpec RqtModel.
Local Open Scope string_scope.
Local Open Scope list_scope.

(** What a combo box shows as selected; [valid]: its index is that of an item. *)
Definition selected (c : combo) : option string :=
  match cb_cur c with Some i => nth_error (cb_items c) i | None => None end.
Definition valid (c : combo) : Prop := forall i, cb_cur c = Some i -> (i < List.length (cb_items c))%nat.

(** The namespace one level above the manager [m]: "/a" for "/a/b", "/" for "/b" and for "/" itself. *)
Definition parent (m ns : string) : Prop :=
  exists a b, m = (a ++ "/" ++ b)%string /\ no_slash b /\ (a <> "" /\ ns = a \/ a = "" /\ ns = "/").

(** The sessions of the plugin: all sequences of operations from its start; [deeds]: what it has done. *)
Definition plugin_after (l : list gui) : plugin := fst (gui_run plugin0 l).
Definition deeds (l : list gui) : list deed := snd (gui_run plugin0 l).
Definition is_listed (d : deed) : Prop := match d with Listed _ _ => True | _ => False end.
Definition is_opened (d : deed) : Prop := match d with Opened _ => True | _ => False end.

(** Which entries a menu offers for which state (the texts at controller_manager.py:252-267). *)
Inductive offers : string -> action -> Prop :=
| off_stop : offers "running" Stop
| off_kill : offers "running" StopAndUnload
| off_again : offers "stopped" StartAgain
| off_unload : offers "stopped" UnloadIt
| off_start : offers "initialized" Start
| off_unload' : offers "initialized" UnloadIt
| off_load : offers "uninitialized" LoadIt
| off_spawn : offers "uninitialized" LoadAndStart.

(** The controllers without [n]. *)
Definition without (n : string) (b : list (string * phase)) : list (string * phase) := filter (fun x => negb (String.eqb (fst x) n)) b.

(** What asking for [n] to be started / stopped / unloaded / loaded makes of the controllers [b], and why not, if it does nothing. *)
Definition start_effect (n : string) (b b' : list (string * phase)) (objection : list string -> list string -> Prop) : Prop :=
  In n (names b) /\ ~ running b n /\ b' = switched [n] [] b \/
  b' = b /\ (~ In n (names b) \/ running b n \/ objection [n] []).
Definition stop_effect (n : string) (b b' : list (string * phase)) (objection : list string -> list string -> Prop) : Prop :=
  running b n /\ b' = switched [] [n] b \/ b' = b /\ (~ running b n \/ objection [] [n]).
Definition unload_effect (n : string) (b b' : list (string * phase)) : Prop :=
  running b n /\ b' = b \/ ~ running b n /\ b' = without n b.
Definition load_effect (n : string) (b b' : list (string * phase)) (refused : string -> Prop) : Prop :=
  ~ In n (names b) /\ b' = b ++ [(n, PLoaded)] \/ b' = b /\ (In n (names b) \/ refused n).

(** What choosing an entry does, if nobody else calls the manager meanwhile; [refused]: the names that the manager refused to load. *)
Definition menu_effect (a : action) (n : string) (b b' : list (string * phase)) (objection : list string -> list string -> Prop) (refused : string -> Prop) : Prop :=
  match a with
  | Stop => stop_effect n b b' objection
  | StopAndUnload => ~ In n (names b') /\ b' = without n b \/ running b n /\ b' = b /\ objection [] [n]
  | StartAgain | Start => start_effect n b b' objection
  | UnloadIt => unload_effect n b b'
  | LoadIt => load_effect n b b' refused
  | LoadAndStart =>
      ~ In n (names b) /\ (b' = b ++ [(n, PStarted)] \/ b' = b ++ [(n, PLoaded)] /\ objection [n] [] \/ b' = b /\ refused n) \/
      In n (names b) /\ start_effect n b b' objection
  end.
