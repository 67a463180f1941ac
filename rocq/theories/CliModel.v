(** Model of the command line tool `controller_manager`: its command words and what it prints.

    Simplifications: a printed line is represented by what it says, without the wording; the service
    list_controller_types, which changes nothing, is represented by its reply [types] (C78); rospy.wait_for_service
    returns; Ctrl-C (ROSInterruptException, scripts/controller_manager:71-72) is the outcome [None] of [executes]. *)
From Verif Require Export ScriptModel.
Local Open Scope string_scope.
Local Open Scope list_scope.

(** The lines printed by controller_manager_interface.py:12-111 and scripts/controller_manager:17-29. *)
Inductive said :=
| Usage                                     (* controller_manager:18-27 *)
| Type_ (t : string)                        (* 12: a controller type *)
| NothingLoaded                             (* 51 *)
| Listed (name : string) (ifaces : list string) (state : string)   (* 55 *)
| RestoreIs (b : bool)                      (* 23 *)
| Reloaded | ReloadFailed                   (* 29, 32 *)
| Restored                                  (* 42 *)
| Loaded (n : string) | LoadError (n : string)          (* 63, 66 *)
| Unloaded (n : string) | UnloadError (n : string)      (* 75, 78 *)
| Started (l : list string) | Stopped (l : list string) (* 105, 107 *)
| SwitchError (start stop : list string).               (* 110 *)

(** controller_manager_interface.py:58-67 [load_controller]: what it prints. *)
Definition say_load (n : string) : script (list said) :=
  bind (load_controller n) (fun ok => Ret [if ok then Loaded n else LoadError n]).
(** controller_manager_interface.py:70-79 [unload_controller]: what it prints. *)
Definition say_unload (n : string) : script (list said) :=
  bind (unload_controller n) (fun ok => Ret [if ok then Unloaded n else UnloadError n]).
(** controller_manager_interface.py:98-111 [start_stop_controllers]: what it prints. *)
Definition say_switch (start stop : list string) : script (list said) :=
  bind (start_stop_controllers start stop) (fun ok => Ret
    (if ok then (if start then [] else [Started start]) ++ (if stop then [] else [Stopped stop]) else [SwitchError start stop])).
(** controller_manager_interface.py:82-83 [start_controller]. *)
Definition say_start (n : string) : script (list said) := say_switch [n] [].
(** controller_manager_interface.py:90-91 [stop_controller]. *)
Definition say_stop (n : string) : script (list said) := say_switch [] [n].

(** controller_manager_interface.py:46-55 [list_controllers]; [uniq] is Python's list(set(...)), which
    enumerates the interfaces in some order. *)
Definition say_list (uniq : list string -> list string) : script (list said) :=
  CList (fun l => Ret (match l with
    | [] => [NothingLoaded]
    | _ => map (fun c => Listed (en_name c) (uniq (map ir_iface (en_claims c))) (en_state c)) l
    end)).

(** controller_manager_interface.py:15-43 [reload_libraries]. *)
Definition say_reload (force restore : bool) : script (list said) :=
  let outcome (ok : bool) := if ok then Reloaded else ReloadFailed in
  if restore then bind (reload_libraries_restore force) (fun r => Ret [RestoreIs true; outcome (fst (fst r)); Restored])
  else CReload force (fun ok => Ret [RestoreIs false; outcome ok]).

(** A for loop over the names whose body prints (scripts/controller_manager:48-68). *)
Definition loop (f : string -> script (list said)) (names : list string) : script (list said) :=
  bind (each f names) (fun o => Ret (List.concat o)).

(** scripts/controller_manager:33-70: the arguments after the name of the program; the lines printed and the
    exit status. *)
Definition cli (uniq : list string -> list string) (types : list string) (args : list string) : script (list said * nat) :=
  let ends (p : script (list said)) := bind p (fun o => Ret (o, 0%nat)) in
  match args with
  | [] => Ret ([Usage], 0%nat)
  | w :: names =>
      if (w =? "lt") || (w =? "list-types") then Ret (map Type_ types, 0%nat)
      else if (w =? "lc") || (w =? "list") then ends (say_list uniq)
      else if w =? "reload-libraries" then ends (say_reload true (isin "--restore" names))
      else if w =? "load" then ends (loop say_load names)
      else if w =? "unload" then ends (loop say_unload names)
      else if w =? "start" then ends (loop say_start names)
      else if w =? "stop" then ends (loop say_stop names)
      else if (w =? "sp") || (w =? "spawn") then ends (bind (loop say_load names) (fun o => bind (loop say_start names) (fun o' => Ret (o ++ o'))))
      else if (w =? "kl") || (w =? "kill") then ends (bind (loop say_stop names) (fun o => bind (loop say_unload names) (fun o' => Ret (o ++ o'))))
      else Ret ([Usage], 1%nat)
  end.
