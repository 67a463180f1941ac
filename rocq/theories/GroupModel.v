(** Model of the command line tool `controller_group`: its command words and what it prints.

    Simplifications: a line is represented by what it says, without the wording; lines on stdout and lines logged with
    rospy.logerr are put in one list, in program order; rospy.wait_for_service returns; what argparse does with other
    arguments (usage, help) is not modelled. *)
From Verif Require Export ScriptModel UtilsModel CliModel.
Local Open Scope string_scope.
Local Open Scope list_scope.

(** The lines of scripts/controller_group:49-107, and those of controller_manager_interface.py. *)
Inductive gline :=
| Count (n : nat)              (* 72 *)
| GroupName (g : string)       (* 74 *)
| Member (c : string)          (* 76 *)
| EmptyGroup (g : string)      (* 49 *)
| UnknownState (s : string)    (* 66 *)
| CancelSwitch                 (* 107 *)
| Says (x : said).

(** groups[g] for a key of the dict (scripts/controller_group:73). *)
Definition members (gs : groups) (g : string) : list string :=
  match find (fun x => String.eqb (fst x) g) gs with Some x => snd x | None => [] end.

(** scripts/controller_group:70-76 [_list_group].  sorted(groups.items()) compares the keys first, and these are
    distinct: the keys are sorted here, and looked up. *)
Definition say_groups (gs : groups) : list gline :=
  Count (length gs) :: flat_map (fun g => GroupName g :: map Member (members gs g)) (sorted (map fst gs)).

(** scripts/controller_group:79-86 [_spawn_group], with what it prints. *)
Definition say_spawn_group (order : list string -> list string) (gs : groups) (g : string) : script (list gline) :=
  match read_group gs g with
  | None => Ret [EmptyGroup g]
  | Some (desired, _) =>
      bind (loop say_load (order desired)) (fun o => bind (loop say_start (order desired)) (fun o' => Ret (map Says (o ++ o'))))
  end.

(** scripts/controller_group:65-66: one line for each listed controller in another state. *)
Definition unknown_states (l : list lc_entry) : list gline :=
  map (fun c => UnknownState (en_state c)) (filter (fun c => negb (String.eqb (en_state c) "running" || String.eqb (en_state c) "stopped")) l).

(** scripts/controller_group:101-112, with what it prints. *)
Fixpoint say_group_load (d : list (string * bool)) (desired to_start to_stop : list string) : script (list gline) :=
  match desired with
  | [] => bind (say_switch to_start to_stop) (fun o => Ret (map Says o))
  | n :: desired' =>
      let continue := say_group_load d desired' (if dict_get n d then to_start else to_start ++ [n]) to_stop in
      if dict_in n d then continue
      else CLoad n (fun ok => if ok then bind continue (fun o => Ret (Says (Loaded n) :: o)) else Ret [Says (LoadError n); CancelSwitch])
  end.

(** scripts/controller_group:89-112 [_switch_group], with what it prints. *)
Definition say_switch_group (order : list string -> list string) (gs : groups) (g : string) : script (list gline) :=
  match read_group gs g with
  | None => Ret [EmptyGroup g]
  | Some (desired, others) =>
      CList (fun l =>
      let d := loaded_dict l in
      let to_stop := filter (fun n => dict_get n d) (order others) in
      bind (say_group_load d (order desired) [] to_stop) (fun o => Ret (unknown_states l ++ o)))
  end.

(** scripts/controller_group:115-132 [_main] for the arguments that it describes; [None]: the others, which argparse
    answers. *)
Definition group_cli (order : list string -> list string) (gs : groups) (args : list string) : option (script (list gline)) :=
  match args with
  | [w] => if w =? "list" then Some (Ret (say_groups gs)) else None
  | [w; g] => if w =? "spawn" then Some (say_spawn_group order gs g) else if w =? "switch" then Some (say_switch_group order gs g) else None
  | _ => None
  end.
