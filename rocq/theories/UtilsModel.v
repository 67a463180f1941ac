(** Model of controller_manager_msgs/src/controller_manager_msgs/utils.py.

    Strings are Python strings of one-byte characters.  What the ROS master answers is an argument:
    the queries of one call may see different states of the system. *)
From Verif Require Export HwTypes CMModel.
From Coq Require Import Ascii.
Local Open Scope string_scope.
Local Open Scope list_scope.

(** ** Python's strings *)

(** [sub in s] (utils.py:150, 392). *)
Fixpoint contains (sub s : string) : bool :=
  prefix sub s || match s with EmptyString => false | String _ s' => contains sub s' end.

(** [s.split(sep, 1)] for non-empty [sep]: the parts before and after the first occurrence; [None]: no occurrence
    (utils.py:151, 434). *)
Fixpoint split1 (sep s : string) : option (string * string) :=
  if prefix sep s then Some ("", substring (String.length sep) (String.length s - String.length sep) s)
  else match s with
       | EmptyString => None
       | String c s' => match split1 sep s' with Some (a, b) => Some (String c a, b) | None => None end
       end.

(** The character utils.py:117-118 and 432-437 look for. *)
Definition slash : ascii := "/"%char.

(** [s.split('/')] (utils.py:437). *)
Fixpoint split_slash (s : string) : list string :=
  match s with
  | EmptyString => [""]
  | String c s' =>
      if Ascii.eqb c slash then "" :: split_slash s'
      else match split_slash s' with p :: ps => String c p :: ps | [] => [String c ""] end
  end.

(** [sorted(l)] (utils.py:101, 440). *)
Fixpoint insert (s : string) (l : list string) : list string :=
  match l with
  | [] => [s]
  | x :: l' => match String.compare s x with Gt => x :: insert s l' | _ => s :: l end
  end.
(** [sorted(l)] (utils.py:101, 440). *)
Definition sorted (l : list string) : list string := fold_right insert [] l.

(** [s[-1] == '/'] for non-empty [s], [False] otherwise (utils.py:117, 432). *)
Fixpoint ends_slash (s : string) : bool :=
  match s with
  | EmptyString => false
  | String c EmptyString => Ascii.eqb c slash
  | String _ s' => ends_slash s'
  end.
(** utils.py:117-118, 432-433: add a '/' unless there is one. *)
Definition add_slash (s : string) : string := if ends_slash s then s else (s ++ "/")%string.

(** rosgraph.names.make_global_ns (trusted external library), for names that do not start with '~': add the leading
    and the trailing '/' (called by rosparam.list_params, utils.py:429). *)
Definition make_global_ns (ns : string) : string :=
  add_slash (match ns with String c _ => if Ascii.eqb c slash then ns else ("/" ++ ns)%string | EmptyString => "/" end).

(** ** Filters *)

(** utils.py:385-397 [_filter_by_attr]; [attr] is [getattr(val, attr_name)]. *)
Definition filter_by_attr (l : list lc_entry) (attr : lc_entry -> string) (v : string) (match_substring : bool) : list lc_entry :=
  fold_left (fun out c =>
    if match_substring then (if contains v (attr c) then out ++ [c] else out)
    else (if String.eqb (attr c) v then out ++ [c] else out)) l [].
(** utils.py:256-269, 272-285, 288-301. *)
Definition filter_by_name (l : list lc_entry) (v : string) (match_substring : bool) := filter_by_attr l en_name v match_substring.
(** utils.py:272-285 [filter_by_type]. *)
Definition filter_by_type (l : list lc_entry) (v : string) (match_substring : bool) := filter_by_attr l en_type v match_substring.
(** utils.py:288-301 [filter_by_state]. *)
Definition filter_by_state (l : list lc_entry) (v : string) (match_substring : bool) := filter_by_attr l en_state v match_substring.

(** utils.py:321-329: the inner loop, with its breaks. *)
Fixpoint interface_hit (sets : list iface_res) (hi : string) (match_substring : bool) : bool :=
  match sets with
  | [] => false
  | rs :: sets' =>
      if match_substring
      then (if contains hi (ir_iface rs) then true else interface_hit sets' hi match_substring)
      else (if String.eqb (ir_iface rs) hi then true else interface_hit sets' hi match_substring)
  end.
(** utils.py:304-330 [filter_by_hardware_interface]. *)
Definition filter_by_hardware_interface (l : list lc_entry) (hi : string) (match_substring : bool) : list lc_entry :=
  fold_left (fun out c => if interface_hit (en_claims c) hi match_substring then out ++ [c] else out) l [].

(** utils.py:369-378: the loop over the resources; [add] is the variable [add_ctrl], [None] while it is not bound. *)
Fixpoint resource_loop (resources claimed : list string) (match_any : bool) (add : option bool) : option bool :=
  match resources with
  | [] => add
  | r :: rs =>
      let add := Some (negb match_any) in
      if existsb (String.eqb r) claimed
      then (if match_any then Some true else resource_loop rs claimed match_any add)
      else (if negb match_any then Some false else resource_loop rs claimed match_any add)
  end.
(** utils.py:366-381: the loop over the resource sets of a controller: the variable afterwards, and whether the controller
    has been added; [None]: the variable is read before it is bound (UnboundLocalError). *)
Fixpoint set_loop (sets : list iface_res) (resources : list string) (hi : option string) (match_any : bool) (add : option bool)
  : option (option bool * bool) :=
  match sets with
  | [] => Some (add, false)
  | rs :: sets' =>
      if match hi with None => true | Some i => String.eqb i (ir_iface rs) end
      then match resource_loop resources (ir_res rs) match_any add with
           | None => None
           | Some true => Some (Some true, true)
           | Some false => set_loop sets' resources hi match_any (Some false)
           end
      else set_loop sets' resources hi match_any add
  end.
(** utils.py:364-382: the loop over the controllers; Python's [add_ctrl] belongs to the whole function. *)
Fixpoint ctrl_loop (l : list lc_entry) (resources : list string) (hi : option string) (match_any : bool) (add : option bool) (out : list lc_entry)
  : option (list lc_entry) :=
  match l with
  | [] => Some out
  | c :: l' =>
      match set_loop (en_claims c) resources hi match_any add with
      | None => None
      | Some (add', hit) => ctrl_loop l' resources hi match_any add' (if hit then out ++ [c] else out)
      end
  end.
(** utils.py:333-382 [filter_by_resources]; [None]: UnboundLocalError. *)
Definition filter_by_resources (l : list lc_entry) (resources : list string) (hi : option string) (match_any : bool) : option (list lc_entry) :=
  ctrl_loop l resources hi match_any None [].

(** ** Controller configurations *)

(** utils.py:430-439: the loop; [ns] after 432-433; [None]: IndexError at 434. *)
Fixpoint param_loop (params : list string) (ns : string) (out : list string) : option (list string) :=
  match params with
  | [] => Some out
  | p :: params' =>
      match split1 ns p with
      | None => None
      | Some (_, no_ns) =>
          match split_slash no_ns with
          | [n; t] => param_loop params' ns (if String.eqb t "type" then out ++ [n] else out)
          | _ => param_loop params' ns out
          end
      end
  end.
(** utils.py:405-440 [get_rosparam_controller_names]; [params]: the names on the parameter server;
    rosparam.list_params (trusted external library) returns, sorted, those that start with the global namespace. *)
Definition get_rosparam_controller_names (params : list string) (ns : string) : option (list string) :=
  option_map sorted (param_loop (filter (prefix (make_global_ns ns)) (sorted params)) (add_slash ns) []).

(** ** Controller managers *)

(** utils.py:44-66 [cm_services]; the order in which Python enumerates the dict does not matter. *)
Definition cm_services : list (string * string) :=
  [("list_controllers", "controller_manager_msgs/ListControllers");
   ("list_controller_types", "controller_manager_msgs/ListControllerTypes");
   ("load_controller", "controller_manager_msgs/LoadController");
   ("unload_controller", "controller_manager_msgs/UnloadController");
   ("switch_controller", "controller_manager_msgs/SwitchController");
   ("reload_controller_libraries", "controller_manager_msgs/ReloadControllerLibraries")].

(** utils.py:160-173 [_srv_exists]; [types] is what rosservice.get_service_type answers.  The names and types
    given are never empty (171-172). *)
Definition srv_exists (types : string -> option string) (name ty : string) : bool :=
  match types name with Some t => String.eqb ty t | None => false end.

(** utils.py:104-122 [is_controller_manager]. *)
Definition is_controller_manager (types : string -> option string) (ns : string) : bool :=
  forallb (fun s => srv_exists types (add_slash ns ++ fst s)%string (snd s)) cm_services.

(** utils.py:125-157 [_sloppy_get_controller_managers]; [srvs] is the answer of rosservice.get_service_list,
    [None] if it raises ROSServiceIOException. *)
Definition sloppy_get_controller_managers (srvs : option (list string)) : list string :=
  match srvs with
  | None => []
  | Some l =>
      fold_left (fun out s =>
        if contains "/list_controllers" s
        then out ++ [match split1 "/list_controllers" s with
                     | Some ("", _) => "/"
                     | Some (ns, _) => ns
                     | None => s
                     end]
        else out) l []
  end.

(** utils.py:69-101 [get_controller_managers]; [guess] is [initial_guess], [[]] for [None]. *)
Definition get_controller_managers (srvs : option (list string)) (types : string -> option string) (guess : list string) : list string :=
  let curr := sloppy_get_controller_managers srvs in
  let ns_list := filter (fun ns => existsb (String.eqb ns) curr) guess in
  sorted (ns_list ++ filter (fun ns => negb (existsb (String.eqb ns) ns_list) && is_controller_manager types ns) curr).

(** utils.py:198-203 [ControllerManagerLister.__call__], called repeatedly: the answers of the master at each call, and the results. *)
Fixpoint lister (cm_list : list string) (calls : list (option (list string) * (string -> option string))) : list (list string) :=
  match calls with
  | [] => []
  | (srvs, types) :: calls' =>
      let r := get_controller_managers srvs types cm_list in r :: lister r calls'
  end.
