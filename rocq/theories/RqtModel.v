(** Model of rqt_controller_manager: controller_manager.py and update_combo.py, without the drawing.

    The plugin runs in one thread: its slots are the operations below, each runs to its end, except that the context
    menu (controller_manager.py:269) runs an event loop of its own, in which the timers go on; a popup menu takes
    all input, so the user does nothing else while it is open.  What the ROS master, the parameter server and the managers
    answer is part of the operations.  Service calls of menu actions are scripts (ScriptModel.v).
    The parts of Qt used here (QComboBox, QMenu) are modelled from their documentation. *)
From Verif Require Export HwTypes CMModel UtilsModel ScriptModel.
From Coq Require Import Ascii.
Local Open Scope string_scope.
Local Open Scope list_scope.

(** ** update_combo.py *)

(** QComboBox, not editable: its items, and the index of the current one; [None]: -1 (update_combo.py:40-56). *)
Record combo := mkCombo { cb_items : list string; cb_cur : option nat }.

(** QComboBox::currentText: the empty string if nothing is selected (update_combo.py:40). *)
Definition current_text (c : combo) : string :=
  match cb_cur c with Some i => nth i (cb_items c) "" | None => "" end.

(** QComboBox::setCurrentIndex: an index out of range selects nothing; currentIndexChanged is emitted, with the new
    text, if the index changes (update_combo.py:50, 56, controller_manager.py:153). *)
Definition set_index (c : combo) (i : option nat) : combo * option string :=
  let i' := match i with Some k => if Nat.ltb k (List.length (cb_items c)) then Some k else None | None => None end in
  let c' := mkCombo (cb_items c) i' in
  (c', if match cb_cur c, i' with Some a, Some b => Nat.eqb a b | None, None => true | _, _ => false end then None
       else Some (current_text c')).

(** QComboBox::clear (update_combo.py:54). *)
Definition clear_items (c : combo) : combo := mkCombo [] None.
(** QComboBox::insertItems(0, vals): an empty box selects the first of its new items; otherwise the selection moves along
    (update_combo.py:55). *)
Definition insert_items (c : combo) (vals : list string) : combo :=
  mkCombo (vals ++ cb_items c)
    (match cb_cur c with
     | Some i => Some (i + List.length vals)%nat
     | None => match cb_items c, vals with [], _ :: _ => Some 0%nat | _, _ => None end
     end).

(** [l.index(v)]; [None]: ValueError (update_combo.py:48, controller_manager.py:152). *)
Fixpoint index_of (v : string) (l : list string) : option nat :=
  match l with
  | [] => None
  | x :: l' => if String.eqb x v then Some 0%nat else option_map S (index_of v l')
  end.

(** update_combo.py:59-66 [_is_permutation]. *)
Definition is_permutation (a b : list string) : bool :=
  Nat.eqb (List.length a) (List.length b) && if list_eq_dec string_dec (sorted a) (sorted b) then true else false.

(** update_combo.py:28-57 [update_combo].  Result: the box, and the signal emitted, if any (the changes
    of 52-57 are made with signals blocked). *)
Definition update_combo (c : combo) (new_vals : list string) : combo * option string :=
  let selected_val := current_text c in
  if negb (is_permutation (cb_items c) new_vals) then
    let selected_id := index_of selected_val new_vals in
    let '(c1, signal) := match selected_id with Some _ => (c, None) | None => set_index c None end in
    let c2 := clear_items c1 in
    let c3 := insert_items c2 new_vals in
    (fst (set_index c3 selected_id), signal)
  else (c, None).

(** ** Names *)

(** [s.rsplit('/', 1)[0]]: what precedes the last '/', the whole string if there is none (controller_manager.py:441). *)
Fixpoint before_last_slash (s : string) : option string :=
  match s with
  | EmptyString => None
  | String c s' =>
      match before_last_slash s' with
      | Some a => Some (String c a)
      | None => if Ascii.eqb c slash then Some "" else None
      end
  end.
(** controller_manager.py:419-444 [_resolve_controllers_ns]. *)
Definition resolve_controllers_ns (cm_ns : string) : string :=
  let ns := match before_last_slash cm_ns with Some a => a | None => cm_ns end in
  if String.eqb ns "" then (ns ++ "/")%string else ns.
(** controller_manager.py:447-459 [_append_ns], for a non-empty [in_ns]. *)
Definition append_ns (in_ns suffix : string) : string := (add_slash in_ns ++ suffix)%string.
(** controller_manager.py:462-473 [_rosparam_controller_type]: the name of the parameter. *)
Definition type_param (ctrls_ns name : string) : string := (append_ns ctrls_ns name ++ "/type")%string.
(** utils.py:224 (ControllerLister.__init__): the name of the service. *)
Definition lister_service (ns : string) : string := (ns ++ "/" ++ "list_controllers")%string.
(** controller_manager.py:184, 188, 192 (_set_cm_services): the names of the services. *)
Definition plugin_services (ns : string) : list string :=
  [append_ns ns "load_controller"; append_ns ns "unload_controller"; append_ns ns "switch_controller"].
(** rosgraph.names.canonicalize_name (trusted external library), which rospy applies to service names: remove the
    empty parts (the names are those of controller_manager.py:184, 188, 192 and utils.py:224). *)
Definition canonical (s : string) : string :=
  match s with
  | EmptyString => s
  | String c s' =>
      if Ascii.eqb c slash
      then ("/" ++ String.concat "/" (filter (fun x => negb (String.eqb x "")) (split_slash s)))%string
      else String.concat "/" (filter (fun x => negb (String.eqb x "")) (split_slash s))
  end.

(** ** The plugin *)

(** What the environment answers to one refresh of the controller list (_list_controllers): the first and the second attempt to call
    list_controllers ([None]: exception), the names of all parameters (rosparam.list_params; [None]: exception) and the
    value of a parameter (rospy.get_param; [None]: exception) (controller_manager.py:210-234). *)
Record answers := mkAnswers {
  an_first : option (list lc_entry); an_second : option (list lc_entry);
  an_params : option (list string); an_value : string -> option string }.

(** controller_manager.py:89-98 (shutdown and drawing are left out): the combo box; [_list_cm] (what it has found last); [_cm_ns], the empty
    string for [[]]; the manager of [_controller_lister] and of the service proxies ([None] for None); [_controllers]; the data of the table; the controller on
    which a menu is open. *)
Record plugin := mkPlugin {
  pl_combo : combo; pl_known : list string; pl_ns : string; pl_lister : option string; pl_services : option string;
  pl_controllers : list lc_entry; pl_table : list lc_entry; pl_menu : option lc_entry }.
(** controller_manager.py:89-98, 121: an empty combo box, no table. *)
Definition plugin0 : plugin := mkPlugin (mkCombo [] None) [] "" None None [] [] None.

(** Copies of the plugin's state with some members changed (update_combo.py:50-56; controller_manager.py:167-199; 207-208 and 236-239; 247-250). *)
Definition with_combo (p : plugin) (c : combo) (known : list string) : plugin :=
  mkPlugin c known (pl_ns p) (pl_lister p) (pl_services p) (pl_controllers p) (pl_table p) (pl_menu p).
(** controller_manager.py:166-199 [_on_cm_change], [_set_cm_services]: the manager changes. *)
Definition with_manager (p : plugin) (ns : string) (m : option string) : plugin :=
  mkPlugin (pl_combo p) (pl_known p) ns m m (pl_controllers p) (pl_table p) (pl_menu p).
(** controller_manager.py:207-208, 236-239: the rows change. *)
Definition with_rows (p : plugin) (l : list lc_entry) : plugin :=
  mkPlugin (pl_combo p) (pl_known p) (pl_ns p) (pl_lister p) (pl_services p) l l (pl_menu p).
(** controller_manager.py:247-250, 269: a menu is opened or closed. *)
Definition with_menu (p : plugin) (m : option lc_entry) : plugin :=
  mkPlugin (pl_combo p) (pl_known p) (pl_ns p) (pl_lister p) (pl_services p) (pl_controllers p) (pl_table p) m.

(** utils.py:231-241 [ControllerLister.__call__]. *)
Definition call_lister (a : answers) : list lc_entry :=
  match an_first a with
  | Some l => l
  | None => match an_second a with Some l => l | None => [] end
  end.

(** controller_manager.py:226-233: the loop; [None]: exception. *)
Fixpoint add_configured (ns : string) (value : string -> option string) (names : list string) (controllers : list lc_entry)
  : option (list lc_entry) :=
  match names with
  | [] => Some controllers
  | name :: names' =>
      if negb (existsb (fun ctrl => String.eqb name (en_name ctrl)) controllers) then
        match value (type_param ns name) with
        | None => None
        | Some ty => add_configured ns value names' (controllers ++ [mkEntry name ty [] "uninitialized"])
        end
      else add_configured ns value names' controllers
  end.

(** controller_manager.py:210-234 [_list_controllers]; [None]: exception. *)
Definition list_controllers (p : plugin) (a : answers) : option (list lc_entry) :=
  if String.eqb (pl_ns p) "" then Some []
  else
    let controllers := call_lister a in
    let all_ctrls_ns := resolve_controllers_ns (pl_ns p) in
    match an_params a with
    | None => None
    | Some params =>
        match get_rosparam_controller_names params all_ctrls_ns with
        | None => None
        | Some names => add_configured all_ctrls_ns (an_value a) names controllers
        end
    end.

(** Equality of ControllerState messages: all members
    (controller_manager_msgs/msg/ControllerState.msg:1-4; compared at controller_manager.py:206). *)
Definition entry_dec (x y : lc_entry) : {x = y} + {x <> y}.
Proof. repeat decide equality. Defined.

(** What the plugin does, as seen from outside: a refresh that shows the rows read from a manager (the empty name: none is selected), one that
    raises, a menu opened on a row, an action carried out by a manager, one that raises before any call
    (controller_manager.py:163-288). *)
Inductive deed :=
| Listed (manager : string) (rows : list lc_entry)
| RefreshRaised
| Opened (row : lc_entry)
| Acted (manager : string) (row : lc_entry) (calls : script (list bool))
| ActionRaised.

(** controller_manager.py:201-208 [_update_controllers] and 236-239 [_show_controllers]. *)
Definition update_controllers (p : plugin) (a : answers) : plugin * list deed :=
  match list_controllers p a with
  | None => (p, [RefreshRaised])
  | Some controllers =>
      ((if list_eq_dec entry_dec (pl_controllers p) controllers then p else with_rows p controllers), [Listed (pl_ns p) controllers])
  end.

(** controller_manager.py:166-177 [_on_cm_change] and 179-199 [_set_cm_services]. *)
Definition on_cm_change (p : plugin) (cm_ns : string) (a : answers) : plugin * list deed :=
  if negb (String.eqb cm_ns "") then update_controllers (with_manager p cm_ns (Some cm_ns)) a
  else (with_manager p cm_ns None, []).

(** The slot connected to currentIndexChanged (controller_manager.py:133-135). *)
Definition notify (p : plugin) (signal : option string) (a : answers) : plugin * list deed :=
  match signal with Some ns => on_cm_change p ns a | None => (p, []) end.

(** controller_manager.py:163-164 [_update_cm_list]: [srvs] and [types] are the answers of the ROS master (UtilsModel.v).  The signal is emitted
    at update_combo.py:50, before the box is filled again; its slot then does not look at the box. *)
Definition update_cm_list (p : plugin) (srvs : option (list string)) (types : string -> option string) (a : answers) : plugin * list deed :=
  let found := get_controller_managers srvs types (pl_known p) in
  let '(c, signal) := update_combo (pl_combo p) found in
  notify (with_combo p c found) signal a.

(** The combo box is set to an index: by the user, or at controller_manager.py:153. *)
Definition select_index (p : plugin) (i : option nat) (a : answers) : plugin * list deed :=
  let '(c, signal) := set_index (pl_combo p) i in
  notify (with_combo p c (pl_known p)) signal a.

(** controller_manager.py:145-155 [restore_settings]; [saved]: the stored 'cm_ns'. *)
Definition restore_settings (p : plugin) (srvs : option (list string)) (types : string -> option string) (saved : option string) (a a' : answers)
  : plugin * list deed :=
  let '(p1, d1) := update_cm_list p srvs types a in
  match saved with
  | None => (p1, d1)
  | Some cm_ns =>
      match index_of cm_ns (cb_items (pl_combo p1)) with
      | None => (p1, d1)
      | Some idx => let '(p2, d2) := select_index p1 (Some idx) a' in (p2, d1 ++ d2)
      end
  end.

(** ** The context menu *)

(** The entries of the menu (controller_manager.py:252-267). *)
Inductive action := Stop | StopAndUnload | StartAgain | Start | UnloadIt | LoadIt | LoadAndStart.

(** controller_manager.py:249-267: the entries for a controller, by its state. *)
Definition menu_entries (state : string) : list action :=
  if String.eqb state "running" then [Stop; StopAndUnload]
  else if String.eqb state "stopped" then [StartAgain; UnloadIt]
  else if String.eqb state "initialized" then [Start; UnloadIt]
  else if String.eqb state "uninitialized" then [LoadIt; LoadAndStart]
  else [].

(** controller_manager.py:328-346 [_load_controller], [_unload_controller], [_start_controller], [_stop_controller]: the replies
    are ignored, the model collects them. *)
Definition rqt_load (n : string) : script bool := CLoad n (fun ok => Ret ok).
(** controller_manager.py:331-332 [_unload_controller]. *)
Definition rqt_unload (n : string) : script bool := CUnload n (fun ok => Ret ok).
(** controller_manager.py:334-339 [_start_controller]. *)
Definition rqt_start (n : string) : script bool := CSwitch [n] [] STRICT (fun ok => Ret ok).
(** controller_manager.py:341-346 [_stop_controller]. *)
Definition rqt_stop (n : string) : script bool := CSwitch [] [n] STRICT (fun ok => Ret ok).

(** One or two calls (controller_manager.py:271-288). *)
Definition once (s : script bool) : script (list bool) := bind s (fun r => Ret [r]).
(** Two calls, one after the other (controller_manager.py:276-277, 287-288). *)
Definition twice (s s' : script bool) : script (list bool) := bind s (fun r => bind s' (fun r' => Ret [r; r'])).

(** controller_manager.py:271-288: what the chosen entry does; [None]: nothing.  [StartAgain] and [Start] are the variable action_start. *)
Definition menu_calls (state name : string) (chosen : action) : option (script (list bool)) :=
  if String.eqb state "running" then
    match chosen with
    | Stop => Some (once (rqt_stop name))
    | StopAndUnload => Some (twice (rqt_stop name) (rqt_unload name))
    | _ => None
    end
  else if String.eqb state "stopped" || String.eqb state "initialized" then
    match chosen with
    | StartAgain | Start => Some (once (rqt_start name))
    | UnloadIt => Some (once (rqt_unload name))
    | _ => None
    end
  else if String.eqb state "uninitialized" then
    match chosen with
    | LoadIt => Some (once (rqt_load name))
    | LoadAndStart => Some (twice (rqt_load name) (rqt_start name))
    | _ => None
    end
  else None.

(** controller_manager.py:241-250: a click at row [row] of the table, [None]: beside the rows. *)
Definition open_menu (p : plugin) (row : option nat) : plugin * list deed :=
  match row with
  | None => (p, [])
  | Some k =>
      if Nat.ltb k (List.length (pl_table p)) then
        match nth_error (pl_controllers p) k with
        | Some ctrl => (with_menu p (Some ctrl), [Opened ctrl])
        | None => (p, [ActionRaised])
        end
      else (p, [])
  end.

(** controller_manager.py:269-288: the menu closes, with the chosen entry ([None]: dismissed).  Only entries of the menu can be chosen.
    Without service proxies the first call raises (AttributeError). *)
Definition close_menu (p : plugin) (chosen : option action) : plugin * list deed :=
  match pl_menu p with
  | None => (p, [])
  | Some ctrl =>
      let p' := with_menu p None in
      match chosen with
      | None => (p', [])
      | Some a =>
          match menu_calls (en_state ctrl) (en_name ctrl) a with
          | None => (p', [])
          | Some calls =>
              match pl_services p with
              | Some m => (p', [Acted m ctrl calls])
              | None => (p', [ActionRaised])
              end
          end
      end
  end.

(** controller_manager.py:103-106, 390: the icon in front of a controller; [None]: KeyError. *)
Definition icon (state : string) : option string :=
  if String.eqb state "running" then Some "led_green.png"
  else if String.eqb state "stopped" then Some "led_red.png"
  else if String.eqb state "uninitialized" then Some "led_off.png"
  else if String.eqb state "initialized" then Some "led_red.png"
  else None.

(** ** Operations: the two timers (controller_manager.py:120-131), the user, the start of the session. *)
Inductive gui :=
| CmTimer (srvs : option (list string)) (types : string -> option string) (a : answers)
| CtrlTimer (a : answers)
| Select (i : nat) (a : answers)
| Restore (srvs : option (list string)) (types : string -> option string) (saved : option string) (a a' : answers)
| Click (row : option nat)
| Choose (chosen : option action).

(** One operation; while a menu is open, nothing but the timers and the end of the menu (see above)
    (controller_manager.py:120-135, 145-155, 241-288). *)
Definition gui_step (p : plugin) (o : gui) : plugin * list deed :=
  match o, pl_menu p with
  | CmTimer srvs types a, _ => update_cm_list p srvs types a
  | CtrlTimer a, _ => update_controllers p a
  | Choose chosen, _ => close_menu p chosen
  | Select i a, None => select_index p (Some i) a
  | Restore srvs types saved a a', None => restore_settings p srvs types saved a a'
  | Click row, None => open_menu p row
  | _, Some _ => (p, [])
  end.
(** A session (a sequence of the slots of controller_manager.py:145-288). *)
Fixpoint gui_run (p : plugin) (l : list gui) : plugin * list deed :=
  match l with
  | [] => (p, [])
  | o :: l' => let '(p1, d1) := gui_step p o in let '(p2, d2) := gui_run p1 l' in (p2, d1 ++ d2)
  end.
