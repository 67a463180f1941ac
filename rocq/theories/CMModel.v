(** Model of controller_manager/src/controller_manager.cpp as a sequential step
    machine.  One operation is one service call (or one part of it) or one
    control cycle.  Granularity and simplifications, common to this file:

    - Service calls are serialised by [services_lock_]/[controllers_lock_]
      (controller_manager.cpp:459, 648, 795, 811, 827); while a switch request
      waits for the control loop every other call is [ABlocked].
    - loadController/unloadController are atomic with respect to control cycles;
      the double buffer that justifies this is modelled step by step in RaceModel.v.
      The buffer index is therefore not part of this state: [cm_list] is
      [controllers_lists_[current_controllers_list_]].
    - [ros::Time], [ros::Duration] and the [double] timeout are integers counting
      nanoseconds.
    - User code (hardware hooks, controller initialisation, plugin construction)
      is an answer carried by the operation, so a theorem about all operations is
      a theorem about all behaviours of that user code.
    - Log output is not modelled. *)
From Verif Require Export HwTypes Lifecycle.
Open Scope Z_scope.

(** controller_manager/include/controller_manager/controller_spec.h:51-55
    [struct ControllerSpec]. *)
Record cspec := mkSpec { sp_info : cinfo; sp_inst : nat }.

(** controller_manager.h:191-201 [struct SwitchParams]. [init_time] is
    [ros::TIME_MAX] initially; the model uses 0, the value is overwritten (608)
    before it can be read. *)
Record swparams := mkSw {
  sw_do : bool; sw_started : bool; sw_init : Z;
  sw_strict : Z; sw_asap : bool; sw_timeout : Z }.
(** controller_manager.h:193-200: the initial values of SwitchParams. *)
Definition sw_default : swparams := mkSw false false 0 0 false 0.

(** Result of [createInstance] for one declared class
    (controller_manager.cpp:292; controller_loader.h:59-62 calls
    pluginlib's createUniqueInstance, which throws std::runtime_error on
    failure; a custom loader may also return a null pointer). *)
Inductive create_res := CrObject | CrNull | CrThrow.

(** One registered controller loader: its name and, for each entry of
    [getDeclaredClasses()], the class name and what [createInstance] does if it
    is called for that entry
    (controller_loader_interface.h:45-58, as used at controller_manager.cpp:284-297, 682-686, 707-715). *)
Record loader := mkLoader { ld_name : string; ld_classes : list (string * create_res) }.

(** What [initRequest] of the new controller does (controller_manager.cpp:323-333):
    returns true having reported these claims, returns false, or throws.  That
    returning true leaves the controller INITIALIZED is what
    controller.h:96-131 and multi_interface_controller.h:245-282 do (HwModel.v). *)
Inductive init_res := InitOk (claims : list iface_res) | InitFalse | InitThrow.

(** The environment a load request meets: can the namespace be constructed
    (267-278), the value of parameter "type" (281), the init outcome. *)
Record load_env := mkEnv { le_nh_ok : bool; le_type : option string; le_init : init_res }.

(** Hardware answers in one control cycle. [hw_all k] is the answer to the k-th
    call of [switchResult()] in the cycle, [hw_one k info] the answers for the
    request number [k] of the start list in start_asap mode, first and second call
    (controller_manager.cpp:153, 163, 197, 202). *)
Record hw_answers := mkHw { hw_all : nat -> swstate; hw_one : nat -> nat -> cinfo -> swstate }.

(** Continuation of a waiting switchController call: plain service/API call, or
    the call made by reloadControllerLibrariesSrv (664) (controller_manager.cpp:664, 830-831). *)
Inductive cont := KReturn | KReload (names : list string).

(** Is a service call in progress? [WaitSwitch timeout k]: inside the wait loop
    616-630. *)
Inductive call := Idle | WaitSwitch (timeout : Z) (k : cont).

(** controller_manager.h:180-218: members of ControllerManager. [cm_next] is the
    next unused instance number. *)
Record cm := mkCM {
  cm_list : list cspec;
  cm_heap : heap;
  cm_next : nat;
  cm_sw : swparams;
  cm_start : list nat;              (* start_request_ *)
  cm_stop : list nat;               (* stop_request_ *)
  cm_hwstart : list cinfo;          (* switch_start_list_ *)
  cm_hwstop : list cinfo;           (* switch_stop_list_ *)
  cm_loaders : list loader;
  cm_call : call }.

(** The state after construction (45-62), given the loaders registered so far. *)
Definition cm_init (ls : list loader) : cm :=
  mkCM [] (fun _ => CONSTRUCTED) 0 sw_default [] [] [] [] ls Idle.

(** controller_manager_msgs/srv/SwitchController.srv:25-26. *)
Definition BEST_EFFORT : Z := 1.
(** controller_manager_msgs/srv/SwitchController.srv:26. *)
Definition STRICT : Z := 2.

(** One operation (controller_manager.cpp:66, 642-840; the lines are given with each). *)
Inductive op :=
| Load (name : string) (env : load_env)                               (* loadControllerSrv 789 *)
| Unload (name : string)                                              (* unloadControllerSrv 805 *)
| Switch (start stop : list string) (strictness : Z) (asap : bool) (timeout now : Z)
         (check : list cinfo -> bool) (prep : list cinfo -> list cinfo -> bool)
                                                                      (* switchControllerSrv 821, up to the wait loop *)
| Poll (wall : Z) (ok1 ok2 : bool)                                    (* one evaluation of the wait loop 616-630 *)
| Cycle (time period : Z) (reset : bool) (hw : hw_answers)            (* update 66 *)
| ListControllers                                                     (* listControllersSrv 722 *)
| ListTypes                                                           (* listControllerTypesSrv 695 *)
| Reload (force : bool) (now : Z)
         (check : list cinfo -> bool) (prep : list cinfo -> list cinfo -> bool)
                                                                      (* reloadControllerLibrariesSrv 642 *)
| RegisterLoader (l : loader).                                        (* registerControllerLoader 837 *)

(** One entry of the list_controllers reply (741-781). *)
Record lc_entry := mkEntry { en_name : string; en_type : string; en_claims : list iface_res; en_state : string }.

(** What the caller gets: the replies of the services of controller_manager.cpp:642-835 (response.ok, the
    lists), or none. *)
Inductive answer :=
| ABlocked                      (* the call has to wait for a lock: nothing happens *)
| ANone                         (* no reply (yet) *)
| ABool (b : bool)
| AList (l : list lc_entry)
| ATypes (l : list (string * string))
| AAssert.                      (* assertion 679 fails *)

(** controller_manager.cpp:92-103 [getControllerByName]. *)
Fixpoint by_name (l : list cspec) (n : string) : option nat :=
  match l with
  | [] => None
  | c :: l' => if String.eqb (ci_name (sp_info c)) n then Some (sp_inst c) else by_name l' n
  end.

(** controller_manager.cpp:105-113 [getControllerNames]. *)
Definition controller_names (s : cm) : list string :=
  map (fun c => ci_name (sp_info c)) (cm_list s).

(* ---------------------------------------------------------------- cycle *)

(** controller_manager.cpp:72-77, body of the reset loop. *)
Definition reset_body (t : Z) (h : heap) (c : cspec) : heap * list event :=
  if is_running h (sp_inst c) then
    let (h1, e1) := stop_request t h (sp_inst c) in
    let (h2, e2) := start_request t h1 (sp_inst c) in
    (h2, e1 ++ e2)
  else (h, []).

(** controller_manager.cpp:82-83, body of the update loop. *)
Definition update_body (t p : Z) (h : heap) (c : cspec) : heap * list event :=
  update_request t p h (sp_inst c).

(** controller_manager.cpp:138-148 [stopControllers]. *)
Definition stop_body (t : Z) (h : heap) (i : nat) : heap * list event :=
  if is_running h i then stop_request t h i else (h, []).
(** controller_manager.cpp:138-148 [stopControllers]. *)
Definition stop_controllers (t : Z) (h : heap) (stop : list nat) : heap * list event :=
  for_each (stop_body t) h stop.

(** controller_manager.cpp:164-165 and 203-204: the timeout condition. *)
Definition timed_out (sw : swparams) (t : Z) : bool :=
  (0 <? sw_timeout sw) && (sw_timeout sw <? t - sw_init sw).

(** controller_manager.cpp:150-182 [startControllers]; returns the new
    [do_switch] as well. *)
Definition start_controllers (t : Z) (hw : hw_answers) (sw : swparams) (h : heap) (start : list nat)
  : heap * list event * bool :=
  if swstate_eqb (hw_all hw 0%nat) DONE then
    (for_each (start_request t) h start, false)
  else if swstate_eqb (hw_all hw 1%nat) ERROR || timed_out sw t then
    (for_each (abort_request t) h start, false)
  else
    (for_each (wait_request t) h start, true).

(** controller_manager.cpp:192-215: the inner loop of startControllersAsap for
    request number [k] (instance [i]). *)
Definition asap_inner (t : Z) (hw : hw_answers) (sw : swparams) (k i : nat) (h : heap) (c : cspec)
  : heap * list event :=
  if Nat.eqb i (sp_inst c) then
    if swstate_eqb (hw_one hw k 0%nat (sp_info c)) DONE then start_request t h i
    else if swstate_eqb (hw_one hw k 1%nat (sp_info c)) ERROR || timed_out sw t then abort_request t h i
    else wait_request t h i
  else (h, []).

(** controller_manager.cpp:187-217: the outer loop; [k] numbers the requests. *)
Fixpoint asap_loop (t : Z) (hw : hw_answers) (sw : swparams) (l : list cspec) (k : nat) (h : heap) (start : list nat)
  : heap * list event :=
  match start with
  | [] => (h, [])
  | i :: start' =>
      let (h1, e1) := if is_running h i then (h, []) else for_each (asap_inner t hw sw k i) h l in
      let (h2, e2) := asap_loop t hw sw l (S k) h1 start' in
      (h2, e1 ++ e2)
  end.

(** controller_manager.cpp:184-227 [startControllersAsap]. *)
Definition start_controllers_asap (t : Z) (hw : hw_answers) (sw : swparams) (l : list cspec) (h : heap) (start : list nat)
  : heap * list event * bool :=
  let (h1, e1) := asap_loop t hw sw l 0 h start in
  ((h1, e1), if forallb (fun i => is_running h1 i || is_aborted h1 i) start then false else sw_do sw).

(** controller_manager.cpp:115-136 [manageSwitch]. *)
Definition manage_switch (t : Z) (hw : hw_answers) (s : cm) : cm * list event :=
  let sw := cm_sw s in
  let e0 := if sw_started sw then [] else [EvDo (cm_hwstart s) (cm_hwstop s)] in
  let (h1, e1) := stop_controllers t (cm_heap s) (cm_stop s) in
  let '(h2, e2, d) :=
    if sw_asap sw then start_controllers_asap t hw sw (cm_list s) h1 (cm_start s)
    else start_controllers t hw sw h1 (cm_start s) in
  (mkCM (cm_list s) h2 (cm_next s)
        (mkSw d true (sw_init sw) (sw_strict sw) (sw_asap sw) (sw_timeout sw))
        (cm_start s) (cm_stop s) (cm_hwstart s) (cm_hwstop s) (cm_loaders s) (cm_call s),
   e0 ++ e1 ++ e2).

(** The states of the controllers after controller_manager.cpp:71-83; assignment, no line of its own. *)
Definition set_heap (s : cm) (h : heap) : cm :=
  mkCM (cm_list s) h (cm_next s) (cm_sw s) (cm_start s) (cm_stop s)
       (cm_hwstart s) (cm_hwstop s) (cm_loaders s) (cm_call s).

(** controller_manager.cpp:66-90 [update]. *)
Definition update (t p : Z) (reset : bool) (hw : hw_answers) (s : cm) : cm * list event :=
  let (h1, e1) := if reset then for_each (reset_body t) (cm_heap s) (cm_list s) else (cm_heap s, []) in
  let (h2, e2) := for_each (update_body t p) h1 (cm_list s) in
  let s2 := set_heap s h2 in
  if sw_do (cm_sw s2) then
    let (s3, e3) := manage_switch t hw s2 in (s3, e1 ++ e2 ++ e3)
  else (s2, e1 ++ e2).

(* ---------------------------------------------------------------- load / unload *)

(** controller_manager.cpp:290-294: the declared classes of loader number [k];
    [c] tells whether [c] holds an object.  Result: does [c] hold an object, was
    the loop left by an exception, and the createInstance calls made. *)
Fixpoint try_classes (ty : string) (k : nat) (c : bool) (cls : list (string * create_res))
  : bool * bool * list event :=
  match cls with
  | [] => (c, false, [])
  | (n, r) :: cls' =>
      if String.eqb ty n then
        match r with
        | CrObject => let '(c', x, e) := try_classes ty k true cls' in (c', x, EvCreate k :: e)
        | CrNull => let '(c', x, e) := try_classes ty k false cls' in (c', x, EvCreate k :: e)
        | CrThrow => (c, true, [EvCreate k])
        end
      else try_classes ty k c cls'
  end.

(** controller_manager.cpp:284-301: the loop over the loaders, numbered from [k].
    Result: does [c] hold an object at line 311, and the createInstance calls. *)
Fixpoint construct (ty : string) (k : nat) (ls : list loader) : bool * list event :=
  match ls with
  | [] => (false, [])
  | l :: ls' =>
      let '(c, thrown, e) := try_classes ty k false (ld_classes l) in
      if thrown || c then (c, e)
      else let (c', e') := construct ty (S k) ls' in (c', e ++ e')
  end.

(** controller_manager.cpp:229-364 [loadController].  The new instance gets
    number [cm_next]. The number is used up also when initialisation fails. *)
Definition load_controller (n : string) (env : load_env) (s : cm) : cm * list event * bool :=
  if existsb (fun c => String.eqb (ci_name (sp_info c)) n) (cm_list s) then (s, [], false)
  else if negb (le_nh_ok env) then (s, [], false)
  else match le_type env with
  | None => (s, [], false)
  | Some ty =>
      let (c, ec) := construct ty 0 (cm_loaders s) in
      if c then
        let i := cm_next s in
        match le_init env with
        | InitOk claims =>
            let info := mkInfo n ty claims in
            (mkCM (cm_list s ++ [mkSpec info i]) (upd (cm_heap s) i INITIALIZED) (S i) (cm_sw s)
                  (cm_start s) (cm_stop s) (cm_hwstart s) (cm_hwstop s) (cm_loaders s) (cm_call s),
             ec ++ [EvLoaded i info], true)
        | _ =>
            (mkCM (cm_list s) (cm_heap s) (S i) (cm_sw s)
                  (cm_start s) (cm_stop s) (cm_hwstart s) (cm_hwstop s) (cm_loaders s) (cm_call s),
             ec, false)
        end
      else (s, ec, false)
  end.

(** controller_manager.cpp:389-404: the copy loop of unloadController;
    [None] if the controller to remove is running. *)
Fixpoint unload_scan (h : heap) (n : string) (l : list cspec) : option (list cspec * bool) :=
  match l with
  | [] => Some ([], false)
  | c :: l' =>
      if String.eqb (ci_name (sp_info c)) n then
        if is_running h (sp_inst c) then None
        else match unload_scan h n l' with
             | Some (to, _) => Some (to, true)
             | None => None
             end
      else match unload_scan h n l' with
           | Some (to, removed) => Some (c :: to, removed)
           | None => None
           end
  end.

(** Instances present in [from] but not in [to]: clearing [from] (360, 428)
    drops the last reference to them (controller_manager.cpp:360, 428). *)
Definition dropped (from to : list cspec) : list event :=
  map (fun c => EvDestroyed (sp_inst c))
      (filter (fun c => negb (existsb (fun d => Nat.eqb (sp_inst c) (sp_inst d)) to)) from).

(** controllers_lists_[current_controllers_list_] after controller_manager.cpp:417-418; assignment. *)
Definition set_list (s : cm) (l : list cspec) : cm :=
  mkCM l (cm_heap s) (cm_next s) (cm_sw s) (cm_start s) (cm_stop s)
       (cm_hwstart s) (cm_hwstop s) (cm_loaders s) (cm_call s).

(** controller_manager.cpp:367-433 [unloadController]. *)
Definition unload_controller (n : string) (s : cm) : cm * list event * bool :=
  match unload_scan (cm_heap s) n (cm_list s) with
  | Some (to, true) => (set_list s to, dropped (cm_list s) to, true)
  | _ => (s, [], false)
  end.

(* ---------------------------------------------------------------- switch *)

(** controller_manager.cpp:463-483 and 487-508: resolve names to instances,
    appending to the request list; [None]: unknown name with STRICT. *)
Fixpoint collect (strict : bool) (l : list cspec) (names : list string) (acc : list nat) : option (list nat) :=
  match names with
  | [] => Some acc
  | n :: names' =>
      match by_name l n with
      | None => if strict then None else collect strict l names' acc
      | Some i => collect strict l names' (acc ++ [i])
      end
  end.

(** Result of the resource management scan 517-586. *)
Inductive scan_res :=
| ScanRefused (start stop : list cinfo)
| ScanOk (infos start stop : list cinfo).

(** [std::find] over a request vector (controller_manager.cpp:530-537). *)
Definition mem (i : nat) (l : list nat) : bool := existsb (Nat.eqb i) l.

(** controller_manager.cpp:517-586. *)
Fixpoint scan (strict : bool) (h : heap) (startr stopr : list nat) (l : list cspec)
              (infos start stop : list cinfo) : scan_res :=
  match l with
  | [] => ScanOk infos start stop
  | c :: l' =>
      let in_stop0 := mem (sp_inst c) stopr in
      let in_start0 := mem (sp_inst c) startr in
      let run := is_running h (sp_inst c) in
      (* 542-551 *)
      if negb run && in_stop0 && strict then ScanRefused start stop else
      let in_stop := if negb run && in_stop0 then false else in_stop0 in
      (* 553-562 *)
      if run && negb in_stop && in_start0 && strict then ScanRefused start stop else
      let in_start := if run && negb in_stop && in_start0 then false else in_start0 in
      (* 564-569 *)
      if in_stop && in_start then ScanRefused start stop else
      (* 571-576 *)
      let stop' := if run && in_stop && negb in_start then stop ++ [sp_info c] else stop in
      let start' := if run && in_stop && negb in_start then start
                    else if negb run && negb in_stop && in_start then start ++ [sp_info c] else start in
      (* 578-585 *)
      let add := if in_start then true else if in_stop then false else run in
      let infos' := if add then infos ++ [sp_info c] else infos in
      scan strict h startr stopr l' infos' start' stop'
  end.

(** Update of the members involved in switching
    (controller_manager.cpp:470, 494-495, 592-593, 600-601, 606-610, 631-632). *)
Definition set_switch (s : cm) (sw : swparams) (start stop : list nat) (hs ht : list cinfo) (c : call) : cm :=
  mkCM (cm_list s) (cm_heap s) (cm_next s) sw start stop hs ht (cm_loaders s) c.

(** controller_manager.cpp:436-610 [switchController] up to the wait loop.
    Result [true]: the request was handed to the control loop and the caller now
    waits; [false]: the request was refused. *)
Definition switch_begin (startn stopn : list string) (strictness : Z) (asap : bool) (timeout now : Z)
    (check : list cinfo -> bool) (prep : list cinfo -> list cinfo -> bool) (k : cont) (s : cm)
  : cm * list event * bool :=
  let strictness := if strictness =? 0 then BEST_EFFORT else strictness in   (* 445-450 *)
  let strict := strictness =? STRICT in
  match collect strict (cm_list s) stopn (cm_stop s) with
  | None => (set_switch s sw_default (cm_start s) [] (cm_hwstart s) (cm_hwstop s) Idle, [], false)   (* 470-471 *)
  | Some stopr =>
  match collect strict (cm_list s) startn (cm_start s) with
  | None => (set_switch s sw_default [] [] (cm_hwstart s) (cm_hwstop s) Idle, [], false)    (* 494-496 *)
  | Some startr =>
  match scan strict (cm_heap s) startr stopr (cm_list s) [] [] [] with
  | ScanRefused hs ht => (set_switch s sw_default [] [] hs ht Idle, [], false)
  | ScanOk infos hs ht =>
      if check infos then (set_switch s sw_default [] [] hs ht Idle, [], false)             (* 588-595 *)
      else if negb (prep hs ht) then
        (set_switch s sw_default [] [] hs ht Idle, [EvPrepare hs ht false], false)          (* 597-603 *)
      else
        (set_switch s (mkSw true false now strictness asap timeout) startr stopr hs ht
                    (WaitSwitch timeout k),
         [EvPrepare hs ht true], true)                                                      (* 606-610 *)
  end end end.

(** controller_manager.cpp:669-676: unload one after the other, stop at the
    first failure. *)
Fixpoint unload_all (names : list string) (s : cm) : cm * list event * bool :=
  match names with
  | [] => (s, [], true)
  | n :: names' =>
      let '(s1, e1, ok) := unload_controller n s in
      if ok then let '(s2, e2, ok2) := unload_all names' s1 in (s2, e1 ++ e2, ok2)
      else (s1, e1, false)
  end.

(** controller_manager.cpp:682-686: one reload event per registered loader. *)
Fixpoint reload_events (k : nat) (ls : list loader) : list event :=
  match ls with
  | [] => []
  | _ :: ls' => EvReload k :: reload_events (S k) ls'
  end.

(** controller_manager.cpp:669-691: the part of reloadControllerLibrariesSrv
    after the controllers have been stopped. Simplification: what the loaders
    declare after the reload is unchanged (a later [RegisterLoader]-free model
    could vary it; no theorem depends on it). *)
Definition reload_tail (names : list string) (s : cm) : cm * list event * answer :=
  let '(s1, e1, ok) := unload_all names s in
  if ok then
    match cm_list s1 with
    | [] => (s1, e1 ++ reload_events 0 (cm_loaders s1), ABool true)
    | _ => (s1, e1, AAssert)
    end
  else (s1, e1, ABool false).

(** Leaving switchController with result [b] (631-638), towards the caller [k]. *)
Definition switch_return (b : bool) (clear : bool) (k : cont) (s : cm) : cm * list event * answer :=
  let s1 := set_switch s (cm_sw s) (if clear then [] else cm_start s) (if clear then [] else cm_stop s)
                       (cm_hwstart s) (cm_hwstop s) Idle in
  match k with
  | KReturn => (s1, [], ABool b)
  | KReload names => if b then reload_tail names s1 else (s1, [], ABool false)
  end.

(** controller_manager.cpp:616-638: one evaluation of the wait loop. [ok1] is
    [ros::ok()] in the loop condition, [ok2] in the body (618), [wall] the
    system clock time since the request was handed over. *)
Definition poll (wall : Z) (ok1 ok2 : bool) (timeout : Z) (k : cont) (s : cm) : cm * list event * answer :=
  if ok1 && sw_do (cm_sw s) then
    if negb ok2 then switch_return false false k s                                   (* 618-621 *)
    else if (wall <? timeout + 1000000000) || (timeout =? 0) then (s, [], ANone)     (* 623-624 *)
    else switch_return false true k s                                                (* 626-628, 633-636 *)
  else switch_return true true k s.                                                  (* 631-638 *)

(* ---------------------------------------------------------------- listing *)

(** controller_manager.cpp:757-781: the reported state string. *)
Definition state_string (h : heap) (i : nat) : string :=
  if is_initialized h i then "initialized"
  else if is_running h i then "running"
  else if is_stopped h i then "stopped"
  else if is_waiting h i then "waiting"
  else if is_aborted h i then "aborted"
  else "unknown".

(** controller_manager.cpp:722-786 [listControllersSrv]. *)
Definition list_controllers (s : cm) : list lc_entry :=
  map (fun c => mkEntry (ci_name (sp_info c)) (ci_type (sp_info c)) (ci_claims (sp_info c))
                        (state_string (cm_heap s) (sp_inst c))) (cm_list s).

(** controller_manager.cpp:695-719 [listControllerTypesSrv]: (type, base class). *)
Definition list_types (s : cm) : list (string * string) :=
  flat_map (fun l => map (fun cr => (fst cr, ld_name l)) (ld_classes l)) (cm_loaders s).

(* ---------------------------------------------------------------- step *)

(** controller_manager.cpp:837-840 [registerControllerLoader]. *)
Definition set_loaders (s : cm) (ls : list loader) : cm :=
  mkCM (cm_list s) (cm_heap s) (cm_next s) (cm_sw s) (cm_start s) (cm_stop s)
       (cm_hwstart s) (cm_hwstop s) ls (cm_call s).

(** One operation: the public entry points of controller_manager.cpp:229-840.  A
    service call made while a switch request waits for the control loop blocks on
    services_lock_ / controllers_lock_ (459, 648, 704, 731-735, 795, 811, 827): [ABlocked]. *)
Definition step (s : cm) (o : op) : cm * list event * answer :=
  match o, cm_call s with
  | Cycle t p r hw, _ => let (s', e) := update t p r hw s in (s', e, ANone)
  | RegisterLoader l, _ =>                                                            (* 837-840: takes no lock *)
      (set_loaders s (cm_loaders s ++ [l]), [], ANone)
  | Poll w ok1 ok2, WaitSwitch timeout k => poll w ok1 ok2 timeout k s
  | Poll _ _ _, Idle => (s, [], ABlocked)
  | _, WaitSwitch _ _ => (s, [], ABlocked)
  | Load n env, Idle =>
      let '(s', e, b) := load_controller n env s in (s', e, ABool b)
  | Unload n, Idle =>
      let '(s', e, b) := unload_controller n s in (s', e, ABool b)
  | Switch a b st asap tmo now ck pr, Idle =>
      let '(s', e, ok) := switch_begin a b st asap tmo now ck pr KReturn s in
      (s', e, if ok then ANone else ABool false)
  | ListControllers, Idle => (s, [], AList (list_controllers s))
  | ListTypes, Idle => (s, [], ATypes (list_types s))
  | Reload force now ck pr, Idle =>
      let names := controller_names s in
      match names with
      | [] => reload_tail [] s
      | _ =>
          if negb force then (s, [], ABool false)                                     (* 654-658 *)
          else
            let '(s', e, ok) := switch_begin [] names BEST_EFFORT false 0 now ck pr (KReload names) s in
            (s', e, if ok then ANone else ABool false)                                (* 664-668 *)
      end
  end.

(** A history: the state reached and the whole event trace (a sequence of the calls of controller_manager.cpp:66-840). *)
Fixpoint run (s : cm) (ops : list op) : cm * list event :=
  match ops with
  | [] => (s, [])
  | o :: ops' =>
      let '(s1, e1, _) := step s o in
      let (s2, e2) := run s1 ops' in
      (s2, e1 ++ e2)
  end.

(** The default hardware: robot_hw.h:157-184. *)
Definition hw_default : hw_answers := mkHw (fun _ => DONE) (fun _ _ _ => DONE).
