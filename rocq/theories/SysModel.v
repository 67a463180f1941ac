(** A controller manager on a robot: the manager of CMModel with the claims its controllers make in the interfaces of
    HwModel, the default conflict check of ConflictModel and the parts of CombModel.  A robot without parts is a RobotHW
    that overrides none of the switching functions (robot_hw.h:155-184). *)
From Verif Require Export HwTypes Lifecycle SMap ConflictModel CMModel HwModel CombModel.
Open Scope Z_scope.
Local Open Scope list_scope.

(** What a controller does when it is initialised: a Controller<T> (controller.h:96-131) or a
    MultiInterfaceController<T...> (multi_interface_controller.h:245-282) with the two init() functions of the user.
    Simplification: the init() of a Controller<T> uses the interface it is given and no other. *)
Inductive request :=
| Single (T : string) (b1 b2 : body (option nat))
| Multi (optional : bool) (Ts : list string) (b1 b2 : body string).

(** controller_manager.h:180 [robot_hw_]: its interfaces and its parts (combined_robot_hw.h:104).  Simplification: a
    lookup may build combined interfaces inside a part; the copy of the part's manager in [rb_parts] keeps what was
    registered, which is all that filterControllerList (combined_robot_hw.cpp:198-247) reads. *)
Record robot := mkRobot { rb_mgr : mgr; rb_world : world; rb_parts : list part }.

(** controller_manager.cpp:324 "c->initRequest(robot_hw_, root_nh_, c_nh, claimed_resources)" of a controller that was
    just constructed. *)
Definition init_on (kd : string -> tkind) (rb : robot) (q : request) : robot * init_out :=
  match q with
  | Single T b1 b2 =>
      let '(m, w, r) := init_request (kd T) T (fun _ => None) b1 b2 (rb_mgr rb) (rb_world rb) in (mkRobot m w (rb_parts rb), r)
  | Multi optional Ts b1 b2 =>
      let '(m, w, _, r) := multi_init kd optional Ts b1 b2 (rb_mgr rb) (rb_world rb) in (mkRobot m w (rb_parts rb), r)
  end.
(** controller_manager.cpp:323-340: what loadController makes of the outcome. *)
Definition seen_init (r : init_out) : init_res :=
  match r with OutOk claims => InitOk claims | OutFalse => InitFalse | OutThrow => InitThrow end.

(** Operations, as in CMModel.  [ans]: the answers of the parts to prepareSwitch (combined_robot_hw.cpp:66).  [states]: what
    switchResult of the parts would return during this cycle. *)
Inductive sysop :=
| SLoad (name : string) (nh_ok : bool) (type : option string) (q : request)
| SUnload (name : string)
| SSwitch (start stop : list string) (strictness : Z) (asap : bool) (timeout now : Z) (ans : nat -> list cinfo -> list cinfo -> bool)
| SReload (force : bool) (now : Z) (ans : nat -> list cinfo -> list cinfo -> bool)
| SPoll (wall : Z) (ok1 ok2 : bool)
| SCycle (time period : Z) (reset : bool) (states : nat -> swstate)
| SListControllers
| SListTypes
| SRegisterLoader (l : loader).

(** The manager and the robot it points to (controller_manager.h:180). *)
Record sys := mkSys { sy_cm : cm; sy_rb : robot }.

(** controller_manager.cpp:242-324: the load request gets as far as initRequest. *)
Definition gets_to_init (s : cm) (name : string) (nh_ok : bool) (type : option string) : bool :=
  match cm_call s with
  | Idle => negb (existsb (fun c => String.eqb (ci_name (sp_info c)) name) (cm_list s)) && nh_ok &&
            match type with Some ty => fst (construct ty 0 (cm_loaders s)) | None => false end
  | _ => false
  end.

(** The hardware as the manager sees it: prepareSwitch of combined_robot_hw.cpp:56-73, checkForConflict of
    robot_hw.h:113-146 (not overridden), switchResult of robot_hw.h:175-184 (not overridden). *)
Definition hw_of (parts : list part) (states : nat -> swstate) : hw_answers :=
  mkHw (fun _ => comb_switch_result parts states) (fun _ _ _ => comb_switch_result parts states).
(** combined_robot_hw.cpp:56-73 [prepareSwitch]: its result. *)
Definition prepare_of (parts : list part) (ans : nat -> list cinfo -> list cinfo -> bool) (start stop : list cinfo) : bool :=
  snd (comb_prepare ans parts start stop).
(** The operation the manager performs (controller_manager.cpp:66-840). *)
Definition cm_op (kd : string -> tkind) (s : sys) (o : sysop) : op :=
  let parts := rb_parts (sy_rb s) in
  match o with
  | SLoad n nh ty q => Load n (mkEnv nh ty (seen_init (snd (init_on kd (sy_rb s) q))))
  | SUnload n => Unload n
  | SSwitch a b z asap tmo now ans => Switch a b z asap tmo now check_for_conflict (prepare_of parts ans)
  | SReload f now ans => Reload f now check_for_conflict (prepare_of parts ans)
  | SPoll w k1 k2 => Poll w k1 k2
  | SCycle t p r states => Cycle t p r (hw_of parts states)
  | SListControllers => ListControllers
  | SListTypes => ListTypes
  | SRegisterLoader l => RegisterLoader l
  end.

(** What happens: what the manager does, an initRequest (the instance it is for, what it asks for, its outcome), a call
    of a part (controller_manager.cpp:66-840, combined_robot_hw.cpp:69, 88). *)
Inductive sysev := Of (e : event) | Inited (i : nat) (q : request) (r : init_out) | OfPart (c : pcall).

(** The answers of the parts during an operation (combined_robot_hw.cpp:69). *)
Definition answers_of (o : sysop) : nat -> list cinfo -> list cinfo -> bool :=
  match o with SSwitch _ _ _ _ _ _ ans | SReload _ _ ans => ans | _ => fun _ _ _ => true end.
(** The calls of the parts that a call of the robot leads to: combined_robot_hw.cpp:56-73, 75-90. *)
Definition part_calls (parts : list part) (ans : nat -> list cinfo -> list cinfo -> bool) (e : event) : list pcall :=
  match e with
  | EvPrepare a b _ => fst (comb_prepare ans parts a b)
  | EvDo a b => comb_do parts a b
  | _ => []
  end.
(** A call of the robot and the calls of its parts it leads to (combined_robot_hw.cpp:56-90). *)
Definition expand (parts : list part) (ans : nat -> list cinfo -> list cinfo -> bool) (e : event) : list sysev :=
  Of e :: map OfPart (part_calls parts ans e).

(** One operation of the whole: controller_manager.cpp:66-840 with the calls of robot_hw_ at 120, 153-163, 197-202, 324, 588, 597.
    Simplification: an initRequest is recorded before the createInstance calls of the same load request (284-301), which precede it. *)
Definition sys_step (kd : string -> tkind) (s : sys) (o : sysop) : sys * list sysev * answer :=
  let '(c, e, a) := step (sy_cm s) (cm_op kd s o) in
  let ev := flat_map (expand (rb_parts (sy_rb s)) (answers_of o)) e in
  match o with
  | SLoad n nh ty q =>
      if gets_to_init (sy_cm s) n nh ty
      then let (rb, r) := init_on kd (sy_rb s) q in (mkSys c rb, Inited (cm_next (sy_cm s)) q r :: ev, a)
      else (mkSys c (sy_rb s), ev, a)
  | _ => (mkSys c (sy_rb s), ev, a)
  end.
(** A history (a sequence of the calls of controller_manager.cpp:66-840). *)
Fixpoint sys_run (kd : string -> tkind) (s : sys) (ops : list sysop) : sys * list sysev :=
  match ops with
  | [] => (s, [])
  | o :: ops' => let '(s1, e1, _) := sys_step kd s o in let (s2, e2) := sys_run kd s1 ops' in (s2, e1 ++ e2)
  end.
(** A new manager (controller_manager.cpp:45-62) for a robot. *)
Definition sys_init (ls : list loader) (rb : robot) : sys := mkSys (cm_init ls) rb.
