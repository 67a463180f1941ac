(** Model of combined_robot_hw/src/combined_robot_hw.cpp and
    combined_robot_hw/include/combined_robot_hw/combined_robot_hw.h. *)
From Verif Require Export HwTypes SMap HwModel.

(** combined_robot_hw.h:104 [robot_hw_list_]: a part is identified by a number and has its
    interfaces (RobotHW derives from InterfaceManager, robot_hw.h:78). *)
Record part := mkPart { pt_id : nat; pt_mgr : mgr }.

(** combined_robot_hw.cpp:227-235: the claimed resources the part has.  [res] are the
    elements of a std::set, hence in ascending order. *)
Definition filter_resources (have res : list string) : list string :=
  fold_left (fun out r => if existsb (String.eqb r) have then set_insert r out else out) res [].

(** combined_robot_hw.cpp:214-241: loop over the claims of one controller. *)
Definition filter_claims (m : mgr) (claims : list iface_res) : list iface_res :=
  fold_left (fun out f =>
    if existsb (String.eqb (ir_iface f)) (im_names m) then                             (* 217-224 *)
      let fr := filter_resources (iface_resources (ir_iface f) m) (ir_res f) in        (* 226-235 *)
      match fr with [] => out | _ => out ++ [mkIface (ir_iface f) fr] end              (* 236-240 *)
    else out) claims [].

(** combined_robot_hw.cpp:198-247 [filterControllerList]. *)
Definition filter_list (m : mgr) (l : list cinfo) : list cinfo :=
  fold_left (fun out c =>
    match ci_claims c with
    | [] => out ++ [mkInfo (ci_name c) (ci_type c) []]                                 (* 209-213 *)
    | _ =>
        match filter_claims m (ci_claims c) with
        | [] => out                                                                    (* 242 *)
        | fc => out ++ [mkInfo (ci_name c) (ci_type c) fc]                             (* 242-245 *)
        end
    end) l [].

(** Calls made to the parts (combined_robot_hw.cpp:69, 88, 184, 194). *)
Inductive pcall :=
| PPrepare (id : nat) (start stop : list cinfo) (answer : bool)
| PDo (id : nat) (start stop : list cinfo)
| PRead (id : nat) (time period : Z)
| PWrite (id : nat) (time period : Z).

(** combined_robot_hw.cpp:56-73 [prepareSwitch]; [ans] gives the answer of each part
    to this call. *)
Fixpoint comb_prepare (ans : nat -> list cinfo -> list cinfo -> bool) (parts : list part) (start stop : list cinfo)
  : list pcall * bool :=
  match parts with
  | [] => ([], true)
  | p :: parts' =>
      let fs := filter_list (pt_mgr p) start in
      let fp := filter_list (pt_mgr p) stop in
      let a := ans (pt_id p) fs fp in
      let c := PPrepare (pt_id p) fs fp a in
      if a then let (cs, r) := comb_prepare ans parts' start stop in (c :: cs, r) else ([c], false)
  end.

(** combined_robot_hw.cpp:75-90 [doSwitch]. *)
Definition comb_do (parts : list part) (start stop : list cinfo) : list pcall :=
  map (fun p => PDo (pt_id p) (filter_list (pt_mgr p) start) (filter_list (pt_mgr p) stop)) parts.

(** combined_robot_hw.cpp:179-186 [read]. *)
Definition comb_read (parts : list part) (t p : Z) : list pcall := map (fun x => PRead (pt_id x) t p) parts.
(** combined_robot_hw.cpp:189-196 [write]. *)
Definition comb_write (parts : list part) (t p : Z) : list pcall := map (fun x => PWrite (pt_id x) t p) parts.

(** robot_hw.h:175-184 [switchResult]: CombinedRobotHW does not override it
    (combined_robot_hw.h:66-98).  [states]: what the parts would report. *)
Definition comb_switch_result (parts : list part) (states : nat -> swstate) : swstate := DONE.

(** What loading one part depends on: the node handle (98-111), its "type" parameter
    (115, 133-137), whether the class is declared (120-126; the plugin registry lists each class
    once) and can be constructed (124, 128-131), and its init() ([None]: it throws, 149-162). *)
Record load_desc := mkLoad { ld_nh : bool; ld_type : option string; ld_declared : bool; ld_created : bool; ld_init : option bool; ld_mgr : mgr }.

(** combined_robot_hw.cpp:92-177 [loadRobotHW], as the new list of parts and the combined manager. *)
Definition load_part (env : string -> load_desc) (st : list part * mgr) (n : string) : option (list part * mgr) :=
  let d := env n in
  if ld_nh d then
    match ld_type d with
    | None => None                                                                     (* 133-137 *)
    | Some _ =>
        if ld_declared d && ld_created d then                                          (* 140-144 *)
          match ld_init d with
          | Some true =>                                                               (* 171-173 *)
              Some (fst st ++ [mkPart (length (fst st)) (ld_mgr d)], register_manager (snd st) (ld_mgr d))
          | _ => None                                                                  (* 164-168 *)
          end
        else None
    end
  else None.

(** combined_robot_hw.cpp:46-52: loop over the names. *)
Fixpoint load_parts (env : string -> load_desc) (st : list part * mgr) (names : list string) : (list part * mgr) * bool :=
  match names with
  | [] => (st, true)
  | n :: names' => match load_part env st n with Some st' => load_parts env st' names' | None => (st, false) end
  end.

(** combined_robot_hw.cpp:33-54 [init] of a fresh object; [robots]: the parameter
    "robot_hardware". *)
Definition comb_init (env : string -> load_desc) (robots : option (list string)) : (list part * mgr) * bool :=
  match robots with
  | None => (([], mgr_new), false)
  | Some names => load_parts env ([], mgr_new) names
  end.
