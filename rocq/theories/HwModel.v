(** Model of hardware interfaces, interface managers and controller initialisation:
    hardware_interface/include/hardware_interface/internal/resource_manager.h,
    .../internal/hardware_resource_manager.h, .../internal/interface_manager.h,
    .../hardware_interface.h and
    controller_interface/include/controller_interface/{controller.h,
    multi_interface_controller.h, internal/robothw_interfaces.h}. *)
From Verif Require Export HwTypes SMap.

(** A resource handle: anything with getName() (resource_manager.h:63-67); the
    rest of it (pointers) is an opaque number. *)
Record handle := mkHandle { h_name : string; h_val : nat }.

(* ---------------------------------------------------------------- resource_manager.h *)

(** resource_manager.h:147-148 [ResourceMap resource_map_]. *)
Definition rmap := smap handle.

(** resource_manager.h:77-86 [getNames]. *)
Definition rm_names (m : rmap) : list string := skeys m.

(** resource_manager.h:93-106 [registerHandle]: insert, or replace with a warning. *)
Definition rm_register (m : rmap) (h : handle) : rmap := sset (h_name h) h m.

(** resource_manager.h:113-124 [getHandle]; [None]: std::logic_error is thrown. *)
Definition rm_get (m : rmap) (n : string) : option handle := sfind n m.

(** resource_manager.h:137-139: inner loop of concatManagers.  [getNames()] and [getHandle()]
    are those of the same manager, so no exception is possible here; a missing name
    would be skipped. *)
Definition rm_add_all (r m : rmap) : rmap :=
  fold_left (fun r n => match rm_get m n with Some h => rm_register r h | None => r end) (rm_names m) r.

(** resource_manager.h:134-142 [concatManagers]. *)
Definition rm_concat (ms : list rmap) (r : rmap) : rmap := fold_left rm_add_all ms r.

(* ---------------------------------------------------------------- hardware_resource_manager.h *)

(** An interface object: its resource map (resource_manager.h:148) and its claims
    (hardware_interface.h:66 [std::set<std::string> claims_]). *)
Record hobj := mkObj { ho_map : rmap; ho_claims : list string }.

(** What the C++ type of an interface fixes: is it a ResourceManager
    (interface_manager.h:50-109), is its ClaimPolicy ClaimResources
    (hardware_resource_manager.h:78-79, 117-125). *)
Record tkind := mkKind { tk_rm : bool; tk_claiming : bool }.

(** hardware_interface.h:55 [claim]. *)
Definition claim (o : hobj) (n : string) : hobj := mkObj (ho_map o) (set_insert n (ho_claims o)).
(** hardware_interface.h:58 [clearClaims]. *)
Definition clear_claims (o : hobj) : hobj := mkObj (ho_map o) [].
(** resource_manager.h:93-106 on an interface object. *)
Definition add_handle (o : hobj) (h : handle) : hobj := mkObj (rm_register (ho_map o) h) (ho_claims o).

(** hardware_resource_manager.h:96-111 [getHandle]; [None]: HardwareInterfaceException
    is thrown. *)
Definition hw_get_handle (claiming : bool) (o : hobj) (n : string) : hobj * option handle :=
  match rm_get (ho_map o) n with
  | None => (o, None)
  | Some h => (if claiming then claim o n else o, Some h)
  end.

(* ---------------------------------------------------------------- interface_manager.h *)

(** All interface objects, by address; [w_next] is the next unused address
    (objects of hardware_interface.h:46-67 and resource_manager.h:68-149). *)
Record world := mkWorld { w_obj : nat -> hobj; w_next : nat }.

(** Assignment to one object (C++ object state; no source line of its own)
    (hardware_interface.h:55-58, resource_manager.h:95-105). *)
Definition set_obj (w : world) (i : nat) (o : hobj) : world :=
  mkWorld (fun j => if Nat.eqb j i then o else w_obj w j) (w_next w).

(** interface_manager.h:85-92 "new T": a new empty interface. *)
Definition new_obj (w : world) (m : rmap) : world :=
  mkWorld (fun j => if Nat.eqb j (w_next w) then mkObj m [] else w_obj w j) (S (w_next w)).

(** interface_manager.h:301-313 [class InterfaceManager]: interfaces_ (a registered pointer
    may be null: [None]), interfaces_combo_, num_ifaces_registered_, resources_,
    interface_managers_.  Simplification: sub-managers are part of their parent (a
    tree; a manager registered with two parents, or with itself, is not modelled).
    interface_destruction_list_ only matters for the destructor and is left out. *)
Inductive mgr := Mgr (ifaces : smap (option nat)) (combo : smap nat) (num : smap nat)
                     (res : smap (list string)) (subs : list mgr).

(** The default constructor (interface_manager.h:122-147, 307-313). *)
Definition mgr_new : mgr := Mgr [] [] [] [] [].

(** interface_manager.h:138-147 [registerInterface]; [None]: undefined behaviour
    (getNames() is called on a null pointer, 74). *)
Definition register_interface (k : tkind) (w : world) (m : mgr) (T : string) (p : option nat) : option mgr :=
  match m with
  | Mgr ifaces combo num res subs =>
      match tk_rm k, p with
      | true, None => None
      | true, Some i => Some (Mgr (sset T p ifaces) combo num (sset T (rm_names (ho_map (w_obj w i))) res) subs)
      | false, _ =>
          Some (Mgr (sset T p ifaces) combo num
                    (match sfind T res with None => sset T [] res | Some _ => res end) subs)
      end
  end.

(** interface_manager.h:157-160 [registerInterfaceManager]. *)
Definition register_manager (m sub : mgr) : mgr :=
  match m with Mgr ifaces combo num res subs => Mgr ifaces combo num res (subs ++ [sub]) end.

(** interface_manager.h:207-238: what is done with the interfaces found ([l]). *)
Definition combine (k : tkind) (T : string) (w : world) (combo : smap nat) (num : smap nat) (l : list nat)
  : smap nat * smap nat * world * option nat :=
  match l with
  | [] => (combo, num, w, None)                                                       (* 207-208 *)
  | [i] => (combo, num, w, Some i)                                                    (* 210-211 *)
  | _ =>
      let fresh :=
        if tk_rm k then                                                               (* 225-231 *)
          (sset T (w_next w) combo, sset T (length l) num,
           new_obj w (rm_concat (map (fun i => ho_map (w_obj w i)) l) []), Some (w_next w))
        else (combo, num, w, None) in                                                 (* 232-236 *)
      match sfind T combo, sfind T num with
      | Some c, Some n => if Nat.eqb n (length l) then (combo, num, w, Some c) else fresh    (* 216-222 *)
      | _, _ => fresh
      end
  end.

(** interface_manager.h:182-239 [get<T>].  Returns the manager and the world with their
    caches updated, and the pointer. *)
Fixpoint get (k : tkind) (T : string) (m : mgr) (w : world) {struct m} : mgr * world * option nat :=
  match m with
  | Mgr ifaces combo num res subs =>
      match sfind T ifaces with
      | Some None => (m, w, None)                                                     (* 191-195 *)
      | own =>
          let '(subs', w1, found) :=                                                  (* 201-206 *)
            (fix gets (l : list mgr) (w : world) : list mgr * world * list nat :=
               match l with
               | [] => ([], w, [])
               | x :: l' =>
                   let '(x', w1, r) := get k T x w in
                   let '(l2, w2, rs) := gets l' w1 in
                   (x' :: l2, w2, (match r with Some i => [i] | None => [] end) ++ rs)
               end) subs w in
          let mine := match own with Some (Some i) => [i] | _ => [] end in
          let '(combo', num', w2, p) := combine k T w1 combo num (mine ++ found) in
          (Mgr ifaces combo' num' res subs', w2, p)
      end
  end.

(** interface_manager.h:261-268: add those not yet present. *)
Definition add_new (out names : list string) : list string :=
  fold_left (fun out n => if existsb (String.eqb n) out then out else out ++ [n]) names out.

(** interface_manager.h:250-272 [getNames]. *)
Fixpoint im_names (m : mgr) : list string :=
  match m with
  | Mgr ifaces _ _ _ subs => fold_left (fun out s => add_new out (im_names s)) subs (skeys ifaces)
  end.

(** interface_manager.h:283-299 [getInterfaceResources]. *)
Fixpoint iface_resources (T : string) (m : mgr) : list string :=
  match m with
  | Mgr _ _ _ res subs =>
      match sfind T res with Some l => l | None => [] end ++ flat_map (iface_resources T) subs
  end.

(* ---------------------------------------------------------------- controller initialisation *)

(** The user's init(): a sequence of calls getHandle(name) on an interface object;
    [caught]: the controller catches a HardwareInterfaceException.  [b_ret]: its result,
    [None]: it throws.  Simplification: an init body cannot register interfaces or
    handles, nor clear claims
    (controller.h:69, 86, multi_interface_controller.h:217-220: functions overridden by the user). *)
Record body (R : Type) := mkBody { b_calls : list (R * string * bool); b_ret : option bool }.
Arguments mkBody {R} _ _.
Arguments b_calls {R} _.
Arguments b_ret {R} _.

(** Running such a body; [locate] finds the object ([None]: the controller has a null
    pointer and makes no call) (the calls are hardware_resource_manager.h:96-111). *)
Fixpoint run_calls {R} (locate : R -> option (nat * bool)) (l : list (R * string * bool)) (w : world) : world * bool :=
  match l with
  | [] => (w, true)
  | (r, n, caught) :: l' =>
      match locate r with
      | None => run_calls locate l' w
      | Some (i, claiming) =>
          match hw_get_handle claiming (w_obj w i) n with
          | (_, None) => if caught then run_calls locate l' w else (w, false)
          | (o, Some _) => run_calls locate l' (set_obj w i o)
          end
      end
  end.
(** One call of init(): [None] = an exception leaves it (controller.h:119, multi_interface_controller.h:265). *)
Definition run_body {R} (locate : R -> option (nat * bool)) (b : body R) (w : world) : world * option bool :=
  let (w1, ok) := run_calls locate (b_calls b) w in (w1, if ok then b_ret b else None).

(** "!init(hw, controller_nh) || !init(hw, root_nh, controller_nh)"
    (controller.h:119, multi_interface_controller.h:265). *)
Definition run_both {R} (locate : R -> option (nat * bool)) (b1 b2 : body R) (w : world) : world * option bool :=
  match run_body locate b1 w with
  | (w1, Some true) => run_body locate b2 w1
  | r => r
  end.

(** Outcome of initRequest; CMModel's [init_res] is the manager's view of it
    (controller.h:96-131, multi_interface_controller.h:245-282). *)
Inductive init_out := OutOk (claims : list iface_res) | OutFalse | OutThrow.

(** controller.h:96-131 [Controller<T>::initRequest], for a controller in state CONSTRUCTED
    (102-105: otherwise it returns false, see [init_request_state]).  The body's
    calls go to any interface objects it can reach, [None] standing for its own
    interface. *)
Definition init_request (k : tkind) (T : string) (others : nat -> option (nat * bool)) (b1 b2 : body (option nat))
    (m : mgr) (w : world) : mgr * world * init_out :=
  let '(m1, w1, p) := get k T m w in                                                  (* 108 *)
  match p with
  | None => (m1, w1, OutFalse)                                                        (* 109-115 *)
  | Some hw =>
      let w2 := set_obj w1 hw (clear_claims (w_obj w1 hw)) in                         (* 118 *)
      let locate r := match r with None => Some (hw, tk_claiming k) | Some j => others j end in
      match run_both locate b1 b2 w2 with
      | (w3, Some true) =>
          (m1, set_obj w3 hw (clear_claims (w_obj w3 hw)),                            (* 126 *)
           OutOk [mkIface T (ho_claims (w_obj w3 hw))])                               (* 124-125 *)
      | (w3, Some false) => (m1, w3, OutFalse)                                        (* 119-123 *)
      | (w3, None) => (m1, w3, OutThrow)
      end
  end.

(** robothw_interfaces.h:66-85 [hasInterfaces]: from left to right until one is missing. *)
Fixpoint has_interfaces (kd : string -> tkind) (Ts : list string) (m : mgr) (w : world) : mgr * world * bool :=
  match Ts with
  | [] => (m, w, true)
  | T :: Ts' =>
      let '(m1, w1, p) := get (kd T) T m w in
      match p with None => (m1, w1, false) | Some _ => has_interfaces kd Ts' m1 w1 end
  end.

(** robothw_interfaces.h:106-120 [extractInterfaceResources].  The pointer is not null, so
    registerInterface cannot fail (see [register_interface]). *)
Fixpoint extract (kd : string -> tkind) (Ts : list string) (m : mgr) (w : world) (out : mgr) : mgr * world * mgr :=
  match Ts with
  | [] => (m, w, out)
  | T :: Ts' =>
      let '(m1, w1, p) := get (kd T) T m w in
      match p with
      | None => extract kd Ts' m1 w1 out
      | Some i => extract kd Ts' m1 w1 (match register_interface (kd T) w1 out T (Some i) with Some o => o | None => out end)
      end
  end.

(** [robot_hw_ctrl_.get<T>()]: that manager has no sub-managers, so the lookup is plain
    (interface_manager.h:182-211). *)
Definition flat_get (out : mgr) (T : string) : option nat :=
  match out with Mgr ifaces _ _ _ _ => match sfind T ifaces with Some p => p | None => None end end.

(** robothw_interfaces.h:88-103 [clearClaims]. *)
Definition clear_all (Ts : list string) (out : mgr) (w : world) : world :=
  fold_left (fun w T => match flat_get out T with Some i => set_obj w i (clear_claims (w_obj w i)) | None => w end) Ts w.

(** robothw_interfaces.h:123-143 [populateClaimedResources]. *)
Definition populate (Ts : list string) (out : mgr) (w : world) : list iface_res :=
  flat_map (fun T => match flat_get out T with Some i => [mkIface T (ho_claims (w_obj w i))] | None => [] end) Ts.

(** multi_interface_controller.h:245-282 [MultiInterfaceController<T...>::initRequest] for a
    controller in state CONSTRUCTED.  [seen]: the RobotHW passed to init().  The body
    names interfaces by their type. *)
Definition multi_init (kd : string -> tkind) (optional : bool) (Ts : list string) (b1 b2 : body string)
    (m : mgr) (w : world) : mgr * world * option mgr * init_out :=
  let '(m1, w1, ok) := if optional then (m, w, true) else has_interfaces kd Ts m w in  (* 257 *)
  if ok then
    let '(m2, w2, out) := extract kd Ts m1 w1 mgr_new in                              (* 260-261 *)
    let w3 := clear_all Ts out w2 in                                                  (* 264 *)
    let locate T := match flat_get out T with Some i => Some (i, tk_claiming (kd T)) | None => None end in
    match run_both locate b1 b2 w3 with
    | (w4, Some true) => (m2, clear_all Ts out w4, Some out, OutOk (populate Ts out w4))  (* 272-274 *)
    | (w4, Some false) => (m2, w4, Some out, OutFalse)
    | (w4, None) => (m2, w4, Some out, OutThrow)
    end
  else (m1, w1, None, OutFalse).

(** controller.h:102-105, 129; multi_interface_controller.h:251-254, 280: the guard on the
    controller state and the state afterwards ([true] = INITIALIZED). *)
Definition init_request_state (constructed : bool) (r : init_out) : init_out * bool :=
  if constructed then (r, match r with OutOk _ => true | _ => false end) else (OutFalse, false).
