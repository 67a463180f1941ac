(** Model of the command line scripts of controller_manager: a script is a sequential program
    whose only effects are service calls to a controller manager (CMModel.v).

    Common simplifications: printing, logging and sleeping are left out; the nodes and services
    are taken to exist (rospy.wait_for_service), but any call may raise an exception (see
    [executes]); all calls go to one controller manager; command line parsing and parameter
    server reads are arguments. *)
From Verif Require Export HwTypes Lifecycle CMModel CMSpec.
From Coq Require Import Permutation.

(** A program that calls the services of controller_manager_msgs/srv and ends with a result.
    start_asap is False and timeout is 0.0 in all scripts (SwitchControllerRequest, spawner:65, 212,
    controller_manager_interface.py:102; keyword calls at unspawner:56, 66 and
    controller_manager_interface.py:39 leave them at these defaults of the message). *)
Inductive script (R : Type) :=
| Ret (r : R)
| CLoad (name : string) (k : bool -> script R)
| CUnload (name : string) (k : bool -> script R)
| CSwitch (start stop : list string) (strictness : Z) (k : bool -> script R)
| CList (k : list lc_entry -> script R)
| CReload (force : bool) (k : bool -> script R).
Arguments Ret {R} r.
Arguments CLoad {R} name k.
Arguments CUnload {R} name k.
Arguments CSwitch {R} start stop strictness k.
Arguments CList {R} k.
Arguments CReload {R} force k.

(** Sequential composition of Python statements (as in scripts/spawner:196-216). *)
Fixpoint bind {R S} (p : script R) (f : R -> script S) : script S :=
  match p with
  | Ret r => f r
  | CLoad n k => CLoad n (fun b => bind (k b) f)
  | CUnload n k => CUnload n (fun b => bind (k b) f)
  | CSwitch a b z k => CSwitch a b z (fun x => bind (k x) f)
  | CList k => CList (fun l => bind (k l) f)
  | CReload force k => CReload force (fun b => bind (k b) f)
  end.

(** Python truth of membership in a list, set or dict of names (scripts/unspawner:52, controller_group:104). *)
Definition isin (n : string) (l : list string) : bool := existsb (String.eqb n) l.

(** ** controller_manager_interface.py *)

(** controller_manager_interface.py:58-67 [load_controller]. *)
Definition load_controller (n : string) : script bool := CLoad n (fun ok => Ret ok).
(** controller_manager_interface.py:70-79 [unload_controller]. *)
Definition unload_controller (n : string) : script bool := CUnload n (fun ok => Ret ok).
(** controller_manager_interface.py:98-111 [start_stop_controllers]. *)
Definition start_stop_controllers (start stop : list string) : script bool :=
  CSwitch start stop STRICT (fun ok => Ret ok).
(** controller_manager_interface.py:82-83 [start_controller], 90-91 [stop_controller]. *)
Definition start_controller (n : string) : script bool := start_stop_controllers [n] [].
(** controller_manager_interface.py:90-91 [stop_controller]. *)
Definition stop_controller (n : string) : script bool := start_stop_controllers [] [n].

(** A for loop over names that ignores the results, as in scripts/controller_manager:48-68,
    controller_group:83-86 and controller_manager_interface.py:36-37; the model collects the results. *)
Fixpoint each {R} (f : string -> script R) (names : list string) : script (list R) :=
  match names with
  | [] => Ret []
  | n :: names' => bind (f n) (fun r => bind (each f names') (fun rs => Ret (r :: rs)))
  end.

(** controller_manager_interface.py:15-43 [reload_libraries] with restore=True: the results of the
    reload and, ignored by the script, of the loads and of the start request. *)
Definition reload_libraries_restore (force : bool) : script (bool * list bool * bool) :=
  CList (fun originally =>
  CReload force (fun ok =>
  bind (each load_controller (map en_name originally)) (fun oks =>
  let to_start := map en_name (filter (fun c => String.eqb (en_state c) "running") originally) in
  CSwitch to_start [] BEST_EFFORT (fun started => Ret (ok, oks, started))))).

(** ** scripts/controller_manager *)

(** scripts/controller_manager:59-63 [spawn]. *)
Definition cm_spawn (names : list string) : script (list bool * list bool) :=
  bind (each load_controller names) (fun l => bind (each start_controller names) (fun s => Ret (l, s))).
(** scripts/controller_manager:64-68 [kill]. *)
Definition cm_kill (names : list string) : script (list bool * list bool) :=
  bind (each stop_controller names) (fun s => bind (each unload_controller names) (fun u => Ret (s, u))).

(** ** scripts/spawner *)

(** scripts/spawner:196-203: loads one after the other; [loaded] is the global list. *)
Fixpoint spawner_load (names loaded : list string) : script (list string) :=
  match names with
  | [] => Ret loaded
  | n :: names' => CLoad n (fun ok => spawner_load names' (if ok then loaded ++ [n] else loaded))
  end.

(** scripts/spawner:196-216 (the part of [main] that talks to the manager).  [names] are the controllers
    of 183-193.  Result: the global [loaded], and whether the start request succeeded.
    Simplification: shutdown during this part (207) is in SpawnModel.v. *)
Definition spawner_main (stopped : bool) (names : list string) : script (list string * bool) :=
  bind (spawner_load names []) (fun loaded =>
  if stopped then Ret (loaded, false)
  else CSwitch loaded [] STRICT (fun ok => Ret (loaded, ok))).

(** scripts/spawner:52-72 [shutdown].  Result: the reply to the stop request and the replies to
    the unload requests, all ignored by the script.  An exception ends it (71-72). *)
Definition spawner_shutdown (loaded : list string) : script (bool * list bool) :=
  CSwitch [] loaded STRICT (fun ok =>
  bind (each unload_controller (rev loaded)) (fun us => Ret (ok, us))).

(** ** scripts/unspawner *)

(** scripts/unspawner:51-58 [stop_controllers].  [to_stop] is a set: any list with these
    elements and without duplicates; [order] is the order in which Python enumerates it.
    Result: the new [inhibited] and, ignored by the script, the reply. *)
Definition unspawner_stop (order : list string -> list string) (to_inhibit inhibited : list string) : script (list string * bool) :=
  CList (fun l =>
  let running := map en_name (filter (fun c => String.eqb (en_state c) "running") l) in
  let to_stop := order (filter (fun n => isin n running) (nodup string_dec to_inhibit)) in
  match to_stop with
  | [] => Ret (inhibited, true)
  | _ => CSwitch [] to_stop BEST_EFFORT (fun ok => Ret (nodup string_dec (inhibited ++ to_stop), ok))
  end).

(** scripts/unspawner:63-67 [restart_controllers]. *)
Definition unspawner_restart (order : list string -> list string) (inhibited : list string) : script bool :=
  CSwitch (order inhibited) [] BEST_EFFORT (fun ok => Ret ok).

(** scripts/unspawner:60-69: [stop_controllers] is called once and then by a timer, [n] times altogether,
    until shutdown.  Result: [inhibited], and the replies, ignored by the script. *)
Fixpoint unspawner_timer (order : list string -> list string) (n : nat) (to_inhibit inhibited : list string)
  : script (list string * list bool) :=
  match n with
  | O => Ret (inhibited, [])
  | S n' => bind (unspawner_stop order to_inhibit inhibited) (fun r =>
            bind (unspawner_timer order n' to_inhibit (fst r)) (fun r' => Ret (fst r', snd r :: snd r')))
  end.

(** ** scripts/controller_group *)

(** The parameter 'controller_groups': a dict of lists (keys distinct) (controller_group:46). *)
Definition groups := list (string * list string).

(** controller_group:41-55 [_read_group]; [None] stands for the pair (None, None).  The result sets are
    lists without duplicates. *)
Definition read_group (gs : groups) (g : string) : option (list string * list string) :=
  let desired := nodup string_dec (match find (fun x => String.eqb (fst x) g) gs with Some x => snd x | None => [] end) in
  match desired with
  | [] => None
  | _ =>
      let all := nodup string_dec (flat_map snd gs) in
      Some (desired, filter (fun n => negb (isin n desired)) all)
  end.

(** controller_group:58-67 [_get_loaded_controllers]: a dict from names to "is running". *)
Definition loaded_dict (l : list lc_entry) : list (string * bool) :=
  map (fun c => (en_name c, String.eqb (en_state c) "running")) l.
(** [d.get(n, False)] and [n in d].  Names in the listing are distinct (C17) (controller_group:98, 109). *)
Definition dict_get (n : string) (d : list (string * bool)) : bool :=
  match find (fun x => String.eqb (fst x) n) d with Some x => snd x | None => false end.
(** [n in d] (controller_group:104). *)
Definition dict_in (n : string) (d : list (string * bool)) : bool := isin n (map fst d).

(** How _switch_group ends: without the group (controller_group:91-92), cancelled (105-108), or with the reply to the
    switch request (112). *)
Inductive group_result := NoGroup | Cancelled | Switched (ok : bool).

(** controller_group:101-112: the loop over the desired controllers and the switch. *)
Fixpoint group_load (d : list (string * bool)) (desired to_start to_stop : list string) : script group_result :=
  match desired with
  | [] => CSwitch to_start to_stop STRICT (fun ok => Ret (Switched ok))
  | n :: desired' =>
      let continue := group_load d desired' (if dict_get n d then to_start else to_start ++ [n]) to_stop in
      if dict_in n d then continue
      else CLoad n (fun ok => if ok then continue else Ret Cancelled)
  end.

(** controller_group:89-112 [_switch_group]; [order]: Python's enumeration of a set. *)
Definition switch_group (order : list string -> list string) (gs : groups) (g : string) : script group_result :=
  match read_group gs g with
  | None => Ret NoGroup
  | Some (desired, others) =>
      CList (fun l =>
      let d := loaded_dict l in
      let to_stop := filter (fun n => dict_get n d) (order others) in
      group_load d (order desired) [] to_stop)
  end.

(** controller_group:79-86 [_spawn_group]. *)
Definition spawn_group (order : list string -> list string) (gs : groups) (g : string) : script (list bool * list bool) :=
  match read_group gs g with
  | None => Ret ([], [])
  | Some (desired, _) =>
      bind (each load_controller (order desired)) (fun l =>
      bind (each start_controller (order desired)) (fun s => Ret (l, s)))
  end.

(** ** Executions *)

(** Execution of a script that starts after the history [h] of the manager and leaves it with history [h'].
    Before each call, and while a switch request waits for the control loop, operations that satisfy [W] may
    happen: control cycles, evaluations of wait loops, calls of other clients.  A call is made when the
    manager is not serving another one (it waits for the lock otherwise).  Any call may raise an exception instead,
    also after it has been served or while it is being served ([None]; rospy.ServiceException).  What the environment decides (time, hardware answers, controller
    initialisation) is arbitrary
    (the calls are those of controller_manager_interface.py:15-111, spawner:52-216, unspawner:51-67, controller_group:58-112). *)
Inductive executes (W : op -> Prop) (ls : list loader) {R} : list op -> script R -> list op -> option R -> Prop :=
| ex_env h o p h' r : W o -> executes W ls (h ++ [o]) p h' r -> executes W ls h p h' r
| ex_ret h r : executes W ls h (Ret r) h (Some r)
| ex_raise h p : executes W ls h p h None
| ex_load h n env k b h' r :
    idle ls h -> reply ls h (Load n env) = ABool b ->
    executes W ls (h ++ [Load n env]) (k b) h' r -> executes W ls h (CLoad n k) h' r
| ex_unload h n k b h' r :
    idle ls h -> reply ls h (Unload n) = ABool b ->
    executes W ls (h ++ [Unload n]) (k b) h' r -> executes W ls h (CUnload n k) h' r
| ex_list h k l h' r :
    idle ls h -> reply ls h ListControllers = AList l ->
    executes W ls (h ++ [ListControllers]) (k l) h' r -> executes W ls h (CList k) h' r
| ex_switch_refused h a b z now ck pr k h' r :
    idle ls h -> reply ls h (Switch a b z false 0 now ck pr) = ABool false ->
    executes W ls (h ++ [Switch a b z false 0 now ck pr]) (k false) h' r -> executes W ls h (CSwitch a b z k) h' r
| ex_switch h a b z now ck pr mid w ok1 ok2 x k h' r :
    idle ls h -> reply ls h (Switch a b z false 0 now ck pr) = ANone ->
    Forall W mid -> W (Poll w ok1 ok2) -> still_waiting ls (h ++ [Switch a b z false 0 now ck pr]) mid ->
    reply ls ((h ++ [Switch a b z false 0 now ck pr]) ++ mid) (Poll w ok1 ok2) = ABool x ->
    executes W ls (((h ++ [Switch a b z false 0 now ck pr]) ++ mid) ++ [Poll w ok1 ok2]) (k x) h' r ->
    executes W ls h (CSwitch a b z k) h' r
| ex_switch_lost h a b z now ck pr mid k :
    idle ls h -> reply ls h (Switch a b z false 0 now ck pr) = ANone -> Forall W mid ->
    executes W ls h (CSwitch a b z k) ((h ++ [Switch a b z false 0 now ck pr]) ++ mid) None
| ex_reload_now h force now ck pr b k h' r :
    idle ls h -> reply ls h (Reload force now ck pr) = ABool b ->
    executes W ls (h ++ [Reload force now ck pr]) (k b) h' r -> executes W ls h (CReload force k) h' r
| ex_reload h force now ck pr mid w ok1 ok2 x k h' r :
    idle ls h -> reply ls h (Reload force now ck pr) = ANone ->
    Forall W mid -> W (Poll w ok1 ok2) -> still_waiting ls (h ++ [Reload force now ck pr]) mid ->
    reply ls ((h ++ [Reload force now ck pr]) ++ mid) (Poll w ok1 ok2) = ABool x ->
    executes W ls (((h ++ [Reload force now ck pr]) ++ mid) ++ [Poll w ok1 ok2]) (k x) h' r ->
    executes W ls h (CReload force k) h' r
| ex_reload_lost h force now ck pr mid k :
    idle ls h -> reply ls h (Reload force now ck pr) = ANone -> Forall W mid ->
    executes W ls h (CReload force k) ((h ++ [Reload force now ck pr]) ++ mid) None.
