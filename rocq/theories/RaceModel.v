(** Interleaving model of the controller manager's two threads: the control loop
    (update) and the thread holding controllers_lock_ (loadController,
    unloadController, switchController).  One action is one access to the shared
    data; any interleaving is an execution.

    controller_manager/include/controller_manager/controller_manager.h:191-218 and
    controller_manager/src/controller_manager.cpp as cited below.

    Simplifications: sequential consistency (the C++ variables are plain, not
    atomic: see DESIGN.md); a controller is a number; its state is the one bit
    isRunning(); all lock holders are one thread, because they exclude each other. *)
From Coq Require Export List Bool Arith Lia.
Export ListNotations.

(** Index into [controllers_lists_[2]] (controller_manager.h:214): [false] = 0. *)
Definition buf := bool.

(** Position of the control loop inside update() (controller_manager.cpp:66-90).
    [RtLoaded b]: current_controllers_list_ has been read (68), used_by_realtime_
    not yet written.  [RtReset k m]: in the loop 71-78 at element [k], [m] = between
    stopRequest and startRequest.  [RtUpdate k]: in the loop 82-83.  [RtSw k]:
    in manageSwitch (115-136), at request number [k]. *)
Inductive rtpc := RtIdle | RtLoaded (b : buf) | RtReset (k : nat) (mid : bool) | RtUpdate (k : nat) | RtSw (k : nat).

(** What the lock holder is asked to do (controller_manager.cpp:229, 367). *)
Inductive nop := OLoad | OUnload (i : nat).

(** Position of the lock holder.  [NWait1]: first wait loop (238-245, 376-383).
    [NBuild o ok]: after it, filling [to]; [ok]: the controller to unload was seen
    and was not running (393-401).  [NReady]: [to] is complete (347, 413).
    [NWait2 former]: second wait loop (352-359, 419-426).  [NClear former]: about to
    execute from.clear() (360, 428).  [NSwitch]: in the wait loop of switchController (616-630). *)
Inductive npc := NIdle | NWait1 (o : nop) | NBuild (o : nop) (ok : bool) | NReady | NWait2 (former : buf) | NClear (former : buf) | NSwitch.

(** Shared data: [controllers_lists_], [current_controllers_list_] (=0),
    [used_by_realtime_] (=-1, here [None]), [switch_params_.do_switch] (=false), the
    request vectors as one list of (controller, start?), the controllers' isRunning,
    and the number of controllers constructed so far (controller_manager.h:188-218). *)
Record st := mkSt {
  l0 : list nat; l1 : list nat; cur : buf; used : option buf;
  dosw : bool; reqs : list (nat * bool);
  flags : nat -> bool; next : nat;
  rt : rtpc; nrt : npc }.

(** controller_manager.h:188-218, member initialisers. *)
Definition init : st := mkSt [] [] false None false [] (fun _ => false) 0 RtIdle NIdle.

(** [controllers_lists_[b]] (controller_manager.h:214). *)
Definition lists (s : st) (b : buf) : list nat := if b then l1 s else l0 s.

(** Observations.  [EBegin b l]: the control loop starts iterating list [b], whose
    contents are [l].  [EVisit i]: it calls updateRequest of [i].  [EEnd]: it is through.
    [EWrite b]: list [b] is modified.  [ECommit l]: [l] becomes the current list.
    [ECb i v]: [i] is started/stopped.  [EDestroy i r]: the last reference to [i] is
    dropped, [r] = it was running.  [EReqBegin]/[EReqEnd]/[EReqWrite]: the request
    vectors are iterated / modified.  [EUB]: an iterator runs past a list that shrank
    (controller_manager.cpp:66-90, 115-148, 249-253, 343-360, 387-428, 606-632). *)
Inductive ev :=
| EBegin (b : buf) (l : list nat) | EVisit (i : nat) | EEnd (b : buf)
| EWrite (b : buf) | ECommit (l : list nat) | ECb (i : nat) (start : bool) | EDestroy (i : nat) (running : bool)
| EReqBegin | EReqEnd | EReqWrite | EUB.

(** Setters for the members above (controller_manager.h:188-218). *)
Definition set_rt (s : st) (p : rtpc) : st :=
  mkSt (l0 s) (l1 s) (cur s) (used s) (dosw s) (reqs s) (flags s) (next s) p (nrt s).
(** Position of the lock holder (controller_manager.cpp:229-639). *)
Definition set_nrt (s : st) (p : npc) : st :=
  mkSt (l0 s) (l1 s) (cur s) (used s) (dosw s) (reqs s) (flags s) (next s) (rt s) p.
(** Change of a controller's state (controller_base.h:152, 169). *)
Definition set_flag (s : st) (i : nat) (v : bool) : st :=
  mkSt (l0 s) (l1 s) (cur s) (used s) (dosw s) (reqs s)
       (fun j => if Nat.eqb j i then v else flags s j) (next s) (rt s) (nrt s).
(** used_by_realtime_ (controller_manager.h:218). *)
Definition set_used (s : st) (u : option buf) : st :=
  mkSt (l0 s) (l1 s) (cur s) u (dosw s) (reqs s) (flags s) (next s) (rt s) (nrt s).
(** current_controllers_list_ (controller_manager.h:216). *)
Definition set_cur (s : st) (b : buf) : st :=
  mkSt (l0 s) (l1 s) b (used s) (dosw s) (reqs s) (flags s) (next s) (rt s) (nrt s).
(** switch_params_.do_switch and the request vectors (controller_manager.h:188-193). *)
Definition set_sw (s : st) (d : bool) (r : list (nat * bool)) : st :=
  mkSt (l0 s) (l1 s) (cur s) (used s) d r (flags s) (next s) (rt s) (nrt s).
(** Construction of a controller (controller_manager.cpp:284-301). *)
Definition set_next (s : st) (n : nat) : st :=
  mkSt (l0 s) (l1 s) (cur s) (used s) (dosw s) (reqs s) (flags s) n (rt s) (nrt s).
(** controllers_lists_[b] (controller_manager.h:214). *)
Definition set_list (s : st) (b : buf) (l : list nat) : st :=
  mkSt (if b then l0 s else l) (if b then l else l1 s) (cur s) (used s) (dosw s) (reqs s) (flags s) (next s) (rt s) (nrt s).

(** Membership (as in the list searches of controller_manager.cpp:393-401, 463-508). *)
Definition inb (i : nat) (l : list nat) : bool := existsb (Nat.eqb i) l.

(** Modification of list [b] (clear, push_back, assignment).  Controllers are held
    by shared pointers in the two lists only (controller_interface::ControllerBaseSharedPtr in ControllerSpec,
    controller_spec.h:51-55), so those that are in neither list afterwards are destroyed. *)
Definition write (s : st) (b : buf) (l : list nat) : st * list ev :=
  (set_list s b l,
   EWrite b :: map (fun i => EDestroy i (flags s i))
                   (filter (fun i => negb (inb i l) && negb (inb i (lists s (negb b)))) (lists s b))).

(** Actions of the control loop and of the lock holder (controller_manager.cpp:66-639; the lines are given with each). *)
Inductive act :=
| ARead                    (* 68: read current_controllers_list_ *)
| APublish (reset : bool)  (* 68: write used_by_realtime_, enter the loops; reset = parameter reset_controllers *)
| ARt                      (* next element of the loop the control loop is in *)
| ASwEnd (done : bool)     (* end of manageSwitch; done: it writes do_switch = false (160, 172, 225) *)
| NBegin (o : nop)         (* 234/372: lock taken, free list chosen *)
| NPoll (ok1 ok2 : bool)   (* one evaluation of a wait loop; ok1, ok2: the two ros::ok() calls *)
| NPut (k : nat)           (* 249-253, 387-404: to.clear(), to.push_back() of the first k controllers; k = 0 also for to.clear() before a return *)
| NCheck                   (* 393-401: the controller to unload is found and examined *)
| NFail                    (* any return false before the list is complete *)
| NFinish                  (* 343-347 / end of the copy loop *)
| NCommit                  (* 350-351, 417-418 *)
| NClr                     (* 360, 428: from.clear() *)
| NSwBegin (r : list (nat * bool))  (* 459-610: requests stored, do_switch = true *)
| NSwEnd                   (* 616, 631-632: do_switch seen false, requests cleared *)
| NSwTimeout.              (* 623-632: wall clock timeout, requests cleared *)

(** What the copy loops (252-253, 391-404) push into [to] for the controllers [l]:
    all of them, or all but the one to be unloaded (402-403). *)
Definition copied (o : nop) (l : list nat) : list nat :=
  match o with OLoad => l | OUnload i => filter (fun j => negb (Nat.eqb i j)) l end.

(** One atomic step; [None]: the action is not possible in this state (controller_manager.cpp:66-639, see the actions). *)
Definition step (s : st) (a : act) : option (st * list ev) :=
  match a with
  | ARead => match rt s with RtIdle => Some (set_rt s (RtLoaded (cur s)), []) | _ => None end
  | APublish r =>
      match rt s with
      | RtLoaded b => Some (set_rt (set_used s (Some b)) (if r then RtReset 0 false else RtUpdate 0), [EBegin b (lists s b)])
      | _ => None
      end
  | ARt =>
      match used s with
      | None => None
      | Some u =>
          match rt s with
          | RtReset k false =>
              match nth_error (lists s u) k with
              | None => Some (set_rt s (RtUpdate 0), [])
              | Some i => if flags s i then Some (set_rt (set_flag s i false) (RtReset k true), [ECb i false])
                          else Some (set_rt s (RtReset (S k) false), [])
              end
          | RtReset k true =>
              match nth_error (lists s u) k with
              | None => Some (set_rt s (RtUpdate 0), [EUB])
              | Some i => Some (set_rt (set_flag s i true) (RtReset (S k) false), [ECb i true])
              end
          | RtUpdate k =>
              match nth_error (lists s u) k with
              | None => if dosw s then Some (set_rt s (RtSw 0), [EEnd u; EReqBegin]) else Some (set_rt s RtIdle, [EEnd u])
              | Some i => Some (set_rt s (RtUpdate (S k)), [EVisit i])
              end
          | RtSw k =>
              match nth_error (reqs s) k with
              | None => None
              | Some (i, v) => Some (set_rt (set_flag s i v) (RtSw (S k)), [ECb i v])
              end
          | _ => None
          end
      end
  | ASwEnd d =>
      match rt s with
      | RtSw k => match nth_error (reqs s) k with
                  | None => Some (set_rt (set_sw s (if d then false else dosw s) (reqs s)) RtIdle, [EReqEnd])
                  | Some _ => None
                  end
      | _ => None
      end
  | NBegin o => match nrt s with NIdle => Some (set_nrt s (NWait1 o), []) | _ => None end
  | NPoll ok1 ok2 =>
      let wait b := match used s with Some u => ok1 && Bool.eqb b u | None => false end in
      match nrt s with
      | NWait1 o => if wait (negb (cur s)) then (if ok2 then Some (s, []) else Some (set_nrt s NIdle, []))
                    else Some (set_nrt s (NBuild o false), [])
      | NWait2 f => if wait f then (if ok2 then Some (s, []) else Some (set_nrt s NIdle, []))
                    else Some (set_nrt s (NClear f), [])
      | _ => None
      end
  | NPut k =>
      match nrt s with
      | NBuild o ok => Some (write s (negb (cur s)) (copied o (firstn k (lists s (cur s)))))
      | _ => None
      end
  | NCheck =>
      match nrt s with
      | NBuild (OUnload i) ok =>
          if inb i (lists s (cur s)) then
            if flags s i then let '(s', e) := write s (negb (cur s)) [] in Some (set_nrt s' NIdle, e)
            else Some (set_nrt s (NBuild (OUnload i) true), [])
          else None
      | _ => None
      end
  | NFail => match nrt s with NBuild o ok => Some (set_nrt s NIdle, []) | _ => None end
  | NFinish =>
      match nrt s with
      | NBuild OLoad ok =>
          let '(s', e) := write s (negb (cur s)) (lists s (cur s) ++ [next s]) in
          Some (set_nrt (set_next s' (S (next s))) NReady, e)
      | NBuild (OUnload i) true =>
          let '(s', e) := write s (negb (cur s)) (filter (fun j => negb (Nat.eqb i j)) (lists s (cur s))) in
          Some (set_nrt s' NReady, e)
      | _ => None
      end
  | NCommit =>
      match nrt s with
      | NReady => Some (set_nrt (set_cur s (negb (cur s))) (NWait2 (cur s)), [ECommit (lists s (negb (cur s)))])
      | _ => None
      end
  | NClr =>
      match nrt s with
      | NClear f => let '(s', e) := write s f [] in Some (set_nrt s' NIdle, e)
      | _ => None
      end
  | NSwBegin r =>
      match nrt s with
      | NIdle => if forallb (fun x => inb (fst x) (lists s (cur s))) r
                 then Some (set_nrt (set_sw s true r) NSwitch, [EReqWrite]) else None
      | _ => None
      end
  | NSwEnd => match nrt s with
              | NSwitch => if dosw s then None else Some (set_nrt (set_sw s (dosw s) []) NIdle, [EReqWrite])
              | _ => None
              end
  | NSwTimeout => match nrt s with
                  | NSwitch => if dosw s then Some (set_nrt (set_sw s (dosw s) []) NIdle, [EReqWrite]) else None
                  | _ => None
                  end
  end.

(** Executions: any sequence of the steps of controller_manager.cpp:66-639 that is possible. *)
Fixpoint run (s : st) (acts : list act) : option (st * list ev) :=
  match acts with
  | [] => Some (s, [])
  | a :: acts' =>
      match step s a with
      | None => None
      | Some (s1, e1) => match run s1 acts' with None => None | Some (s2, e2) => Some (s2, e1 ++ e2) end
      end
  end.
