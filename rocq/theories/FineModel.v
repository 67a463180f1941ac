(** The two threads of the controller manager, one access to the shared data at a
    time, with everything the sequential model CMModel.v knows: the control loop
    inside update() and the thread that holds controllers_lock_ inside
    loadController, unloadController, switchController or a listing.  Any
    interleaving of their steps is an execution.

    controller_manager/src/controller_manager.cpp and
    controller_manager/include/controller_manager/controller_manager.h, lines as
    cited below.

    Simplifications: sequential consistency (the C++ variables are plain, see
    DESIGN.md); a service call is recorded when it has got the locks (all lock
    holders are one thread, because they exclude each other; a call waiting for a
    lock does nothing); reloadControllerLibrariesSrv (642) is left out, it is a
    sequence of the calls modelled here. *)
From Verif Require Export CMModel.

(** Arguments of update() and what the hardware answers during it (controller_manager.cpp:66, 153, 163, 197, 202). *)
Record cyc := mkCyc { c_t : Z; c_p : Z; c_reset : bool; c_hw : hw_answers }.

(** Which of the three loops of startControllers is taken (controller_manager.cpp:153, 163, 175). *)
Inductive mode := MStart | MAbort | MWait.

(** Position of the control loop inside update() (controller_manager.cpp:66-227); [e] is what
    it has called so far in this cycle.  [RtLoaded b]: current_controllers_list_ has been
    read (68), used_by_realtime_ not yet written.  [RtReset k mid]: loop 72-77 at element
    [k], [mid]: between stopRequest and startRequest.  [RtUpdate k]: loop 82-83.  [RtDo]: at
    line 118.  [RtStop k]: loop 141-147.  [RtStart m k]: loop 155, 167 or 177.  [RtAsap k]: loop 187-217. *)
Inductive rtpc :=
| RtIdle
| RtLoaded (b : bool) (c : cyc)
| RtReset (k : nat) (mid : bool) (c : cyc) (e : list event)
| RtUpdate (k : nat) (c : cyc) (e : list event)
| RtDo (c : cyc) (e : list event)
| RtStop (k : nat) (c : cyc) (e : list event)
| RtStart (m : mode) (k : nat) (c : cyc) (e : list event)
| RtAsap (k : nat) (c : cyc) (e : list event).

(** Position of the lock holder; [e] is what it has called so far.  [NWait1 o]: first wait
    loop (238-245, 376-383).  [NClearTo o]: before to.clear() (249, 387).  [NCopy o k r]: copy
    loop at element [k] (252-253, 391-404), [r] is [removed].  [NMake]: 255-341.
    [NAppend sp]: 343-347.  [NReady sp]: before the new list is made current (350, 417), [sp]
    the controller added, if any.  [NWait2 former]: second wait loop (352-359, 419-426).
    [NClear former]: before from.clear() (360, 428).  [NListing k acc]: loop 738-783.
    [NTypes]: 707-715.  [NSw]: at the beginning of switchController (440).  [NHand sw]: the request is prepared, do_switch not yet set
    (606-610).  [NSwitch timeout]: wait loop 616-630 (all: controller_manager.cpp). *)
Inductive npc :=
| NIdle
| NWait1 (o : op)
| NClearTo (o : op)
| NCopy (o : op) (k : nat) (r : bool) (e : list event)
| NMake (n : string) (env : load_env) (e : list event)
| NAppend (sp : cspec) (e : list event)
| NReady (sp : option cspec) (e : list event)
| NWait2 (f : bool) (e : list event)
| NClear (f : bool) (e : list event)
| NListing (k : nat) (acc : list lc_entry)
| NTypes
| NSw (o : op)
| NHand (sw : swparams) (timeout : Z) (e : list event)
| NSwitch (timeout : Z) (e : list event).

(** Shared data (controller_manager.h:188-218): [controllers_lists_[0]] and [[1]],
    [current_controllers_list_], [used_by_realtime_] (-1 is [None]); [f_m]: the other
    members and the states of the controllers ([cm_list] and [cm_call] of [f_m] are not used). *)
Record fst_ := mkF {
  f_l0 : list cspec; f_l1 : list cspec; f_cur : bool; f_used : option bool;
  f_m : cm; f_rt : rtpc; f_nrt : npc }.

(** controller_manager.h:188-218, member initialisers, given the loaders registered so far. *)
Definition f_init (ls : list loader) : fst_ := mkF [] [] false None (cm_init ls) RtIdle NIdle.

(** [controllers_lists_[b]] (controller_manager.h:214). *)
Definition f_list (s : fst_) (b : bool) : list cspec := if b then f_l1 s else f_l0 s.

(** Setters (controller_manager.h:188-218). *)
Definition f_set_rt (s : fst_) (p : rtpc) : fst_ :=
  mkF (f_l0 s) (f_l1 s) (f_cur s) (f_used s) (f_m s) p (f_nrt s).
(** Position of the lock holder (controller_manager.cpp:229-786). *)
Definition f_set_nrt (s : fst_) (p : npc) : fst_ :=
  mkF (f_l0 s) (f_l1 s) (f_cur s) (f_used s) (f_m s) (f_rt s) p.
(** used_by_realtime_ (controller_manager.h:218). *)
Definition f_set_used (s : fst_) (u : option bool) : fst_ :=
  mkF (f_l0 s) (f_l1 s) (f_cur s) u (f_m s) (f_rt s) (f_nrt s).
(** current_controllers_list_ (controller_manager.h:216). *)
Definition f_set_cur (s : fst_) (b : bool) : fst_ :=
  mkF (f_l0 s) (f_l1 s) b (f_used s) (f_m s) (f_rt s) (f_nrt s).
(** controllers_lists_[b] (controller_manager.h:214). *)
Definition f_set_list (s : fst_) (b : bool) (l : list cspec) : fst_ :=
  mkF (if b then f_l0 s else l) (if b then l else f_l1 s) (f_cur s) (f_used s) (f_m s) (f_rt s) (f_nrt s).
(** The other members (controller_manager.h:188-212). *)
Definition f_set_m (s : fst_) (m : cm) : fst_ :=
  mkF (f_l0 s) (f_l1 s) (f_cur s) (f_used s) m (f_rt s) (f_nrt s).
(** State of the controllers (controller_base.h:254). *)
Definition f_set_heap (s : fst_) (h : heap) : fst_ := f_set_m s (set_heap (f_m s) h).
(** switch_params_ (controller_manager.h:191-201). *)
Definition f_set_sw (s : fst_) (sw : swparams) : fst_ :=
  f_set_m s (set_switch (f_m s) sw (cm_start (f_m s)) (cm_stop (f_m s)) (cm_hwstart (f_m s)) (cm_hwstop (f_m s)) (cm_call (f_m s))).
(** Assignments to members of switch_params_ (controller_manager.cpp:121, 160, 172, 225). *)
Definition sw_set_started (sw : swparams) : swparams :=
  mkSw (sw_do sw) true (sw_init sw) (sw_strict sw) (sw_asap sw) (sw_timeout sw).
(** switch_params_.do_switch = false (controller_manager.cpp:160, 172, 225). *)
Definition sw_set_done (sw : swparams) : swparams :=
  mkSw false (sw_started sw) (sw_init sw) (sw_strict sw) (sw_asap sw) (sw_timeout sw).

(** What can be observed: calls and returns of update() (with all it has called) and of the
    lock holder (with the reply and all it has called), registerControllerLoader (atomic),
    and undefined behaviour: a vector is modified while the other thread iterates over it
    (controller_manager.cpp:66-90, 229-840). *)
Inductive label :=
| LCall (c : cyc) | LRet (e : list event)
| SCall (o : op) | SRet (a : answer) (e : list event)
| Reg (l : loader) | Undef.

(** Is the control loop iterating over [controllers_lists_[b]] (controller_manager.cpp:72, 82)? *)
Definition f_iterating (s : fst_) (b : bool) : bool :=
  match f_rt s, f_used s with
  | RtReset _ _ _ _, Some u | RtUpdate _ _ _, Some u => Bool.eqb u b
  | _, _ => false
  end.
(** Is it iterating over the request vectors (controller_manager.cpp:141, 155, 167, 177, 187)? *)
Definition f_walking (s : fst_) : bool :=
  match f_rt s with RtStop _ _ _ | RtStart _ _ _ _ | RtAsap _ _ _ => true | _ => false end.
(** Modification of [controllers_lists_[b]] (controller_manager.cpp:249, 253, 343, 360, 387, 403, 428). *)
Definition f_write (s : fst_) (b : bool) (l : list cspec) : fst_ * list label :=
  (f_set_list s b l, if f_iterating s b then [Undef] else []).
(** What clearing [controllers_lists_[b]] destroys: the controllers that are not in the other
    list either (controller_spec.h:51-55: shared pointers). *)
Definition f_destroyed (s : fst_) (b : bool) : list event := dropped (f_list s b) (f_list s (negb b)).

(** The lock holder clears the unused list and returns [false]
    (controller_manager.cpp:260-262, 306-307, 315-316, 336-338, 395-398, 409-412). *)
Definition f_refuse (s : fst_) (e : list event) : fst_ * list label :=
  let (s1, u) := f_write s (negb (f_cur s)) [] in
  (f_set_nrt s1 NIdle, u ++ [SRet (ABool false) (e ++ f_destroyed s (negb (f_cur s)))]).

(** Steps (controller_manager.cpp; the lines are given with each). *)
Inductive fact :=
| FCycle (c : cyc)                 (* 66, 68: update() is called and reads current_controllers_list_ *)
| FPublish                         (* 68: used_by_realtime_ is written *)
| FLoop                            (* 71-227: the next access of the control loop *)
| FCall (o : op)                   (* 234, 372, 459, 704, 735: a call takes the lock *)
| FPoll (wall : Z) (ok1 ok2 : bool)  (* one evaluation of a wait loop; as Poll of CMModel.v *)
| FStep                            (* the next access of the lock holder outside the wait loops *)
| FReg (l : loader).               (* 837-840 *)

(** controller_manager.cpp:153, 163-165: which loop of startControllers is taken. *)
Definition start_mode (t : Z) (hw : hw_answers) (sw : swparams) : mode :=
  if swstate_eqb (hw_all hw 0%nat) DONE then MStart
  else if swstate_eqb (hw_all hw 1%nat) ERROR || timed_out sw t then MAbort else MWait.
(** controller_manager.cpp:157, 169, 179. *)
Definition mode_request (m : mode) (t : Z) : heap -> nat -> heap * list event :=
  match m with MStart => start_request t | MAbort => abort_request t | MWait => wait_request t end.

(** The control loop's next access (controller_manager.cpp:71-227).  Simplification: the search
    through the current list in startControllersAsap (192-215) is one step. *)
Definition f_loop (s : fst_) : option (fst_ * list label) :=
  match f_used s with
  | None => None
  | Some u =>
      let m := f_m s in
      let h := cm_heap m in
      match f_rt s with
      | RtReset k false c e =>                                                            (* 72-74 *)
          match nth_error (f_list s u) k with
          | None => Some (f_set_rt s (RtUpdate 0 c e), [])
          | Some sp =>
              if is_running h (sp_inst sp) then
                let (h1, e1) := stop_request (c_t c) h (sp_inst sp) in
                Some (f_set_rt (f_set_heap s h1) (RtReset k true c (e ++ e1)), [])
              else Some (f_set_rt s (RtReset (S k) false c e), [])
          end
      | RtReset k true c e =>                                                             (* 75 *)
          match nth_error (f_list s u) k with
          | None => Some (f_set_rt s RtIdle, [Undef])
          | Some sp =>
              let (h1, e1) := start_request (c_t c) h (sp_inst sp) in
              Some (f_set_rt (f_set_heap s h1) (RtReset (S k) false c (e ++ e1)), [])
          end
      | RtUpdate k c e =>
          match nth_error (f_list s u) k with
          | Some sp =>                                                                    (* 83 *)
              let (h1, e1) := update_request (c_t c) (c_p c) h (sp_inst sp) in
              Some (f_set_rt (f_set_heap s h1) (RtUpdate (S k) c (e ++ e1)), [])
          | None =>                                                                       (* 86 *)
              if sw_do (cm_sw m) then Some (f_set_rt s (RtDo c e), [])
              else Some (f_set_rt s RtIdle, [LRet e])
          end
      | RtDo c e =>                                                                       (* 118-122 *)
          if sw_started (cm_sw m) then Some (f_set_rt s (RtStop 0 c e), [])
          else Some (f_set_rt (f_set_sw s (sw_set_started (cm_sw m))) (RtStop 0 c (e ++ [EvDo (cm_hwstart m) (cm_hwstop m)])), [])
      | RtStop k c e =>
          match nth_error (cm_stop m) k with
          | Some i =>                                                                     (* 143-146 *)
              let (h1, e1) := stop_body (c_t c) h i in
              Some (f_set_rt (f_set_heap s h1) (RtStop (S k) c (e ++ e1)), [])
          | None =>                                                                       (* 127-135, 153, 163 *)
              Some (f_set_rt s (if sw_asap (cm_sw m) then RtAsap 0 c e
                                else RtStart (start_mode (c_t c) (c_hw c) (cm_sw m)) 0 c e), [])
          end
      | RtStart md k c e =>
          match nth_error (cm_start m) k with
          | Some i =>                                                                     (* 157, 169, 179 *)
              let (h1, e1) := mode_request md (c_t c) h i in
              Some (f_set_rt (f_set_heap s h1) (RtStart md (S k) c (e ++ e1)), [])
          | None =>                                                                       (* 160, 172, 181 *)
              Some (f_set_rt (match md with MWait => s | _ => f_set_sw s (sw_set_done (cm_sw m)) end) RtIdle, [LRet e])
          end
      | RtAsap k c e =>
          match nth_error (cm_start m) k with
          | Some i =>                                                                     (* 189-216 *)
              if is_running h i then Some (f_set_rt s (RtAsap (S k) c e), [])
              else
                let (h1, e1) := for_each (asap_inner (c_t c) (c_hw c) (cm_sw m) k i) h (f_list s (f_cur s)) in
                Some (f_set_rt (f_set_heap s h1) (RtAsap (S k) c (e ++ e1)), [])
          | None =>                                                                       (* 220-226 *)
              Some (f_set_rt (if forallb (fun i => is_running h i || is_aborted h i) (cm_start m)
                              then f_set_sw s (sw_set_done (cm_sw m)) else s) RtIdle, [LRet e])
          end
      | RtIdle | RtLoaded _ _ => None
      end
  end.

(** The lock holder's next access outside the wait loops (controller_manager.cpp:249-360,
    387-428, 440-610, 707-715, 736-783).  Simplifications: the new controller is an object only the
    lock holder can reach until its list is made current, so its state is entered in the
    heap then; constructing and initialising it (255-341) is one step; collecting and
    checking the controllers of a switch request (440-603) is one step. *)
Definition f_step (s : fst_) : option (fst_ * list label) :=
  let m := f_m s in
  let free := negb (f_cur s) in
  match f_nrt s with
  | NClearTo o =>                                                                         (* 249, 387 *)
      let (s1, u) := f_write s free [] in Some (f_set_nrt s1 (NCopy o 0 false (f_destroyed s free)), u)
  | NCopy o k r e =>
      match nth_error (f_list s (f_cur s)) k, o with
      | Some sp, Load _ _ =>                                                              (* 252-253 *)
          let (s1, u) := f_write s free (f_list s free ++ [sp]) in Some (f_set_nrt s1 (NCopy o (S k) r e), u)
      | Some sp, Unload n =>
          if String.eqb (ci_name (sp_info sp)) n then
            if is_running (cm_heap m) (sp_inst sp) then Some (f_refuse s e)              (* 394-398 *)
            else Some (f_set_nrt s (NCopy o (S k) true e), [])                            (* 400 *)
          else let (s1, u) := f_write s free (f_list s free ++ [sp]) in Some (f_set_nrt s1 (NCopy o (S k) r e), u)  (* 403 *)
      | None, Load n env => Some (f_set_nrt s (NMake n env e), [])
      | None, Unload _ => if r then Some (f_set_nrt s (NReady None e), []) else Some (f_refuse s e)  (* 407-413 *)
      | _, _ => None
      end
  | NMake n env e =>
      if existsb (fun c => String.eqb (ci_name (sp_info c)) n) (f_list s free) then Some (f_refuse s e)   (* 256-264 *)
      else if negb (le_nh_ok env) then Some (f_set_nrt s NIdle, [SRet (ABool false) e])   (* 266-278 *)
      else match le_type env with
      | None => Some (f_refuse s e)                                                       (* 303-308 *)
      | Some ty =>
          let (c, ec) := construct ty 0 (cm_loaders m) in                                 (* 284-301 *)
          if c then
            match le_init env with
            | InitOk claims => Some (f_set_nrt s (NAppend (mkSpec (mkInfo n ty claims) (cm_next m)) (e ++ ec)), [])
            | _ =>                                                                        (* 334-339 *)
                Some (f_refuse (f_set_m s (mkCM (cm_list m) (cm_heap m) (S (cm_next m)) (cm_sw m) (cm_start m) (cm_stop m)
                                                (cm_hwstart m) (cm_hwstop m) (cm_loaders m) (cm_call m))) (e ++ ec))
            end
          else Some (f_refuse s (e ++ ec))                                                (* 311-317 *)
      end
  | NAppend sp e =>                                                                       (* 343-347 *)
      let (s1, u) := f_write s free (f_list s free ++ [sp]) in Some (f_set_nrt s1 (NReady (Some sp) e), u)
  | NReady p e =>                                                                         (* 350-351, 417-418 *)
      match p with
      | Some sp =>
          let m' := mkCM (cm_list m) (upd (cm_heap m) (sp_inst sp) INITIALIZED) (S (sp_inst sp)) (cm_sw m) (cm_start m) (cm_stop m)
                         (cm_hwstart m) (cm_hwstop m) (cm_loaders m) (cm_call m) in
          Some (f_set_nrt (f_set_cur (f_set_m s m') free) (NWait2 (f_cur s) (e ++ [EvLoaded (sp_inst sp) (sp_info sp)])), [])
      | None => Some (f_set_nrt (f_set_cur s free) (NWait2 (f_cur s) e), [])
      end
  | NClear f e =>                                                                         (* 360-363, 428-432 *)
      let (s1, u) := f_write s f [] in
      Some (f_set_nrt s1 NIdle, u ++ [SRet (ABool true) (e ++ f_destroyed s f)])
  | NListing k acc =>                                                                     (* 738-783 *)
      match nth_error (f_list s (f_cur s)) k with
      | Some sp =>
          Some (f_set_nrt s (NListing (S k) (acc ++ [mkEntry (ci_name (sp_info sp)) (ci_type (sp_info sp)) (ci_claims (sp_info sp))
                                                             (state_string (cm_heap m) (sp_inst sp))])), [])
      | None => Some (f_set_nrt s NIdle, [SRet (AList acc) []])
      end
  | NTypes => Some (f_set_nrt s NIdle, [SRet (ATypes (list_types m)) []])                 (* 707-715 *)
  | NSw (Switch a b st asap tmo now ck pr) =>                                             (* 440-603 *)
      let '(m1, e, ok) := switch_begin a b st asap tmo now ck pr KReturn (set_list m (f_list s (f_cur s))) in
      let sw := if ok then sw_default else cm_sw m1 in
      let s1 := f_set_m s (set_switch m sw (cm_start m1) (cm_stop m1) (cm_hwstart m1) (cm_hwstop m1) (cm_call m)) in
      let u := if f_walking s then [Undef] else [] in
      if ok then Some (f_set_nrt s1 (NHand (cm_sw m1) tmo e), u)
      else Some (f_set_nrt s1 NIdle, u ++ [SRet (ABool false) e])
  | NHand sw tmo e => Some (f_set_nrt (f_set_sw s sw) (NSwitch tmo e), [])                (* 606-610 *)
  | _ => None
  end.

(** One evaluation of the wait loop the lock holder is in (controller_manager.cpp:238-245,
    352-359, 376-383, 419-426, 616-638). *)
Definition f_poll (wall : Z) (ok1 ok2 : bool) (s : fst_) : option (fst_ * list label) :=
  let m := f_m s in
  let same b := match f_used s with Some u => Bool.eqb b u | None => false end in
  let give_back b e :=                                                                    (* 631-638 *)
    Some (f_set_nrt (f_set_m s (set_switch m (cm_sw m) [] [] (cm_hwstart m) (cm_hwstop m) (cm_call m))) NIdle,
          (if f_walking s then [Undef] else []) ++ [SRet (ABool b) e]) in
  match f_nrt s with
  | NWait1 o =>
      if ok1 && same (negb (f_cur s)) then
        if ok2 then Some (s, []) else Some (f_set_nrt s NIdle, [SRet (ABool false) []])
      else Some (f_set_nrt s (NClearTo o), [])
  | NWait2 f e =>
      if ok1 && same f then
        if ok2 then Some (s, []) else Some (f_set_nrt s NIdle, [SRet (ABool false) e])
      else Some (f_set_nrt s (NClear f e), [])
  | NSwitch tmo e =>
      if ok1 && sw_do (cm_sw m) then
        if negb ok2 then Some (f_set_nrt s NIdle, [SRet (ABool false) e])
        else if (wall <? tmo + 1000000000) || (tmo =? 0) then Some (s, [])
        else give_back false e
      else give_back true e
  | _ => None
  end.

(** Where a call starts once it has the lock (controller_manager.cpp:237, 375, 440, 707, 736). *)
Definition f_entry (o : op) : option npc :=
  match o with
  | Load _ _ | Unload _ => Some (NWait1 o)
  | Switch _ _ _ _ _ _ _ _ => Some (NSw o)
  | ListControllers => Some (NListing 0 [])
  | ListTypes => Some NTypes
  | _ => None
  end.

(** One step; [None]: not possible in this state (controller_manager.cpp:66-840, see the steps). *)
Definition fine_step (s : fst_) (a : fact) : option (fst_ * list label) :=
  match a with
  | FCycle c => match f_rt s with RtIdle => Some (f_set_rt s (RtLoaded (f_cur s) c), [LCall c]) | _ => None end
  | FPublish =>
      match f_rt s with
      | RtLoaded b c => Some (f_set_rt (f_set_used s (Some b)) (if c_reset c then RtReset 0 false c [] else RtUpdate 0 c []), [])
      | _ => None
      end
  | FLoop => f_loop s
  | FCall o =>
      match f_nrt s, f_entry o with
      | NIdle, Some p => Some (f_set_nrt s p, [SCall o])
      | _, _ => None
      end
  | FPoll w ok1 ok2 => f_poll w ok1 ok2 s
  | FStep => f_step s
  | FReg l => Some (f_set_m s (set_loaders (f_m s) (cm_loaders (f_m s) ++ [l])), [Reg l])
  end.

(** Executions: any sequence of the steps of controller_manager.cpp:66-840 that is possible. *)
Fixpoint fine_run (s : fst_) (acts : list fact) : option (fst_ * list label) :=
  match acts with
  | [] => Some (s, [])
  | a :: acts' =>
      match fine_step s a with
      | None => None
      | Some (s1, e1) => match fine_run s1 acts' with None => None | Some (s2, e2) => Some (s2, e1 ++ e2) end
      end
  end.
