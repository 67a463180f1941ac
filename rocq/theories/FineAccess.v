(** Which members of the controller manager the next step of each thread reads and
    writes, and how long a cycle takes (controller_manager/src/controller_manager.cpp). *)
From Verif Require Export FineModel FineSpec.

(** Memory locations: [controllers_lists_[b]], [current_controllers_list_], [used_by_realtime_],
    [switch_params_.do_switch], the other members of [switch_params_] (taken together),
    [start_request_] and [stop_request_] (together), [switch_start_list_] and [switch_stop_list_] (together), the state
    of a controller, [controller_loaders_] (controller_manager.h:188-218, controller_base.h:254). *)
Inductive loc := Lst (b : bool) | Cur | Used | DoSwitch | Params | Requests | HwRequests | StateOf (i : nat) | Loaders.
(** An access: a location, and whether it is written (controller_manager.cpp:66-840). *)
Record access := mkAcc { at_ : loc; writes : bool }.
(** Shorthands (controller_manager.cpp:66-840). *)
Definition rd (x : loc) : access := mkAcc x false.
(** controller_manager.cpp:66-840. *)
Definition wr (x : loc) : access := mkAcc x true.

(** Accesses of the control loop's next step (controller_manager.cpp:66-227; for each position the lines of FineModel.v's
    [f_loop]).  [isRunning], [updateRequest] read the state, the other requests write it (controller_base.h:94-190). *)
Definition loop_next (s : fst_) : list access :=
  let m := f_m s in
  let used u := match u with Some b => [rd (Lst b)] | None => [] end in
  match f_rt s with
  | RtIdle => [rd Cur]                                                                     (* 68 *)
  | RtLoaded _ _ => [wr Used]                                                              (* 68 *)
  | RtReset k _ _ _ => rd Used :: used (f_used s) ++                                       (* 72-75 *)
      match f_used s with Some u => match nth_error (f_list s u) k with Some sp => [wr (StateOf (sp_inst sp))] | None => [] end | None => [] end
  | RtUpdate k _ _ => rd Used :: used (f_used s) ++
      match f_used s with Some u => match nth_error (f_list s u) k with
        | Some sp => [rd (StateOf (sp_inst sp))]                                           (* 83 *)
        | None => [rd DoSwitch]                                                            (* 86 *)
        end | None => [] end
  | RtDo _ _ => [rd Params; wr Params; rd HwRequests]                                      (* 118-121 *)
  | RtStop k _ _ => rd Requests ::                                                         (* 141-147 *)
      match nth_error (cm_stop m) k with Some i => [wr (StateOf i)] | None => [rd Params] end  (* 127 *)
  | RtStart _ k _ _ => rd Requests :: rd Params ::                                         (* 155-181 *)
      match nth_error (cm_start m) k with Some i => [wr (StateOf i)] | None => [wr DoSwitch] end
  | RtAsap k _ _ => rd Requests :: rd Params :: rd Cur :: rd (Lst (f_cur s)) ::            (* 187-226 *)
      match nth_error (cm_start m) k with Some i => [wr (StateOf i)] | None => wr DoSwitch :: map (fun i => rd (StateOf i)) (cm_start m) end
  end.

(** Accesses of the lock holder's next step (controller_manager.cpp:238-638, 707-783; for each position the lines of FineModel.v's
    [f_step] and [f_poll]). *)
Definition lock_next (s : fst_) : list access :=
  let cur := rd Cur in let free := negb (f_cur s) in
  match f_nrt s with
  | NIdle => []
  | NWait1 _ => [cur; rd Used]                                                             (* 239, 377 *)
  | NClearTo _ => [cur; wr (Lst free)]                                                     (* 249, 387 *)
  | NCopy o k _ _ => cur :: rd (Lst (f_cur s)) :: wr (Lst free) ::                         (* 252, 391-411 *)
      match o, nth_error (f_list s (f_cur s)) k with Unload _, Some sp => [rd (StateOf (sp_inst sp))] | _, _ => [] end
  | NMake _ _ _ => [wr (Lst free); rd Loaders]                                             (* 256-338 *)
  | NAppend _ _ => [wr (Lst free)]                                                         (* 343-347 *)
  | NReady _ _ => [cur; wr Cur]                                                            (* 350, 417 *)
  | NWait2 _ _ => [rd Used]                                                                (* 353, 420 *)
  | NClear f _ => [wr (Lst f)]                                                             (* 360, 428 *)
  | NListing k _ => cur :: rd (Lst (f_cur s)) ::                                           (* 738-783 *)
      match nth_error (f_list s (f_cur s)) k with Some sp => [rd (StateOf (sp_inst sp))] | None => [] end
  | NTypes => [rd Loaders]                                                                 (* 707 *)
  | NSw _ => cur :: rd (Lst (f_cur s)) :: wr DoSwitch :: wr Params :: wr Requests :: wr HwRequests ::   (* 440-603 *)
      map (fun sp => rd (StateOf (sp_inst sp))) (f_list s (f_cur s))
  | NHand _ _ _ => [wr Params; wr DoSwitch]                                                (* 606-610 *)
  | NSwitch _ _ => rd DoSwitch :: (if sw_do (cm_sw (f_m s)) then [] else [wr Requests])    (* 616, 631-632 *)
  end.

(** Accesses of registerControllerLoader, which takes no lock (controller_manager.cpp:837-840). *)
Definition reg_next : list access := [wr Loaders].

(** Two threads race on a location: each has an access to it as its next step, one of them writes
    (C++ [intro.races]; controller_manager.cpp:66-840). *)
Definition race_on (x : loc) (a b : list access) : Prop :=
  exists p q, In p a /\ In q b /\ at_ p = x /\ at_ q = x /\ (writes p = true \/ writes q = true).

(** Steps of the control loop in an execution (controller_manager.cpp:66-227). *)
Definition loop_steps (acts : list fact) : nat := List.length (filter (fun a => match a with FLoop => true | _ => false end) acts).
(** Is the control loop inside update() (controller_manager.cpp:66-90)? *)
Definition in_cycle (s : fst_) : bool := match f_rt s with RtIdle => false | _ => true end.

(** Do two states agree at a location (controller_manager.h:188-218, controller_base.h:254)? *)
Definition same (x : loc) (s s' : fst_) : Prop :=
  let m := f_m s in let m' := f_m s' in
  match x with
  | Lst b => f_list s b = f_list s' b
  | Cur => f_cur s = f_cur s'
  | Used => f_used s = f_used s'
  | DoSwitch => sw_do (cm_sw m) = sw_do (cm_sw m')
  | Params => sw_set_done (cm_sw m) = sw_set_done (cm_sw m')
  | Requests => cm_start m = cm_start m' /\ cm_stop m = cm_stop m'
  | HwRequests => cm_hwstart m = cm_hwstart m' /\ cm_hwstop m = cm_hwstop m'
  | StateOf i => cm_heap m i = cm_heap m' i
  | Loaders => cm_loaders m = cm_loaders m'
  end.
(** Which steps are the control loop's, the lock holder's (controller_manager.cpp:66-227, 229-835)? *)
Definition by_loop (a : fact) : bool := match a with FCycle _ | FPublish | FLoop => true | _ => false end.
(** controller_manager.cpp:229-835. *)
Definition by_lock (a : fact) : bool := match a with FCall _ | FPoll _ _ _ | FStep => true | _ => false end.
(** Locations the control loop never writes (controller_manager.cpp:66-227). *)
Definition lock_only (x : loc) : bool := match x with Lst _ | Cur | Requests | HwRequests | Loaders => true | _ => false end.
(** What is observed, leaving out the mark for undefined behaviour (controller_manager.cpp:66-840). *)
Definition defined (tr : list label) : list label := filter (fun x => match x with Undef => false | _ => true end) tr.
(** Would the lock holder go round its wait loop once more (controller_manager.cpp:239, 353, 377, 420, 616)? *)
Definition waits (s : fst_) : bool :=
  let on b := match f_used s with Some u => Bool.eqb b u | None => false end in
  match f_nrt s with
  | NWait1 _ => on (negb (f_cur s))
  | NWait2 f _ => on f
  | NSwitch _ _ => sw_do (cm_sw (f_m s))
  | _ => false
  end.
(** Steps of the lock holder that take it further: all but rounds of its wait loops (controller_manager.cpp:229-786). *)
Fixpoint lock_moves (s : fst_) (acts : list fact) : nat :=
  match acts with
  | [] => 0
  | a :: acts' =>
      (match a with FStep => 1 | FPoll _ _ _ => if waits s then 0 else 1 | _ => 0 end) +
      match fine_step s a with Some (s1, _) => lock_moves s1 acts' | None => 0 end
  end.
