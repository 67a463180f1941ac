(** Specification of the controller manager as an atomic object: an operation is
    called, takes effect at one moment between its call and its return, and returns
    what the sequential manager of CMModel.v answers at that moment. *)
From Verif Require Export FineModel.

(** The call of update() in progress: called and not yet in effect, or in effect with the calls it makes
    (controller_manager.cpp:66). *)
Inductive lphase := LNone | LCalled (c : cyc) | LDone (e : list event).
(** The call of the lock holder in progress.  [SWaiting]: a switch request has been handed over and waits for the
    control loop (controller_manager.cpp:616). *)
Inductive sphase := SNone | SCalled (o : op) | SWaiting (e : list event) | SDone (a : answer) (e : list event).

(** The atomic object: the sequential manager and one call in progress on either side (controller_manager.cpp:45-840). *)
Record obj := mkObj { o_cm : cm; o_loop : lphase; o_srv : sphase }.
(** After construction (controller_manager.cpp:45-62). *)
Definition obj_init (ls : list loader) : obj := mkObj (cm_init ls) LNone SNone.

(** The calls of the lock holder considered (controller_manager.cpp:229, 366, 436, 695, 722). *)
Definition service (o : op) : bool :=
  match o with Load _ _ | Unload _ | Switch _ _ _ _ _ _ _ _ | ListControllers | ListTypes => true | _ => false end.

(** What it does.  The moments at which operations take effect are not observable (controller_manager.cpp:66-840). *)
Inductive ostep : obj -> list label -> obj -> Prop :=
| o_call_loop m c q : ostep (mkObj m LNone q) [LCall c] (mkObj m (LCalled c) q)
| o_effect_loop m m' e a c q : step m (Cycle (c_t c) (c_p c) (c_reset c) (c_hw c)) = (m', e, a) -> ostep (mkObj m (LCalled c) q) [] (mkObj m' (LDone e) q)
| o_return_loop m e q : ostep (mkObj m (LDone e) q) [LRet e] (mkObj m LNone q)
| o_call_srv m l o : service o = true -> ostep (mkObj m l SNone) [SCall o] (mkObj m l (SCalled o))
| o_effect_srv m l o m' e a : step m o = (m', e, a) -> a <> ANone -> a <> ABlocked -> ostep (mkObj m l (SCalled o)) [] (mkObj m' l (SDone a e))
| o_effect_switch m l o m' e : step m o = (m', e, ANone) -> ostep (mkObj m l (SCalled o)) [] (mkObj m' l (SWaiting e))
| o_effect_poll m l m' e e' a : step m (Poll 0 true true) = (m', e', a) -> a <> ANone -> a <> ABlocked ->
    ostep (mkObj m l (SWaiting e)) [] (mkObj m' l (SDone a (e ++ e')))
| o_return_srv m l a e : ostep (mkObj m l (SDone a e)) [SRet a e] (mkObj m l SNone)
| o_register m l q x : ostep (mkObj m l q) [Reg x] (mkObj (set_loaders m (cm_loaders m ++ [x])) l q).

(** Histories of the atomic object (controller_manager.cpp:45-840). *)
Inductive history : obj -> list label -> obj -> Prop :=
| h_nil o : history o [] o
| h_cons o l o1 ls o2 : ostep o l o1 -> history o1 ls o2 -> history o (l ++ ls) o2.

(** Steps at which the lock holder examines the state of controllers (controller_manager.cpp:394, 538-586, 757-777). *)
Definition examines (p : npc) : bool :=
  match p with NCopy (Unload _) _ _ _ | NListing _ _ | NSw _ => true | _ => false end.
(** Does the wall clock end the wait for a switch (controller_manager.cpp:623-629)? *)
Definition gives_up (p : npc) (w : Z) : bool :=
  match p with NSwitch tmo _ => negb ((w <? tmo + 1000000000) || (tmo =? 0)) | _ => false end.

(** ROS stays up (controller_manager.cpp:239-243, 353-357, 377-381, 420-424, 616-622; otherwise C27). *)
Definition ros_up (s : fst_) (a : fact) : bool := match a with FPoll _ ok1 ok2 => ok1 && ok2 | _ => true end.
(** No wall clock timeout strikes (controller_manager.cpp:623-629; otherwise C80). *)
Definition in_time (s : fst_) (a : fact) : bool := match a with FPoll w _ _ => negb (gives_up (f_nrt s) w) | _ => true end.
(** Nothing of the lock holder comes between the first reading of the list index and its first
    publication (controller_manager.cpp:68; otherwise C25). *)
Definition first_cycle_alone (s : fst_) (a : fact) : bool :=
  match a, f_rt s, f_used s with (FPoll _ _ _ | FStep), RtLoaded _ _, None => false | _, _, _ => true end.
(** The lock holder does not examine controllers while one is between its stop and its restart in a reset
    cycle (controller_manager.cpp:74-75; otherwise C28). *)
Definition no_peeping (s : fst_) (a : fact) : bool :=
  match a, f_rt s with FStep, RtReset _ true _ _ => negb (examines (f_nrt s)) | _, _ => true end.
(** Executions all of whose steps meet a condition (controller_manager.cpp:66-840). *)
Fixpoint throughout (p : fst_ -> fact -> bool) (s : fst_) (acts : list fact) : bool :=
  match acts with
  | [] => true
  | a :: acts' => p s a && match fine_step s a with Some (s1, _) => throughout p s1 acts' | None => true end
  end.
(** The executions considered (controller_manager.cpp:66-840). *)
Definition calm (s : fst_) (acts : list fact) : Prop :=
  throughout ros_up s acts = true /\ throughout in_time s acts = true /\
  throughout first_cycle_alone s acts = true /\ throughout no_peeping s acts = true.

(** * The same as one sequence of operations of the sequential manager *)

(** Calls of update() and what each of them called; service calls and what they replied and called, in
    the order observed; loaders registered (controller_manager.cpp:66, 229-840). *)
Definition loop_calls (tr : list label) : list cyc := flat_map (fun x => match x with LCall c => [c] | _ => [] end) tr.
(** controller_manager.cpp:66-90. *)
Definition loop_returns (tr : list label) : list (list event) := flat_map (fun x => match x with LRet e => [e] | _ => [] end) tr.
(** controller_manager.cpp:229-835. *)
Definition srv_calls (tr : list label) : list op := flat_map (fun x => match x with SCall o => [o] | _ => [] end) tr.
(** controller_manager.cpp:229-835. *)
Definition srv_returns (tr : list label) : list (answer * list event) := flat_map (fun x => match x with SRet a e => [(a, e)] | _ => [] end) tr.
(** controller_manager.cpp:837-840. *)
Definition registered (tr : list label) : list loader := flat_map (fun x => match x with Reg l => [l] | _ => [] end) tr.

(** What the sequential manager does for a sequence of operations: each operation with what it calls
    and its answer (controller_manager.cpp:45-840, CMModel.v). *)
Fixpoint outcomes (m : cm) (ops : list op) : list (op * list event * answer) :=
  match ops with [] => [] | o :: r => let '(m1, e, a) := step m o in (o, e, a) :: outcomes m1 r end.
(** The control cycles among the operations, and what each of them called (controller_manager.cpp:66-90). *)
Definition seq_cycles (out : list (op * list event * answer)) : list (cyc * list event) :=
  flat_map (fun x => match x with (Cycle t p r hw, e, _) => [(mkCyc t p r hw, e)] | _ => [] end) out.
(** The service calls among them (controller_manager.cpp:229-835). *)
Definition seq_calls (out : list (op * list event * answer)) : list op :=
  flat_map (fun x => match x with (o, _, _) => if service o then [o] else [] end) out.
(** The replies; a switch request without a reply is answered when its waiting ends, [w] is what has been called for
    the one waiting (controller_manager.cpp:229-835). *)
Fixpoint seq_replies (w : list event) (out : list (op * list event * answer)) : list (answer * list event) :=
  match out with
  | [] => []
  | (Cycle _ _ _ _, _, _) :: r | (RegisterLoader _, _, _) :: r => seq_replies w r
  | (_, e, ANone) :: r => seq_replies (w ++ e) r
  | (_, e, a) :: r => (a, w ++ e) :: seq_replies [] r
  end.
(** The loaders registered (controller_manager.cpp:837-840). *)
Definition seq_registered (out : list (op * list event * answer)) : list loader :=
  flat_map (fun x => match x with (RegisterLoader l, _, _) => [l] | _ => [] end) out.
