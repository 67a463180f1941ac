(** Specification vocabulary for the controller manager.  Everything here is a
    function of what can be observed: the trace of events.  Nothing refers to the
    manager's internal data. *)
From Verif Require Import HwTypes Lifecycle CMModel.

(** The last thing that happened to a controller instance. *)
Inductive phase := PAbsent | PLoaded | PStarted | PStopped | PWaiting | PAborted | PGone.

Definition phase_eqb (a b : phase) : bool :=
  match a, b with
  | PAbsent, PAbsent | PLoaded, PLoaded | PStarted, PStarted | PStopped, PStopped
  | PWaiting, PWaiting | PAborted, PAborted | PGone, PGone => true
  | _, _ => false
  end.

Definition phase_step (i : nat) (p : phase) (e : event) : phase :=
  match e with
  | EvLoaded j _ => if Nat.eqb i j then PLoaded else p
  | EvDestroyed j => if Nat.eqb i j then PGone else p
  | EvCb j CbStarting _ => if Nat.eqb i j then PStarted else p
  | EvCb j CbStopping _ => if Nat.eqb i j then PStopped else p
  | EvCb j CbWaiting _ => if Nat.eqb i j then PWaiting else p
  | EvCb j CbAborting _ => if Nat.eqb i j then PAborted else p
  | _ => p
  end.

(** What instance [i] went through last, after the trace [tr]. *)
Definition phase_of (tr : list event) (i : nat) : phase := fold_left (phase_step i) tr PAbsent.

(** A controller runs if its last life-cycle callback is starting(). *)
Definition runs (tr : list event) (i : nat) : Prop := phase_of tr i = PStarted.
Definition runsb (tr : list event) (i : nat) : bool := phase_eqb (phase_of tr i) PStarted.

(** The loaded controllers after the trace [tr], in load order. *)
Definition loaded_step (l : list (nat * cinfo)) (e : event) : list (nat * cinfo) :=
  match e with
  | EvLoaded i info => l ++ [(i, info)]
  | EvDestroyed i => filter (fun x => negb (Nat.eqb (fst x) i)) l
  | _ => l
  end.
Definition loaded (tr : list event) : list (nat * cinfo) := fold_left loaded_step tr [].

Definition is_lifecycle (e : event) : bool :=
  match e with EvCb _ (CbUpdate _) _ => false | EvCb _ _ _ => true | _ => false end.
Definition is_update (e : event) : bool :=
  match e with EvCb _ (CbUpdate _) _ => true | _ => false end.
Definition is_starting (e : event) : bool :=
  match e with EvCb _ CbStarting _ => true | _ => false end.
Definition is_stopping (e : event) : bool :=
  match e with EvCb _ CbStopping _ => true | _ => false end.
Definition is_do (e : event) : bool := match e with EvDo _ _ => true | _ => false end.
Definition is_reload (e : event) : bool := match e with EvReload _ => true | _ => false end.
Definition is_create (e : event) : bool := match e with EvCreate _ => true | _ => false end.

(** The callbacks instance [i] receives in a trace. *)
Fixpoint callbacks_of (i : nat) (tr : list event) : list callback :=
  match tr with
  | [] => []
  | EvCb j c _ :: tr' => if Nat.eqb i j then c :: callbacks_of i tr' else callbacks_of i tr'
  | _ :: tr' => callbacks_of i tr'
  end.

(** State names of the list_controllers service. *)
Definition phase_string (p : phase) : string :=
  match p with
  | PLoaded => "initialized"
  | PStarted => "running"
  | PStopped => "stopped"
  | PWaiting => "waiting"
  | PAborted => "aborted"
  | PAbsent | PGone => "unknown"
  end.

Definition named (names : list string) (c : nat * cinfo) : bool :=
  existsb (String.eqb (ci_name (snd c))) names.

(** The controllers that would run together after the request. *)
Definition would_run (tr : list event) (start stop : list string) : list cinfo :=
  map snd (filter (fun c => named start c || (runsb tr (fst c) && negb (named stop c))) (loaded tr)).
(** The controllers that really have to be started / stopped. *)
Definition to_start (tr : list event) (start : list string) : list cinfo :=
  map snd (filter (fun c => named start c && negb (runsb tr (fst c))) (loaded tr)).
Definition to_stop (tr : list event) (stop : list string) : list cinfo :=
  map snd (filter (fun c => named stop c && runsb tr (fst c)) (loaded tr)).

Definition known (tr : list event) (n : string) : Prop := exists c, In c (loaded tr) /\ ci_name (snd c) = n.

(** Two running controllers never claim the same resource. *)
Definition claims_resource (c : cinfo) (r : string) : Prop :=
  exists ir, In ir (ci_claims c) /\ In r (ir_res ir).
Definition exclusive (tr : list event) : Prop :=
  forall i a j b r, In (i, a) (loaded tr) -> In (j, b) (loaded tr) ->
    runs tr i -> runs tr j -> claims_resource a r -> claims_resource b r -> i = j.

(** Protocol of the hardware hooks: [Some (a, b)] = prepared with these lists,
    doSwitch outstanding. *)
Inductive hooks := HIdle | HPrepared (a b : list cinfo) | HDone.
Fixpoint hooks_ok (strict_cbs : bool) (h : hooks) (tr : list event) : Prop :=
  match tr with
  | [] => True
  | e :: tr' =>
      match e with
      | EvPrepare a b true => hooks_ok strict_cbs (HPrepared a b) tr'
      | EvPrepare _ _ false => hooks_ok strict_cbs HIdle tr'
      | EvDo a b => h = HPrepared a b /\ hooks_ok strict_cbs HDone tr'
      | EvCb _ (CbUpdate _) _ => hooks_ok strict_cbs h tr'
      | EvCb _ _ _ => (strict_cbs = true -> h = HDone) /\ hooks_ok strict_cbs h tr'
      | _ => hooks_ok strict_cbs h tr'
      end
  end.

(** A history in which no caller leaves the wait loop through lines 618-621
    (ros::ok() true in the loop condition and false two lines later). *)
Definition no_abandoned (ops : list op) : Prop :=
  Forall (fun o => match o with Poll _ true false => False | _ => True end) ops.
Definition no_reset (ops : list op) : Prop :=
  Forall (fun o => match o with Cycle _ _ true _ => False | _ => True end) ops.

(** The conflict check used by every switch request of a history. *)
Definition checks_with (ck : list cinfo -> bool) (ops : list op) : Prop :=
  Forall (fun o => match o with
                   | Switch _ _ _ _ _ _ c _ => forall l, c l = ck l
                   | Reload _ _ c _ => forall l, c l = ck l
                   | _ => True end) ops.

(** State and trace reached by a history from a freshly constructed manager. *)
Definition reach (ls : list loader) (ops : list op) : cm := fst (run (cm_init ls) ops).
Definition trace (ls : list loader) (ops : list op) : list event := snd (run (cm_init ls) ops).

(** No request is being served. *)
Definition idle (ls : list loader) (ops : list op) : Prop := cm_call (reach ls ops) = Idle.
(** The reply to operation [o] issued after the history [ops], and its events. *)
Definition reply (ls : list loader) (ops : list op) (o : op) : answer := snd (step (reach ls ops) o).
Definition emits (ls : list loader) (ops : list op) (o : op) : list event := snd (fst (step (reach ls ops) o)).

(** The caller of a switch has not got its reply during [mid]. *)
Fixpoint no_reply (s : cm) (mid : list op) : Prop :=
  match mid with
  | [] => True
  | o :: mid' => (snd (step s o) = ANone \/ snd (step s o) = ABlocked) /\ no_reply (fst (fst (step s o))) mid'
  end.
Definition still_waiting (ls : list loader) (ops mid : list op) : Prop := no_reply (reach ls ops) mid.
Definition no_cycle (mid : list op) : Prop :=
  Forall (fun o => match o with Cycle _ _ _ _ => False | _ => True end) mid.
(** No switch request (directly or through reload) among [ops]. *)
Definition no_request (ops : list op) : Prop :=
  Forall (fun o => match o with Switch _ _ _ _ _ _ _ _ | Reload _ _ _ _ => False | _ => True end) ops.

(** The hardware reports the switch as done. *)
Definition hw_done (hw : hw_answers) : Prop :=
  hw_all hw 0%nat = DONE /\ forall k info, hw_one hw k 0%nat info = DONE.

(** When a STRICT / other request has to be accepted. *)
Definition strict_ok (tr : list event) (start stop : list string)
    (check : list cinfo -> bool) (prep : list cinfo -> list cinfo -> bool) : Prop :=
  (forall n, In n start \/ In n stop -> known tr n) /\
  (forall c, In c (loaded tr) -> named stop c = true -> runs tr (fst c)) /\
  (forall c, In c (loaded tr) -> named start c = true -> ~ runs tr (fst c)) /\
  check (would_run tr start stop) = false /\
  prep (to_start tr start) (to_stop tr stop) = true.
Definition lenient_ok (tr : list event) (start stop : list string)
    (check : list cinfo -> bool) (prep : list cinfo -> list cinfo -> bool) : Prop :=
  (forall c, In c (loaded tr) -> runs tr (fst c) -> named start c = true -> named stop c = true -> False) /\
  check (would_run tr start stop) = false /\
  prep (to_start tr start) (to_stop tr stop) = true.

(** The caller is waiting and would go on waiting. *)
Definition pending (ls : list loader) (ops : list op) : Prop :=
  exists wall, reply ls ops (Poll wall true true) = ANone.
(** The request is over: whatever the clock says, the caller gets this reply. *)
Definition finished (ls : list loader) (ops : list op) (b : bool) : Prop :=
  forall wall ok1 ok2, reply ls ops (Poll wall ok1 ok2) = ABool b.

(** The deadline of a request made at [now] with timeout [tmo] has passed at [t]. *)
Definition overdue (now tmo t : Z) : Prop := 0 < tmo /\ tmo < t - now.
(** The hardware may fail the switch in this cycle. *)
Definition may_fail (hw : hw_answers) : Prop :=
  hw_all hw 1%nat = ERROR \/ exists k info, hw_one hw k 1%nat info = ERROR.
Definition no_failure (now tmo : Z) (mid : list op) : Prop :=
  Forall (fun o => match o with Cycle t _ _ hw => ~ may_fail hw /\ ~ overdue now tmo t | _ => True end) mid.

(** The non-update callbacks of one instance. *)
Definition lifecycle_of (i : nat) (e : list event) : list callback :=
  filter (fun c => match c with CbUpdate _ => false | _ => true end) (callbacks_of i e).

(** ** loading *)
(** Loader [l] declares type [ty]; creating it has outcome [r]. *)
Definition offers (l : loader) (ty : string) (r : create_res) : Prop := In (ty, r) (ld_classes l).
(** No loader declares a type twice. *)
Definition distinct_classes (ls : list loader) : Prop := Forall (fun l => NoDup (map fst (ld_classes l))) ls.
(** The first loader that offers the type and does not answer null answers with an object. *)
Definition builds (ls : list loader) (ty : string) : Prop :=
  exists l1 l l2, ls = l1 ++ l :: l2 /\ offers l ty CrObject /\
    forall x r, In x l1 -> offers x ty r -> r = CrNull.
(** Loader number [k] is asked to create the type. *)
Definition asked (ls : list loader) (ty : string) (k : nat) : Prop :=
  exists l r, nth_error ls k = Some l /\ offers l ty r /\
    forall j l' r', (j < k)%nat -> nth_error ls j = Some l' -> offers l' ty r' -> r' = CrNull.
(** The loaders registered after a history. *)
Definition registered (ls : list loader) (ops : list op) : list loader :=
  ls ++ flat_map (fun o => match o with RegisterLoader l => [l] | _ => [] end) ops.
(** Everything ever loaded, in order. *)
Definition loads (tr : list event) : list (nat * cinfo) :=
  flat_map (fun e => match e with EvLoaded i info => [(i, info)] | _ => [] end) tr.
(** What list_controllers has to report. *)
Definition report (tr : list event) : list lc_entry :=
  map (fun c => mkEntry (ci_name (snd c)) (ci_type (snd c)) (ci_claims (snd c)) (phase_string (phase_of tr (fst c))))
      (loaded tr).
(** Types offered by the loaders, with the loader's base class. *)
Definition offered_types (ls : list loader) : list (string * string) :=
  flat_map (fun l => map (fun c => (fst c, ld_name l)) (ld_classes l)) ls.
Definition destroyed (tr : list event) (i : nat) : bool :=
  existsb (fun e => match e with EvDestroyed j => Nat.eqb i j | _ => false end) tr.

(** The hardware does not report "done" in this cycle, for any request. *)
Definition hw_never_done (hw : hw_answers) : Prop :=
  hw_all hw 0%nat <> DONE /\ forall k info, hw_one hw k 0%nat info <> DONE.
(** What a list of operations emits after the history [ops]. *)
Definition emits_all (ls : list loader) (ops ops2 : list op) : list event := snd (run (reach ls ops) ops2).

(** ** vocabulary of the theorems *)
(** The callbacks a pending start can cause. *)
Definition start_like (e : event) : bool :=
  match e with EvCb _ CbStarting _ | EvCb _ CbWaiting _ | EvCb _ CbAborting _ => true | _ => false end.
(** The running controllers, in load order. *)
Definition running_list (tr : list event) : list (nat * cinfo) := filter (fun c => runsb tr (fst c)) (loaded tr).
(** The check has to be right. *)
Definition disjoint_claims (a b : cinfo) : Prop := forall r, claims_resource a r -> claims_resource b r -> False.
Definition sound_check (ck : list cinfo -> bool) : Prop :=
  forall l, ck l = false -> ForallOrdPairs disjoint_claims l.
Definition sound_checks (ops : list op) : Prop :=
  Forall (fun o => match o with Switch _ _ _ _ _ _ ck _ | Reload _ _ ck _ => sound_check ck | _ => True end) ops.
(** Nothing is started, put into waiting or aborted while it runs, nothing is
    stopped unless it runs. *)
Definition alternates (past : list event) (e : event) : Prop :=
  match e with
  | EvCb i CbStarting _ | EvCb i CbWaiting _ | EvCb i CbAborting _ => ~ runs past i
  | EvCb i CbStopping _ => runs past i
  | _ => True
  end.
(** The requests that keep the callbacks alternating. *)
Definition careful (tr : list event) (o : op) : Prop :=
  match o with
  | Switch a _ z asap _ _ _ _ =>
      asap = true \/ (NoDup a /\ (z = STRICT \/ forall c, In c (loaded tr) -> named a c = true -> ~ runs tr (fst c)))
  | _ => True
  end.
Definition all_careful (ls : list loader) (ops : list op) : Prop :=
  forall pre o post, ops = pre ++ o :: post -> careful (trace ls pre) o.
(** When a load has to succeed. *)
Definition load_ok (ls : list loader) (ops : list op) (n : string) (env : load_env) : Prop :=
  ~ known (trace ls ops) n /\ le_nh_ok env = true /\
  exists ty cl, le_type env = Some ty /\ builds (registered ls ops) ty /\ le_init env = InitOk cl.
(** The waiting() callbacks of one instance. *)
Definition waits_of (i : nat) (e : list event) : list callback :=
  filter (fun c => match c with CbWaiting => true | _ => false end) (callbacks_of i e).
