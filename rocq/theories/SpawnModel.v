(** Model of scripts/spawner beyond its requests in the normal course (ScriptModel.v): what it waits for before it
    sends a request, which controllers its arguments stand for, and its two threads when a shutdown begins while it is
    still loading or starting controllers. *)
From Coq Require Import ZArith Ascii.
From Verif Require Export ScriptModel.
Local Open Scope string_scope.
Local Open Scope list_scope.

(** ** Arguments *)

(** spawner:74-90 [parse_args], 97-103.  Simplification: times are integers in some unit; the deprecated argument
    --shutdown-timeout (86-87, 107-108) is left out. *)
Record sp_args := mkArgs {
  a_stopped : bool;
  a_wait_for : bool;          (** --wait-for was given (a non-empty topic name) *)
  a_namespace : string;       (** "" if not given (99) *)
  a_timeout : Z;
  a_no_timeout : bool;
  a_controllers : list string
}.

(** spawner:100-103; [None] is Python's None. *)
Definition sp_timeout (a : sp_args) : option Z :=
  if a_no_timeout a || (a_timeout a <=? 0)%Z then None else Some (a_timeout a).

(** spawner:111: [s[-1]], for a non-empty string. *)
Fixpoint last_char (s : string) : option Ascii.ascii :=
  match s with
  | EmptyString => None
  | String c EmptyString => Some c
  | String _ s' => last_char s'
  end.

(** spawner:110-112. *)
Definition sp_prefix (ns : string) : string :=
  match last_char ns with
  | None => ns
  | Some c => if Ascii.eqb c "/"%char then ns else (ns ++ "/")%string
  end.

(** spawner:114-117: the names of the load, unload and switch service. *)
Definition sp_services (ns : string) : string * string * string :=
  let p := sp_prefix ns in
  ((p ++ "controller_manager/load_controller")%string,
   (p ++ "controller_manager/unload_controller")%string,
   (p ++ "controller_manager/switch_controller")%string).

(** ** Waiting *)

(** What one round of waiting for the three services ends with (spawner:121-146): all were found, or a ROSException;
    in this case, whether simulated time is used and no clock has been published yet (140). *)
Inductive attempt := SvcFound | SvcMissing (no_clock : bool).

(** One round of the loops that wait for the topic (spawner:165-177): the last message heard, when the loop condition is
    evaluated; and after the sleep, whether the node is being shut down, and how long it has been waiting. *)
Record look := mkLook { lk_heard : option bool; lk_shutdown : bool; lk_elapsed : Z }.

(** How the first part of [main] ends (spawner:105-177): [main] goes on; services missing (143-144); shutdown (168, 177); an exception
    (TypeError: comparison of a number with None, 170; AttributeError: None has no [data], 174); or not yet. *)
Inductive front_end := FReady | FNoServices | FShutdown | FTypeError | FAttributeError | FWaiting.

(** spawner:119-146. *)
Fixpoint wait_services (l : list attempt) : front_end :=
  match l with
  | [] => FWaiting
  | SvcFound :: _ => FReady
  | SvcMissing true :: l' => wait_services l'
  | SvcMissing false :: _ => FNoServices
  end.

(** spawner:174-177. *)
Fixpoint wait_true (l : list look) : front_end :=
  match l with
  | [] => FWaiting
  | o :: l' =>
      match lk_heard o with
      | None => FAttributeError
      | Some true => FReady
      | Some false => if lk_shutdown o then FShutdown else wait_true l'
      end
  end.

(** spawner:165-177; [warned] is warned_about_not_hearing_anything.  A message object counts as true (it defines neither
    __bool__ nor __len__).  Python 3 semantics of the comparison in 170. *)
Fixpoint wait_topic (timeout : option Z) (warned : bool) (l : list look) : front_end :=
  match l with
  | [] => FWaiting
  | o :: l' =>
      match lk_heard o with
      | Some _ => wait_true l'
      | None =>
          if lk_shutdown o then FShutdown
          else if warned then wait_topic timeout true l'
          else match timeout with
               | None => FTypeError
               | Some t => wait_topic timeout (t <? lk_elapsed o)%Z l'
               end
      end
  end.

(** spawner:105-177. *)
Definition sp_front (a : sp_args) (atts : list attempt) (looks : list look) : front_end :=
  match wait_services atts with
  | FReady => if a_wait_for a then wait_topic (sp_timeout a) false looks else FReady
  | e => e
  end.

(** spawner:183-193.  [file n]: the top level keys of the yaml file [n], if it exists.  Simplification: the files are
    readable, and their contents are set on the parameter server (187) without failure. *)
Definition sp_controllers (file : string -> option (list string)) (names : list string) : list string :=
  flat_map (fun n => match file n with Some keys => keys | None => [n] end) names.

(** ** Two threads *)

(** The main thread (spawner:196-218): at the head of the loading loop; after the reply to a load request (199); before the
    start request (212), after the check of 207; at 218 or after [main]. *)
Inductive main_pc := MLoop (names : list string) | MReply (n : string) (ok : bool) (names : list string) | MStart | MSpin.

(** The shutdown hook (spawner:52-72), run by rospy in the thread that learns of the shutdown, after the shutdown flag has been
    set: not begun; begun (65, argument not yet read); about to send the stop request with this argument; stop
    request answered (67); unloading; finished. *)
Inductive hook_pc := HWait | HStop | HAsk (l : list string) | HRead | HUnload (l : list string) | HDone.

(** The global [loaded] (spawner:45), the shutdown flag of rospy (spawner:207), and where the threads are. *)
Record sp_state := mkSp { sp_loaded : list string; sp_flag : bool; sp_main : main_pc; sp_hook : hook_pc }.

(** spawner:180-196. *)
Definition sp_init (names : list string) : sp_state := mkSp [] false (MLoop names) HWait.

(** One step of the main thread (spawner:196-218): at most one request. *)
Definition main_step (stopped : bool) (s : sp_state) : script sp_state :=
  let go l m := mkSp l (sp_flag s) m (sp_hook s) in
  match sp_main s with
  | MLoop [] => Ret (go (sp_loaded s) (if sp_flag s then MSpin else if stopped then MSpin else MStart))
  | MLoop (n :: names) => CLoad n (fun ok => Ret (go (sp_loaded s) (MReply n ok names)))
  | MReply n ok names => Ret (go (if ok then sp_loaded s ++ [n] else sp_loaded s) (MLoop names))
  | MStart => CSwitch (sp_loaded s) [] STRICT (fun _ => Ret (go (sp_loaded s) MSpin))
  | MSpin => Ret s
  end.

(** One step of the hook (spawner:52-72): at most one request. *)
Definition hook_step (s : sp_state) : script sp_state :=
  let go f k := mkSp (sp_loaded s) f (sp_main s) k in
  match sp_hook s with
  | HWait => Ret (go true HStop)
  | HStop => Ret (go (sp_flag s) (HAsk (sp_loaded s)))
  | HAsk l => CSwitch [] l STRICT (fun _ => Ret (go (sp_flag s) HRead))
  | HRead => Ret (go (sp_flag s) (HUnload (rev (sp_loaded s))))
  | HUnload [] => Ret (go (sp_flag s) HDone)
  | HUnload (n :: l) => CUnload n (fun _ => Ret (go (sp_flag s) (HUnload l)))
  | HDone => Ret s
  end.

(** The threads of the spawner under a schedule ([true]: a step of the main thread) (spawner:52-72, 196-218).  The manager serves one request
    at a time (services_lock_, controller_manager.cpp:648), so requests of the two threads are served one after the other. *)
Fixpoint sp_threads (stopped : bool) (schedule : list bool) (s : sp_state) : script sp_state :=
  match schedule with
  | [] => Ret s
  | w :: schedule' => bind (if w then main_step stopped s else hook_step s) (sp_threads stopped schedule')
  end.

(** The whole script (spawner:92-218): it sends requests only after the first part of [main] has ended well; before that no hook is registered (180). *)
Definition sp_run (a : sp_args) (file : string -> option (list string)) (atts : list attempt) (looks : list look) (schedule : list bool)
  : script (front_end * option sp_state) :=
  match sp_front a atts looks with
  | FReady => bind (sp_threads (a_stopped a) schedule (sp_init (sp_controllers file (a_controllers a)))) (fun s => Ret (FReady, Some s))
  | e => Ret (e, None)
  end.
