(** Specification vocabulary for utils.py. *)
From Coq Require Import Ascii Sorted.
From Verif Require Import UtilsModel.
Local Open Scope string_scope.

(** [sub] occurs in [s]. *)
Definition occurs (sub s : string) : Prop := exists a b, s = (a ++ sub ++ b)%string.

Fixpoint chars (s : string) : list ascii := match s with EmptyString => [] | String c s' => c :: chars s' end.
Definition no_slash (s : string) : Prop := ~ In "/"%char (chars s).

(** Alphabetical order. *)
Definition ordered (l : list string) : Prop := StronglySorted (fun a b => String.compare a b <> Gt) l.

(** The namespace [ns] as a prefix of global names: with one '/' at both ends. *)
Definition starts_with_slash (s : string) : Prop := exists r, s = ("/" ++ r)%string.
Definition ends_with_slash (s : string) : Prop := exists r, s = (r ++ "/")%string.
Definition global_prefix (ns g : string) : Prop :=
  starts_with_slash g /\ ends_with_slash g /\
  (g = ns \/ ~ starts_with_slash ns /\ g = ("/" ++ ns)%string \/ ~ ends_with_slash ns /\ g = (ns ++ "/")%string \/
   ~ starts_with_slash ns /\ ~ ends_with_slash ns /\ ns <> "" /\ g = ("/" ++ ns ++ "/")%string).

(** Which resource sets and which controllers match. *)
Definition matches_set (resources : list string) (hi : option string) (match_any : bool) (rs : iface_res) : Prop :=
  (forall i, hi = Some i -> ir_iface rs = i) /\
  (if match_any then exists r, In r resources /\ In r (ir_res rs) else forall r, In r resources -> In r (ir_res rs)).
Definition matches_resources (resources : list string) (hi : option string) (match_any : bool) (c : lc_entry) : Prop :=
  exists rs, In rs (en_claims c) /\ matches_set resources hi match_any rs.
(** [l'] consists of the elements of [l] with property [P], in the same order. *)
Inductive selection {A} (P : A -> Prop) : list A -> list A -> Prop :=
| sel_nil : selection P [] []
| sel_take x l l' : P x -> selection P l l' -> selection P (x :: l) (x :: l')
| sel_drop x l l' : ~ P x -> selection P l l' -> selection P (x :: l) l'.

(** The services of a manager at [m]: the service [s] has the name [m/s], or [/s] for the root. *)
Definition service_at (m s : string) : string := if String.eqb m "/" then ("/" ++ s)%string else (m ++ "/" ++ s)%string.
(** The manager API: names and types of the services in controller_manager_msgs/srv that utils.py:44-56 lists. *)
Definition full_api (types : string -> option string) (m : string) : Prop :=
  types (service_at m "list_controllers") = Some "controller_manager_msgs/ListControllers" /\
  types (service_at m "list_controller_types") = Some "controller_manager_msgs/ListControllerTypes" /\
  types (service_at m "load_controller") = Some "controller_manager_msgs/LoadController" /\
  types (service_at m "unload_controller") = Some "controller_manager_msgs/UnloadController" /\
  types (service_at m "switch_controller") = Some "controller_manager_msgs/SwitchController" /\
  types (service_at m "reload_controller_libraries") = Some "controller_manager_msgs/ReloadControllerLibraries".
(** A namespace as a service name shows it. *)
Definition proper (m : string) : Prop := m = "/" \/ m <> "" /\ ~ ends_with_slash m.
(** The service name [s] shows the namespace [m]: what precedes the first "/list_controllers" in it. *)
Definition shows (s m : string) : Prop :=
  exists a t, s = (a ++ "/list_controllers" ++ t)%string /\ ~ occurs "/list_controllers" a /\ (a <> "" /\ m = a \/ a = "" /\ m = "/").
(** The master, if it answers, lists a service that shows [m]. *)
Definition listed_ns (srvs : option (list string)) (m : string) : Prop := exists l s, srvs = Some l /\ In s l /\ shows s m.
