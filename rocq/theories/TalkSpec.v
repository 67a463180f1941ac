(** Specification vocabulary: what a script says to the manager, whatever it is answered. *)
From Verif Require Import ScriptModel ScriptSpec.
Local Open Scope list_scope.

(** Requests, without what the environment decides. *)
Inductive req :=
| RLoad (n : string) | RUnload (n : string) | RSwitch (start stop : list string) (strictness : Z) | RList | RReload (force : bool).

(** The request in an operation of the manager, made as the scripts make it. *)
Definition request_in (o : op) : list req :=
  match o with
  | Load n _ => [RLoad n]
  | Unload n => [RUnload n]
  | Switch a b z false 0 _ _ _ => [RSwitch a b z]
  | ListControllers => [RList]
  | Reload f _ _ _ => [RReload f]
  | _ => []
  end.

(** A conversation: the requests of a script with the answers, which may be any; [ANone]: none came, an exception was
    raised.  It may end at any point with an exception (result [None]). *)
Inductive talks {R} : script R -> list (req * answer) -> option R -> Prop :=
| t_ret r : talks (Ret r) [] (Some r)
| t_raise p : talks p [] None
| t_load n k b l r : talks (k b) l r -> talks (CLoad n k) ((RLoad n, ABool b) :: l) r
| t_unload n k b l r : talks (k b) l r -> talks (CUnload n k) ((RUnload n, ABool b) :: l) r
| t_list k e l r : talks (k e) l r -> talks (CList k) ((RList, AList e) :: l) r
| t_switch a b z k x l r : talks (k x) l r -> talks (CSwitch a b z k) ((RSwitch a b z, ABool x) :: l) r
| t_switch_lost a b z k : talks (CSwitch a b z k) [(RSwitch a b z, ANone)] None
| t_reload f k x l r : talks (k x) l r -> talks (CReload f k) ((RReload f, ABool x) :: l) r
| t_reload_lost f k : talks (CReload f k) [(RReload f, ANone)] None.

(** Requests for one controller. *)
Definition start_one (n : string) : req := RSwitch [n] [] STRICT.
Definition stop_one (n : string) : req := RSwitch [] [n] STRICT.
Definition begins {A} (a l : list A) : Prop := exists c, l = a ++ c.

(** A listing shows [n] / shows [n] as running. *)
Definition shows (e : list lc_entry) (n : string) : Prop := In n (map en_name e).
Definition shows_running (e : list lc_entry) (n : string) : Prop := exists x, In x e /\ en_name x = n /\ en_state x = "running"%string.

(** The controllers whose load was granted. *)
Definition accepted (l : list (req * answer)) : list string :=
  flat_map (fun x => match x with (RLoad n, ABool true) => [n] | _ => [] end) l.
(** The controllers named in the stop requests that were answered. *)
Definition stops_of (l : list (req * answer)) : list string :=
  flat_map (fun x => match x with (RSwitch [] s _, ABool _) => s | _ => [] end) l.
(** Rounds: a listing, and a request to stop exactly those of [ti] that it shows as running, if there are any. *)
Inductive rounds (ti : list string) : list (req * answer) -> Prop :=
| rd_nil : rounds ti []
| rd_quiet e l : rounds ti l -> rounds ti ((RList, AList e) :: l)
| rd_stop e s x l : s <> [] -> NoDup s -> (forall m, In m s <-> In m ti /\ shows_running e m) -> rounds ti l ->
    rounds ti ((RList, AList e) :: (RSwitch [] s BEST_EFFORT, ABool x) :: l)
| rd_lost e s : s <> [] -> NoDup s -> (forall m, In m s <-> In m ti /\ shows_running e m) -> rounds ti [(RList, AList e); (RSwitch [] s BEST_EFFORT, ANone)].
