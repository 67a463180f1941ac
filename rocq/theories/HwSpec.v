(** Specifications for registries, interfaces, interface managers and controller
    initialisation, in terms of what was registered and which calls were made. *)
From Verif Require Import HwTypes SMap HwModel.

(** The registry after the registrations [hs]. *)
Definition registry (hs : list handle) : rmap := fold_left rm_register hs [].
(** The handle registered last under [n]. *)
Definition registered_last (hs : list handle) (n : string) : option handle :=
  find (fun h => String.eqb (h_name h) n) (rev hs).
(** The first answer in a list of partial answers. *)
Fixpoint first_some {A B} (f : A -> option B) (l : list A) : option B :=
  match l with [] => None | a :: l' => match f a with Some b => Some b | None => first_some f l' end end.

(** Strictly increasing. *)
Definition increasing (l : list string) : Prop :=
  forall i j a b, i < j -> nth_error l i = Some a -> nth_error l j = Some b -> String.compare a b = Lt.

(** Histories of one interface. *)
Inductive iop := IReg (h : handle) | IGet (n : string) | IClear.
Definition iface_step (claiming : bool) (o : hobj) (x : iop) : hobj * option (option handle) :=
  match x with
  | IReg h => (add_handle o h, None)
  | IGet n => let (o', r) := hw_get_handle claiming o n in (o', Some r)
  | IClear => (clear_claims o, None)
  end.
Definition iface_run (claiming : bool) (ops : list iop) : hobj := fold_left (fun o x => fst (iface_step claiming o x)) ops (mkObj [] []).
Definition handles_of (ops : list iop) : list handle := flat_map (fun x => match x with IReg h => [h] | _ => [] end) ops.

(** [n] was obtained with getHandle after the last clearClaims. *)
Definition obtained (ops : list iop) (n : string) : Prop :=
  exists pre post, ops = pre ++ IGet n :: post /\ ~ In IClear post /\ exists h, In (IReg h) pre /\ h_name h = n.

(** The interfaces of type [T] registered with a manager and its sub-managers, own
    one first. *)
Fixpoint leaves (T : string) (m : mgr) : list nat :=
  match m with
  | Mgr ifaces _ _ _ subs => match sfind T ifaces with Some (Some i) => [i] | _ => [] end ++ flat_map (leaves T) subs
  end.
(** Interface type [T] is registered with the manager or one of its sub-managers. *)
Inductive has_type (T : string) : mgr -> Prop :=
| Own ifaces combo num res subs p : sfind T ifaces = Some p -> has_type T (Mgr ifaces combo num res subs)
| Sub ifaces combo num res subs s : In s subs -> has_type T s -> has_type T (Mgr ifaces combo num res subs).

(** For interfaces that cannot be combined: the only one visible. *)
Fixpoint sole (T : string) (m : mgr) : option nat :=
  match m with
  | Mgr ifaces _ _ _ subs =>
      match sfind T ifaces with
      | Some None => None
      | own =>
          match (match own with Some (Some i) => [i] | _ => [] end) ++
                flat_map (fun s => match sole T s with Some i => [i] | None => [] end) subs with
          | [i] => Some i
          | _ => None
          end
      end
  end.
Definition exposed (kd : string -> tkind) (m : mgr) (T : string) : Prop :=
  if tk_rm (kd T) then leaves T m <> [] else sole T m <> None.

(** Objects keep their resources, new objects may appear. *)
Definition world_le (w w' : world) : Prop :=
  w_next w <= w_next w' /\ forall i, i < w_next w -> ho_map (w_obj w' i) = ho_map (w_obj w i).

(** Resource maps that were filled by registrations. *)
Definition world_ok (w : world) : Prop := forall i, exists hs, ho_map (w_obj w i) = registry hs.

(** Managers built in an orderly way: each type is registered once per manager, a
    manager is complete before it becomes a sub-manager, resources are
    registered before their interface is.  Lookups may happen at any time. *)
Inductive built (kd : string -> tkind) : world -> mgr -> Prop :=
| BNew w : world_ok w -> built kd w mgr_new
| BReg w m T i m' : built kd w m -> flat_get m T = None -> i < w_next w ->
    register_interface (kd T) w m T (Some i) = Some m' -> built kd w m'
| BSub w m s : built kd w m -> built kd w s -> built kd w (register_manager m s)
| BGet w m T m' w' p : built kd w m -> get (kd T) T m w = (m', w', p) -> built kd w' m'
| BOther w w' m : built kd w m -> world_le w w' -> world_ok w' -> built kd w' m.

(** Resources of the interface a lookup has to return. *)
Definition merged (w : world) (l : list nat) : rmap := rm_concat (map (fun i => ho_map (w_obj w i)) l) [].

(** A successful call getHandle([n]) through [r] was made by one of the two bodies. *)
Definition calls_of {R} (b1 b2 : body R) (r : R) (n : string) : Prop :=
  exists caught, In (r, n, caught) (b_calls b1 ++ b_calls b2).

(** [r] stands at the given place of the claims of the given controllers. *)
Definition claim_at (infos : list cinfo) (p : nat * nat * nat) (r : string) : Prop :=
  exists c f, nth_error infos (fst (fst p)) = Some c /\ nth_error (ci_claims c) (snd (fst p)) = Some f /\ nth_error (ir_res f) (snd p) = Some r.

(** [n] is a resource of some interface of type [T] of manager [m]. *)
Definition provides (w : world) (m : mgr) (T n : string) : Prop :=
  exists i, In i (leaves T m) /\ rm_get (ho_map (w_obj w i)) n <> None.

(** Every call of this init body finds its resource, or the controller handles the exception. *)
Definition calls_succeed {R} (locate : R -> option (nat * bool)) (w : world) (b : body R) : Prop :=
  forall r n i c, In (r, n, false) (b_calls b) -> locate r = Some (i, c) -> rm_get (ho_map (w_obj w i)) n <> None.

(** Same registrations (caches may differ). *)
Definition same_regs (m m' : mgr) : Prop :=
  (forall T, leaves T m' = leaves T m) /\ (forall T, iface_resources T m' = iface_resources T m) /\ im_names m' = im_names m /\
  (forall T, sole T m' = sole T m) /\ (forall T, flat_get m' T = flat_get m T).

(** The object [i] in world [w'] stands for type [T] of manager [m] in world [w]. *)
Definition stands (kd : string -> tkind) (m : mgr) (w w' : world) (T : string) (i : nat) : Prop :=
  i < w_next w' /\
  if tk_rm (kd T) then (forall n, rm_get (ho_map (w_obj w' i)) n = first_some (fun j => rm_get (ho_map (w_obj w j)) n) (rev (leaves T m))) /\ (forall j, leaves T m = [j] -> i = j)
  else sole T m = Some i.
