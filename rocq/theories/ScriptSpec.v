(** Specification vocabulary for the scripts: what the manager's controllers look like from outside. *)
From Coq Require Import Permutation.
From Verif Require Import ConflictModel ScriptModel.

(** The loaded controllers in load order, by name, with what happened to them last. *)
Definition board (ls : list loader) (h : list op) : list (string * phase) :=
  map (fun c => (ci_name (snd c), phase_of (trace ls h) (fst c))) (loaded (trace ls h)).

Definition started (p : phase) : bool := phase_eqb p PStarted.
Definition names (b : list (string * phase)) : list string := map fst b.
Definition running (b : list (string * phase)) (n : string) : Prop := In (n, PStarted) b.

(** No request is being served, and no earlier caller has left its request unfinished. *)
Definition calm (ls : list loader) (h : list op) : Prop := no_abandoned h /\ idle ls h.

(** Nobody else calls the manager, ROS stays up, and the hardware reports no failure: control cycles and
    evaluations of the wait loop only. *)
Definition alone (o : op) : Prop :=
  match o with
  | Cycle _ _ _ hw => ~ may_fail hw
  | Poll _ ok1 ok2 => ok1 = true /\ ok2 = true
  | _ => False
  end.

Definition listed (n : string) (l : list string) : bool := if in_dec string_dec n l then true else false.

(** What a successful switch request makes of the controllers: those to start run, running ones to stop
    have been stopped, and the others are as before. *)
Definition switched (start stop : list string) (b : list (string * phase)) : list (string * phase) :=
  map (fun x => (fst x, if listed (fst x) start then PStarted
                        else if listed (fst x) stop && started (snd x) then PStopped else snd x)) b.

(** Between the histories [h] and [h'] somebody asked to load a controller [n], and was refused although no controller
    had this name.  C18 says when that happens. *)
Definition load_refused (ls : list loader) (h h' : list op) (n : string) : Prop :=
  exists t env t', h' = h ++ t ++ Load n env :: t' /\ reply ls (h ++ t) (Load n env) = ABool false /\ ~ In n (names (board ls (h ++ t))).

(** The only other reasons to refuse a request: between the histories [h] and [h'] the request was made, and the resource
    check reported a conflict for the controllers that would have run, or the hardware refused to prepare the switch. *)
Definition objection (ls : list loader) (h h' : list op) (start stop : list string) : Prop :=
  exists t z now ck pr t', h' = (h ++ t) ++ Switch start stop z false 0 now ck pr :: t' /\
    let tr := trace ls (h ++ t) in
    (ck (would_run tr start stop) = true \/ pr (to_start tr start) (to_stop tr stop) = false).

(** The hardware has prepared every switch it was asked to. *)
Definition agreeing (h : list op) : Prop :=
  Forall (fun o => match o with Switch _ _ _ _ _ _ _ pr | Reload _ _ _ pr => forall x y, pr x y = true | _ => True end) h.
(** A controller claims no resource twice. *)
Definition claims_once (c : cinfo) : Prop := NoDup (flat_map ir_res (ci_claims c)).
(** A robot with the default check, agreeing hardware, and controllers each of which claims no resource twice. *)
Definition plain (ls : list loader) (h : list op) : Prop :=
  checks_with check_for_conflict h /\ agreeing h /\ forall c, In c (loads (trace ls h)) -> claims_once (snd c).
(** When a request to start and stop was made between [h] and [h'], two controllers that would have run shared a resource:
    one to be started, and another one to be started or running at that moment and not to be stopped. *)
Definition clash (ls : list loader) (h h' : list op) (start stop : list string) : Prop :=
  exists t t' c d r, h' = (h ++ t) ++ t' /\ let tr := trace ls (h ++ t) in
    In c (loaded tr) /\ In d (loaded tr) /\ c <> d /\ claims_resource (snd c) r /\ claims_resource (snd d) r /\
    In (ci_name (snd c)) start /\ (In (ci_name (snd d)) start \/ runs tr (fst d) /\ ~ In (ci_name (snd d)) stop).
(** The same for one controller to start. *)
Definition in_the_way (ls : list loader) (h h' : list op) (n : string) : Prop :=
  exists t t' c d r, h' = (h ++ t) ++ t' /\ let tr := trace ls (h ++ t) in
    In c (loaded tr) /\ ci_name (snd c) = n /\ In d (loaded tr) /\ runs tr (fst d) /\ c <> d /\
    claims_resource (snd c) r /\ claims_resource (snd d) r.

(** A strict request that fits the board. *)
Definition fits (start stop : list string) (b : list (string * phase)) : Prop :=
  (forall n, In n start -> In n (names b) /\ ~ running b n) /\ (forall n, In n stop -> running b n).

(** [l'] is [l] without some of its elements. *)
Inductive sublist {A} : list A -> list A -> Prop :=
| sub_nil : sublist [] []
| sub_skip x l' l : sublist l' l -> sublist l' (x :: l)
| sub_keep x l' l : sublist l' l -> sublist (x :: l') (x :: l).

(** The names with a positive reply. *)
Definition taken (l : list string) (oks : list bool) : list string := map fst (filter snd (combine l oks)).

(** Python enumerates a set in some order. *)
Definition enumerates (order : list string -> list string) : Prop := forall l, Permutation l (order l).

(** The parameter 'controller_groups' names [n] in the group [g] / in some group. *)
Definition in_group (gs : list (string * list string)) (g n : string) : Prop := exists l, In (g, l) gs /\ In n l.
Definition in_any_group (gs : list (string * list string)) (n : string) : Prop := exists g, in_group gs g n.

(** Controllers just loaded. *)
Definition fresh (l : list string) : list (string * phase) := map (fun n => (n, PLoaded)) l.

(** What `controller_group switch` does to the board [b], giving [b'], if it
    - finds no controllers for the group;
    - gives up because a controller cannot be loaded ([refused]);
    - asks to switch and is refused: a request that fits the board, so for a conflict or by the hardware;
    - asks to switch and is obeyed. *)
Definition group_effect (gs : list (string * list string)) (g : string) (b b' : list (string * phase)) (objection : list string -> list string -> Prop) (refused : string -> Prop) (res : group_result) : Prop :=
  match res with
  | NoGroup => (forall n, ~ in_group gs g n) /\ b' = b
  | Cancelled => exists l, b' = b ++ fresh l /\ (forall n, In n l -> in_group gs g n) /\ (exists n, in_group gs g n /\ ~ In n (names b') /\ refused n)
  | Switched false => exists l a s, b' = b ++ fresh l /\ (forall n, In n l <-> in_group gs g n /\ ~ In n (names b)) /\
      (forall n, In n a <-> in_group gs g n /\ ~ running b n) /\ (forall n, In n s <-> in_any_group gs n /\ ~ in_group gs g n /\ running b n) /\
      fits a s b' /\ objection a s
  | Switched true => exists l, names b' = names b ++ l /\ (forall n, In n l <-> in_group gs g n /\ ~ In n (names b)) /\
      forall n, (in_group gs g n -> running b' n) /\
        (in_any_group gs n -> ~ in_group gs g n -> ~ running b' n /\ forall p, p <> PStarted -> In (n, p) b -> In (n, p) b') /\
        (~ in_any_group gs n -> forall p, In (n, p) b' <-> In (n, p) b)
  end.
