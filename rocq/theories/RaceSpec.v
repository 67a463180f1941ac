(** What safety of the list hand-over means, on event traces only. *)
From Verif Require Import RaceModel.

(** [last], [prev]: the two most recently committed lists; [w]: the list being
    iterated and the elements still to be visited. *)
Fixpoint list_safe (last prev : list nat) (w : option (buf * list nat)) (tr : list ev) : Prop :=
  match tr with
  | [] => True
  | e :: tr' =>
      match e with
      | EBegin b l => w = None /\ (l = last \/ l = prev) /\ list_safe last prev (Some (b, l)) tr'
      | EVisit i => exists b rest, w = Some (b, i :: rest) /\ list_safe last prev (Some (b, rest)) tr'
      | EEnd b => w = Some (b, []) /\ list_safe last prev None tr'
      | EWrite b => (forall b' l, w = Some (b', l) -> b' <> b) /\ list_safe last prev w tr'
      | ECommit l => list_safe l last w tr'
      | EUB => False
      | _ => list_safe last prev w tr'
      end
  end.

(** The request vectors are not modified while they are iterated. *)
Fixpoint req_safe (iter : bool) (tr : list ev) : Prop :=
  match tr with
  | [] => True
  | EReqBegin :: tr' => req_safe true tr'
  | EReqEnd :: tr' => req_safe false tr'
  | EReqWrite :: tr' => iter = false /\ req_safe iter tr'
  | _ :: tr' => req_safe iter tr'
  end.

(** ROS is not shut down: the wait loops see ros::ok() true. *)
Definition ros_up (acts : list act) : Prop :=
  Forall (fun a => match a with NPoll ok1 _ => ok1 = true | _ => True end) acts.
(** The very first execution of "used = current" is not interrupted. *)
Definition first_cycle_atomic (acts : list act) : Prop :=
  forall pre post, acts = pre ++ ARead :: post -> ~ In ARead pre ->
    post = [] \/ exists r post', post = APublish r :: post'.
(** No cycle asks for a restart of the controllers. *)
Definition no_resets (acts : list act) : Prop :=
  Forall (fun a => match a with APublish r => r = false | _ => True end) acts.
(** No switch request times out on the wall clock. *)
Definition no_wall_timeout (acts : list act) : Prop := ~ In NSwTimeout acts.

Definition publishes (acts : list act) : nat :=
  length (filter (fun a => match a with APublish _ => true | _ => false end) acts).
(** Only the control loop and the polling of the waiting loader run. *)
Definition only_waits (acts : list act) : Prop :=
  Forall (fun a => match a with ARead | APublish _ | ARt | ASwEnd _ => True | NPoll true true => True | _ => False end) acts.

(** Every list made current is the previous one with one controller appended or with
    one controller taken out. *)
Fixpoint commits_ok (last : list nat) (tr : list ev) : Prop :=
  match tr with
  | [] => True
  | ECommit l :: tr' =>
      ((exists i, ~ In i last /\ l = last ++ [i]) \/ (exists i pre post, last = pre ++ i :: post /\ l = pre ++ post)) /\ commits_ok l tr'
  | _ :: tr' => commits_ok last tr'
  end.

(** The list made current last ([first] if there is none). *)
Fixpoint committed (first : list nat) (tr : list ev) : list nat :=
  match tr with
  | [] => first
  | ECommit l :: tr' => committed l tr'
  | _ :: tr' => committed first tr'
  end.
