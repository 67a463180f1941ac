(** Specification vocabulary for the exact events of one control cycle. *)
From Verif Require Import HwTypes Lifecycle CMModel CMSpec.
Open Scope Z_scope.

(** The controllers a request names, in the order of the request. *)
Definition requested (tr : list event) (names : list string) : list (nat * cinfo) :=
  flat_map (fun n => filter (fun c => String.eqb (ci_name (snd c)) n) (loaded tr)) names.
(** First occurrences. *)
Fixpoint firsts (seen l : list nat) : list nat :=
  match l with
  | [] => []
  | i :: l' => if existsb (Nat.eqb i) seen then firsts seen l' else i :: firsts (i :: seen) l'
  end.
(** A control cycle is among [mid]. *)
Definition cycled (mid : list op) : bool :=
  existsb (fun o => match o with Cycle _ _ _ _ => true | _ => false end) mid.
(** What a controller waiting to be started is told: [x] and [y] are the hardware's
    first and second answer, the request was made at [now] with timeout [tmo]. *)
Definition told (x y : swstate) (now tmo t : Z) : callback :=
  match x with
  | DONE => CbStarting
  | _ => match y with
         | ERROR => CbAborting
         | _ => if (0 <? tmo) && (tmo <? t - now) then CbAborting else CbWaiting
         end
  end.
(** The controllers that are stopped: running and named, each once, in request order. *)
Definition stops_of (before tr : list event) (names : list string) (t : Z) : list event :=
  map (fun i => EvCb i CbStopping t) (filter (runsb before) (firsts [] (map fst (requested tr names)))).
(** All controllers get the same answer (start_asap not set). *)
Definition starts_together (hw : hw_answers) (now tmo t : Z) (req : list (nat * cinfo)) : list event :=
  map (fun c => EvCb (fst c) (told (hw_all hw 0%nat) (hw_all hw 1%nat) now tmo t) t) req.
(** Every controller gets its own answer (start_asap set); those that run are left alone. *)
Definition starts_apart (hw : hw_answers) (skip : nat * cinfo -> bool) (now tmo t : Z) (req : list (nat * cinfo)) : list event :=
  flat_map (fun kc => if skip (snd kc) then [] else
              [EvCb (fst (snd kc)) (told (hw_one hw (fst kc) 0%nat (snd (snd kc))) (hw_one hw (fst kc) 1%nat (snd (snd kc))) now tmo t) t])
           (combine (seq 0 (length req)) req).
(** How often instance [i] gets the callback [cb] (not an update). *)
Definition count_cb (is_cb : event -> bool) (i : nat) (e : list event) : nat :=
  length (filter (fun x => is_cb x && match x with EvCb j _ _ => Nat.eqb i j | _ => false end) e).
