(** Property theorems about the tool `controller_group`: what it does for each command word, and what it prints.
    [executes alone]: an execution during which nobody else calls the manager and the hardware reports no failure. *)
From Coq Require Import Permutation Lia.
From Verif Require Import HwTypes Lifecycle ConflictModel CMModel CMSpec CMFinal ScriptModel ScriptSpec ScriptProofs ScriptMain ScriptRun PropsScript
  UtilsModel UtilsSpec CliModel CliSpec CliProofs PropsCli GroupModel GroupSpec GroupProofs.
Local Open Scope string_scope.
Local Open Scope list_scope.

(** * C133 *)
(** list: every group once, in alphabetical order, each with its controllers as they were given; no call is made. *)
Theorem C133_list ls order gs p h h' out :
  NoDup (map fst gs) -> calm ls h -> group_cli order gs ["list"] = Some p -> executes alone ls h p h' (Some out) ->
  board ls h' = board ls h /\ exists l, Permutation l gs /\ ordered (map fst l) /\ out = Count (length gs) :: listing l.
Proof.
  intros N C P E. injection P as <-. apply ret_inv in E as (-> & _ & B); [|exact C]. split; [exact B | now apply groups_listing].
Qed.
Print Assumptions C133_list.

(** switch: the lines say truly what has been done, for each way in which it can end (C73). *)
Theorem C133_switch ls order gs g p h h' out :
  enumerates order -> NoDup (map fst gs) -> calm ls h -> group_cli order gs ["switch"; g] = Some p -> executes alone ls h p h' (Some out) ->
  calm ls h' /\ exists res odd out', out = map UnknownState odd ++ out' /\
    group_effect gs g (board ls h) (board ls h') (objection ls h h') (load_refused ls h h') res /\
    group_says gs g (board ls h) (board ls h') (objection ls h h') (load_refused ls h h') res out'.
Proof.
  intros HO HG C P E. injection P as <-. destruct (say_switch_group_inv ls order gs g h h' out HO HG E C) as (res & odd & out' & X & -> & _ & _ & S).
  destruct (C73_switch_group ls order gs g h h' res HO HG C X) as [C' G]. split; [exact C'|]. exists res, odd, out'. auto.
Qed.
Print Assumptions C133_switch.

(** If no error is printed (lines about states aside), the switch has been made; if one is, nothing was started or stopped. *)
Definition bad_news (x : gline) : Prop :=
  match x with EmptyGroup _ | CancelSwitch | Says (LoadError _) | Says (SwitchError _ _) => True | _ => False end.
Theorem C133_no_bad_news ls order gs g p h h' out :
  enumerates order -> NoDup (map fst gs) -> calm ls h -> group_cli order gs ["switch"; g] = Some p -> executes alone ls h p h' (Some out) ->
  (forall x, In x out -> ~ bad_news x) ->
  (forall n, in_group gs g n -> running (board ls h') n) /\ (forall n, in_any_group gs n -> ~ in_group gs g n -> ~ running (board ls h') n) /\
  exists n, in_group gs g n.
Proof.
  intros HO HG C P E N. injection P as <-. destruct (say_switch_group_inv ls order gs g h h' out HO HG E C) as (res & odd & out' & X & -> & O & _ & S).
  destruct (C73_switch_group ls order gs g h h' res HO HG C X) as [_ G].
  assert (N' : forall x, In x out' -> ~ bad_news x) by (intros x Hx; apply N, in_app_iff; now right). clear N.
  destruct res as [| |[|]]; cbn in S, G.
  - subst out'. destruct (N' _ (or_introl eq_refl) I).
  - destruct S as (l & m & -> & _). destruct (N' CancelSwitch); [apply in_app_iff; right; right; now left | exact I].
  - destruct G as (l & _ & _ & G). split; [intros n; apply G|]. split; [intros n Ha Hg; now apply (G n)|].
    unfold switch_group in X. pose proof (read_group_spec gs g HG) as RG. destruct (read_group gs g) as [[desired others]|].
    + destruct RG as (RD & _ & _ & NE). destruct desired as [|n desired]; [now destruct NE|]. exists n. apply RD. now left.
    + apply ret_inv in X as (X & _); [discriminate X | exact C].
  - destruct S as (l & a & t & -> & _). destruct (N' (Says (SwitchError a t))); [apply in_app_iff; right; now left | exact I].
Qed.
Print Assumptions C133_no_bad_news.
Theorem C133_bad_news ls order gs g p h h' out x :
  enumerates order -> NoDup (map fst gs) -> calm ls h -> group_cli order gs ["switch"; g] = Some p -> executes alone ls h p h' (Some out) ->
  In x out -> bad_news x -> exists l, board ls h' = board ls h ++ fresh l /\ forall n, In n l <-> In (Says (Loaded n)) out.
Proof.
  intros HO HG C P E Hx Bx. injection P as <-. destruct (say_switch_group_inv ls order gs g h h' out HO HG E C) as (res & odd & out' & X & -> & O & _ & S).
  destruct (C73_switch_group ls order gs g h h' res HO HG C X) as [_ G].
  assert (A : forall n, In (Says (Loaded n)) (map UnknownState odd ++ out') <-> In (Says (Loaded n)) out').
  { intros n. rewrite in_app_iff. split; [|tauto]. intros [K|K]; [|exact K]. apply in_map_iff in K as (m & K & _). discriminate K. }
  assert (B : forall l r n, (forall m, ~ In (Says (Loaded m)) r) -> In n l <-> In (Says (Loaded n)) (loaded_lines l ++ r)).
  { intros l r n Hr. rewrite in_app_iff. unfold loaded_lines. rewrite in_map_iff. split; [eauto|]. intros [(m & K & Hm)|K]; [injection K as <-; exact Hm | destruct (Hr n K)]. }
  destruct res as [| |[|]]; cbn in S, G.
  - destruct G as [_ G]. exists []. rewrite G, app_nil_r. split; [reflexivity|]. intros n. rewrite A. subst out'. cbn. split; [intros [] | intros [K|[]]; discriminate K].
  - destruct S as (l & m & -> & Bd & _). exists l. split; [exact Bd|]. intros n. rewrite A. apply B. intros k [K|[K|[]]]; discriminate K.
  - exfalso. destruct S as (l & a & t & -> & _). apply in_app_iff in Hx as [K|K]; [apply in_map_iff in K as (m & <- & _); exact Bx|].
    apply in_app_iff in K as [K|K]; [apply in_map_iff in K as (m & <- & _); exact Bx|]. unfold obeyed_lines in K.
    apply in_app_iff in K as [K|K]; [destruct a | destruct t]; try (destruct K as [<-|[]]; exact Bx); destruct K.
  - destruct S as (l & a & t & -> & Bd & _). exists l. split; [exact Bd|]. intros n. rewrite A. apply B. intros k [K|[]]; discriminate K.
Qed.
Print Assumptions C133_bad_news.

(** The lines about unknown states: one for each controller that is neither running nor stopped. *)
Theorem C133_unknown_states ls order gs g p h h' out :
  enumerates order -> NoDup (map fst gs) -> calm ls h -> group_cli order gs ["switch"; g] = Some p -> executes alone ls h p h' (Some out) ->
  (exists n, in_group gs g n) ->
  exists out', out = map UnknownState (filter (fun s => negb (String.eqb s "running" || String.eqb s "stopped")) (map (fun x => phase_string (snd x)) (board ls h))) ++ out' /\
    forall s, ~ In (UnknownState s) out'.
Proof.
  intros HO HG C P E G. injection P as <-. destruct (say_switch_group_inv ls order gs g h h' out HO HG E C) as (res & odd & out' & X & -> & O & _ & S).
  exists out'. rewrite (O G). split; [reflexivity|]. intros s H.
  assert (Q : forall l, ~ In (UnknownState s) (loaded_lines l)) by (intros l K; apply in_map_iff in K as (m & K & _); discriminate K).
  destruct res as [| |[|]]; cbn in S.
  - subst out'. destruct H as [H|[]]. discriminate H.
  - destruct S as (l & m & -> & _). apply in_app_iff in H as [H|H]; [exact (Q l H)|]. destruct H as [H|[H|[]]]; discriminate H.
  - destruct S as (l & a & t & -> & _). apply in_app_iff in H as [H|H]; [exact (Q l H)|]. unfold obeyed_lines in H.
    apply in_app_iff in H as [H|H]; [destruct a | destruct t]; try destruct H as [H|[]]; try discriminate H; destruct H.
  - destruct S as (l & a & t & -> & _). apply in_app_iff in H as [H|H]; [exact (Q l H)|]. destruct H as [H|[]]. discriminate H.
Qed.
Print Assumptions C133_unknown_states.

(** So a controller that is loaded and has never been started is reported as an error. *)
Theorem C133_initialized_refuted :
  exists ls order gs g p h h' out, enumerates order /\ NoDup (map fst gs) /\ calm ls h /\ group_cli order gs ["switch"; g] = Some p /\
    executes alone ls h p h' (Some out) /\ In ("b", PLoaded) (board ls h) /\ In (UnknownState "initialized") out /\
    (forall n, in_group gs g n -> running (board ls h') n).
Proof.
  exists ld0, id_order, [("one", ["x"]); ("two", ["a"])], "one", (say_switch_group id_order [("one", ["x"]); ("two", ["a"])] "one"), hist1,
    (ends (drive ld0 envs [] hist1 (say_switch_group id_order [("one", ["x"]); ("two", ["a"])] "one"))),
    [UnknownState "initialized"; UnknownState "initialized"; Says (Loaded "x"); Says (Started ["x"]); Says (Stopped ["a"])].
  split; [exact id_enumerates|]. split; [repeat constructor; cbn; intuition discriminate|]. split; [exact calm_hist1|]. split; [reflexivity|].
  split; [apply drive_ends; vm_compute; reflexivity|]. split; [vm_compute; tauto|]. split; [now left|].
  intros n (l & [E|[E|[]]] & Hn); [|discriminate E]. injection E as <-. destruct Hn as [<-|[]]. vm_compute. auto 6.
Qed.
Print Assumptions C133_initialized_refuted.

(** spawn: as `controller_manager spawn` (C132) with the controllers of the group, each once. *)
Theorem C133_spawn ls order gs g p h h' out :
  enumerates order -> NoDup (map fst gs) -> calm ls h -> group_cli order gs ["spawn"; g] = Some p -> executes alone ls h p h' (Some out) ->
  (forall n, ~ in_group gs g n) /\ out = [EmptyGroup g] /\ board ls h' = board ls h \/
  exists ns o o', NoDup ns /\ (forall n, In n ns <-> in_group gs g n) /\ out = map Says (o ++ o') /\ one_line_each Loaded LoadError ns o /\
    one_line_each (fun n => Started [n]) (fun n => SwitchError [n] []) ns o' /\
    exists l l', (forall n, In n l <-> In (Loaded n) (o ++ o')) /\ (forall n, In n l' <-> In (Started [n]) (o ++ o')) /\ sublist l ns /\
    board ls h' = switched l' [] (board ls h ++ fresh l) /\ (forall n, In n l' -> running (board ls h') n) /\
    (forall n, In n ns -> ~ running (board ls h') n -> load_refused ls h h' n \/ objection ls h h' [n] []).
Proof.
  intros HO HG C P E. injection P as <-. unfold say_spawn_group in E. pose proof (read_group_spec gs g HG) as RG. destruct (read_group gs g) as [[desired others]|].
  2:{ apply ret_inv in E as (-> & _ & B); [|exact C]. left. auto. }
  destruct RG as (RD & _ & ND & _). right.
  apply bind_inv in E as (h1 & o & E1 & E2). apply (print_inv ls) with (f := fun o' => map Says (o ++ o')) in E2 as (o' & -> & E2).
  assert (X : executes alone ls h (cli (fun l => l) [] ("spawn" :: order desired)) h' (Some (o ++ o', 0%nat))).
  { cbn. eapply bind_exec; [eapply bind_exec; [exact E1 | eapply bind_exec; [exact E2 | constructor]] | constructor]. }
  destruct (C132_spawn _ _ _ _ _ _ _ _ _ (or_intror eq_refl) C X) as (_ & _ & q & q' & Eq & L1 & L2 & R).
  exists (order desired), q, q'. split; [eapply Permutation_NoDup; [apply HO | exact ND]|]. split.
  { intros n. rewrite <- RD. split; apply Permutation_in; [symmetry|]; apply HO. }
  rewrite <- Eq. auto.
Qed.
Print Assumptions C133_spawn.

Example C133_example :
  let gs := [("two", ["a"; "b"]); ("one", ["x"; "bad"]); ("none", [])] in
  group_cli id_order gs ["list"] = Some (Ret [Count 3; GroupName "none"; GroupName "one"; Member "x"; Member "bad"; GroupName "two"; Member "a"; Member "b"]) /\
  (exists h', executes alone ld0 hist1 (say_switch_group id_order gs "one") h'
     (Some [UnknownState "initialized"; UnknownState "initialized"; Says (Loaded "x"); Says (LoadError "bad"); CancelSwitch])) /\
  (exists h', executes alone ld0 hist1 (say_switch_group id_order gs "two") h'
     (Some [UnknownState "initialized"; UnknownState "initialized"; Says (Started ["b"])])) /\
  (exists h', executes alone ld0 hist1 (say_switch_group id_order gs "none") h' (Some [EmptyGroup "none"])) /\
  (exists h', executes alone ld0 hist1 (say_switch_group id_order [("g", ["x"; "c"])] "g") h'
     (Some [UnknownState "initialized"; UnknownState "initialized"; Says (Loaded "x"); Says (SwitchError ["x"; "c"] [])])) /\
  (exists h', executes alone ld0 hist1 (say_spawn_group id_order gs "one") h'
     (Some (map Says [Loaded "x"; LoadError "bad"; Started ["x"]; SwitchError ["bad"] []]))).
Proof. cbv zeta. repeat split; try (eexists; apply (drive_ends ld0 envs []); vm_compute; reflexivity). Qed.
