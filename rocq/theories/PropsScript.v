(** Property theorems about the command line scripts of controller_manager.  [executes alone]: an execution
    during which nobody else calls the manager and the hardware reports no failure (ScriptSpec.v). *)
From Coq Require Import Permutation Lia.
From Verif Require Import HwTypes Lifecycle ConflictModel CMModel CMSpec CMFinal ScriptModel ScriptSpec ScriptProofs ScriptMain ScriptConflict ScriptRun.
Local Open Scope string_scope.
Local Open Scope list_scope.

(** For the examples: every controller has its own resource, except "bad" which cannot be loaded. *)
Definition envs (n : string) : load_env := if String.eqb n "bad" then mkEnv true None (InitOk []) else env0 "T" n.
Definition id_order (l : list string) : list string := l.
Lemma id_enumerates : enumerates id_order.
Proof. intros l. apply Permutation_refl. Qed.
Lemma calm_nil : calm ld0 [].
Proof. split; [constructor | reflexivity]. Qed.
Lemma calm_hist1 : calm ld0 hist1.
Proof. split; [repeat constructor | reflexivity]. Qed.

(** * C72: spawner *)
Theorem C72_spawner ls h stopped ns h' l ok :
  calm ls h -> executes alone ls h (spawner_main stopped ns) h' (Some (l, ok)) ->
  calm ls h' /\ sublist l ns /\ NoDup l /\ (forall n, In n l -> ~ In n (names (board ls h))) /\
  board ls h' = board ls h ++ map (fun n => (n, if ok then PStarted else PLoaded)) l /\
  (stopped = true -> ok = false) /\ (stopped = false -> ok = false -> objection ls h h' l []) /\
  (forall n, In n ns -> In n (names (board ls h')) \/ load_refused ls h h' n).
Proof.
  intros C E. destruct (spawner_main_inv ls _ _ _ _ _ _ E C) as (S & C' & B & X & Y & Z).
  assert (N : NoDup (names (board ls h) ++ l)).
  { pose proof (board_names ls h') as N. rewrite B, names_app in N. unfold names at 2 in N. rewrite map_map in N. cbn in N. now rewrite map_id in N. }
  repeat (split; [assumption|]). split; [|split; [|auto]].
  - clear -N. induction (names (board ls h)); [exact N|]. inversion N. auto.
  - intros n Hn Hb. clear -N Hn Hb. induction (names (board ls h)) as [|m x IH]; [destruct Hb|]. cbn in N. inversion N; subst. destruct Hb as [->|Hb]; [|auto].
    apply H1. apply in_app_iff. now right.
Qed.
Print Assumptions C72_spawner.
Example C72_spawner_example :
  exists h', executes alone ld0 hist1 (spawner_main false ["x"; "a"; "bad"; "y"]) h' (Some (["x"; "y"], true)) /\
             board ld0 h' = [("a", PStarted); ("b", PLoaded); ("c", PLoaded); ("x", PStarted); ("y", PStarted)].
Proof. eexists. split; [apply (drive_ends ld0 envs []); vm_compute; reflexivity | vm_compute; reflexivity]. Qed.

(** The shutdown handler: [ok] is the answer to its stop request. *)
Theorem C72_shutdown ls h l h' ok us :
  calm ls h -> executes alone ls h (spawner_shutdown l) h' (Some (ok, us)) ->
  calm ls h' /\
  board ls h' = filter (fun x => negb (listed (fst x) l) || (negb ok && started (snd x))) (board ls h) /\
  (ok = true -> forall n, In n l -> running (board ls h) n) /\
  (ok = false -> (forall n, In n l -> running (board ls h) n) -> objection ls h h' [] l).
Proof.
  intros C E. destruct (shutdown_inv ls _ _ _ _ _ E C) as (C' & B & X). split; [exact C'|]. split; [|exact X].
  rewrite B. apply filter_ext. intros [n p]. cbn. now rewrite isin_listed.
Qed.
Print Assumptions C72_shutdown.
(** So none of the controllers is left if all of them run and nobody objects, or if none of them runs. *)
Theorem C72_shutdown_complete ls h l h' r :
  calm ls h -> executes alone ls h (spawner_shutdown l) h' (Some r) ->
  (forall n, In n l -> running (board ls h) n) /\ ~ objection ls h h' [] l \/ (forall n, In n l -> ~ running (board ls h) n) ->
  forall n, In n l -> ~ In n (names (board ls h')).
Proof.
  intros C E A n Hn Hb. destruct r as [ok us]. destruct (C72_shutdown ls _ _ _ _ _ C E) as (_ & B & X & Y).
  rewrite B in Hb. apply in_names in Hb as [p Hp]. apply filter_In in Hp as [Hp Q]. cbn [fst snd] in Q. apply listed_spec in Hn as L. rewrite L in Q. cbn in Q.
  apply andb_true_iff in Q as [Q1 Q2]. apply started_spec in Q2. subst p. destruct ok; [discriminate Q1|].
  destruct A as [[A1 A2]|A]; [exact (A2 (Y eq_refl A1)) | exact (A n Hn Hp)].
Qed.
Print Assumptions C72_shutdown_complete.
Example C72_shutdown_example :
  exists h', executes alone ld0 hist1 (spawner_shutdown ["a"]) h' (Some (true, [true])) /\ board ld0 h' = [("b", PLoaded); ("c", PLoaded)] /\
             running (board ld0 hist1) "a".
Proof. eexists. split; [apply (drive_ends ld0 envs []); vm_compute; reflexivity|]. split; vm_compute; auto. Qed.

(** Spawner started and killed: the manager is as before, unless somebody objects to the stop request. *)
Theorem C72_round_trip ls h stopped ns h' r :
  calm ls h -> executes alone ls h (bind (spawner_main stopped ns) (fun x => spawner_shutdown (fst x))) h' (Some r) ->
  calm ls h' /\ (board ls h' = board ls h \/ exists l, sublist l ns /\ objection ls h h' [] l).
Proof.
  intros C E. apply bind_inv in E as (h1 & [l ok1] & E1 & E2). destruct r as [ok us]. cbn [fst] in E2.
  pose proof (executes_app ls _ _ _ _ _ E1) as P1. pose proof (executes_app ls _ _ _ _ _ E2) as P2.
  destruct (C72_spawner ls _ _ _ _ _ _ C E1) as (C1 & S & N & D & B1 & _). destruct (C72_shutdown ls _ _ _ _ _ C1 E2) as (C2 & B2 & X & Y).
  split; [exact C2|].
  assert (K : forall q, filter q (board ls h ++ map (fun n => (n, if ok1 then PStarted else PLoaded)) l) =
              filter q (board ls h) ++ filter q (map (fun n => (n, if ok1 then PStarted else PLoaded)) l)) by (intros q; apply filter_app).
  assert (G : (ok = true \/ ok1 = false) -> board ls h' = board ls h).
  { intros Q. rewrite B2, B1, K. rewrite filter_all, filter_none, app_nil_r; [reflexivity| |].
    - intros [n p] Hn. apply in_map_iff in Hn as (m & Em & Hm). injection Em as -> <-. cbn. apply listed_spec in Hm. rewrite Hm. cbn.
      destruct Q as [->| ->]; [reflexivity | cbn; now rewrite andb_false_r].
    - intros [n p] Hn. cbn. destruct (listed n l) eqn:L; [|reflexivity]. apply listed_spec in L. exfalso. apply (D n L). apply in_names. eauto. }
  destruct ok; [left; apply G; now left|]. destruct ok1; [|left; apply G; now right].
  right. exists l. split; [exact S|]. apply (objection_later ls _ _ h h1 h'); auto. apply (Y eq_refl). intros n Hn. rewrite B1.
  unfold running. apply in_app_iff. right. apply in_map_iff. eauto.
Qed.
Print Assumptions C72_round_trip.
Example C72_round_trip_example :
  exists h', executes alone ld0 hist1 (bind (spawner_main false ["x"; "a"; "y"]) (fun x => spawner_shutdown (fst x))) h' (Some (true, [true; true])) /\
             board ld0 h' = board ld0 hist1.
Proof. eexists. split; [apply (drive_ends ld0 envs []); vm_compute; reflexivity | vm_compute; reflexivity]. Qed.

(** If one of the spawner's controllers has been stopped in the meantime, the running ones stay: without any objection. *)
Theorem C72_partly_running_refuted :
  exists ls h stopped ns h1 l ok n h2 h' r,
    calm ls h /\ executes alone ls h (spawner_main stopped ns) h1 (Some (l, ok)) /\
    executes alone ls h1 (stop_controller n) h2 (Some true) /\
    executes alone ls h2 (spawner_shutdown l) h' (Some r) /\
    Forall (fun o => match o with Switch _ _ _ _ _ _ ck pr => (forall x y, pr x y = true) /\ ck = check_for_conflict | _ => True end) h' /\
    exists m, In m l /\ running (board ls h') m.
Proof.
  set (h1 := ends (drive ld0 envs [] [] (spawner_main false ["x"; "y"]))).
  set (h2 := ends (drive ld0 envs [] h1 (stop_controller "x"))).
  exists ld0, [], false, ["x"; "y"], h1, ["x"; "y"], true, "x", h2, (ends (drive ld0 envs [] h2 (spawner_shutdown ["x"; "y"]))), (false, [false; true]).
  split; [exact calm_nil|]. split; [apply drive_ends; vm_compute; reflexivity|]. split; [apply drive_ends; vm_compute; reflexivity|].
  split; [apply drive_ends; vm_compute; reflexivity|]. split; [|exists "y"; split; vm_compute; auto].
  repeat constructor.
Qed.
Print Assumptions C72_partly_running_refuted.

(** With the default check and agreeing hardware, a refusal of the start has a reason in the resources. *)
Theorem C72_spawner_conflict ls h ns h' l :
  calm ls h -> plain ls h' -> executes alone ls h (spawner_main false ns) h' (Some (l, false)) -> clash ls h h' l [].
Proof.
  intros C P E. destruct (C72_spawner _ _ _ _ _ _ _ C E) as ([NA _] & _ & _ & _ & _ & _ & O & _).
  exact (refusal_reason ls h h' l [] NA P (O eq_refl eq_refl)).
Qed.
Print Assumptions C72_spawner_conflict.
Example C72_conflict_example :
  exists h', executes alone ld0 hist1 (spawner_main false ["x"; "j1"]) h' (Some (["x"; "j1"], false)) /\ plain ld0 h'.
Proof.
  eexists. split; [apply (drive_ends ld0 envs []); vm_compute; reflexivity|].
  eapply drive_plain; [split; repeat constructor | vm_compute; reflexivity | vm_compute; repeat constructor; cbn; tauto].
Qed.

(** * C73: controller_group switch *)
Theorem C73_switch_group ls order gs g h h' res :
  enumerates order -> NoDup (map fst gs) -> calm ls h -> executes alone ls h (switch_group order gs g) h' (Some res) ->
  calm ls h' /\ group_effect gs g (board ls h) (board ls h') (objection ls h h') (load_refused ls h h') res.
Proof. intros HO HG C E. exact (switch_group_inv ls order gs g h h' res HO HG E C). Qed.
Print Assumptions C73_switch_group.
Example C73_example :
  let gs := [("one", ["a"; "x"]); ("two", ["y"; "x"; "c"; "y"])] in
  NoDup (map fst gs) /\
  (exists h', executes alone ld0 hist1 (switch_group id_order gs "two") h' (Some (Switched true)) /\
     board ld0 h' = [("a", PStopped); ("b", PLoaded); ("c", PStarted); ("x", PStarted); ("y", PStarted)]) /\
  (exists h', executes alone ld0 hist1 (switch_group id_order gs "two") h' (Some (Switched false)) /\
     board ld0 h' = [("a", PStarted); ("b", PLoaded); ("c", PLoaded); ("x", PLoaded); ("y", PLoaded)]) /\
  (exists h', executes alone ld0 hist1 (switch_group id_order [("two", ["x"; "bad"])] "two") h' (Some Cancelled) /\
     board ld0 h' = [("a", PStarted); ("b", PLoaded); ("c", PLoaded); ("x", PLoaded)]) /\
  (exists h', executes alone ld0 hist1 (switch_group id_order gs "three") h' (Some NoGroup)).
Proof.
  cbv zeta. split; [repeat constructor; cbn; intuition discriminate|]. repeat split.
  - eexists. split; [apply (drive_ends ld0 envs []); vm_compute; reflexivity | vm_compute; reflexivity].
  - eexists. split; [apply (drive_ends ld0 envs [refuse]); vm_compute; reflexivity | vm_compute; reflexivity].
  - eexists. split; [apply (drive_ends ld0 envs []); vm_compute; reflexivity | vm_compute; reflexivity].
  - eexists. apply (drive_ends ld0 envs []); vm_compute; reflexivity.
Qed.
(** With the default check and agreeing hardware a switch to a group is refused only if the group cannot run together, or
    not together with what runs outside the groups (or in this one). *)
Theorem C73_switch_conflict ls order gs g h h' :
  enumerates order -> NoDup (map fst gs) -> calm ls h -> plain ls h' -> executes alone ls h (switch_group order gs g) h' (Some (Switched false)) ->
  exists a s, (forall n, In n a <-> in_group gs g n /\ ~ running (board ls h) n) /\
    (forall n, In n s <-> in_any_group gs n /\ ~ in_group gs g n /\ running (board ls h) n) /\ clash ls h h' a s.
Proof.
  intros HO HG C P E. destruct (C73_switch_group _ _ _ _ _ _ _ HO HG C E) as ([NA _] & l & a & s & _ & _ & Ha & Hs & _ & O).
  exists a, s. split; [exact Ha|]. split; [exact Hs|]. exact (refusal_reason ls h h' a s NA P O).
Qed.
Print Assumptions C73_switch_conflict.
Example C73_conflict_example :
  exists h', executes alone ld0 hist1 (switch_group id_order [("one", ["x"; "c"])] "one") h' (Some (Switched false)) /\ plain ld0 h'.
Proof.
  eexists. split; [apply (drive_ends ld0 envs []); vm_compute; reflexivity|].
  eapply drive_plain; [split; repeat constructor | vm_compute; reflexivity | vm_compute; repeat constructor; cbn; tauto].
Qed.

(** controller_group spawn: only the controllers of the group are concerned ... *)
Theorem C73_spawn_group ls order gs g h h' r :
  enumerates order -> NoDup (map fst gs) -> calm ls h -> executes alone ls h (spawn_group order gs g) h' (Some r) ->
  calm ls h' /\ exists l a, (forall n, In n l -> in_group gs g n) /\ (forall n, In n a -> in_group gs g n) /\
    board ls h' = switched a [] (board ls h ++ fresh l) /\
    (forall n, in_group gs g n -> In n (names (board ls h')) -> ~ running (board ls h') n -> objection ls h h' [n] []) /\
    (forall n, in_group gs g n -> In n (names (board ls h')) \/ load_refused ls h h' n).
Proof. intros HO HG C E. destruct r as [os ss]. exact (spawn_group_inv ls order gs g h h' os ss HO HG E C). Qed.
Print Assumptions C73_spawn_group.
Example C73_spawn_example :
  exists h', executes alone ld0 hist1 (spawn_group id_order [("one", ["b"; "x"]); ("two", ["y"])] "one") h' (Some ([false; true], [true; true])) /\
    board ld0 h' = [("a", PStarted); ("b", PStarted); ("c", PLoaded); ("x", PStarted)].
Proof. eexists. split; [apply (drive_ends ld0 envs []); vm_compute; reflexivity | vm_compute; reflexivity]. Qed.
(** ... although its help text (controller_group:123) says that it loads all controllers in all groups. *)
Theorem C73_spawn_loads_all_refuted :
  exists ls order gs g h h' r, enumerates order /\ calm ls h /\ executes alone ls h (spawn_group order gs g) h' (Some r) /\
    (forall n, in_group gs g n -> running (board ls h') n) /\ exists n, in_any_group gs n /\ ~ In n (names (board ls h')).
Proof.
  exists ld0, id_order, [("one", ["x"]); ("two", ["y"])], "one", [], (ends (drive ld0 envs [] [] (spawn_group id_order [("one", ["x"]); ("two", ["y"])] "one"))), ([true], [true]).
  split; [exact id_enumerates|]. split; [exact calm_nil|]. split; [apply drive_ends; vm_compute; reflexivity|]. split.
  - intros n (l & [E|[E|[]]] & Hn); [|discriminate E]. injection E as <-. destruct Hn as [<-|[]]. vm_compute. auto.
  - exists "y". split; [exists "two", ["y"]; cbn; auto|]. vm_compute. intuition discriminate.
Qed.
Print Assumptions C73_spawn_loads_all_refuted.

(** * C88: controller_manager reload-libraries --restore *)
Theorem C88_restore ls h h' oks st :
  calm ls h -> executes alone ls h (reload_libraries_restore true) h' (Some (true, oks, st)) ->
  calm ls h' /\ length oks = length (board ls h) /\
  board ls h' = map (fun n => (n, if st && listed n (names (filter (fun x => started (snd x)) (board ls h))) then PStarted else PLoaded))
                    (taken (names (board ls h)) oks) /\
  (st = false -> objection ls h h' (names (filter (fun x => started (snd x)) (board ls h))) []) /\
  (forall n, In n (names (board ls h)) -> In n (names (board ls h')) \/ load_refused ls h h' n).
Proof.
  intros C E. destruct (restore_inv ls _ _ _ _ E C) as (C' & L & B & O & R). repeat (split; [assumption|]). split; [|split; [exact O | exact R]].
  rewrite B. apply map_ext. intros n. now rewrite isin_listed.
Qed.
Print Assumptions C88_restore.
(** If everything could be loaded again and the start request was obeyed: the same controllers, and the same ones run. *)
Theorem C88_restore_all ls h h' oks :
  calm ls h -> executes alone ls h (reload_libraries_restore true) h' (Some (true, oks, true)) -> (forall b, In b oks -> b = true) ->
  board ls h' = map (fun x => (fst x, if started (snd x) then PStarted else PLoaded)) (board ls h).
Proof.
  intros C E A. destruct (C88_restore ls _ _ _ _ C E) as (_ & L & -> & _). rewrite taken_all; [|unfold names; now rewrite map_length | exact A].
  unfold names at 2. rewrite map_map. apply map_ext_in. intros [n p] Hn. cbn [fst snd andb]. f_equal.
  assert (Q : listed n (names (filter (fun x => started (snd x)) (board ls h))) = started p); [|now rewrite Q].
  apply eq_true_iff_eq. rewrite listed_spec, in_names. split.
  - intros (q & Hq). apply filter_In in Hq as [Hq S]. cbn in S. apply started_spec in S. subst q.
    apply started_spec. eapply running_phase; [apply (board_names ls h) | exact Hq | exact Hn].
  - intros S. exists p. apply filter_In. auto.
Qed.
Print Assumptions C88_restore_all.
Example C88_example :
  exists h', executes alone ld0 hist1 (reload_libraries_restore true) h' (Some (true, [true; true; true], true)) /\
    board ld0 h' = [("a", PStarted); ("b", PLoaded); ("c", PLoaded)].
Proof. eexists. split; [apply (drive_ends ld0 envs []); vm_compute; reflexivity | vm_compute; reflexivity]. Qed.
(** If the reload is refused, the script goes on and starts the running controllers a second time. *)
Theorem C88_refused_reload_refuted :
  exists ls h h' oks st pre i t post,
    calm ls h /\ executes alone ls h (reload_libraries_restore true) h' (Some (false, oks, st)) /\
    trace ls h' = pre ++ EvCb i CbStarting t :: post /\ runs pre i.
Proof.
  set (h' := ends (drive ld0 envs [refuse; agree] hist1 (reload_libraries_restore true))).
  exists ld0, hist1, h', [false; false; false], true, (trace ld0 (removelast (removelast h')) ++ [EvCb 0 (CbUpdate 1) 200; EvDo [] []]), 0%nat, 200%Z, [].
  split; [exact calm_hist1|]. split; [apply drive_ends; vm_compute; reflexivity|]. split; vm_compute; reflexivity.
Qed.
Print Assumptions C88_refused_reload_refuted.

(** * C89: controller_manager spawn and kill *)
Theorem C89_spawn ls ns h h' os ss :
  calm ls h -> executes alone ls h (cm_spawn ns) h' (Some (os, ss)) ->
  calm ls h' /\ board ls h' = switched (taken ns ss) [] (board ls h ++ fresh (taken ns os)) /\
  (forall n, In n ns -> In n (names (board ls h')) -> ~ running (board ls h') n -> objection ls h h' [n] []) /\
  (forall n, In n ns -> In n (names (board ls h')) \/ load_refused ls h h' n).
Proof. intros C E. destruct (spawn_inv ls _ _ _ _ _ E C) as (C' & _ & _ & B & O & R). auto. Qed.
Print Assumptions C89_spawn.
Theorem C89_kill ls ns h h' ss us :
  calm ls h -> executes alone ls h (cm_kill ns) h' (Some (ss, us)) ->
  calm ls h' /\ (forall n p, ~ In n ns -> (In (n, p) (board ls h') <-> In (n, p) (board ls h))) /\
  (forall n, In n ns -> In n (names (board ls h')) -> objection ls h h' [] [n]) /\
  sublist (board ls h') (board ls h).
Proof.
  intros C E. destruct (kill_inv ls _ _ _ _ _ E C) as (C' & _ & B & O). split; [exact C'|]. split; [|split; [exact O|]].
  - intros n p Hn. rewrite B, filter_In. cbn [fst snd]. apply isin_false in Hn. rewrite Hn. cbn. tauto.
  - rewrite B. clear. induction (board ls h) as [|x b IH]; cbn; [constructor|]. destruct (_ || _); [now apply sub_keep | now apply sub_skip].
Qed.
Print Assumptions C89_kill.
Example C89_example :
  (exists h', executes alone ld0 hist1 (cm_spawn ["a"; "x"; "x"; "bad"]) h' (Some ([false; true; false; false], [false; true; false; false])) /\
     board ld0 h' = [("a", PStarted); ("b", PLoaded); ("c", PLoaded); ("x", PStarted)]) /\
  (exists h', executes alone ld0 hist1 (cm_kill ["a"; "c"; "u"]) h' (Some ([true; false; false], [true; true; false])) /\
     board ld0 h' = [("b", PLoaded)]).
Proof.
  split; eexists; (split; [apply (drive_ends ld0 envs []); vm_compute; reflexivity | vm_compute; reflexivity]).
Qed.

(** On a robot with the default check and hardware that prepares every switch ([plain]), the only obstacle to starting
    is a running controller with a common resource, and nothing hinders killing. *)
Theorem C89_spawn_conflict ls ns h h' os ss :
  calm ls h -> plain ls h' -> executes alone ls h (cm_spawn ns) h' (Some (os, ss)) ->
  forall n, In n ns -> running (board ls h') n \/ load_refused ls h h' n \/ in_the_way ls h h' n.
Proof.
  intros C P E n Hn. destruct (C89_spawn _ _ _ _ _ _ C E) as ([NA _] & _ & O & R). destruct (R n Hn) as [L|L]; [|auto].
  destruct (in_dec (fun x y : string * phase => ltac:(repeat decide equality)) (n, PStarted) (board ls h')) as [Y|Y]; [left; exact Y|].
  right. right. exact (objection_start ls h h' n NA P (O n Hn L Y)).
Qed.
Print Assumptions C89_spawn_conflict.
Theorem C89_kill_complete ls ns h h' ss us :
  calm ls h -> plain ls h' -> executes alone ls h (cm_kill ns) h' (Some (ss, us)) ->
  board ls h' = filter (fun x => negb (listed (fst x) ns)) (board ls h).
Proof.
  intros C P E. destruct (kill_inv ls _ _ _ _ _ E C) as ((NA & _) & _ & B & O).
  rewrite B. apply filter_ext_in. intros x Hx. rewrite <- isin_listed.
  destruct (isin (fst x) ns) eqn:I; cbn; [|reflexivity]. destruct (started (snd x) && _) eqn:F; [|reflexivity]. exfalso.
  apply (objection_stop ls h h' [fst x] NA P), O; [now apply isin_spec|]. apply in_map. rewrite B. apply filter_In. split; [exact Hx|]. now rewrite F, orb_true_r.
Qed.
Print Assumptions C89_kill_complete.
Example C89_conflict_example :
  (exists h', executes alone ld0 hist1 (cm_spawn ["c"; "x"]) h' (Some ([false; true], [false; true])) /\ plain ld0 h' /\ in_the_way ld0 hist1 h' "c" /\
     board ld0 h' = [("a", PStarted); ("b", PLoaded); ("c", PLoaded); ("x", PStarted)]) /\
  (exists h', executes alone ld0 hist1 (cm_kill ["c"; "a"]) h' (Some ([false; true], [true; true])) /\ plain ld0 h' /\
     board ld0 h' = [("b", PLoaded)]).
Proof.
  assert (G : checks_with check_for_conflict hist1 /\ agreeing hist1) by (split; repeat constructor).
  split; eexists; (split; [apply (drive_ends ld0 envs []); vm_compute; reflexivity|]);
    (split; [eapply drive_plain; [exact G | vm_compute; reflexivity | vm_compute; repeat constructor; cbn; tauto]|]); [|vm_compute; reflexivity].
  split; [|vm_compute; reflexivity].
  exists [], (skipn 6 (ends (drive ld0 envs [] hist1 (cm_spawn ["c"; "x"])))), (2%nat, mkInfo "c" "T" [mkIface "pos" ["j1"]]), (0%nat, mkInfo "a" "T" [mkIface "pos" ["j1"]]), "j1".
  split; [vm_compute; reflexivity|]. cbv zeta. split; [vm_compute; tauto|]. split; [reflexivity|]. split; [vm_compute; tauto|]. split; [vm_compute; reflexivity|].
  split; [discriminate|]. split; eexists; split; [now left | now left | now left | now left].
Qed.

(** * C90: unspawner *)
Theorem C90_inhibits ls order ti n h h' inhibited oks :
  enumerates order -> calm ls h -> executes alone ls h (unspawner_timer order n ti []) h' (Some (inhibited, oks)) ->
  calm ls h' /\ length oks = n /\
  board ls h' = (if existsb (fun x => x) oks then switched [] ti (board ls h) else board ls h) /\
  (n <> 0%nat -> forall m, In m inhibited <-> In m ti /\ running (board ls h) m) /\
  (n <> 0%nat -> existsb (fun x => x) oks = true \/ exists s, (forall m, In m s <-> In m ti /\ running (board ls h) m) /\ objection ls h h' [] s).
Proof.
  intros HO C E. destruct (timer_inv ls order ti n HO _ _ _ _ _ E C (NoDup_nil _)) as (C' & _ & L & B & I & O).
  repeat (split; [assumption|]). split; [intros Hn m; rewrite I; cbn; tauto | exact O].
Qed.
Print Assumptions C90_inhibits.
(** On a robot with the default check and agreeing hardware the stop is never refused. *)
Theorem C90_inhibits_complete ls order ti n h h' inhibited oks :
  enumerates order -> calm ls h -> plain ls h' -> executes alone ls h (unspawner_timer order (S n) ti []) h' (Some (inhibited, oks)) ->
  board ls h' = switched [] ti (board ls h).
Proof.
  intros HO C P E. destruct (C90_inhibits ls order ti (S n) _ _ _ _ HO C E) as ([NA _] & _ & B & _ & O).
  destruct (O (Nat.neq_succ_0 n)) as [X|(s & _ & X)]; [now rewrite X in B | destruct (objection_stop ls h h' s NA P X)].
Qed.
Print Assumptions C90_inhibits_complete.
(** ... and afterwards brings back what it found. *)
Theorem C90_round_trip ls order ti n h h' r :
  enumerates order -> calm ls h ->
  executes alone ls h (bind (unspawner_timer order (S n) ti []) (fun x => unspawner_restart order (fst x))) h' (Some r) ->
  calm ls h' /\ (board ls h' = board ls h \/ exists s, (forall m, In m s <-> In m ti /\ running (board ls h) m) /\ objection ls h h' s []).
Proof.
  intros HO C E. apply bind_inv in E as (h1 & [inh oks] & E1 & E2). cbn [fst] in E2.
  pose proof (executes_app ls _ _ _ _ _ E1) as P1. pose proof (executes_app ls _ _ _ _ _ E2) as P2.
  destruct (C90_inhibits ls order ti (S n) _ _ _ _ HO C E1) as (C1 & _ & B1 & I1 & _). destruct (restart_inv ls order inh _ _ _ HO E2 C1) as (C2 & B2 & O2).
  split; [exact C2|]. specialize (I1 (Nat.neq_succ_0 n)). destruct r.
  - left. rewrite B2, B1. destruct (restarted_same inh ti (board ls h) (board_names ls h) I1) as [R1 R2]. destruct (existsb _ oks); assumption.
  - right. destruct (O2 eq_refl) as (s & Hs & Ob). exists s. split; [intros m; now rewrite Hs|]. apply (objection_later ls _ _ h h1 h'); auto.
Qed.
Print Assumptions C90_round_trip.
Example C90_example :
  exists h1 h', executes alone ld0 hist1 (unspawner_timer id_order 2 ["a"; "b"; "u"] []) h1 (Some (["a"], [true; true])) /\
    board ld0 h1 = [("a", PStopped); ("b", PLoaded); ("c", PLoaded)] /\
    executes alone ld0 hist1 (bind (unspawner_timer id_order 2 ["a"; "b"; "u"] []) (fun x => unspawner_restart id_order (fst x))) h' (Some true) /\
    board ld0 h' = [("a", PStarted); ("b", PLoaded); ("c", PLoaded)].
Proof.
  eexists. eexists. split; [apply (drive_ends ld0 envs []); vm_compute; reflexivity|]. split; [vm_compute; reflexivity|].
  split; [apply (drive_ends ld0 envs []); vm_compute; reflexivity|]. vm_compute; reflexivity.
Qed.
(** If the stop request is refused, the controllers are started a second time in the end. *)
Theorem C90_refused_stop_refuted :
  exists ls order ti h h' r pre i t post,
    enumerates order /\ calm ls h /\
    executes alone ls h (bind (unspawner_timer order 1 ti []) (fun x => unspawner_restart order (fst x))) h' (Some r) /\
    trace ls h' = pre ++ EvCb i CbStarting t :: post /\ runs pre i.
Proof.
  set (h' := ends (drive ld0 envs [refuse; agree] hist1 (bind (unspawner_timer id_order 1 ["a"] []) (fun x => unspawner_restart id_order (fst x))))).
  exists ld0, id_order, ["a"], hist1, h', true, (trace ld0 (removelast (removelast h')) ++ [EvCb 0 (CbUpdate 1) 200; EvDo [] []]), 0%nat, 200%Z, [].
  split; [exact id_enumerates|]. split; [exact calm_hist1|]. split; [apply drive_ends; vm_compute; reflexivity|]. split; vm_compute; reflexivity.
Qed.
Print Assumptions C90_refused_stop_refuted.
