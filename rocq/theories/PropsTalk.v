(** Property theorems about the requests that the scripts send, whatever the manager answers and whatever other clients do. *)
From Coq Require Import Permutation Lia.
From Verif Require Import HwTypes Lifecycle ConflictModel CMModel CMSpec CMFinal ScriptModel ScriptSpec ScriptProofs ScriptMain ScriptRun PropsScript TalkSpec TalkProofs.
Local Open Scope string_scope.
Local Open Scope list_scope.

(** * C134 *)
(** Every execution, in any environment [W], is a conversation of the script; its requests appear in this order among the
    operations of the manager, and the listings in it are the manager's. *)
Theorem C134_real W ls {R} h (p : script R) h' r : executes W ls h p h' r ->
  exists l t, talks p l r /\ h' = h ++ t /\ sublist (map fst l) (flat_map request_in t) /\
    forall e, In (RList, AList e) l -> exists t1 t2, t = t1 ++ ListControllers :: t2 /\ reply ls (h ++ t1) ListControllers = AList e.
Proof. apply executes_talks. Qed.
Print Assumptions C134_real.

(** controller_manager spawn and kill. *)
Theorem C134_spawn ns l r : talks (cm_spawn ns) l r ->
  exists a b, begins a ns /\ begins b ns /\ map fst l = map RLoad a ++ map start_one b /\ (b <> [] -> a = ns) /\ (r <> None -> a = ns /\ b = ns).
Proof. apply talk_two; [exact talk_load1 | intros n; exact (talk_switch1 [n] [])]. Qed.
Print Assumptions C134_spawn.
Theorem C134_kill ns l r : talks (cm_kill ns) l r ->
  exists a b, begins a ns /\ begins b ns /\ map fst l = map stop_one a ++ map RUnload b /\ (b <> [] -> a = ns) /\ (r <> None -> a = ns /\ b = ns).
Proof. apply talk_two; [intros n; exact (talk_switch1 [] [n]) | exact talk_unload1]. Qed.
Print Assumptions C134_kill.

(** spawner: loads in order, then, unless --stopped, one request to start exactly those that were granted. *)
Theorem C134_spawner stopped ns l r : talks (spawner_main stopped ns) l r ->
  exists a, begins a ns /\
    (map fst l = map RLoad a \/ stopped = false /\ a = ns /\ map fst l = map RLoad ns ++ [RSwitch (accepted l) [] STRICT]) /\
    (forall ld ok, r = Some (ld, ok) -> a = ns /\ ld = accepted l /\ (stopped = false -> In (RSwitch ld [] STRICT, ABool ok) l)).
Proof.
  intros T. unfold spawner_main in T. apply talk_bind in T as [[-> T]|(l1 & l2 & ld & -> & T1 & T2)].
  - destruct (talk_spawner_load _ _ _ _ T) as (a & B & E & _). exists a. split; [exact B|]. split; [now left | discriminate].
  - destruct (talk_spawner_load _ _ _ _ T1) as (a & B & E & X). destruct (X _ eq_refl) as [-> ->]. cbn [app] in T2. exists ns. split; [exact B|]. destruct stopped.
    + apply talk_ret in T2 as [-> T2]. rewrite app_nil_r. split; [now left|]. intros ld ok ->. destruct T2 as [T2|T2]; [injection T2 as -> _ | discriminate T2]. repeat split; discriminate.
    + apply talk_switch in T2 as [[-> ->]|[[-> ->]|(x & l' & -> & T2)]].
      * rewrite app_nil_r. split; [now left | discriminate].
      * split; [right; split; [reflexivity|]; split; [reflexivity|]; rewrite map_app, E, accepted_app; cbn; now rewrite app_nil_r | discriminate].
      * apply talk_ret in T2 as [-> T2]. assert (A : accepted (l1 ++ [(RSwitch (accepted l1) [] STRICT, ABool x)]) = accepted l1) by (rewrite accepted_app; cbn; now rewrite app_nil_r).
        rewrite A. split; [right; split; [reflexivity|]; split; [reflexivity|]; now rewrite map_app, E|].
        intros ld ok ->. destruct T2 as [T2|T2]; [injection T2 as -> -> | discriminate T2]. split; [reflexivity|]. split; [reflexivity|]. intros _. apply in_app_iff. right. now left.
Qed.
Print Assumptions C134_spawner.
(** ... and on shutdown one request to stop those it has loaded, then unloads in the opposite order. *)
Theorem C134_shutdown ld l r : talks (spawner_shutdown ld) l r ->
  l = [] /\ r = None \/ exists b, begins b (rev ld) /\ map fst l = RSwitch [] ld STRICT :: map RUnload b /\ (r <> None -> b = rev ld).
Proof.
  intros T. unfold spawner_shutdown in T. apply talk_switch in T as [T|[[-> ->]|(x & l' & -> & T)]]; [now left| |].
  - right. exists []. split; [eexists; reflexivity|]. split; [reflexivity | congruence].
  - right. apply talk_bind in T as [[-> T]|(l1 & l2 & us & -> & T1 & T2)].
    + destruct (talk_each _ _ talk_unload1 _ _ _ T) as (b & B & E & _). exists b. split; [exact B|]. split; [cbn; now rewrite E | congruence].
    + apply talk_ret in T2 as [-> _]. rewrite app_nil_r. destruct (talk_each _ _ talk_unload1 _ _ _ T1) as (b & B & E & X). exists b. split; [exact B|].
      split; [cbn; now rewrite E|]. intros _. apply X. discriminate.
Qed.
Print Assumptions C134_shutdown.

(** unspawner: rounds, and in the end one request to start exactly those named in its stop requests. *)
Theorem C134_unspawner order ti n l r :
  enumerates order -> talks (bind (unspawner_timer order n ti []) (fun x => unspawner_restart order (fst x))) l r ->
  rounds ti l \/ exists l1 s a, l = l1 ++ [(RSwitch s [] BEST_EFFORT, a)] /\ rounds ti l1 /\ NoDup s /\ forall m, In m s <-> In m (stops_of l1).
Proof.
  intros HO T. apply talk_bind in T as [[-> T]|(l1 & l2 & [inh oks] & -> & T1 & T2)].
  - left. exact (proj1 (talk_timer order ti HO _ _ _ _ T)).
  - destruct (talk_timer order ti HO _ _ _ _ T1) as [R X]. destruct (X _ _ eq_refl) as (I & N & _). cbn [fst] in T2. unfold unspawner_restart in T2.
    assert (S : NoDup (order inh) /\ forall m, In m (order inh) <-> In m (stops_of l1)).
    { split; [eapply Permutation_NoDup; [apply HO | apply N; constructor]|]. intros m. transitivity (In m inh); [split; apply Permutation_in; [symmetry|]; apply HO|]. rewrite I. cbn. tauto. }
    destruct S as [S1 S2]. apply talk_switch in T2 as [[-> _]|[[-> _]|(x & l' & -> & T2)]].
    + left. now rewrite app_nil_r.
    + right. exists l1, (order inh), ANone. auto.
    + apply talk_ret in T2 as [-> _]. right. exists l1, (order inh), (ABool x). auto.
Qed.
Print Assumptions C134_unspawner.
(** So it stops and starts none but its own, and starts only what it has seen running. *)
Theorem C134_unspawner_own order ti n l r start stop z a :
  enumerates order -> talks (bind (unspawner_timer order n ti []) (fun x => unspawner_restart order (fst x))) l r ->
  In (RSwitch start stop z, a) l -> forall m, In m start \/ In m stop -> In m ti /\ exists e, In (RList, AList e) l /\ shows_running e m.
Proof.
  intros HO T H m Hm.
  assert (Q : forall l, rounds ti l -> (forall s a, In (RSwitch s stop z, a) l -> s = []) /\
    forall st sp z a, In (RSwitch st sp z, a) l -> forall m, In m sp -> In m ti /\ exists e, In (RList, AList e) l /\ shows_running e m).
  { induction 1 as [|e l0 _ [IH1 IH2]|e s x l0 Hs Ns Hm0 _ [IH1 IH2]|e s Hs Ns Hm0].
    - split; [intros s b [] | intros st sp z0 b []].
    - split; [intros s b [K|K]; [discriminate K | eauto]|]. intros st sp z0 b [K|K]; [discriminate K|]. intros m0 K0. destruct (IH2 _ _ _ _ K m0 K0) as [A (e0 & B & C)].
      split; [exact A|]. exists e0. split; [now right | exact C].
    - split; [intros s0 b [K|[K|K]]; [discriminate K | now injection K as <- | eauto]|]. intros st sp z0 b [K|[K|K]]; [discriminate K| |]; intros m0 K0.
      + injection K as <- <- <- <-. apply Hm0 in K0 as [A B]. split; [exact A|]. exists e. split; [now left | exact B].
      + destruct (IH2 _ _ _ _ K m0 K0) as [A (e0 & B & C)]. split; [exact A|]. exists e0. split; [now right; right | exact C].
    - split; [intros s0 b [K|[K|[]]]; [discriminate K | now injection K as <-]|]. intros st sp z0 b [K|[K|[]]]; [discriminate K|]. intros m0 K0.
      injection K as <- <- <- <-. apply Hm0 in K0 as [A B]. split; [exact A|]. exists e. split; [now left | exact B]. }
  destruct (C134_unspawner _ _ _ _ _ HO T) as [R|(l1 & s & b & -> & R & _ & S)].
  - destruct (Q l R) as [Q1 Q2]. rewrite (Q1 _ _ H) in Hm. destruct Hm as [[]|Hm]. exact (Q2 _ _ _ _ H m Hm).
  - destruct (Q l1 R) as [Q1 Q2].
    assert (Q3 : forall st sp z a, In (RSwitch st sp z, a) l1 -> In m sp -> In m ti /\ exists e, In (RList, AList e) (l1 ++ [(RSwitch s [] BEST_EFFORT, b)]) /\ shows_running e m).
    { intros st sp z0 a0 K K0. destruct (Q2 _ _ _ _ K m K0) as [A (e0 & B & C)]. split; [exact A|]. exists e0. split; [apply in_app_iff; now left | exact C]. }
    apply in_app_iff in H as [H|[H|[]]].
    + rewrite (Q1 _ _ H) in Hm. destruct Hm as [[]|Hm]. exact (Q3 _ _ _ _ H Hm).
    + injection H as -> <- _ _. destruct Hm as [Hm|[]]. apply S in Hm. unfold stops_of in Hm. apply in_flat_map in Hm as ([q c] & K & K0).
      destruct q as [| |[|x st] sp z0| |]; try destruct K0. destruct c; try destruct K0. exact (Q3 _ _ _ _ K K0).
Qed.
Print Assumptions C134_unspawner_own.

(** controller_group switch: one listing, loads of missing controllers of the group only, and at most one switch request,
    for exactly what the listing says is to be started and stopped, after all loads have been granted. *)
Theorem C134_group_switch order gs g l r :
  enumerates order -> NoDup (map fst gs) -> talks (switch_group order gs g) l r ->
  l = [] \/ exists e l', l = (RList, AList e) :: l' /\ (NoDup (map en_name e) -> exists a, NoDup a /\ (forall n, In n a -> in_group gs g n /\ ~ shows e n) /\
    (map fst l' = map RLoad a \/
     exists st sp, map fst l' = map RLoad a ++ [RSwitch st sp STRICT] /\ accepted l' = a /\
       (forall n, In n a <-> in_group gs g n /\ ~ shows e n) /\ (forall n, In n st <-> in_group gs g n /\ ~ shows_running e n) /\
       (forall n, In n sp <-> in_any_group gs n /\ ~ in_group gs g n /\ shows_running e n))).
Proof.
  intros HO HG T. unfold switch_group in T. pose proof (read_group_spec gs g HG) as RG. destruct (read_group gs g) as [[desired others]|]; [|apply talk_ret in T as [-> _]; now left].
  destruct RG as (RD & RO & ND & _). apply talk_list in T as [[-> _]|(e & l' & -> & T)]; [now left|]. right. exists e, l'. split; [reflexivity|]. intros NE. cbv zeta in T.
  assert (OD : forall n, In n (order desired) <-> in_group gs g n).
  { intros n. rewrite <- RD. split; apply Permutation_in; [symmetry|]; apply HO. }
  assert (OO : forall n, In n (order others) <-> in_any_group gs n /\ ~ in_group gs g n).
  { intros n. rewrite <- RO. split; apply Permutation_in; [symmetry|]; apply HO. }
  assert (NL : forall n, In n (filter (fun n => negb (dict_in n (loaded_dict e))) (order desired)) <-> in_group gs g n /\ ~ shows e n).
  { intros n. rewrite filter_In, OD, negb_true_iff, <- dict_shows. destruct (dict_in n _); intuition congruence. }
  destruct (talk_group_load _ _ _ _ _ _ T) as (a & [c Ec] & X). exists a.
  assert (NDa : NoDup (a ++ c)) by (rewrite <- Ec; apply NoDup_filter; eapply Permutation_NoDup; [apply HO | exact ND]).
  split; [clear -NDa; induction a as [|x a IH]; [constructor|]; inversion NDa; subst; constructor; [intros K; apply H1, in_app_iff; now left | auto]|].
  split; [intros n Hn; apply NL; rewrite Ec; apply in_app_iff; now left|]. destruct X as [X|(X1 & X2 & X3)]; [now left|]. right. cbn [app] in X3.
  eexists _, _. split; [exact X3|]. split; [exact X2|]. split; [intros n; rewrite X1; apply NL|]. split; intros n.
  - rewrite filter_In, OD, negb_true_iff, <- (dict_shows_running e n NE). destruct (dict_get n _); intuition congruence.
  - rewrite filter_In, OO, (dict_shows_running e n NE). tauto.
Qed.
Print Assumptions C134_group_switch.

(** reload-libraries --restore: a listing, the reload, a load for each listed controller in this order, whatever the
    replies, and one request to start those that were listed as running. *)
Theorem C134_restore f l r : talks (reload_libraries_restore f) l r ->
  l = [] \/ exists e st l', l = (RList, AList e) :: l' /\ sublist st (map en_name e) /\
    (forall n, In n st <-> shows_running e n) /\
    begins (map fst l') (RReload f :: map RLoad (map en_name e) ++ [RSwitch st [] BEST_EFFORT]).
Proof.
  intros T. unfold reload_libraries_restore in T. apply talk_list in T as [[-> _]|(e & l' & -> & T)]; [now left|]. right.
  exists e, (map en_name (filter (fun c => String.eqb (en_state c) "running") e)), l'. split; [reflexivity|].
  split; [clear; induction e as [|c e IH]; cbn; [constructor|]; destruct (String.eqb _ _); [now apply sub_keep | now apply sub_skip]|].
  split; [intros n; rewrite <- running_names; symmetry; apply isin_spec|].
  inversion T as [|p E1 E2 E3|?|?|?|?|?|f0 k x l0 r0 T0|f0 k]; subst; cbn [map fst].
  - eexists. reflexivity.
  - apply talk_bind in T0 as [[-> T0]|(l1 & l2 & oks & -> & T1 & T2)].
    + destruct (talk_each _ _ talk_load1 _ _ _ T0) as (a & [c Ec] & E & _). rewrite E, Ec, map_app. eexists. cbn. now rewrite <- app_assoc.
    + destruct (talk_each _ _ talk_load1 _ _ _ T1) as (a & _ & E & A). assert (a = map en_name e) by (apply A; discriminate). subst a. cbv zeta in T2.
      rewrite map_app, E. apply talk_switch in T2 as [[-> _]|[[-> _]|(x2 & l' & -> & T2)]].
      * rewrite app_nil_r. eexists. reflexivity.
      * exists []. now rewrite app_nil_r.
      * apply talk_ret in T2 as [-> _]. exists []. now rewrite app_nil_r.
  - eexists. reflexivity.
Qed.
Print Assumptions C134_restore.

(** Conversations with answers that come from a manager used by others too. *)
Definition entry (n st : string) : lc_entry := mkEntry n "T" [] st.
Example C134_example :
  talks (bind (unspawner_timer id_order 2 ["a"; "b"] []) (fun x => unspawner_restart id_order (fst x)))
    [(RList, AList [entry "a" "running"; entry "c" "running"]); (RSwitch [] ["a"] BEST_EFFORT, ABool false);
     (RList, AList [entry "b" "running"; entry "a" "running"]); (RSwitch [] ["a"; "b"] BEST_EFFORT, ABool true); (RSwitch ["a"; "b"] [] BEST_EFFORT, ABool true)] (Some true) /\
  talks (switch_group id_order [("one", ["a"; "x"]); ("two", ["c"])] "one")
    [(RList, AList [entry "a" "stopped"; entry "c" "running"]); (RLoad "x", ABool true); (RSwitch ["a"; "x"] ["c"] STRICT, ANone)] None /\
  talks (cm_kill ["a"; "b"]) [(stop_one "a", ABool false); (stop_one "b", ABool true); (RUnload "a", ABool false)] None /\
  talks (spawner_main false ["a"; "b"]) [(RLoad "a", ABool false); (RLoad "b", ABool true); (RSwitch ["b"] [] STRICT, ABool false)] (Some (["b"], false)).
Proof. repeat split; cbn; repeat econstructor. Qed.
