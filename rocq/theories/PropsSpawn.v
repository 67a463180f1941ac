(** Property theorems about the spawner: shutdown at any moment, and what it waits for (SpawnModel.v). *)
From Coq Require Import Permutation Lia ZArith Ascii.
From Verif Require Import HwTypes Lifecycle ConflictModel CMModel CMSpec CMFinal ScriptModel ScriptSpec ScriptProofs ScriptMain ScriptRun PropsScript SpawnModel SpawnProofs.
Local Open Scope string_scope.
Local Open Scope list_scope.

(** * C121: shutdown of the spawner at any moment *)
(** While no shutdown has begun and the controllers are still being loaded: the manager holds, besides what it held before, exactly
    the controllers the spawner has on its list, and possibly one more, whose load request has been served but whose reply the spawner
    has not processed. *)
Theorem C121_list ls h stopped names sch h1 s1 :
  calm ls h -> executes alone ls h (sp_threads stopped sch (sp_init names)) h1 (Some s1) -> sp_hook s1 = HWait ->
  calm ls h1 /\ sublist (sp_loaded s1) names /\
  match sp_main s1 with
  | MSpin => exists ok, board ls h1 = board ls h ++ map (fun n => (n, if ok : bool then PStarted else PLoaded)) (sp_loaded s1)
  | MReply n true _ => board ls h1 = board ls h ++ fresh (sp_loaded s1 ++ [n])
  | _ => board ls h1 = board ls h ++ fresh (sp_loaded s1)
  end.
Proof.
  intros C E K. destruct (before_threads ls stopped h names sch _ _ _ _ (before_init ls h names C) E K) as (C1 & _ & _ & (d & N & S) & B).
  split; [exact C1|]. split.
  - rewrite N. clear -S. induction S; cbn; [apply sublist_nil | now apply sub_skip | now apply sub_keep].
  - destruct (sp_main s1) as [r|n [|] r| |]; cbn [inflight] in B; rewrite ?app_nil_r in B; exact B.
Qed.
Print Assumptions C121_list.

(** A shutdown that begins while the controllers are being loaded: whatever the interleaving of the requests of the main thread and of the
    shutdown handler, nothing is started, what was there before stays as it was, and when the handler has finished, none of the
    controllers that were on the list when the shutdown began is left. *)
Theorem C121_while_loading ls h stopped names sch1 sch2 h1 s1 h2 s2 :
  calm ls h -> NoDup names ->
  executes alone ls h (sp_threads stopped sch1 (sp_init names)) h1 (Some s1) -> sp_hook s1 = HWait ->
  (exists r, sp_main s1 = MLoop r \/ exists n ok, sp_main s1 = MReply n ok r) ->
  executes alone ls h1 (sp_threads stopped (false :: sch2) s1) h2 (Some s2) ->
  calm ls h2 /\ exists left, board ls h2 = board ls h ++ fresh left /\ (forall n, In n left -> In n names) /\
    (sp_hook s2 = HDone -> forall n, In n (sp_loaded s1) -> ~ In n (ScriptSpec.names (board ls h2))).
Proof.
  intros C ND E1 K M E2. pose proof (before_threads ls stopped h names sch1 _ _ _ _ (before_init ls h names C) E1 K) as A.
  apply threads_cons in E2 as (h3 & s3 & E3 & E4).
  assert (Lo : is_loading (sp_main s1)) by (destruct M as [r [->|(n & ok & ->)]]; exact I).
  pose proof (during_begin ls h names _ _ _ _ ND A Lo E3) as D.
  destruct (during_threads ls stopped h names _ sch2 _ _ _ _ D E4) as (C2 & _ & Dj & I1 & _ & _ & _ & _ & left & B & L & Hk).
  split; [exact C2|]. exists left. split; [exact B|]. split; [exact L|]. intros HD n Hn Hb. rewrite HD in Hk.
  rewrite B, names_app, names_fresh in Hb. apply in_app_iff in Hb as [Hb|Hb]; [exact (Dj n (I1 n Hn) Hb) | exact (Hk n Hn Hb)].
Qed.
Print Assumptions C121_while_loading.
Definition sp_sch1 : list bool := [true; true; true; true].
Definition sp_sch2 : list bool := [false; false; false; false; false; false; true; true; true; true].
Example C121_while_loading_example :
  exists h1 s1 h2 s2,
    executes alone ld0 hist1 (sp_threads false sp_sch1 (sp_init ["x"; "a"; "y"])) h1 (Some s1) /\
    sp_loaded s1 = ["x"] /\ sp_main s1 = MLoop ["y"] /\ sp_hook s1 = HWait /\
    executes alone ld0 h1 (sp_threads false (false :: sp_sch2) s1) h2 (Some s2) /\
    sp_hook s2 = HDone /\ sp_main s2 = MSpin /\ board ld0 h1 = board ld0 hist1 ++ fresh ["x"] /\ board ld0 h2 = board ld0 hist1 ++ fresh ["y"].
Proof.
  set (s1 := mkSp ["x"] false (MLoop ["y"]) HWait).
  set (h1 := ends (drive ld0 envs [] hist1 (sp_threads false sp_sch1 (sp_init ["x"; "a"; "y"])))).
  exists h1, s1, (ends (drive ld0 envs [] h1 (sp_threads false (false :: sp_sch2) s1))), (mkSp ["x"; "y"] true MSpin HDone).
  split; [apply drive_ends; vm_compute; reflexivity|]. do 3 (split; [reflexivity|]).
  split; [apply drive_ends; vm_compute; reflexivity|]. repeat split; vm_compute; reflexivity.
Qed.

(** A shutdown that begins when the spawner has sent all its requests and got the replies: the manager is as before, or the stop request met an
    objection. *)
Theorem C121_after_starting ls h stopped names sch1 sch2 h1 s1 h2 s2 :
  calm ls h ->
  executes alone ls h (sp_threads stopped sch1 (sp_init names)) h1 (Some s1) -> sp_hook s1 = HWait -> sp_main s1 = MSpin ->
  executes alone ls h1 (sp_threads stopped (false :: sch2) s1) h2 (Some s2) -> sp_hook s2 = HDone ->
  calm ls h2 /\ (board ls h2 = board ls h \/ objection ls h1 h2 [] (sp_loaded s1)).
Proof.
  intros C E1 K M E2 K2. pose proof (before_threads ls stopped h names sch1 _ _ _ _ (before_init ls h names C) E1 K) as (C1 & _ & _ & _ & B).
  rewrite M in B. destruct B as [ok B]. set (l := sp_loaded s1) in *.
  assert (A : after ls h h1 l (mkSp l true MSpin HStop) h1).
  { unfold after. cbn. split; [exact C1|]. do 2 (split; [reflexivity|]). split; [exists []; now rewrite app_nil_r | reflexivity]. }
  apply threads_cons in E2 as (h3 & s3 & E3 & E4).
  assert (A3 : after ls h h1 l s3 h3).
  { pose proof (executes_app ls _ _ _ _ _ E3) as P. unfold hook_step in E3. rewrite K in E3. apply ret_inv in E3 as (-> & C' & B'); [|exact C1].
    unfold after. cbn. split; [exact C'|]. split; [exact M|]. split; [reflexivity|]. split; [exact P | exact B']. }
  destruct (after_threads ls stopped h h1 l sch2 _ _ _ _ A3 E4) as (C2 & _ & _ & _ & X). rewrite K2 in X.
  destruct X as (x & todo & dn & X1 & -> & X3 & X4 & X5). split; [exact C2|]. rewrite app_nil_r in X1. subst dn.
  assert (N : NoDup (ScriptSpec.names (board ls h) ++ l)).
  { pose proof (board_names ls h1) as N. rewrite B, names_app in N. unfold ScriptSpec.names at 2 in N. rewrite map_map in N. cbn in N. now rewrite map_id in N. }
  assert (D : forall n, In n l -> ~ In n (ScriptSpec.names (board ls h))).
  { intros n Hn Hb. apply in_split in Hb as (b1 & b2 & Eb). rewrite Eb, <- app_assoc in N. cbn in N. apply NoDup_remove_2 in N. apply N. rewrite !in_app_iff. tauto. }
  assert (IR : forall n, isin n (rev l) = isin n l).
  { intros n. destruct (isin n l) eqn:I; [apply isin_spec; rewrite <- in_rev; now apply isin_spec | apply isin_false; rewrite <- in_rev; now apply isin_false]. }
  assert (Z : ok = false \/ x = true -> board ls h2 = board ls h).
  { intros Q. rewrite X3. assert (Bx : (if x then switched [] l (board ls h1) else board ls h1) =
      board ls h ++ map (fun n => (n, if ok then (if x then PStopped else PStarted) else PLoaded)) l).
    { rewrite B. destruct x; [|destruct ok; reflexivity]. rewrite switched_app. f_equal.
      - apply switched_other. intros n Hn. split; [auto | intros H; exact (D n H Hn)].
      - rewrite switched_isin, map_map. apply map_ext_in. intros n Hn. cbn. apply isin_spec in Hn. rewrite Hn. now destruct ok. }
    rewrite Bx, filter_app, filter_all, filter_none, app_nil_r; [reflexivity| |].
    - intros [n p] Hn. apply in_map_iff in Hn as (m & Em & Hm). injection Em as -> <-. cbn. rewrite IR. apply isin_spec in Hm. rewrite Hm.
      destruct Q as [->| ->]; [reflexivity | now destruct ok].
    - intros [n p] Hn. cbn. rewrite IR. destruct (isin n l) eqn:I; [|reflexivity]. apply isin_spec in I. exfalso. apply (D n I). apply in_names. eauto. }
  destruct ok; [|left; auto]. destruct x; [left; auto|]. right. apply (X5 eq_refl). intros n Hn. rewrite B. unfold running. apply in_app_iff. right. apply in_map_iff. eauto.
Qed.
Print Assumptions C121_after_starting.
Example C121_after_starting_example :
  exists h1 h2,
    executes alone ld0 hist1 (sp_threads false (sp_sch1 ++ [true; true; true; true]) (sp_init ["x"; "a"; "y"])) h1 (Some (mkSp ["x"; "y"] false MSpin HWait)) /\
    board ld0 h1 = board ld0 hist1 ++ [("x", PStarted); ("y", PStarted)] /\
    executes alone ld0 h1 (sp_threads false (false :: repeat false 6) (mkSp ["x"; "y"] false MSpin HWait)) h2 (Some (mkSp ["x"; "y"] true MSpin HDone)) /\
    board ld0 h2 = board ld0 hist1.
Proof.
  set (h1 := ends (drive ld0 envs [] hist1 (sp_threads false (sp_sch1 ++ [true; true; true; true]) (sp_init ["x"; "a"; "y"])))).
  exists h1, (ends (drive ld0 envs [] h1 (sp_threads false (false :: repeat false 6) (mkSp ["x"; "y"] false MSpin HWait)))).
  split; [apply drive_ends; vm_compute; reflexivity|]. split; [vm_compute; reflexivity|].
  split; [apply drive_ends; vm_compute; reflexivity|]. vm_compute; reflexivity.
Qed.

(** No request of this history meets an objection. *)
Definition unobjected (h : list op) : Prop :=
  Forall (fun o => match o with Switch _ _ _ _ _ _ ck pr => (forall x y, pr x y = true) /\ ck = check_for_conflict | _ => True end) h.

(** A controller that is being loaded when the shutdown begins, or is loaded afterwards, stays: both threads have finished, nobody objected, and a
    controller of the spawner is left. *)
Theorem C121_left_behind_refuted :
  exists ls h names sch1 sch2 h1 s1 h2 s2,
    calm ls h /\ NoDup names /\ executes alone ls h (sp_threads false sch1 (sp_init names)) h1 (Some s1) /\ sp_hook s1 = HWait /\
    (exists n r, sp_main s1 = MReply n true r) /\
    executes alone ls h1 (sp_threads false (false :: sch2) s1) h2 (Some s2) /\ sp_hook s2 = HDone /\ sp_main s2 = MSpin /\ unobjected h2 /\
    exists n, In n names /\ ~ In n (ScriptSpec.names (board ls h)) /\ In n (ScriptSpec.names (board ls h2)).
Proof.
  set (s1 := mkSp ["x"] false (MReply "y" true []) HWait).
  set (h1 := ends (drive ld0 envs [] hist1 (sp_threads false [true; true; true] (sp_init ["x"; "y"])))).
  exists ld0, hist1, ["x"; "y"], [true; true; true], (repeat false 5 ++ [true; true]), h1, s1,
    (ends (drive ld0 envs [] h1 (sp_threads false (false :: repeat false 5 ++ [true; true]) s1))), (mkSp ["x"; "y"] true MSpin HDone).
  split; [exact calm_hist1|]. split; [repeat constructor; cbn; intuition discriminate|].
  split; [apply drive_ends; vm_compute; reflexivity|]. split; [reflexivity|]. split; [exists "y", []; reflexivity|].
  split; [apply drive_ends; vm_compute; reflexivity|]. do 2 (split; [reflexivity|]). split; [repeat constructor|].
  exists "y". split; [cbn; auto|]. split; [vm_compute; intuition discriminate | vm_compute; auto 6].
Qed.
Print Assumptions C121_left_behind_refuted.

(** If the start request is served after the stop request of the shutdown handler, everything stays loaded and running: the stop request is
    refused because the controllers do not run yet, and the unload requests because they run now. *)
Theorem C121_start_overtakes_refuted :
  exists ls h names sch1 sch2 h1 s1 h2 s2,
    calm ls h /\ NoDup names /\ executes alone ls h (sp_threads false sch1 (sp_init names)) h1 (Some s1) /\ sp_hook s1 = HWait /\ sp_main s1 = MStart /\
    executes alone ls h1 (sp_threads false (false :: sch2) s1) h2 (Some s2) /\ sp_hook s2 = HDone /\ sp_main s2 = MSpin /\ unobjected h2 /\
    names <> [] /\ forall n, In n names -> ~ In n (ScriptSpec.names (board ls h)) /\ running (board ls h2) n.
Proof.
  set (s1 := mkSp ["x"; "y"] false MStart HWait).
  set (h1 := ends (drive ld0 envs [] hist1 (sp_threads false [true; true; true; true; true] (sp_init ["x"; "y"])))).
  exists ld0, hist1, ["x"; "y"], [true; true; true; true; true], ([false; false] ++ [true] ++ repeat false 4), h1, s1,
    (ends (drive ld0 envs [] h1 (sp_threads false (false :: [false; false] ++ [true] ++ repeat false 4) s1))), (mkSp ["x"; "y"] true MSpin HDone).
  split; [exact calm_hist1|]. split; [repeat constructor; cbn; intuition discriminate|].
  split; [apply drive_ends; vm_compute; reflexivity|]. do 2 (split; [reflexivity|]).
  split; [apply drive_ends; vm_compute; reflexivity|]. do 2 (split; [reflexivity|]). split; [repeat constructor|]. split; [discriminate|].
  intros n [<-|[<-|[]]]; (split; [vm_compute; intuition discriminate | vm_compute; auto 8]).
Qed.
Print Assumptions C121_start_overtakes_refuted.

(** Without a shutdown the threads do what the sequential script of C72 does. *)
Theorem C121_without_shutdown ls h stopped names k h' s :
  calm ls h -> executes alone ls h (sp_threads stopped (repeat true (2 * length names + 2 + k)%nat) (sp_init names)) h' (Some s) ->
  exists ok, sp_main s = MSpin /\ sp_hook s = HWait /\ executes alone ls h (spawner_main stopped names) h' (Some (sp_loaded s, ok)) /\
    board ls h' = board ls h ++ map (fun n => (n, if ok then PStarted else PLoaded)) (sp_loaded s) /\
    (forall n, In n names -> In n (ScriptSpec.names (board ls h')) \/ load_refused ls h h' n).
Proof.
  intros C E. destruct (same_executes _ _ _ _ _ _ _ E _ (main_same stopped k names [])) as ([l ok] & E' & X). unfold finished_as in X. cbn in X. subst s.
  exists ok. split; [reflexivity|]. split; [reflexivity|]. split; [exact E'|]. destruct (C72_spawner ls _ _ _ _ _ _ C E') as (_ & _ & _ & _ & B & _ & _ & R). auto.
Qed.
Print Assumptions C121_without_shutdown.

(** * C122: what the spawner waits for *)
(** The services were found in some round, and in the rounds before simulated time had no clock yet. *)
Definition services_up (l : list attempt) : Prop :=
  exists n r, l = repeat (SvcMissing true) n ++ SvcFound :: r.
(** [o]: the first look after something has been heard; [o']: "True" is what has been heard last.  No shutdown was noticed before. *)
Definition hears_true (l : list look) : Prop :=
  exists l1 o l2 o' l3, l = l1 ++ o :: l2 ++ o' :: l3 /\ (forall x, In x l1 -> lk_heard x = None /\ lk_shutdown x = false) /\ lk_heard o <> None /\
    (forall x, In x l2 -> lk_shutdown x = false) /\ lk_heard o' = Some true.
(** What has been heard stays heard. *)
Fixpoint heard_stays (l : list look) : Prop :=
  match l with [] => True | o :: l' => (lk_heard o <> None -> forall o', In o' l' -> lk_heard o' <> None) /\ heard_stays l' end.

Lemma wait_services_ready l : wait_services l = FReady <-> services_up l.
Proof.
  split.
  - induction l as [|[|[|]] l IH]; cbn; try discriminate.
    + intros _. exists 0%nat, l. reflexivity.
    + intros H. destruct (IH H) as (n & r & ->). exists (S n), r. reflexivity.
  - intros (n & r & ->). induction n; cbn; auto.
Qed.
Lemma wait_true_ready l : (forall o, In o l -> lk_heard o <> None) ->
  (wait_true l = FReady <-> exists l2 o' l3, l = l2 ++ o' :: l3 /\ (forall x, In x l2 -> lk_heard x = Some false /\ lk_shutdown x = false) /\ lk_heard o' = Some true).
Proof.
  intros A. induction l as [|o l IH]; cbn.
  - split; [discriminate | intros ([|x l2] & o' & l3 & E & _); discriminate E].
  - assert (A' : forall o, In o l -> lk_heard o <> None) by (intros x Hx; apply A; now right). destruct (lk_heard o) as [[|]|] eqn:H.
    + split; [|reflexivity]. intros _. exists [], o, l. split; [reflexivity|]. split; [intros x [] | exact H].
    + destruct (lk_shutdown o) eqn:Sh.
      * split; [discriminate|]. intros ([|x l2] & o' & l3 & E & F & G); injection E as -> ->; [congruence|]. destruct (F x (or_introl eq_refl)). congruence.
      * rewrite (IH A'). split.
        -- intros (l2 & o' & l3 & -> & F & G). exists (o :: l2), o', l3. split; [reflexivity|]. split; [|exact G]. intros x [<-|Hx]; auto.
        -- intros ([|x l2] & o' & l3 & E & F & G); injection E as -> ->; [congruence|]. exists l2, o', l3. split; [reflexivity|]. split; [|exact G]. intros x0 Hx. apply F. now right.
    + exfalso. exact (A o (or_introl eq_refl) H).
Qed.
Lemma wait_true_hears l : (forall o, In o l -> lk_heard o <> None) ->
  (wait_true l = FReady <-> exists l2 o' l3, l = l2 ++ o' :: l3 /\ (forall x, In x l2 -> lk_shutdown x = false) /\ lk_heard o' = Some true).
Proof.
  intros A. rewrite (wait_true_ready l A). split; intros (l2 & o' & l3 & E & F & G).
  - exists l2, o', l3. split; [exact E|]. split; [|exact G]. intros x Hx. now apply F.
  - subst l. revert F A. induction l2 as [|x l2 IH]; intros F A.
    + exists [], o', l3. split; [reflexivity|]. split; [intros x [] | exact G].
    + destruct (lk_heard x) as [[|]|] eqn:H.
      * exists [], x, (l2 ++ o' :: l3). split; [reflexivity|]. split; [intros y [] | exact H].
      * destruct IH as (a & b & c & E & F' & G'); [intros y Hy; apply F; now right | intros y Hy; apply A; now right|].
        exists (x :: a), b, c. cbn. rewrite E. split; [reflexivity|]. split; [|exact G']. intros y [<-|Hy]; [split; [exact H | apply F; now left] | auto].
      * exfalso. exact (A x (or_introl eq_refl) H).
Qed.
Lemma wait_topic_ready t : forall l w, heard_stays l -> (wait_topic (Some t) w l = FReady <-> hears_true l).
Proof.
  induction l as [|o l IH]; intros w St; cbn [wait_topic].
  - split; [discriminate|]. intros (l1 & o & l2 & o' & l3 & E & _). destruct l1; discriminate E.
  - destruct St as [St1 St2]. destruct (lk_heard o) as [b|] eqn:H.
    + assert (A : forall x, In x l -> lk_heard x <> None) by (apply St1; congruence). rewrite (wait_true_hears l A). split.
      * intros (l2 & o' & l3 & -> & F & G). exists [], o, l2, o', l3. split; [reflexivity|]. split; [intros x []|]. split; [congruence | auto].
      * intros (l1 & o1 & l2 & o' & l3 & E & F & G1 & F2 & G2). destruct l1 as [|x l1]; injection E as -> ->.
        -- exists l2, o', l3. auto.
        -- exfalso. destruct (F x (or_introl eq_refl)). congruence.
    + assert (X : hears_true (o :: l) <-> lk_shutdown o = false /\ hears_true l).
      { split.
        - intros (l1 & o1 & l2 & o' & l3 & E & F & G1 & F2 & G2). destruct l1 as [|x l1]; injection E as -> ->; [congruence|].
          split; [apply F; now left|]. exists l1, o1, l2, o', l3. split; [reflexivity|]. split; [intros y Hy; apply F; now right | auto].
        - intros (S0 & l1 & o1 & l2 & o' & l3 & -> & F & G). exists (o :: l1), o1, l2, o', l3. split; [reflexivity|]. split; [intros y [<-|Hy]; auto | auto]. }
      rewrite X. destruct (lk_shutdown o); [split; [discriminate | intros [Y _]; discriminate Y]|].
      destruct w; rewrite (IH _ St2); tauto.
Qed.

(** With a timeout, or with something heard at once, or without --wait-for: the spawner goes on to send requests if and only if all three
    services were found (before that, only a missing clock is waited for again), and "True" was heard, with no shutdown noticed before. *)
Theorem C122_waits a atts looks :
  heard_stays looks -> (0 < a_timeout a)%Z -> a_no_timeout a = false ->
  (sp_front a atts looks = FReady <-> services_up atts /\ (a_wait_for a = true -> hears_true looks)).
Proof.
  intros St T N. unfold sp_front. assert (Et : sp_timeout a = Some (a_timeout a)).
  { unfold sp_timeout. rewrite N. cbn. destruct (a_timeout a <=? 0)%Z eqn:L; [apply Z.leb_le in L; lia | reflexivity]. }
  rewrite Et. pose proof (wait_services_ready atts) as S. destruct (wait_services atts) eqn:W;
    try (split; [discriminate | intros [X _]; apply S in X; discriminate X]).
  destruct (a_wait_for a).
  - rewrite (wait_topic_ready _ _ _ St). split; [intros X; split; [now apply S | auto] | intros [_ X]; auto].
  - split; [intros _; split; [now apply S | discriminate] | reflexivity].
Qed.
Print Assumptions C122_waits.
Example C122_waits_example :
  let a := mkArgs false true "" 30 false ["c"] in
  let looks := [mkLook None false 1; mkLook (Some false) false 2; mkLook (Some false) false 3; mkLook (Some true) false 4] in
  heard_stays looks /\ sp_front a [SvcMissing true; SvcFound] looks = FReady /\ sp_front a [SvcMissing true; SvcFound] (removelast looks) = FWaiting /\
  sp_front a [SvcMissing true; SvcMissing false] looks = FNoServices.
Proof.
  repeat split; cbn; intros; repeat match goal with H : _ \/ _ |- _ => destruct H as [<-|H] | H : False |- _ => destruct H end; cbn; congruence.
Qed.

(** With any arguments: no request is sent unless the services were found, and, with --wait-for, "True" was heard. *)
Theorem C122_no_request_before ls h a file atts looks sch h' e o :
  calm ls h -> executes alone ls h (sp_run a file atts looks sch) h' (Some (e, o)) ->
  ~ (services_up atts /\ (a_wait_for a = true -> exists x, In x looks /\ lk_heard x = Some true)) ->
  e <> FReady /\ o = None /\ board ls h' = board ls h.
Proof.
  intros C E X. unfold sp_run in E. destruct (sp_front a atts looks) eqn:F;
    try (apply ret_inv in E as (E & _ & B); [|exact C]; injection E as -> ->; split; [discriminate | auto]).
  exfalso. apply X. unfold sp_front in F. pose proof (wait_services_ready atts) as S. destruct (wait_services atts); try discriminate F.
  split; [now apply S|]. intros W. rewrite W in F. clear -F. revert F. generalize false.
  assert (Q : forall l, wait_true l = FReady -> exists x, In x l /\ lk_heard x = Some true).
  { induction l as [|o l IH]; cbn; [discriminate|]. destruct (lk_heard o) as [[|]|] eqn:H; [eauto| |discriminate].
    destruct (lk_shutdown o); [discriminate|]. intros F. destruct (IH F) as (x & Hx & Y). eauto. }
  induction looks as [|o l IH]; intros w F; cbn in F; [discriminate|].
  destruct (lk_heard o) as [b|]; [destruct (Q _ F) as (x & Hx & Y); exists x; split; [now right | exact Y]|].
  destruct (lk_shutdown o); [discriminate|]. destruct w; [|destruct (sp_timeout a); [|discriminate]];
    (destruct (IH _ F) as (x & Hx & Y); exists x; split; [now right | exact Y]).
Qed.
Print Assumptions C122_no_request_before.

(** When it goes on, the controllers are those of the arguments, the keys of a yaml file in its place, and (without shutdown) the effect on the
    manager is that of C72. *)
Theorem C122_controllers ls h a file atts looks k h' o :
  let names := flat_map (fun n => match file n with Some keys => keys | None => [n] end) (a_controllers a) in
  calm ls h -> executes alone ls h (sp_run a file atts looks (repeat true (2 * length names + 2 + k))) h' (Some (FReady, o)) ->
  exists l ok, sublist l names /\ board ls h' = board ls h ++ map (fun n => (n, if ok : bool then PStarted else PLoaded)) l /\
    (a_stopped a = true -> ok = false) /\ (a_stopped a = false -> ok = false -> objection ls h h' l []) /\
    (forall n, In n names -> In n (ScriptSpec.names (board ls h')) \/ load_refused ls h h' n).
Proof.
  intros names C E. unfold sp_run in E. destruct (sp_front a atts looks);
    try (apply ret_inv in E as (E & _ & _); [discriminate E | exact C]).
  apply bind_inv in E as (h1 & s & E1 & E2). change (sp_controllers file (a_controllers a)) with names in E1.
  pose proof (executes_app ls _ _ _ _ _ E2) as P2.
  destruct (C121_without_shutdown ls h _ names k h1 s C E1) as (ok & _ & _ & E3 & B & R).
  destruct (C72_spawner ls _ _ _ _ _ _ C E3) as (C1 & S & _ & _ & _ & X & Y & _).
  pose proof (executes_app ls _ _ _ _ _ E1) as P1.
  apply ret_inv in E2 as (_ & C2 & B2); [|exact C1]. exists (sp_loaded s), ok. rewrite B2. split; [exact S|]. split; [exact B|]. split; [exact X|]. split.
  - intros A1 A2. apply (objection_earlier ls _ _ h h1 h'); auto.
  - intros n Hn. destruct (R n Hn) as [Q|Q]; [now left | right; eapply load_refused_earlier; eauto].
Qed.
Print Assumptions C122_controllers.
Example C122_controllers_example :
  exists h' s, executes alone ld0 hist1 (sp_run (mkArgs false false "" 30 false ["f.yaml"; "z"]) (fun n => if String.eqb n "f.yaml" then Some ["x"; "y"] else None)
                 [SvcFound] [] (repeat true (2 * 3 + 2 + 0))) h' (Some (FReady, Some s)) /\
    board ld0 h' = board ld0 hist1 ++ [("x", PStarted); ("y", PStarted); ("z", PStarted)].
Proof.
  eexists; exists (mkSp ["x"; "y"; "z"] false MSpin HWait). split; [apply (drive_ends ld0 envs []); vm_compute; reflexivity | vm_compute; reflexivity].
Qed.

(** Known exception: with --no-timeout (or --timeout 0) and --wait-for, the spawner dies of a TypeError unless a message has been heard before the
    first look. *)
Theorem C122_no_timeout_refuted a atts o looks :
  services_up atts -> a_wait_for a = true -> (a_no_timeout a = true \/ (a_timeout a <= 0)%Z) -> lk_heard o = None -> lk_shutdown o = false ->
  sp_front a atts (o :: looks) = FTypeError.
Proof.
  intros S W T H D. apply wait_services_ready in S. unfold sp_front. rewrite S, W.
  assert (Et : sp_timeout a = None). { unfold sp_timeout. destruct T as [->|T]; [reflexivity|]. apply Z.leb_le in T. rewrite T. now rewrite orb_true_r. }
  rewrite Et. cbn. now rewrite H, D.
Qed.
Print Assumptions C122_no_timeout_refuted.
Example C122_no_timeout_example : sp_front (mkArgs false true "" 30 true ["c"]) [SvcFound] [mkLook None false 1; mkLook (Some true) false 2] = FTypeError.
Proof. reflexivity. Qed.

(** The services asked for are those of the manager in the given namespace, with or without a final slash. *)
Theorem C122_services ns :
  sp_services "" = ("controller_manager/load_controller", "controller_manager/unload_controller", "controller_manager/switch_controller") /\
  (ns <> "" -> (forall x, ns <> (x ++ "/")%string) ->
   sp_services ns = ((ns ++ "/controller_manager/load_controller")%string, (ns ++ "/controller_manager/unload_controller")%string, (ns ++ "/controller_manager/switch_controller")%string) /\
   sp_services (ns ++ "/") = sp_services ns).
Proof.
  split; [reflexivity|]. intros NE NS.
  assert (LA : forall s c, last_char (s ++ String c "") = Some c).
  { induction s as [|d s IH]; intros c; [reflexivity|]. cbn. rewrite IH. destruct s; reflexivity. }
  assert (LC : forall s c, last_char s = Some c -> exists x, s = (x ++ String c "")%string).
  { induction s as [|d s IH]; intros c H; [discriminate H|]. destruct s as [|e s]; [injection H as ->; exists ""; reflexivity|].
    destruct (IH c H) as (x & Ex). exists (String d x). cbn. now rewrite <- Ex. }
  assert (AS : forall x y z : string, ((x ++ y) ++ z = x ++ (y ++ z))%string).
  { induction x as [|d x IH]; intros; cbn; [reflexivity | now rewrite IH]. }
  unfold sp_services, sp_prefix. rewrite LA, Ascii.eqb_refl. destruct (last_char ns) as [c|] eqn:L.
  - destruct (Ascii.eqb c "/") eqn:Ec; [apply Ascii.eqb_eq in Ec; subst c; destruct (LC _ _ L) as (x & Ex); now elim (NS x)|].
    rewrite !AS. split; reflexivity.
  - exfalso. destruct ns as [|d ns]; [now apply NE|]. clear -L. revert d L. induction ns as [|e ns IH]; intros d L; [discriminate L | exact (IH e L)].
Qed.
Print Assumptions C122_services.
Example C122_services_example : fst (sp_services "/robot") = ("/robot/controller_manager/load_controller", "/robot/controller_manager/unload_controller").
Proof. reflexivity. Qed.
