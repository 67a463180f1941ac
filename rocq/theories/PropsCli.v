(** Property theorems about the tool `controller_manager`: what it does for each command word, and what it prints.
    [executes alone]: an execution during which nobody else calls the manager and the hardware reports no failure. *)
From Coq Require Import Permutation Lia.
From Verif Require Import HwTypes Lifecycle ConflictModel CMModel CMSpec CMFinal ScriptModel ScriptSpec ScriptProofs ScriptMain ScriptRun PropsScript
  CliModel CliSpec CliProofs.
Local Open Scope string_scope.
Local Open Scope list_scope.

Ltac open_cli E := apply ends_inv in E as [-> E].

(** * C132 *)
Theorem C132_load ls uniq types ns h h' out code :
  calm ls h -> executes alone ls h (cli uniq types ("load" :: ns)) h' (Some (out, code)) ->
  calm ls h' /\ code = 0%nat /\ one_line_each Loaded LoadError ns out /\
  exists l, sublist l ns /\ (forall n, In n l <-> In (Loaded n) out) /\ board ls h' = board ls h ++ fresh l /\
  (forall n, In n ns -> In n (names (board ls h')) \/ load_refused ls h h' n).
Proof. intros C E. cbn in E. open_cli E. destruct (cli_load ls _ _ _ _ E C) as (C' & L & X). auto. Qed.
Print Assumptions C132_load.

Theorem C132_unload ls uniq types ns h h' out code :
  calm ls h -> executes alone ls h (cli uniq types ("unload" :: ns)) h' (Some (out, code)) ->
  calm ls h' /\ code = 0%nat /\ one_line_each Unloaded UnloadError ns out /\
  board ls h' = filter (fun x => negb (listed (fst x) ns) || started (snd x)) (board ls h) /\
  (forall n, In (Unloaded n) out <-> In n ns /\ In n (names (board ls h)) /\ ~ In n (names (board ls h'))).
Proof.
  intros C E. cbn in E. open_cli E. destruct (cli_unload ls _ _ _ _ E C) as (C' & L & B & U). do 3 (split; [auto; fail|]).
  assert (B2 : board ls h' = filter (fun x => negb (listed (fst x) ns) || started (snd x)) (board ls h)).
  { rewrite B. apply filter_ext. intros [n p]. now rewrite isin_listed. }
  split; [exact B2|]. intros n. rewrite U. split; intros (H1 & H2 & H3); repeat (split; [assumption|]).
  - intros X. apply H3. apply in_names in X as [p Hp]. rewrite B2 in Hp. apply filter_In in Hp as [Hp K]. cbn in K.
    apply listed_spec in H1. rewrite H1 in K. cbn in K. apply started_spec in K. now subst p.
  - intros X. apply H3. apply in_names. exists PStarted. rewrite B2. apply filter_In. split; [exact X|]. cbn. apply orb_true_r.
Qed.
Print Assumptions C132_unload.

Theorem C132_start ls uniq types ns h h' out code :
  calm ls h -> executes alone ls h (cli uniq types ("start" :: ns)) h' (Some (out, code)) ->
  calm ls h' /\ code = 0%nat /\ one_line_each (fun n => Started [n]) (fun n => SwitchError [n] []) ns out /\
  exists l, sublist l ns /\ (forall n, In n l <-> In (Started [n]) out) /\ board ls h' = switched l [] (board ls h) /\
  (forall n, In n l -> In n (names (board ls h)) /\ ~ running (board ls h) n /\ running (board ls h') n) /\
  (forall n, In n ns -> In n (names (board ls h)) -> ~ running (board ls h') n -> objection ls h h' [n] []).
Proof.
  intros C E. cbn in E. open_cli E. destruct (cli_start ls _ _ _ _ E C) as (C' & L & l & S & I & B & F & O). do 3 (split; [auto; fail|]).
  exists l. do 3 (split; [assumption|]). split.
  - intros n Hn. destruct (F n Hn) as [F1 F2]. split; [exact F1|]. split; [exact F2|]. rewrite B, running_switched by apply board_names. left. auto.
  - intros n Hn K R. rewrite B, running_switched in R by apply board_names. apply (O n Hn K); intros X; apply R; [right; split; [exact X | intros []] | left; auto].
Qed.
Print Assumptions C132_start.

Theorem C132_stop ls uniq types ns h h' out code :
  calm ls h -> executes alone ls h (cli uniq types ("stop" :: ns)) h' (Some (out, code)) ->
  calm ls h' /\ code = 0%nat /\ one_line_each (fun n => Stopped [n]) (fun n => SwitchError [] [n]) ns out /\
  exists l, sublist l ns /\ (forall n, In n l <-> In (Stopped [n]) out) /\ board ls h' = switched [] l (board ls h) /\
  (forall n, In n l -> running (board ls h) n /\ ~ running (board ls h') n) /\
  (forall n, In n ns -> running (board ls h') n -> objection ls h h' [] [n]).
Proof.
  intros C E. cbn in E. open_cli E. destruct (cli_stop ls _ _ _ _ E C) as (C' & L & l & S & I & B & F & O). do 3 (split; [auto; fail|]).
  exists l. do 3 (split; [assumption|]). split.
  - intros n Hn. split; [now apply F|]. rewrite B, running_switched by apply board_names. intros [[_ []]|[_ X]]. contradiction.
  - intros n Hn R. rewrite B, running_switched in R by apply board_names. destruct R as [[_ []]|[R X]]. now apply (O n Hn).
Qed.
Print Assumptions C132_stop.

(** spawn: first all loads, then all starts. *)
Theorem C132_spawn ls uniq types w ns h h' out code :
  w = "sp" \/ w = "spawn" -> calm ls h -> executes alone ls h (cli uniq types (w :: ns)) h' (Some (out, code)) ->
  calm ls h' /\ code = 0%nat /\ exists o o', out = o ++ o' /\ one_line_each Loaded LoadError ns o /\
  one_line_each (fun n => Started [n]) (fun n => SwitchError [n] []) ns o' /\
  exists l l', (forall n, In n l <-> In (Loaded n) out) /\ (forall n, In n l' <-> In (Started [n]) out) /\ sublist l ns /\
  board ls h' = switched l' [] (board ls h ++ fresh l) /\ (forall n, In n l' -> running (board ls h') n) /\
  (forall n, In n ns -> ~ running (board ls h') n -> load_refused ls h h' n \/ objection ls h h' [n] []).
Proof.
  intros Hw C E. assert (E' : executes alone ls h (cli uniq types ("spawn" :: ns)) h' (Some (out, code))) by (destruct Hw as [-> | ->]; exact E).
  clear E. rename E' into E. cbn in E. open_cli E. apply pair_inv in E as (h1 & o & o' & -> & E1 & E2).
  destruct (cli_load ls _ _ _ _ E1 C) as (C1 & L1 & l & S1 & I1 & B1 & R1).
  destruct (cli_start ls _ _ _ _ E2 C1) as (C2 & L2 & l' & S2 & I2 & B2 & F2 & O2).
  pose proof (executes_app ls _ _ _ _ _ E1) as P1. pose proof (executes_app ls _ _ _ _ _ E2) as P2.
  assert (N1 : forall n, ~ In (Started [n]) o).
  { intros n X. apply (Forall2_in_right _ _ _ _ L1) in X as (m & _ & [X|X]); discriminate X. }
  assert (N2 : forall n, ~ In (Loaded n) o').
  { intros n X. apply (Forall2_in_right _ _ _ _ L2) in X as (m & _ & [X|X]); discriminate X. }
  split; [exact C2|]. split; [reflexivity|]. exists o, o'. do 3 (split; [auto; fail|]). exists l, l'.
  split; [intros n; rewrite in_app_iff, I1; specialize (N2 n); tauto|]. split; [intros n; rewrite in_app_iff, I2; specialize (N1 n); tauto|].
  split; [exact S1|]. split; [congruence|].
  assert (RR : forall n, In n l' -> running (board ls h') n).
  { intros n Hn. rewrite B2, running_switched by apply board_names. left. split; [now apply F2 | exact Hn]. }
  split; [exact RR|]. intros n Hn R. destruct (R1 n Hn) as [X|X].
  - right. apply (objection_later ls _ _ h h1 h'); auto. apply (O2 n Hn X).
    + intros Y. apply R. rewrite B2, running_switched by apply board_names. right. split; [exact Y | intros []].
    + intros Y. exact (R (RR n Y)).
  - left. eapply load_refused_earlier; [exact P2 | exact X].
Qed.
Print Assumptions C132_spawn.

(** kill: first all stops, then all unloads. *)
Theorem C132_kill ls uniq types w ns h h' out code :
  w = "kl" \/ w = "kill" -> calm ls h -> executes alone ls h (cli uniq types (w :: ns)) h' (Some (out, code)) ->
  calm ls h' /\ code = 0%nat /\ exists o o', out = o ++ o' /\ one_line_each (fun n => Stopped [n]) (fun n => SwitchError [] [n]) ns o /\
  one_line_each Unloaded UnloadError ns o' /\
  (forall n p, ~ In n ns -> (In (n, p) (board ls h') <-> In (n, p) (board ls h))) /\ sublist (board ls h') (board ls h) /\
  (forall n, In (Stopped [n]) out -> running (board ls h) n /\ ~ running (board ls h') n) /\
  (forall n, In (Unloaded n) out <-> In n ns /\ In n (names (board ls h)) /\ ~ In n (names (board ls h'))) /\
  (forall n, In n ns -> In n (names (board ls h')) -> objection ls h h' [] [n]).
Proof.
  intros Hw C E. assert (E' : executes alone ls h (cli uniq types ("kill" :: ns)) h' (Some (out, code))) by (destruct Hw as [-> | ->]; exact E).
  clear E. rename E' into E. cbn in E. open_cli E. apply pair_inv in E as (h1 & o & o' & -> & E1 & E2).
  destruct (cli_stop ls _ _ _ _ E1 C) as (C1 & L1 & l & S1 & I1 & B1 & F1 & O1).
  destruct (cli_unload ls _ _ _ _ E2 C1) as (C2 & L2 & B2 & U2).
  pose proof (executes_app ls _ _ _ _ _ E1) as P1. pose proof (executes_app ls _ _ _ _ _ E2) as P2.
  assert (N1 : forall n, ~ In (Unloaded n) o).
  { intros n X. apply (Forall2_in_right _ _ _ _ L1) in X as (m & _ & [X|X]); discriminate X. }
  assert (N2 : forall n, ~ In (Stopped [n]) o').
  { intros n X. apply (Forall2_in_right _ _ _ _ L2) in X as (m & _ & [X|X]); discriminate X. }
  assert (Nm : forall n, In n (names (board ls h1)) <-> In n (names (board ls h))) by (intros n; rewrite B1, names_switched; tauto).
  assert (Kn : forall n, In n ns -> (In n (names (board ls h')) <-> running (board ls h1) n)).
  { intros n Hn. apply isin_spec in Hn. rewrite in_names, B2. split.
    - intros [p Hp]. apply filter_In in Hp as [Hp K]. cbn in K. rewrite Hn in K. cbn in K. apply started_spec in K. now subst p.
    - intros R. exists PStarted. apply filter_In. split; [exact R|]. cbn. apply orb_true_r. }
  assert (Kr : forall n, In n l -> ~ running (board ls h1) n).
  { intros n Hn. rewrite B1, running_switched by apply board_names. intros [[_ []]|[_ X]]. contradiction. }
  split; [exact C2|]. split; [reflexivity|]. exists o, o'. do 3 (split; [auto; fail|]).
  assert (Hl : forall n, In n l -> In n ns) by (intros n; now apply sublist_in).
  split; [|split; [|split; [|split]]].
  - intros n p Hn. rewrite B2, B1, killed_board, filter_In by exact Hl. cbn [fst snd]. apply isin_false in Hn. rewrite Hn. cbn. tauto.
  - rewrite B2, B1, killed_board by exact Hl. apply filter_sublist.
  - intros n X. apply in_app_iff in X as [X|X]; [|now apply N2 in X]. apply I1 in X. split; [now apply F1|].
    intros R. apply (Kr n X). apply Kn; [now apply Hl | now apply running_names].
  - intros n. rewrite in_app_iff. split.
    + intros [X|X]; [now apply N1 in X|]. apply U2 in X as (X1 & X2 & X3). split; [exact X1|]. split; [now apply Nm|]. rewrite Kn; auto.
    + intros (X1 & X2 & X3). right. apply U2. split; [exact X1|]. split; [now apply Nm|]. rewrite <- Kn; auto.
  - intros n Hn K. apply Kn in K; [|exact Hn]. rewrite B1, running_switched in K by apply board_names. destruct K as [[_ []]|[K X]].
    apply (objection_earlier ls _ _ h h1 h'); auto.
Qed.
Print Assumptions C132_kill.

(** list: one line per loaded controller, in load order, with its state and the interfaces it claims, each once. *)
Theorem C132_list ls uniq types w rest h h' out code :
  makes_unique uniq -> w = "lc" \/ w = "list" -> calm ls h -> executes alone ls h (cli uniq types (w :: rest)) h' (Some (out, code)) ->
  calm ls h' /\ board ls h' = board ls h /\ code = 0%nat /\
  (board ls h = [] -> out = [NothingLoaded]) /\
  (board ls h <> [] -> exists t, Forall alone t /\
     map (fun e => (en_name e, en_state e)) (report (trace ls (h ++ t))) = map (fun x => (fst x, phase_string (snd x))) (board ls h) /\
     Forall2 (fun e line => exists ifaces, line = Listed (en_name e) ifaces (en_state e) /\ NoDup ifaces /\
        (forall f, In f ifaces <-> exists r, In r (en_claims e) /\ ir_iface r = f)) (report (trace ls (h ++ t))) out).
Proof.
  intros HU Hw C E. assert (E' : executes alone ls h (cli uniq types ("list" :: rest)) h' (Some (out, code))) by (destruct Hw as [-> | ->]; exact E).
  clear E. rename E' into E. change (executes alone ls h (bind (say_list uniq) (fun o => Ret (o, 0%nat))) h' (Some (out, code))) in E.
  open_cli E. apply list_inv_report in E as (h0 & h1 & B0 & B1 & C1 & (t & -> & Ht) & E); [|exact C]. apply ret_inv in E as (-> & C' & B'); [|exact C1].
  split; [exact C'|]. split; [congruence|]. split; [reflexivity|].
  assert (RB : map (fun e => (en_name e, en_state e)) (report (trace ls (h ++ t))) = map (fun x => (fst x, phase_string (snd x))) (board ls h)).
  { rewrite <- B0. unfold report, board. now rewrite !map_map. }
  split.
  - intros Z. rewrite Z in RB. destruct (report (trace ls (h ++ t))); [reflexivity | discriminate RB].
  - intros Z. exists t. split; [exact Ht|]. split; [exact RB|].
    assert (NZ : report (trace ls (h ++ t)) <> []) by (intros X; rewrite X in RB; destruct (board ls h); [congruence | discriminate RB]).
    revert NZ. generalize (report (trace ls (h ++ t))). intros [|e l] NZ; [congruence|]. clear NZ.
    generalize (e :: l). clear -HU. induction l as [|e l IH]; cbn [map]; constructor; [|exact IH].
    eexists. split; [reflexivity|]. destruct (HU (map ir_iface (en_claims e))) as [N I]. split; [exact N|].
    intros f. rewrite I, in_map_iff. split; intros (r & X & Y); exists r; auto.
Qed.
Print Assumptions C132_list.

(** reload-libraries: the message about the reload is true.  What --restore does is C88. *)
Theorem C132_reload ls uniq types rest h h' out code :
  calm ls h -> executes alone ls h (cli uniq types ("reload-libraries" :: rest)) h' (Some (out, code)) ->
  code = 0%nat /\
  (~ In "--restore" rest -> (out = [RestoreIs false; Reloaded] /\ calm ls h' /\ board ls h' = []) \/ out = [RestoreIs false; ReloadFailed]) /\
  (In "--restore" rest -> exists ok oks st, executes alone ls h (reload_libraries_restore true) h' (Some (ok, oks, st)) /\
     out = [RestoreIs true; if ok then Reloaded else ReloadFailed; Restored]).
Proof.
  intros C E. change (executes alone ls h (bind (say_reload true (isin "--restore" rest)) (fun o => Ret (o, 0%nat))) h' (Some (out, code))) in E.
  open_cli E. split; [reflexivity|]. destruct (isin "--restore" rest) eqn:I; cbn [say_reload] in E.
  - split; [intros X; apply isin_spec in I; contradiction|]. intros _. apply print_inv in E as (((ok & oks) & st) & -> & E). exists ok, oks, st. auto.
  - split; [|intros X; apply isin_spec in X; congruence]. intros _. apply reload_inv in E as (h1 & x & X & P & E); [|exact C].
    destruct x; [left | right]; [destruct (X eq_refl) as [C1 B1]; apply ret_inv in E as (-> & C' & B'); [|exact C1]; rewrite B'; auto|].
    now destruct (ret_then ls alone (S := list said) _ _ _ _ E) as [-> _].
Qed.
Print Assumptions C132_reload.
(** The line "Controllers restored to original state" does not mean that they are: it is printed in any case. *)
Theorem C132_restored_refuted :
  exists ls h h' out code, calm ls h /\ executes alone ls h (cli id_order [] ["reload-libraries"; "--restore"]) h' (Some (out, code)) /\
    In Reloaded out /\ In Restored out /\ (exists n, running (board ls h) n /\ ~ running (board ls h') n).
Proof.
  set (p := cli id_order [] ["reload-libraries"; "--restore"]).
  exists ld0, hist1, (ends (drive ld0 envs [agree; refuse] hist1 p)), [RestoreIs true; Reloaded; Restored], 0%nat.
  split; [exact calm_hist1|]. split; [apply drive_ends; vm_compute; reflexivity|]. split; [cbn; auto|]. split; [cbn; auto|].
  exists "a". vm_compute. split; [auto|]. intuition discriminate.
Qed.
Print Assumptions C132_restored_refuted.

(** Other words: the usage text, and no request. *)
Theorem C132_usage W ls uniq types args h h' out code :
  (forall w rest, args = w :: rest -> ~ In w commands) -> executes W ls h (cli uniq types args) h' (Some (out, code)) ->
  out = [Usage] /\ (code = 0%nat <-> args = []) /\ exists t, h' = h ++ t /\ Forall W t.
Proof.
  intros N E.
  assert (Q : cli uniq types args = Ret ([Usage], if args then 0 else 1)%nat).
  { destruct args as [|w rest]; [reflexivity|]. specialize (N w rest eq_refl). unfold commands in N. cbn [In] in N. unfold cli.
    repeat match goal with |- context [String.eqb w ?s] => destruct (String.eqb_spec w s) as [K|_]; [exfalso; apply N; rewrite K; tauto|] end. reflexivity. }
  rewrite Q in E. clear Q N. remember (Ret _) as q. remember (Some _) as r. revert Heqq Heqr. induction E; intros Eq Er; try discriminate Eq; try discriminate Er.
  - destruct (IHE Eq Er) as (H1 & H2 & t & -> & Ht). split; [exact H1|]. split; [exact H2|]. exists (o :: t). split; [now rewrite <- app_assoc | now constructor].
  - injection Eq as ->. injection Er as <- <-. split; [reflexivity|]. split; [destruct args; split; congruence|]. exists []. split; [now rewrite app_nil_r | constructor].
Qed.
Print Assumptions C132_usage.

(** list-types: the types the manager reported (C78), and no other request. *)
Theorem C132_types W ls uniq types w rest h h' out code :
  w = "lt" \/ w = "list-types" -> executes W ls h (cli uniq types (w :: rest)) h' (Some (out, code)) ->
  out = map Type_ types /\ code = 0%nat /\ exists t, h' = h ++ t /\ Forall W t.
Proof.
  intros Hw E. assert (Q : cli uniq types (w :: rest) = Ret (map Type_ types, 0%nat)) by (destruct Hw as [-> | ->]; reflexivity).
  rewrite Q in E. clear Q. remember (Ret _) as q. remember (Some _) as r. revert Heqq Heqr. induction E; intros Eq Er; try discriminate Eq; try discriminate Er.
  - destruct (IHE Eq Er) as (H1 & H2 & t & -> & Ht). split; [exact H1|]. split; [exact H2|]. exists (o :: t). split; [now rewrite <- app_assoc | now constructor].
  - injection Eq as ->. injection Er as <- <-. split; [reflexivity|]. split; [reflexivity|]. exists []. split; [now rewrite app_nil_r | constructor].
Qed.
Print Assumptions C132_types.

(** The exit status says nothing about success: it is 0 for every command. *)
Theorem C132_exit_status ls uniq types w rest h h' out code :
  In w commands -> executes alone ls h (cli uniq types (w :: rest)) h' (Some (out, code)) -> code = 0%nat.
Proof.
  intros Hw E. assert (Q : exists p, cli uniq types (w :: rest) = bind p (fun o => Ret (o, 0%nat))).
  { unfold commands in Hw. repeat (destruct Hw as [<-|Hw]; [first [eexists; reflexivity | exists (Ret (map Type_ types)); reflexivity]|]). destruct Hw. }
  destruct Q as [p Q]. rewrite Q in E. now apply ends_inv in E.
Qed.
Print Assumptions C132_exit_status.

(** Loading and starting a controller twice, one that cannot be loaded, and one that was there already. *)
Example C132_example :
  (exists h', executes alone ld0 hist1 (cli id_order [] ["load"; "x"; "bad"; "a"; "x"]) h' (Some ([Loaded "x"; LoadError "bad"; LoadError "a"; LoadError "x"], 0%nat)) /\
     names (board ld0 h') = ["a"; "b"; "c"; "x"]) /\
  (exists h', executes alone ld0 hist1 (cli id_order [] ["unload"; "b"; "a"; "b"]) h' (Some ([Unloaded "b"; UnloadError "a"; UnloadError "b"], 0%nat)) /\
     names (board ld0 h') = ["a"; "c"]) /\
  (exists h', executes alone ld0 hist1 (cli id_order [] ["start"; "a"; "b"; "u"]) h' (Some ([SwitchError ["a"] []; Started ["b"]; SwitchError ["u"] []], 0%nat)) /\
     board ld0 h' = [("a", PStarted); ("b", PStarted); ("c", PLoaded)]) /\
  (exists h', executes alone ld0 hist1 (cli id_order [] ["stop"; "b"; "a"]) h' (Some ([SwitchError [] ["b"]; Stopped ["a"]], 0%nat)) /\
     board ld0 h' = [("a", PStopped); ("b", PLoaded); ("c", PLoaded)]) /\
  (exists h', executes alone ld0 hist1 (cli id_order [] ["sp"; "x"; "a"]) h' (Some ([Loaded "x"; LoadError "a"; Started ["x"]; SwitchError ["a"] []], 0%nat)) /\
     board ld0 h' = [("a", PStarted); ("b", PLoaded); ("c", PLoaded); ("x", PStarted)]) /\
  (exists h', executes alone ld0 hist1 (cli id_order [] ["kill"; "a"; "b"]) h' (Some ([Stopped ["a"]; SwitchError [] ["b"]; Unloaded "a"; Unloaded "b"], 0%nat)) /\
     board ld0 h' = [("c", PLoaded)]) /\
  (exists h', executes alone ld0 hist1 (cli (nodup string_dec) [] ["list"]) h'
     (Some ([Listed "a" ["pos"] "running"; Listed "b" ["pos"] "initialized"; Listed "c" ["pos"] "initialized"], 0%nat))) /\
  (exists h', executes alone ld0 hist1 (cli id_order [] ["reload-libraries"]) h' (Some ([RestoreIs false; Reloaded], 0%nat)) /\ board ld0 h' = []) /\
  executes alone ld0 hist1 (cli id_order [] ["laod"; "x"]) hist1 (Some ([Usage], 1%nat)).
Proof.
  repeat split; try (eexists; split; [apply (drive_ends ld0 envs []); vm_compute; reflexivity | vm_compute; reflexivity]).
  - eexists. apply (drive_ends ld0 envs []). vm_compute. reflexivity.
  - cbn. constructor.
Qed.
Example C132_unique : makes_unique (nodup string_dec).
Proof. intros l. split; [apply NoDup_nodup | intros x; apply nodup_In]. Qed.
