(** Property theorems about rqt_controller_manager. *)
From Coq Require Import Ascii Permutation Lia.
From Verif Require Import HwTypes Lifecycle ConflictModel CMModel CMSpec CMFinal PropsCM UtilsModel UtilsSpec UtilsProofs ScriptModel ScriptSpec ScriptRun PropsScript PropsUtils RqtModel RqtSpec RqtProofs RqtMenu.
Local Open Scope string_scope.
Local Open Scope list_scope.

(** * C102: the list of managers *)

(** What update_combo does to a box, and the signal it emits. *)
Theorem C102_update_combo c new c' signal : valid c -> ~ In "" new -> update_combo c new = (c', signal) ->
  valid c' /\ (Permutation (cb_items c) new /\ c' = c \/ ~ Permutation (cb_items c) new /\ cb_items c' = new) /\
  match selected c with
  | Some v => In v new /\ selected c' = Some v /\ signal = None \/ ~ In v new /\ selected c' = None /\ signal = Some ""
  | None => selected c' = None /\ signal = None
  end.
Proof. apply update_combo_spec. Qed.
Print Assumptions C102_update_combo.
Example C102_example :
  let c := mkCombo ["/a"; "/b"; "/c"] (Some 1%nat) in
  valid c /\ update_combo c ["/c"; "/a"; "/b"] = (c, None) /\
  update_combo c ["/0"; "/1"; "/b"] = (mkCombo ["/0"; "/1"; "/b"] (Some 2%nat), None) /\
  update_combo c ["/a"; "/c"] = (mkCombo ["/a"; "/c"] None, Some "") /\
  update_combo (mkCombo [] None) ["/a"] = (mkCombo ["/a"] None, None).
Proof. cbv zeta. split; [intros i [= <-]; cbn; lia|]. vm_compute. auto. Qed.
(** In the plugin: after each look for managers the box holds exactly those found, and the manager selected before is still selected if it
    is among them; otherwise none is. *)
Theorem C102_managers l srvs types a :
  let found := get_controller_managers srvs types (pl_known (plugin_after l)) in
  let c := pl_combo (plugin_after l) in
  let c' := pl_combo (plugin_after (l ++ [CmTimer srvs types a])) in
  Permutation (cb_items c') found /\ (forall m, selected c' = Some m <-> selected c = Some m /\ In m found) /\
  pl_known (plugin_after (l ++ [CmTimer srvs types a])) = found.
Proof.
  cbv zeta. rewrite (proj1 (after_snoc l (CmTimer srvs types a))). cbn [gui_step]. set (p := plugin_after l). pose proof (connected_after l : connected p) as K.
  unfold update_cm_list. destruct (update_combo (pl_combo p) (get_controller_managers srvs types (pl_known p))) as [c s] eqn:E.
  assert (Q : forall p' s, pl_combo (fst (notify p' s a)) = pl_combo p' /\ pl_known (fst (notify p' s a)) = pl_known p').
  { intros p' s'. destruct s' as [t|]; cbn [notify]; [|auto]. unfold on_cm_change. destruct (negb _); [|auto].
    destruct (update_controllers_keeps (with_manager p' t (Some t)) a) as (-> & -> & _). auto. }
  destruct (Q (with_combo p c (get_controller_managers srvs types (pl_known p))) s) as [-> ->]. cbn [with_combo pl_combo pl_known].
  destruct (C102_update_combo _ _ _ _ (co_valid p K) (found_nonempty _ _ _) E) as (V & I & S).
  split; [destruct I as [[I ->]|[_ ->]]; [exact I | reflexivity]|]. split; [|reflexivity]. intros m.
  destruct (selected (pl_combo p)) as [v|].
  - destruct S as [(I1 & -> & _)|(I1 & -> & _)]; split; try discriminate.
    + intros [= <-]. auto.
    + intros [X _]. exact X.
    + intros [[= <-] X]. contradiction.
  - destruct S as [-> _]. split; [discriminate | intros [X _]; discriminate X].
Qed.
Print Assumptions C102_managers.
(** When a saved session is restored, the box holds the managers found, and the saved one is selected if it is among them. *)
Theorem C102_restored l srvs types saved a a' : pl_menu (plugin_after l) = None ->
  let found := get_controller_managers srvs types (pl_known (plugin_after l)) in
  let c := pl_combo (plugin_after l) in
  let c' := pl_combo (plugin_after (l ++ [Restore srvs types saved a a'])) in
  Permutation (cb_items c') found /\
  forall m, selected c' = Some m <->
    In m found /\ (saved = Some m \/ (forall s, saved = Some s -> ~ In s found) /\ selected c = Some m).
Proof.
  intros M. cbv zeta. pose proof (C102_managers l srvs types a) as T. cbv zeta in T. rewrite (proj1 (after_snoc l (CmTimer srvs types a))) in T. cbn [gui_step] in T.
  rewrite (proj1 (after_snoc l (Restore srvs types saved a a'))). cbn [gui_step]. rewrite M. unfold restore_settings.
  destruct (update_cm_list (plugin_after l) srvs types a) as [p1 d1]. cbn [fst] in T. destruct T as (P & S & _).
  set (found := get_controller_managers srvs types (pl_known (plugin_after l))) in *.
  destruct saved as [s|]; [|cbn [fst]; split; [exact P|]; intros m; rewrite S; split; [intros [A B]; split; [exact B|right; split; [intros ? X; discriminate X|exact A]]|intros [B [X|[_ A]]]; [discriminate X|auto]]].
  destruct (index_of s (cb_items (pl_combo p1))) as [i|] eqn:I.
  - assert (N : nth_error (cb_items (pl_combo p1)) i = Some s) by (exact (proj1 (index_of_some _ _ _ I))).
    assert (L : (i < List.length (cb_items (pl_combo p1)))%nat) by (apply nth_error_Some; congruence).
    unfold select_index. destruct (set_index (pl_combo p1) (Some i)) as [c sg] eqn:E.
    assert (Ec : c = mkCombo (cb_items (pl_combo p1)) (Some i)) by (unfold set_index in E; apply Nat.ltb_lt in L; rewrite L in E; now injection E as <- _).
    assert (Q : forall p' s, pl_combo (fst (notify p' s a')) = pl_combo p').
    { intros p' s'. destruct s' as [t|]; cbn [notify]; [|auto]. unfold on_cm_change. destruct (negb _); [|auto].
      exact (proj1 (update_controllers_keeps (with_manager p' t (Some t)) a')). }
    pose proof (Q (with_combo p1 c (pl_known p1)) sg) as Q'. destruct (notify (with_combo p1 c (pl_known p1)) sg a') as [p2 d2]. cbn [fst] in Q' |- *. rewrite Q'. cbn [with_combo pl_combo]. subst c. cbn [cb_items].
    split; [exact P|]. intros m. unfold selected. cbn [cb_cur cb_items]. rewrite N.
    assert (Is : In s found) by (eapply Permutation_in; [exact P|]; eapply nth_error_In; exact N).
    split; [intros [= <-]; auto|]. intros [_ [X|[X _]]]; [exact X|]. destruct (X s eq_refl Is).
  - cbn [fst]. split; [exact P|]. assert (Ns : ~ In s found).
    { intros Is. apply (Permutation_in _ (Permutation_sym P)) in Is. revert Is. now apply index_of_none. }
    intros m. rewrite S. split; [intros [A B]; split; [exact B|right]; split; [intros ? [= <-]; exact Ns|exact A]|].
    intros [B [[= ->]|[_ A]]]; [contradiction|auto].
Qed.
Print Assumptions C102_restored.

(** * C103: actions reach the right manager *)

(** At any time the lister and the service proxies belong to the manager that the box shows as selected, or there are none if none is. *)
Theorem C103_connected l : let p := plugin_after l in
  pl_lister p = selected (pl_combo p) /\ pl_services p = selected (pl_combo p) /\ pl_table p = pl_controllers p.
Proof. destruct (connected_after l); auto. Qed.
Print Assumptions C103_connected.
(** Their services are those of the manager; the lister's for a manager whose name is that of a namespace: the root, or
    non-empty parts, each after a slash. *)
Definition rooted (m : string) : Prop :=
  m = "/" \/ exists parts, parts <> [] /\ Forall (fun p => p <> "" /\ no_slash p) parts /\ m = ("/" ++ String.concat "/" parts)%string.
Lemma split_concat parts : parts <> [] -> Forall no_slash parts -> split_slash (String.concat "/" parts) = parts.
Proof.
  induction parts as [|p ps IH]; intros Hn F; [congruence|]. inversion_clear F as [|? ? Hp Hps]. destruct ps as [|q ps]; cbn [String.concat].
  - now apply split_slash_plain.
  - rewrite split_slash_app by exact Hp. f_equal. apply IH; [discriminate|exact Hps].
Qed.
Lemma canonical_rooted parts : parts <> [] -> Forall (fun p => p <> "" /\ no_slash p) parts ->
  canonical ("/" ++ String.concat "/" parts) = ("/" ++ String.concat "/" parts)%string.
Proof.
  intros Hn F. assert (Fs : Forall no_slash parts) by (eapply Forall_impl; [|exact F]; cbn; tauto).
  assert (Ff : filter (fun x => negb (String.eqb x "")) parts = parts).
  { clear Hn Fs. induction F as [|x l [Hx _] F IH]; [reflexivity|]. cbn [filter]. destruct (String.eqb_spec x ""); [contradiction|]. cbn [negb]. now rewrite IH. }
  assert (E : split_slash ("/" ++ String.concat "/" parts) = "" :: parts) by (cbn; f_equal; now apply split_concat).
  unfold canonical. rewrite E. cbn [append]. change (filter (fun x => negb (String.eqb x "")) ("" :: parts)) with (filter (fun x => negb (String.eqb x "")) parts).
  rewrite Ff. reflexivity.
Qed.
Lemma concat_snoc parts q : parts <> [] -> (String.concat "/" parts ++ "/" ++ q)%string = String.concat "/" (parts ++ [q]).
Proof.
  induction parts as [|p ps IH]; intros Hn; [congruence|]. destruct ps as [|p' ps]; [reflexivity|].
  specialize (IH ltac:(discriminate)). cbn [String.concat app] in IH |- *. rewrite sapp_assoc. f_equal. cbn [append]. f_equal. exact IH.
Qed.
Lemma split_last r : exists l, split_slash (r ++ "/") = l ++ [""].
Proof.
  induction r as [|c r [l IH]]; [exists [""]; reflexivity|]. cbn [append split_slash]. rewrite IH. destruct (Ascii.eqb c slash); [exists ("" :: l); reflexivity|].
  destruct l as [|p l]; [|exists (String c p :: l); reflexivity]. exfalso. cbn in IH. clear -IH. destruct r as [|d r]; cbn in IH; [discriminate IH|].
  destruct (Ascii.eqb d slash); [|destruct (split_slash (r ++ "/")); discriminate IH]. injection IH as IH. destruct (r ++ "/")%string; cbn in IH; [discriminate IH|]. destruct (Ascii.eqb a slash); [|destruct (split_slash s)]; discriminate IH.
Qed.
Theorem C103_services m :
  (proper m -> plugin_services m = [service_at m "load_controller"; service_at m "unload_controller"; service_at m "switch_controller"]) /\
  (rooted m -> proper m /\ canonical (lister_service m) = service_at m "list_controllers").
Proof.
  split; [intros P; unfold plugin_services, append_ns; now rewrite !service_name|].
  unfold lister_service, service_at. intros [-> | (parts & Hn & F & ->)]; [split; [left|]; reflexivity|]. split.
  - right. split; [discriminate|]. intros [r E]. destruct (split_last r) as [l El]. rewrite <- E in El.
    assert (Fs : Forall no_slash parts) by (eapply Forall_impl; [|exact F]; cbn; tauto).
    assert (Ep : "" :: parts = l ++ [""]) by (rewrite <- El; cbn; f_equal; symmetry; now apply split_concat).
    destruct l as [|x l]; [destruct parts; [congruence|discriminate Ep]|]. injection Ep as _ Ep. rewrite Ep, Forall_app in F. destruct F as [_ F]. inversion_clear F as [|? ? [Hx _] _]. now apply Hx.
  - destruct (String.eqb_spec ("/" ++ String.concat "/" parts) "/") as [E|_].
    + destruct parts as [|p ps]; [congruence|]. inversion_clear F as [|? ? [Hp _] _]. cbn in E. injection E as E.
      destruct ps; cbn [String.concat] in E; [contradiction|]. destruct p; [contradiction|discriminate E].
    + change (("/" ++ String.concat "/" parts) ++ "/" ++ "list_controllers")%string with ("/" ++ (String.concat "/" parts ++ "/" ++ "list_controllers"))%string.
      rewrite concat_snoc by exact Hn. apply canonical_rooted; [now destruct parts|]. apply Forall_app. split; [exact F|]. constructor; [|constructor].
      split; [discriminate|]. intros H; cbn in H. repeat (destruct H as [H|H]; [discriminate H|]). exact H.
Qed.
Print Assumptions C103_services.
Example C103_services_example : rooted "/robot/arm" /\ rooted "/" /\ lister_service "/" = "//list_controllers" /\
  canonical (lister_service "/") = "/list_controllers" /\ canonical (lister_service "/robot/arm") = "/robot/arm/list_controllers".
Proof.
  split; [|split; [now left|repeat split]]. right. exists ["robot"; "arm"]. split; [discriminate|]. split; [|reflexivity].
  repeat constructor; try discriminate; intros H; cbn in H; repeat (destruct H as [H|H]; [discriminate H|]); exact H.
Qed.
(** As long as no refresh has raised, an action is carried out by the manager from which the row was read: the menu
    was opened on a row of the latest refresh at that time, and this was one of the manager's. *)
Theorem C103_right_manager l d1 m row calls d2 : deeds l = d1 ++ Acted m row calls :: d2 -> ~ In RefreshRaised d1 ->
  exists e1 rows e2 e3, d1 = e1 ++ Listed m rows :: e2 ++ Opened row :: e3 /\ In row rows /\
    Forall (fun x => ~ is_listed x) e2 /\ Forall (fun x => ~ is_opened x) e3.
Proof.
  intros E NR. destruct (act_split _ _ _ _ _ _ E) as (l1 & a & l2 & -> & <- & M & S & _).
  destruct (so_menu _ _ (sourced_after l1 NR) row M) as (m' & F & Ne & Q).
  assert (X : m' = m); [|subst m'; exact F]. destruct (connected_after l1) as [_ _ A _ C _]. rewrite S in C. rewrite <- C in A. cbn in A.
  destruct Q as [Q|Q]; [congruence|]. exfalso. rewrite A in Q. subst m.
  destruct (connected_after l1) as [_ N _ _ _ _]. apply N. apply selected_in. now symmetry.
Qed.
Print Assumptions C103_right_manager.

(** For the examples: two managers, /m1 and /m2. *)
Definition types2 (n : string) : option string :=
  match find (fun s => String.eqb n ("/m1/" ++ fst s) || String.eqb n ("/m2/" ++ fst s)) cm_services with Some s => Some (snd s) | None => None end.
Definition srvs2 : option (list string) := Some ["/m2/list_controllers"; "/m1/list_controllers"].
Definition answer (l : list lc_entry) (params : option (list string)) : answers := mkAnswers (Some l) None params (fun _ => Some "pkg/T").
Example C102_restored_example :
  let after saved := pl_combo (plugin_after [Restore srvs2 types2 saved (answer [] None) (answer [] (Some []))]) in
  after (Some "/m2") = mkCombo ["/m1"; "/m2"] (Some 1%nat) /\ after (Some "/m3") = mkCombo ["/m1"; "/m2"] None /\ after None = mkCombo ["/m1"; "/m2"] None.
Proof. vm_compute. auto. Qed.
Example C103_example :
  let l := [CmTimer srvs2 types2 (answer [] None); Select 0 (answer [arm; hand] (Some [])); Click (Some 0%nat); CtrlTimer (answer [hand] (Some []));
            Choose (Some Stop); Select 1 (answer [cam] (Some [])); Click (Some 0%nat); Choose (Some StopAndUnload)] in
  deeds l = [Listed "/m1" [arm; hand]; Opened arm; Listed "/m1" [hand]; Acted "/m1" arm (once (rqt_stop "arm"));
             Listed "/m2" [cam]; Opened cam; Acted "/m2" cam (twice (rqt_stop "camera") (rqt_unload "camera"))] /\
  cb_items (pl_combo (plugin_after l)) = ["/m1"; "/m2"] /\ selected (pl_combo (plugin_after l)) = Some "/m2".
Proof. vm_compute. auto. Qed.
(** If a refresh raises when another manager is selected (the parameter server does not answer, or a parameter has just been removed), the rows of the old manager stay,
    and actions on them are carried out by the new one. *)
Theorem C103_stale_rows_refuted :
  exists l d1 m row calls d2, deeds l = d1 ++ Acted m row calls :: d2 /\ forall rows, In (Listed m rows) (deeds l) -> ~ In row rows.
Proof.
  exists [CmTimer srvs2 types2 (answer [] None); Select 0 (answer [arm; hand] (Some [])); Select 1 (answer [cam] None); Click (Some 0%nat); Choose (Some StopAndUnload)].
  exists [Listed "/m1" [arm; hand]; RefreshRaised; Opened arm], "/m2", arm. eexists. exists []. split; [vm_compute; reflexivity|].
  intros rows H. vm_compute in H. repeat destruct H as [H|H]; try discriminate H. contradiction H.
Qed.
Print Assumptions C103_stale_rows_refuted.

(** * C104: the rows *)
Theorem C104_rows p a m ns g params rows :
  pl_ns p = m -> starts_with_slash m -> parent m ns -> global_prefix ns g -> an_params a = Some params -> NoDup params ->
  list_controllers p a = Some rows ->
  exists loaded l,
    rows = loaded ++ l /\
    (an_first a = Some loaded \/ an_first a = None /\ (an_second a = Some loaded \/ an_second a = None /\ loaded = [])) /\
    NoDup (map en_name l) /\ ordered (map en_name l) /\
    (forall n, In n (map en_name l) <-> no_slash n /\ In (g ++ n ++ "/type")%string params /\ ~ In n (map en_name loaded)) /\
    (forall e, In e l -> en_state e = "uninitialized" /\ en_claims e = [] /\ an_value a (g ++ en_name e ++ "/type")%string = Some (en_type e)).
Proof.
  intros En Sl P G Ep Np E. unfold list_controllers in E. rewrite En, Ep in E. destruct (String.eqb_spec m "") as [->|_]; [destruct Sl as [r X]; discriminate X|].
  rewrite (resolve_parent _ _ P) in E. destruct (C74_names params ns g G) as (names & E1 & O & I & N). rewrite E1 in E. specialize (N Np).
  destruct (add_configured_spec _ _ _ _ _ E N) as (l & -> & M & T). exists (call_lister a), l. split; [reflexivity|]. split.
  { unfold call_lister. destruct (an_first a); [now left|]. destruct (an_second a); auto. }
  rewrite M. split; [now apply NoDup_filter|]. split.
  { unfold ordered in *. clear -O. induction O; cbn; [constructor|]. destruct (negb _); [|assumption]. constructor; [assumption|].
    rewrite Forall_forall in *. intros x Hx. apply filter_In in Hx as [Hx _]. auto. }
  split.
  - intros n. rewrite filter_In, I, negb_true_iff, ScriptProofs.isin_false. tauto.
  - intros e He. destruct (T e He) as (T1 & T2 & T3). rewrite (type_param_global ns g) in T3; auto. eapply parent_starts; eassumption.
Qed.
Print Assumptions C104_rows.
(** When a refresh takes place: each time the timer expires, and when another manager is selected.  It shows what it has read from the selected manager, or
    nothing if none is selected; if it raises, the rows stay. *)
Theorem C104_refresh l a :
  let p := plugin_after l in
  let p' := plugin_after (l ++ [CtrlTimer a]) in
  (match list_controllers p a return Prop with
   | Some rows => deeds (l ++ [CtrlTimer a]) = deeds l ++ [Listed (pl_ns p) rows] /\ pl_table p' = rows
   | None => deeds (l ++ [CtrlTimer a]) = deeds l ++ [RefreshRaised] /\ pl_table p' = pl_table p
   end) /\
  (match selected (pl_combo p) return Prop with Some m => pl_ns p = m /\ m <> "" | None => pl_ns p = "" /\ list_controllers p a = Some [] end).
Proof.
  cbv zeta. destruct (after_snoc l (CtrlTimer a)) as [-> ->]. cbn [gui_step]. set (p := plugin_after l). pose proof (connected_after l : connected p) as K. split.
  - unfold update_controllers. destruct (list_controllers p a) as [rows|]; [|auto]. cbn [fst snd]. split; [reflexivity|].
    destruct (list_eq_dec entry_dec (pl_controllers p) rows) as [<-|]; [apply co_table, K | reflexivity].
  - pose proof (co_ns p K) as N. destruct (selected (pl_combo p)) as [m|] eqn:S; cbn [text] in N.
    + split; [exact N|]. intros ->. apply (co_nonempty p K). now apply selected_in.
    + split; [exact N|]. unfold list_controllers. now rewrite N.
Qed.
Print Assumptions C104_refresh.
Theorem C104_selected l i a m : pl_menu (plugin_after l) = None -> nth_error (cb_items (pl_combo (plugin_after l))) i = Some m ->
  selected (pl_combo (plugin_after l)) <> Some m ->
  let p' := plugin_after (l ++ [Select i a]) in
  selected (pl_combo p') = Some m /\
  ((exists rows, deeds (l ++ [Select i a]) = deeds l ++ [Listed m rows] /\ pl_table p' = rows /\ list_controllers p' a = Some rows) \/
   deeds (l ++ [Select i a]) = deeds l ++ [RefreshRaised] /\ list_controllers p' a = None).
Proof.
  intros M N S. cbv zeta. destruct (after_snoc l (Select i a)) as [-> ->]. cbn [gui_step]. rewrite M. set (p := plugin_after l) in *.
  pose proof (connected_after l : connected p) as K. unfold select_index.
  assert (L : (i < List.length (cb_items (pl_combo p)))%nat) by (apply nth_error_Some; congruence).
  assert (E : set_index (pl_combo p) (Some i) = (mkCombo (cb_items (pl_combo p)) (Some i), Some m)).
  { unfold set_index. apply Nat.ltb_lt in L. rewrite L. f_equal. replace (current_text _) with m by (unfold current_text; cbn; rewrite ?N; now apply nth_error_nth with (d := "") in N).
    destruct (cb_cur (pl_combo p)) as [j|] eqn:Ej; [|reflexivity]. destruct (Nat.eqb_spec j i) as [->|]; [|reflexivity]. exfalso. apply S. unfold selected. now rewrite Ej. }
  rewrite E. cbn [notify]. unfold on_cm_change.
  assert (Nm : m <> "") by (intros ->; apply (co_nonempty p K); eapply nth_error_In; exact N).
  apply String.eqb_neq in Nm. rewrite Nm. cbn [negb].
  set (q := with_manager (with_combo p (mkCombo (cb_items (pl_combo p)) (Some i)) (pl_known p)) m (Some m)).
  destruct (update_controllers_keeps q a) as (E1 & _ & E3 & _). split; [rewrite E1; exact N|].
  assert (LC : list_controllers (fst (update_controllers q a)) a = list_controllers q a) by (unfold list_controllers; now rewrite E3).
  rewrite LC. unfold update_controllers. destruct (list_controllers q a) as [rows|]; [left | right; auto]. exists rows. cbn [fst snd].
  split; [reflexivity|]. split; [|reflexivity]. destruct (list_eq_dec entry_dec (pl_controllers q) rows) as [<-|]; [exact (co_table p K) | reflexivity].
Qed.
Print Assumptions C104_selected.
(** When a refresh raises. *)
Theorem C104_raises p a m ns g :
  pl_ns p = m -> starts_with_slash m -> parent m ns -> global_prefix ns g -> (forall params, an_params a = Some params -> NoDup params) ->
  (list_controllers p a = None <->
   an_params a = None \/
   exists params n, an_params a = Some params /\ no_slash n /\ In (g ++ n ++ "/type")%string params /\ ~ In n (map en_name (call_lister a)) /\ an_value a (g ++ n ++ "/type")%string = None).
Proof.
  intros En Sl P G Np. unfold list_controllers. rewrite En. destruct (String.eqb_spec m "") as [->|_]; [destruct Sl as [r X]; discriminate X|].
  rewrite (resolve_parent _ _ P). destruct (an_params a) as [params|] eqn:Ep; [|tauto].
  destruct (C74_names params ns g G) as (names & E1 & O & I & N). rewrite E1. specialize (N (Np _ eq_refl)).
  assert (St : starts_with_slash ns) by (eapply parent_starts; eassumption). rewrite (add_configured_none _ _ _ _ N). split.
  - intros (n & H1 & H2 & H3). right. exists params, n. apply I in H1 as [H1 H1']. rewrite (type_param_global ns g) in H3; auto.
  - intros [X|(ps & n & [= <-] & H1 & H2 & H3 & H4)]; [discriminate X|]. exists n. rewrite I, (type_param_global ns g); auto.
Qed.
Print Assumptions C104_raises.
Example C104_example :
  let p := plugin_after [CmTimer (Some ["/r/m/list_controllers"]) (fun n => types1 ("/foo" ++ substring 4 (String.length n) n)) (answer [] None); Select 0 (answer [] (Some []))] in
  pl_ns p = "/r/m" /\ starts_with_slash "/r/m" /\ parent "/r/m" "/r" /\ global_prefix "/r" "/r/" /\
  list_controllers p (answer [hand; arm] (Some ["/r/z/type"; "/r/hand/type"; "/r/b/type"; "/r/b/x/type"; "/q/type"])) =
    Some [hand; arm; mkEntry "b" "pkg/T" [] "uninitialized"; mkEntry "z" "pkg/T" [] "uninitialized"] /\
  list_controllers p (mkAnswers None None (Some ["/r/b/type"]) (fun _ => None)) = None.
Proof.
  cbv zeta. split; [vm_compute; reflexivity|]. split; [now exists "r/m"|]. split.
  { exists "/r", "m". split; [reflexivity|]. split; [vm_compute; intuition discriminate|]. left. split; [discriminate | reflexivity]. }
  split; [exact (global_ns_spec "/r")|]. split; vm_compute; reflexivity.
Qed.
(** A manager that does not answer twice: its running controllers appear as uninitialized. *)
Theorem C104_unreachable_refuted :
  exists ls h p a rows, In ("a", PStarted) (board ls h) /\ pl_ns p = "/m1" /\ list_controllers p a = Some rows /\ exists e, In e rows /\ en_name e = "a" /\ en_state e = "uninitialized".
Proof.
  exists ld0, hist1, (plugin_after [CmTimer srvs2 types2 (answer [] None); Select 0 (answer [] (Some []))]), (mkAnswers None None (Some ["/a/type"]) (fun _ => Some "T")).
  exists [mkEntry "a" "T" [] "uninitialized"]. split; [vm_compute; auto|]. split; [vm_compute; reflexivity|]. split; [vm_compute; reflexivity|]. eexists. split; [now left|]. auto.
Qed.
Print Assumptions C104_unreachable_refuted.

(** * C105: what the context menu does *)

(** An action is one that the menu offers for the state shown in the row.  Executed by a manager, with nobody else calling it meanwhile, it has the
    effect that its text says, on the controller with the name in the row, whatever its state is by then; other controllers stay as they are. *)
Theorem C105_menu l m row calls : In (Acted m row calls) (deeds l) ->
  (forall l1 a l2, l = l1 ++ Choose (Some a) :: l2 -> pl_menu (plugin_after l1) = Some row -> In a (menu_entries (en_state row))) ->
  exists a, offers (en_state row) a /\
    forall ls h h' r, calm ls h -> executes alone ls h calls h' (Some r) ->
      calm ls h' /\ menu_effect a (en_name row) (board ls h) (board ls h') (objection ls h h') (load_refused ls h h') /\
      forall n p, n <> en_name row -> (In (n, p) (board ls h') <-> In (n, p) (board ls h)).
Proof.
  intros H O. apply in_split in H as (d1 & d2 & H). destruct (act_split _ _ _ _ _ _ H) as (l1 & a & l2 & -> & _ & M & _ & Q).
  specialize (O l1 a l2 eq_refl M). exists a.
  assert (F : offers (en_state row) a).
  { clear -O. unfold menu_entries in O. destruct (String.eqb_spec (en_state row) "running") as [->|_]; [destruct O as [<-|[<-|[]]]; constructor|].
    destruct (String.eqb_spec (en_state row) "stopped") as [->|_]; [destruct O as [<-|[<-|[]]]; constructor|].
    destruct (String.eqb_spec (en_state row) "initialized") as [->|_]; [destruct O as [<-|[<-|[]]]; constructor|].
    destruct (String.eqb_spec (en_state row) "uninitialized") as [->|_]; [destruct O as [<-|[<-|[]]]; constructor | destruct O]. }
  split; [exact F|]. intros ls h h' r C E. destruct (menu_calls_effect ls _ _ _ _ _ _ _ Q F E C) as [C' X].
  split; [exact C'|]. split; [exact X|]. intros n p Ne. eapply menu_effect_others; eassumption.
Qed.
Print Assumptions C105_menu.
(** And what is chosen is done: by the manager selected at that time, if one is. *)
Theorem C105_obeyed l row a m : pl_menu (plugin_after l) = Some row -> offers (en_state row) a -> selected (pl_combo (plugin_after l)) = Some m ->
  exists calls, deeds (l ++ [Choose (Some a)]) = deeds l ++ [Acted m row calls] /\ pl_menu (plugin_after (l ++ [Choose (Some a)])) = None /\
    forall ls h h' r, calm ls h -> executes alone ls h calls h' (Some r) ->
      calm ls h' /\ menu_effect a (en_name row) (board ls h) (board ls h') (objection ls h h') (load_refused ls h h').
Proof.
  intros M O S. destruct (after_snoc l (Choose (Some a))) as [-> ->]. cbn [gui_step]. unfold close_menu. rewrite M.
  assert (Q : exists calls, menu_calls (en_state row) (en_name row) a = Some calls) by (destruct O; eexists; reflexivity).
  destruct Q as [calls Q]. rewrite Q, (co_services _ (connected_after l)), S. exists calls. cbn [fst snd with_menu pl_menu]. split; [reflexivity|]. split; [reflexivity|].
  intros ls h h' r C E. exact (menu_calls_effect ls _ _ _ _ _ _ _ Q O E C).
Qed.
Print Assumptions C105_obeyed.
(** A click on a row opens a menu for the controller in that row. *)
Theorem C105_click l k row : pl_menu (plugin_after l) = None -> nth_error (pl_table (plugin_after l)) k = Some row ->
  deeds (l ++ [Click (Some k)]) = deeds l ++ [Opened row] /\ pl_menu (plugin_after (l ++ [Click (Some k)])) = Some row.
Proof.
  intros M N. destruct (after_snoc l (Click (Some k))) as [-> ->]. cbn [gui_step]. rewrite M. unfold open_menu.
  assert (L : (k < List.length (pl_table (plugin_after l)))%nat) by (apply nth_error_Some; congruence). apply Nat.ltb_lt in L. rewrite L.
  rewrite <- (co_table _ (connected_after l)), N. auto.
Qed.
Print Assumptions C105_click.
(** The menu offers exactly these entries. *)
Theorem C105_entries st a : In a (menu_entries st) <-> offers st a.
Proof.
  split; [|intros []; cbn; auto]. unfold menu_entries. intros O.
  destruct (String.eqb_spec st "running") as [->|_]; [destruct O as [<-|[<-|[]]]; constructor|].
  destruct (String.eqb_spec st "stopped") as [->|_]; [destruct O as [<-|[<-|[]]]; constructor|].
  destruct (String.eqb_spec st "initialized") as [->|_]; [destruct O as [<-|[<-|[]]]; constructor|].
  destruct (String.eqb_spec st "uninitialized") as [->|_]; [destruct O as [<-|[<-|[]]]; constructor | destruct O].
Qed.
Print Assumptions C105_entries.
(** "Stop and Unload" for a running controller, "Load and Start" for a new one, and "Load and Start" on a row that is out of date: the controller, loaded and stopped meanwhile, is started. *)
Example C105_example :
  (exists calls h', menu_calls "running" "a" StopAndUnload = Some calls /\ executes alone ld0 hist1 calls h' (Some [true; true]) /\
     board ld0 h' = [("b", PLoaded); ("c", PLoaded)]) /\
  (exists calls h', menu_calls "uninitialized" "x" LoadAndStart = Some calls /\ executes alone ld0 hist1 calls h' (Some [true; true]) /\
     board ld0 h' = [("a", PStarted); ("b", PLoaded); ("c", PLoaded); ("x", PStarted)]) /\
  (exists calls h', menu_calls "uninitialized" "b" LoadAndStart = Some calls /\ executes alone ld0 hist1 calls h' (Some [false; true]) /\
     board ld0 h' = [("a", PStarted); ("b", PStarted); ("c", PLoaded)]).
Proof.
  split; [|split]; eexists; eexists; (split; [reflexivity|]); (split; [apply (drive_ends ld0 envs []); vm_compute; reflexivity | vm_compute; reflexivity]).
Qed.

(** * C106: which states the plugin can show *)

(** A row that a manager reports has an icon and menu entries exactly if the controller does not wait for the hardware and has not been
    aborted. *)
Theorem C106_icons ls h rows e : idle ls h -> reply ls h ListControllers = AList rows -> In e rows ->
  (icon (en_state e) <> None <-> en_state e <> "waiting" /\ en_state e <> "aborted") /\
  (menu_entries (en_state e) <> [] <-> en_state e <> "waiting" /\ en_state e <> "aborted").
Proof.
  intros I E H. destruct (C22_list_controllers ls h I) as (E' & K). rewrite E' in E. injection E as <-. specialize (K e H).
  unfold report in H. apply in_map_iff in H as (c & <- & _). cbn [en_state] in *. destruct (phase_of _ _); cbn in *; try congruence; repeat split; intros; try congruence; tauto.
Qed.
Print Assumptions C106_icons.
(** Rows for configurations that are not loaded always have them. *)
Example C106_example : icon "uninitialized" <> None /\ menu_entries "uninitialized" <> [] /\
  reply ld0 hist1 ListControllers = AList (report (trace ld0 hist1)) /\ map (fun e => icon (en_state e)) (report (trace ld0 hist1)) = [Some "led_green.png"; Some "led_red.png"; Some "led_red.png"].
Proof. split; [discriminate|]. split; [discriminate|]. vm_compute. auto. Qed.
(** Such controllers exist: then drawing the table raises (KeyError), and the controller can be neither started nor unloaded from the menu. *)
Theorem C106_no_icon_refuted :
  exists ls h rows e, idle ls h /\ reply ls h ListControllers = AList rows /\ In e rows /\ en_state e = "aborted" /\ icon (en_state e) = None /\ menu_entries (en_state e) = [].
Proof.
  exists ld0, (hist0 ++ [sw0 ["a"] [] STRICT false; Cycle 101 1 false hwE; Poll 0 true true]). eexists. eexists. split; [reflexivity|].
  split; [vm_compute; reflexivity|]. split; [now left|]. vm_compute. auto.
Qed.
Print Assumptions C106_no_icon_refuted.
