(** Facts about the sequential manager used to relate it to the interleaved one. *)
From Verif Require Import HwTypes Lifecycle CMModel CMSpec CMInv CMCycle CMLife FineModel FineSpec.

Lemma heq_refl h : heq h h. Proof. intros i; reflexivity. Qed.
Lemma heq_sym h h' : heq h h' -> heq h' h. Proof. intros E i; symmetry; apply E. Qed.
Lemma heq_trans h h' h'' : heq h h' -> heq h' h'' -> heq h h''. Proof. intros E F i; rewrite E; apply F. Qed.
Lemma heq_running h h' i : heq h h' -> is_running h i = is_running h' i.
Proof. intros E. unfold is_running. now rewrite E. Qed.

Lemma for_each_app {A} (f : heap -> A -> heap * list event) h l l' :
  for_each f h (l ++ l') = (fst (for_each f (fst (for_each f h l)) l'), snd (for_each f h l) ++ snd (for_each f (fst (for_each f h l)) l')).
Proof.
  revert h; induction l as [|a l IH]; intros h; cbn [app for_each].
  - cbn. destruct (for_each f h l'); reflexivity.
  - destruct (f h a) as [h1 e1]. rewrite IH. destruct (for_each f h1 l) as [h2 e2]; cbn [fst snd].
    destruct (for_each f h2 l') as [h3 e3]; cbn [fst snd]. now rewrite app_assoc.
Qed.
Lemma for_each_one {A} (f : heap -> A -> heap * list event) h a : for_each f h [a] = (fst (f h a), snd (f h a)).
Proof. cbn. destruct (f h a); cbn. now rewrite app_nil_r. Qed.

Lemma firstn_S {A} (l : list A) k a : nth_error l k = Some a -> firstn (S k) l = firstn k l ++ [a].
Proof.
  revert k; induction l as [|b l IH]; intros [|k] E; cbn in *; try discriminate E; [now injection E as ->|].
  f_equal. now apply IH.
Qed.
Lemma firstn_end {A} (l : list A) k : nth_error l k = None -> firstn k l = l.
Proof. intros E. apply firstn_all2. now apply nth_error_None. Qed.
Lemma skipn_S {A} (l : list A) k a : nth_error l k = Some a -> skipn k l = a :: skipn (S k) l.
Proof.
  revert k; induction l as [|b l IH]; intros [|k] E; cbn in *; try discriminate E; [now injection E as ->|]. now apply IH.
Qed.
Lemma skipn_end {A} (l : list A) k : nth_error l k = None -> skipn k l = [].
Proof. intros E. apply skipn_all2. now apply nth_error_None. Qed.

(** ** a cycle *)
Definition cyc_events (c : cyc) (h : heap) (l : list cspec) : list event :=
  (if c_reset c then reset_events (c_t c) h l else []) ++ upd_events (c_t c) (c_p c) h l.
Definition cyc_op (c : cyc) : op := Cycle (c_t c) (c_p c) (c_reset c) (c_hw c).

Lemma update_parts c m :
  exists h', heq h' (cm_heap m) /\
    update (c_t c) (c_p c) (c_reset c) (c_hw c) m =
      if sw_do (cm_sw m) then
        (fst (manage_switch (c_t c) (c_hw c) (set_heap m h')), cyc_events c (cm_heap m) (cm_list m) ++ snd (manage_switch (c_t c) (c_hw c) (set_heap m h')))
      else (set_heap m h', cyc_events c (cm_heap m) (cm_list m)).
Proof.
  unfold update, cyc_events. destruct (c_reset c).
  - destruct (reset_stage (c_t c) (cm_heap m) (cm_list m)) as [H1 H2].
    destruct (for_each (reset_body (c_t c)) (cm_heap m) (cm_list m)) as [h1 e1]; cbn [fst snd] in *. subst e1.
    rewrite update_stage, (upd_events_ext _ _ _ _ _ H1). exists h1. split; [exact H1|].
    cbn [set_heap cm_sw]. destruct (sw_do _); [|reflexivity]. destruct (manage_switch _ _ _); cbn. now rewrite app_assoc.
  - rewrite update_stage. exists (cm_heap m). split; [apply heq_refl|]. cbn [set_heap cm_sw app].
    destruct (sw_do _); [|reflexivity]. destruct (manage_switch _ _ _); reflexivity.
Qed.

Lemma cycle_quiet c m : sw_do (cm_sw m) = false ->
  exists h', heq h' (cm_heap m) /\ step m (cyc_op c) = (set_heap m h', cyc_events c (cm_heap m) (cm_list m), ANone).
Proof.
  intros E. destruct (update_parts c m) as (h' & Hh & U). rewrite E in U. exists h'. split; [exact Hh|].
  unfold step, cyc_op. now rewrite U.
Qed.

(** The events of the switching part and its effect, from any heap. *)
Definition do_event (m : cm) : list event := if sw_started (cm_sw m) then [] else [EvDo (cm_hwstart m) (cm_hwstop m)].
Definition stop_part (t : Z) (m : cm) (k : nat) : heap * list event := for_each (stop_body t) (cm_heap m) (firstn k (cm_stop m)).
Definition stopped (t : Z) (m : cm) : heap * list event := for_each (stop_body t) (cm_heap m) (cm_stop m).
Definition start_part (md : mode) (t : Z) (m : cm) (k : nat) : heap * list event :=
  for_each (mode_request md t) (fst (stopped t m)) (firstn k (cm_start m)).
Definition asap_part (t : Z) (hw : hw_answers) (m : cm) (k : nat) : heap * list event :=
  for_each (asap_outer t hw (cm_sw m) (cm_list m)) (fst (stopped t m)) (firstn k (combine (seq 0 (length (cm_start m))) (cm_start m))).

Lemma respects_mode md t : respects (mode_request md t).
Proof. destruct md; [apply respects_start|apply respects_abort|apply respects_wait]. Qed.
Lemma respects_each {A} (f : heap -> A -> heap * list event) l h h' : respects f -> heq h h' ->
  heq (fst (for_each f h l)) (fst (for_each f h' l)) /\ snd (for_each f h l) = snd (for_each f h' l).
Proof. apply for_each_respects. Qed.

(** A cycle that performs the whole of a switch by the waiting/starting/aborting loop. *)
Lemma cycle_start c m h e : sw_do (cm_sw m) = true -> sw_asap (cm_sw m) = false ->
  let md := start_mode (c_t c) (c_hw c) (cm_sw m) in
  heq h (fst (start_part md (c_t c) m (length (cm_start m)))) ->
  e = cyc_events c (cm_heap m) (cm_list m) ++ do_event m ++ snd (stopped (c_t c) m) ++ snd (start_part md (c_t c) m (length (cm_start m))) ->
  exists m', step m (cyc_op c) = (m', e, ANone) /\ heq h (cm_heap m') /\
    cm_list m' = cm_list m /\ cm_next m' = cm_next m /\ cm_start m' = cm_start m /\ cm_stop m' = cm_stop m /\ cm_hwstart m' = cm_hwstart m /\
    cm_hwstop m' = cm_hwstop m /\ cm_loaders m' = cm_loaders m /\ cm_call m' = cm_call m /\
    cm_sw m' = match md with MWait => sw_set_started (cm_sw m) | _ => sw_set_done (sw_set_started (cm_sw m)) end.
Proof.
  intros D A md Hh ->. destruct (update_parts c m) as (h' & Hq & U). rewrite D in U.
  unfold step, cyc_op. rewrite U.
  unfold start_part, stopped in Hh |- *. rewrite firstn_all in Hh |- *.
  unfold manage_switch. cbn [set_heap cm_sw cm_heap cm_stop cm_start cm_hwstart cm_hwstop cm_list cm_next cm_loaders cm_call]. rewrite A.
  unfold stop_controllers.
  destruct (respects_each (stop_body (c_t c)) (cm_stop m) h' (cm_heap m) (respects_stop_body _) Hq) as [E1 E2].
  destruct (for_each (stop_body (c_t c)) h' (cm_stop m)) as [h1 e1].
  destruct (for_each (stop_body (c_t c)) (cm_heap m) (cm_stop m)) as [h1' e1']; cbn [fst snd] in *. subst e1'.
  assert (F : start_controllers (c_t c) (c_hw c) (cm_sw m) h1 (cm_start m) =
              (for_each (mode_request md (c_t c)) h1 (cm_start m), match md with MWait => true | _ => false end)).
  { subst md. unfold start_controllers, start_mode. destruct (swstate_eqb (hw_all (c_hw c) 0) DONE); [reflexivity|]. destruct (_ || _); reflexivity. }
  rewrite F. clear F.
  destruct (respects_each (mode_request md (c_t c)) (cm_start m) h1 h1' (respects_mode _ _) E1) as [E3 E4].
  destruct (for_each (mode_request md (c_t c)) h1 _) as [h2 e2]. destruct (for_each (mode_request md (c_t c)) h1' _) as [h2' e2']; cbn [fst snd] in *. subst e2'.
  eexists. split; [reflexivity|]. cbn [cm_heap cm_list cm_next cm_start cm_stop cm_hwstart cm_hwstop cm_loaders cm_call cm_sw].
  split; [eapply heq_trans; [exact Hh|apply heq_sym; exact E3]|]. do 8 (split; [reflexivity|]).
  unfold sw_set_started, sw_set_done. destruct md; cbn; rewrite ?D, ?A; reflexivity.
Qed.

Lemma forallb_heq h h' l : heq h h' ->
  forallb (fun i => is_running h i || is_aborted h i) l = forallb (fun i => is_running h' i || is_aborted h' i) l.
Proof.
  intros E. induction l as [|i l IH]; cbn; [reflexivity|]. rewrite IH. unfold is_running, is_aborted. now rewrite (E i).
Qed.

(** The same for start_asap. *)
Lemma cycle_asap c m h e : sw_do (cm_sw m) = true -> sw_asap (cm_sw m) = true ->
  heq h (fst (asap_part (c_t c) (c_hw c) m (length (cm_start m)))) ->
  e = cyc_events c (cm_heap m) (cm_list m) ++ do_event m ++ snd (stopped (c_t c) m) ++ snd (asap_part (c_t c) (c_hw c) m (length (cm_start m))) ->
  exists m', step m (cyc_op c) = (m', e, ANone) /\ heq h (cm_heap m') /\
    cm_list m' = cm_list m /\ cm_next m' = cm_next m /\ cm_start m' = cm_start m /\ cm_stop m' = cm_stop m /\ cm_hwstart m' = cm_hwstart m /\
    cm_hwstop m' = cm_hwstop m /\ cm_loaders m' = cm_loaders m /\ cm_call m' = cm_call m /\
    cm_sw m' = if forallb (fun i => is_running h i || is_aborted h i) (cm_start m) then sw_set_done (sw_set_started (cm_sw m)) else sw_set_started (cm_sw m).
Proof.
  intros D A Hh ->. destruct (update_parts c m) as (h' & Hq & U). rewrite D in U.
  unfold step, cyc_op. rewrite U.
  unfold asap_part, stopped in Hh |- *. rewrite firstn_all2 in Hh |- * by (rewrite combine_length, seq_length; lia).
  unfold manage_switch. cbn [set_heap cm_sw cm_heap cm_stop cm_start cm_hwstart cm_hwstop cm_list cm_next cm_loaders cm_call]. rewrite A.
  unfold stop_controllers, start_controllers_asap.
  destruct (respects_each (stop_body (c_t c)) (cm_stop m) h' (cm_heap m) (respects_stop_body _) Hq) as [E1 E2].
  destruct (for_each (stop_body (c_t c)) h' (cm_stop m)) as [h1 e1].
  destruct (for_each (stop_body (c_t c)) (cm_heap m) (cm_stop m)) as [h1' e1']; cbn [fst snd] in *. subst e1'.
  rewrite asap_loop_for_each.
  destruct (respects_each (asap_outer (c_t c) (c_hw c) (cm_sw m) (cm_list m)) (combine (seq 0 (length (cm_start m))) (cm_start m)) h1 h1' (respects_asap_outer _ _ _ _) E1) as [E3 E4].
  destruct (for_each (asap_outer _ _ _ _) h1 _) as [h2 e2]. destruct (for_each (asap_outer _ _ _ _) h1' _) as [h2' e2']; cbn [fst snd] in *. subst e2'.
  eexists. split; [reflexivity|]. cbn [cm_heap cm_list cm_next cm_start cm_stop cm_hwstart cm_hwstop cm_loaders cm_call cm_sw].
  split; [eapply heq_trans; [exact Hh|apply heq_sym; exact E3]|]. do 8 (split; [reflexivity|]).
  rewrite (forallb_heq h h2) by (eapply heq_trans; [exact Hh|apply heq_sym; exact E3]).
  unfold sw_set_started, sw_set_done. destruct (forallb _ _); cbn; rewrite ?D, ?A; reflexivity.
Qed.

(** ** unloading, listing, switching depend on the states of the controllers only *)
Lemma unload_scan_heq h h' n l : heq h h' -> unload_scan h n l = unload_scan h' n l.
Proof.
  intros E. induction l as [|c l IH]; cbn; [reflexivity|]. now rewrite IH, (heq_running _ _ _ E).
Qed.
Lemma unload_scan_snoc h n l c :
  unload_scan h n (l ++ [c]) =
  match unload_scan h n l with
  | None => None
  | Some (to, r) => if String.eqb (ci_name (sp_info c)) n then if is_running h (sp_inst c) then None else Some (to, true) else Some (to ++ [c], r)
  end.
Proof.
  induction l as [|d l IH]; cbn [app unload_scan].
  - destruct (String.eqb _ _); [|reflexivity]. destruct (is_running _ _); reflexivity.
  - rewrite IH. destruct (unload_scan h n l) as [[to r]|]; cbn beta match.
    2:{ destruct (String.eqb (ci_name (sp_info d)) n); [destruct (is_running h (sp_inst d)); reflexivity|reflexivity]. }
    destruct (String.eqb (ci_name (sp_info d)) n), (is_running h (sp_inst d)), (String.eqb (ci_name (sp_info c)) n), (is_running h (sp_inst c)); reflexivity.
Qed.
Lemma unload_scan_none h n l l' : unload_scan h n l = None -> unload_scan h n (l ++ l') = None.
Proof.
  revert l; induction l' as [|c l' IH]; intros l E; [now rewrite app_nil_r|].
  change (c :: l') with ([c] ++ l'). rewrite app_assoc. apply IH. rewrite unload_scan_snoc. now rewrite E.
Qed.
Lemma unload_scan_incl h n l to r : unload_scan h n l = Some (to, r) -> incl to l.
Proof.
  revert to r; induction l as [|c l IH]; intros to r; cbn; [intros E; injection E as <- _; apply incl_refl|].
  destruct (String.eqb _ _).
  - destruct (is_running _ _); [discriminate|]. destruct (unload_scan h n l) as [[to' r']|] eqn:E; [|discriminate].
    intros F; injection F as <- _. apply incl_tl. eapply IH; reflexivity.
  - destruct (unload_scan h n l) as [[to' r']|] eqn:E; [|discriminate].
    intros F; injection F as <- _. apply incl_cons; [now left|]. apply incl_tl. eapply IH; reflexivity.
Qed.

Lemma dropped_incl l l' : incl l l' -> dropped l l' = [].
Proof.
  intros H. unfold dropped. replace (filter _ l) with (@nil cspec); [reflexivity|]. symmetry.
  assert (K : forall c, In c l -> negb (existsb (fun d => Nat.eqb (sp_inst c) (sp_inst d)) l') = false).
  { intros c Hc. rewrite (proj2 (existsb_exists _ _)); [reflexivity|]. exists c. split; [apply H; exact Hc|apply Nat.eqb_refl]. }
  clear H. induction l as [|c l IH]; cbn; [reflexivity|]. rewrite K by now left. apply IH. intros d Hd. apply K. now right.
Qed.

Definition entry (h : heap) (c : cspec) : lc_entry :=
  mkEntry (ci_name (sp_info c)) (ci_type (sp_info c)) (ci_claims (sp_info c)) (state_string h (sp_inst c)).
Lemma entry_heq h h' c : heq h h' -> entry h c = entry h' c.
Proof.
  intros E. unfold entry, state_string, is_initialized, is_running, is_stopped, is_waiting, is_aborted. now rewrite (E (sp_inst c)).
Qed.
Lemma entries_heq h h' l : heq h h' -> map (entry h) l = map (entry h') l.
Proof. intros E. apply map_ext. intros c. now apply entry_heq. Qed.

Lemma scan_heq strict h h' sr pr l : heq h h' -> forall i s p, scan strict h sr pr l i s p = scan strict h' sr pr l i s p.
Proof.
  intros E. induction l as [|c l IH]; intros i s p; cbn; [reflexivity|]. rewrite (heq_running _ _ _ E).
  repeat match goal with |- context [if ?b then ScanRefused _ _ else _] => destruct b; [reflexivity|] end. apply IH.
Qed.

Lemma switch_begin_frame a b st asap tmo now ck pr m m' :
  cm_list m = cm_list m' -> heq (cm_heap m) (cm_heap m') -> cm_start m = cm_start m' -> cm_stop m = cm_stop m' ->
  cm_hwstart m = cm_hwstart m' -> cm_hwstop m = cm_hwstop m' ->
  let r := switch_begin a b st asap tmo now ck pr KReturn m in let m1 := fst (fst r) in
  m1 = set_switch m (cm_sw m1) (cm_start m1) (cm_stop m1) (cm_hwstart m1) (cm_hwstop m1) (cm_call m1) /\
  switch_begin a b st asap tmo now ck pr KReturn m' =
    (set_switch m' (cm_sw m1) (cm_start m1) (cm_stop m1) (cm_hwstart m1) (cm_hwstop m1) (cm_call m1), snd (fst r), snd r) /\
  (snd r = true -> cm_call m1 = WaitSwitch tmo KReturn) /\ (snd r = false -> cm_call m1 = Idle /\ cm_sw m1 = sw_default) /\
  (snd r = true -> sw_do (cm_sw m1) = true).
Proof.
  intros El Eh Es Et E1 E2. unfold switch_begin. rewrite <- El, <- Es, <- Et, <- E1, <- E2.
  destruct (collect _ (cm_list m) b (cm_stop m)) as [stopr|]; [|cbn; repeat split; congruence].
  destruct (collect _ (cm_list m) a (cm_start m)) as [startr|]; [|cbn; repeat split; congruence].
  rewrite (scan_heq _ _ _ _ _ _ Eh). destruct (scan _ _ _ _ _ _ _ _) as [hs ht|infos hs ht]; [cbn; repeat split; congruence|].
  destruct (ck infos); [cbn; repeat split; congruence|]. destruct (pr hs ht); cbn; repeat split; congruence.
Qed.

Lemma switch_refused a b st asap tmo now ck pr m :
  cm_start m = [] -> cm_stop m = [] -> snd (switch_begin a b st asap tmo now ck pr KReturn m) = false ->
  cm_start (fst (fst (switch_begin a b st asap tmo now ck pr KReturn m))) = [] /\ cm_stop (fst (fst (switch_begin a b st asap tmo now ck pr KReturn m))) = [].
Proof.
  intros Es Et. unfold switch_begin. 
  destruct (collect _ (cm_list m) b (cm_stop m)) as [stopr|]; [|cbn; auto].
  destruct (collect _ (cm_list m) a (cm_start m)) as [startr|]; [|cbn; auto].
  destruct (scan _ _ _ _ _ _ _ _) as [hs ht|infos hs ht]; [cbn; auto|].
  destruct (ck infos); [cbn; auto|]. destruct (pr hs ht); cbn; auto. discriminate.
Qed.

(** ** constructing a controller does not depend on loaders registered later *)
Lemma construct_more ty ls l : forall k e, construct ty k ls = (true, e) -> construct ty k (ls ++ [l]) = (true, e).
Proof.
  induction ls as [|x ls IH]; intros k e E; cbn in *; [discriminate E|].
  destruct (try_classes ty k false (ld_classes x)) as [[c thrown] e1]. destruct (thrown || c); [exact E|].
  destruct (construct ty (S k) ls) as [c' e'] eqn:F. injection E as -> <-. now rewrite (IH _ _ F).
Qed.

(** Loading succeeds with this new controller and these calls. *)
Definition loads (n : string) (env : load_env) (m : cm) (sp : cspec) (e : list event) : Prop :=
  existsb (fun c => String.eqb (ci_name (sp_info c)) n) (cm_list m) = false /\ le_nh_ok env = true /\
  exists ty claims, le_type env = Some ty /\ construct ty 0 (cm_loaders m) = (true, e) /\ le_init env = InitOk claims /\
    sp = mkSpec (mkInfo n ty claims) (cm_next m).
Definition loaded (m : cm) (sp : cspec) : cm :=
  mkCM (cm_list m ++ [sp]) (upd (cm_heap m) (sp_inst sp) INITIALIZED) (S (sp_inst sp)) (cm_sw m)
       (cm_start m) (cm_stop m) (cm_hwstart m) (cm_hwstop m) (cm_loaders m) (cm_call m).
Lemma loads_ok n env m sp e : loads n env m sp e -> load_controller n env m = (loaded m sp, e ++ [EvLoaded (sp_inst sp) (sp_info sp)], true).
Proof.
  intros (A & B & ty & claims & C & D & F & ->). unfold load_controller. now rewrite A, B, C, D, F.
Qed.
Lemma loads_frame n env m m' sp e : cm_list m' = cm_list m -> cm_next m' = cm_next m -> (cm_loaders m' = cm_loaders m \/ exists l, cm_loaders m' = cm_loaders m ++ [l]) ->
  loads n env m sp e -> loads n env m' sp e.
Proof.
  intros El En Eo (A & B & ty & claims & C & D & F & G). split; [now rewrite El|]. split; [exact B|]. exists ty, claims. rewrite En.
  repeat split; auto. destruct Eo as [->|[l ->]]; [exact D|]. now apply construct_more.
Qed.
