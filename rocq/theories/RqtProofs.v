(** Lemmas about rqt_controller_manager. *)
From Coq Require Import Ascii Permutation Lia.
From Verif Require Import CMSpec UtilsModel UtilsSpec UtilsProofs ScriptModel ScriptSpec ScriptProofs ScriptMain RqtModel RqtSpec.
Local Open Scope string_scope.
Local Open Scope list_scope.

(** ** Combo box *)
Lemma is_permutation_spec a b : is_permutation a b = true <-> Permutation a b.
Proof.
  unfold is_permutation. rewrite andb_true_iff, Nat.eqb_eq. destruct (list_eq_dec _ _ _) as [E|E].
  - split; [|intros P; split; [now apply Permutation_length | reflexivity]]. intros _.
    rewrite <- (sorted_perm a), <- (sorted_perm b). now rewrite E.
  - split; [intros [_ X]; discriminate X|]. intros P. exfalso. apply E. now apply sorted_same.
Qed.
Lemma index_of_some v l i : index_of v l = Some i -> nth_error l i = Some v /\ (i < List.length l)%nat.
Proof.
  revert i. induction l as [|x l IH]; intros i E; [discriminate E|]. cbn [index_of] in E. destruct (String.eqb_spec x v) as [->|N].
  - injection E as <-. cbn. split; [reflexivity | lia].
  - destruct (index_of v l) as [j|]; [|discriminate E]. injection E as <-. destruct (IH j eq_refl). cbn. split; [assumption | lia].
Qed.
Lemma index_of_none v l : index_of v l = None <-> ~ In v l.
Proof.
  induction l as [|x l IH]; [cbn; tauto|]. cbn [index_of In]. destruct (String.eqb_spec x v) as [->|N].
  - split; [discriminate | intros H; exfalso; apply H; now left].
  - destruct (index_of v l) as [j|]; cbn [option_map].
    + split; [discriminate|]. intros H. exfalso. destruct (in_dec string_dec v l) as [I|I]; [apply H; now right|]. apply IH in I. discriminate I.
    + split; [|reflexivity]. intros _ [E|I]; [congruence|]. now apply (proj1 IH).
Qed.
Lemma text_selected c : valid c -> current_text c = match selected c with Some v => v | None => "" end.
Proof.
  unfold current_text, selected, valid. intros V. destruct (cb_cur c) as [i|]; [|reflexivity]. specialize (V i eq_refl).
  destruct (nth_error (cb_items c) i) as [v|] eqn:E; [now apply nth_error_nth|]. apply nth_error_None in E. lia.
Qed.
Lemma selected_in c v : selected c = Some v -> In v (cb_items c).
Proof. unfold selected. destruct (cb_cur c); [apply nth_error_In | discriminate]. Qed.
Lemma selected_valid c i : valid c -> cb_cur c = Some i -> exists v, selected c = Some v.
Proof.
  unfold selected, valid. intros V E. rewrite E. specialize (V i E). destruct (nth_error (cb_items c) i) eqn:F; [eauto|]. apply nth_error_None in F. lia.
Qed.

Lemma set_index_spec c i c' s : valid c -> set_index c i = (c', s) ->
  valid c' /\ cb_items c' = cb_items c /\ selected c' = match i with Some k => nth_error (cb_items c) k | None => None end /\
  match s with
  | None => selected c' = selected c
  | Some t => t = match selected c' with Some v => v | None => "" end
  end.
Proof.
  intros V E. unfold set_index in E. injection E as <- <-. cbn [cb_items].
  set (i' := match i with Some k => if Nat.ltb k (List.length (cb_items c)) then Some k else None | None => None end).
  assert (V' : valid (mkCombo (cb_items c) i')).
  { intros k E. cbn [cb_cur cb_items] in *. subst i'. destruct i as [j|]; [|discriminate E]. destruct (Nat.ltb_spec j (List.length (cb_items c))); [|discriminate E]. injection E as <-. assumption. }
  split; [exact V'|]. split; [reflexivity|]. split.
  - unfold selected. cbn [cb_cur cb_items]. subst i'. destruct i as [j|]; [|reflexivity].
    destruct (Nat.ltb_spec j (List.length (cb_items c))); [reflexivity|]. symmetry. now apply nth_error_None.
  - destruct (match cb_cur c, i' with Some a, Some b => Nat.eqb a b | None, None => true | _, _ => false end) eqn:Q; [|now apply text_selected].
    unfold selected. cbn [cb_cur cb_items]. destruct (cb_cur c), i'; try discriminate Q; [|reflexivity]. apply Nat.eqb_eq in Q. now subst.
Qed.

Lemma update_combo_spec c new c' s : valid c -> ~ In "" new -> update_combo c new = (c', s) ->
  valid c' /\ (Permutation (cb_items c) new /\ c' = c \/ ~ Permutation (cb_items c) new /\ cb_items c' = new) /\
  match selected c with
  | Some v => In v new /\ selected c' = Some v /\ s = None \/ ~ In v new /\ selected c' = None /\ s = Some ""
  | None => selected c' = None /\ s = None
  end.
Proof.
  intros V N E. unfold update_combo in E. destruct (is_permutation (cb_items c) new) eqn:P.
  - apply is_permutation_spec in P. cbn [negb] in E. injection E as <- <-. split; [exact V|]. split; [now left|].
    destruct (selected c) as [v|] eqn:S; [|auto]. left. split; [|auto]. apply selected_in in S. eapply Permutation_in; eassumption.
  - assert (NP : ~ Permutation (cb_items c) new) by (intros X; apply is_permutation_spec in X; congruence). cbn [negb] in E.
    destruct (match index_of (current_text c) new with Some _ => (c, None) | None => set_index c None end) as [c1 sg] eqn:E1. assert (E2 : fst (set_index (insert_items (clear_items c1) new) (index_of (current_text c) new)) = c' /\ sg = s) by (now injection E as <- <-). destruct E2 as [E2 <-]. clear E.
    set (c3 := insert_items (clear_items c1) new) in E2.
    assert (V3 : valid c3). { intros i. unfold c3, insert_items, clear_items. cbn [cb_cur cb_items]. destruct new; [discriminate|]. intros [= <-]. cbn. lia. }
    assert (I3 : cb_items c3 = new) by (unfold c3, insert_items, clear_items; cbn [cb_items]; apply app_nil_r).
    destruct (set_index c3 (index_of (current_text c) new)) as [c4 s4] eqn:E4. cbn [fst] in E2. rewrite E2 in E4. clear c4 E2.
    destruct (set_index_spec _ _ _ _ V3 E4) as (V' & I' & S' & _). rewrite I3 in I', S'. split; [exact V'|]. split; [right; auto|].
    rewrite (text_selected c V) in *. destruct (selected c) as [v|] eqn:S.
    + destruct (index_of v new) as [j|] eqn:J.
      * left. destruct (index_of_some _ _ _ J) as [J1 _]. injection E1 as <- <-. split; [eapply nth_error_In; exact J1|]. split; [congruence | reflexivity].
      * right. apply index_of_none in J. split; [exact J|]. split; [exact S'|]. unfold selected in S. unfold set_index in E1. destruct (cb_cur c); [|discriminate S].
        cbn in E1. now injection E1 as <- <-.
    + apply index_of_none in N. rewrite N in *. split; [exact S'|]. unfold set_index in E1. cbn in E1. destruct (cb_cur c) as [i|] eqn:Ci; [|now injection E1 as <- <-].
      destruct (selected_valid c i V Ci). congruence.
Qed.

Lemma found_nonempty srvs types guess : ~ In "" (get_controller_managers srvs types guess).
Proof.
  intros H. apply managers_in in H as [(l & s & _ & _ & a & t & _ & _ & [[A E]|[_ E]]) _]; [congruence | discriminate E].
Qed.

(** ** Sessions *)
Lemma gui_run_app l1 : forall p l2, gui_run p (l1 ++ l2) =
  (fst (gui_run (fst (gui_run p l1)) l2), snd (gui_run p l1) ++ snd (gui_run (fst (gui_run p l1)) l2)).
Proof.
  induction l1 as [|o l1 IH]; intros p l2; cbn [app gui_run].
  - cbn. now destruct (gui_run p l2).
  - destruct (gui_step p o) as [p1 d1]. rewrite IH. destruct (gui_run p1 l1) as [p2 d2]. cbn. now rewrite app_assoc.
Qed.
Lemma after_snoc l o : plugin_after (l ++ [o]) = fst (gui_step (plugin_after l) o) /\ deeds (l ++ [o]) = deeds l ++ snd (gui_step (plugin_after l) o).
Proof.
  unfold plugin_after, deeds. rewrite gui_run_app. cbn [gui_run fst snd]. destruct (gui_step (fst (gui_run plugin0 l)) o) as [p1 d1]. cbn. rewrite app_nil_r. auto.
Qed.

(** The members that belong together. *)
Definition text (s : option string) : string := match s with Some v => v | None => "" end.
Record connected (p : plugin) : Prop := mkConnected {
  co_valid : valid (pl_combo p);
  co_nonempty : ~ In "" (cb_items (pl_combo p));
  co_ns : pl_ns p = text (selected (pl_combo p));
  co_lister : pl_lister p = selected (pl_combo p);
  co_services : pl_services p = selected (pl_combo p);
  co_table : pl_table p = pl_controllers p }.

Lemma update_controllers_keeps p a : let p' := fst (update_controllers p a) in
  pl_combo p' = pl_combo p /\ pl_known p' = pl_known p /\ pl_ns p' = pl_ns p /\ pl_lister p' = pl_lister p /\ pl_services p' = pl_services p /\ pl_menu p' = pl_menu p /\
  (pl_table p = pl_controllers p -> pl_table p' = pl_controllers p').
Proof.
  unfold update_controllers. destruct (list_controllers p a); cbn; [|auto 8]. destruct (list_eq_dec _ _ _); cbn; auto 8.
Qed.
(** A refresh: the rows read are shown, or nothing changes. *)
Lemma update_controllers_deed p a :
  (exists rows, snd (update_controllers p a) = [Listed (pl_ns p) rows] /\ pl_controllers (fst (update_controllers p a)) = rows /\ list_controllers p a = Some rows) \/
  snd (update_controllers p a) = [RefreshRaised] /\ fst (update_controllers p a) = p.
Proof.
  unfold update_controllers. destruct (list_controllers p a) as [rows|] eqn:E; [left | right; auto]. exists rows. destruct (list_eq_dec _ _ _) as [<-|]; auto.
Qed.

Lemma connected_refresh p a : connected p -> connected (fst (update_controllers p a)).
Proof.
  intros [V N A B C D]. destruct (update_controllers_keeps p a) as (E1 & _ & E3 & E4 & E5 & _ & E7). split; rewrite ?E1, ?E3, ?E4, ?E5; auto.
Qed.

Lemma connected_notify p c known s a : connected p -> valid c -> ~ In "" (cb_items c) ->
  match s with None => selected c = selected (pl_combo p) | Some t => t = text (selected c) end ->
  connected (fst (notify (with_combo p c known) s a)).
Proof.
  intros [V N A B C D] V' N' H. destruct s as [t|]; cbn [notify].
  - unfold on_cm_change. destruct (String.eqb_spec t "") as [->|Ne]; cbn [negb].
    + assert (S : selected c = None). { destruct (selected c) as [v|] eqn:S; [|reflexivity]. cbn in H. subst v. exfalso. apply N'. now apply selected_in. }
      cbn. split; cbn; rewrite ?S; auto.
    + assert (S : selected c = Some t) by (destruct (selected c) as [v|]; cbn in H; congruence).
      apply connected_refresh. split; cbn; rewrite ?S; auto.
  - cbn. split; cbn; rewrite ?H; auto.
Qed.

Lemma connected_list p srvs types a : connected p -> connected (fst (update_cm_list p srvs types a)).
Proof.
  intros K. unfold update_cm_list. destruct (update_combo (pl_combo p) _) as [c s] eqn:E.
  destruct (update_combo_spec _ _ _ _ (co_valid p K) (found_nonempty _ _ _) E) as (V & I & S).
  assert (N : ~ In "" (cb_items c)) by (destruct I as [[_ ->]|[_ ->]]; [apply (co_nonempty p K) | apply found_nonempty]).
  apply connected_notify; auto. destruct (selected (pl_combo p)) as [v|].
  - destruct S as [(_ & -> & ->)|(_ & -> & ->)]; reflexivity.
  - destruct S as (-> & ->). reflexivity.
Qed.
Lemma connected_select p i a : connected p -> connected (fst (select_index p i a)).
Proof.
  intros K. unfold select_index. destruct (set_index (pl_combo p) i) as [c s] eqn:E.
  destruct (set_index_spec _ _ _ _ (co_valid p K) E) as (V & I & S & T). apply connected_notify; [exact K | exact V | rewrite I; apply (co_nonempty p K) | destruct s; auto].
Qed.
Lemma connected_step p o : connected p -> connected (fst (gui_step p o)).
Proof.
  intros K. destruct o as [srvs types a|a|i a|srvs types saved a a'|row|ch]; cbn [gui_step].
  - now apply connected_list.
  - now apply connected_refresh.
  - destruct (pl_menu p); [exact K | now apply connected_select].
  - destruct (pl_menu p); [exact K|]. unfold restore_settings. pose proof (connected_list p srvs types a K) as K1.
    destruct (update_cm_list p srvs types a) as [p1 d1]. cbn [fst] in K1. destruct saved as [m|]; [|exact K1].
    destruct (index_of m _) as [i|]; [|exact K1]. pose proof (connected_select p1 (Some i) a' K1) as K2. now destruct (select_index p1 (Some i) a').
  - destruct (pl_menu p); [exact K|]. unfold open_menu. destruct row as [k|]; [|exact K]. destruct (Nat.ltb k _); [|exact K].
    destruct (nth_error _ k); [|exact K]. destruct K as [V N A B C D]. split; auto.
  - unfold close_menu. destruct (pl_menu p) as [ctrl|]; [|exact K]. assert (K' : connected (with_menu p None)) by (destruct K as [V N A B C D]; split; auto).
    destruct ch as [x|]; [|exact K']. destruct (menu_calls _ _ x); [|exact K']. now destruct (pl_services p).
Qed.
Lemma connected_after l : connected (plugin_after l).
Proof.
  induction l as [|o l IH] using rev_ind.
  - split; cbn; auto. intros i. discriminate.
  - rewrite (proj1 (after_snoc l o)). now apply connected_step.
Qed.

(** ** Where rows come from *)

(** The latest refresh among the deeds [d]: before the first, no rows from nowhere. *)
Definition latest (d : list deed) (m : string) (rows : list lc_entry) : Prop :=
  (exists d1 d2, d = d1 ++ Listed m rows :: d2 /\ Forall (fun x => ~ is_listed x) d2) \/ (Forall (fun x => ~ is_listed x) d /\ m = "" /\ rows = []).
(** The menu is open on a row of the latest refresh at that time. *)
Definition menu_from (d : list deed) (m : string) (row : lc_entry) : Prop :=
  exists d1 rows d2 d3, d = d1 ++ Listed m rows :: d2 ++ Opened row :: d3 /\ In row rows /\ Forall (fun x => ~ is_listed x) d2 /\ Forall (fun x => ~ is_opened x) d3.
(** No refresh has raised so far, and this is what the plugin knows. *)
Record sourced (p : plugin) (d : list deed) : Prop := mkSourced {
  so_rows : exists m, latest d m (pl_controllers p) /\ (pl_ns p = m \/ pl_ns p = "") /\ (m = "" -> pl_controllers p = []);
  so_menu : forall row, pl_menu p = Some row -> exists m, menu_from d m row /\ m <> "" /\ (pl_ns p = m \/ pl_ns p = "") }.

Lemma menu_from_app d x m row : menu_from d m row -> Forall (fun x => ~ is_opened x) x -> menu_from (d ++ x) m row.
Proof.
  intros (d1 & rows & d2 & d3 & -> & H1 & H2 & H3) Hx. exists d1, rows, d2, (d3 ++ x). repeat split; auto; [|now apply Forall_app].
  now rewrite <- app_assoc, <- app_comm_cons, <- app_assoc.
Qed.
Lemma latest_app d x m rows : latest d m rows -> Forall (fun x => ~ is_listed x) x -> latest (d ++ x) m rows.
Proof.
  intros [(d1 & d2 & -> & H)|(H & -> & ->)] Hx.
  - left. exists d1, (d2 ++ x). split; [now rewrite <- app_assoc | now apply Forall_app].
  - right. split; [now apply Forall_app | auto].
Qed.

Lemma list_none p a rows : pl_ns p = "" -> list_controllers p a = Some rows -> rows = [].
Proof. unfold list_controllers. intros ->. cbn. congruence. Qed.

Lemma sourced_refresh p d a : sourced p d -> ~ In RefreshRaised (snd (update_controllers p a)) -> sourced (fst (update_controllers p a)) (d ++ snd (update_controllers p a)).
Proof.
  intros [R M] NR. destruct (update_controllers_keeps p a) as (E1 & _ & E3 & E4 & E5 & E6 & E7).
  destruct (update_controllers_deed p a) as [(rows & -> & E & L)|(E & _)]; [|exfalso; apply NR; rewrite E; now left].
  split.
  - exists (pl_ns p). rewrite E, E3. split; [left; exists d, []; auto|]. split; [now left|]. intros X. eapply list_none; eassumption.
  - intros row Hr. rewrite E6 in Hr. destruct (M row Hr) as (m & H1 & H2 & H3). exists m. rewrite E3. repeat split; auto. apply menu_from_app; auto.
Qed.

(** A change of the selection: to nothing at any time, to something while no menu is open. *)
Lemma sourced_notify p d c known s a : connected p -> sourced p d -> (s = None \/ s = Some "" \/ pl_menu p = None) ->
  ~ In RefreshRaised (snd (notify (with_combo p c known) s a)) ->
  sourced (fst (notify (with_combo p c known) s a)) (d ++ snd (notify (with_combo p c known) s a)).
Proof.
  intros K S Hs. destruct s as [t|]; cbn [notify].
  - unfold on_cm_change. destruct (String.eqb_spec t "") as [->|Ne]; cbn [negb].
    + intros _. cbn [fst snd]. rewrite app_nil_r. destruct S as [(m & R1 & R2 & R3) M]. split; cbn.
      * exists m. auto.
      * intros row Hr. destruct (M row Hr) as (m' & H1 & H2 & H3). exists m'. auto.
    + destruct Hs as [Hs|[Hs|Hs]]; [discriminate Hs | congruence|]. set (q := with_manager (with_combo p c known) t (Some t)). intros NR.
      destruct (update_controllers_keeps q a) as (E1 & _ & E3 & E4 & E5 & E6 & E7).
      destruct (update_controllers_deed q a) as [(rows & -> & E & L)|(E & _)]; [|exfalso; apply NR; rewrite E; now left].
      split.
      * exists (pl_ns q). rewrite E, E3. split; [left; exists d, []; auto|]. split; [now left|]. intros X. eapply list_none; eassumption.
      * intros row Hr. rewrite E6 in Hr. cbn in Hr. congruence.
  - intros _. cbn [fst snd]. rewrite app_nil_r. destruct S as [R M]. split; auto.
Qed.
Lemma sourced_list p d srvs types a : connected p -> sourced p d -> ~ In RefreshRaised (snd (update_cm_list p srvs types a)) ->
  sourced (fst (update_cm_list p srvs types a)) (d ++ snd (update_cm_list p srvs types a)).
Proof.
  intros K S. unfold update_cm_list. destruct (update_combo (pl_combo p) _) as [c s] eqn:E.
  destruct (update_combo_spec _ _ _ _ (co_valid p K) (found_nonempty _ _ _) E) as (_ & _ & X).
  apply sourced_notify; auto. destruct (selected (pl_combo p)); [destruct X as [(_ & _ & ->)|(_ & _ & ->)] | destruct X as (_ & ->)]; auto.
Qed.
Lemma sourced_select p d i a : connected p -> sourced p d -> pl_menu p = None -> ~ In RefreshRaised (snd (select_index p i a)) ->
  sourced (fst (select_index p i a)) (d ++ snd (select_index p i a)).
Proof. intros K S Hm. unfold select_index. destruct (set_index (pl_combo p) i) as [c s]. apply sourced_notify; auto. Qed.
Lemma list_keeps_menu p srvs types a : pl_menu (fst (update_cm_list p srvs types a)) = pl_menu p.
Proof.
  unfold update_cm_list. destruct (update_combo _ _) as [c [t|]]; cbn [notify]; [|reflexivity]. unfold on_cm_change. destruct (negb _); [|reflexivity].
  now destruct (update_controllers_keeps (with_manager (with_combo p c (get_controller_managers srvs types (pl_known p))) t (Some t)) a) as (_ & _ & _ & _ & _ & -> & _).
Qed.

Lemma sourced_step p d o : connected p -> sourced p d -> ~ In RefreshRaised (snd (gui_step p o)) -> sourced (fst (gui_step p o)) (d ++ snd (gui_step p o)).
Proof.
  intros K S. assert (SAME : sourced p (d ++ [])) by now rewrite app_nil_r.
  destruct o as [srvs types a|a|i a|srvs types saved a a'|row|ch]; cbn [gui_step].
  - now apply sourced_list.
  - now apply sourced_refresh.
  - destruct (pl_menu p) eqn:Hm; [intros _; exact SAME | now apply sourced_select].
  - destruct (pl_menu p) eqn:Hm; [intros _; exact SAME|]. unfold restore_settings. pose proof (connected_list p srvs types a K) as K1. pose proof (sourced_list p d srvs types a K S) as S1.
    pose proof (list_keeps_menu p srvs types a) as M1.
    destruct (update_cm_list p srvs types a) as [p1 d1]. cbn [fst snd] in *. destruct saved as [m|]; [|exact S1].
    destruct (index_of m _) as [i|]; [|exact S1]. pose proof (sourced_select p1 (d ++ d1) (Some i) a' K1) as S2. destruct (select_index p1 (Some i) a') as [p2 d2]. cbn [fst snd] in *.
    intros NR. rewrite in_app_iff in NR. rewrite app_assoc. apply S2; [apply S1; tauto | congruence | tauto].
  - destruct (pl_menu p) eqn:Hm; [intros _; exact SAME|]. unfold open_menu. destruct row as [k|]; [|intros _; exact SAME].
    destruct (Nat.ltb k _); [|intros _; exact SAME]. destruct S as [(m & R1 & R2 & R3) M]. destruct (nth_error _ k) as [ctrl|] eqn:E; cbn [fst snd]; intros _.
    + apply nth_error_In in E. split; cbn.
      * exists m. repeat split; auto. apply latest_app; [exact R1 | repeat constructor; auto].
      * intros row [= <-]. exists m. assert (Ne : m <> "") by (intros ->; rewrite R3 in E; auto). split; [|auto].
        destruct R1 as [(d1 & d2 & -> & F)|(_ & X & _)]; [|congruence]. exists d1, (pl_controllers p), d2, []. repeat split; auto. now rewrite <- app_assoc.
    + split.
      * exists m. repeat split; auto. apply latest_app; [exact R1 | repeat constructor; auto].
      * rewrite Hm. discriminate.
  - unfold close_menu. destruct (pl_menu p) as [ctrl|] eqn:Hm; [|intros _; exact SAME].
    assert (G : forall x, Forall (fun x => ~ is_listed x) x -> sourced (with_menu p None) (d ++ x)).
    { intros x Fx. destruct S as [(m & R1 & R2 & R3) M]. split; cbn; [|discriminate]. exists m. repeat split; auto. now apply latest_app. }
    destruct ch as [x|]; [|intros _; apply G; constructor]. destruct (menu_calls _ _ x); [|intros _; apply G; constructor].
    destruct (pl_services p); intros _; apply G; repeat constructor; auto.
Qed.
Lemma sourced_after l : ~ In RefreshRaised (deeds l) -> sourced (plugin_after l) (deeds l).
Proof.
  induction l as [|o l IH] using rev_ind; intros H.
  - split; cbn; [|discriminate]. exists "". repeat split; auto. right. auto.
  - destruct (after_snoc l o) as [E1 E2]. rewrite E2 in *. rewrite E1. rewrite in_app_iff in H. apply sourced_step; [apply connected_after | apply IH; tauto | tauto].
Qed.

(** Only the end of a menu acts. *)
Lemma no_act_refresh p a m row calls : ~ In (Acted m row calls) (snd (update_controllers p a)).
Proof. destruct (update_controllers_deed p a) as [(r & -> & _)|(-> & _)]; intros [X|[]]; discriminate X. Qed.
Lemma no_act_notify p s a m row calls : ~ In (Acted m row calls) (snd (notify p s a)).
Proof. destruct s as [t|]; cbn [notify]; [|intros []]. unfold on_cm_change. destruct (negb _); [apply no_act_refresh | intros []]. Qed.
Lemma no_act_list p srvs types a m row calls : ~ In (Acted m row calls) (snd (update_cm_list p srvs types a)).
Proof. unfold update_cm_list. destruct (update_combo _ _). apply no_act_notify. Qed.
Lemma no_act_select p i a m row calls : ~ In (Acted m row calls) (snd (select_index p i a)).
Proof. unfold select_index. destruct (set_index _ _). apply no_act_notify. Qed.
Lemma act_step p o m row calls : In (Acted m row calls) (snd (gui_step p o)) ->
  exists a, o = Choose (Some a) /\ pl_menu p = Some row /\ pl_services p = Some m /\ menu_calls (en_state row) (en_name row) a = Some calls /\ snd (gui_step p o) = [Acted m row calls].
Proof.
  destruct o as [srvs types a|a|i a|srvs types saved a a'|r|ch]; cbn [gui_step]; intros H.
  - now apply no_act_list in H.
  - now apply no_act_refresh in H.
  - destruct (pl_menu p); [destruct H | now apply no_act_select in H].
  - exfalso. destruct (pl_menu p); [destruct H|]. unfold restore_settings in H. pose proof (no_act_list p srvs types a m row calls) as X.
    destruct (update_cm_list p srvs types a) as [p1 d1]. destruct saved as [s|]; [|tauto]. destruct (index_of s _) as [i|]; [|tauto].
    pose proof (no_act_select p1 (Some i) a' m row calls) as Y. destruct (select_index p1 (Some i) a'). cbn [snd] in *. rewrite in_app_iff in H. tauto.
  - exfalso. destruct (pl_menu p); [destruct H|]. unfold open_menu in H. destruct r; [|destruct H]. destruct (Nat.ltb _ _); [|destruct H].
    destruct (nth_error _ _); destruct H as [H|[]]; discriminate H.
  - unfold close_menu in *. destruct (pl_menu p) as [ctrl|]; [|destruct H]. destruct ch as [a|]; [|destruct H]. destruct (menu_calls _ _ a) as [cs|] eqn:E; [|destruct H].
    destruct (pl_services p) as [s|]; destruct H as [H|[]]; [|discriminate H]. injection H as -> -> ->. exists a. auto.
Qed.

Lemma app_cons_split {A} (x y : list A) e d2 : forall d1, x ++ y = d1 ++ e :: d2 ->
  (exists d', x = d1 ++ e :: d') \/ (exists d', d1 = x ++ d' /\ y = d' ++ e :: d2).
Proof.
  induction x as [|e0 x IH]; intros d1 H.
  - right. exists d1. auto.
  - destruct d1 as [|e' d1]; cbn in H; injection H as -> H.
    + left. exists x. reflexivity.
    + destruct (IH d1 H) as [(d' & ->)|(d' & -> & E)]; [left; exists d'; reflexivity | right; exists d'; auto].
Qed.
(** An action in a session, and the session before it. *)
Lemma act_split l d1 m row calls d2 : deeds l = d1 ++ Acted m row calls :: d2 ->
  exists l1 a l2, l = l1 ++ Choose (Some a) :: l2 /\ deeds l1 = d1 /\ pl_menu (plugin_after l1) = Some row /\ pl_services (plugin_after l1) = Some m /\
    menu_calls (en_state row) (en_name row) a = Some calls.
Proof.
  revert d2. induction l as [|o l IH] using rev_ind; intros d2 H; [destruct d1; discriminate H|].
  destruct (after_snoc l o) as [_ E2]. rewrite E2 in H. clear E2.
  assert (C : (exists d', deeds l = d1 ++ Acted m row calls :: d') \/ (exists d', d1 = deeds l ++ d' /\ snd (gui_step (plugin_after l) o) = d' ++ Acted m row calls :: d2)).
  { now apply app_cons_split. }
  destruct C as [(d' & E)|(d' & -> & E)].
  - destruct (IH d' E) as (l1 & a & l2 & -> & R). exists l1, a, (l2 ++ [o]). split; [now rewrite <- app_assoc | exact R].
  - assert (I : In (Acted m row calls) (snd (gui_step (plugin_after l) o))) by (rewrite E; apply in_app_iff; right; now left).
    destruct (act_step _ _ _ _ _ I) as (a & -> & M & S & Q & X). exists l, a, []. rewrite X in E.
    assert (d' = []) by (destruct d' as [|? [|? ?]]; cbn in E; congruence). subst d'. rewrite app_nil_r. auto.
Qed.

(** ** Rows *)
Lemma add_configured_spec ns value names : forall loaded rows, add_configured ns value names loaded = Some rows ->
  NoDup names ->
  exists l, rows = loaded ++ l /\ map en_name l = filter (fun n => negb (isin n (map en_name loaded))) names /\
    forall e, In e l -> en_state e = "uninitialized" /\ en_claims e = [] /\ value (type_param ns (en_name e)) = Some (en_type e).
Proof.
  assert (X : forall n l, existsb (fun ctrl => String.eqb n (en_name ctrl)) l = isin n (map en_name l)).
  { intros n l. unfold isin. induction l as [|e l IH]; cbn; [reflexivity | now rewrite IH]. }
  induction names as [|n names IH]; intros loaded rows E N; cbn [add_configured] in E.
  - injection E as <-. exists []. rewrite app_nil_r. repeat split; auto; contradiction.
  - inversion N; subst. rewrite X in E. cbn [filter]. destruct (isin n (map en_name loaded)) eqn:I; cbn [negb] in *.
    + destruct (IH _ _ E H2) as (l & -> & H3 & H4). exists l. auto.
    + destruct (value (type_param ns n)) as [ty|] eqn:Ty; [|discriminate E]. destruct (IH _ _ E H2) as (l & -> & H3 & H4).
      exists (mkEntry n ty [] "uninitialized" :: l). split; [now rewrite <- app_assoc|]. split.
      * cbn [map en_name]. f_equal. rewrite H3. apply filter_ext_in. intros m Hm. f_equal. apply eq_true_iff_eq. rewrite !isin_spec, map_app, in_app_iff. cbn.
        split; [intros [Q|[Q|[]]]; [exact Q | congruence] | auto].
      * intros e [<-|He]; [cbn; auto | auto].
Qed.
Lemma add_configured_none ns value names : forall loaded, NoDup names ->
  (add_configured ns value names loaded = None <-> exists n, In n names /\ ~ In n (map en_name loaded) /\ value (type_param ns n) = None).
Proof.
  assert (X : forall n l, existsb (fun ctrl => String.eqb n (en_name ctrl)) l = isin n (map en_name l)).
  { intros n l. unfold isin. induction l as [|e l IH]; cbn; [reflexivity | now rewrite IH]. }
  induction names as [|n names IH]; intros loaded N; cbn [add_configured].
  - split; [discriminate | intros (m & [] & _)].
  - inversion N; subst. rewrite X. destruct (isin n (map en_name loaded)) eqn:I; cbn [negb].
    + rewrite (IH loaded H2). apply isin_spec in I. split; intros (m & Hm & Q); exists m; [split; [now right | exact Q]|]. destruct Hm as [->|Hm]; [tauto | auto].
    + apply isin_false in I. destruct (value (type_param ns n)) as [ty|] eqn:Ty.
      * rewrite (IH _ H2). split; intros (m & Hm & Q1 & Q2); exists m.
        -- split; [now right|]. split; [|exact Q2]. intros Y. apply Q1. rewrite map_app. apply in_app_iff. now left.
        -- destruct Hm as [->|Hm]; [congruence|]. split; [exact Hm|]. split; [|exact Q2]. rewrite map_app. intros Y. apply in_app_iff in Y as [Y|[Y|[]]]; [auto|]. cbn in Y. congruence.
      * split; [|reflexivity]. intros _. exists n. split; [now left | auto].
Qed.

Lemma before_last_spec s : match before_last_slash s with
  | Some a => exists b, s = (a ++ "/" ++ b)%string /\ no_slash b
  | None => no_slash s
  end.
Proof.
  induction s as [|c s IH]; cbn [before_last_slash]; [intros []|]. destruct (before_last_slash s) as [a|].
  - destruct IH as (b & -> & N). exists b. auto.
  - destruct (Ascii.eqb_spec c slash) as [->|N]; [exists s; auto|]. unfold no_slash in *. cbn. intros [E|E]; [|auto]. apply N. unfold slash. congruence.
Qed.
Lemma slash_split_unique a b a' b' : (a ++ "/" ++ b = a' ++ "/" ++ b')%string -> no_slash b -> no_slash b' -> a = a' /\ b = b'.
Proof.
  revert a'. induction a as [|c a IH]; intros a' E N N'.
  - destruct a' as [|c' a']; cbn in E.
    + now injection E as ->.
    + injection E as <- E. exfalso. apply N. rewrite E. rewrite chars_app. apply in_app_iff. right. cbn. now left.
  - destruct a' as [|c' a']; cbn in E.
    + injection E as -> E. exfalso. apply N'. rewrite <- E. rewrite chars_app. apply in_app_iff. right. cbn. now left.
    + injection E as -> E. destruct (IH a' E N N') as [-> ->]. auto.
Qed.
Lemma resolve_parent m ns : parent m ns -> resolve_controllers_ns m = ns.
Proof.
  intros (a & b & -> & N & H). unfold resolve_controllers_ns. pose proof (before_last_spec (a ++ "/" ++ b)) as X.
  destruct (before_last_slash (a ++ "/" ++ b)) as [a'|].
  - destruct X as (b' & E & N'). destruct (slash_split_unique _ _ _ _ E N N') as [<- _]. destruct H as [[Ne ->]|[-> ->]]; [|reflexivity].
    destruct (String.eqb_spec a ""); [congruence | reflexivity].
  - exfalso. apply X. rewrite chars_app. apply in_app_iff. right. cbn. now left.
Qed.

Lemma parent_starts m ns : starts_with_slash m -> parent m ns -> starts_with_slash ns.
Proof.
  intros [r E] (a & b & -> & _ & [[Ne ->]|[_ ->]]); [|now exists ""]. destruct a as [|c a]; [congruence|]. injection E as -> _. now exists a.
Qed.
Lemma type_param_global ns g n : starts_with_slash ns -> global_prefix ns g -> type_param ns n = (g ++ n ++ "/type")%string.
Proof.
  intros [r ->] G. rewrite (global_unique _ _ _ G (global_ns_spec _)). unfold type_param, append_ns, make_global_ns. cbn [append]. 
  change (Ascii.eqb "/" slash) with true. cbv iota. now rewrite sapp_assoc.
Qed.
