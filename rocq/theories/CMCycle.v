(** What the stages of a control cycle and of a switch request do. *)
From Verif Require Import HwTypes Lifecycle CMModel CMSpec CMInv.

Definition heq (h1 h2 : heap) : Prop := forall i, h1 i = h2 i.

Lemma is_running_spec h i : is_running h i = true <-> h i = RUNNING.
Proof. unfold is_running; destruct (h i); split; congruence. Qed.
Lemma is_running_false h i : is_running h i = false <-> h i <> RUNNING.
Proof. unfold is_running; destruct (h i); split; congruence. Qed.

Lemma mem_spec i l : mem i l = true <-> In i l.
Proof.
  unfold mem. rewrite existsb_exists. split.
  - intros (j & Hj & E). apply Nat.eqb_eq in E; subst; exact Hj.
  - intros H; exists i; split; [exact H|apply Nat.eqb_refl].
Qed.
Lemma mem_false i l : mem i l = false <-> ~ In i l.
Proof. rewrite <- mem_spec. destruct (mem i l); split; congruence. Qed.

(** ** update stage *)
Definition upd_events (t p : Z) (h : heap) (l : list cspec) : list event :=
  map (fun c => EvCb (sp_inst c) (CbUpdate p) t) (filter (fun c => is_running h (sp_inst c)) l).

Lemma update_stage t p h l : for_each (update_body t p) h l = (h, upd_events t p h l).
Proof.
  induction l as [|c l IH]; simpl; [reflexivity|].
  unfold update_body at 1, update_request. unfold upd_events in *. simpl.
  unfold is_running at 1. destruct (h (sp_inst c)); rewrite IH; reflexivity.
Qed.

(** ** reset stage *)
Definition reset_events (t : Z) (h : heap) (l : list cspec) : list event :=
  flat_map (fun c => [EvCb (sp_inst c) CbStopping t; EvCb (sp_inst c) CbStarting t])
           (filter (fun c => is_running h (sp_inst c)) l).

Lemma upd_events_ext t p h h' l : heq h h' -> upd_events t p h l = upd_events t p h' l.
Proof.
  intros E; unfold upd_events. f_equal. apply filter_ext. intros c; unfold is_running; rewrite E; reflexivity.
Qed.
Lemma reset_events_ext t h h' l : heq h h' -> reset_events t h l = reset_events t h' l.
Proof.
  intros E; unfold reset_events. f_equal. apply filter_ext. intros c; unfold is_running; rewrite E; reflexivity.
Qed.

Lemma reset_stage t h l :
  heq (fst (for_each (reset_body t) h l)) h /\ snd (for_each (reset_body t) h l) = reset_events t h l.
Proof.
  revert h; induction l as [|c l IH]; intros h; simpl; [split; [intros i|]; reflexivity|].
  unfold reset_body at 1 3, stop_request, start_request.
  unfold reset_events in *; simpl. unfold is_running at 1 2 3.
  destruct (h (sp_inst c)) eqn:E;
    try (destruct (IH h) as [H1 H2]; destruct (for_each (reset_body t) h l); simpl in *; auto; fail).
  rewrite upd_same. set (h1 := upd (upd h (sp_inst c) STOPPED) (sp_inst c) RUNNING).
  assert (Hq : heq h1 h).
  { intros j. unfold h1, upd. destruct (Nat.eqb_spec j (sp_inst c)); congruence. }
  destruct (IH h1) as [H1 H2]. destruct (for_each (reset_body t) h1 l) as [h2 e2]; simpl in *. split.
  - intros j; rewrite H1; apply Hq.
  - rewrite H2. f_equal. f_equal. apply (reset_events_ext t); exact Hq.
Qed.

(** ** stop stage *)
Lemma callbacks_app i a b : callbacks_of i (a ++ b) = callbacks_of i a ++ callbacks_of i b.
Proof.
  induction a as [|e a IH]; simpl; [reflexivity|]. destruct e; rewrite ?IH; auto.
  destruct (Nat.eqb i i0); rewrite ?IH; reflexivity.
Qed.

Lemma stop_stage t h l :
  let r := stop_controllers t h l in
  (forall j, fst r j = if mem j l && is_running h j then STOPPED else h j) /\
  (forall j, callbacks_of j (snd r) = if mem j l && is_running h j then [CbStopping] else []) /\
  Forall (fun e => exists i, e = EvCb i CbStopping t /\ In i l) (snd r).
Proof.
  unfold stop_controllers. revert h; induction l as [|i l IH]; intros h; simpl; [auto|].
  unfold stop_body at 1 3 5. destruct (is_running h i) eqn:Er.
  - unfold stop_request. pose proof (proj1 (is_running_spec _ _) Er) as Ei. rewrite Ei.
    destruct (IH (upd h i STOPPED)) as (H1 & H2 & H3).
    destruct (for_each (stop_body t) (upd h i STOPPED) l) as [h2 e2]; simpl in *.
    split; [|split].
    + intros j. rewrite H1. unfold is_running, upd.
      destruct (Nat.eqb_spec j i) as [->|Hne]; simpl; [rewrite andb_false_r, Ei|]; reflexivity.
    + intros j. rewrite H2. unfold is_running, upd.
      destruct (Nat.eqb_spec j i) as [->|Hne]; simpl; [rewrite andb_false_r, Ei|]; reflexivity.
    + constructor; [exists i; auto|]. eapply Forall_impl; [|exact H3]. intros e (k & -> & Hk); exists k; auto.
  - destruct (IH h) as (H1 & H2 & H3). destruct (for_each (stop_body t) h l) as [h2 e2]; simpl in *.
    split; [|split].
    + intros j. rewrite H1. destruct (Nat.eqb_spec j i) as [->|]; simpl; [rewrite Er, andb_false_r|]; reflexivity.
    + intros j. rewrite H2. destruct (Nat.eqb_spec j i) as [->|]; simpl; [rewrite Er, andb_false_r|]; reflexivity.
    + eapply Forall_impl; [|exact H3]. intros e (k & -> & Hk); exists k; auto.
Qed.

(** ** start stage, all controllers alike *)
Definition uniform (cb : callback) (s' : cstate) (f : heap -> nat -> heap * list event) (t : Z) : Prop :=
  s' <> CONSTRUCTED /\
  forall h i, h i <> CONSTRUCTED -> f h i = (upd h i s', [EvCb i cb t]).

Lemma uniform_start t : uniform CbStarting RUNNING (start_request t) t.
Proof. split; [discriminate|]. intros h i H; unfold start_request; destruct (h i); congruence. Qed.
Lemma uniform_abort t : uniform CbAborting ABORTED (abort_request t) t.
Proof. split; [discriminate|]. intros h i H; unfold abort_request; destruct (h i); congruence. Qed.
Lemma uniform_wait t : uniform CbWaiting WAITING (wait_request t) t.
Proof. split; [discriminate|]. intros h i H; unfold wait_request; destruct (h i); congruence. Qed.

Lemma uniform_stage cb s' f t h l :
  uniform cb s' f t -> (forall i, In i l -> h i <> CONSTRUCTED) ->
  let r := for_each f h l in
  (forall j, fst r j = if mem j l then s' else h j) /\ snd r = map (fun i => EvCb i cb t) l.
Proof.
  intros [Hs Hf]. revert h; induction l as [|i l IH]; intros h Hc; simpl; [auto|].
  rewrite Hf by (apply Hc; left; reflexivity).
  destruct (IH (upd h i s')) as [H1 H2].
  { intros j Hj. unfold upd. destruct (Nat.eqb j i); [exact Hs|apply Hc; right; exact Hj]. }
  destruct (for_each f (upd h i s') l) as [h2 e2]; simpl in *. split; [|rewrite H2; reflexivity].
  intros j. rewrite H1. change (mem j (i :: l)) with (Nat.eqb j i || mem j l).
  unfold upd. destruct (Nat.eqb j i), (mem j l); reflexivity.
Qed.

(** ** start stage, as soon as possible *)
Definition asap_dec (t : Z) (hw : hw_answers) (sw : swparams) (k : nat) (info : cinfo) : callback * cstate :=
  if swstate_eqb (hw_one hw k 0%nat info) DONE then (CbStarting, RUNNING)
  else if swstate_eqb (hw_one hw k 1%nat info) ERROR || timed_out sw t then (CbAborting, ABORTED)
  else (CbWaiting, WAITING).

Lemma asap_inner_hit t hw sw k i h c :
  i = sp_inst c -> h i <> CONSTRUCTED ->
  asap_inner t hw sw k i h c =
  (upd h i (snd (asap_dec t hw sw k (sp_info c))), [EvCb i (fst (asap_dec t hw sw k (sp_info c))) t]).
Proof.
  intros -> H. unfold asap_inner, asap_dec. rewrite Nat.eqb_refl.
  destruct (swstate_eqb _ _); [apply uniform_start; exact H|].
  destruct (_ || _); [apply uniform_abort|apply uniform_wait]; exact H.
Qed.

Lemma asap_inner_miss t hw sw k i h l :
  ~ In i (map sp_inst l) -> for_each (asap_inner t hw sw k i) h l = (h, []).
Proof.
  induction l as [|c l IH]; simpl; intros H; [reflexivity|].
  unfold asap_inner at 1. destruct (Nat.eqb_spec i (sp_inst c)); [exfalso; apply H; auto|].
  rewrite IH by tauto. reflexivity.
Qed.

Lemma asap_inner_stage t hw sw k i h l c :
  NoDup (map sp_inst l) -> In c l -> i = sp_inst c -> h i <> CONSTRUCTED ->
  for_each (asap_inner t hw sw k i) h l =
  (upd h i (snd (asap_dec t hw sw k (sp_info c))), [EvCb i (fst (asap_dec t hw sw k (sp_info c))) t]).
Proof.
  revert h; induction l as [|d l IH]; intros h Hn Hin Hi Hc; [contradiction|]. simpl in *.
  inversion Hn as [|? ? Hnot Hnd]; subst.
  destruct Hin as [->|Hin].
  - rewrite asap_inner_hit by auto. rewrite asap_inner_miss by assumption. reflexivity.
  - unfold asap_inner at 1. destruct (Nat.eqb_spec (sp_inst c) (sp_inst d)) as [E|E].
    + exfalso; apply Hnot; rewrite <- E; apply in_map; exact Hin.
    + rewrite IH by auto. reflexivity.
Qed.

(** With pairwise different requests every one is decided on its own. *)
Lemma asap_stage t hw sw l k h start :
  NoDup (map sp_inst l) -> NoDup start ->
  (forall i, In i start -> exists c, In c l /\ sp_inst c = i /\ h i <> CONSTRUCTED) ->
  let r := asap_loop t hw sw l k h start in
  (forall j, ~ In j start -> fst r j = h j /\ callbacks_of j (snd r) = []) /\
  (forall n c, nth_error start n = Some (sp_inst c) -> In c l ->
     if is_running h (sp_inst c) then fst r (sp_inst c) = RUNNING /\ callbacks_of (sp_inst c) (snd r) = []
     else fst r (sp_inst c) = snd (asap_dec t hw sw (k + n) (sp_info c)) /\
          callbacks_of (sp_inst c) (snd r) = [fst (asap_dec t hw sw (k + n) (sp_info c))]).
Proof.
  intros Hl. revert k h; induction start as [|i start IH]; intros k h Hn Hin; simpl.
  - split; [auto|]. intros [|n] c [=].
  - inversion Hn as [|? ? Hnot Hnd]; subst.
    destruct (Hin i (or_introl eq_refl)) as (c & Hc & Hi & Hcon).
    set (r1 := if is_running h i then _ else _).
    assert (Hr1 : r1 = if is_running h i then (h, []) else
               (upd h i (snd (asap_dec t hw sw k (sp_info c))), [EvCb i (fst (asap_dec t hw sw k (sp_info c))) t])).
    { unfold r1. destruct (is_running h i); [reflexivity|]. apply asap_inner_stage; auto. }
    assert (Hoth : forall j, j <> i -> fst r1 j = h j).
    { intros j Hj. rewrite Hr1. destruct (is_running h i); simpl; [reflexivity|apply upd_other; exact Hj]. }
    clearbody r1. destruct r1 as [h1 e1]. simpl in Hoth.
    destruct (IH (S k) h1 Hnd) as [H1 H2].
    { intros j Hj. destruct (Hin j (or_intror Hj)) as (d & Hd & Ed & Hcd). exists d. repeat split; auto.
      rewrite Hoth; [exact Hcd|]. intros ->; contradiction. }
    destruct (asap_loop t hw sw l (S k) h1 start) as [h2 e2]; simpl in *.
    destruct (H1 i Hnot) as [Hi2 Hcb2]. split.
    + intros j Hj. destruct (H1 j) as [A B]; [tauto|]. rewrite A, callbacks_app, B, app_nil_r.
      split; [apply Hoth; intros ->; tauto|].
      assert (Hji : j <> i) by (intros ->; tauto).
      destruct (is_running h i); inversion Hr1; subst; simpl; [reflexivity|].
      destruct (Nat.eqb_spec j (sp_inst c)); congruence.
    + intros [|n] d En Hd; simpl in En.
      * injection En as Ei. assert (d = c) by (apply (nodup_map_inj sp_inst l); auto; congruence). subst d.
        rewrite <- Ei. rewrite Nat.add_0_r, callbacks_app, Hcb2, app_nil_r, Hi2.
        destruct (is_running h i) eqn:Er; inversion Hr1; subst h1 e1.
        -- split; [apply is_running_spec; exact Er|reflexivity].
        -- rewrite upd_same. simpl. rewrite Nat.eqb_refl; auto.
      * assert (Hdi : sp_inst d <> i).
        { intros E. apply Hnot. rewrite <- E. eapply nth_error_In; exact En. }
        specialize (H2 n d En Hd). rewrite callbacks_app.
        assert (callbacks_of (sp_inst d) e1 = []) as ->.
        { destruct (is_running h i); inversion Hr1; subst; simpl; [reflexivity|].
          destruct (Nat.eqb_spec (sp_inst d) (sp_inst c)); congruence. }
        simpl. replace (k + S n)%nat with (S k + n)%nat by lia.
        unfold is_running in H2 |- *. rewrite Hoth in H2 by assumption. exact H2.
Qed.

(** Without the hypothesis on repetitions: who can be touched, and by what. *)
Lemma asap_touch t hw sw l k h start :
  let r := asap_loop t hw sw l k h start in
  (forall j, ~ In j start \/ ~ In j (map sp_inst l) -> fst r j = h j /\ callbacks_of j (snd r) = []) /\
  Forall (fun e => exists i cb, e = EvCb i cb t /\ In i start /\ (cb = CbStarting \/ cb = CbAborting \/ cb = CbWaiting)) (snd r).
Proof.
  cbv zeta. rewrite asap_loop_for_each. split.
  - intros j Hj.
    apply (for_each_ind (asap_outer t hw sw l) (fun h' e => h' j = h j /\ callbacks_of j e = [])) with (e := []); [|auto].
    intros [k' i] h0 e0 Hin H0. unfold asap_outer; simpl.
    apply in_combine_seq in Hin; simpl in Hin.
    destruct (is_running h0 i); simpl; [rewrite app_nil_r; auto|].
    apply for_each_ind; [|exact H0]. intros c h1 e1 Hc [A B]. unfold asap_inner.
    destruct (Nat.eqb_spec i (sp_inst c)) as [->|]; simpl; [|rewrite app_nil_r; auto].
    assert (j <> sp_inst c).
    { intros ->. destruct Hj as [Hj|Hj]; apply Hj; [exact Hin|apply in_map; exact Hc]. }
    destruct (swstate_eqb _ _); [|destruct (_ || _)];
    unfold start_request, abort_request, wait_request; destruct (h1 (sp_inst c)); simpl;
    rewrite ?app_nil_r, ?callbacks_app, ?upd_other by assumption; auto; (split; [assumption|]);
    rewrite B; simpl; destruct (Nat.eqb_spec j (sp_inst c)); congruence.
  - apply (for_each_ind (asap_outer t hw sw l) (fun _ e => Forall (fun e => exists i cb, e = EvCb i cb t /\ In i start /\ (cb = CbStarting \/ cb = CbAborting \/ cb = CbWaiting)) e)) with (e := []); [|constructor].
    intros [k' i] h0 e0 Hin H0. unfold asap_outer; simpl.
    apply in_combine_seq in Hin; simpl in Hin.
    destruct (is_running h0 i); simpl; [rewrite app_nil_r; auto|].
    apply (for_each_ind _ (fun _ e => Forall (fun e => exists i cb, e = EvCb i cb t /\ In i start /\ (cb = CbStarting \/ cb = CbAborting \/ cb = CbWaiting)) e)); [|exact H0].
    intros c h1 e1 Hc A. unfold asap_inner.
    destruct (Nat.eqb_spec i (sp_inst c)) as [->|]; simpl; [|rewrite app_nil_r; auto].
    destruct (swstate_eqb _ _); [|destruct (_ || _)];
    unfold start_request, abort_request, wait_request; destruct (h1 (sp_inst c)); simpl;
    rewrite ?app_nil_r; auto; apply Forall_app; (split; [assumption|]); repeat constructor;
    eexists; eexists; (split; [reflexivity|]); auto.
Qed.

(** ** the whole cycle *)
Definition hwdo (s : cm) : list event :=
  if sw_started (cm_sw s) then [] else [EvDo (cm_hwstart s) (cm_hwstop s)].

(** Decomposition of a cycle into its stages; [h0] is the heap before. *)
Lemma update_decomp t p (r : bool) hw s :
  let e0 := (if r then reset_events t (cm_heap s) (cm_list s) else @nil event) ++ upd_events t p (cm_heap s) (cm_list s) in
  exists h : heap, heq h (cm_heap s) /\
    update t p r hw s =
      (if sw_do (cm_sw s) then
         (fst (manage_switch t hw (set_heap s h)), e0 ++ snd (manage_switch t hw (set_heap s h)))
       else (set_heap s h, e0)).
Proof.
  cbv zeta. unfold update.
  set (x := if r then for_each (reset_body t) (cm_heap s) (cm_list s) else (cm_heap s, [])).
  assert (Hx : heq (fst x) (cm_heap s) /\ snd x = if r then reset_events t (cm_heap s) (cm_list s) else []).
  { unfold x; destruct r; [apply reset_stage|split; [intros i|]; reflexivity]. }
  destruct x as [h1 e1]; simpl in Hx. destruct Hx as [Hh He].
  rewrite update_stage. exists h1. split; [exact Hh|]. rewrite He, (upd_events_ext t p h1 (cm_heap s)) by exact Hh.
  cbn [cm_sw set_heap]. destruct (sw_do (cm_sw s)); [|reflexivity].
  destruct (manage_switch t hw (set_heap s h1)) as [s3 e3]; cbn [fst snd].
  rewrite <- app_assoc; reflexivity.
Qed.

(** Decomposition of manageSwitch. *)
Definition start_stage (t : Z) (hw : hw_answers) (s : cm) (h : heap) : heap * list event * bool :=
  if sw_asap (cm_sw s) then start_controllers_asap t hw (cm_sw s) (cm_list s) h (cm_start s)
  else start_controllers t hw (cm_sw s) h (cm_start s).

Lemma manage_decomp t hw s :
  let st1 := stop_controllers t (cm_heap s) (cm_stop s) in
  let st2 := start_stage t hw s (fst st1) in
  cm_heap (fst (manage_switch t hw s)) = fst (fst st2) /\
  cm_sw (fst (manage_switch t hw s)) =
    mkSw (snd st2) true (sw_init (cm_sw s)) (sw_strict (cm_sw s)) (sw_asap (cm_sw s)) (sw_timeout (cm_sw s)) /\
  snd (manage_switch t hw s) = hwdo s ++ snd st1 ++ snd (fst st2).
Proof.
  unfold manage_switch, start_stage, hwdo.
  destruct (stop_controllers t (cm_heap s) (cm_stop s)) as [h1 e1]; cbn [fst snd].
  destruct (if sw_asap (cm_sw s) then _ else _) as [[h2 e2] d]; cbn. auto.
Qed.

(** ** name resolution *)
Lemma by_name_spec l c : NoDup (map name_of l) -> In c l -> by_name l (name_of c) = Some (sp_inst c).
Proof.
  induction l as [|d l IH]; intros Hn Hin; [contradiction|]. simpl in *.
  inversion Hn as [|? ? Hnot Hnd]; subst. unfold name_of at 1. 
  destruct Hin as [->|Hin]; [rewrite String.eqb_refl; reflexivity|].
  destruct (String.eqb_spec (ci_name (sp_info d)) (ci_name (sp_info c))) as [E|]; [|auto].
  exfalso; apply Hnot. unfold name_of at 1; rewrite E. apply (in_map name_of); exact Hin.
Qed.
Lemma by_name_some l n i : by_name l n = Some i -> exists c, In c l /\ name_of c = n /\ sp_inst c = i.
Proof.
  induction l as [|d l IH]; simpl; [discriminate|].
  destruct (String.eqb_spec (ci_name (sp_info d)) n); [intros [= <-]; exists d; auto|].
  intros H; destruct (IH H) as (c & ? & ? & ?); exists c; auto.
Qed.
Lemma by_name_none l n : by_name l n = None <-> ~ In n (map name_of l).
Proof.
  induction l as [|d l IH]; simpl; [tauto|].
  destruct (String.eqb_spec (ci_name (sp_info d)) n) as [E|E].
  - split; [discriminate|]. intros H; exfalso; apply H; left; exact E.
  - rewrite IH. unfold name_of at 2. tauto.
Qed.

(** The instances named by [names], in request order. *)
Fixpoint resolve (l : list cspec) (names : list string) : list nat :=
  match names with
  | [] => []
  | n :: names' => match by_name l n with Some i => i :: resolve l names' | None => resolve l names' end
  end.

Lemma collect_spec strict l names acc :
  collect strict l names acc =
  if strict && negb (forallb (fun n => existsb (String.eqb n) (map name_of l)) names) then None
  else Some (acc ++ resolve l names).
Proof.
  revert acc; induction names as [|n names IH]; intros acc; simpl.
  - rewrite andb_false_r, app_nil_r; reflexivity.
  - destruct (by_name l n) as [i|] eqn:E.
    + assert (Hx : existsb (String.eqb n) (map name_of l) = true).
      { destruct (by_name_some _ _ _ E) as (c & Hc & Hn & _). apply existsb_exists. exists n.
        split; [rewrite <- Hn; apply in_map; exact Hc|apply String.eqb_refl]. }
      rewrite Hx, IH. simpl. rewrite <- app_assoc. reflexivity.
    + assert (Hx : existsb (String.eqb n) (map name_of l) = false).
      { apply by_name_none in E. destruct (existsb _ _) eqn:Ex; [|reflexivity].
        apply existsb_exists in Ex as (m & Hm & Em). apply String.eqb_eq in Em; subst. contradiction. }
      rewrite Hx. simpl. destruct strict; simpl; [reflexivity|]. rewrite IH. reflexivity.
Qed.

Lemma resolve_mem l names c :
  NoDup (map name_of l) -> NoDup (map sp_inst l) -> In c l ->
  mem (sp_inst c) (resolve l names) = existsb (String.eqb (name_of c)) names.
Proof.
  intros H1 H2 Hc. induction names as [|n names IH]; simpl; [reflexivity|].
  destruct (String.eqb_spec (name_of c) n) as [<-|E].
  - rewrite by_name_spec by assumption. simpl. rewrite Nat.eqb_refl; reflexivity.
  - destruct (by_name l n) as [i|] eqn:Eb; simpl; [|exact IH].
    destruct (by_name_some _ _ _ Eb) as (d & Hd & Hn & Hi).
    destruct (Nat.eqb_spec (sp_inst c) i) as [Ei|]; [|exact IH].
    exfalso. apply E. assert (c = d) by (apply (nodup_map_inj sp_inst l); auto; congruence). congruence.
Qed.

Lemma resolve_in l names i : In i (resolve l names) -> In i (map sp_inst l).
Proof.
  induction names as [|n names IH]; simpl; [tauto|]. destruct (by_name l n) as [j|] eqn:E; [|auto].
  intros [<-|H]; auto. destruct (by_name_some _ _ _ E) as (c & Hc & _ & <-). apply in_map; exact Hc.
Qed.

Lemma resolve_nodup l names :
  NoDup (map sp_inst l) -> NoDup names -> NoDup (resolve l names).
Proof.
  intros Hl. induction 1 as [|n names Hn Hnd IH]; simpl; [constructor|].
  destruct (by_name l n) as [i|] eqn:E; [|exact IH]. constructor; [|exact IH].
  intros Hin. apply Hn. clear Hn Hnd IH.
  induction names as [|m names IH]; simpl in *; [contradiction|].
  destruct (by_name l m) as [j|] eqn:Em; [|auto].
  destruct Hin as [->|Hin]; [|auto]. left.
  destruct (by_name_some _ _ _ E) as (c & Hc & E1 & E2), (by_name_some _ _ _ Em) as (d & Hd & E3 & E4).
  assert (c = d) by (apply (nodup_map_inj sp_inst l); auto; congruence). congruence.
Qed.

(** ** the scan *)
Section Scan.
  Variables (strict : bool) (h : heap) (startr stopr : list nat).
  Let A (c : cspec) := mem (sp_inst c) startr.
  Let O (c : cspec) := mem (sp_inst c) stopr.
  Let R (c : cspec) := is_running h (sp_inst c).

  Definition scan_bad (c : cspec) : bool :=
    (R c && O c && A c) || (strict && ((negb (R c) && O c) || (R c && A c))).

  Lemma scan_spec l infos start stop :
    exists a b, scan strict h startr stopr l infos start stop =
    if existsb scan_bad l then ScanRefused a b
    else ScanOk (infos ++ map sp_info (filter (fun c => A c || (R c && negb (O c))) l))
                (start ++ map sp_info (filter (fun c => A c && negb (R c)) l))
                (stop ++ map sp_info (filter (fun c => O c && R c) l)).
  Proof.
    revert infos start stop; induction l as [|c l IH]; intros infos start stop; simpl.
    - exists [], []. rewrite !app_nil_r; reflexivity.
    - unfold scan_bad at 1, A at 1 4 5, O at 1 4 5, R at 1 4 5 6.
      unfold A, O, R in *.
      destruct (is_running h (sp_inst c)), (mem (sp_inst c) stopr), (mem (sp_inst c) startr), strict; simpl;
      try (eexists; eexists; reflexivity);
      (match goal with |- context [scan _ _ _ _ _ ?i ?s ?t] => destruct (IH i s t) as (a & b & ->) end;
       exists a, b; destruct (existsb scan_bad l); [reflexivity|];
       rewrite <- ?app_assoc; reflexivity).
  Qed.
End Scan.
