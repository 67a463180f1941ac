(** Basic invariants of the controller manager model: the state is determined by
    the event trace. *)
From Verif Require Import HwTypes Lifecycle CMModel CMSpec.

Lemma phase_app tr e i : phase_of (tr ++ e) i = fold_left (phase_step i) e (phase_of tr i).
Proof. unfold phase_of; apply fold_left_app. Qed.
Lemma phase_snoc tr e i : phase_of (tr ++ [e]) i = phase_step i (phase_of tr i) e.
Proof. rewrite phase_app; reflexivity. Qed.
Lemma loaded_app tr e : loaded (tr ++ e) = fold_left loaded_step e (loaded tr).
Proof. unfold loaded; apply fold_left_app. Qed.
Lemma phase_eqb_spec a b : phase_eqb a b = true <-> a = b.
Proof. destruct a, b; simpl; split; congruence. Qed.
Lemma runsb_spec tr i : runsb tr i = true <-> runs tr i.
Proof. apply phase_eqb_spec. Qed.

Lemma upd_same h i s : upd h i s i = s.
Proof. unfold upd; rewrite Nat.eqb_refl; reflexivity. Qed.
Lemma upd_other h i s j : j <> i -> upd h i s j = h j.
Proof. unfold upd; intros H; destruct (Nat.eqb_spec j i); congruence. Qed.

Definition st_of (p : phase) : cstate :=
  match p with
  | PAbsent | PGone => CONSTRUCTED
  | PLoaded => INITIALIZED | PStarted => RUNNING | PStopped => STOPPED
  | PWaiting => WAITING | PAborted => ABORTED
  end.

Definition sim (h : heap) (tr : list event) : Prop :=
  forall i, phase_of tr i <> PGone -> h i = st_of (phase_of tr i).

(** Events of a control cycle: callbacks and doSwitch. *)
Definition cyc_ev (e : event) : Prop :=
  match e with EvCb _ _ _ | EvDo _ _ => True | _ => False end.

Lemma loaded_cyc tr e : Forall cyc_ev e -> loaded (tr ++ e) = loaded tr.
Proof.
  rewrite loaded_app. generalize (loaded tr); induction 1 as [|x e Hx He IH]; simpl; [reflexivity|].
  destruct x; simpl in *; try contradiction; exact IH.
Qed.

Lemma phase_cyc_gone tr e i : Forall cyc_ev e ->
  phase_of (tr ++ e) i = PGone -> phase_of tr i = PGone.
Proof.
  rewrite phase_app. generalize (phase_of tr i); induction e as [|x e IH] using rev_ind; simpl; intros p H; [auto|].
  apply Forall_app in H as [H1 H2]. inversion H2; subst.
  rewrite fold_left_app; simpl. destruct x as [j c t| | | | | | ]; simpl in *; try contradiction.
  - destruct c, (Nat.eqb i j); try discriminate; auto.
  - auto.
Qed.

Lemma phase_cyc_absent tr e i : Forall cyc_ev e ->
  phase_of (tr ++ e) i = PAbsent -> phase_of tr i = PAbsent.
Proof.
  rewrite phase_app. generalize (phase_of tr i); induction e as [|x e IH] using rev_ind; simpl; intros p H; [auto|].
  apply Forall_app in H as [H1 H2]. inversion H2; subst.
  rewrite fold_left_app; simpl. destruct x as [j c t| | | | | | ]; simpl in *; try contradiction.
  - destruct c, (Nat.eqb i j); try discriminate; auto.
  - auto.
Qed.

(** ** Induction principles for the loops of a cycle *)

Lemma for_each_ind {A} (f : heap -> A -> heap * list event) (P : heap -> list event -> Prop) l :
  (forall a h e, In a l -> P h e -> P (fst (f h a)) (e ++ snd (f h a))) ->
  forall h e, P h e -> P (fst (for_each f h l)) (e ++ snd (for_each f h l)).
Proof.
  induction l as [|a l IH]; intros Hf h e H; simpl.
  - rewrite app_nil_r; exact H.
  - assert (Ha := Hf a h e (or_introl eq_refl) H).
    destruct (f h a) as [h1 e1]; simpl in *.
    specialize (IH (fun a h e Hin => Hf a h e (or_intror Hin)) _ _ Ha).
    destruct (for_each f h1 l) as [h2 e2]; simpl in *.
    rewrite app_assoc; exact IH.
Qed.

Definition asap_outer (t : Z) (hw : hw_answers) (sw : swparams) (l : list cspec) (h : heap) (ki : nat * nat)
  : heap * list event :=
  if is_running h (snd ki) then (h, []) else for_each (asap_inner t hw sw (fst ki) (snd ki)) h l.

Lemma asap_loop_for_each t hw sw l k h start :
  asap_loop t hw sw l k h start =
  for_each (asap_outer t hw sw l) h (combine (seq k (length start)) start).
Proof.
  revert k h; induction start as [|i start IH]; intros k h; simpl; [reflexivity|].
  unfold asap_outer at 1; simpl.
  destruct (if is_running h i then _ else _) as [h1 e1].
  rewrite IH. reflexivity.
Qed.

Lemma in_combine_seq {A} k (l : list A) x : In x (combine (seq k (length l)) l) -> In (snd x) l.
Proof. destruct x; apply in_combine_r. Qed.

(** A property preserved by every primitive request is preserved by a cycle. *)
Section PrimInd.
  Variable t p : Z.
  Variable P : heap -> list event -> Prop.
  Variable QL Q : nat -> Prop.   (* instances in the list; instances that may get requests *)
  Hypothesis Hupdate : forall h e i, QL i -> P h e -> P (fst (update_request t p h i)) (e ++ snd (update_request t p h i)).
  Hypothesis Hstart : forall h e i, Q i -> P h e -> P (fst (start_request t h i)) (e ++ snd (start_request t h i)).
  Hypothesis Hstop : forall h e i, Q i -> P h e -> P (fst (stop_request t h i)) (e ++ snd (stop_request t h i)).
  Hypothesis Hwait : forall h e i, Q i -> P h e -> P (fst (wait_request t h i)) (e ++ snd (wait_request t h i)).
  Hypothesis Habort : forall h e i, Q i -> P h e -> P (fst (abort_request t h i)) (e ++ snd (abort_request t h i)).
  Hypothesis Hdo : forall h e a b, P h e -> P h (e ++ [EvDo a b]).

  Lemma reset_prim h e l : (forall c, In c l -> Q (sp_inst c)) -> P h e ->
    P (fst (for_each (reset_body t) h l)) (e ++ snd (for_each (reset_body t) h l)).
  Proof.
    intros HQ. apply for_each_ind. intros c h0 e0 Hin H. unfold reset_body. specialize (HQ c Hin).
    destruct (is_running h0 (sp_inst c)); simpl; [|rewrite app_nil_r; exact H].
    assert (H1 := Hstop _ _ (sp_inst c) HQ H).
    destruct (stop_request t h0 (sp_inst c)) as [h1 e1]; simpl in *.
    assert (H2 := Hstart _ _ (sp_inst c) HQ H1).
    destruct (start_request t h1 (sp_inst c)) as [h2 e2]; simpl in *.
    rewrite app_assoc; exact H2.
  Qed.

  Lemma stop_prim h e l : (forall i, In i l -> Q i) -> P h e ->
    P (fst (stop_controllers t h l)) (e ++ snd (stop_controllers t h l)).
  Proof.
    intros HQ. apply for_each_ind. intros c h0 e0 Hin H. unfold stop_body.
    destruct (is_running h0 c); simpl; [apply Hstop; auto|rewrite app_nil_r; exact H].
  Qed.

  Lemma start_prim hw sw h e l : (forall i, In i l -> Q i) -> P h e ->
    P (fst (fst (start_controllers t hw sw h l))) (e ++ snd (fst (start_controllers t hw sw h l))).
  Proof.
    intros HQ H. unfold start_controllers.
    destruct (swstate_eqb _ _); simpl; [apply for_each_ind; auto|].
    destruct (_ || _); simpl; apply for_each_ind; auto.
  Qed.

  Lemma asap_prim hw sw cl h e l : (forall c, In c cl -> Q (sp_inst c)) -> P h e ->
    P (fst (fst (start_controllers_asap t hw sw cl h l))) (e ++ snd (fst (start_controllers_asap t hw sw cl h l))).
  Proof.
    intros HQ H. unfold start_controllers_asap. rewrite asap_loop_for_each.
    assert (X : P (fst (for_each (asap_outer t hw sw cl) h (combine (seq 0 (length l)) l)))
                  (e ++ snd (for_each (asap_outer t hw sw cl) h (combine (seq 0 (length l)) l)))).
    { apply for_each_ind; [|exact H]. intros [k i] h0 e0 _ H0. unfold asap_outer; simpl.
      destruct (is_running h0 i); simpl; [rewrite app_nil_r; exact H0|].
      apply for_each_ind; [|exact H0]. intros c h1 e1 Hin H1. unfold asap_inner.
      destruct (Nat.eqb_spec i (sp_inst c)) as [->|]; simpl; [|rewrite app_nil_r; exact H1].
      specialize (HQ c Hin).
      destruct (swstate_eqb _ _); simpl; [apply Hstart; assumption|].
      destruct (_ || _); simpl; auto. }
    destruct (for_each _ _ _) as [h1 e1]; exact X.
  Qed.

  Lemma manage_prim hw s e :
    (forall c, In c (cm_list s) -> Q (sp_inst c)) -> (forall i, In i (cm_start s) -> Q i) ->
    (forall i, In i (cm_stop s) -> Q i) -> P (cm_heap s) e ->
    P (cm_heap (fst (manage_switch t hw s))) (e ++ snd (manage_switch t hw s)).
  Proof.
    intros HQ1 HQ2 HQ3 H. unfold manage_switch.
    set (e0 := if sw_started _ then _ else _).
    assert (H0 : P (cm_heap s) (e ++ e0)).
    { unfold e0. destruct (sw_started _); [rewrite app_nil_r; exact H|apply Hdo; exact H]. }
    apply (stop_prim _ _ (cm_stop s) HQ3) in H0.
    destruct (stop_controllers t (cm_heap s) (cm_stop s)) as [h1 e1]; simpl in *.
    destruct (sw_asap (cm_sw s)).
    - apply (asap_prim hw (cm_sw s) (cm_list s) _ _ (cm_start s) HQ1) in H0.
      destruct (start_controllers_asap _ _ _ _ _ _) as [[h2 e2] d]; simpl in *.
      rewrite <- !app_assoc in *; exact H0.
    - apply (start_prim hw (cm_sw s) _ _ (cm_start s) HQ2) in H0.
      destruct (start_controllers _ _ _ _ _) as [[h2 e2] d]; simpl in *.
      rewrite <- !app_assoc in *; exact H0.
  Qed.

  Lemma update_prim hw r s e :
    (forall c, In c (cm_list s) -> QL (sp_inst c)) -> (forall c, In c (cm_list s) -> Q (sp_inst c)) ->
    (forall i, In i (cm_start s) -> Q i) -> (forall i, In i (cm_stop s) -> Q i) -> P (cm_heap s) e ->
    P (cm_heap (fst (update t p r hw s))) (e ++ snd (update t p r hw s)).
  Proof.
    intros HQL HQ1 HQ2 HQ3 H. unfold update.
    assert (H0 : let x := if r then for_each (reset_body t) (cm_heap s) (cm_list s) else (cm_heap s, []) in
                 P (fst x) (e ++ snd x)).
    { destruct r; cbv zeta; [apply reset_prim; assumption|simpl; rewrite app_nil_r; exact H]. }
    cbv zeta in H0. destruct (if r then _ else _) as [h1 e1]; simpl in H0.
    apply (for_each_ind (update_body t p) P (cm_list s)) in H0; [|intros; apply Hupdate; auto].
    destruct (for_each _ h1 (cm_list s)) as [h2 e2]; simpl in *.
    destruct (sw_do (cm_sw s)); simpl.
    - apply (manage_prim hw (set_heap s h2) _ HQ1 HQ2 HQ3) in H0.
      destruct (manage_switch t hw (set_heap s h2)) as [s3 e3]; simpl in *.
      rewrite <- !app_assoc in *; exact H0.
    - rewrite app_assoc; exact H0.
  Qed.
End PrimInd.

(** ** The heap is what the trace says *)

Lemma sim_cb h tr i c t s :
  sim h tr -> phase_step i (phase_of tr i) (EvCb i c t) <> PGone ->
  st_of (phase_step i (phase_of tr i) (EvCb i c t)) = s ->
  sim (upd h i s) (tr ++ [EvCb i c t]).
Proof.
  intros H Hg Hs j Hj. rewrite phase_snoc in *.
  destruct (Nat.eq_dec j i) as [->|Hne].
  - rewrite upd_same; auto.
  - rewrite upd_other by assumption.
    assert (E : phase_step j (phase_of tr j) (EvCb i c t) = phase_of tr j).
    { simpl. destruct (Nat.eqb_spec j i); [congruence|]. destruct c; reflexivity. }
    rewrite E in *; apply H; assumption.
Qed.

Lemma sim_prims t p :
  (forall h e i, sim h e -> sim (fst (update_request t p h i)) (e ++ snd (update_request t p h i))) /\
  (forall h e i, sim h e -> sim (fst (start_request t h i)) (e ++ snd (start_request t h i))) /\
  (forall h e i, sim h e -> sim (fst (stop_request t h i)) (e ++ snd (stop_request t h i))) /\
  (forall h e i, sim h e -> sim (fst (wait_request t h i)) (e ++ snd (wait_request t h i))) /\
  (forall h e i, sim h e -> sim (fst (abort_request t h i)) (e ++ snd (abort_request t h i))) /\
  (forall h e a b, sim h e -> sim h (e ++ [EvDo a b])).
Proof.
  repeat split; intros h e i H.
  - unfold update_request; destruct (h i) eqn:E; simpl; rewrite ?app_nil_r; auto.
    intros j; rewrite phase_snoc; apply H.
  - unfold start_request; destruct (h i) eqn:E; simpl; rewrite ?app_nil_r; auto;
    (apply sim_cb; [exact H| |]; simpl; rewrite Nat.eqb_refl; [discriminate|reflexivity]).
  - unfold stop_request; destruct (h i) eqn:E; simpl; rewrite ?app_nil_r; auto;
    (apply sim_cb; [exact H| |]; simpl; rewrite Nat.eqb_refl; [discriminate|reflexivity]).
  - unfold wait_request; destruct (h i) eqn:E; simpl; rewrite ?app_nil_r; auto;
    (apply sim_cb; [exact H| |]; simpl; rewrite Nat.eqb_refl; [discriminate|reflexivity]).
  - unfold abort_request; destruct (h i) eqn:E; simpl; rewrite ?app_nil_r; auto;
    (apply sim_cb; [exact H| |]; simpl; rewrite Nat.eqb_refl; [discriminate|reflexivity]).
  - intros Hs j; rewrite phase_snoc; apply Hs.
Qed.

Lemma update_sim t p r hw s tr :
  sim (cm_heap s) tr -> sim (cm_heap (fst (update t p r hw s))) (tr ++ snd (update t p r hw s)).
Proof.
  destruct (sim_prims t p) as (H1 & H2 & H3 & H4 & H5 & H6).
  apply update_prim with (QL := fun _ => True) (Q := fun _ => True); auto.
Qed.

Lemma update_cyc t p r hw s : Forall cyc_ev (snd (update t p r hw s)).
Proof.
  apply (update_prim t p (fun _ e => Forall cyc_ev e) (fun _ => True) (fun _ => True)) with (e := []); try (constructor; fail); auto;
  intros; simpl; unfold update_request, start_request, stop_request, wait_request, abort_request;
  try destruct (h i); simpl; rewrite ?app_nil_r; auto; apply Forall_app; split; auto; repeat constructor.
Qed.

(** Constructed-only instances stay so. *)
Lemma update_constructed t p r hw s i :
  cm_heap s i = CONSTRUCTED ->
  cm_heap (fst (update t p r hw s)) i = CONSTRUCTED /\
  (forall c t', ~ In (EvCb i c t') (snd (update t p r hw s))).
Proof.
  intros H0.
  apply (update_prim t p (fun h e => h i = CONSTRUCTED /\ forall c t', ~ In (EvCb i c t') e)
           (fun _ => True) (fun _ => True)) with (e := []);
  auto; intros; match goal with H : _ /\ _ |- _ => destruct H as [Hh He] end;
  unfold update_request, start_request, stop_request, wait_request, abort_request;
  try (destruct (Nat.eq_dec i0 i) as [->|Hne]; [rewrite Hh; simpl; rewrite app_nil_r; auto|]);
  try destruct (h i0) eqn:E; simpl; rewrite ?app_nil_r; rewrite ?upd_other by auto;
  (split; [assumption|]; try assumption; intros c t' Hin; apply in_app_iff in Hin as [Hin|[[=]|[]]];
  try congruence; eapply He; eassumption).
Qed.

(** Fields not touched by a cycle. *)
Lemma manage_frame t hw s :
  let s' := fst (manage_switch t hw s) in
  cm_list s' = cm_list s /\ cm_next s' = cm_next s /\ cm_start s' = cm_start s /\ cm_stop s' = cm_stop s /\
  cm_hwstart s' = cm_hwstart s /\ cm_hwstop s' = cm_hwstop s /\ cm_loaders s' = cm_loaders s /\ cm_call s' = cm_call s.
Proof.
  unfold manage_switch. destruct (stop_controllers _ _ _) as [h1 e1].
  destruct (if sw_asap _ then _ else _) as [[h2 e2] d]; simpl. repeat split.
Qed.

Lemma update_frame t p r hw s :
  let s' := fst (update t p r hw s) in
  cm_list s' = cm_list s /\ cm_next s' = cm_next s /\ cm_start s' = cm_start s /\ cm_stop s' = cm_stop s /\
  cm_hwstart s' = cm_hwstart s /\ cm_hwstop s' = cm_hwstop s /\ cm_loaders s' = cm_loaders s /\ cm_call s' = cm_call s.
Proof.
  unfold update. destruct (if r then _ else _) as [h1 e1]. destruct (for_each _ h1 _) as [h2 e2].
  destruct (sw_do _); simpl; [|repeat split].
  generalize (manage_frame t hw (set_heap s h2)).
  destruct (manage_switch t hw (set_heap s h2)) as [s3 e3]; simpl. intros H; exact H.
Qed.

(** ** The base invariant *)

Definition name_of (c : cspec) : string := ci_name (sp_info c).

Record Inv (s : cm) (tr : list event) : Prop := {
  inv_list : map (fun c => (sp_inst c, sp_info c)) (cm_list s) = loaded tr;
  inv_sim : sim (cm_heap s) tr;
  inv_nodup : NoDup (map sp_inst (cm_list s));
  inv_names : NoDup (map name_of (cm_list s));
  inv_lt : forall c, In c (cm_list s) -> (sp_inst c < cm_next s)%nat;
  inv_fresh : forall i, (cm_next s <= i)%nat -> phase_of tr i = PAbsent;
  inv_live : forall c, In c (cm_list s) -> phase_of tr (sp_inst c) <> PGone /\ phase_of tr (sp_inst c) <> PAbsent;
  inv_reload : forall tmo names, cm_call s = WaitSwitch tmo (KReload names) -> names = controller_names s }.

Lemma inv_init ls : Inv (cm_init ls) [].
Proof.
  split; simpl; try (intros; contradiction); try constructor; try discriminate; auto.
Qed.

(** Two states with the same controllers. *)
Lemma inv_same s s' tr e :
  Inv s tr -> cm_list s' = cm_list s -> cm_heap s' = cm_heap s -> (cm_next s <= cm_next s')%nat ->
  (forall tmo names, cm_call s' = WaitSwitch tmo (KReload names) -> names = controller_names s) ->
  (forall i, phase_of (tr ++ e) i = phase_of tr i) -> loaded (tr ++ e) = loaded tr ->
  Inv s' (tr ++ e).
Proof.
  intros [] Hl Hh Hn Hc Hp Hlo. split; rewrite ?Hl, ?Hh, ?Hlo; auto.
  - intros i; rewrite Hp; apply inv_sim0.
  - intros c Hin; specialize (inv_lt0 c Hin); lia.
  - intros i Hi; rewrite Hp; apply inv_fresh0; lia.
  - intros c Hin; rewrite Hp; auto.
  - intros tmo names H. unfold controller_names; rewrite Hl; eapply Hc; eassumption.
Qed.

Lemma phase_nil tr i : phase_of (tr ++ []) i = phase_of tr i.
Proof. rewrite app_nil_r; reflexivity. Qed.

Definition neutral (e : event) : Prop :=
  match e with EvCb _ (CbUpdate _) _ | EvPrepare _ _ _ | EvDo _ _ | EvReload _ | EvCreate _ => True | _ => False end.

Lemma phase_neutral tr e i : Forall neutral e -> phase_of (tr ++ e) i = phase_of tr i.
Proof.
  rewrite phase_app. generalize (phase_of tr i); induction 1 as [|x e Hx He IH]; simpl; [reflexivity|].
  destruct x as [j c t| | | | | |]; simpl in *; try contradiction; try exact IH.
  destruct c; try contradiction; exact IH.
Qed.
Lemma loaded_neutral tr e : Forall neutral e -> loaded (tr ++ e) = loaded tr.
Proof.
  rewrite loaded_app. generalize (loaded tr); induction 1 as [|x e Hx He IH]; simpl; [reflexivity|].
  destruct x as [j c t| | | | | |]; simpl in *; try contradiction; exact IH.
Qed.

Lemma inv_update t p r hw s tr :
  Inv s tr -> Inv (fst (update t p r hw s)) (tr ++ snd (update t p r hw s)).
Proof.
  intros HI. pose proof HI as HI'. destruct HI.
  destruct (update_frame t p r hw s) as (Hl & Hn & _ & _ & _ & _ & _ & Hc).
  pose proof (update_cyc t p r hw s) as Hcyc.
  split; rewrite ?Hl, ?Hn, ?(loaded_cyc _ _ Hcyc); auto.
  - apply update_sim; assumption.
  - intros i Hi.
    assert (Hcons : cm_heap s i = CONSTRUCTED).
    { rewrite inv_sim0; rewrite inv_fresh0 by assumption; [reflexivity|discriminate]. }
    destruct (update_constructed t p r hw s i Hcons) as [_ Hno].
    rewrite phase_app, (inv_fresh0 i Hi).
    revert Hno Hcyc. generalize (snd (update t p r hw s)) as e.
    induction e as [|x e IH]; intros Hno Hcyc; simpl; [reflexivity|].
    inversion Hcyc; subst.
    assert (E : phase_step i PAbsent x = PAbsent).
    { destruct x as [j c t'| | | | | |]; simpl in *; try contradiction; auto.
      destruct (Nat.eqb_spec i j) as [->|]; [|destruct c; reflexivity].
      exfalso; apply (Hno c t'); left; reflexivity. }
    rewrite E. apply IH; [|assumption]. intros c t' Hin; apply (Hno c t'); right; exact Hin.
  - intros c Hin; destruct (inv_live0 c Hin) as [Hg Ha]. split; intros E.
    + apply phase_cyc_gone in E; auto.
    + apply phase_cyc_absent in E; auto.
  - intros tmo names. rewrite Hc. unfold controller_names; rewrite Hl. apply inv_reload0.
Qed.

(** ** load *)
Lemma try_classes_neutral ty k c cls : Forall neutral (snd (try_classes ty k c cls)).
Proof.
  revert c; induction cls as [|[n r] cls IH]; intros c; simpl; [constructor|].
  destruct (String.eqb ty n); [|apply IH].
  destruct r; simpl; [| |repeat constructor].
  - specialize (IH true); destruct (try_classes ty k true cls) as [[c' x] e]; simpl in *; constructor; simpl; auto.
  - specialize (IH false); destruct (try_classes ty k false cls) as [[c' x] e]; simpl in *; constructor; simpl; auto.
Qed.

Lemma construct_neutral ty k ls : Forall neutral (snd (construct ty k ls)).
Proof.
  revert k; induction ls as [|l ls IH]; intros k; simpl; [constructor|].
  pose proof (try_classes_neutral ty k false (ld_classes l)) as H.
  destruct (try_classes ty k false (ld_classes l)) as [[c x] e]; simpl in *.
  destruct (x || c); simpl; [exact H|].
  specialize (IH (S k)); destruct (construct ty (S k) ls) as [c' e']; simpl in *.
  apply Forall_app; auto.
Qed.

Lemma existsb_name l n :
  existsb (fun c => String.eqb (ci_name (sp_info c)) n) l = false <-> ~ In n (map name_of l).
Proof.
  induction l as [|c l IH]; simpl; [tauto|].
  rewrite orb_false_iff, IH. unfold name_of at 2. destruct (String.eqb_spec (ci_name (sp_info c)) n); intuition congruence.
Qed.

Lemma inv_load n env s tr :
  Inv s tr -> cm_call s = Idle ->
  Inv (fst (fst (load_controller n env s))) (tr ++ snd (fst (load_controller n env s))).
Proof.
  intros HI Hidle. unfold load_controller.
  assert (Hsame : Inv s (tr ++ [])) by (rewrite app_nil_r; exact HI).
  destruct (existsb _ _) eqn:Edup; [exact Hsame|].
  destruct (negb _); [exact Hsame|].
  destruct (le_type env) as [ty|]; [|exact Hsame].
  pose proof (construct_neutral ty 0 (cm_loaders s)) as Hneu.
  destruct (construct ty 0 (cm_loaders s)) as [c ec]; simpl in Hneu.
  assert (Hs2 : forall s', cm_list s' = cm_list s -> cm_heap s' = cm_heap s -> (cm_next s <= cm_next s')%nat ->
                cm_call s' = cm_call s -> Inv s' (tr ++ ec)).
  { intros s' E1 E2 E3 E4. eapply inv_same; eauto.
    - rewrite E4, Hidle; discriminate.
    - intros i; apply phase_neutral; exact Hneu.
    - apply loaded_neutral; exact Hneu. }
  destruct c; [|apply Hs2; auto].
  destruct (le_init env) as [claims| |]; [|apply Hs2; simpl; auto ..].
  assert (HI2 := Hs2 s eq_refl eq_refl (Nat.le_refl _) eq_refl). clear Hs2 HI Hsame.
  cbn [fst snd]. rewrite app_assoc. revert HI2. generalize (tr ++ ec) as tr2. clear tr ec Hneu.
  intros tr [].
  set (info := mkInfo n ty claims). cbn [fst snd].
  assert (Hold : forall c, In c (cm_list s) -> sp_inst c <> cm_next s) by (intros c Hc; specialize (inv_lt0 c Hc); lia).
  split; cbn.
  - rewrite map_app, inv_list0, loaded_app; reflexivity.
  - intros i. rewrite phase_snoc. cbn. destruct (Nat.eqb_spec i (cm_next s)) as [->|Hne].
    + intros _; apply upd_same.
    + intros Hg; rewrite upd_other by assumption; auto.
  - rewrite map_app; cbn. apply NoDup_rev in inv_nodup0. rewrite <- (rev_involutive (map sp_inst _ ++ _)).
    apply NoDup_rev. rewrite rev_app_distr; cbn. constructor; [|exact inv_nodup0].
    rewrite <- in_rev, in_map_iff. intros [c [E Hc]]. exact (Hold c Hc E).
  - rewrite map_app; cbn. apply NoDup_rev in inv_names0. rewrite <- (rev_involutive (map name_of _ ++ _)).
    apply NoDup_rev. rewrite rev_app_distr; cbn. constructor; [|exact inv_names0].
    rewrite <- in_rev. apply existsb_name. exact Edup.
  - intros c Hin. apply in_app_iff in Hin as [Hin|[<-|[]]]; [specialize (inv_lt0 c Hin); lia|cbn; lia].
  - intros i Hi. rewrite phase_snoc; cbn. destruct (Nat.eqb_spec i (cm_next s)); [lia|]. apply inv_fresh0; lia.
  - intros c Hin. rewrite phase_snoc; cbn.
    apply in_app_iff in Hin as [Hin|[<-|[]]].
    + destruct (Nat.eqb_spec (sp_inst c) (cm_next s)) as [E|]; [exfalso; exact (Hold c Hin E)|auto].
    + cbn. rewrite Nat.eqb_refl. split; discriminate.
  - rewrite Hidle; discriminate.
Qed.

(** ** unload *)
Lemma unload_scan_spec h n l to b :
  unload_scan h n l = Some (to, b) ->
  to = filter (fun c => negb (String.eqb (name_of c) n)) l /\
  b = existsb (fun c => String.eqb (name_of c) n) l /\
  (forall c, In c l -> name_of c = n -> is_running h (sp_inst c) = false).
Proof.
  revert to b; induction l as [|c l IH]; intros to b; simpl.
  - intros [= <- <-]; repeat split; auto; intros ? [].
  - change (ci_name (sp_info c)) with (name_of c). destruct (String.eqb_spec (name_of c) n) as [E|E]; simpl.
    + destruct (is_running h (sp_inst c)) eqn:Er; [discriminate|].
      destruct (unload_scan h n l) as [[to' b']|]; [|discriminate].
      intros [= <- <-]. destruct (IH _ _ eq_refl) as (H1 & H2 & H3).
      split; [assumption|]. split; [reflexivity|]. intros c' [<-|Hin] Hn; auto.
    + destruct (unload_scan h n l) as [[to' b']|]; [|discriminate].
      intros [= <- <-]. destruct (IH _ _ eq_refl) as (H1 & H2 & H3).
      split; [congruence|]. split; [assumption|]. intros c' [<-|Hin] Hn; auto. contradiction.
Qed.

Lemma unload_scan_none h n l :
  unload_scan h n l = None <-> exists c, In c l /\ name_of c = n /\ is_running h (sp_inst c) = true.
Proof.
  induction l as [|c l IH]; simpl.
  - split; [discriminate|]. intros (c & [] & _).
  - destruct (String.eqb_spec (ci_name (sp_info c)) n) as [E|E]; simpl.
    + destruct (is_running h (sp_inst c)) eqn:Er.
      * split; [|reflexivity]. intros _; exists c; auto.
      * destruct (unload_scan h n l) as [[to' b']|].
        -- split; [discriminate|]. intros (c' & [<-|Hin] & Hn & Hr); [congruence|].
           assert (None = Some (to', b')) by (symmetry; apply IH; exists c'; auto). discriminate.
        -- split; [|reflexivity]. intros _. destruct (proj1 IH eq_refl) as (c' & ? & ? & ?); exists c'; auto.
    + destruct (unload_scan h n l) as [[to' b']|].
      * split; [discriminate|]. intros (c' & [<-|Hin] & Hn & Hr); [contradiction|].
        assert (None = Some (to', b')) by (symmetry; apply IH; exists c'; auto). discriminate.
      * split; [|reflexivity]. intros _. destruct (proj1 IH eq_refl) as (c' & ? & ? & ?); exists c'; auto.
Qed.

(** With unique names exactly one controller is dropped. *)
Lemma nodup_map_filter {A B} (f : A -> B) (g : A -> bool) l : NoDup (map f l) -> NoDup (map f (filter g l)).
Proof.
  induction l as [|a l IH]; simpl; [auto|]. inversion 1; subst.
  destruct (g a); simpl; auto. constructor; auto.
  intros Hin; apply in_map_iff in Hin as (b & E & Hb). apply filter_In in Hb as [Hb _].
  apply H2. rewrite <- E. apply in_map; exact Hb.
Qed.

Lemma nodup_map_inj {A B} (f : A -> B) l a b : NoDup (map f l) -> In a l -> In b l -> f a = f b -> a = b.
Proof.
  induction l as [|c l IH]; simpl; [tauto|]. inversion 1 as [|? ? Hn Hd]; subst.
  intros [->|Ha] [->|Hb] E; auto.
  - exfalso; apply Hn; rewrite E; apply in_map; exact Hb.
  - exfalso; apply Hn; rewrite <- E; apply in_map; exact Ha.
Qed.

Lemma dropped_one l c0 n :
  NoDup (map sp_inst l) -> NoDup (map name_of l) -> In c0 l -> name_of c0 = n ->
  dropped l (filter (fun c => negb (String.eqb (name_of c) n)) l) = [EvDestroyed (sp_inst c0)].
Proof.
  intros Hi Hn Hin Hc. unfold dropped.
  assert (E : filter (fun c => negb (existsb (fun d => Nat.eqb (sp_inst c) (sp_inst d))
                 (filter (fun c => negb (String.eqb (name_of c) n)) l))) l
              = filter (fun c => String.eqb (name_of c) n) l).
  { apply filter_ext_in. intros c Hcl.
    destruct (String.eqb_spec (name_of c) n) as [E|E].
    - destruct (existsb _ _) eqn:Ex; [|reflexivity].
      apply existsb_exists in Ex as (d & Hd & Ed). apply Nat.eqb_eq in Ed.
      apply filter_In in Hd as [Hd Hdn].
      assert (c = d) by exact (nodup_map_inj sp_inst l c d Hi Hcl Hd Ed). subst d.
      rewrite E, String.eqb_refl in Hdn; discriminate.
    - assert (Ex : existsb (fun d => Nat.eqb (sp_inst c) (sp_inst d)) (filter (fun c => negb (String.eqb (name_of c) n)) l) = true).
      { apply existsb_exists. exists c. split; [|apply Nat.eqb_refl].
        apply filter_In; split; [assumption|]. destruct (String.eqb_spec (name_of c) n); [contradiction|reflexivity]. }
      rewrite Ex; reflexivity. }
  rewrite E. clear E.
  assert (E : filter (fun c => String.eqb (name_of c) n) l = [c0]).
  { clear Hi. induction l as [|c l IH]; [contradiction|]. simpl in *. inversion Hn as [|? ? Hnot Hnd]; subst.
    destruct Hin as [->|Hin].
    - rewrite String.eqb_refl. f_equal.
      assert (F : forall c, In c l -> String.eqb (name_of c) (name_of c0) = false).
      { intros c Hcl. destruct (String.eqb_spec (name_of c) (name_of c0)) as [Ec|]; [|reflexivity].
        exfalso; apply Hnot; rewrite <- Ec; apply in_map; exact Hcl. }
      clear - F. induction l as [|c l IH]; simpl; [reflexivity|]. rewrite F by (left; reflexivity).
      apply IH; intros; apply F; right; assumption.
    - destruct (String.eqb_spec (name_of c) (name_of c0)) as [Ec|].
      + exfalso; apply Hnot; rewrite Ec; apply in_map; exact Hin.
      + apply IH; auto. }
  rewrite E; reflexivity.
Qed.

(** What a successful unload does. *)
Lemma unload_ok n s tr s' e :
  Inv s tr -> unload_controller n s = (s', e, true) ->
  exists c0, In c0 (cm_list s) /\ name_of c0 = n /\ is_running (cm_heap s) (sp_inst c0) = false /\
    e = [EvDestroyed (sp_inst c0)] /\
    s' = set_list s (filter (fun c => negb (String.eqb (name_of c) n)) (cm_list s)) /\
    filter (fun c => negb (String.eqb (name_of c) n)) (cm_list s) =
      filter (fun c => negb (Nat.eqb (sp_inst c) (sp_inst c0))) (cm_list s).
Proof.
  intros HI. unfold unload_controller.
  destruct (unload_scan _ _ _) as [[to [|]]|] eqn:E; try discriminate.
  apply unload_scan_spec in E as (Hto & Hb & Hr).
  symmetry in Hb. apply existsb_exists in Hb as (c0 & Hin & Hn). apply String.eqb_eq in Hn.
  intros [= <- <-]. exists c0. subst to.
  rewrite (dropped_one _ c0 n); try assumption; try apply HI.
  repeat split; auto.
  apply filter_ext_in. intros c Hc. f_equal.
  destruct (String.eqb_spec (name_of c) n) as [En|En], (Nat.eqb_spec (sp_inst c) (sp_inst c0)) as [Ei|Ei]; auto.
  - exfalso; apply Ei. f_equal. eapply nodup_map_inj; [apply (inv_names _ _ HI)|..]; try assumption; congruence.
  - exfalso; apply En. assert (c = c0) by (eapply nodup_map_inj; [apply (inv_nodup _ _ HI)|..]; assumption). congruence.
Qed.

Lemma unload_fail n s s' e : unload_controller n s = (s', e, false) -> s' = s /\ e = [].
Proof.
  unfold unload_controller. destruct (unload_scan _ _ _) as [[to [|]]|]; intros [=]; auto.
Qed.

Lemma map_filter_pair (l : list cspec) i :
  map (fun c => (sp_inst c, sp_info c)) (filter (fun c => negb (Nat.eqb (sp_inst c) i)) l) =
  filter (fun x => negb (Nat.eqb (fst x) i)) (map (fun c => (sp_inst c, sp_info c)) l).
Proof.
  induction l as [|c l IH]; simpl; [reflexivity|].
  destruct (negb (Nat.eqb (sp_inst c) i)); simpl; rewrite IH; reflexivity.
Qed.

Lemma inv_unload n s tr :
  Inv s tr -> cm_call s = Idle ->
  Inv (fst (fst (unload_controller n s))) (tr ++ snd (fst (unload_controller n s))).
Proof.
  intros HI Hidle. destruct (unload_controller n s) as [[s' e] b] eqn:E; cbn [fst snd].
  destruct b.
  - destruct (unload_ok _ _ _ _ _ HI E) as (c0 & Hin & Hn & Hr & -> & -> & Hf). rewrite Hf.
    destruct HI. split; cbn.
    + rewrite map_filter_pair, inv_list0, loaded_app; reflexivity.
    + intros i; rewrite phase_snoc; cbn. destruct (Nat.eqb_spec i (sp_inst c0)); [congruence|]. apply inv_sim0.
    + apply nodup_map_filter; assumption.
    + apply nodup_map_filter; assumption.
    + intros c Hc; apply filter_In in Hc as [Hc _]; auto.
    + intros i Hi; rewrite phase_snoc; cbn. destruct (Nat.eqb_spec i (sp_inst c0)) as [->|]; [|auto].
      specialize (inv_lt0 c0 Hin); lia.
    + intros c Hc; apply filter_In in Hc as [Hc Hne]. rewrite phase_snoc; cbn.
      destruct (Nat.eqb (sp_inst c) (sp_inst c0)); [discriminate|auto].
    + rewrite Hidle; discriminate.
  - destruct (unload_fail _ _ _ _ E) as [-> ->]. rewrite app_nil_r; exact HI.
Qed.

Lemma unload_call n s : cm_call (fst (fst (unload_controller n s))) = cm_call s.
Proof. unfold unload_controller. destruct (unload_scan _ _ _) as [[to [|]]|]; reflexivity. Qed.

Lemma inv_unload_all names s tr :
  Inv s tr -> cm_call s = Idle ->
  Inv (fst (fst (unload_all names s))) (tr ++ snd (fst (unload_all names s))) /\
  cm_call (fst (fst (unload_all names s))) = Idle.
Proof.
  revert s tr; induction names as [|n names IH]; intros s tr HI Hidle; simpl.
  - rewrite app_nil_r; auto.
  - pose proof (inv_unload n s tr HI Hidle) as H1. pose proof (unload_call n s) as Hc.
    destruct (unload_controller n s) as [[s1 e1] ok]; cbn [fst snd] in *.
    destruct ok.
    + destruct (IH s1 (tr ++ e1) H1) as [H2 H3]; [congruence|].
      destruct (unload_all names s1) as [[s2 e2] ok2]; cbn [fst snd] in *.
      rewrite <- app_assoc in H2; auto.
    + cbn [fst snd]; split; [exact H1|congruence].
Qed.

Lemma reload_events_neutral k ls : Forall neutral (reload_events k ls).
Proof. revert k; induction ls; intros k; simpl; constructor; simpl; auto. Qed.

Lemma inv_reload_tail names s tr :
  Inv s tr -> cm_call s = Idle ->
  Inv (fst (fst (reload_tail names s))) (tr ++ snd (fst (reload_tail names s))) /\
  cm_call (fst (fst (reload_tail names s))) = Idle.
Proof.
  intros HI Hidle. unfold reload_tail.
  destruct (inv_unload_all names s tr HI Hidle) as [H1 H2].
  destruct (unload_all names s) as [[s1 e1] ok]; cbn [fst snd] in *.
  destruct ok; [|auto].
  destruct (cm_list s1) eqn:El; cbn [fst snd]; [|auto]. split; [|auto].
  rewrite app_assoc. eapply inv_same; eauto.
  - rewrite H2; discriminate.
  - intros i; apply phase_neutral, reload_events_neutral.
  - apply loaded_neutral, reload_events_neutral.
Qed.

(** ** switch *)
Lemma switch_begin_frame a b st asap tmo now ck pr k s :
  let r := switch_begin a b st asap tmo now ck pr k s in
  cm_list (fst (fst r)) = cm_list s /\ cm_heap (fst (fst r)) = cm_heap s /\
  cm_next (fst (fst r)) = cm_next s /\ cm_loaders (fst (fst r)) = cm_loaders s /\
  Forall neutral (snd (fst r)) /\
  cm_call (fst (fst r)) = (if snd r then WaitSwitch tmo k else Idle).
Proof.
  unfold switch_begin.
  destruct (collect _ _ b _); [|cbn; repeat split; constructor].
  destruct (collect _ _ a _); [|cbn; repeat split; constructor].
  destruct (scan _ _ _ _ _ _ _ _); [cbn; repeat split; constructor|].
  destruct (ck infos); [cbn; repeat split; constructor|].
  destruct (pr start stop); cbn; repeat split; repeat constructor.
Qed.

Lemma inv_switch_begin a b st asap tmo now ck pr k s tr :
  Inv s tr -> cm_call s = Idle ->
  (forall names, k = KReload names -> names = controller_names s) ->
  let r := switch_begin a b st asap tmo now ck pr k s in
  Inv (fst (fst r)) (tr ++ snd (fst r)).
Proof.
  intros HI Hidle Hk r. destruct (switch_begin_frame a b st asap tmo now ck pr k s) as (H1 & H2 & H3 & H4 & H5 & H6).
  fold r in H1, H2, H3, H4, H5, H6. eapply inv_same; eauto.
  - rewrite H3; auto.
  - intros tmo' names. rewrite H6. destruct (snd r); intros [= _ E]; auto.
  - intros i; apply phase_neutral; exact H5.
  - apply loaded_neutral; exact H5.
Qed.

Lemma inv_switch_return b clear k s tr tmo :
  Inv s tr -> cm_call s = WaitSwitch tmo k ->
  Inv (fst (fst (switch_return b clear k s))) (tr ++ snd (fst (switch_return b clear k s))) /\
  cm_call (fst (fst (switch_return b clear k s))) = Idle.
Proof.
  intros HI Hc. unfold switch_return.
  set (s1 := set_switch _ _ _ _ _ _ _).
  assert (H1 : Inv s1 tr).
  { rewrite <- (app_nil_r tr). eapply inv_same; eauto; cbn; try discriminate; try (intros; apply phase_nil).
    rewrite ?app_nil_r; reflexivity. }
  destruct k as [|names].
  - cbn; rewrite app_nil_r; auto.
  - destruct b; [apply inv_reload_tail; auto|cbn; rewrite app_nil_r; auto].
Qed.

Lemma inv_step s o tr :
  Inv s tr -> Inv (fst (fst (step s o))) (tr ++ snd (fst (step s o))).
Proof.
  intros HI. unfold step.
  assert (Hst : Inv s (tr ++ [])) by (rewrite app_nil_r; exact HI).
  destruct o as [n env|n|a b st asap tmo now ck pr|w ok1 ok2|t p r hw| | |force now ck pr|l];
    destruct (cm_call s) as [|tmo' k] eqn:Hc; try exact Hst.
  - pose proof (inv_load n env s tr HI Hc). destruct (load_controller n env s) as [[? ?] ?]; auto.
  - pose proof (inv_unload n s tr HI Hc). destruct (unload_controller n s) as [[? ?] ?]; auto.
  - pose proof (inv_switch_begin a b st asap tmo now ck pr KReturn s tr HI Hc).
    destruct (switch_begin a b st asap tmo now ck pr KReturn s) as [[? ?] ?]; apply H; discriminate.
  - unfold poll. destruct (ok1 && _); [destruct (negb ok2); [|destruct (_ || _)]|].
    + eapply inv_switch_return; eassumption.
    + exact Hst.
    + eapply inv_switch_return; eassumption.
    + eapply inv_switch_return; eassumption.
  - pose proof (inv_update t p r hw s tr HI). destruct (update t p r hw s); auto.
  - pose proof (inv_update t p r hw s tr HI). destruct (update t p r hw s); auto.
  - destruct (controller_names s) eqn:En.
    + apply inv_reload_tail; auto.
    + destruct (negb force); [exact Hst|]. rewrite <- En.
      pose proof (inv_switch_begin [] (controller_names s) BEST_EFFORT false 0 now ck pr (KReload (controller_names s)) s tr HI Hc).
      destruct (switch_begin [] _ _ _ _ _ _ _ _ s) as [[? ?] ?]; apply H. intros ? [= ->]; reflexivity.
  - cbn. rewrite app_nil_r. destruct HI; split; cbn; auto.
  - cbn. rewrite app_nil_r. destruct HI; split; cbn; auto.
Qed.

(** ** Lifting to histories *)
Lemma run_app s ops1 ops2 :
  run s (ops1 ++ ops2) =
  (fst (run (fst (run s ops1)) ops2), snd (run s ops1) ++ snd (run (fst (run s ops1)) ops2)).
Proof.
  revert s; induction ops1 as [|o ops1 IH]; intros s; simpl.
  - destruct (run s ops2); reflexivity.
  - destruct (step s o) as [[s1 e1] a]. rewrite IH.
    destruct (run s1 ops1) as [s2 e2]; cbn [fst snd]. rewrite app_assoc; reflexivity.
Qed.

Lemma reach_snoc ls ops o :
  reach ls (ops ++ [o]) = fst (fst (step (reach ls ops) o)) /\
  trace ls (ops ++ [o]) = trace ls ops ++ snd (fst (step (reach ls ops) o)).
Proof.
  unfold reach, trace. rewrite run_app; cbn [fst snd run].
  destruct (step (fst (run (cm_init ls) ops)) o) as [[s1 e1] a]; cbn. rewrite app_nil_r; auto.
Qed.

Lemma inv_reach ls ops : Inv (reach ls ops) (trace ls ops).
Proof.
  induction ops as [|o ops IH] using rev_ind; [apply inv_init|].
  destruct (reach_snoc ls ops o) as [-> ->]. apply inv_step; exact IH.
Qed.

(** Heap and trace agree on the loaded controllers. *)
Lemma inv_heap s tr c : Inv s tr -> In c (cm_list s) -> cm_heap s (sp_inst c) = st_of (phase_of tr (sp_inst c)).
Proof. intros HI Hin. apply (inv_sim _ _ HI). apply (inv_live _ _ HI); exact Hin. Qed.

Lemma inv_running s tr c : Inv s tr -> In c (cm_list s) ->
  is_running (cm_heap s) (sp_inst c) = runsb tr (sp_inst c).
Proof.
  intros HI Hin. unfold is_running, runsb. rewrite (inv_heap _ _ _ HI Hin).
  destruct (inv_live _ _ HI c Hin). destruct (phase_of tr (sp_inst c)); simpl; congruence.
Qed.
