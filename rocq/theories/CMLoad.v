(** Loading, unloading, reloading, listing. *)
From Verif Require Import HwTypes Lifecycle CMModel CMSpec CMInv CMTrace CMCycle CMSwitch CMLife CMSession CMExcl CMHooks.

Lemma nodup_snoc {A} (l : list A) x : NoDup l -> ~ In x l -> NoDup (l ++ [x]).
Proof.
  induction l as [|y l IH]; simpl; intros H Hx; [repeat constructor; tauto|].
  inversion H; subst. constructor; [|apply IH; tauto]. rewrite in_app_iff. simpl. intuition.
Qed.
Lemma filter_twice {A} (f g : A -> bool) l : filter f (filter g l) = filter (fun x => g x && f x) l.
Proof.
  induction l as [|x l IH]; simpl; [reflexivity|]. destruct (g x); simpl; [|exact IH].
  destruct (f x); rewrite IH; reflexivity.
Qed.

(** ** the loaded list *)
Lemma loads_app a b : loads (a ++ b) = loads a ++ loads b.
Proof. apply flat_map_app. Qed.

Lemma absent_never tr i : phase_of tr i = PAbsent -> destroyed tr i = false /\ ~ In i (map fst (loads tr)).
Proof.
  induction tr as [|e tr IH] using rev_ind; [simpl; auto|].
  rewrite phase_snoc. unfold destroyed. rewrite existsb_app, loads_app, map_app, in_app_iff. fold (destroyed tr i).
  destruct e as [j c t|j x|j| | | |]; simpl; rewrite ?orb_false_r; try (intros H; destruct (IH H); split; [assumption|tauto]).
  - destruct c, (Nat.eqb i j); try discriminate; intros H; destruct (IH H); (split; [assumption|tauto]).
  - destruct (Nat.eqb_spec i j) as [->|Hne]; [discriminate|]. intros H; destruct (IH H). split; [assumption|]. intros [|[|[]]]; auto.
  - destruct (Nat.eqb_spec i j) as [->|Hne]; [discriminate|]. intros H; destruct (IH H). rewrite H0. split; [reflexivity|tauto].
Qed.

Lemma loaded_filter tr : along ok1 [] tr ->
  loaded tr = filter (fun c => negb (destroyed tr (fst c))) (loads tr) /\ NoDup (map fst (loads tr)).
Proof.
  induction tr as [|e tr IH] using rev_ind; intros A; [split; [reflexivity|constructor]|].
  apply along_snoc in A as [A He]. destruct (IH A) as [E N]. simpl in He.
  rewrite loaded_app, loads_app. rewrite map_app.
  assert (Hd : forall i, destroyed (tr ++ [e]) i = destroyed tr i || match e with EvDestroyed j => Nat.eqb i j | _ => false end).
  { intros i. unfold destroyed. rewrite existsb_app. simpl. rewrite orb_false_r. reflexivity. }
  rewrite filter_app.
  destruct e as [j c t|j x|j| | | |]; simpl;
  try (rewrite !app_nil_r; split; [rewrite E; apply filter_ext; intros c0; rewrite Hd, orb_false_r; reflexivity|exact N]).
  - destruct He as [Hp _]. destruct (absent_never tr j Hp) as [D1 D2].
    rewrite Hd. simpl. rewrite orb_false_r, D1. simpl. split.
    + rewrite E. f_equal. apply filter_ext. intros c0. rewrite Hd, orb_false_r. reflexivity.
    + apply nodup_snoc; assumption.
  - rewrite !app_nil_r. split; [|exact N]. rewrite E, filter_twice. apply filter_ext. intros c0. rewrite Hd.
    destruct (destroyed tr (fst c0)), (Nat.eqb (fst c0) j); reflexivity.
Qed.

Lemma names_distinct tr : along ok1 [] tr -> NoDup (map (fun c => ci_name (snd c)) (loaded tr)).
Proof.
  induction tr as [|e tr IH] using rev_ind; intros A; [constructor|].
  apply along_snoc in A as [A He]. specialize (IH A). simpl in He. rewrite loaded_app.
  destruct e as [j c t|j x|j| | | |]; simpl; try exact IH.
  - rewrite map_app. simpl. apply nodup_snoc; [exact IH|]. intros Hin. apply (proj2 He).
    apply in_map_iff in Hin as (c & E & Hc). exists c; auto.
  - apply nodup_map_filter. exact IH.
Qed.

Lemma prefix_ok1 ls ops pre post : trace ls ops = pre ++ post -> along ok1 [] pre.
Proof. intros E. pose proof (trace_ok1 ls ops) as A. rewrite E in A. apply along_app in A as [A _]. exact A. Qed.

(** ** construction *)
Lemma try_classes_spec ty k cls : NoDup (map fst cls) -> forall c,
  match find (fun x => String.eqb ty (fst x)) cls with
  | None => try_classes ty k c cls = (c, false, [])
  | Some (_, CrObject) => try_classes ty k c cls = (true, false, [EvCreate k])
  | Some (_, CrNull) => try_classes ty k c cls = (false, false, [EvCreate k])
  | Some (_, CrThrow) => try_classes ty k c cls = (c, true, [EvCreate k])
  end.
Proof.
  induction cls as [|[n r] cls IH]; intros Hn c; simpl; [reflexivity|]. inversion Hn as [|? ? Hnot Hnd]; subst.
  destruct (String.eqb_spec ty n) as [->|Hne]; [|apply IH; exact Hnd].
  assert (Hf : find (fun x => String.eqb n (fst x)) cls = None).
  { destruct (find _ cls) as [[m q]|] eqn:Ef; [|reflexivity]. apply find_some in Ef as [Hin E].
    apply String.eqb_eq in E. simpl in E. subst m. exfalso; apply Hnot. apply in_map_iff. exists (n, q); auto. }
  destruct r; [specialize (IH Hnd true)|specialize (IH Hnd false)|reflexivity]; rewrite Hf in IH; rewrite IH; reflexivity.
Qed.

Lemma find_offers l ty : NoDup (map fst (ld_classes l)) ->
  (forall n r, find (fun x => String.eqb ty (fst x)) (ld_classes l) = Some (n, r) -> offers l ty r /\ forall r', offers l ty r' -> r' = r) /\
  (find (fun x => String.eqb ty (fst x)) (ld_classes l) = None -> forall r, ~ offers l ty r).
Proof.
  unfold offers. induction (ld_classes l) as [|[m q] cls IH]; intros Hn; simpl; [split; [discriminate|tauto]|].
  inversion Hn as [|? ? Hnot Hnd]; subst. destruct (IH Hnd) as [I1 I2].
  destruct (String.eqb_spec ty m) as [->|Hne].
  - split; [|discriminate]. intros n r [= <- <-]. split; [left; reflexivity|].
    intros r' [[= <-]|Hin]; [reflexivity|]. exfalso; apply Hnot. apply in_map_iff. exists (m, r'); auto.
  - split.
    + intros n r E. destruct (I1 _ _ E) as [A B]. split; [right; exact A|]. intros r' [[= -> _]|Hin]; [congruence|auto].
    + intros E r [[= -> _]|Hin]; [congruence|]. eapply I2; eauto.
Qed.

Lemma asked_cons l ls ty k : asked (l :: ls) ty k <->
  (k = 0%nat /\ exists r, offers l ty r) \/
  (exists k', k = S k' /\ (forall r, offers l ty r -> r = CrNull) /\ asked ls ty k').
Proof.
  unfold asked. split.
  - intros (x & r & E & Ho & Hp). destruct k as [|k]; simpl in E.
    + injection E as <-. left; eauto.
    + right. exists k. split; [reflexivity|]. split.
      * intros r' Hr'. eapply (Hp 0%nat l); [lia|reflexivity|exact Hr'].
      * exists x, r. split; [exact E|split; [exact Ho|]]. intros j l' r' Hj E' Hr'. eapply (Hp (S j) l'); [lia|exact E'|exact Hr'].
  - intros [[-> (r & Hr)]|(k' & -> & Hn & x & r & E & Ho & Hp)].
    + exists l, r. split; [reflexivity|split; [exact Hr|]]. intros j l' r' Hj. lia.
    + exists x, r. split; [exact E|split; [exact Ho|]]. intros [|j] l' r' Hj E' Hr'; simpl in E'.
      * injection E' as <-. auto.
      * eapply Hp; [|exact E'|exact Hr']. lia.
Qed.

Lemma builds_cons l ls ty : builds (l :: ls) ty <->
  offers l ty CrObject \/ ((forall r, offers l ty r -> r = CrNull) /\ builds ls ty).
Proof.
  unfold builds. split.
  - intros ([|x l1] & y & l2 & E & Ho & Hp); injection E as -> E; [left; exact Ho|].
    right. split; [intros r Hr; apply (Hp x r); [left; reflexivity|exact Hr]|].
    exists l1, y, l2. split; [exact E|split; [exact Ho|]]. intros z r Hz. apply Hp; right; exact Hz.
  - intros [Ho|[Hn (l1 & y & l2 & -> & Ho & Hp)]].
    + exists [], l, ls. repeat split; auto. intros x r [].
    + exists (l :: l1), y, l2. repeat split; auto. intros x r [<-|Hx] Hr; [apply Hn; exact Hr|eapply Hp; eauto].
Qed.

Lemma construct_spec ty ls : distinct_classes ls -> forall k,
  (fst (construct ty k ls) = true <-> builds ls ty) /\
  (forall j, In (EvCreate j) (snd (construct ty k ls)) <-> exists m, j = (k + m)%nat /\ asked ls ty m) /\
  NoDup (snd (construct ty k ls)).
Proof.
  induction ls as [|l ls IH]; intros Hd k.
  - simpl. split; [split; [discriminate|]|].
    + intros ([|] & ? & ? & E & _); discriminate E.
    + split; [|constructor]. intros j. split; [tauto|]. intros (m & _ & x & r & E & _). destruct m; discriminate E.
  - inversion Hd as [|? ? Hl Hls]; subst. specialize (IH Hls (S k)).
    pose proof (try_classes_spec ty k (ld_classes l) Hl false) as Ht.
    destruct (find_offers l ty Hl) as [F1 F2].
    assert (Hone : forall (Q : nat -> Prop), (forall j, In (EvCreate j) [EvCreate k] <-> exists m, j = (k + m)%nat /\ (m = 0%nat /\ Q 0%nat)) <-> Q 0%nat).
    { intros Q. split.
      - intros H. destruct (proj1 (H k) (or_introl eq_refl)) as (m & _ & _ & HQ). exact HQ.
      - intros HQ j. simpl. split.
        + intros [[= <-]|[]]. exists 0%nat. split; [lia|auto].
        + intros (m & -> & -> & _). left. f_equal. lia. }
    simpl construct.
    destruct (find _ (ld_classes l)) as [[n r]|] eqn:Ef.
    + destruct (F1 n r eq_refl) as [O1 O2]. destruct r; rewrite Ht; simpl orb; cbn [fst snd].
      * split; [rewrite builds_cons; tauto|]. split; [|repeat constructor; simpl; tauto].
        intros j. simpl. split.
        -- intros [[= <-]|[]]. exists 0%nat. split; [lia|]. apply asked_cons. left. eauto.
        -- intros (m & -> & Ha). apply asked_cons in Ha as [[-> _]|(m' & _ & Hn & _)]; [left; f_equal; lia|].
           specialize (Hn _ O1). discriminate.
      * destruct (construct ty (S k) ls) as [c' e']; cbn [fst snd] in *. destruct IH as (I1 & I2 & I3).
        split; [|split].
        -- rewrite builds_cons, I1. split; [|intros [Ho|[_ Hb]]; [specialize (O2 _ Ho); discriminate|exact Hb]].
           intros Hb. right. auto.
        -- intros j. simpl. rewrite I2. split.
           ++ intros [[= <-]|(m & -> & Ha)].
              ** exists 0%nat. split; [lia|]. apply asked_cons. left; eauto.
              ** exists (S m). split; [lia|]. apply asked_cons. right. eauto.
           ++ intros (m & -> & Ha). apply asked_cons in Ha as [[-> _]|(m' & -> & _ & Ha)]; [left; f_equal; lia|].
              right. exists m'. split; [lia|exact Ha].
        -- simpl. constructor; [|exact I3]. rewrite I2. intros (m & E & _). lia.
      * split; [|split].
        -- rewrite builds_cons. split; [discriminate|]. intros [Ho|[Hn _]]; [specialize (O2 _ Ho); discriminate|specialize (Hn _ O1); discriminate].
        -- intros j. simpl. split.
           ++ intros [[= <-]|[]]. exists 0%nat. split; [lia|]. apply asked_cons. left. eauto.
           ++ intros (m & -> & Ha). apply asked_cons in Ha as [[-> _]|(m' & _ & Hn & _)]; [left; f_equal; lia|].
              specialize (Hn _ O1). discriminate.
        -- repeat constructor; simpl; tauto.
    + rewrite Ht. simpl orb. cbv iota. specialize (F2 eq_refl).
      destruct (construct ty (S k) ls) as [c' e']; cbn [fst snd] in *. destruct IH as (I1 & I2 & I3).
      split; [|split; [|exact I3]].
      * rewrite builds_cons, I1. split; [|intros [Ho|[_ Hb]]; [destruct (F2 _ Ho)|exact Hb]].
        intros Hb. right. split; [|exact Hb]. intros r Hr. destruct (F2 _ Hr).
      * intros j. simpl app. rewrite I2. split.
        -- intros (m & -> & Ha). exists (S m). split; [lia|]. apply asked_cons. right. exists m. split; [reflexivity|].
           split; [|exact Ha]. intros r Hr. destruct (F2 _ Hr).
        -- intros (m & -> & Ha). apply asked_cons in Ha as [[-> (r & Hr)]|(m' & -> & _ & Ha)]; [destruct (F2 _ Hr)|].
           exists m'. split; [lia|exact Ha].
Qed.

Lemma loaders_step s o : cm_loaders (fst (fst (step s o))) =
  cm_loaders s ++ match o with RegisterLoader l => [l] | _ => [] end.
Proof.
  destruct o as [n env|n|a b z asap tmo now ck pr|w o1 o2|t p r hw| | |force now ck pr|l]; unfold step; rewrite ?app_nil_r;
  [| | | |destruct (update_frame t p r hw s) as (_ & _ & _ & _ & _ & _ & E & _); destruct (update t p r hw s); exact E| | | |reflexivity];
  destruct (cm_call s) as [|tmo' k] eqn:Hc; try reflexivity.
  - destruct (load_frame n env s) as (_ & _ & _ & _ & _ & E & _). destruct (load_controller n env s) as [[? ?] ?]; exact E.
  - destruct (unload_frame n s) as (_ & _ & _ & _ & _ & _ & E & _). destruct (unload_controller n s) as [[? ?] ?]; exact E.
  - unfold switch_begin. destruct (collect _ _ b _); [|reflexivity]. destruct (collect _ _ a _); [|reflexivity].
    destruct (scan _ _ _ _ _ _ _ _) as [hs ht|infos start stop]; [reflexivity|]. destruct (ck infos); [reflexivity|].
    destruct (negb (pr start stop)); reflexivity.
  - unfold poll. destruct (_ && _); [destruct (negb _); [|destruct (_ || _)]|]; try reflexivity; apply switch_return_frame.
  - destruct (controller_names s) eqn:En; [apply reload_tail_frame|]. destruct (negb force); [reflexivity|].
    unfold switch_begin. destruct (collect _ _ (s0 :: l) _); [|reflexivity]. destruct (collect _ _ [] _); [|reflexivity].
    destruct (scan _ _ _ _ _ _ _ _) as [hs ht|infos start stop]; [reflexivity|]. destruct (ck infos); [reflexivity|].
    destruct (negb (pr start stop)); reflexivity.
Qed.

Lemma loaders_reach ls ops : cm_loaders (reach ls ops) = registered ls ops.
Proof.
  unfold registered. induction ops as [|o ops IH] using rev_ind; [symmetry; apply app_nil_r|].
  destruct (reach_snoc ls ops o) as [-> _]. rewrite loaders_step, IH, flat_map_app, app_assoc. simpl. rewrite app_nil_r. reflexivity.
Qed.

Lemma trace_snoc ls ops o : trace ls (ops ++ [o]) = trace ls ops ++ emits ls ops o.
Proof. apply reach_snoc. Qed.

(** ** load *)
Section Load.
  Variables (ls : list loader) (ops : list op).
  Hypothesis Hidle : idle ls ops.
  Let s := reach ls ops.
  Let tr := trace ls ops.

  Lemma step_load n env : step s (Load n env) =
    let '(s', e, b) := load_controller n env s in (s', e, ABool b).
  Proof. unfold step, s. rewrite Hidle. reflexivity. Qed.

  Lemma load_reply n env : exists b, reply ls ops (Load n env) = ABool b.
  Proof. unfold reply. fold s. rewrite step_load. destruct (load_controller n env s) as [[s' e] b]. exists b. reflexivity. Qed.

  Lemma load_known n : existsb (fun c => String.eqb (ci_name (sp_info c)) n) (cm_list s) = true <-> known tr n.
  Proof.
    pose proof (inv_reach ls ops) as HI. fold s tr in HI. rewrite (known_names s tr n HI), existsb_exists, in_map_iff.
    split; intros (c & A & B).
    - apply String.eqb_eq in B. exists c; auto.
    - exists c. split; [exact B|]. apply String.eqb_eq. exact A.
  Qed.

  Lemma load_iff n env : distinct_classes (registered ls ops) ->
    (reply ls ops (Load n env) = ABool true <-> load_ok ls ops n env).
  Proof.
    intros Hd. unfold reply. fold s. rewrite step_load. unfold load_ok. fold tr.
    pose proof (load_known n) as Hk. unfold load_controller.
    destruct (existsb _ (cm_list s)); cbn [snd]; [split; [discriminate|intros (H & _); tauto]|].
    assert (Hk' : ~ known tr n) by (intros H; apply Hk in H; discriminate).
    destruct (le_nh_ok env); cbn [negb snd]; [|split; [discriminate|intros (_ & H & _); discriminate]].
    destruct (le_type env) as [ty|]; [|split; [discriminate|intros (_ & _ & ? & ? & H & _); discriminate]].
    assert (El : cm_loaders s = registered ls ops) by apply loaders_reach. rewrite El.
    destruct (construct_spec ty (registered ls ops) Hd 0%nat) as (C1 & _).
    destruct (construct ty 0 (registered ls ops)) as [c ec]; cbn [fst snd] in *.
    destruct c; cbn [snd].
    - destruct (le_init env) as [cl| |]; cbn [snd].
      + split; [|reflexivity]. intros _. split; [exact Hk'|]. split; [reflexivity|]. exists ty, cl. tauto.
      + split; [discriminate|]. intros (_ & _ & ? & ? & _ & _ & H); discriminate.
      + split; [discriminate|]. intros (_ & _ & ? & ? & _ & _ & H); discriminate.
    - split; [discriminate|]. intros (_ & _ & ? & ? & [= <-] & H & _). apply C1 in H. discriminate.
  Qed.

  (** The effect of a load, in both cases. *)
  Lemma load_effect n env :
    let tr' := trace ls (ops ++ [Load n env]) in
    (reply ls ops (Load n env) = ABool true ->
       exists i ty cl, le_type env = Some ty /\ le_init env = InitOk cl /\
         phase_of tr i = PAbsent /\ phase_of tr' i = PLoaded /\
         loaded tr' = loaded tr ++ [(i, mkInfo n ty cl)] /\ forall j, j <> i -> phase_of tr' j = phase_of tr j) /\
    (reply ls ops (Load n env) = ABool false ->
       loaded tr' = loaded tr /\ forall j, phase_of tr' j = phase_of tr j).
  Proof.
    cbv zeta. rewrite trace_snoc. unfold reply, emits. fold s tr. rewrite step_load. unfold load_controller.
    pose proof (inv_reach ls ops) as HI. fold s tr in HI.
    assert (Hnil : loaded (tr ++ []) = loaded tr /\ forall j, phase_of (tr ++ []) j = phase_of tr j) by (rewrite app_nil_r; auto).
    destruct (existsb _ (cm_list s)); cbn [fst snd]; [split; [discriminate|auto]|].
    destruct (negb _); cbn [fst snd]; [split; [discriminate|auto]|].
    destruct (le_type env) as [ty|]; cbn [fst snd]; [|split; [discriminate|auto]].
    pose proof (construct_create ty 0 (cm_loaders s)) as Hc.
    destruct (construct ty 0 (cm_loaders s)) as [c ec]; cbn [fst snd] in *.
    assert (Hn : Forall neutral ec) by (eapply Forall_impl; [|exact Hc]; intros []; simpl; auto; discriminate).
    assert (Hec : loaded (tr ++ ec) = loaded tr /\ forall j, phase_of (tr ++ ec) j = phase_of tr j).
    { split; [apply loaded_neutral; exact Hn|intros j; apply phase_neutral; exact Hn]. }
    destruct c; cbn [fst snd]; [|split; [discriminate|auto]].
    destruct (le_init env) as [cl| |]; cbn [fst snd]; [|split; [discriminate|auto]|split; [discriminate|auto]].
    split; [|discriminate]. intros _. exists (cm_next s), ty, cl.
    repeat split; auto.
    - apply (inv_fresh _ _ HI). lia.
    - rewrite app_assoc, phase_snoc. simpl. rewrite Nat.eqb_refl. reflexivity.
    - rewrite app_assoc, loaded_app. simpl. destruct Hec as [-> _]. reflexivity.
    - intros j Hj. rewrite app_assoc, phase_snoc. simpl. apply Nat.eqb_neq in Hj. rewrite Hj. apply Hec.
  Qed.

  (** Which loaders get asked. *)
  Lemma load_asks n env k : distinct_classes (registered ls ops) ->
    (In (EvCreate k) (emits ls ops (Load n env)) <->
     ~ known tr n /\ le_nh_ok env = true /\ exists ty, le_type env = Some ty /\ asked (registered ls ops) ty k) /\
    NoDup (filter is_create (emits ls ops (Load n env))).
  Proof.
    intros Hd. unfold emits. fold s. rewrite step_load.
    pose proof (load_known n) as Hk. unfold load_controller.
    destruct (existsb _ (cm_list s)); cbn [fst snd]; [split; [split; [intros []|intros (H & _); tauto]|constructor]|].
    assert (Hk' : ~ known tr n) by (intros H; apply Hk in H; discriminate).
    destruct (le_nh_ok env); cbn [negb fst snd]; [|split; [split; [intros []|intros (_ & H & _); discriminate]|constructor]].
    destruct (le_type env) as [ty|]; cbn [fst snd]; [|split; [split; [intros []|intros (_ & _ & ? & H & _); discriminate]|constructor]].
    assert (El : cm_loaders s = registered ls ops) by apply loaders_reach. rewrite El.
    destruct (construct_spec ty (registered ls ops) Hd 0%nat) as (_ & C2 & C3). specialize (C2 k).
    destruct (construct ty 0 (registered ls ops)) as [c ec]; cbn [fst snd] in *.
    assert (X : In (EvCreate k) ec <-> ~ known tr n /\ true = true /\ exists ty0, Some ty = Some ty0 /\ asked (registered ls ops) ty0 k).
    { rewrite C2. split.
      - intros (m & -> & Ha). split; [exact Hk'|]. split; [reflexivity|]. exists ty; auto.
      - intros (_ & _ & ? & [= <-] & Ha). exists k; auto. }
    destruct c; [|split; [exact X|apply NoDup_filter; exact C3]].
    destruct (le_init env) as [cl| |]; cbn [fst snd]; try (split; [exact X|apply NoDup_filter; exact C3]).
    split.
    - rewrite in_app_iff. simpl. rewrite <- X. split; [intros [|[[=]|[]]]; assumption|auto].
    - rewrite filter_app. simpl. rewrite app_nil_r. apply NoDup_filter; exact C3.
  Qed.

  (** ** unload *)
  Lemma step_unload n : step s (Unload n) =
    let '(s', e, b) := unload_controller n s in (s', e, ABool b).
  Proof. unfold step, s. rewrite Hidle. reflexivity. Qed.

  Lemma unload_iff n :
    (reply ls ops (Unload n) = ABool true <-> exists c, In c (loaded tr) /\ ci_name (snd c) = n /\ ~ runs tr (fst c)) /\
    (reply ls ops (Unload n) = ABool true \/ reply ls ops (Unload n) = ABool false).
  Proof.
    pose proof (inv_reach ls ops) as HI. fold s tr in HI.
    unfold reply. fold s. rewrite step_unload. unfold unload_controller.
    assert (Hrun : forall c, In c (cm_list s) -> (is_running (cm_heap s) (sp_inst c) = true <-> runs tr (sp_inst c))).
    { intros c Hc. rewrite (inv_running _ _ _ HI Hc). apply runsb_spec. }
    assert (Hback : forall c, In c (loaded tr) -> exists d, In d (cm_list s) /\ c = (sp_inst d, sp_info d)).
    { intros c Hc. rewrite <- (inv_list _ _ HI) in Hc. apply in_map_iff in Hc as (d & <- & Hd). eauto. }
    destruct (unload_scan (cm_heap s) n (cm_list s)) as [[to b]|] eqn:E.
    - apply unload_scan_spec in E as (_ & -> & Hr).
      destruct (existsb _ (cm_list s)) eqn:Ex; cbn [fst snd].
      + split; [|auto]. split; [|reflexivity]. intros _. apply existsb_exists in Ex as (c & Hc & En). apply String.eqb_eq in En.
        exists (sp_inst c, sp_info c). split; [eapply in_loaded; eauto|]. split; [exact En|].
        intros R. apply (Hrun c Hc) in R. rewrite (Hr c Hc En) in R. discriminate.
      + split; [|auto]. split; [discriminate|]. intros (c & Hc & En & _). destruct (Hback c Hc) as (d & Hd & ->).
        assert (existsb (fun c => String.eqb (name_of c) n) (cm_list s) = true).
        { apply existsb_exists. exists d. split; [exact Hd|]. apply String.eqb_eq. exact En. }
        congruence.
    - apply unload_scan_none in E as (d & Hd & En & Hr). cbn [fst snd].
      split; [|auto]. split; [discriminate|]. intros (c & Hc & En' & Hn). destruct (Hback c Hc) as (d' & Hd' & ->).
      assert (d = d') by (eapply nodup_map_inj; [apply (inv_names _ _ HI)|exact Hd|exact Hd'|unfold name_of in *; cbn in En'; congruence]).
      subst d'. exfalso. apply Hn. apply (Hrun d Hd). exact Hr.
  Qed.

  Lemma unload_effect n :
    let tr' := trace ls (ops ++ [Unload n]) in
    (reply ls ops (Unload n) = ABool true ->
       exists i, In i (map fst (loaded tr)) /\ emits ls ops (Unload n) = [EvDestroyed i] /\
       loaded tr' = filter (fun c => negb (String.eqb (ci_name (snd c)) n)) (loaded tr) /\
       forall j, j <> i -> phase_of tr' j = phase_of tr j) /\
    (reply ls ops (Unload n) = ABool false -> reach ls (ops ++ [Unload n]) = s /\ tr' = tr).
  Proof.
    pose proof (inv_reach ls ops) as HI. fold s tr in HI.
    cbv zeta. rewrite trace_snoc. destruct (reach_snoc ls ops (Unload n)) as [-> _]. unfold reply, emits. fold s tr. rewrite step_unload.
    destruct (unload_controller n s) as [[s' e] ok] eqn:E. cbn [fst snd]. destruct ok.
    - split; [intros _|discriminate].
      destruct (unload_ok n s tr s' e HI E) as (c0 & Hin & Hn & Hr & -> & -> & Hf).
      exists (sp_inst c0). split; [|split; [reflexivity|split]].
      + rewrite <- (inv_list _ _ HI), map_map. apply in_map_iff. exists c0; auto.
      + rewrite loaded_app. simpl. rewrite <- (inv_list _ _ HI), <- map_filter_pair, <- Hf.
        generalize (cm_list s) as l. induction l as [|c l IH]; simpl; [reflexivity|]. unfold name_of at 1.
        destruct (negb (String.eqb (ci_name (sp_info c)) n)); simpl; rewrite IH; reflexivity.
      + intros j Hj. rewrite phase_snoc. simpl. apply Nat.eqb_neq in Hj. rewrite Hj. reflexivity.
    - split; [discriminate|intros _]. destruct (unload_fail n s s' e E) as [-> ->]. rewrite app_nil_r. auto.
  Qed.

  (** ** listing *)
  Lemma list_reply : reply ls ops ListControllers = AList (report tr).
  Proof.
    pose proof (inv_reach ls ops) as HI. fold s tr in HI.
    unfold reply, step. fold s. assert (Hc : cm_call s = Idle) by exact Hidle. rewrite Hc. cbn [snd]. f_equal.
    unfold list_controllers, report. rewrite <- (inv_list _ _ HI), map_map. apply map_ext_in. intros c Hc'. cbn [fst snd].
    f_equal. destruct (inv_live _ _ HI c Hc') as [H1 H2]. unfold state_string.
    unfold is_initialized, is_running, is_stopped, is_waiting, is_aborted. rewrite (inv_sim _ _ HI _ H1).
    destruct (phase_of tr (sp_inst c)); simpl; congruence.
  Qed.
  Lemma list_known_states en : In en (report tr) -> en_state en <> "unknown"%string.
  Proof.
    pose proof (inv_reach ls ops) as HI. fold s tr in HI.
    unfold report. rewrite <- (inv_list _ _ HI), map_map. intros Hin. apply in_map_iff in Hin as (c & <- & Hc). cbn.
    destruct (inv_live _ _ HI c Hc) as [H1 H2]. destruct (phase_of tr (sp_inst c)); simpl; congruence.
  Qed.
  Lemma types_reply : reply ls ops ListTypes = ATypes (offered_types (registered ls ops)).
  Proof.
    unfold reply, step. fold s. assert (Hc : cm_call s = Idle) by exact Hidle. rewrite Hc. cbn [snd]. f_equal.
    unfold list_types, offered_types. rewrite <- loaders_reach. reflexivity.
  Qed.
End Load.
