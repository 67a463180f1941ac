(** How often one request stops and starts a controller; how long the caller waits. *)
From Verif Require Import HwTypes Lifecycle ConflictModel CMModel CMSpec CMInv CMTrace CMCycle CMSwitch CMLife CMSession CMExcl CMFinal CMSeqSpec CMSeq.
Open Scope Z_scope.

Lemma count_app f i a b : count_cb f i (a ++ b) = (count_cb f i a + count_cb f i b)%nat.
Proof. unfold count_cb. rewrite filter_app, app_length. reflexivity. Qed.

Definition of_cb (f : callback -> bool) : event -> bool := fun e => match e with EvCb _ c _ => f c | _ => false end.
Lemma count_callbacks f i e : count_cb (of_cb f) i e = length (filter f (callbacks_of i e)).
Proof.
  unfold count_cb. induction e as [|x e IH]; [reflexivity|]. destruct x as [j c t| | | | | |]; simpl; auto.
  destruct (Nat.eqb i j); [|rewrite andb_false_r; exact IH]. rewrite andb_true_r. simpl. destruct (f c); simpl; auto.
Qed.
Definition cb_start (c : callback) : bool := match c with CbStarting => true | _ => false end.
Definition cb_stop (c : callback) : bool := match c with CbStopping => true | _ => false end.
Lemma count_starting i e : count_cb is_starting i e = length (filter cb_start (callbacks_of i e)).
Proof. rewrite <- count_callbacks. unfold count_cb. reflexivity. Qed.
Lemma count_stopping i e : count_cb is_stopping i e = length (filter cb_stop (callbacks_of i e)).
Proof. rewrite <- count_callbacks. unfold count_cb. reflexivity. Qed.

Lemma upd_events_count f t p h l i : f (CbUpdate p) = false -> filter f (callbacks_of i (upd_events t p h l)) = [].
Proof.
  intros Hf. unfold upd_events. generalize (filter (fun c => is_running h (sp_inst c)) l) as m.
  induction m as [|x m IH]; simpl; [reflexivity|]. destruct (Nat.eqb _ _); simpl; [rewrite Hf|]; exact IH.
Qed.
Lemma hwdo_callbacks i s : callbacks_of i (hwdo s) = [].
Proof. unfold hwdo. destruct (sw_started _); reflexivity. Qed.

Lemma map_callbacks i cb t l : callbacks_of i (map (fun j => EvCb j cb t) l) = repeat cb (count_occ Nat.eq_dec l i).
Proof.
  induction l as [|j l IH]; simpl; [reflexivity|]. destruct (Nat.eq_dec j i) as [->|E].
  - rewrite Nat.eqb_refl, IH. reflexivity.
  - destruct (Nat.eqb_spec i j); [congruence|]. exact IH.
Qed.

(** One cycle, as seen by instance [i]. *)
Definition once_inv (s : cm) (i : nat) (nstop nstart : nat) : Prop :=
  if sw_asap (cm_sw s) then
    (In i (cm_start s) -> (nstop = 0 /\ (nstart = 0 \/ (nstart = 1 /\ cm_heap s i = RUNNING)))%nat) /\
    (~ In i (cm_start s) -> (nstart = 0 /\ (nstop = 0 \/ (nstop = 1 /\ cm_heap s i <> RUNNING)))%nat)
  else
    (nstop <= 1 /\ nstart <= 1)%nat /\
    (sw_do (cm_sw s) = true -> (nstart = 0 /\ (nstop = 0 \/ (nstop = 1 /\ cm_heap s i <> RUNNING)))%nat).

Lemma once_bounds s i nstop nstart : once_inv s i nstop nstart -> (nstop <= 1 /\ nstart <= 1)%nat.
Proof.
  unfold once_inv. destruct (sw_asap _).
  - intros [A B]. destruct (in_dec Nat.eq_dec i (cm_start s)) as [H|H]; [specialize (A H)|specialize (B H)]; lia.
  - tauto.
Qed.

Lemma once_cycle t p hw s i nstop nstart :
  wf_req s -> NoDup (cm_start s) -> In i (map sp_inst (cm_list s)) ->
  (sw_asap (cm_sw s) = true -> In i (cm_start s) -> In i (cm_stop s) -> False) ->
  once_inv s i nstop nstart ->
  once_inv (fst (update t p false hw s)) i
    (nstop + length (filter cb_stop (callbacks_of i (snd (update t p false hw s)))))
    (nstart + length (filter cb_start (callbacks_of i (snd (update t p false hw s))))).
Proof.
  intros W Hnd Hil Hboth Hinv. destruct (sw_do (cm_sw s)) eqn:Hd.
  - destruct (cycle_decomp t p false hw s Hd) as (h1 & H1 & Hh & Hsw & e1 & He1 & He). cbv zeta in *.
    pose proof (wf_req_in s h1 W H1) as Hin. destruct W as (W1 & W2 & W3).
    destruct (update_frame t p false hw s) as (El & _ & Ea & Eb & _).
    rewrite He. rewrite !callbacks_app, hwdo_callbacks, He1. cbn [app callbacks_of]. rewrite !filter_app, !app_length.
    rewrite !upd_events_count by reflexivity. cbn [length plus].
    unfold once_inv in *. rewrite Ea, Hsw, Hh. cbn [sw_asap sw_do]. specialize (H1 i).
    destruct (sw_asap (cm_sw s)) eqn:Ha.
    + destruct (asap_stage t hw (cm_sw s) (cm_list s) 0 h1 (cm_start s) W1 Hnd) as [S1 S2].
      { intros j Hj. destruct (Hin j Hj) as [X Y]. apply in_map_iff in X as (c & E & Hc'). exists c; auto. }
      assert (Hst : fst (start_stage t hw s h1) = asap_loop t hw (cm_sw s) (cm_list s) 0 h1 (cm_start s)).
      { unfold start_stage. rewrite Ha. unfold start_controllers_asap. destruct (asap_loop _ _ _ _ _ _ _); reflexivity. }
      rewrite Hst. destruct Hinv as [A B]. split; intros Hi.
      * specialize (A Hi). specialize (Hboth eq_refl Hi). apply mem_false in Hboth. rewrite Hboth in *. cbn [andb filter length] in *.
        apply in_map_iff in Hil as (c & Ec & Hc). destruct (In_nth_error _ _ Hi) as (n & Hn). rewrite <- Ec in Hn, H1, A |- *.
        specialize (S2 n c Hn Hc). destruct A as [A1 A2]. destruct (is_running h1 (sp_inst c)) eqn:Er.
        -- destruct S2 as [-> ->]. cbn [filter length]. split; [lia|]. destruct A2 as [A2|[A2 _]]; [left; lia|right; split; [lia|reflexivity]].
        -- apply is_running_false in Er. destruct A2 as [A2|[_ A2]]; [|congruence].
           destruct S2 as [-> ->]. unfold asap_dec. destruct (swstate_eqb _ _); [|destruct (_ || _)]; cbn; (split; [lia|]); [right; split; [lia|reflexivity]|left; lia|left; lia].
      * specialize (B Hi). destruct (S1 i Hi) as [X Y]. rewrite X, Y. cbn [filter length]. rewrite H1.
        destruct B as [B1 B2]. unfold is_running. destruct (mem i (cm_stop s)), (cm_heap s i) eqn:Eh; cbn;
        (split; [lia|]); (destruct B2 as [B2|[B2 B3]]; [|try congruence]); try (left; lia); right; (split; [lia|discriminate]).
    + destruct (stage_nonasap t hw s h1 Hin Ha) as (A & B & C). rewrite B, C, map_callbacks.
      destruct Hinv as [Hb Hinv]. destruct (Hinv Hd) as [Hz Hs].
      assert (Hocc : (count_occ Nat.eq_dec (cm_start s) i <= 1)%nat) by (apply NoDup_count_occ; exact Hnd).
      assert (Hstop : (nstop + length (filter cb_stop (if mem i (cm_stop s) && is_running (cm_heap s) i then [CbStopping] else [])) <= 1)%nat).
      { unfold is_running. destruct Hs as [->|[-> Hs]]; destruct (mem i (cm_stop s)), (cm_heap s i); cbn; try lia; congruence. }
      assert (Hrep : forall cb n, (length (filter cb_stop (repeat cb n)) = if cb_stop cb then n else 0)%nat /\
                                  (length (filter cb_start (repeat cb n)) = if cb_start cb then n else 0)%nat).
      { intros cb n. induction n as [|n [I1 I2]]; simpl; [destruct (cb_stop cb), (cb_start cb); auto|].
        destruct (cb_stop cb), (cb_start cb); simpl; auto. }
      rewrite (proj1 (Hrep _ _)), (proj2 (Hrep _ _)).
      assert (Hst0 : length (filter cb_start (if mem i (cm_stop s) && is_running (cm_heap s) i then [CbStopping] else [])) = 0%nat)
        by (destruct (_ && _); reflexivity).
      rewrite Hst0.
      destruct (swstate_eqb _ _); [|destruct (_ || _)]; cbn [fst snd cb_stop cb_start] in *; (split; [lia|]); try discriminate.
      intros _. split; [lia|].
      destruct (in_dec Nat.eq_dec i (cm_start s)) as [Hi|Hi].
      * destruct (Nat.eq_dec (nstop + length (filter cb_stop (if mem i (cm_stop s) && is_running (cm_heap s) i then [CbStopping] else [])) + 0) 0) as [E0|E0]; [left; lia|].
        right. split; [lia|]. rewrite (A i Hi). discriminate.
      * rewrite (stage_other t hw s h1 Hin i Hi), H1. unfold is_running.
        destruct Hs as [->|[-> Hs]]; destruct (mem i (cm_stop s)), (cm_heap s i); cbn; auto; try (right; split; [reflexivity|congruence]); congruence.
  - destruct (update_decomp t p false hw s) as (h & Hh & ->). rewrite Hd. cbn [fst snd app].
    rewrite !upd_events_count by reflexivity. cbn [length]. rewrite !Nat.add_0_r.
    unfold once_inv in *. cbn [cm_sw cm_start cm_heap set_heap]. rewrite Hh. exact Hinv.
Qed.

Lemma once_run mid : forall s tmo k i nstop nstart, cm_call s = WaitSwitch tmo k -> no_reply s mid -> no_reset mid ->
  wf_req s -> NoDup (cm_start s) -> In i (map sp_inst (cm_list s)) ->
  (sw_asap (cm_sw s) = true -> In i (cm_start s) -> In i (cm_stop s) -> False) ->
  once_inv s i nstop nstart ->
  (nstop + count_cb is_stopping i (snd (run s mid)) <= 1 /\ nstart + count_cb is_starting i (snd (run s mid)) <= 1)%nat.
Proof.
  induction mid as [|o mid IH]; intros s tmo k i nstop nstart Hc Hn Hr W Hnd Hil Hb Hinv.
  - cbn. rewrite !Nat.add_0_r. eapply once_bounds; exact Hinv.
  - cbn [run]. destruct Hn as [Ho Hn]. inversion Hr as [|? ? Hro Hr']; subst.
    assert (Hno : no_reply s [o]) by (simpl; auto).
    destruct (no_reply_frame [o] s _ k Hc Hno) as (F1 & _ & F3 & F4 & _ & _ & Hc1 & _ & Hasap & _). simpl in Hc1, F1, F3, F4, Hasap.
    destruct (waiting_step s o _ k Hc Ho) as [((ls' & E1) & E2 & Hnc)|(t & p & r & hw & -> & E1 & E2)];
    destruct (step s _) as [[s1 e1] a]; cbn [fst snd] in *; subst s1.
    + subst e1. specialize (IH (set_loaders s ls') tmo k i nstop nstart Hc Hn Hr' W Hnd Hil Hb Hinv).
      destruct (run (set_loaders s ls') mid); exact IH.
    + subst e1. destruct r; [contradiction|].
      pose proof (once_cycle t p hw s i nstop nstart W Hnd Hil Hb Hinv) as Hinv'.
      assert (Hb' : sw_asap (cm_sw (fst (update t p false hw s))) = true -> In i (cm_start (fst (update t p false hw s))) -> In i (cm_stop (fst (update t p false hw s))) -> False).
      { rewrite F3, F4, Hasap. exact Hb. }
      pose proof (wf_req_cycle t p false hw s W) as W'.
      specialize (IH (fst (update t p false hw s)) tmo k i _ _ Hc1 Hn Hr' W' ltac:(rewrite F3; exact Hnd) ltac:(rewrite F1; exact Hil) Hb' Hinv').
      destruct (run _ mid) as [s2 e2]; cbn [snd] in *. rewrite !count_app, !count_starting, !count_stopping in *.
      lia.
Qed.

Section Once.
  Variables (ls : list loader) (ops : list op).
  Variables (a b : list string) (z : Z) (asap : bool) (tmo now : Z).
  Variables (ck : list cinfo -> bool) (pr : list cinfo -> list cinfo -> bool).
  Let sw := Switch a b z asap tmo now ck pr.
  Variable mid : list op.
  Hypothesis Hclean : no_abandoned ops.
  Hypothesis Hidle : idle ls ops.
  Hypothesis Hacc : reply ls ops sw = ANone.
  Hypothesis Hwait : still_waiting ls (ops ++ [sw]) mid.
  Let before := (ops ++ [sw]) ++ mid.

  Lemma at_most_once : no_reset mid -> NoDup a -> forall c, In c (loaded (trace ls ops)) ->
    (asap = true -> named a c = true -> named b c = true -> False) ->
    (count_cb is_stopping (fst c) (emits_all ls (ops ++ [sw]) mid) <= 1 /\
     count_cb is_starting (fst c) (emits_all ls (ops ++ [sw]) mid) <= 1)%nat.
  Proof.
    intros Hr Hnd c Hc Hb.
    destruct (accepted_state ls ops Hclean Hidle a b z asap tmo now ck pr Hacc) as (_ & A1 & A2 & A3 & A4 & _ & _ & A7 & A8).
    fold sw in A1, A2, A3, A4, A7, A8.
    pose proof (inv_reach ls ops) as HI.
    destruct (session_inv ls ops a b z asap tmo now ck pr [] Hclean Hidle Hacc I True ltac:(constructor)) as [W _].
    fold sw in W. rewrite app_nil_r in W.
    rewrite <- (inv_list _ _ HI) in Hc. apply in_map_iff in Hc as (d & <- & Hd). cbn [fst] in *.
    pose proof (once_run mid (reach ls (ops ++ [sw])) tmo KReturn (sp_inst d) 0 0 A7 Hwait Hr W) as X.
    unfold emits_all. apply X; clear X.
    - rewrite A3. apply resolve_nodup; [apply HI|exact Hnd].
    - rewrite A1. apply in_map; exact Hd.
    - rewrite A8, A3, A4. cbn [sw_asap]. rewrite <- !mem_spec. rewrite !(mem_named _ _ HI) by exact Hd. exact Hb.
    - unfold once_inv. rewrite A8. cbn [sw_asap sw_do]. destruct asap; auto 10.
  Qed.

  (** ** waiting *)
  Lemma wait_exact : pending ls before ->
    (forall w, reply ls before (Poll w true true) = ABool false <-> tmo <> 0 /\ tmo + 1000000000 <= w) /\
    (forall w, reply ls before (Poll w true true) = ANone <-> ~ (tmo <> 0 /\ tmo + 1000000000 <= w)) /\
    (forall w, reply ls before (Poll w true true) = ABool false -> idle ls (before ++ [Poll w true true])).
  Proof.
    intros Hp. pose proof (pending_do ls ops a b z asap tmo now ck pr mid Hclean Hidle Hacc Hwait Hp) as Hd. fold sw before in Hd.
    destruct (session_frame ls ops a b z asap tmo now ck pr mid Hclean Hidle Hacc Hwait) as (_ & _ & _ & _ & _ & B6 & _). fold sw before in B6.
    assert (E : forall w, step (reach ls before) (Poll w true true) = poll w true true tmo KReturn (reach ls before)).
    { intros w. unfold step. rewrite B6. reflexivity. }
    unfold reply. unfold poll in E. rewrite Hd in E. cbn [andb negb] in E.
    assert (G : forall w, (w <? tmo + 1000000000) || (tmo =? 0) = true <-> ~ (tmo <> 0 /\ tmo + 1000000000 <= w)).
    { intros w. rewrite orb_true_iff, Z.ltb_lt, Z.eqb_eq. lia. }
    split; [|split]; intros w; specialize (G w); [| |].
    - rewrite E. destruct (_ || _); cbn; (split; [try discriminate|]); [intros H; exfalso; tauto| |reflexivity].
      intros _. destruct (Z.eq_dec tmo 0), (Z_le_gt_dec (tmo + 1000000000) w); try tauto; exfalso; assert (X : false = true) by (apply G; lia); discriminate.
    - rewrite E. destruct (_ || _); cbn; split; try tauto; try discriminate. intros H. apply G in H. discriminate.
    - intros H. unfold idle. destruct (reach_snoc ls before (Poll w true true)) as [-> _]. rewrite E in *. destruct (_ || _); [discriminate|]. reflexivity.
  Qed.

  Lemma pending_or_finished : pending ls before \/ finished ls before true.
  Proof.
    destruct (sw_do (cm_sw (reach ls before))) eqn:E.
    - left. apply (do_pending ls ops a b z asap tmo now ck pr mid Hclean Hidle Hacc Hwait). exact E.
    - right. apply (finished_not_do ls ops a b z asap tmo now ck pr mid Hclean Hidle Hacc Hwait). exact E.
  Qed.

  (** A controller in both lists, one by one. *)
  Lemma both_lists t p hw (ans : nat -> cinfo -> swstate) : pending ls before -> asap = true -> NoDup a ->
    (forall k n info, hw_one hw k n info = ans n info) ->
    forall c, In c (loaded (trace ls ops)) -> named a c = true -> named b c = true ->
    lifecycle_of (fst c) (emits ls before (Cycle t p false hw)) =
      (if runsb (trace ls before) (fst c) then [CbStopping] else []) ++ [told (ans 0%nat (snd c)) (ans 1%nat (snd c)) now tmo t] /\
    (ans 0%nat (snd c) = DONE -> runs (trace ls (before ++ [Cycle t p false hw])) (fst c)).
  Proof.
    intros Hp Has Hnd Hans c Hc HA HB.
    destruct (pending_cycle ls ops a b z asap tmo now ck pr mid Hclean Hidle Hacc Hwait t p false hw Hp) as (h1 & H1 & Hin & El & Ea & _ & Hcl & Hh & Hdo & _ & e1 & He1 & He).
    destruct (session_frame ls ops a b z asap tmo now ck pr mid Hclean Hidle Hacc Hwait) as (B1 & B2 & B3 & B4 & B5 & B6 & B7 & B8 & B9 & B10).
    fold sw before in H1, Hin, El, Ea, Hcl, Hh, Hdo, He1, He, B1, B2, B3, B4, B5, B6, B7, B8, B9, B10.
    pose proof (proj1 (session_inv ls ops a b z asap tmo now ck pr mid Hclean Hidle Hacc Hwait True ltac:(apply Forall_forall; intros []; auto))) as (W1 & W2 & W3).
    fold sw before in W1, W2, W3.
    pose proof (inv_reach ls ops) as HI. pose proof (inv_reach ls before) as HI2.
    assert (Hnd' : NoDup (cm_start (reach ls before))) by (rewrite B2; apply resolve_nodup; [apply HI|exact Hnd]).
    destruct (asap_stage t hw (cm_sw (reach ls before)) (cm_list (reach ls before)) 0 h1 (cm_start (reach ls before)) W1 Hnd') as [_ S2].
    { intros i Hi. destruct (Hin i Hi) as [X Y]. apply in_map_iff in X as (d & E & Hd'). exists d; auto. }
    rewrite <- (inv_list _ _ HI) in Hc. apply in_map_iff in Hc as (d & <- & Hd). cbn [fst snd] in *.
    assert (Hd2 : In d (cm_list (reach ls before))) by (rewrite B1; exact Hd).
    assert (Hi : In (sp_inst d) (cm_start (reach ls before))).
    { apply mem_spec. rewrite B2, (mem_named _ _ HI a d Hd). exact HA. }
    assert (Hm : mem (sp_inst d) (cm_stop (reach ls before)) = true) by (rewrite B3, (mem_named _ _ HI b d Hd); exact HB).
    destruct (In_nth_error _ _ Hi) as (n & Hn). specialize (S2 n d Hn Hd2).
    assert (Hr : is_running h1 (sp_inst d) = false).
    { unfold is_running. rewrite H1, Hm. unfold is_running. destruct (cm_heap (reach ls before) (sp_inst d)); reflexivity. }
    rewrite Hr in S2. unfold asap_dec in S2. rewrite !Hans in S2.
    assert (Hst : fst (start_stage t hw (reach ls before) h1) = asap_loop t hw (cm_sw (reach ls before)) (cm_list (reach ls before)) 0 h1 (cm_start (reach ls before))).
    { unfold start_stage. rewrite B8, Has. unfold start_controllers_asap. destruct (asap_loop _ _ _ _ _ _ _); reflexivity. }
    split.
    - rewrite He, Hst. cbn [app]. unfold lifecycle_of. rewrite !callbacks_app, !filter_app, hwdo_callbacks, He1, Hm.
      rewrite upd_events_count by reflexivity. rewrite <- (inv_running _ _ d HI2 Hd2). cbn [andb app filter]. destruct S2 as [_ ->].
      rewrite (told_dec _ _ now tmo t (cm_sw (reach ls before)) B7 B9).
      destruct (is_running (cm_heap (reach ls before)) (sp_inst d)); (destruct (swstate_eqb _ _); [reflexivity|]; destruct (_ || _); reflexivity).
    - intros Hdone. rewrite Hdone in S2. cbn in S2. destruct S2 as [S2 _].
      apply (phase_is ls ops (before ++ [Cycle t p false hw]) d PStarted Hd); try discriminate; [exact El|].
      unfold before in *. change (((ops ++ [sw]) ++ mid) ++ [Cycle t p false hw]) with (after_cycle ops a b z asap tmo now ck pr mid t p false hw).
      rewrite Hh, Hst. exact S2.
  Qed.
End Once.
