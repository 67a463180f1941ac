(** The relation between a state of the interleaved manager and a state of the atomic object. *)
From Verif Require Import HwTypes Lifecycle CMModel CMSpec CMInv CMCycle CMLife FineModel FineSpec FineBase.

(** The list the control loop is going to use or using. *)
Definition loopbuf (s : fst_) : option bool :=
  match f_rt s with RtIdle => None | RtLoaded b _ => Some b | _ => f_used s end.
Definition managing (p : rtpc) : bool :=
  match p with RtDo _ _ | RtStop _ _ _ | RtStart _ _ _ _ | RtAsap _ _ _ => true | _ => false end.
Definition in_update (p : rtpc) : bool := match p with RtIdle | RtLoaded _ _ => false | _ => true end.

(** States with a controller in the middle of a reset counted as running. *)
Definition settled (s : fst_) : heap :=
  match f_rt s, f_used s with
  | RtReset k true c e, Some u =>
      match nth_error (f_list s u) k with Some sp => upd (cm_heap (f_m s)) (sp_inst sp) RUNNING | None => cm_heap (f_m s) end
  | _, _ => cm_heap (f_m s)
  end.

(** The calls the cycle still has to make before switching, if the controllers' states are [h] and its list is [l]. *)
Definition rest (p : rtpc) (h : heap) (l : list cspec) : list event :=
  match p with
  | RtLoaded _ c => cyc_events c h l
  | RtReset k false c _ => reset_events (c_t c) h (skipn k l) ++ upd_events (c_t c) (c_p c) h l
  | RtReset k true c _ =>
      match nth_error l k with Some sp => [EvCb (sp_inst sp) CbStarting (c_t c)] | None => [] end ++
      reset_events (c_t c) h (skipn (S k) l) ++ upd_events (c_t c) (c_p c) h l
  | RtUpdate k c _ => upd_events (c_t c) (c_p c) h (skipn k l)
  | _ => []
  end.
Definition sofar (p : rtpc) : list event :=
  match p with
  | RtIdle | RtLoaded _ _ => []
  | RtReset _ _ _ e | RtUpdate _ _ e | RtDo _ e | RtStop _ _ e | RtStart _ _ _ e | RtAsap _ _ e => e
  end.
Definition cyc_of (p : rtpc) : option cyc :=
  match p with
  | RtIdle => None
  | RtLoaded _ c | RtReset _ _ c _ | RtUpdate _ c _ | RtDo c _ | RtStop _ c _ | RtStart _ _ c _ | RtAsap _ c _ => Some c
  end.

(** Which lists the threads use. *)
Definition bufs (s : fst_) : Prop :=
  (in_update (f_rt s) = true -> f_used s <> None) /\
  match f_nrt s with
  | NWait2 f _ => f = negb (f_cur s) /\ (loopbuf s = Some f -> f_used s = Some f)
  | p => (f_used s = None \/ f_used s = Some (f_cur s)) /\ (loopbuf s = None \/ loopbuf s = Some (f_cur s)) /\
         match p with NClear f _ => f = negb (f_cur s) | NReady _ _ => True | _ => incl (f_list s (negb (f_cur s))) (f_list s (f_cur s)) end
  end /\
  (forall b c, b = f_cur s \/ loopbuf s = Some b -> In c (f_list s b) -> (sp_inst c < cm_next (f_m s))%nat) /\
  match f_rt s with RtReset k true _ _ => forall u, f_used s = Some u -> exists sp, nth_error (f_list s u) k = Some sp /\ cm_heap (f_m s) (sp_inst sp) = STOPPED | _ => True end.

(** What the atomic object has pending for the lock holder. *)
Definition srv_rel (s : fst_) (o : obj) : Prop :=
  let a := o_cm o in let l := f_list s (f_cur s) in let fl := f_list s (negb (f_cur s)) in
  match f_nrt s with
  | NIdle => o_srv o = SNone
  | NWait1 q | NClearTo q => o_srv o = SCalled q /\ f_entry q = Some (NWait1 q)
  | NCopy (Load n env) k r e => o_srv o = SCalled (Load n env) /\ e = [] /\ fl = firstn k l
  | NCopy (Unload n) k r e => o_srv o = SCalled (Unload n) /\ e = [] /\ unload_scan (cm_heap a) n (firstn k l) = Some (fl, r)
  | NCopy _ _ _ _ => False
  | NMake n env e => o_srv o = SCalled (Load n env) /\ e = [] /\ fl = l
  | NAppend sp e => fl = l /\ exists n env, o_srv o = SCalled (Load n env) /\ loads n env a sp e
  | NReady (Some sp) e => fl = l ++ [sp] /\ exists n env, o_srv o = SCalled (Load n env) /\ loads n env a sp e
  | NReady None e => exists n, o_srv o = SCalled (Unload n) /\ e = [] /\ unload_scan (cm_heap a) n l = Some (fl, true)
  | NWait2 _ e | NClear _ e => o_srv o = SDone (ABool true) (e ++ dropped fl l)
  | NListing k acc => o_srv o = SCalled ListControllers /\ acc = map (entry (cm_heap a)) (firstn k l)
  | NTypes => o_srv o = SCalled ListTypes
  | NSw q => o_srv o = SCalled q /\ f_entry q = Some (NSw q)
  | NHand _ _ _ | NSwitch _ _ => True
  end.

(** The members that belong to switching. *)
Definition sw_rel (s : fst_) (o : obj) : Prop :=
  let a := o_cm o in let m := f_m s in
  match f_nrt s with
  | NSwitch tmo e =>
      cm_call a = WaitSwitch tmo KReturn /\ o_srv o = SWaiting e /\ cm_start m = cm_start a /\ cm_stop m = cm_stop a /\
      cm_hwstart m = cm_hwstart a /\ cm_hwstop m = cm_hwstop a /\ (managing (f_rt s) = false -> cm_sw m = cm_sw a)
  | NHand sw tmo e =>
      managing (f_rt s) = false /\ cm_call a = Idle /\ sw_do (cm_sw m) = false /\ sw_do (cm_sw a) = false /\
      exists a0 b0 st asap now ck pr, o_srv o = SCalled (Switch a0 b0 st asap tmo now ck pr) /\
        let r := switch_begin a0 b0 st asap tmo now ck pr KReturn a in let m1 := fst (fst r) in
        snd r = true /\ e = snd (fst r) /\ sw = cm_sw m1 /\ cm_start m = cm_start m1 /\ cm_stop m = cm_stop m1 /\
        cm_hwstart m = cm_hwstart m1 /\ cm_hwstop m = cm_hwstop m1
  | _ =>
      managing (f_rt s) = false /\ cm_call a = Idle /\ cm_sw m = cm_sw a /\ sw_do (cm_sw a) = false /\
      cm_start m = [] /\ cm_stop m = [] /\ cm_start a = [] /\ cm_stop a = [] /\ cm_hwstart m = cm_hwstart a /\ cm_hwstop m = cm_hwstop a
  end.

(** The cycle, before and while it switches controllers. *)
Definition man_rel (s : fst_) (a : cm) : Prop :=
  let m := f_m s in let h := cm_heap m in
  match f_rt s with
  | RtDo c e => cm_sw m = cm_sw a /\ heq h (cm_heap a) /\ e = cyc_events c (cm_heap a) (cm_list a)
  | RtStop k c e =>
      cm_sw m = sw_set_started (cm_sw a) /\ heq h (fst (stop_part (c_t c) a k)) /\
      e = cyc_events c (cm_heap a) (cm_list a) ++ do_event a ++ snd (stop_part (c_t c) a k)
  | RtStart md k c e =>
      cm_sw m = sw_set_started (cm_sw a) /\ sw_asap (cm_sw a) = false /\ md = start_mode (c_t c) (c_hw c) (cm_sw a) /\
      heq h (fst (start_part md (c_t c) a k)) /\
      e = cyc_events c (cm_heap a) (cm_list a) ++ do_event a ++ snd (stopped (c_t c) a) ++ snd (start_part md (c_t c) a k)
  | RtAsap k c e =>
      cm_sw m = sw_set_started (cm_sw a) /\ sw_asap (cm_sw a) = true /\
      heq h (fst (asap_part (c_t c) (c_hw c) a k)) /\
      e = cyc_events c (cm_heap a) (cm_list a) ++ do_event a ++ snd (stopped (c_t c) a) ++ snd (asap_part (c_t c) (c_hw c) a k)
  | _ => False
  end.
Definition loop_rel (s : fst_) (o : obj) : Prop :=
  let a := o_cm o in
  match cyc_of (f_rt s) with
  | None => o_loop o = LNone
  | Some c =>
      if managing (f_rt s) then
        f_used s = Some (f_cur s) /\ o_loop o = LCalled c /\ sw_do (cm_sw a) = true /\ man_rel s a
      else exists b, loopbuf s = Some b /\
        let E := sofar (f_rt s) ++ rest (f_rt s) (cm_heap a) (f_list s b) in
        if Bool.eqb b (f_cur s) then o_loop o = LCalled c /\ E = cyc_events c (cm_heap a) (f_list s b) else o_loop o = LDone E
  end.

Definition mem_rel (s : fst_) (o : obj) : Prop :=
  cm_list (o_cm o) = f_list s (f_cur s) /\ cm_next (o_cm o) = cm_next (f_m s) /\ cm_loaders (o_cm o) = cm_loaders (f_m s) /\
  (managing (f_rt s) = false -> heq (settled s) (cm_heap (o_cm o))).

Record R (s : fst_) (o : obj) : Prop := mkR {
  r_bufs : bufs s; r_mem : mem_rel s o; r_srv : srv_rel s o; r_sw : sw_rel s o; r_loop : loop_rel s o }.

Lemma history_app o l o1 l' o2 : history o l o1 -> history o1 l' o2 -> history o (l ++ l') o2.
Proof.
  intros H; induction H as [o|o x o1' ls o2' Hs Hh IH]; intros H'; [exact H'|]. rewrite <- app_assoc. econstructor; [exact Hs|]. now apply IH.
Qed.
Lemma history_one o l o1 : ostep o l o1 -> history o l o1.
Proof. intros H. rewrite <- (app_nil_r l). econstructor; [exact H|constructor]. Qed.
Lemma history_two o o1 l o2 : ostep o [] o1 -> ostep o1 l o2 -> history o l o2.
Proof. intros H H'. change l with ([] ++ l). econstructor; [exact H|]. now apply history_one. Qed.

Lemma init_rel ls : R (f_init ls) (obj_init ls).
Proof.
  constructor; cbn.
  - repeat split; auto; try discriminate; try (intros i H; exact H). intros [] c _ [].
  - repeat split.
  - reflexivity.
  - repeat split.
  - reflexivity.
Qed.
