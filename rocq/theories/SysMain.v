(** Parts, exclusivity and acceptance on a whole robot. *)
From Verif Require Import HwTypes Lifecycle SMap ConflictModel ConflictProofs CMModel CMSpec CMInv CMTrace CMCycle CMSwitch CMLife CMSession CMExcl CMHooks CMLoad CMRest CMFinal CMDo
  HwModel HwSpec HwProofs HwMgr HwBuilt HwInit HwClaims CombModel CombSpec CombProofs SysModel SysSpec SysProofs SysInv.
Open Scope Z_scope.
Local Open Scope list_scope.

(** ** running controllers and their requests *)
Lemma loaded_event e : forall l i info, In (i, info) (fold_left loaded_step e l) -> In (i, info) l \/ In (EvLoaded i info) e.
Proof.
  induction e as [|x e IH]; intros l i info H; cbn in H; [auto|]. destruct (IH _ _ _ H) as [A|A]; [|right; right; exact A].
  destruct x; cbn in A; auto.
  - apply in_app_or in A as [A|[[= -> ->]|[]]]; [auto|right; left; reflexivity].
  - apply filter_In in A as [A _]. auto.
Qed.
Lemma loaded_stays i info e : Forall (fun x => concerns i x = false) e -> forall l, In (i, info) l -> In (i, info) (fold_left loaded_step e l).
Proof.
  induction 1 as [|x e Hx He IH]; intros l Hl; cbn; [exact Hl|]. apply IH. destruct x; cbn in *; auto.
  - apply in_or_app. auto.
  - apply filter_In. split; [exact Hl|]. cbn. rewrite Hx. reflexivity.
Qed.
Lemma runs_loaded ls ops pre post i : no_abandoned ops -> trace ls ops = pre ++ post -> runs pre i -> exists info, In (i, info) (loaded pre).
Proof.
  intros N E R. apply runs_iff in R as (p1 & t & p2 & -> & F). rewrite <- app_assoc in E. cbn [app] in E.
  pose proof (callbacks_loaded _ _ _ _ _ _ _ N E) as H. apply in_map_iff in H as ([j info] & Ej & H). cbn in Ej. subst j. exists info.
  rewrite loaded_app. cbn [fold_left loaded_step]. apply loaded_stays; assumption.
Qed.

Section Main.
  Variable kd : string -> tkind.
  Variable ls : list loader.
  Variable rb : robot.
  Hypothesis Hk : claiming_managed kd.
  Hypothesis Hb : built kd (rb_world rb) (rb_mgr rb).
  Notation strace := (sys_trace kd ls rb).
  Notation cops ops := (cm_ops kd (sys_init ls rb) ops).

  Lemma loaded_request ops pre post i info : strace ops = pre ++ post -> In (i, info) (loaded (of_manager pre)) ->
    exists q, initialised (strace ops) i q (ci_claims info) /\ forall q' cl, initialised (strace ops) i q' cl -> q' = q /\ cl = ci_claims info.
  Proof.
    intros E H. pose proof (sinv_reach kd ls rb Hk Hb ops) as [].
    apply loaded_event in H as [[]|H].
    destruct (si_from i info) as [q Hq]. { rewrite E, of_manager_app. apply in_or_app. auto. }
    exists q. split; [exact Hq|]. intros q' cl H'. destruct (si_one _ _ _ _ _ H' Hq) as [-> X]. injection X as ->. auto.
  Qed.

  Lemma claims_commands ops i q cl n : initialised (strace ops) i q cl -> ((exists f, In f cl /\ In n (ir_res f)) <-> commands kd (rb_world rb) (rb_mgr rb) q n).
  Proof. intros H. destruct (sinv_reach kd ls rb Hk Hb ops). apply (si_claims i q cl H). Qed.

  Lemma running_request ops pre post i : none_abandoned ops -> strace ops = pre ++ post -> runs (of_manager pre) i ->
    exists q cl, initialised (strace ops) i q cl.
  Proof.
    intros N E R. assert (E' : trace ls (cops ops) = of_manager pre ++ of_manager post) by (rewrite <- trace_proj, E; apply of_manager_app).
    destruct (runs_loaded _ _ _ _ _ (not_abandoned_ops kd ops N _) E' R) as [info Hi]. destruct (loaded_request ops pre post i info E Hi) as (q & H & _). eauto.
  Qed.

  Lemma exclusive_commands ops pre post i j q q' cl cl' n : none_abandoned ops -> strace ops = pre ++ post ->
    runs (of_manager pre) i -> runs (of_manager pre) j -> initialised (strace ops) i q cl -> initialised (strace ops) j q' cl' ->
    commands kd (rb_world rb) (rb_mgr rb) q n -> commands kd (rb_world rb) (rb_mgr rb) q' n -> i = j.
  Proof.
    intros N E Ri Rj Hi Hj Ci Cj.
    assert (E' : trace ls (cops ops) = of_manager pre ++ of_manager post) by (rewrite <- trace_proj, E; apply of_manager_app).
    pose proof (not_abandoned_ops kd ops N (sys_init ls rb)) as N'.
    destruct (runs_loaded _ _ _ _ _ N' E' Ri) as [a La]. destruct (runs_loaded _ _ _ _ _ N' E' Rj) as [b Lb].
    destruct (loaded_request ops pre post i a E La) as (q1 & H1 & U1). destruct (loaded_request ops pre post j b E Lb) as (q2 & H2 & U2).
    destruct (U1 _ _ Hi) as [-> ->]. destruct (U2 _ _ Hj) as [-> ->].
    apply (claims_commands _ _ _ _ n H1) in Ci. apply (claims_commands _ _ _ _ n H2) in Cj.
    apply (exclusive_default _ _ _ _ N' (checks_default kd ops _) E' i a j b n); assumption.
  Qed.

  (** ** the parts *)
  Notation parts := (rb_parts rb).

  Lemma prepare_iff ans x y : prepare_of parts ans x y = true <-> forall p, In p parts -> ans (pt_id p) (filter_list (pt_mgr p) x) (filter_list (pt_mgr p) y) = true.
  Proof.
    unfold prepare_of. destruct (comb_prepare ans parts x y) as [cs r] eqn:E. cbn [snd]. apply prepare_spec in E as [(-> & _ & H)|(-> & pre & p & post & -> & _ & _ & H)].
    - split; [|reflexivity]. intros _ p Hp. rewrite forallb_forall in H. apply (H p Hp).
    - split; [discriminate|]. intros X. specialize (X p (in_elt _ _ _)). unfold accepts in H. congruence.
  Qed.

  Lemma loaded_sets ops l : (forall c, In c l -> exists i, In (i, c) (loaded (of_manager (strace ops)))) -> claim_sets l.
  Proof.
    intros H c f Hc Hf. destruct (H c Hc) as [i Hi]. destruct (loaded_request ops (strace ops) [] i c (eq_sym (app_nil_r _)) Hi) as (q & Hq & _).
    destruct (sinv_reach kd ls rb Hk Hb ops). apply (si_claims i q _ Hq). exact Hf.
  Qed.
  Lemma to_start_loaded tr a c : In c (to_start tr a) -> exists i, In (i, c) (loaded tr).
  Proof. unfold to_start. intros H. apply in_map_iff in H as ([i d] & <- & H). apply filter_In in H as [H _]. eauto. Qed.
  Lemma to_stop_loaded tr a c : In c (to_stop tr a) -> exists i, In (i, c) (loaded tr).
  Proof. unfold to_stop. intros H. apply in_map_iff in H as ([i d] & <- & H). apply filter_In in H as [H _]. eauto. Qed.
  Lemma start_sets ops a : claim_sets (to_start (of_manager (strace ops)) a).
  Proof. apply (loaded_sets ops). apply to_start_loaded. Qed.
  Lemma stop_sets ops a : claim_sets (to_stop (of_manager (strace ops)) a).
  Proof. apply (loaded_sets ops). apply to_stop_loaded. Qed.

  (** ** acceptance *)
  Lemma nodup_parts {B} (x y : list B) : NoDup (x ++ y) -> NoDup x /\ NoDup y /\ forall n, In n x -> In n y -> False.
  Proof.
    induction x as [|b x IH]; cbn; intros H; [split; [constructor|split; [exact H|auto]]|]. inversion H as [|? ? H1 H2]; subst. destruct (IH H2) as (A1 & A2 & A3).
    split; [constructor; [intros X; apply H1, in_or_app; auto|exact A1]|]. split; [exact A2|]. intros n [->|X] Y; [|eauto]. apply H1, in_or_app. auto.
  Qed.
  Lemma nodup_flat {A K B} (key : A -> K) (f : A -> list B) l : NoDup (map key l) ->
    (NoDup (flat_map f l) <-> (forall x, In x l -> NoDup (f x)) /\ forall x y n, In x l -> In y l -> In n (f x) -> In n (f y) -> key x = key y).
  Proof.
    induction l as [|a l IH]; intros Hn; [split; [intros _; split; contradiction|constructor]|]. cbn [map] in Hn. inversion Hn as [|? ? Ha Hn']; subst. specialize (IH Hn'). cbn [flat_map]. split.
    - intros H. destruct (nodup_parts _ _ H) as (I3 & I4 & D). destruct (proj1 IH I4) as [I1 I2].
      split; [intros x [<-|Hx]; auto|]. intros x y n [<-|Hx] [<-|Hy] A1 A2; auto.
      + exfalso. apply (D n A1). apply in_flat_map. eauto.
      + exfalso. apply (D n A2). apply in_flat_map. eauto.
      + eauto.
    - intros [H1 H2]. assert (I : NoDup (flat_map f l)). { apply IH. split; [intros x Hx; apply H1; right; exact Hx|]. intros x y n Hx Hy. apply H2; right; assumption. }
      assert (D : forall n, In n (f a) -> In n (flat_map f l) -> False).
      { intros n A1 A2. apply in_flat_map in A2 as (y & Hy & A2). apply Ha. rewrite (H2 a y n (or_introl eq_refl) (or_intror Hy) A1 A2). apply in_map. exact Hy. }
      specialize (H1 a (or_introl eq_refl)). clear - H1 I D. induction H1 as [|b fa Hx H1 IH]; [exact I|]. cbn. constructor; [|apply IH; intros n A1; apply D; right; exact A1].
      intros X. apply in_app_or in X as [X|X]; [contradiction|]. apply (D b); [left; reflexivity|exact X].
  Qed.

  (** The conflict check on the controllers that would run, in terms of requests. *)
  Lemma check_requests ops a b : let tr := strace ops in
    (check_for_conflict (would_run (of_manager tr) a b) = false <->
     (forall i j q q' cl cl' n, will_run (of_manager tr) a b i -> will_run (of_manager tr) a b j -> initialised tr i q cl -> initialised tr j q' cl' ->
        commands kd (rb_world rb) (rb_mgr rb) q n -> commands kd (rb_world rb) (rb_mgr rb) q' n -> i = j) /\
     (forall i q cl, will_run (of_manager tr) a b i -> initialised tr i q cl -> NoDup (flat_map ir_res cl))).
  Proof.
    intros tr. rewrite conflict_iff. unfold all_claims, would_run.
    set (sel := fun c : nat * cinfo => named a c || runsb (of_manager tr) (fst c) && negb (named b c)).
    assert (Hw : forall i, will_run (of_manager tr) a b i <-> exists info, In (i, info) (filter sel (loaded (of_manager tr)))).
    { intros i. unfold will_run. split; intros (info & H1).
      - destruct H1 as [H1 H2]. exists info. apply filter_In. split; [exact H1|]. unfold sel. cbn [fst]. destruct H2 as [->|[R ->]]; [reflexivity|]. apply runsb_spec in R. rewrite R. apply orb_true_r.
      - apply filter_In in H1 as [H1 H2]. exists info. split; [exact H1|]. unfold sel in H2. cbn [fst] in H2. apply orb_true_iff in H2 as [H2|H2]; [auto|]. apply andb_true_iff in H2 as [H2 H3].
        right. split; [apply runsb_spec; exact H2|]. apply negb_true_iff. exact H3. }
    assert (Hnd : NoDup (map fst (filter sel (loaded (of_manager tr))))).
    { unfold tr. rewrite trace_proj. apply nodup_map_filter. destruct (distinct_at ls (cops ops) _ [] (eq_sym (app_nil_r _))) as (_ & -> & H). apply nodup_map_filter. exact H. }
    assert (Hreq : forall i info, In (i, info) (filter sel (loaded (of_manager tr))) -> exists q, initialised tr i q (ci_claims info) /\ forall q' cl, initialised tr i q' cl -> q' = q /\ cl = ci_claims info).
    { intros i info H. apply filter_In in H as [H _]. apply (loaded_request ops tr [] i info (eq_sym (app_nil_r _)) H). }
    assert (Ef : flat_map (fun c => flat_map ir_res (ci_claims c)) (map snd (filter sel (loaded (of_manager tr)))) =
                 flat_map (fun x : nat * cinfo => flat_map ir_res (ci_claims (snd x))) (filter sel (loaded (of_manager tr)))).
    { rewrite !flat_map_concat_map, map_map. reflexivity. }
    rewrite Ef. rewrite (nodup_flat fst _ _ Hnd). clear Ef Hnd. split.
    - intros [H1 H2]. split.
      + intros i j q q' cl cl' n Wi Wj Hi Hj Ci Cj. apply Hw in Wi as [x Wi]. apply Hw in Wj as [y Wj].
        destruct (Hreq _ _ Wi) as (q1 & A1 & U1). destruct (Hreq _ _ Wj) as (q2 & A2 & U2). destruct (U1 _ _ Hi) as [-> ->]. destruct (U2 _ _ Hj) as [-> ->].
        apply (claims_commands _ _ _ _ n A1) in Ci. apply (claims_commands _ _ _ _ n A2) in Cj.
        apply (H2 (i, x) (j, y) n Wi Wj); cbn; apply in_flat_map; assumption.
      + intros i q cl Wi Hi. apply Hw in Wi as [x Wi]. destruct (Hreq _ _ Wi) as (q1 & A1 & U1). destruct (U1 _ _ Hi) as [_ ->]. apply (H1 (i, x) Wi).
    - intros [H1 H2]. split.
      + intros [i x] Wi. destruct (Hreq _ _ Wi) as (q1 & A1 & _). cbn. apply (H2 i q1); [apply Hw; eauto|exact A1].
      + intros [i x] [j y] n Wi Wj Ci Cj. cbn in *. destruct (Hreq _ _ Wi) as (q1 & A1 & _). destruct (Hreq _ _ Wj) as (q2 & A2 & _).
        apply in_flat_map in Ci. apply in_flat_map in Cj. apply (claims_commands _ _ _ _ n A1) in Ci. apply (claims_commands _ _ _ _ n A2) in Cj.
        apply (H1 i j q1 q2 (ci_claims x) (ci_claims y) n); try assumption; apply Hw; eauto.
  Qed.

  Lemma accepted_iff has ops a b asap tmo now ans : none_abandoned ops -> sys_idle kd ls rb ops -> knows kd (rb_world rb) has parts ->
    let tr := strace ops in let mt := of_manager tr in
    (sys_reply kd ls rb ops (SSwitch a b STRICT asap tmo now ans) = ANone <->
     (forall n, In n a \/ In n b -> known mt n) /\
     (forall c, In c (loaded mt) -> named b c = true -> runs mt (fst c)) /\
     (forall c, In c (loaded mt) -> named a c = true -> ~ runs mt (fst c)) /\
     (forall i j q q' cl cl' n, will_run mt a b i -> will_run mt a b j -> initialised tr i q cl -> initialised tr j q' cl' ->
        commands kd (rb_world rb) (rb_mgr rb) q n -> commands kd (rb_world rb) (rb_mgr rb) q' n -> i = j) /\
     (forall i q cl, will_run mt a b i -> initialised tr i q cl -> NoDup (flat_map ir_res cl)) /\
     (forall p, In p parts -> ans (pt_id p) (concerned (has p) (to_start mt a)) (concerned (has p) (to_stop mt b)) = true)) /\
    (sys_reply kd ls rb ops (SSwitch a b STRICT asap tmo now ans) = ANone \/ sys_reply kd ls rb ops (SSwitch a b STRICT asap tmo now ans) = ABool false).
  Proof.
    intros N I K tr mt. pose proof (not_abandoned_ops kd ops N (sys_init ls rb)) as N'. pose proof (proj1 (idle_proj kd ls rb ops) I) as I'.
    rewrite !reply_proj. cbn [cm_op]. rewrite parts_proj.
    split; [|apply (switch_replies ls _ I')].
    rewrite (accept_strict ls _ N' I' a b asap tmo now check_for_conflict (prepare_of parts ans)). unfold strict_ok.
    rewrite <- trace_proj. fold tr mt. pose proof (check_requests ops a b) as C. cbv zeta in C. fold tr mt in C. rewrite C, prepare_iff.
    assert (P : (forall p, In p parts -> ans (pt_id p) (filter_list (pt_mgr p) (to_start mt a)) (filter_list (pt_mgr p) (to_stop mt b)) = true) <->
                (forall p, In p parts -> ans (pt_id p) (concerned (has p) (to_start mt a)) (concerned (has p) (to_stop mt b)) = true)).
    { split; intros H p Hp; specialize (H p Hp); destruct (K p Hp) as [Hbp Hh];
      pose proof (filter_list_spec kd _ _ (has p) _ Hbp (start_sets ops a) Hh : filter_list (pt_mgr p) (to_start mt a) = _) as E1;
      pose proof (filter_list_spec kd _ _ (has p) _ Hbp (stop_sets ops b) Hh : filter_list (pt_mgr p) (to_stop mt b) = _) as E2;
      [rewrite E1, E2 in H; exact H|rewrite E1, E2; exact H]. }
    rewrite P. tauto.
  Qed.

  (** ** protocol of the parts *)
  Lemma last_hook_app id x y : last_hook id (x ++ y) = fold_left (note_hook id) y (last_hook id x).
  Proof. apply fold_left_app. Qed.
  Definition hook_id (c : pcall) : option nat := match c with PPrepare j _ _ _ => Some j | PDo j _ _ => Some j | _ => None end.
  Lemma fold_hooks_other id cs : (forall c, In c cs -> hook_id c <> Some id) -> forall l, fold_left (note_hook id) (map OfPart cs) l = l.
  Proof.
    induction cs as [|c cs IH]; intros H l; [reflexivity|]. cbn [map fold_left]. rewrite IH by (intros d Hd; apply H; right; exact Hd).
    specialize (H c (or_introl eq_refl)). destruct c; cbn in *; try reflexivity; (destruct (Nat.eqb_spec id0 id); [subst; congruence|reflexivity]).
  Qed.
  Lemma fold_hooks_own (g : part -> pcall) ps p : (forall p, hook_id (g p) = Some (pt_id p)) -> NoDup (map pt_id ps) -> In p ps ->
    forall l, fold_left (note_hook (pt_id p)) (map OfPart (map g ps)) l = Some (g p).
  Proof.
    intros Hg. induction ps as [|p0 ps IH]; intros Hn Hp l; [contradiction|]. cbn [map fold_left] in *. inversion Hn as [|? ? H1 H2]; subst.
    destruct Hp as [->|Hp]; [|apply IH; assumption]. rewrite fold_hooks_other.
    - specialize (Hg p). destruct (g p); cbn in *; try discriminate Hg; injection Hg as ->; rewrite Nat.eqb_refl; reflexivity.
    - intros c Hc E. apply in_map_iff in Hc as (p1 & <- & Hc). rewrite Hg in E. injection E as E. apply H1. rewrite <- E. apply in_map. exact Hc.
  Qed.

  Definition told (past : list sysev) (e : sysev) : Prop :=
    match e with OfPart (PDo id x y) => last_hook id past = Some (PPrepare id x y true) | _ => True end.
  Fixpoint all_told (past tr : list sysev) : Prop := match tr with [] => True | e :: tr' => told past e /\ all_told (past ++ [e]) tr' end.
  Lemma all_told_app past x y : all_told past (x ++ y) <-> all_told past x /\ all_told (past ++ x) y.
  Proof.
    revert past. induction x as [|e x IH]; intros past; cbn [app all_told]; [rewrite app_nil_r; tauto|]. rewrite IH, <- app_assoc. cbn [app]. tauto.
  Qed.
  Lemma all_told_at past tr pre e post : all_told past tr -> tr = pre ++ e :: post -> told (past ++ pre) e.
  Proof. intros H ->. apply all_told_app in H as [_ [H _]]. exact H. Qed.

  (** What a part was last asked if a switch is prepared. *)
  Definition prepped (past : list sysev) : Prop :=
    forall a b, hook_after HIdle (of_manager past) = HPrepared a b ->
      forall p, In p parts -> last_hook (pt_id p) past = Some (PPrepare (pt_id p) (filter_list (pt_mgr p) a) (filter_list (pt_mgr p) b) true).

  Definition right_answer (ans : nat -> list cinfo -> list cinfo -> bool) (e : event) : Prop :=
    match e with EvPrepare a b ok => ok = prepare_of parts ans a b | _ => True end.

  Lemma expand_ok past ans e : NoDup (map pt_id parts) -> right_answer ans e -> prepped past ->
    hooks_ok false (hook_after HIdle (of_manager past)) [e] ->
    all_told past (expand parts ans e) /\ prepped (past ++ expand parts ans e).
  Proof.
    intros Hn Hr Hp Hh.
    assert (Eom : hook_after HIdle (of_manager (past ++ expand parts ans e)) = hook_step (hook_after HIdle (of_manager past)) e).
    { rewrite of_manager_app. unfold expand. cbn [of_manager flat_map app]. fold (of_manager (map OfPart (part_calls parts ans e))). rewrite of_manager_parts. rewrite hook_after_app. reflexivity. }
    assert (Hnone : part_calls parts ans e = [] -> hook_step (hook_after HIdle (of_manager past)) e = hook_after HIdle (of_manager past) ->
              all_told past (expand parts ans e) /\ prepped (past ++ expand parts ans e)).
    { intros E1 E2. unfold prepped. rewrite Eom, E2. unfold expand. rewrite E1. cbn [map]. split; [cbn; auto|]. intros a b H p Hin. rewrite last_hook_app. cbn. apply Hp; assumption. }
    destruct e as [i c t|i x|i|a b ok|a b|k|k]; try (apply Hnone; reflexivity).
    - (* prepare *) clear Hnone. cbn [right_answer] in Hr. unfold prepare_of in Hr. split.
      + unfold expand. cbn [all_told told part_calls]. split; [exact I|].
        assert (G : forall cs p0, (forall c, In c cs -> match c with PPrepare _ _ _ _ => True | _ => False end) -> all_told p0 (map OfPart cs)).
        { induction cs as [|c cs IH]; intros p0 H; [exact I|]. cbn [map all_told]. split; [|apply IH; intros d Hd; apply H; right; exact Hd]. specialize (H c (or_introl eq_refl)). destruct c; cbn; auto; contradiction. }
        apply G. intros c Hc. destruct (comb_prepare ans parts a b) as [cs r] eqn:E. cbn [fst] in Hc.
        apply prepare_spec in E as [(_ & -> & _)|(_ & pre & p & post & _ & -> & _)]; apply in_map_iff in Hc as (p1 & <- & _); exact I.
      + intros x y H p Hin. rewrite Eom in H. destruct ok; [|discriminate H]. cbn in H. injection H as <- <-. rewrite last_hook_app. unfold expand. cbn [fold_left note_hook part_calls].
        destruct (comb_prepare ans parts a b) as [cs r] eqn:E. cbn [fst snd] in *. subst r. apply prepare_spec in E as [(_ & -> & F)|(X & _)]; [|discriminate X].
        rewrite (fold_hooks_own (CombProofs.asked ans a b) parts p) by auto. unfold CombProofs.asked. rewrite forallb_forall in F. specialize (F p Hin). unfold accepts in F. rewrite F. reflexivity.
    - (* do *) clear Hnone. cbn in Hh. destruct Hh as [Hh _]. specialize (Hp a b Hh). split.
      + unfold expand. cbn [all_told told part_calls]. split; [exact I|]. unfold comb_do.
        assert (G : forall ps p0, NoDup (map pt_id ps) -> (forall p, In p ps -> last_hook (pt_id p) p0 = Some (PPrepare (pt_id p) (filter_list (pt_mgr p) a) (filter_list (pt_mgr p) b) true)) ->
                  all_told p0 (map OfPart (map (fun p => PDo (pt_id p) (filter_list (pt_mgr p) a) (filter_list (pt_mgr p) b)) ps))).
        { induction ps as [|p ps IH]; intros p0 H1 H2; [exact I|]. cbn [map all_told told]. split; [apply H2; left; reflexivity|]. cbn [map] in H1. inversion H1 as [|? ? A1 A2]; subst.
          apply IH; [exact A2|]. intros p' Hp'. rewrite last_hook_app. cbn [fold_left note_hook]. destruct (Nat.eqb_spec (pt_id p) (pt_id p')) as [E|E]; [|apply H2; right; exact Hp'].
          exfalso. apply A1. rewrite E. apply in_map. exact Hp'. }
        apply G; [exact Hn|]. intros p Hin. rewrite last_hook_app. cbn. apply Hp. exact Hin.
      + intros x y H. rewrite Eom in H. discriminate H.
  Qed.

  Lemma expand_all_ok ans es : forall past, NoDup (map pt_id parts) -> Forall (right_answer ans) es -> prepped past ->
    hooks_ok false (hook_after HIdle (of_manager past)) es ->
    all_told past (flat_map (expand parts ans) es) /\ prepped (past ++ flat_map (expand parts ans) es).
  Proof.
    induction es as [|e es IH]; intros past Hn Hr Hp Hh; [cbn; rewrite app_nil_r; auto|]. inversion Hr as [|? ? R1 R2]; subst.
    change (e :: es) with ([e] ++ es) in Hh. apply hooks_app in Hh as [H1 H2]. cbn [flat_map].
    destruct (expand_ok past ans e Hn R1 Hp H1) as [A1 A2].
    assert (Eom : of_manager (past ++ expand parts ans e) = of_manager past ++ [e]).
    { rewrite of_manager_app. unfold expand. cbn [of_manager flat_map app]. fold (of_manager (map OfPart (part_calls parts ans e))). rewrite of_manager_parts. reflexivity. }
    destruct (IH (past ++ expand parts ans e) Hn R2 A2) as [B1 B2].
    { rewrite Eom, hook_after_app. exact H2. }
    rewrite all_told_app. rewrite app_assoc. auto.
  Qed.

  Lemma step_right s o : rb_parts (sy_rb s) = parts -> Forall (right_answer (answers_of o)) (snd (fst (step (sy_cm s) (cm_op kd s o)))).
  Proof.
    intros Ep.
    assert (Hnp : forall ans (e : list event), Forall (fun x => match x with EvPrepare _ _ _ => False | _ => True end) e -> Forall (right_answer ans) e).
    { intros ans e H. eapply Forall_impl; [|exact H]. intros []; cbn; tauto. }
    assert (Hsb : forall a b z asap tmo now ans k, Forall (right_answer ans) (snd (fst (switch_begin a b z asap tmo now check_for_conflict (prepare_of parts ans) k (sy_cm s))))).
    { intros. unfold switch_begin. destruct (collect _ _ b _); [|constructor]. destruct (collect _ _ a _); [|constructor].
      destruct (scan _ _ _ _ _ _ _ _); [constructor|]. destruct (check_for_conflict infos); [constructor|].
      destruct (prepare_of parts ans start stop) eqn:E; repeat constructor; cbn; congruence. }
    assert (Hq : forall ans e, Forall quiet_ev e -> Forall (right_answer ans) e) by (intros ans e H; apply Hnp; eapply Forall_impl; [|exact H]; intros []; cbn; tauto).
    destruct o as [n nh ty q|n|a b z asap tmo now ans|f now ans|w k1 k2|t p r st| | |l]; cbn [cm_op answers_of]; rewrite ?Ep; unfold step; destruct (cm_call (sy_cm s)) as [|tmo' k] eqn:Hc; try constructor.
    - match goal with |- context[load_controller n ?e _] => destruct (load_frame n e (sy_cm s)) as (_ & _ & _ & _ & _ & _ & _ & _ & F); destruct (load_controller n e _) as [[? ?] ?] end.
      cbn [fst snd] in *. apply Hnp. eapply Forall_impl; [|exact F]. intros []; cbn; tauto.
    - destruct (unload_frame n (sy_cm s)) as (_ & _ & _ & _ & _ & _ & _ & _ & F). destruct (unload_controller n _) as [[? ?] ?]. cbn [fst snd] in *. apply Hnp. eapply Forall_impl; [|exact F]. intros []; cbn; tauto.
    - specialize (Hsb a b z asap tmo now ans KReturn). destruct (switch_begin _ _ _ _ _ _ _ _ _ _) as [[? ?] ?]. exact Hsb.
    - destruct (controller_names (sy_cm s)) as [|x l] eqn:En; [apply Hq; apply (reload_tail_frame [] (sy_cm s))|]. destruct (negb f); [constructor|].
      specialize (Hsb [] (x :: l) BEST_EFFORT false 0 now ans (KReload (x :: l))). destruct (switch_begin _ _ _ _ _ _ _ _ _ _) as [[? ?] ?]. exact Hsb.
    - unfold poll. destruct (k1 && _); [destruct (negb k2); [|destruct (_ || _)]|]; try constructor;
      (match goal with |- context[switch_return ?x ?y k ?z] => apply Hq; apply (switch_return_frame x y k z) end).
    - pose proof (update_cyc t p r (hw_of parts st) (sy_cm s)) as F. destruct (update _ _ _ _ _). cbn [fst snd] in *. apply Hnp. eapply Forall_impl; [|exact F]. intros []; cbn; tauto.
    - pose proof (update_cyc t p r (hw_of parts st) (sy_cm s)) as F. destruct (update _ _ _ _ _). cbn [fst snd] in *. apply Hnp. eapply Forall_impl; [|exact F]. intros []; cbn; tauto.
  Qed.

  (** The events of one operation: perhaps an initRequest, then what the manager does. *)
  Lemma emits_shape ops o : exists pre, (pre = [] \/ exists i q r, pre = [Inited i q r]) /\
    sys_emits kd ls rb ops o = pre ++ flat_map (expand parts (answers_of o)) (emits ls (cops ops) (cm_op kd (sys_reach kd ls rb ops) o)).
  Proof.
    unfold sys_emits, emits. rewrite <- reach_proj. unfold sys_step. rewrite parts_proj. destruct (step (sy_cm (sys_reach kd ls rb ops)) _) as [[c e] a].
    destruct o as [n nh ty q|n|a0 b z asap tmo now ans|f now ans|w k1 k2|t p r st| | |l]; try (exists []; cbn; auto; fail). cbn [fst snd].
    destruct (gets_to_init _ n nh ty); [|exists []; cbn; auto]. destruct (init_on _ _ _) as [x r]. cbn [fst snd]. eexists [_]. split; [right; eauto|reflexivity].
  Qed.

  Lemma protocol ops : NoDup (map pt_id parts) -> all_told [] (strace ops) /\ prepped (strace ops).
  Proof.
    intros Hn. induction ops as [|o ops IH] using rev_ind; [split; [exact I|intros a b H; discriminate H]|].
    destruct (sys_reach_snoc kd ls rb ops o) as [_ ->]. destruct IH as [I1 I2]. rewrite all_told_app. cbn [app].
    pose proof (step_right (sys_reach kd ls rb ops) o (parts_proj kd ls rb ops)) as R. rewrite reach_proj in R.
    pose proof (hooks_follow ls (cops (ops ++ [o]))) as H. rewrite cops_snoc, trace_snoc in H. apply hooks_app in H as [_ H].
    destruct (emits_shape ops o) as (pre & Hpre & E). unfold emits in E at 1.
    assert (G : prepped (strace ops ++ pre) /\ all_told (strace ops) pre /\ of_manager (strace ops ++ pre) = of_manager (strace ops)).
    { destruct Hpre as [->|(i & q & r & ->)]; [rewrite app_nil_r; cbn; auto|].
      assert (Em : of_manager (strace ops ++ [Inited i q r]) = of_manager (strace ops)) by (rewrite of_manager_app; cbn; apply app_nil_r).
      split; [|split; [cbn; auto|exact Em]]. intros a b Ha p Hp. rewrite Em in Ha. rewrite last_hook_app. cbn. apply (I2 a b Ha p Hp). }
    destruct G as (G1 & G2 & G3).
    destruct (expand_all_ok (answers_of o) _ (strace ops ++ pre) Hn R G1) as [A1 A2].
    { rewrite G3, trace_proj. exact H. }
    rewrite E. rewrite all_told_app. rewrite app_assoc. auto.
  Qed.

  Lemma part_protocol ops pre id x y post : NoDup (map pt_id parts) -> strace ops = pre ++ OfPart (PDo id x y) :: post ->
    last_hook id pre = Some (PPrepare id x y true).
  Proof. intros Hn E. exact (all_told_at [] _ pre _ post (proj1 (protocol ops Hn)) E). Qed.
End Main.
