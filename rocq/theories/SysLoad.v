(** When a controller loads on a robot. *)
From Verif Require Import HwTypes Lifecycle SMap ConflictModel CMModel CMSpec CMInv CMTrace CMCycle CMSwitch CMLife CMSession CMLoad CMFinal
  HwModel HwSpec HwProofs HwMgr HwBuilt HwInit HwClaims CombModel CombSpec SysModel SysSpec SysProofs SysInv SysMain.
Open Scope Z_scope.
Local Open Scope list_scope.

Lemma exposed_dec kd m T : {exposed kd m T} + {~ exposed kd m T}.
Proof.
  unfold exposed. destruct (tk_rm (kd T)); [destruct (leaves T m)|destruct (sole T m)]; [right; auto|left; discriminate|left; discriminate|right; auto].
Qed.
Lemma in_both {R} (b1 b2 : body R) (P : R * string * bool -> Prop) :
  (forall x, In x (b_calls b1 ++ b_calls b2) -> P x) <-> (forall x, In x (b_calls b1) -> P x) /\ (forall x, In x (b_calls b2) -> P x).
Proof. split; [intros H; split; intros x Hx; apply H, in_or_app; auto|]. intros [A B] x Hx. apply in_app_or in Hx as [|]; auto. Qed.

Lemma init_on_success kd rb q rb' r : built kd (rb_world rb) (rb_mgr rb) -> typed kd q -> init_on kd rb q = (rb', r) ->
  ((exists cl, r = OutOk cl) <-> usable kd (rb_world rb) (rb_mgr rb) q).
Proof.
  intros Hb Ht H. unfold init_on in H. destruct q as [T b1 b2|opt Ts b1 b2]; cbn [usable typed] in *.
  - destruct (init_request _ _ _ _ _ _ _) as [[m w] x] eqn:E. injection H as _ <-.
    destruct (exposed_dec kd (rb_mgr rb) T) as [He|He].
    2:{ destruct (init_missing _ _ _ _ _ _ _ _ _ _ Hb E He) as [-> _]. split; [intros [? X]; discriminate X|tauto]. }
    destruct (get (kd T) T (rb_mgr rb) (rb_world rb)) as [[m1 w1] p] eqn:Eg. apply (exposed_iff _ _ _ _ _ _ _ Hb Eg) in He as Hp. destruct p as [hw|]; [|congruence].
    rewrite (init_request_success _ _ _ _ _ _ _ _ _ _ _ _ _ Eg E). cbv zeta. unfold calls_succeed.
    assert (G : forall l, (forall n, In (None, n, false) l -> tk_rm (kd T) = true) ->
      ((forall (r : option nat) n i c, In (r, n, false) l -> match r with Some _ => None | None => Some (hw, tk_claiming (kd T)) end = Some (i, c) -> rm_get (ho_map (w_obj w1 i)) n <> None) <->
       forall n, In (None, n, false) l -> provides (rb_world rb) (rb_mgr rb) T n)).
    { intros l Hl. split.
      - intros X n Hn. apply (lookup_provides _ _ _ _ _ _ _ Hb (Hl n Hn) Eg). eapply X; [exact Hn|reflexivity].
      - intros X r n i c Hn Er. destruct r; [discriminate Er|]. injection Er as <- _. apply (lookup_provides _ _ _ _ _ _ _ Hb (Hl n Hn) Eg). auto. }
    rewrite !G by (intros n Hn; apply Ht; exists n, false; apply in_or_app; auto).
    split.
    + intros ((A1 & A2) & A3 & A4). repeat (split; [assumption|]). intros n Hn. apply in_app_or in Hn as [|]; auto.
    + intros (_ & A1 & A2 & A3). split; (split; [assumption|]); intros n Hn; apply A3, in_or_app; auto.
  - destruct (multi_init _ _ _ _ _ _ _) as [[[m w] y] x] eqn:E. injection H as _ <-.
    destruct (multi_spec _ _ _ _ _ _ _ _ _ _ _ Hb E) as (_ & _ & Hnone & Hno & Hy).
    destruct y as [out|].
    2:{ rewrite (Hno eq_refl). split; [intros [? X]; discriminate X|]. destruct (proj1 Hnone eq_refl) as (-> & T & HT & HN). intros ([X|X] & _); [discriminate X|destruct (HN (X T HT))]. }
    destruct (Hy out eq_refl) as (S1 & S2 & _). rewrite (multi_success _ _ _ _ _ _ _ _ _ _ _ E). cbv zeta. unfold calls_succeed. clear Hy Hno.
    assert (G : forall l, (forall T n, In (T, n, false) l -> tk_rm (kd T) = true) ->
      ((forall T n i c, In (T, n, false) l -> match flat_get out T with Some i => Some (i, tk_claiming (kd T)) | None => None end = Some (i, c) -> rm_get (ho_map (w_obj w i)) n <> None) <->
       forall T n, In (T, n, false) l -> In T Ts -> exposed kd (rb_mgr rb) T -> provides (rb_world rb) (rb_mgr rb) T n)).
    { intros l Hl. split.
      - intros X T n Hn HT He. destruct (S1 T HT He) as (i & Ei & _ & Hs). rewrite (Hl T n Hn) in Hs. destruct Hs as [Hs _]. specialize (X T n i (tk_claiming (kd T)) Hn). rewrite Ei in X. specialize (X eq_refl).
        rewrite Hs in X. apply first_rev in X. exact X.
      - intros X T n i c Hn Ei. destruct (flat_get out T) as [j|] eqn:Ej; [|discriminate Ei]. injection Ei as <- _.
        destruct (in_dec string_dec T Ts) as [HT|HT]; [|rewrite S2 in Ej by tauto; discriminate Ej]. destruct (exposed_dec kd (rb_mgr rb) T) as [He|He]; [|rewrite S2 in Ej by tauto; discriminate Ej].
        destruct (S1 T HT He) as (i & Ei & _ & Hs). rewrite (Hl T n Hn) in Hs. destruct Hs as [Hs _]. assert (i = j) by congruence. subst i. rewrite Hs. apply first_rev. apply (X T n Hn HT He). }
    rewrite !G by (intros T n Hn; apply (Ht T n false), in_or_app; auto).
    split.
    + intros ((A1 & A2) & A3 & A4). split.
      { destruct opt; [auto|right]. intros T HT. destruct (exposed_dec kd (rb_mgr rb) T) as [He|He]; [exact He|]. assert (Some out = None) as X by (apply Hnone; eauto). discriminate X. }
      repeat (split; [assumption|]). intros T n Hn. apply in_app_or in Hn as [|]; eauto.
    + intros (_ & A1 & A2 & A3). split; (split; [assumption|]); intros T n Hn; apply A3, in_or_app; auto.
Qed.

Lemma usable_same kd w m w' m' : built kd w m -> world_le w w' -> same_regs m m' -> forall q, usable kd w' m' q <-> usable kd w m q.
Proof.
  intros Hb Hw Hs q. pose proof (provides_same _ _ _ _ _ Hb Hw Hs) as P.
  assert (E : forall T, exposed kd m' T <-> exposed kd m T) by (intros T; destruct Hs as (L & _ & _ & So & _); unfold exposed; rewrite L, So; tauto).
  destruct q as [T b1 b2|opt Ts b1 b2]; cbn [usable].
  - rewrite E. split; intros (A & B & C & D); (repeat (split; [assumption|])); intros n Hn; apply P; auto.
  - split; intros (A & B & C & D); (split; [destruct A as [A|A]; [auto|right; intros T HT; apply E; auto]|]); (repeat (split; [assumption|])); intros T n Hn HT HE; apply P; apply D; auto; apply E; exact HE.
Qed.

Section Load.
  Variable kd : string -> tkind.
  Variable ls : list loader.
  Variable rb : robot.
  Hypothesis Hk : claiming_managed kd.
  Hypothesis Hb : built kd (rb_world rb) (rb_mgr rb).
  Notation strace := (sys_trace kd ls rb).
  Notation cops ops := (cm_ops kd (sys_init ls rb) ops).

  Lemma loaders_proj ops : forall s, flat_map (fun o => match o with RegisterLoader l => [l] | _ => [] end) (cm_ops kd s ops) =
    flat_map (fun o => match o with SRegisterLoader l => [l] | _ => [] end) ops.
  Proof. induction ops as [|o ops IH]; intros s; [reflexivity|]. cbn [cm_ops flat_map]. rewrite IH. destruct o; reflexivity. Qed.

  Lemma sys_load_iff ops n nh ty q : sys_idle kd ls rb ops -> distinct_classes (sys_loaders ls ops) -> typed kd q ->
    (sys_reply kd ls rb ops (SLoad n nh ty q) = ABool true <->
     ~ known (of_manager (strace ops)) n /\ nh = true /\ (exists t, ty = Some t /\ builds (sys_loaders ls ops) t) /\ usable kd (rb_world rb) (rb_mgr rb) q).
  Proof.
    intros Hi Hd Ht. rewrite reply_proj. cbn [cm_op]. apply idle_proj in Hi.
    assert (El : registered ls (cops ops) = sys_loaders ls ops) by (unfold registered, sys_loaders; rewrite loaders_proj; reflexivity).
    rewrite load_iff by (try exact Hi; rewrite El; exact Hd). unfold load_ok. cbn [le_nh_ok le_type le_init]. rewrite El, trace_proj.
    destruct (init_on kd (sy_rb (sys_reach kd ls rb ops)) q) as [rb' r] eqn:Ei. cbn [snd].
    pose proof (sinv_reach kd ls rb Hk Hb ops) as [B1 B2 B3 _ _ _ _ _].
    pose proof (init_on_success _ _ _ _ _ B1 Ht Ei) as S. rewrite (usable_same _ _ _ _ _ Hb B2 B3) in S. rewrite <- S.
    split.
    - intros (A1 & A2 & t & cl & A3 & A4 & A5). split; [exact A1|]. split; [exact A2|]. split; [eauto|]. destruct r; try discriminate A5. eauto.
    - intros (A1 & A2 & (t & A3 & A4) & cl & ->). split; [exact A1|]. split; [exact A2|]. exists t, cl. auto.
  Qed.

  Lemma sys_load_effect ops n nh ty q : sys_idle kd ls rb ops -> sys_reply kd ls rb ops (SLoad n nh ty q) = ABool true ->
    let tr := strace ops in let tr' := strace (ops ++ [SLoad n nh ty q]) in
    exists i t cl, ty = Some t /\ loaded (of_manager tr') = loaded (of_manager tr) ++ [(i, mkInfo n t cl)] /\
      phase_of (of_manager tr) i = PAbsent /\ phase_of (of_manager tr') i = PLoaded /\ initialised tr' i q cl /\
      (forall r, (exists f, In f cl /\ In r (ir_res f)) <-> commands kd (rb_world rb) (rb_mgr rb) q r).
  Proof.
    intros Hi Hr. cbv zeta. pose proof Hr as Hr'. rewrite reply_proj in Hr'. cbn [cm_op] in Hr'. apply idle_proj in Hi as Hi'.
    destruct (proj1 (load_effect ls (cops ops) Hi' n _) Hr') as (i & t & cl & E1 & E2 & P1 & P2 & L & _). cbn [le_type le_init] in E1, E2.
    exists i, t, cl. rewrite !trace_proj, cops_snoc. cbn [cm_op]. split; [exact E1|]. split; [exact L|]. split; [exact P1|]. split; [exact P2|].
    assert (X : initialised (strace (ops ++ [SLoad n nh ty q])) i q cl).
    { destruct (init_on kd (sy_rb (sys_reach kd ls rb ops)) q) as [rb' r] eqn:Ei. cbn [snd] in *.
      destruct r as [cl'| |]; cbn [seen_init] in E2; try discriminate E2. injection E2 as ->.
      destruct (sys_reach_snoc kd ls rb ops (SLoad n nh ty q)) as [_ Et]. unfold initialised. rewrite Et. apply in_or_app. right.
      unfold sys_emits, sys_step. cbn [cm_op]. rewrite Ei. cbn [snd].
      destruct (step (sy_cm (sys_reach kd ls rb ops)) (Load n (mkEnv nh ty (seen_init (OutOk cl))))) as [[c e] a] eqn:Es.
      pose proof (step_load (sy_cm (sys_reach kd ls rb ops)) n nh ty (OutOk cl)) as S. cbv zeta in S. rewrite Es in S. cbn [fst snd] in S.
      assert (Ee : emits ls (cops ops) (Load n (mkEnv nh ty (seen_init (OutOk cl)))) = e) by (unfold emits; rewrite <- reach_proj, Es; reflexivity).
      assert (Hin : In (i, mkInfo n t cl) (loaded (trace ls (cops ops ++ [Load n (mkEnv nh ty (seen_init (OutOk cl)))])))) by (rewrite L; apply in_or_app; right; left; reflexivity).
      assert (Hl : In (EvLoaded i (mkInfo n t cl)) e).
      { rewrite trace_snoc, Ee, loaded_app in Hin. apply loaded_event in Hin as [Hin|Hin]; [|exact Hin]. exfalso.
        pose proof (inv_reach ls (cops ops)) as HI. rewrite <- (inv_list _ _ HI) in Hin. apply in_map_iff in Hin as (x & Ex & Hx). injection Ex as Ex _.
        destruct (inv_live _ _ HI x Hx) as [A B]. rewrite Ex in A, B. congruence. }
      destruct (gets_to_init (sy_cm (sys_reach kd ls rb ops)) n nh ty).
      - destruct S as (_ & t' & ec & _ & Fc & S). rewrite S in Hl. apply in_app_or in Hl as [Hl|[Hl|[]]]; [rewrite Forall_forall in Fc; specialize (Fc _ Hl); discriminate Fc|].
        injection Hl as <- _. left. reflexivity.
      - destruct S as [_ S]. rewrite Forall_forall in S. specialize (S _ Hl). discriminate S. }
    split; [exact X|]. intros r. apply (claims_commands kd ls rb Hk Hb _ i q cl r X).
  Qed.
End Load.
