(** Proofs about writing velocity and effort commands (SendSpec.v). *)
From Coq Require Import List QArith Lia.
From Verif Require Import LimModel LimLaws LimSpec LimExact LimRest TransModel TransSpec TransProofs TransHandle TransExact
  LoopModel LoopSpec LoopProofs SendSpec.
Import ListNotations.
Local Open Scope nat_scope.

Lemma carries_both k q : carries k q -> both_ways q.
Proof. intros [[_ ->] | [[_ ->] | [_ ->]]]; [now left | right; now left | right; now right]. Qed.
Lemma carries_quantities k q h : carries k q -> quantities E k h = [q].
Proof. intros [[-> ->] | [[-> ->] | [-> ->]]]; reflexivity. Qed.
Lemma carries_toward k q : carries k q -> toward_joints k = false.
Proof. intros [[-> _] | [[-> _] | [-> _]]]; reflexivity. Qed.

Section Send.
Context (k : hkind) (q : quantity) (KQ : carries k q) (r : robot E) (W : wired_for k r).

Lemma sends_asked hc ks n : sends r q hc ks -> In n ks -> In (rb_jcmd E r n) (asked k r).
Proof.
  intros [Hc Ej] Hn. apply in_flat_map. exists hc. split; [exact Hc|].
  apply (in_sources k hc q); [rewrite (carries_quantities _ _ hc KQ); now left|].
  unfold source_data. rewrite (carries_toward _ _ KQ), Ej, addrs_map. now apply in_map.
Qed.

Lemma deliver m : exists m1, propagate_all E k (rb_cmd E r) m = Ok m1 /\
  unchanged_outside E (sent_to k r) m m1 /\
  forall hc ks ys, sends r q hc ks -> map (fun n => m (rb_jcmd E r n)) ks = map Some ys ->
    exists xs ys', map m1 (addrs (side q (h_act E hc))) = map Some xs /\
      joint_formula (h_trans E hc) q xs ys' /\ Forall2 Qeq ys' ys.
Proof.
  destruct W as (HU & ND0 & DJ0). assert (SEP : all_separate E k (map snd (rb_cmd E r))) by (split; assumption).
  destruct (interface_writer E k (rb_cmd E r) m) as (m1 & E1 & U1 & V1); auto using exact_doubling.
  { intros h Hh. destruct (usable_parts _ _ (HU h Hh)) as (? & ? & _ & _ & ? & ?). auto. }
  exists m1. split; [exact E1|]. split; [exact U1|].
  intros hc ks ys [Hc Ej] Ey.
  destruct (usable_parts _ _ (HU hc Hc)) as (HP & HUF & HNi & HR & (name & tr & act & jnt & HM) & HN).
  pose proof (all_separate_one E _ _ _ SEP Hc) as S1.
  destruct (handle_writer E name tr act jnt hc k exact_doubling HP HUF HM HN S1) as [[W1 _] W2].
  destruct (W1 m) as (mh & Eh & _).
  assert (IP : In q (quantities E k hc)) by (rewrite (carries_quantities _ _ hc KQ); now left).
  pose proof (needed_linked E _ _ _ _ _ _ _ HM HN IP) as HL.
  destruct (separate_parts E _ _ _ S1 IP) as [ND DJ].
  unfold source_data, target_data in ND, DJ. rewrite (carries_toward _ _ KQ) in ND, DJ.
  assert (Ey' : map m (addrs (side q (h_jnt E hc))) = map Some ys)
    by (rewrite Ej, addrs_map, map_map; exact Ey).
  destruct (actuator_values (h_trans E hc) q (h_act E hc) (h_jnt E hc) _ _ m ys HP HR
              (carries_both _ _ KQ) HL ND DJ Ey') as (mq & xs & Eq & _ & Vq & Fq).
  assert (Eq' : single_map E k hc q m = Ok mq) by (unfold single_map; now rewrite (carries_toward _ _ KQ)).
  pose proof (W2 m mh q mq Eh IP Eq') as W3. unfold target_data in W3. rewrite (carries_toward _ _ KQ) in W3.
  pose proof (V1 hc mh Hc Eh) as V2.
  assert (Vx : map m1 (addrs (side q (h_act E hc))) = map Some xs).
  { rewrite <- Vq, <- W3. apply map_agree. intros a Ha. apply (agree_map E (targets E k hc)); [exact V2|].
    apply (in_targets k hc q); auto. unfold target_data. now rewrite (carries_toward _ _ KQ). }
  destruct HL as (_ & _ & La & _).
  assert (Lx : List.length xs = num_actuators E (h_trans E hc))
    by (rewrite <- La, <- (map_length m1), Vx; symmetry; apply map_length).
  destruct (pure_joint (h_trans E hc) q xs HNi Lx) as (ys' & _ & Fy).
  exists xs, ys'. split; [exact Vx|]. split; [exact Fy|].
  eapply formulas_inverse'; eauto. now apply carries_both with k.
Qed.

Section Handles.
Context {H : Type} (enf : H -> joint exact -> num exact -> option (H * joint exact)).
Context (seen : nat -> joint exact -> Prop) (period : num exact -> Prop).
Context (inv : nat -> num exact -> H -> Prop) (good : nat -> num exact -> joint exact -> num exact -> num exact -> Prop).
Context (step : forall n p h j dt, inv n p h -> period dt -> rational (j_cmd j) -> seen n j ->
  exists h' j', enf h j dt = Some (h', j') /\ inv n (j_cmd j') h' /\ rational (j_cmd j') /\ good n p j dt (j_cmd j')).

Definition all_inv (prev : nat -> num exact) (i : lim_iface H) : Prop :=
  forall nm h, In (nm, h) i -> inv (lh_joint h) (prev (lh_joint h)) (lh_state h).

Definition cmds (i : lim_iface H) : list addr := map (fun p => rb_jcmd E r (lh_joint (snd p))) i.

Lemma seen_same (m m' : mem E) n : m' (rb_jpos E r n) = m (rb_jpos E r n) -> m' (rb_jvel E r n) = m (rb_jvel E r n) ->
  m' (rb_jcmd E r n) = m (rb_jcmd E r n) -> joint_seen E r m' n = joint_seen E r m n.
Proof. intros E1 E2 E3. unfold joint_seen. now rewrite E1, E2, E3. Qed.

Lemma limit_each i : forall prev m dt, all_inv prev i -> period dt -> NoDup (cmds i) ->
  (forall nm h, In (nm, h) i -> rational (m (rb_jcmd E r (lh_joint h))) /\ seen (lh_joint h) (joint_seen E r m (lh_joint h)) /\
     ~ In (rb_jpos E r (lh_joint h)) (cmds i) /\ ~ In (rb_jvel E r (lh_joint h)) (cmds i)) ->
  exists i' m', limit_all E enf r i m dt = Some (i', m') /\ shape i' = shape i /\
    all_inv (fun n => m' (rb_jcmd E r n)) i' /\ unchanged_outside E (cmds i) m m' /\
    forall nm h, In (nm, h) i -> rational (m' (rb_jcmd E r (lh_joint h))) /\
      good (lh_joint h) (prev (lh_joint h)) (joint_seen E r m (lh_joint h)) dt (m' (rb_jcmd E r (lh_joint h))).
Proof.
  induction i as [|[n h] i IH]; intros prev m dt HI Hok ND HM.
  { exists [], m. repeat split; auto; try (intros ? ? []); match goal with K : In _ [] |- _ => destruct K end. }
  unfold cmds in ND, HM. cbn [map snd] in ND, HM. fold (cmds i) in ND, HM. inversion ND as [|x xs NI ND']; subst.
  destruct (HM n h (or_introl eq_refl)) as (R & Sn & NP & NV).
  destruct (step (lh_joint h) (prev (lh_joint h)) (lh_state h) (joint_seen E r m (lh_joint h)) dt
     (HI n h (or_introl eq_refl)) Hok R Sn) as (s & j & Ee & Hi & Hr & Hg).
  set (m1 := upd E m (rb_jcmd E r (lh_joint h)) (j_cmd j)).
  assert (M1 : forall a, a <> rb_jcmd E r (lh_joint h) -> m1 a = m a).
  { intros a Ha. unfold m1, upd. apply Nat.eqb_neq in Ha. now rewrite Ha. }
  assert (S1 : forall nm h', In (nm, h') i -> joint_seen E r m1 (lh_joint h') = joint_seen E r m (lh_joint h')).
  { intros nm h' Hh. destruct (HM nm h' (or_intror Hh)) as (_ & _ & NP' & NV').
    apply seen_same; apply M1; intros K.
    - apply NP'. left. now symmetry.
    - apply NV'. left. now symmetry.
    - apply NI. rewrite <- K. apply in_map_iff. exists (nm, h'). auto. }
  destruct (IH prev m1 dt) as (i' & m' & El & Sh & AI & U & V); auto.
  { intros nm h' Hh. apply (HI nm h'). now right. }
  { intros nm h' Hh. destruct (HM nm h' (or_intror Hh)) as (R' & Sn' & NP' & NV').
    rewrite (S1 nm h' Hh). split; [|split; [exact Sn'|split; intros K; [apply NP' | apply NV']; now right]].
    rewrite M1; [exact R'|]. intros K. apply NI. rewrite <- K. apply in_map_iff. exists (nm, h'). auto. }
  assert (MH : m' (rb_jcmd E r (lh_joint h)) = j_cmd j).
  { rewrite U by exact NI. unfold m1, upd. now rewrite Nat.eqb_refl. }
  exists ((n, mkLim s (lh_joint h)) :: i'), m'. split.
  { cbn [limit_all]. rewrite Ee.
    match goal with |- context [limit_all _ _ _ i ?n _] => change n with m1 end. now rewrite El. }
  split; [unfold shape in *; cbn; now rewrite Sh|]. split.
  { intros nm h' [K|K]; [injection K as <- <-; cbn; rewrite MH; exact Hi | exact (AI nm h' K)]. }
  split.
  { intros a Ha. unfold cmds in Ha. cbn [map snd] in Ha. rewrite U; [|intros K; apply Ha; now right].
    apply M1. intros K. apply Ha. left. now symmetry. }
  intros nm h' [K|K]; [injection K as <- <-; rewrite MH; auto|].
  destruct (V nm h' K) as [V1 V2]. rewrite (S1 nm h' K) in V2. auto.
Qed.

Lemma each_shape (i i' : lim_iface H) : shape i = shape i' -> each_limited k q r i -> each_limited k q r i'.
Proof.
  intros S (N & A1 & A2). split; [|split].
  - replace (map (fun p => rb_jcmd E r (lh_joint (snd p))) i') with (map (fun p => rb_jcmd E r (snd p)) (shape i')).
    + rewrite <- S. unfold shape. rewrite map_map. exact N.
    + unfold shape. now rewrite map_map.
  - intros nm h Hi. destruct (shape_in i' i nm h (eq_sym S) Hi) as (h' & Hi' & <-). eauto.
  - intros hc ks n Hd Hk. destruct (A2 hc ks n Hd Hk) as (nm & h & Hi & Ek).
    destruct (shape_in i i' nm h S Hi) as (h' & Hi' & Ek'). exists nm, h'. split; [exact Hi'|congruence].
Qed.

Lemma one_write (i : lim_iface H) prev m dt : each_limited k q r i -> all_inv prev i -> callable seen period q r m dt ->
  exists i' m', robot_send E enf k r i m dt = Ok (i', m') /\ each_limited k q r i' /\
    all_inv (fun n => m' (rb_jcmd E r n)) i' /\
    unchanged_outside E (asked k r ++ sent_to k r) m m' /\ delivered q r m' /\
    forall hc ks n, sends r q hc ks -> In n ks ->
      good n (prev n) (joint_seen E r m n) dt (m' (rb_jcmd E r n)).
Proof.
  intros AL AI [Hp HC]. pose proof AL as (ND & A1 & A2). pose proof W as (_ & _ & DJ).
  assert (CI : incl (cmds i) (asked k r)).
  { intros a Ha. apply in_map_iff in Ha as ([nm h] & <- & Hi). destruct (A1 nm h Hi) as ((hc & ks & Hd & Hk) & _).
    eapply sends_asked; eauto. }
  destruct (limit_each i prev m dt AI Hp ND) as (i' & m1 & EL & Sh & AI' & UL & VL).
  { intros nm h Hi. destruct (A1 nm h Hi) as ((hc & ks & Hd & Hk) & NP & NV).
    destruct (HC hc ks _ Hd Hk) as [R S]. repeat split; auto. }
  destruct (deliver m1) as (m2 & ES & US & VS).
  assert (K2 : forall hc ks n, sends r q hc ks -> In n ks -> m2 (rb_jcmd E r n) = m1 (rb_jcmd E r n)).
  { intros hc ks n Hd Hk. apply US. apply DJ. eapply sends_asked; eauto. }
  exists i', m2. split; [unfold robot_send; rewrite EL; cbn [bind]; now rewrite ES|].
  split; [eapply each_shape; [symmetry; exact Sh | exact AL]|]. split.
  { intros nm h Hi. destruct (shape_in i' i nm h Sh Hi) as (h0 & Hi0 & E0).
    destruct (A1 nm h0 Hi0) as ((hc & ks & Hd & Hk) & _). rewrite E0 in Hk. rewrite (K2 hc ks _ Hd Hk). exact (AI' nm h Hi). }
  split.
  { intros a Ha. rewrite in_app_iff in Ha. rewrite US by tauto. apply UL. intros K. apply CI in K. tauto. }
  split.
  - intros hc ks Hd.
    destruct (values_of (fun n => m1 (rb_jcmd E r n)) (fun _ _ => True) ks) as (ys & Ey & FY).
    { intros n Hn. destruct (A2 hc ks n Hd Hn) as (nm & h & Hi & En). destruct (VL nm h Hi) as [R _]. rewrite En in R. auto. }
    destruct (VS hc ks ys Hd Ey) as (xs & ys' & Ex & Fx & Q). exists xs, ys'. split; [exact Ex|]. split; [exact Fx|].
    assert (K3 : forall n, In n ks -> m2 (rb_jcmd E r n) = m1 (rb_jcmd E r n)) by (intros n Hn; eapply K2; eauto).
    clear - FY Q K3. revert ys' Q. induction FY as [|n y ks ys [E1 _] FY IH]; intros ys' Q; inversion Q; subst; constructor.
    + rewrite K3 by (now left). rewrite E1. cbn. now symmetry.
    + apply IH; auto. intros k' Hk'. apply K3. now right.
  - intros hc ks n Hd Hn. destruct (A2 hc ks n Hd Hn) as (nm & h & Hi & En). destruct (VL nm h Hi) as [_ G].
    rewrite En in G. now rewrite (K2 hc ks n Hd Hn).
Qed.

Lemma writes_limited (i : lim_iface H) : each_limited k q r i ->
  (forall nm h, In (nm, h) i -> inv (lh_joint h) (Some 0%Q) (lh_state h)) ->
  commands_limited enf seen period k q r i good.
Proof.
  intros AL AI l i1 m dt HW HC.
  assert (K : each_limited k q r i1 /\ all_inv (previous r l) i1).
  { clear m dt HC. induction HW as [|l i1 m dt i2 m' HW [IH1 IH2] HC EW]; [split; [exact AL | exact AI]|].
    destruct (one_write i1 _ m dt IH1 IH2 HC) as (i' & m2 & E2 & A1 & A2 & _).
    rewrite EW in E2. injection E2 as <- <-. auto. }
  destruct K as [K1 K2]. destruct (one_write i1 _ m dt K1 K2 HC) as (i2 & m' & E2 & _ & _ & U & D & G).
  exists i2, m'. auto.
Qed.
End Handles.
End Send.
