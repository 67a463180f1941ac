(** Proofs about actuators that follow velocity commands (FollowSpec.v). *)
From Coq Require Import List QArith Lqa.
From Verif Require Import LimModel LimLaws LimSpec LimExact LimProofs LimRest LimGain LimLoop TransModel TransSpec TransProofs
  TransHandle TransExact LoopModel LoopSpec LoopProofs LoopLimits SendSpec SendProofs FollowSpec.
Import ListNotations.
Local Open Scope nat_scope.

(** Positions change with the velocities. *)
Lemma formula_moves t xs vs ys ws (tau : Q) xs' :
  joint_formula t Position xs ys -> joint_formula t Velocity vs ws ->
  Forall2 (fun p x' => (x' == fst p + snd p * tau)%Q) (combine xs vs) xs' ->
  joint_formula t Position xs' (map (fun p => (fst p + snd p * tau)%Q) (combine ys ws)).
Proof.
  destruct t as [[r0|] [o|] | [|[a|] [|[b|] [|? ?]]] [|[c|] [|[d|] [|? ?]]] [|[e|] [|[f|] [|? ?]]] ? |
     [|[a|] [|[b|] [|? ?]]] [|[c|] [|[d|] [|? ?]]] [|[e|] [|[f|] [|? ?]]]];
    unfold joint_formula; try contradiction; destruct xs as [|x [|x2 [|? ?]]]; try contradiction;
    destruct ys as [|y [|y2 [|? ?]]]; try contradiction; destruct vs as [|v [|v2 [|? ?]]]; try contradiction;
    destruct ws as [|w [|w2 [|? ?]]]; try contradiction.
  - intros H1 H2 H3. cbn [combine] in H3. inversion H3 as [|? x' ? l Hx Hl]; subst. inversion Hl; subst. cbn [map combine fst snd] in *.
    rewrite H1, H2, Hx. unfold Qdiv. ring.
  - intros [H1 H1'] [H2 H2'] H3. cbn [combine] in H3. inversion H3 as [|? x' ? l Hx Hl]; subst. inversion Hl as [|? x'' ? l' Hx' Hl']; subst.
    inversion Hl'; subst. cbn [map combine fst snd] in *. rewrite H1, H1', H2, H2', Hx, Hx'. unfold Qdiv. split; ring.
  - intros [H1 H1'] [H2 H2'] H3. cbn [combine] in H3. inversion H3 as [|? x' ? l Hx Hl]; subst. inversion Hl as [|? x'' ? l' Hx' Hl']; subst.
    inversion Hl'; subst. cbn [map combine fst snd] in *. rewrite H1, H1', H2, H2', Hx, Hx'. unfold Qdiv. split; ring.
Qed.

Section Robot.
Context (r : robot E) (W : turning r).

Lemma reads m : exists m1, robot_read E r m = Ok m1 /\ unchanged_outside E (joint_states r) m m1 /\
  forall hs hc ks xs, turns r hs hc ks -> map m (addrs (side Position (h_act E hs))) = map Some xs ->
    exists ys, joint_formula (h_trans E hs) Position xs ys /\ map (fun k => m1 (rb_jpos E r k)) ks = map Some ys.
Proof.
  destruct W as (_ & HU & ND0 & DJ0 & _).
  assert (SEP : all_separate E ActToJntState (map snd (rb_state E r))).
  { split; [exact ND0|]. intros a Ha Ht. apply (DJ0 a Ha). apply in_or_app. now left. }
  destruct (interface_writer E ActToJntState (rb_state E r) m) as (m1 & E1 & U1 & V1); auto using exact_doubling.
  { intros h Hh. destruct (usable_parts _ _ (HU h Hh)) as (? & ? & _ & _ & ? & ?). auto. }
  exists m1. split; [exact E1|]. split; [exact U1|].
  intros hs hc ks xs Hd Ex. pose proof Hd as (Hs & _ & _ & Ej).
  destruct (usable_parts _ _ (HU hs Hs)) as (HP & HUF & HNi & HR & (name & tr & act & jnt & HM) & HN).
  pose proof (all_separate_one E _ _ _ SEP Hs) as S1.
  destruct (handle_writer E name tr act jnt hs ActToJntState exact_doubling HP HUF HM HN S1) as [[W1 _] W2].
  destruct (W1 m) as (mh & Eh & _).
  assert (IP : In Position (quantities E ActToJntState hs)) by (now left).
  pose proof (needed_linked E _ _ _ _ _ _ _ HM HN IP) as HL.
  destruct (separate_parts E _ _ _ S1 IP) as [ND DJ].
  destruct (joint_values (h_trans E hs) Position (h_act E hs) (h_jnt E hs) _ _ m xs HP HR HL ND DJ
              (abs_both _ _ _ _ (or_introl eq_refl)) Ex) as (mq & ys & Eq & _ & Vq & Fq).
  exists ys. split; [exact Fq|].
  pose proof (W2 m mh Position mq Eh IP Eq) as W3. unfold target_data in W3. cbn [toward_joints] in W3.
  pose proof (V1 hs mh Hs Eh) as V2.
  rewrite <- (map_map (rb_jpos E r) m1). rewrite <- (addrs_map (rb_jpos E r)), <- Ej.
  rewrite <- Vq, <- W3. apply map_agree. intros a Ha. apply (agree_map E (targets E ActToJntState hs)); [exact V2|].
  apply (in_targets ActToJntState hs Position); auto.
Qed.

Lemma turns_act hs hc ks : turns r hs hc ks -> incl (addrs (side Position (h_act E hs))) (actuator_states r).
Proof.
  intros (Hs & _) a Ha. apply in_flat_map. exists hs. split; [exact Hs|].
  apply (in_sources ActToJntState hs Position); [now left | exact Ha].
Qed.
Lemma turns_jpos hs hc ks k : turns r hs hc ks -> In k ks -> In (rb_jpos E r k) (joint_states r).
Proof.
  intros (Hs & _ & _ & Ej) Hk. apply in_flat_map. exists hs. split; [exact Hs|].
  apply (in_targets ActToJntState hs Position); [now left|]. unfold target_data. cbn [toward_joints].
  rewrite Ej, addrs_map. now apply in_map.
Qed.

Section Loop.
Context {H : Type} (enf : H -> joint exact -> num exact -> option (H * joint exact)).
Context (ok : num exact -> Prop) (zone : nat -> option Q -> Prop) (inv : nat -> H -> Prop).
Context (zone_eq : forall k x y, zone k (Some x) -> (x == y)%Q -> zone k (Some y)).
Context (zone_between : forall k a b x, zone k (Some a) -> zone k (Some b) -> between a b x -> zone k (Some x)).
Context (ok_num : forall dt, ok dt -> exists d, dt = Some d /\ (0 <= d)%Q).
(** What a limit handle permits keeps its joint in the zone for the period. *)
Definition kept_in (n : nat) (_ : num exact) (j : joint exact) (dt w : num exact) : Prop :=
  exists p d v, j_pos j = Some p /\ dt = Some d /\ w = Some v /\ zone n (Some p) /\ zone n (Some (p + v * d)%Q).
Context (inv_step : forall n (p : num exact) h j dt, inv n h -> ok dt -> rational (j_cmd j) -> zone n (j_pos j) ->
  exists h' j', enf h j dt = Some (h', j') /\ inv n h' /\ rational (j_cmd j') /\ kept_in n p j dt (j_cmd j')).

Definition KQ : carries JntToActVelocity Velocity := or_intror (or_introl (conj eq_refl eq_refl)).

Definition turn_inv (s : lim_iface H * mem E) : Prop :=
  each_limited JntToActVelocity Velocity r (fst s) /\
  (forall nm h, In (nm, h) (fst s) -> inv (lh_joint h) (lh_state h)) /\ stands_inside zone r (snd s).

Lemma turn_write i m m1 m2 dt : turn_inv (i, m) -> robot_read E r m = Ok m1 -> velocities_asked r m1 m2 -> ok dt ->
  exists i' m3, robot_send E enf JntToActVelocity r i m2 dt = Ok (i', m3) /\ delivered Velocity r m3 /\
    turn_inv (i', m3) /\ forall m4, moves r dt m3 m4 -> stands_inside zone r m4.
Proof.
  intros (AL & AI & PI) ER [CU CN] Hok. cbn [fst snd] in *.
  destruct (reads m) as (m1' & ER' & UR & VR). rewrite ER in ER'. injection ER' as <-.
  destruct W as (WF & _ & _ & D1 & D2 & TS).
  (* what the limit handles see *)
  assert (SEE : forall hs hc ks k, turns r hs hc ks -> In k ks -> m2 (rb_jpos E r k) = m1 (rb_jpos E r k)).
  { intros hs hc ks k Hd Hk. apply CU. intros K. apply (D2 _ (turns_jpos _ _ _ _ Hd Hk)). apply in_or_app. now left. }
  destruct (one_write JntToActVelocity Velocity KQ r WF enf (fun n j => zone n (j_pos j)) ok (fun n _ h => inv n h) kept_in
              inv_step i (fun _ => None) m2 dt AL AI) as (i' & m3 & EW & AL' & AI' & U3 & D3 & G3).
  { split; [exact Hok|]. intros hc ks n Hd Hn. split; [apply CN; eapply sends_asked; eauto using KQ|].
    destruct (TS hc ks Hd) as (hs & Ht). cbn [joint_seen j_pos]. rewrite (SEE hs hc ks n Ht Hn).
    destruct (PI hs hc ks Ht) as (ys & (xs & Ex & Fx) & Z).
    destruct (VR hs hc ks xs Ht Ex) as (ys' & Fy & Em).
    apply (forall2_zone zone zone_eq (fun k => m1 (rb_jpos E r k)) ks ys ys' Z (formula_fun _ _ _ _ Fx Fy) Em _ Hn). }
  assert (UA : forall a, In a (actuator_states r) -> m3 a = m a).
  { intros a Ha. pose proof (D1 a Ha) as NA. rewrite !in_app_iff in NA.
    rewrite U3 by (rewrite in_app_iff; tauto). rewrite CU by tauto. apply UR. tauto. }
  assert (UI : forall hs hc ks, turns r hs hc ks ->
    map m3 (addrs (side Position (h_act E hs))) = map m (addrs (side Position (h_act E hs)))).
  { intros hs hc ks Hd. apply map_agree. intros a Ha. apply UA. eapply turns_act; eauto. }
  exists i', m3. split; [exact EW|]. split; [exact D3|]. split.
  { split; [exact AL'|]. split; [exact AI'|]. cbn [snd]. intros hs hc ks Hd. destruct (PI hs hc ks Hd) as (ys & (xs & Ex & Fx) & Z).
    exists ys. split; [|exact Z]. exists xs. split; [|exact Fx]. now rewrite (UI hs hc ks Hd). }
  intros m4 [_ MV] hs hc ks Hd.
  destruct (PI hs hc ks Hd) as (ys0 & (xs & Ex & Fx0) & Z0).
  destruct (VR hs hc ks xs Hd Ex) as (ys & Fx & Em).
  pose proof Hd as (_ & Hsend & Etr & _).
  destruct (D3 hc ks Hsend) as (vs & ws & Ev & Fv & Ew).
  destruct (ok_num dt Hok) as (d & Edt & Pd).
  destruct (MV hs hc ks xs vs d Hd Edt) as (t & xs' & Ht & Ex' & Fx'); auto; [now rewrite (UI hs hc ks Hd)|].
  rewrite <- Etr in Fv.
  exists (map (fun p => (fst p + snd p * t)%Q) (combine ys ws)).
  split; [exists xs'; split; [exact Ex'|]; eapply formula_moves; eauto|].
  (* every joint stays inside *)
  assert (K : forall k, In k ks -> kept_in k None (joint_seen E r m2 k) dt (m3 (rb_jcmd E r k))).
  { intros k Hk. exact (G3 hc ks k Hsend Hk). }
  assert (P2 : map (fun k => m2 (rb_jpos E r k)) ks = map Some ys).
  { rewrite <- Em. apply map_ext_in. intros k Hk. eapply SEE; eauto. }
  clear - Ew K P2 Edt Ht zone_eq zone_between. revert ys P2. induction Ew as [|k w ks ws Hw Ew IH]; intros ys P2.
  - destruct ys; [constructor | discriminate P2].
  - destruct ys as [|y ys]; [discriminate P2|]. cbn [map] in P2. injection P2 as P2 P3. cbn [combine map fst snd]. constructor.
    + destruct (K k (or_introl eq_refl)) as (p & d' & v & Ep & Ed & Ev & Zp & Zq). cbn [joint_seen j_pos] in Ep.
      rewrite P2 in Ep. injection Ep as <-. rewrite Edt in Ed. injection Ed as <-. rewrite Ev in Hw. cbn in Hw.
      apply (zone_between k y (y + v * d)%Q); auto. unfold between.
      destruct (Qlt_le_dec v 0) as [Hv|Hv]; [right | left]; rewrite <- Hw; split; nra.
    + apply IH; auto. intros k' Hk'. apply K. now right.
Qed.

Lemma turning_inv s s' : turn_inv s -> turning_cycles enf ok r s s' -> turn_inv s'.
Proof.
  intros HI HC. induction HC as [|i m m1 m2 dt i' m3 m4 HC IH ER CA Hok ES MV]; [exact HI|].
  destruct (turn_write i m m1 m2 dt IH ER CA Hok) as (i2 & m3' & ES' & _ & (A1 & A2 & _) & MV').
  rewrite ES in ES'. injection ES' as <- <-. split; [exact A1|]. split; [exact A2|]. now apply MV'.
Qed.

Lemma turning_safe s s' : turn_inv s -> turning_cycles enf ok r s s' -> stays_inside enf ok zone r s'.
Proof.
  intros HI HC. pose proof (turning_inv s s' HI HC) as HI'. destruct s' as [i m]. split; [apply HI'|].
  destruct (reads m) as (m1 & ER & _). exists m1. split; [exact ER|]. intros m2 dt CA Hok.
  destruct (turn_write i m m1 m2 dt HI' ER CA Hok) as (i' & m3 & ES & D & (_ & _ & P) & MV).
  exists i', m3. auto.
Qed.
End Loop.
End Robot.
