(** Proofs about the control loop (LoopModel.v, LoopSpec.v). *)
From Coq Require Import List QArith Lia.
From Verif Require Import LimModel LimSpec LimExact TransModel TransSpec TransProofs TransHandle TransExact
  LoopModel LoopSpec.
Import ListNotations.
Local Open Scope nat_scope.

Notation E := exactd.

Lemma usable_parts k h : usable k h ->
  params_ok E (h_trans E h) /\ no_underflow E (h_trans E h) /\ nice (h_trans E h) /\
  Forall rational (parameters E (h_trans E h)) /\
  (exists name tr act jnt, make_handle E name tr act jnt = Some h) /\ needed E k h.
Proof.
  intros (HC & HR & HM & HN). apply constructed_params in HC. split; [exact HC|]. split; [now apply exact_no_underflow|].
  split; [now apply nice_intro|]. auto.
Qed.

Lemma addrs_map {T} (f : T -> addr) l : addrs (map (fun k => Some (f k)) l) = map f l.
Proof. rewrite <- (map_map f Some). apply addrs_some. Qed.

Lemma in_targets k h q : In q (quantities E k h) -> incl (addrs (side q (target_data E k h))) (targets E k h).
Proof. intros Hq a Ha. apply in_flat_map. eauto. Qed.
Lemma in_sources k h q : In q (quantities E k h) -> incl (addrs (side q (source_data E k h))) (sources E k h).
Proof. intros Hq a Ha. apply in_flat_map. eauto. Qed.

Lemma forall2_left {S T} (P : S -> Prop) (l : list S) (l' : list T) R : Forall2 R l l' -> (forall x y, R x y -> P x) -> Forall P l.
Proof. intros H K. induction H; constructor; eauto. Qed.

(** One interface propagated: every handle's positions. *)
Section Propagation.
Context (r : robot E) (W : well_wired r).

Lemma state_separate : all_separate E ActToJntState (map snd (rb_state E r)).
Proof.
  destruct W as (_ & _ & N & _ & D & _). split; [exact N|]. intros a Ha Ht. apply (D a Ha). apply in_or_app. now left.
Qed.
Lemma cmd_separate : all_separate E JntToActPosition (map snd (rb_cmd E r)).
Proof. destruct W as (_ & _ & _ & N & _ & _ & D & _). split; [exact N|]. exact D. Qed.

Lemma acts_in hs hc ks : drives r hs hc ks -> incl (addrs (side Position (h_act E hs))) (actuator_states r).
Proof.
  intros (Hs & _) a Ha. apply in_flat_map. exists hs. split; [exact Hs|].
  apply (in_sources ActToJntState hs Position); [now left | exact Ha].
Qed.
Lemma jpos_in hs hc ks k : drives r hs hc ks -> In k ks -> In (rb_jpos E r k) (joint_states r).
Proof.
  intros (Hs & _ & _ & Ej & _) Hk. apply in_flat_map. exists hs. split; [exact Hs|].
  apply (in_targets ActToJntState hs Position); [now left|]. cbn [target_data toward_joints]. unfold target_data. cbn [toward_joints].
  rewrite Ej, addrs_map. now apply in_map.
Qed.
Lemma jcmd_in hs hc ks k : drives r hs hc ks -> In k ks -> In (rb_jcmd E r k) (joint_commands r).
Proof.
  intros (_ & Hc & _ & _ & Ej) Hk. apply in_flat_map. exists hc. split; [exact Hc|].
  apply (in_sources JntToActPosition hc Position); [now left|]. unfold source_data. cbn [toward_joints].
  rewrite Ej, addrs_map. now apply in_map.
Qed.
Lemma acmd_in hs hc ks : drives r hs hc ks -> incl (addrs (side Position (h_act E hc))) (actuator_commands r).
Proof.
  intros (_ & Hc & _) a Ha. apply in_flat_map. exists hc. split; [exact Hc|].
  apply (in_targets JntToActPosition hc Position); [now left | exact Ha].
Qed.

Lemma read_ok m : exists m1, robot_read E r m = Ok m1 /\ unchanged_outside E (joint_states r) m m1 /\
  forall hs hc ks xs, drives r hs hc ks -> map m (addrs (side Position (h_act E hs))) = map Some xs ->
    exists ys, joint_formula (h_trans E hs) Position xs ys /\ map (fun k => m1 (rb_jpos E r k)) ks = map Some ys.
Proof.
  pose proof state_separate as SEP. destruct W as (HU & _).
  destruct (interface_writer E ActToJntState (rb_state E r) m) as (m1 & E1 & U1 & V1); auto using exact_doubling.
  { intros h Hh. destruct (usable_parts _ _ (HU h Hh)) as (? & ? & _ & _ & ? & ?). auto. }
  exists m1. split; [exact E1|]. split; [exact U1|].
  intros hs hc ks xs Hd Ex. pose proof Hd as (Hs & _ & _ & Ej & _).
  destruct (usable_parts _ _ (HU hs Hs)) as (HP & HUF & HNi & HR & (name & tr & act & jnt & HM) & HN).
  pose proof (all_separate_one E _ _ _ SEP Hs) as S1.
  destruct (handle_writer E name tr act jnt hs ActToJntState exact_doubling HP HUF HM HN S1) as [[W1 _] W2].
  destruct (W1 m) as (mh & Eh & _).
  assert (IP : In Position (quantities E ActToJntState hs)) by (now left).
  pose proof (needed_linked E _ _ _ _ _ _ _ HM HN IP) as HL.
  destruct (separate_parts E _ _ _ S1 IP) as [ND DJ].
  destruct (joint_values (h_trans E hs) Position (h_act E hs) (h_jnt E hs) _ _ m xs HP HR HL ND DJ
              (abs_both _ _ _ _ (or_introl eq_refl)) Ex) as (mq & ys & Eq & _ & Vq & Fq).
  exists ys. split; [exact Fq|].
  pose proof (W2 m mh Position mq Eh IP Eq) as W3. unfold target_data in W3. cbn [toward_joints] in W3.
  pose proof (V1 hs mh Hs Eh) as V2.
  rewrite <- (map_map (rb_jpos E r) m1). rewrite <- (addrs_map (rb_jpos E r)), <- Ej.
  rewrite <- Vq, <- W3. apply map_agree. intros a Ha. apply (agree_map E (targets E ActToJntState hs)); [exact V2|].
  apply (in_targets ActToJntState hs Position); auto.
Qed.

Lemma send_ok m : exists m1, propagate_all E JntToActPosition (rb_cmd E r) m = Ok m1 /\
  unchanged_outside E (actuator_commands r) m m1 /\
  forall hs hc ks ys, drives r hs hc ks -> map (fun k => m (rb_jcmd E r k)) ks = map Some ys ->
    exists ys', joint_image hc m1 ys' /\ Forall2 Qeq ys' ys.
Proof.
  pose proof cmd_separate as SEP. destruct W as (_ & HU & _).
  destruct (interface_writer E JntToActPosition (rb_cmd E r) m) as (m1 & E1 & U1 & V1); auto using exact_doubling.
  { intros h Hh. destruct (usable_parts _ _ (HU h Hh)) as (? & ? & _ & _ & ? & ?). auto. }
  exists m1. split; [exact E1|]. split; [exact U1|].
  intros hs hc ks ys Hd Ey. pose proof Hd as (_ & Hc & _ & _ & Ej).
  destruct (usable_parts _ _ (HU hc Hc)) as (HP & HUF & HNi & HR & (name & tr & act & jnt & HM) & HN).
  pose proof (all_separate_one E _ _ _ SEP Hc) as S1.
  destruct (handle_writer E name tr act jnt hc JntToActPosition exact_doubling HP HUF HM HN S1) as [[W1 _] W2].
  destruct (W1 m) as (mh & Eh & _).
  assert (IP : In Position (quantities E JntToActPosition hc)) by (now left).
  pose proof (needed_linked E _ _ _ _ _ _ _ HM HN IP) as HL.
  destruct (separate_parts E _ _ _ S1 IP) as [ND DJ].
  assert (Ey' : map m (addrs (side Position (h_jnt E hc))) = map Some ys)
    by (rewrite Ej, addrs_map, map_map; exact Ey).
  destruct (actuator_values (h_trans E hc) Position (h_act E hc) (h_jnt E hc) _ _ m ys HP HR
              (or_introl eq_refl) HL ND DJ Ey') as (mq & xs & Eq & _ & Vq & Fq).
  pose proof (W2 m mh Position mq Eh IP Eq) as W3. unfold target_data in W3. cbn [toward_joints] in W3.
  pose proof (V1 hc mh Hc Eh) as V2.
  assert (Vx : map m1 (addrs (side Position (h_act E hc))) = map Some xs).
  { rewrite <- Vq, <- W3. apply map_agree. intros a Ha. apply (agree_map E (targets E JntToActPosition hc)); [exact V2|].
    apply (in_targets JntToActPosition hc Position); auto. }
  destruct HL as (_ & _ & La & _).
  assert (Lx : List.length xs = num_actuators E (h_trans E hc))
    by (rewrite <- La, <- (map_length m1), Vx; symmetry; apply map_length).
  destruct (pure_joint (h_trans E hc) Position xs HNi Lx) as (ys' & _ & Fy).
  exists ys'. split; [exists xs; auto|].
  eapply formulas_inverse'; eauto. now left.
Qed.
End Propagation.

(** ** The loop with some kind of limit handles *)
Section Loop.
Context {H : Type} (enf : H -> joint exact -> num exact -> option (H * joint exact)) (rst : H -> H).
Context (ok : num exact -> Prop) (zone : nat -> option Q -> Prop) (inv : nat -> H -> Prop).
Context (zone_num : forall k x, zone k x -> rational x).
Context (zone_eq : forall k x y, zone k (Some x) -> (x == y)%Q -> zone k (Some y)).
Context (zone_between : forall k a b x, zone k (Some a) -> zone k (Some b) -> between a b x -> zone k (Some x)).
Context (inv_step : forall k h (j : joint exact) dt, inv k h -> ok dt -> zone k (j_pos j) -> rational (j_cmd j) ->
  exists h' j', enf h j dt = Some (h', j') /\ inv k h' /\ zone k (j_cmd j')).
Context (inv_reset : forall k h, inv k h -> inv k (rst h)).
Context (r : robot E) (W : well_wired r).

(** Names and joints of the handles. *)
Definition shape (i : lim_iface H) : list (String.string * nat) := map (fun p => (fst p, lh_joint (snd p))) i.
Definition all_inv (i : lim_iface H) : Prop := forall nm h, In (nm, h) i -> inv (lh_joint h) (lh_state h).

Lemma shape_in i i' nm h : shape i = shape i' -> In (nm, h) i -> exists h', In (nm, h') i' /\ lh_joint h' = lh_joint h.
Proof.
  intros S Hi. assert (K : In (nm, lh_joint h) (shape i')).
  { rewrite <- S. unfold shape. apply in_map_iff. exists (nm, h). auto. }
  apply in_map_iff in K as ([n' h'] & K1 & K2). cbn in K1. injection K1 as -> K1. eauto.
Qed.

Lemma shape_limited i i' : shape i = shape i' -> all_limited r i -> all_limited r i'.
Proof.
  intros S (N & A1 & A2). split; [|split].
  - replace (map (fun p => rb_jcmd E r (lh_joint (snd p))) i') with (map (fun p => rb_jcmd E r (snd p)) (shape i')).
    + rewrite <- S. unfold shape. rewrite map_map. exact N.
    + unfold shape. now rewrite map_map.
  - intros nm h Hi. destruct (shape_in i' i nm h (eq_sym S) Hi) as (h' & Hi' & <-). eauto.
  - intros hs hc ks k Hd Hk. destruct (A2 hs hc ks k Hd Hk) as (nm & h & Hi & Ek).
    destruct (shape_in i i' nm h S Hi) as (h' & Hi' & Ek'). exists nm, h'. split; [exact Hi'|congruence].
Qed.

Lemma limit_ok i : forall m dt, all_inv i -> ok dt ->
  NoDup (map (fun p => rb_jcmd E r (lh_joint (snd p))) i) ->
  (forall nm h, In (nm, h) i -> zone (lh_joint h) (m (rb_jpos E r (lh_joint h))) /\
     rational (m (rb_jcmd E r (lh_joint h))) /\
     ~ In (rb_jpos E r (lh_joint h)) (map (fun p => rb_jcmd E r (lh_joint (snd p))) i)) ->
  exists i' m', limit_all E enf r i m dt = Some (i', m') /\ shape i' = shape i /\ all_inv i' /\
    unchanged_outside E (map (fun p => rb_jcmd E r (lh_joint (snd p))) i) m m' /\
    forall nm h, In (nm, h) i -> zone (lh_joint h) (m' (rb_jcmd E r (lh_joint h))).
Proof.
  induction i as [|[n h] i IH]; intros m dt HI Hok ND HM.
  { exists [], m. repeat split; auto; try (intros ? ? []). }
  cbn [map snd] in ND. inversion ND as [|x xs NI ND']; subst.
  destruct (HM n h (or_introl eq_refl)) as (Z & R & NP).
  destruct (inv_step (lh_joint h) (lh_state h) (joint_seen E r m (lh_joint h)) dt
     (HI n h (or_introl eq_refl)) Hok Z R) as (s & j & Ee & Hi & Hz).
  set (m1 := upd E m (rb_jcmd E r (lh_joint h)) (j_cmd j)).
  assert (M1 : forall a, a <> rb_jcmd E r (lh_joint h) -> m1 a = m a).
  { intros a Ha. unfold m1, upd. apply Nat.eqb_neq in Ha. now rewrite Ha. }
  destruct (IH m1 dt) as (i' & m' & El & Sh & AI & U & V); auto.
  { intros nm h' Hh. apply (HI nm h'). now right. }
  { intros nm h' Hh. destruct (HM nm h' (or_intror Hh)) as (Z' & R' & NP').
    cbn [map snd] in NP'. rewrite !M1.
    - split; [exact Z'|]. split; [exact R'|]. intros K. apply NP'. now right.
    - intros K. apply NI. rewrite <- K. apply in_map_iff. exists (nm, h'). auto.
    - intros K. apply NP'. left. now symmetry. }
  exists ((n, mkLim s (lh_joint h)) :: i'), m'. split.
  { cbn [limit_all]. rewrite Ee.
    match goal with |- context [limit_all _ _ _ i ?n _] => change n with m1 end. now rewrite El. }
  split; [unfold shape in *; cbn; now rewrite Sh|]. split.
  { intros nm h' [K|K]; [injection K as <- <-; exact Hi | eauto]. }
  split.
  { intros a Ha. cbn [map snd] in Ha. rewrite U; [|intros K; apply Ha; now right]. apply M1. intros K. apply Ha. left. now symmetry. }
  intros nm h' [K|K]; [injection K as <- <- | eauto].
  rewrite U by exact NI. unfold m1, upd. now rewrite Nat.eqb_refl.
Qed.

Lemma image_same h (m m' : mem E) ys : (forall a, In a (addrs (side Position (h_act E h))) -> m' a = m a) ->
  joint_image h m ys -> joint_image h m' ys.
Proof. intros Hm (xs & Ex & Hf). exists xs. split; [|exact Hf]. rewrite <- Ex. now apply map_agree. Qed.

Lemma formula_fun t xs ys ys' : joint_formula t Position xs ys -> joint_formula t Position xs ys' -> Forall2 Qeq ys ys'.
Proof.
  destruct t as [[r0|] [o|] | [|[a|] [|[b|] [|? ?]]] [|[c|] [|[d|] [|? ?]]] [|[e|] [|[f|] [|? ?]]] ? |
     [|[a|] [|[b|] [|? ?]]] [|[c|] [|[d|] [|? ?]]] [|[e|] [|[f|] [|? ?]]]];
    unfold joint_formula; try contradiction; destruct xs as [|x [|x' [|? ?]]]; try contradiction;
    destruct ys as [|y [|y' [|? ?]]]; try contradiction; destruct ys' as [|z [|z' [|? ?]]]; try contradiction.
  - intros H1 H2. rewrite <- H1 in H2. symmetry in H2. repeat constructor; assumption.
  - intros [H1 H2] [H3 H4]. rewrite <- H1 in H3. rewrite <- H2 in H4. symmetry in H3, H4. repeat constructor; assumption.
  - intros [H1 H2] [H3 H4]. rewrite <- H1 in H3. rewrite <- H2 in H4. symmetry in H3, H4. repeat constructor; assumption.
Qed.

Lemma image_fun h m ys ys' : joint_image h m ys -> joint_image h m ys' -> Forall2 Qeq ys ys'.
Proof.
  intros (xs & E1 & F1) (xs' & E2 & F2). rewrite E1 in E2. apply map_some_inj in E2. subst. eapply formula_fun; eauto.
Qed.

Lemma values_of {T} (f : T -> option Q) (P : T -> option Q -> Prop) l :
  (forall x, In x l -> rational (f x) /\ P x (f x)) ->
  exists ys, map f l = map Some ys /\ Forall2 (fun x y => f x = Some y /\ P x (Some y)) l ys.
Proof.
  induction l as [|x l IH]; intros Hl; [exists []; split; [reflexivity|constructor]|].
  destruct IH as (ys & E1 & F1); [intros y Hy; apply Hl; now right|].
  destruct (Hl x (or_introl eq_refl)) as [R Px]. destruct (f x) as [v|] eqn:Ef; [|now elim R].
  exists (v :: ys). split; [cbn; now rewrite Ef, E1|]. constructor; auto.
Qed.

Lemma forall2_zone (f : nat -> option Q) ks : forall ys ys', Forall2 (fun k y => zone k (Some y)) ks ys -> Forall2 Qeq ys ys' ->
  map f ks = map Some ys' -> forall k, In k ks -> zone k (f k).
Proof.
  intros ys ys' Z. revert ys'. induction Z as [|k y ks ys Hz Z IH]; intros ys' Q Ef k0 Hk; [destruct Hk|].
  inversion Q as [|? y' ? ys'' Hy Q']; subst. cbn in Ef. injection Ef as E1 E2.
  destruct Hk as [<-|Hk]; [rewrite E1; eapply zone_eq; eauto | eapply IH; eauto].
Qed.

(** The loop invariant. *)
Definition loop_inv (s : lim_iface H * mem E) : Prop :=
  all_limited r (fst s) /\ all_inv (fst s) /\ positions_inside zone r (snd s).

Lemma write_ok i m m1 m2 dt : all_limited r i -> all_inv i -> positions_inside zone r m ->
  robot_read E r m = Ok m1 -> controllers r m1 m2 -> ok dt ->
  exists i' m3, robot_write E enf r i m2 dt = Ok (i', m3) /\ all_limited r i' /\ all_inv i' /\
    positions_inside zone r m3 /\ commands_inside zone r m3.
Proof.
  intros AL AI PI ER [CU CN] Hok. pose proof AL as (ND & A1 & A2).
  destruct (read_ok r W m) as (m1' & ER' & UR & VR). rewrite ER in ER'. injection ER' as <-.
  destruct W as (_ & _ & _ & _ & D1 & D2 & D3 & _).
  (* the joint commands written by the limit handles are joint commands *)
  assert (CI : incl (map (fun p => rb_jcmd E r (lh_joint (snd p))) i) (joint_commands r)).
  { intros a Ha. apply in_map_iff in Ha as ([nm h] & <- & Hi). destruct (A1 nm h Hi) as (hs & hc & ks & Hd & Hk).
    eapply jcmd_in; eauto. }
  destruct (limit_ok i m2 dt AI Hok ND) as (i' & m' & EL & Sh & AI' & UL & VL).
  { intros nm h Hi. destruct (A1 nm h Hi) as (hs & hc & ks & Hd & Hk).
    pose proof (jpos_in r hs hc ks _ Hd Hk) as HJ.
    assert (NJ : ~ In (rb_jpos E r (lh_joint h)) (joint_commands r)).
    { intros K. apply (D2 _ HJ). apply in_or_app. now left. }
    split; [|split].
    - rewrite CU by exact NJ. destruct (PI hs hc ks Hd) as (ys & (xs & Ex & Fx) & Z).
      destruct (VR hs hc ks xs Hd Ex) as (ys' & Fy & Em).
      apply (forall2_zone (fun k => m1 (rb_jpos E r k)) ks ys ys' Z (formula_fun _ _ _ _ Fx Fy) Em _ Hk).
    - apply CN. eapply jcmd_in; eauto.
    - intros K. apply NJ. apply CI. exact K. }
  destruct (send_ok r W m') as (m3 & ES & US & VS).
  exists i', m3. split.
  { unfold robot_write, robot_send. rewrite EL. cbn [bind]. rewrite ES. reflexivity. }
  split; [eapply shape_limited; [symmetry; exact Sh|exact AL]|]. split; [exact AI'|].
  (* outside the commands and the joint states nothing changes *)
  assert (UA : forall a, In a (actuator_states r) -> m3 a = m a).
  { intros a Ha. pose proof (D1 a Ha) as NA. rewrite !in_app_iff in NA.
    rewrite US by tauto. rewrite UL by (intros K; apply CI in K; tauto). rewrite CU by tauto. apply UR. tauto. }
  split.
  - intros hs hc ks Hd. destruct (PI hs hc ks Hd) as (ys & Im & Z). exists ys. split; [|exact Z].
    eapply image_same; [|exact Im]. intros a Ha. apply UA. eapply acts_in; eauto.
  - intros hs hc ks Hd.
    destruct (values_of (fun k => m' (rb_jcmd E r k)) zone ks) as (ys & Ey & FY).
    { intros k Hk. destruct (A2 hs hc ks k Hd Hk) as (nm & h & Hi & Ek). pose proof (VL nm h Hi) as Zk.
      rewrite Ek in Zk. split; [eapply zone_num; exact Zk | exact Zk]. }
    destruct (VS hs hc ks ys Hd Ey) as (ys' & Im & Q). exists ys'. split; [exact Im|].
    assert (K3 : forall k, In k ks -> m3 (rb_jcmd E r k) = m' (rb_jcmd E r k)).
    { intros k Hk. apply US. apply D3. eapply jcmd_in; eauto. }
    clear - FY Q K3 zone_eq. revert ys' Q. induction FY as [|k y ks ys [E1 Z1] FY IH]; intros ys' Q; inversion Q; subst; constructor.
    + split; [eapply zone_eq; [exact Z1|now symmetry]|]. rewrite K3 by (now left). rewrite E1. cbn. now symmetry.
    + apply IH; auto. intros k' Hk'. apply K3. now right.
Qed.

Lemma reset_shape i : shape (lim_reset rst i) = shape i.
Proof. unfold shape, lim_reset. rewrite map_map. now apply map_ext. Qed.
Lemma reset_all_inv i : all_inv i -> all_inv (lim_reset rst i).
Proof.
  intros AI nm h Hi. unfold lim_reset in Hi. apply in_map_iff in Hi as ([n h0] & Eh & Hi). injection Eh as <- <-.
  cbn. apply inv_reset. exact (AI n h0 Hi).
Qed.

Lemma resettable s i : loop_inv s -> i = fst s \/ i = lim_reset rst (fst s) -> all_limited r i /\ all_inv i.
Proof.
  intros (A1 & A2 & _) [-> | ->]; auto. split; [|now apply reset_all_inv].
  eapply shape_limited; [symmetry; apply reset_shape | exact A1].
Qed.

Lemma forall2_between (P : nat -> Q -> Prop) ks : forall ys yc ys', Forall2 (fun k y => zone k (Some y)) ks ys ->
  Forall2 (fun k y => zone k (Some y) /\ P k y) ks yc ->
  Forall2 (fun p y' => between (fst p) (snd p) y') (combine ys yc) ys' -> Forall2 (fun k y => zone k (Some y)) ks ys'.
Proof.
  induction ks as [|k ks IH]; intros ys yc ys' Z1 Z2 B; inversion Z1; inversion Z2; subst; cbn in B; inversion B; subst; constructor.
  - cbn in *. eapply zone_between; [| |eassumption]; tauto.
  - eapply IH; eauto.
Qed.

Lemma loop_step s s' : loop_inv s -> cycle enf rst ok r s s' -> loop_inv s'.
Proof.
  intros HI (m1 & m2 & dt & i & m3 & ER & HC & Hok & Hi & EW & [HU HB]).
  destruct (resettable s i HI Hi) as [AL AI]. destruct HI as (_ & _ & PI).
  destruct (write_ok i _ m1 m2 dt AL AI PI ER HC Hok) as (i' & m3' & EW' & AL' & AI' & PI' & CI').
  rewrite EW in EW'. injection EW' as <- <-.
  split; [exact AL'|]. split; [exact AI'|].
  intros hs hc ks Hd. destruct (PI' hs hc ks Hd) as (ys & Im & Z). destruct (CI' hs hc ks Hd) as (yc & Ic & Zc).
  destruct (HB hs hc ks ys yc Hd Im Ic) as (ys' & Im' & B). exists ys'. split; [exact Im'|].
  exact (forall2_between _ ks ys yc ys' Z Zc B).
Qed.

Lemma loop_safe s s' : loop_inv s -> cycles enf rst ok r s s' -> limits_hold enf rst ok zone r s'.
Proof.
  intros HI HC. assert (HI' : loop_inv s') by (induction HC; eauto using loop_step).
  split; [apply HI'|]. destruct (read_ok r W (snd s')) as (m1 & ER & _). exists m1. split; [exact ER|].
  intros m2 dt i Hm Hok Hi. destruct (resettable s' i HI' Hi) as [AL AI].
  destruct (write_ok i _ m1 m2 dt AL AI (proj2 (proj2 HI')) ER Hm Hok) as (i' & m3 & EW & _ & _ & P & C).
  exists i', m3. auto.
Qed.
End Loop.
