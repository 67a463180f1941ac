(** Proofs about the loader of transmissions: robots without joint interfaces of their own. *)
From Coq Require Import Permutation Lia.
From Verif Require Import SMapProofs TransSpec TransProofs TransHandle LoadModel LoadSpec ParseProofs.
Local Open Scope string_scope.
Local Open Scope list_scope.
Local Open Scope nat_scope.

Section Load.
Context (A : larith).
Notation loader := (loader A).

(** ** Slots *)

Definition used {H} (s : slot H) : Prop := s_mine s <> [] -> s_on s = true.
Definition bare {H} (s : slot H) : Prop := s_theirs s = None /\ used s.

Lemma sfind_nonempty {T} n (m : smap T) x : sfind n m = Some x -> m <> [].
Proof. intros H ->. discriminate. Qed.
Lemma sset_nonempty {T} n (x : T) m : sset n x m <> [].
Proof. destruct m as [|[k v] m]; cbn; [discriminate|]. destruct (String.compare n k); discriminate. Qed.

Lemma bare_get {H} (s : slot H) : bare s -> s_get s = if s_on s then Some (s_mine s) else None.
Proof. intros [E _]. unfold s_get. now rewrite E. Qed.
Lemma bare_find {H} (s : slot H) n x : bare s -> sfind n (s_mine s) = Some x -> s_get s = Some (s_mine s).
Proof. intros HB E. rewrite bare_get by exact HB. destruct HB as [_ U]. rewrite U; [reflexivity|]. eapply sfind_nonempty; eauto. Qed.
Lemma bare_has {H} (s : slot H) n : bare s -> s_has n s = match sfind n (s_mine s) with Some _ => true | None => false end.
Proof.
  intros HB. unfold s_has, has_resource. rewrite bare_get by exact HB. destruct (s_on s) eqn:E; [reflexivity|].
  destruct (sfind n (s_mine s)) eqn:F; [|reflexivity]. destruct HB as [_ U]. rewrite U in E; [discriminate|].
  eapply sfind_nonempty; eauto.
Qed.
Lemma bare_ensure {H} (s : slot H) : bare s -> s_ensure s = mkSlot None (s_mine s) true.
Proof.
  intros HB. unfold s_ensure. rewrite bare_get by exact HB. destruct s as [th mi on]; destruct HB as [E U]; cbn in *. subst th.
  destruct on; reflexivity.
Qed.
Lemma bare_put {H} n (x : H) s : bare s -> s_on s = true -> s_put n x s = mkSlot None (sset n x (s_mine s)) true.
Proof. intros [E _] O. unfold s_put. now rewrite E, O. Qed.
Lemma bare_on {H} (m : smap H) : bare (mkSlot None m true).
Proof. split; [reflexivity|]. intros _. reflexivity. Qed.
Lemma bare_none {H} : bare (@mkSlot H None [] false).
Proof. split; [reflexivity|]. intros N. now destruct N. Qed.

Lemma tget_tset {T} k k' (x : T) t : tget k (tset k' x t) = if (match k, k' with Pos, Pos | Vel, Vel | Eff, Eff => true | _, _ => false end) then x else tget k t.
Proof. destruct k, k', t; reflexivity. Qed.
Lemma tget_same {T} k (x : T) t : tget k (tset k x t) = x.
Proof. destruct k; reflexivity. Qed.
Lemma tget_other {T} k k' (x : T) t : k <> k' -> tget k (tset k' x t) = tget k t.
Proof. destruct k, k'; try congruence; reflexivity. Qed.
Lemma tset_tset {T} k (x y : T) t : tset k x (tset k y t) = tset k x t.
Proof. destruct k; reflexivity. Qed.
Lemma command_dec (k k' : command) : {k = k'} + {k <> k'}.
Proof. decide equality. Qed.
Lemma hkind_dec (k k' : hkind) : {k = k'} + {k <> k'}.
Proof. decide equality. Qed.

(** ** Invariant *)

Record inv (l : loader) : Prop := {
  inv_js : bare (l_jnt_state A l);
  inv_jc : forall k, bare (tget k (l_jnt_cmd A l));
  inv_if : forall K, bare (iface A K l);
  inv_state : forall n, sfind n (s_mine (l_jnt_state A l)) = option_map state_handle (sfind n (l_raw A l));
  inv_cmd : forall k n x, sfind n (s_mine (tget k (l_jnt_cmd A l))) = Some x ->
    exists r, sfind n (l_raw A l) = Some r /\ x = mkJntCmd (state_handle r) (raw_cmd k r);
  inv_raw : forall n r, sfind n (l_raw A l) = Some r -> rj_has_abs r = true /\ rj_has_tor r = true /\ rj_base r + 8 <= l_next A l;
  inv_apart : forall n n' r r', n <> n' -> sfind n (l_raw A l) = Some r -> sfind n' (l_raw A l) = Some r' ->
    rj_base r + 8 <= rj_base r' \/ rj_base r' + 8 <= rj_base r }.

(** Nothing the robot or the loader had is lost or changed. *)
Definition keeps {T} (a b : option (smap T)) : Prop :=
  forall m, a = Some m -> exists m', b = Some m' /\ forall n x, sfind n m = Some x -> sfind n m' = Some x.
Record ext (l l' : loader) : Prop := {
  ext_as : l_act_state A l' = l_act_state A l;
  ext_ac : l_act_cmd A l' = l_act_cmd A l;
  ext_js : keeps (s_get (l_jnt_state A l)) (s_get (l_jnt_state A l'));
  ext_jc : forall k, keeps (s_get (tget k (l_jnt_cmd A l))) (s_get (tget k (l_jnt_cmd A l')));
  ext_raw : forall n r, sfind n (l_raw A l) = Some r -> sfind n (l_raw A l') = Some r;
  ext_next : l_next A l <= l_next A l';
  ext_new : forall n r, sfind n (l_raw A l') = Some r -> sfind n (l_raw A l) = Some r \/ l_next A l <= rj_base r }.

Lemma keeps_refl {T} (a : option (smap T)) : keeps a a.
Proof. intros m E. exists m. auto. Qed.
Lemma keeps_trans {T} (a b c : option (smap T)) : keeps a b -> keeps b c -> keeps a c.
Proof. intros H H' m E. destruct (H m E) as (m' & E' & K). destruct (H' m' E') as (m'' & E'' & K'). exists m''. auto. Qed.
Lemma ext_refl l : ext l l.
Proof. constructor; auto using keeps_refl. Qed.
Lemma ext_trans l l' l'' : ext l l' -> ext l' l'' -> ext l l''.
Proof.
  intros H H'. constructor.
  - rewrite (ext_as _ _ H'). apply H.
  - rewrite (ext_ac _ _ H'). apply H.
  - eapply keeps_trans; [apply H | apply H'].
  - intros k. eapply keeps_trans; [apply H | apply H'].
  - intros n r E. now apply H', H.
  - etransitivity; [apply H | apply H'].
  - intros n r E. destruct (ext_new _ _ H' n r E) as [E'|L]; [now apply H|]. right. pose proof (ext_next _ _ H). lia.
Qed.

(** A sub-state that transmission interfaces do not touch. *)
Definition same_rest (l l' : loader) : Prop :=
  (forall K, iface A K l' = iface A K l) /\ l_transmissions A l' = l_transmissions A l.
Lemma same_rest_trans l l' l'' : same_rest l l' -> same_rest l' l'' -> same_rest l l''.
Proof. intros [H1 H2] [K1 K2]. split; [intros K; now rewrite K1|congruence]. Qed.

Lemma put_keeps {H} (s : slot H) n x : bare s -> s_on s = true -> sfind n (s_mine s) = None -> keeps (s_get s) (s_get (s_put n x s)).
Proof.
  intros HB HO HN m E. rewrite bare_get in E by exact HB. rewrite HO in E. injection E as <-.
  rewrite bare_put by assumption. eexists. split; [reflexivity|]. cbn. intros k y F. rewrite sfind_sset.
  destruct (String.eqb_spec k n) as [->|]; [congruence | exact F].
Qed.
Lemma ensure_keeps {H} (s : slot H) : bare s -> keeps (s_get s) (s_get (s_ensure s)).
Proof.
  intros HB m E. rewrite bare_ensure by exact HB. rewrite bare_get in E by exact HB.
  destruct (s_on s); [|discriminate]. injection E as <-. eexists. split; [reflexivity|]. auto.
Qed.

(** ** Joint states *)

Lemma ensure_states l : inv l -> let l' := set_jnt_state A (s_ensure (l_jnt_state A l)) l in
  inv l' /\ ext l l' /\ same_rest l l' /\ s_on (l_jnt_state A l') = true /\ l_jnt_cmd A l' = l_jnt_cmd A l.
Proof.
  intros I l'. pose proof (bare_ensure _ (inv_js _ I)) as E. subst l'. split; [|split; [|split; [|split]]].
  - constructor; cbn; try rewrite E; try apply I; try apply bare_on.
  - constructor; cbn; auto using keeps_refl. apply ensure_keeps, I.
  - split; [destruct K; reflexivity | reflexivity].
  - cbn. now rewrite E.
  - reflexivity.
Qed.

Lemma update_states_spec joints : forall l, inv l -> s_on (l_jnt_state A l) = true ->
  let l' := update_states A joints l in
  inv l' /\ ext l l' /\ same_rest l l' /\ s_on (l_jnt_state A l') = true /\ l_jnt_cmd A l' = l_jnt_cmd A l /\
  forall j, In j joints -> exists r, sfind (ji_name j) (l_raw A l') = Some r.
Proof.
  induction joints as [|j joints IH]; intros l I O.
  - cbn. split; [exact I|]. split; [apply ext_refl|]. split; [split; reflexivity|]. split; [exact O|]. split; [reflexivity|]. easy.
  - cbn [update_states]. rewrite (bare_has _ _ (inv_js _ I)).
    destruct (sfind (ji_name j) (s_mine (l_jnt_state A l))) as [x|] eqn:F.
    + destruct (IH l I O) as (I' & X & R & O' & C & P). split; [exact I'|]. split; [exact X|]. split; [exact R|]. split; [exact O'|]. split; [exact C|].
      intros j' [<-|Hj]; [|auto]. rewrite (inv_state _ I) in F.
      destruct (sfind (ji_name j) (l_raw A l)) as [r|] eqn:G; [|discriminate]. exists r. now apply X.
    + assert (G : sfind (ji_name j) (l_raw A l) = None).
      { rewrite (inv_state _ I) in F. destruct (sfind (ji_name j) (l_raw A l)); [discriminate | reflexivity]. }
      unfold raw_at. rewrite G. set (r := mkRaw (l_next A l) true true). cbn [l_jnt_state set_raw].
      set (l1 := set_jnt_state A _ _).
      assert (E : l_jnt_state A l1 = mkSlot None (sset (ji_name j) (state_handle r) (s_mine (l_jnt_state A l))) true).
      { cbn. apply bare_put; [apply I | exact O]. }
      assert (I1 : inv l1).
      { constructor.
        - rewrite E. apply bare_on.
        - intros k. exact (inv_jc _ I k).
        - intros K. pose proof (inv_if _ I K) as Z. destruct K; exact Z.
        - intros n. rewrite E. cbn. rewrite !sfind_sset. destruct (n =? ji_name j)%string; [reflexivity | apply I].
        - intros k n x H. cbn in H |- *. destruct (inv_cmd _ I k n x H) as (r' & H1 & H2). exists r'. split; [|exact H2].
          rewrite sfind_sset. destruct (String.eqb_spec n (ji_name j)) as [->|]; [congruence | exact H1].
        - intros n r' H. cbn in H |- *. rewrite sfind_sset in H. destruct (n =? ji_name j)%string.
          + injection H as <-. cbn. repeat split; auto.
          + destruct (inv_raw _ I n r' H) as (H1 & H2 & H3). repeat split; auto. lia.
        - intros n n' r1 r2 NE H1 H2. cbn in H1, H2. rewrite sfind_sset in H1, H2.
          destruct (String.eqb_spec n (ji_name j)) as [->|N1], (String.eqb_spec n' (ji_name j)) as [->|N2].
          + congruence.
          + injection H1 as <-. pose proof (inv_raw _ I _ _ H2). cbn. lia.
          + injection H2 as <-. pose proof (inv_raw _ I _ _ H1). cbn. lia.
          + eapply (inv_apart _ I n n'); eauto. }
      assert (X1 : ext l l1).
      { constructor; try reflexivity; cbn.
        - now apply put_keeps; [apply I|exact O|].
        - intros k. apply keeps_refl.
        - intros n r' H. rewrite sfind_sset. destruct (String.eqb_spec n (ji_name j)) as [->|]; [congruence | exact H].
        - lia.
        - intros n r' H. rewrite sfind_sset in H. destruct (n =? ji_name j)%string; [injection H as <-; cbn; auto | auto]. }
      destruct (IH l1 I1) as (I' & X & R & O' & C & P); [rewrite E; reflexivity|].
      split; [exact I'|]. split; [eapply ext_trans; eauto|].
      split; [eapply same_rest_trans; [|exact R]; split; [intros K; destruct K; reflexivity | reflexivity]|].
      split; [exact O'|]. split; [exact C|].
      intros j' [<-|Hj]; [|auto]. exists r. apply X. cbn. rewrite sfind_sset, String.eqb_refl. reflexivity.
Qed.

Lemma update_joint_states_spec i l : inv l ->
  let l' := update_joint_states A i l in
  inv l' /\ ext l l' /\ same_rest l l' /\ s_on (l_jnt_state A l') = true /\ l_jnt_cmd A l' = l_jnt_cmd A l /\
  forall j, In j (ti_joints i) -> exists r, sfind (ji_name j) (l_raw A l') = Some r.
Proof.
  intros I. destruct (ensure_states l I) as (I1 & X1 & R1 & O1 & C1).
  destruct (update_states_spec (ti_joints i) _ I1 O1) as (I2 & X2 & R2 & O2 & C2 & P).
  split; [exact I2|]. split; [exact (ext_trans _ _ _ X1 X2)|]. split; [exact (same_rest_trans _ _ _ R1 R2)|]. split; [exact O2|].
  split; [|exact P]. unfold update_joint_states. now rewrite C2, C1.
Qed.

(** ** Joint commands *)

Lemma update_commands_spec k joints : forall l, inv l -> s_on (l_jnt_state A l) = true -> s_on (tget k (l_jnt_cmd A l)) = true ->
  (forall j, In j joints -> exists r, sfind (ji_name j) (l_raw A l) = Some r) ->
  exists l', update_commands A k joints l = (l', true) /\
  inv l' /\ ext l l' /\ same_rest l l' /\ s_on (l_jnt_state A l') = true /\ s_on (tget k (l_jnt_cmd A l')) = true /\ l_raw A l' = l_raw A l /\
  forall j, In j joints -> exists x, sfind (ji_name j) (s_mine (tget k (l_jnt_cmd A l'))) = Some x.
Proof.
  induction joints as [|j joints IH]; intros l I OS O P.
  - cbn. exists l. split; [reflexivity|]. split; [exact I|]. split; [apply ext_refl|]. split; [split; reflexivity|].
    split; [exact OS|]. split; [exact O|]. split; [reflexivity|]. easy.
  - cbn [update_commands]. rewrite (bare_has _ _ (inv_jc _ I k)).
    destruct (sfind (ji_name j) (s_mine (tget k (l_jnt_cmd A l)))) as [x|] eqn:F.
    + destruct (IH l I OS O) as (l' & E & I' & X & R & OS' & O' & W & Q); [intros; apply P; now right|].
      exists l'. split; [exact E|]. split; [exact I'|]. split; [exact X|]. split; [exact R|]. split; [exact OS'|]. split; [exact O'|]. split; [exact W|].
      intros j' [<-|Hj]; [|auto].
      pose proof (bare_find _ _ _ (inv_jc _ I k) F) as G.
      destruct (ext_jc _ _ X k _ G) as (m' & G' & KK). apply KK in F. exists x.
      rewrite bare_get, O' in G' by apply I'. injection G' as <-. exact F.
    + destruct (P j (or_introl eq_refl)) as (r & G). unfold raw_at. rewrite G.
      pose proof (inv_state _ I (ji_name j)) as S. rewrite G in S. cbn [option_map] in S. rewrite S.
      set (l1 := set_jnt_cmd A _ _ _).
      assert (E : l_jnt_cmd A l1 = tset k (mkSlot None (sset (ji_name j) (mkJntCmd (state_handle r) (raw_cmd k r)) (s_mine (tget k (l_jnt_cmd A l)))) true) (l_jnt_cmd A l)).
      { cbn. f_equal. apply bare_put; [apply I | exact O]. }
      assert (I1 : inv l1).
      { constructor; try exact (inv_js _ I); try exact (inv_state _ I); try exact (inv_raw _ I); try exact (inv_apart _ I).
        - intros k'. rewrite E. destruct (command_dec k' k) as [->|NE]; [rewrite tget_same; apply bare_on | rewrite tget_other by exact NE; apply I].
        - intros K. pose proof (inv_if _ I K) as Z. destruct K; exact Z.
        - intros k' n x. rewrite E. destruct (command_dec k' k) as [->|NE]; [rewrite tget_same | rewrite tget_other by exact NE; apply I].
          cbn. rewrite sfind_sset. destruct (String.eqb_spec n (ji_name j)) as [->|]; [|apply I].
          intros [= <-]. exists r. auto. }
      assert (X1 : ext l l1).
      { constructor; try reflexivity; cbn; auto using keeps_refl.
        intros k'. destruct (command_dec k' k) as [->|NE]; [rewrite tget_same | rewrite tget_other by exact NE; apply keeps_refl].
        now apply put_keeps; [apply I|exact O|]. }
      destruct (IH l1 I1) as (l' & E' & I' & X & R & OS' & O' & W & Q); [exact OS | rewrite E, tget_same; reflexivity | intros j' Hj; exact (P j' (or_intror Hj))|].
      exists l'. split; [exact E'|]. split; [exact I'|]. split; [eapply ext_trans; eauto|].
      split; [eapply same_rest_trans; [|exact R]; split; [intros K; destruct K; reflexivity | reflexivity]|].
      split; [exact OS'|]. split; [exact O'|]. split; [exact W|].
      intros j' [<-|Hj]; [|auto].
      destruct (ext_jc _ _ X k (s_mine (tget k (l_jnt_cmd A l1)))) as (m' & G' & KK).
      { rewrite bare_get by apply I1. rewrite E, tget_same. reflexivity. }
      rewrite bare_get, O' in G' by apply I'. injection G' as <-.
      eexists. apply KK. rewrite E, tget_same. cbn. rewrite sfind_sset, String.eqb_refl. reflexivity.
Qed.

Lemma update_joint_commands_spec k i l : inv l ->
  exists l', update_joint_commands A k i l = (l', true) /\
  inv l' /\ ext l l' /\ same_rest l l' /\ s_on (l_jnt_state A l') = true /\ s_on (tget k (l_jnt_cmd A l')) = true /\
  (forall j, In j (ti_joints i) -> exists r, sfind (ji_name j) (l_raw A l') = Some r) /\
  (forall j, In j (ti_joints i) -> exists x, sfind (ji_name j) (s_mine (tget k (l_jnt_cmd A l'))) = Some x).
Proof.
  intros I. unfold update_joint_commands.
  destruct (update_joint_states_spec i l I) as (I1 & X1 & R1 & O1 & C1 & P1). set (l1 := update_joint_states A i l) in *.
  set (l2 := set_jnt_cmd A k (s_ensure (tget k (l_jnt_cmd A l1))) l1).
  pose proof (bare_ensure _ (inv_jc _ I1 k)) as E.
  assert (I2 : inv l2).
  { constructor; try exact (inv_js _ I1); try exact (inv_state _ I1); try exact (inv_raw _ I1); try exact (inv_apart _ I1).
    - intros k'. unfold l2; cbn. rewrite E. destruct (command_dec k' k) as [->|NE]; [rewrite tget_same; apply bare_on | rewrite tget_other by exact NE; apply I1].
    - intros K. pose proof (inv_if _ I1 K) as Z. destruct K; exact Z.
    - intros k' n x. unfold l2; cbn. rewrite E. destruct (command_dec k' k) as [->|NE]; [rewrite tget_same | rewrite tget_other by exact NE]; cbn; apply I1. }
  assert (X2 : ext l1 l2).
  { constructor; try reflexivity; cbn; auto using keeps_refl.
    intros k'. destruct (command_dec k' k) as [->|NE]; [rewrite tget_same | rewrite tget_other by exact NE; apply keeps_refl].
    apply ensure_keeps, I1. }
  destruct (update_commands_spec k (ti_joints i) l2 I2) as (l' & E' & I' & X & R & OS' & O' & W & Q); auto.
  { unfold l2; cbn. rewrite E, tget_same. reflexivity. }
  exists l'. split; [exact E'|]. split; [exact I'|]. split; [eapply ext_trans; [exact X1 | eapply ext_trans; eauto]|].
  split; [eapply same_rest_trans; [exact R1 | eapply same_rest_trans; [|exact R]]; split; [intros K; destruct K; reflexivity | reflexivity]|].
  split; [exact OS'|]. split; [exact O'|]. split; [|exact Q]. intros j Hj. rewrite W. exact (P1 j Hj).
Qed.

(** ** Data *)

Lemma find_all_spec {T} names (m : smap T) :
  match find_all names m with Some xs => entries names m xs | None => forall xs, ~ entries names m xs end.
Proof.
  induction names as [|n names IH]; cbn; [constructor|].
  destruct (sfind n m) as [x|] eqn:E; [|intros xs H; inversion H; congruence].
  destruct (find_all names m) as [xs|]; [now constructor|]. intros xs H. inversion H; subst. eapply IH; eauto.
Qed.
Lemma find_all_ex {T} names (m : smap T) : (forall n, In n names -> exists x, sfind n m = Some x) ->
  exists xs, find_all names m = Some xs /\ entries names m xs.
Proof.
  intros H. pose proof (find_all_spec names m) as F. destruct (find_all names m) as [xs|]; [eauto|].
  exfalso. assert (exists xs, entries names m xs) as (xs & E).
  { clear F. induction names as [|n names IH]; [exists []; constructor|].
    destruct (H n (or_introl eq_refl)) as (x & E). destruct IH as (xs & E'); [intros; apply H; now right|].
    exists (x :: xs). now constructor. }
  now apply (F xs).
Qed.
Lemma entries_keeps {T} names (m m' : smap T) xs : (forall n x, sfind n m = Some x -> sfind n m' = Some x) -> entries names m xs -> entries names m' xs.
Proof. intros H. unfold entries. induction 1; constructor; auto. Qed.
Lemma entries_length {T} names (m : smap T) xs : entries names m xs -> List.length xs = List.length names.
Proof. unfold entries. induction 1; cbn; auto. Qed.
Lemma entries_map {T U} names (m : smap T) (m' : smap U) (f : T -> U) xs :
  (forall n x, sfind n m = Some x -> sfind n m' = Some (f x)) -> entries names m xs -> entries names m' (map f xs).
Proof. intros H. unfold entries. induction 1; cbn; constructor; auto. Qed.

Lemma all_some_spec {T U} (f : T -> option U) l : all_some f l = true <-> Forall (fun x => f x <> None) l.
Proof.
  induction l as [|x l IH]; cbn; [intuition|]. split.
  - destruct (f x) eqn:E; [|discriminate]. intros H. constructor; [congruence | tauto].
  - intros H. inversion H; subst. destruct (f x); [tauto | congruence].
Qed.
Lemma if_all_intro {T} (f : T -> option addr) xs : if_all f xs (if all_some f xs then map f xs else []).
Proof.
  pose proof (all_some_spec f xs) as H. destruct (all_some f xs); split; intros K; auto.
  - now destruct K; apply H.
  - apply H in K. discriminate.
Qed.

Lemma actuator_handles_spec {T} i (o : option (smap T)) :
  match actuator_handles i o with
  | Some xs => exists m, o = Some m /\ entries (map ai_name (ti_actuators i)) m xs
  | None => forall m xs, o = Some m -> ~ entries (map ai_name (ti_actuators i)) m xs
  end.
Proof.
  unfold actuator_handles. destruct o as [m|]; [|discriminate].
  pose proof (find_all_spec (map ai_name (ti_actuators i)) m) as F. destruct (find_all _ m); [eauto|].
  intros m' xs [= <-]. apply F.
Qed.

(** ** Handles *)

(** Each vector is empty or has the right number of valid pointers. *)
Definition sound_side (n : nat) (d : data) : Prop := forall q, side q d = [] \/ exists la, side q d = map Some la /\ List.length la = n.

Lemma valid_some l : valid_pointers (map Some l) = true.
Proof. induction l; auto. Qed.
Lemma sound_checks n v : (v = [] \/ exists la, v = map Some la /\ List.length la = n) ->
  negb (empty v) && negb (List.length v =? n) = false /\ negb (valid_pointers v) = false /\ negb (empty v) && negb (valid_pointers v) = false.
Proof.
  intros [->|(la & -> & <-)]; [auto|]. rewrite map_length, Nat.eqb_refl, valid_some. cbn. rewrite !andb_false_r. auto.
Qed.
Lemma make_handle_ok name t act jnt : sound_side (num_actuators A t) act -> sound_side (num_joints A t) jnt ->
  (exists q, both_ways q /\ side q act <> []) ->
  make_handle A name (Some t) act jnt = Some (mkHandle A name t act jnt).
Proof.
  intros HA HJ (q & HB & HN). unfold make_handle.
  destruct (sound_checks _ (d_position act) (HA Position)) as (-> & -> & _).
  destruct (sound_checks _ (d_velocity act) (HA Velocity)) as (-> & -> & _).
  destruct (sound_checks _ (d_effort act) (HA Effort)) as (-> & -> & _).
  destruct (sound_checks _ (d_absolute_position act) (HA AbsolutePosition)) as (-> & _ & ->).
  destruct (sound_checks _ (d_torque_sensor act) (HA TorqueSensor)) as (_ & _ & ->).
  destruct (sound_checks _ (d_position jnt) (HJ Position)) as (-> & -> & _).
  destruct (sound_checks _ (d_velocity jnt) (HJ Velocity)) as (-> & -> & _).
  destruct (sound_checks _ (d_effort jnt) (HJ Effort)) as (-> & -> & _).
  destruct (sound_checks _ (d_absolute_position jnt) (HJ AbsolutePosition)) as (-> & _ & ->).
  destruct (sound_checks _ (d_torque_sensor jnt) (HJ TorqueSensor)) as (-> & _ & ->).
  replace (empty (d_position act) && empty (d_velocity act) && empty (d_effort act) &&
           empty (d_position jnt) && empty (d_velocity jnt) && empty (d_effort jnt)) with false; [reflexivity|].
  symmetry. destruct HB as [->|[->| ->]]; cbn [side] in HN.
  - destruct (d_position act); [easy | reflexivity].
  - destruct (d_velocity act); [easy|]. cbn. now rewrite andb_false_r.
  - destruct (d_effort act); [easy|]. cbn. now rewrite andb_false_r.
Qed.

(** A handle that connects what its description says was made by the constructor and can be propagated. *)
Lemma if_all_sound {T} (f : T -> option addr) xs v n : List.length xs = n -> if_all f xs v ->
  v = [] \/ exists la, v = map Some la /\ List.length la = n.
Proof.
  intros L (H1 & H2).
  assert (D : Forall (fun x => f x <> None) xs \/ ~ Forall (fun x => f x <> None) xs).
  { pose proof (all_some_spec f xs) as S. destruct (all_some f xs); [left; now apply S|].
    right. intros K. apply S in K. discriminate. }
  destruct D as [F|F]; [|auto]. right. rewrite (H1 F). clear H1 H2. subst n.
  induction xs as [|x xs IH]; [exists []; auto|]. inversion F; subst. destruct (f x) as [a|] eqn:E; [|congruence].
  destruct (IH H2) as (la & E' & L). exists (a :: la). cbn. rewrite E, E', L. auto.
Qed.
Lemma all_sound {T} (f : T -> option addr) xs : Forall (fun x => f x <> None) xs -> exists la, map f xs = map Some la /\ List.length la = List.length xs.
Proof.
  induction 1 as [|x xs N F (la & E & L)]; [exists []; auto|]. destruct (f x) as [a|] eqn:G; [|congruence].
  exists (a :: la). cbn. rewrite G, E, L. auto.
Qed.

Lemma connects_made K i l h : connects A K i l h ->
  make_handle A (h_name A h) (Some (h_trans A h)) (h_act A h) (h_jnt A h) = Some h /\ needed A K h /\ constructed A (h_trans A h).
Proof.
  intros (HN & HT & HC). apply described_iff in HT. pose proof (loaded_dims A i _ HT) as (DA & DJ). pose proof (loaded_constructed A i _ HT) as CT.
  destruct (TransHandle.positive A (h_trans A h)) as (PA & PJ).
  assert (EH : h = mkHandle A (h_name A h) (h_trans A h) (h_act A h) (h_jnt A h)) by (destruct h; reflexivity).
  assert (POS : forall {T U} (f : T -> U) (xs : list T), List.length xs <> 0 -> map f xs <> []).
  { intros T U f [|x xs] L; [now destruct L | discriminate]. }
  destruct (commands K) as [k|] eqn:EK.
  - destruct HC as (ma & acts & mj & jnts & ms & E1 & E2 & E3 & E4 & _ & _ & S1 & S2 & S3).
    apply entries_length in E2, E4. rewrite map_length in E2, E4. rewrite DA in E2. rewrite DJ in E4.
    assert (SA : sound_side (num_actuators A (h_trans A h)) (h_act A h)).
    { intros q. assert ({q = quantity_of k} + {q <> quantity_of k}) as [->|N] by decide equality.
      - right. eauto.
      - left. now apply S3. }
    assert (SJ : sound_side (num_joints A (h_trans A h)) (h_jnt A h)).
    { intros q. assert ({q = quantity_of k} + {q <> quantity_of k}) as [->|N] by decide equality.
      - right. rewrite S2. exists (map jc_cmd jnts). rewrite map_map, map_length. auto.
      - left. now apply S3. }
    assert (NA : side (quantity_of k) (h_act A h) <> []) by (rewrite S1; apply POS; congruence).
    assert (NJ : side (quantity_of k) (h_jnt A h) <> []) by (rewrite S2; apply POS; congruence).
    split; [|split; [|exact CT]].
    + rewrite EH at 5. apply make_handle_ok; auto. exists (quantity_of k). split; [|exact NA]. destruct k; unfold both_ways; cbn; auto.
    + split; [|destruct K; cbn; try discriminate EK; intros [H|[]]; discriminate].
      intros q Hq. assert (q = quantity_of k) as ->; [|auto]. destruct K; cbn in EK, Hq; try discriminate EK; injection EK as <-; destruct Hq as [<-|[]]; reflexivity.
  - destruct HC as (ma & acts & mj & jnts & E1 & E2 & E3 & E4 & S1 & S2 & S3 & S4 & S5 & S6 & S7 & S8 & S9 & S10 & S11 & S12).
    apply entries_length in E2, E4. rewrite map_length in E2, E4. rewrite DA in E2. rewrite DJ in E4.
    assert (SA : sound_side (num_actuators A (h_trans A h)) (h_act A h)).
    { intros [| | | |].
      - right. rewrite S1. exists (map as_pos acts). rewrite map_map, map_length. auto.
      - right. rewrite S3. exists (map as_vel acts). rewrite map_map, map_length. auto.
      - right. rewrite S5. exists (map as_eff acts). rewrite map_map, map_length. auto.
      - exact (if_all_sound _ _ _ _ E2 S7).
      - exact (if_all_sound _ _ _ _ E2 S10). }
    assert (SJ : sound_side (num_joints A (h_trans A h)) (h_jnt A h)).
    { intros [| | | |]; right.
      - rewrite S2. exists (map js_pos jnts). rewrite map_map, map_length. auto.
      - rewrite S4. exists (map js_vel jnts). rewrite map_map, map_length. auto.
      - rewrite S6. exists (map js_eff jnts). rewrite map_map, map_length. auto.
      - rewrite S9. rewrite <- E4. now apply all_sound.
      - rewrite S12. rewrite <- E4. now apply all_sound. }
    split; [|split; [|exact CT]].
    + rewrite EH at 5. apply make_handle_ok; auto. exists Position. split; [left; reflexivity|]. rewrite S1. apply POS. congruence.
    + split.
      * assert (B3 : forall q, both_ways q -> side q (h_act A h) <> [] /\ side q (h_jnt A h) <> []).
        { intros q [->|[->| ->]]; [rewrite S1, S2 | rewrite S3, S4 | rewrite S5, S6]; split; apply POS; congruence. }
        intros q Hq. destruct K; try discriminate EK; cbn [quantities] in Hq.
        -- apply in_app_or in Hq. destruct Hq as [Hq|Hq].
           ++ apply B3. cbn in Hq. unfold both_ways. intuition auto.
           ++ apply in_app_or in Hq. destruct Hq as [Hq|Hq].
              ** destruct (d_absolute_position (h_act A h)) eqn:Z; [easy|]. destruct Hq as [<-|[]]. cbn [side]. split; [congruence|].
                 change (side AbsolutePosition (h_jnt A h) <> []). rewrite S9. apply POS. congruence.
              ** destruct (d_torque_sensor (h_act A h)) eqn:Z; [easy|]. destruct Hq as [<-|[]]. cbn [side]. split; [congruence|].
                 change (side TorqueSensor (h_jnt A h) <> []). rewrite S12. apply POS. congruence.
        -- apply B3. cbn in Hq. unfold both_ways. intuition auto.
      * intros Hq. destruct (SA TorqueSensor) as [Z|(la & Z & L)]; cbn [side] in Z.
        -- destruct K; try discriminate EK; cbn [quantities] in Hq.
           ++ apply in_app_or in Hq. destruct Hq as [Hq|Hq]; [cbn in Hq; intuition discriminate|].
              apply in_app_or in Hq. destruct Hq as [Hq|Hq]; [destruct (empty _) in Hq; cbn in Hq; intuition discriminate|].
              rewrite Z in Hq. destruct Hq.
           ++ cbn in Hq. intuition discriminate.
        -- rewrite Z, map_length. exact L.
Qed.

Lemma connects_ext K i l l' h : ext l l' -> connects A K i l h -> connects A K i l' h.
Proof.
  intros X (HN & HT & HC). split; [exact HN|]. split; [exact HT|].
  destruct (commands K) as [k|].
  - destruct HC as (ma & acts & mj & jnts & ms & E1 & E2 & E3 & E4 & E5 & E6 & R).
    destruct (ext_jc _ _ X k _ E3) as (mj' & E3' & K3). destruct (ext_js _ _ X _ E5) as (ms' & E5' & K5).
    exists ma, acts, mj', jnts, ms'. rewrite (ext_ac _ _ X). repeat split; eauto using entries_keeps; apply R; auto.
  - destruct HC as (ma & acts & mj & jnts & E1 & E2 & E3 & E4 & R).
    destruct (ext_js _ _ X _ E3) as (mj' & E3' & K3).
    exists ma, acts, mj', jnts. rewrite (ext_as _ _ X). split; [exact E1|]. split; [exact E2|]. split; [exact E3'|].
    split; [eapply entries_keeps; eauto | exact R].
Qed.

End Load.
